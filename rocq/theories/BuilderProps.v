(** C82: path segment objects and the methods that build them. *)
From Coq Require Import QArith Lia.
From Verif Require Import PyBase PyText FormatModel MatrixModel PathModel PathTextModel PathTextSpec PathTextProofs PathTextProps BuilderModel BuilderSpec.
#[local] Open Scope N_scope.

Definition n_ (x : Q) : arg := mkA (Ok x) (Err TypeError).
Definition i_ (z : Z) : arg := mkA (Ok (inject_Z z)) (Ok z).
Definition bad : arg := mkA (Err ValueError) (Err ValueError).

(** ** Setting *)
Lemma floats_ok l v : floats l = Ok v <-> Forall2 num l v.
Proof.
  revert v. induction l as [|a l IH]; intros v; cbn [floats].
  - split; [intros [= <-]; constructor|]. intros H. now inversion H.
  - destruct (as_float a) as [x|e] eqn:E; cbn [bind].
    + destruct (floats l) as [r|e]; cbn [bind].
      * split; [intros [= <-]; constructor; [exact E|now apply IH]|]. intros H. inversion H as [|? y ? r' Hx Hr]; subst. unfold num in Hx. rewrite E in Hx. injection Hx as <-. apply IH in Hr. congruence.
      * split; [discriminate|]. intros H. inversion H as [|? y ? r' Hx Hr]; subst. apply IH in Hr. discriminate.
    + split; [discriminate|]. intros H. inversion H as [|? y ? r' Hx Hr]; subst. unfold num in Hx. congruence.
Qed.
(* a successful setter makes the object of its command, whatever was there before *)
Theorem c82_set o r s g : builds r s g -> exists o', set o r s = (o', None) /\ stands o' g.
Proof.
  intros H. destruct H; unfold num, flag in *; cbn [set floats]; unfold int_value; repeat match goal with H : _ = Ok _ |- _ => rewrite H; clear H end; cbn [bind app assign]; eexists; (split; [reflexivity|]); destruct r; eexists; repeat split.
Qed.
Print Assumptions c82_set.
Ltac inv_all := repeat match goal with H : Forall2 num (_ :: _) _ |- _ => inversion H; subst; clear H | H : Forall2 num [] _ |- _ => inversion H; subst; clear H end.
(* it succeeds exactly when all arguments are numbers *)
Theorem c82_accepts o r s : snd (set o r s) = None <-> exists g, builds r s g.
Proof.
  split.
  - assert (A : forall u l (v : result (list Q)), snd (assign o r u l v) = None -> exists x, v = Ok x) by (intros u l [x|e]; [eauto|discriminate]).
    destruct s; cbn [set]; intros H; apply A in H; destruct H as (v & H).
    all: try (apply floats_ok in H; inv_all; eexists; constructor; eassumption).
    destruct (floats [rx; ry; rot]) as [a|] eqn:E1; [|discriminate]. cbn [bind] in H. unfold int_value in H.
    destruct (as_int large) as [f|] eqn:E2; [|discriminate]. cbn [bind] in H. destruct (as_int sweep) as [f'|] eqn:E3; [|discriminate]. cbn [bind] in H.
    destruct (floats [x; y]) as [e|] eqn:E4; [|discriminate]. apply floats_ok in E1, E4. inv_all. eexists. constructor; eassumption.
  - intros (g & B). destruct (c82_set o r s g B) as (o' & E & _). now rewrite E.
Qed.
Print Assumptions c82_accepts.
(* so that after any history, failures included, a success alone decides what is there *)
Theorem c82_last o h r s g : builds r s g -> stands (sets o (h ++ [(r, s)])) g.
Proof.
  intros B. unfold sets. rewrite fold_left_app. cbn [fold_left fst snd]. destruct (c82_set (fold_left (fun o p => fst (set o (fst p) (snd p))) h o) r s g B) as (o' & E & St). now rewrite E.
Qed.
Print Assumptions c82_last.
Example c82_set_case : builds true (Arc (n_ 5) (n_ 6) (n_ 30) (i_ 0) (i_ 1) (n_ (-1)) (n_ 4)) (SA true 5 6 30 (inject_Z 0) (inject_Z 1) (P (-1) 4)) /\
  tostring (sets (mkO None []) [(false, Lineto (n_ 1) (n_ 2)); (false, Curveto bad bad bad bad bad bad); (true, Arc (n_ 5) (n_ 6) (n_ 30) (i_ 0) (i_ 1) (n_ (-1)) (n_ 4))]) = Ok (lit "a5,6 30 0 1 -1,4").
Proof. split; [constructor; reflexivity|]. vm_compute. reflexivity. Qed.

(* a failing setter has already changed the type: the values stay *)
Theorem c82_failed o r s e o' : set o r s = (o', Some e) -> o_type o' = Some [setter_letter r s] /\ o_values o' = o_values o.
Proof.
  assert (A : forall u l (v : result (list Q)), assign o r u l v = (o', Some e) -> o_type o' = Some (if r then l else u) /\ o_values o' = o_values o) by (intros u l [x|x] H; [discriminate|injection H as <- _; split; reflexivity]).
  destruct s; cbn [set]; intros H; apply A in H; destruct H as [H1 H2]; (split; [|exact H2]); rewrite H1; destruct r; reflexivity.
Qed.
Print Assumptions c82_failed.
(* a refused command should change nothing; it leaves an object that counts as valid
   and whose text is read as no segment at all *)
Theorem c82_refused_refuted : ~ (forall o r s e o', set o r s = (o', Some e) -> o' = o) /\
  exists o r s e o' t, set o r s = (o', Some e) /\ stands o (SL false (P 1 2)) /\ isvalid o' = true /\ tostring o' = Ok t /\ t = lit "C1,2" /\ path_parse t = [].
Proof.
  split.
  - intros H. specialize (H (mkO (Some (lit "L")) [1%Q; 2%Q]) false (Vertical bad) ValueError (mkO (Some (lit "V")) [1%Q; 2%Q]) eq_refl). discriminate H.
  - exists (mkO (Some (lit "L")) [1%Q; 2%Q]), false, (Curveto bad bad bad bad bad bad), ValueError. eexists _, _. split; [reflexivity|]. split; [eexists; repeat split|]. repeat split; vm_compute; reflexivity.
Qed.
Print Assumptions c82_refused_refuted.

(** ** Reading: an object that stands for a segment behaves as the segment *)
Theorem c82_reads o g : stands o g -> complete g = true ->
  isvalid o = true /\ isabsolute o = Some (negb (PathModel.isrelative g)) /\ isrelative o = Some (PathModel.isrelative g) /\
  seg_end o = Ok [fst (PathModel.seg_end g); snd (PathModel.seg_end g)] /\
  (forall b, get_bearing o b = Ok (PathModel.get_bearing g b)) /\
  tostring o = seg_tostring g.
Proof.
  intros (c & L & T & V) C. destruct o as [ty va]. cbn [o_type o_values] in T, V. subst ty va. destruct g; try discriminate C; try discriminate L; injection L as <-; destruct rel; repeat split.
Qed.
Print Assumptions c82_reads.
(* and the texts of built segments are read back *)
Theorem c82_text l : Forall (fun p => exists r s, builds r s (snd p) /\ exists o h, fst p = sets o (h ++ [(r, s)])) l ->
  exists t, path_tostring (map snd l) = Ok t /\ Forall2 written (map snd l) (path_parse t) /\
  Forall (fun p => tostring (fst p) = seg_tostring (snd p)) l.
Proof.
  intros H.
  assert (K : Forall (fun p : obj * seg => complete (snd p) = true /\ valid (snd p) = true /\ (forall r, snd p <> SZ r) /\ tostring (fst p) = seg_tostring (snd p)) l).
  { eapply Forall_impl; [|exact H]. intros [o g] (r & s & B & o0 & h & E). cbn [fst snd] in *. subst o. pose proof (c82_last o0 h r s g B) as St.
    assert (C : complete g = true) by now destruct B. split; [exact C|]. split; [now destruct B|]. split; [intros r'; destruct B; discriminate|]. now apply (c82_reads _ g St C). }
  assert (K1 : forallb complete (map snd l) = true) by (apply forallb_forall; intros g I; apply in_map_iff in I; destruct I as (p & <- & I); rewrite Forall_forall in K; now apply K).
  assert (K2 : filter valid (map snd l) = map snd l).
  { clear - K. induction K as [|[o g] l (_ & V & _) _ IH]; [reflexivity|]. cbn [map snd filter] in *. now rewrite V, IH. }
  assert (K3 : no_double_close (map snd l) = true).
  { clear - K. induction K as [|[o g] l (_ & _ & Z & _) _ IH]; [reflexivity|]. cbn [map snd no_double_close] in *. destruct g; try exact IH. now elim (Z rel). }
  destruct (c17_roundtrip_partial (map snd l) K1 K3) as (t & E & W). rewrite K2 in W. exists t. split; [exact E|]. split; [exact W|].
  eapply Forall_impl; [|exact K]. intros p (_ & _ & _ & X). exact X.
Qed.
Print Assumptions c82_text.
Example c82_text_case :
  let l := [(sets (mkO None []) [(false, Moveto (n_ 1) (n_ 2))], SM false (P 1 2)); (sets (mkO None []) [(true, Vertical (n_ (1#3)))], SV true (1#3))] in
  Forall (fun p => exists r s, builds r s (snd p) /\ exists o h, fst p = sets o (h ++ [(r, s)])) l /\ path_tostring (map snd l) = Ok (lit "M1,2 v0.333333").
Proof.
  split; [|vm_compute; reflexivity]. repeat constructor; cbn [fst snd].
  - exists false, (Moveto (n_ 1) (n_ 2)). split; [now constructor|]. now exists (mkO None []), [].
  - exists true, (Vertical (n_ (1#3))). split; [now constructor|]. now exists (mkO None []), [].
Qed.

(** ** Objects of any type and values *)
Lemma starts_spec t s : starts t s = true <-> exists b, s = t ++ b.
Proof.
  revert s. induction t as [|x t IH]; intros s; cbn [starts app].
  - split; [eauto|reflexivity].
  - destruct s as [|y s]; [split; [discriminate|intros (b & E); discriminate E]|]. rewrite andb_true_iff, N.eqb_eq, IH. split.
    + intros [-> (b & ->)]. eauto.
    + intros (b & E). injection E as -> ->. eauto.
Qed.
Lemma isin_spec t s : isin t s = true <-> exists a b, s = a ++ t ++ b.
Proof.
  induction s as [|y s IH]; cbn [isin]; rewrite orb_true_iff, starts_spec.
  - split; [intros [(b & E)|E]; [exists [], b; exact E|discriminate]|]. intros (a & b & E). left. destruct a; [eauto|discriminate E].
  - rewrite IH. split.
    + intros [(b & E)|(a & b & E)]; [exists [], b; exact E|]. exists (y :: a), b. now rewrite E.
    + intros ([|z a] & b & E); [left; eauto|]. right. injection E as <- E. eauto.
Qed.
(* isvalid asks for a letter of path data, and values unless it is a closepath *)
Theorem c82_valid o c : o_type o = Some [c] -> isvalid o = true <-> (exists k r, command_of c = Some (k, r) /\ (k = KZ \/ o_values o <> [])).
Proof.
  intros T. unfold isvalid. rewrite T.
  assert (Z1 : forall s, isin [c] s = existsb (N.eqb c) s) by (induction s as [|y s IH]; [reflexivity|]; cbn [isin starts existsb]; now rewrite IH, andb_true_r).
  rewrite !Z1. assert (V : negb (Nat.eqb (length (o_values o)) 0) = true <-> o_values o <> []) by (destruct (o_values o); cbn; intuition congruence).
  rewrite orb_true_iff, andb_true_iff, V, !existsb_exists. split.
  - intros [(x & I & E)|[(x & I & E) N]]; apply N.eqb_eq in E; subst x.
    + cbn in I. destruct I as [<- |[<- |[]]]; eexists _, _; (split; [vm_compute; reflexivity|]); now left.
    + cbn in I. repeat (destruct I as [<- |I]; [eexists _, _; (split; [vm_compute; reflexivity|]); now right|]). destruct I.
  - intros (k & r & E & H). unfold command_of in E.
    assert (I : In c segment_types /\ (k = KZ -> In c (lit "Zz"))).
    { destruct (find _ kinds) as [k1|] eqn:F.
      - injection E as -> <-. apply find_some in F. destruct F as [_ F]. apply N.eqb_eq in F. subst c. destruct k; split; vm_compute; intuition congruence.
      - destruct (find (fun k => c =? code k + 32) kinds) as [k1|] eqn:F2; [|discriminate]. injection E as -> <-. apply find_some in F2. destruct F2 as [_ F2]. apply N.eqb_eq in F2. subst c. destruct k; split; vm_compute; intuition congruence. }
    destruct I as [I1 I2]. destruct H as [->|N]; [left; exists c; split; [now apply I2|apply N.eqb_refl]|]. right. split; [exists c; split; [exact I1|apply N.eqb_refl]|exact N].
Qed.
Print Assumptions c82_valid.
(* tostring of a one-letter object raises for an arc with one or two values only *)
Theorem c82_text_total o c : o_type o = Some [c] ->
  (forall e, tostring o = Err e <-> e = IndexError /\ (c = 65 \/ c = 97) /\ (length (o_values o) = 1 \/ length (o_values o) = 2)%nat).
Proof.
  intros T e. unfold tostring. destruct (isvalid o) eqn:Va; cbn [negb].
  2:{ split; [discriminate|]. intros (_ & Hc & Hl). unfold isvalid in Va. rewrite T in Va. destruct Hc as [-> | ->], (o_values o) as [|? [|? [|]]]; cbn in Hl; try lia; vm_compute in Va; discriminate. }
  rewrite T. assert (Z1 : forall s, isin [c] s = existsb (N.eqb c) s) by (induction s as [|y s IH]; [reflexivity|]; cbn [isin starts existsb]; now rewrite IH, andb_true_r).
  rewrite !Z1. destruct (existsb (N.eqb c) (lit "Aa")) eqn:A.
  - apply existsb_exists in A. destruct A as (x & I & E). apply N.eqb_eq in E. subst x.
    assert (Hc : c = 65 \/ c = 97) by (cbn in I; intuition). unfold format_number_sequence. destruct (o_values o) as [|v1 [|v2 r]]; cbn [map arc_words bind length].
    + unfold isvalid in Va. rewrite T in Va. destruct (o_values o); [|]; destruct Hc as [-> | ->]; cbn [length] in *; split; try discriminate; intros (_ & _ & [?|?]); discriminate.
    + split; [intros [= <-]; tauto|]. intros (-> & _). reflexivity.
    + destruct (rev (join [44] [format_number precision v1; format_number precision v2] :: map (format_number precision) r)) as [|a [|b l]] eqn:Er; cbn [bind].
      * apply (f_equal (@length text)) in Er. rewrite rev_length in Er. discriminate Er.
      * apply (f_equal (@length text)) in Er. rewrite rev_length in Er. cbn [length] in Er. rewrite map_length in Er. split; [intros [= <-]; split; [reflexivity|]; split; [exact Hc|]; lia|]. intros (-> & _). reflexivity.
      * apply (f_equal (@length text)) in Er. rewrite rev_length in Er. cbn [length] in Er. rewrite map_length in Er. split; [discriminate|]. intros (_ & _ & Hl). exfalso. lia.
  - assert (Hc : ~ (c = 65 \/ c = 97)) by (intros [-> | ->]; discriminate A).
    assert (K : In c segment_types). { apply (c82_valid o c T) in Va. destruct Va as (k & r & E & _). unfold command_of in E. destruct (find _ kinds) as [k1|] eqn:F.
      - apply find_some in F. destruct F as [_ F]. apply N.eqb_eq in F. subst c. destruct k1; vm_compute; tauto.
      - destruct (find (fun k => c =? code k + 32) kinds) as [k1|] eqn:F2; [|discriminate]. apply find_some in F2. destruct F2 as [_ F2]. apply N.eqb_eq in F2. subst c. destruct k1; vm_compute; tauto. }
    split; [|tauto]. clear Va T Z1. cbn in K. repeat (destruct K as [<- |K]; [vm_compute in A; first [discriminate A|vm_compute; discriminate]|]). destruct K.
Qed.
Print Assumptions c82_text_total.
(* other types: the empty type counts as a closepath, two letters next to each other
   in the list of types as a type *)
Theorem c82_types_refuted :
  ~ (forall o, isvalid o = true -> exists t, tostring o = Ok t) /\
  ~ (forall o e, isvalid o = true -> seg_end o = Ok e -> length e = 2%nat) /\
  ~ (forall o b, exists x, get_bearing o b = Ok x) /\
  ~ (forall o, o_type o = Some [] -> isvalid o = false).
Proof.
  split; [|split; [|split]]; intros H.
  - destruct (H (mkO (Some (lit "aB")) [1%Q]) eq_refl) as (t & E). discriminate E.
  - discriminate (H (mkO (Some (lit "L")) [1%Q]) _ eq_refl eq_refl).
  - destruct (H (mkO (Some []) []) 0%Q) as (x & E). discriminate E.
  - discriminate (H (mkO (Some []) []) eq_refl).
Qed.
Print Assumptions c82_types_refuted.
Example c82_valid_case : isvalid (mkO (Some (lit "z")) []) = true /\ isvalid (mkO (Some (lit "R")) [1%Q]) = false /\ isvalid (mkO (Some (lit "q")) []) = false /\
  tostring (mkO (Some (lit "A")) [1%Q; 2%Q]) = Err IndexError /\ tostring (mkO (Some (lit "A")) [1%Q; 2%Q; 3%Q]) = Ok (lit "A1,2,3").
Proof. vm_compute. repeat split. Qed.

(** ** Equality: equal segments read alike *)
Theorem c82_equal a b : seg_eqb a b = true <-> o_type a = o_type b /\ Forall2 Qeq (o_values a) (o_values b).
Proof.
  unfold seg_eqb. rewrite !andb_true_iff, Nat.eqb_eq.
  assert (A : forall u v : list Q, (length u = length v /\ forallb (fun p => Qeq_bool (fst p) (snd p)) (combine u v) = true) <-> Forall2 Qeq u v).
  { induction u as [|x u IH]; intros [|y v]; cbn [length combine forallb fst snd].
    - split; [constructor|auto].
    - split; [intros [E _]; discriminate|intros H; inversion H].
    - split; [intros [E _]; discriminate|intros H; inversion H].
    - rewrite andb_true_iff, Qeq_bool_iff. specialize (IH v). split.
      + intros [E [E1 E2]]. constructor; [exact E1|]. apply IH. split; [lia|exact E2].
      + intros H. inversion H; subst. destruct (proj2 IH) as [E1 E2]; [assumption|]. auto. }
  specialize (A (o_values a) (o_values b)).
  assert (B : match o_type a, o_type b with None, None => true | Some x, Some y => text_eqb x y | _, _ => false end = true <-> o_type a = o_type b).
  { destruct (o_type a) as [x|], (o_type b) as [y|]; try (split; [discriminate|discriminate]); [|tauto]. destruct (text_eqb_spec x y) as [-> |N]; [tauto|]. split; [discriminate|intros [= E]; now elim N]. }
  rewrite B. tauto.
Qed.
Print Assumptions c82_equal.
Example c82_equal_case : seg_eqb (mkO (Some (lit "H")) [1%Q]) (mkO (Some (lit "H")) [2#2]) = true /\ seg_eqb (mkO (Some (lit "H")) [1%Q]) (mkO (Some (lit "h")) [1%Q]) = false.
Proof. vm_compute. now split. Qed.
