From Verif Require Import PyBase PyText PySplit PyDict MediaQueryModel MediaQuerySpec.
From Coq Require Import Lia Lqa.

Definition child_eval (m : mqenv) (c : tree) : result (bool * option text) :=
  match c with
  | TName n => eval_name m n
  | TCompare a b => do x <- eval_compare m a b; Ok (x, None)
  | TNot _ => match_node m true c
  | TBool _ _ _ => Err NotImplementedError_
  end.
Fixpoint mloop (m : mqenv) (op : bop) (no : bool) (res : bool) (media : option text) (l : list tree) : result (bool * option text) :=
  match l with
  | [] => Ok (res, media)
  | c :: l' =>
      do r <- child_eval m c;
      let media' := match media with Some _ => media | None => if fst r then snd r else None end in
      if stops op no (fst r) then Ok (fst r, media') else mloop m op no (fst r) media' l'
  end.
Lemma match_bool m no op ops cs : match_node m no (TBool op ops cs) =
  if mixed ops then Ok (false, None) else mloop m (default_op op) no true None cs.
Proof.
  cbn [match_node]. destruct (mixed ops); [reflexivity|].
  match goal with |- ?F true None cs = _ => set (f := F) end.
  assert (H : forall l res media, f res media l = mloop m (default_op op) no res media l); [|apply H].
  induction l as [|c l IH]; intros res media; [reflexivity|].
  cbn [mloop]. unfold child_eval at 1. destruct c; try reflexivity.
  - cbn [f]. destruct (eval_name m id) as [r|]; [|reflexivity]. cbn [bind]. destruct (stops _ _ _); [reflexivity|]. apply IH.
  - cbn [f]. destruct (eval_compare m left rights) as [r|]; [|reflexivity]. cbn [bind]. destruct (stops _ _ _); [reflexivity|]. apply IH.
  - unfold f. fold f. destruct (match_node m true (TNot c)) as [r|]; [|reflexivity]. cbn [bind]. destruct (stops _ _ _); [reflexivity|]. apply IH.
Qed.

(* what the loop computes: with 'and' (not under 'not') and 'or' (under
   'not') every condition, else some condition *)
Definition every (op : bop) (no : bool) : bool := match op with BAnd => negb no | BOr => no end.
Lemma mloop_spec m op no (f : tree -> bool) l : (forall c, In c l -> exists md, child_eval m c = Ok (f c, md)) ->
  forall res media, exists md, mloop m op no res media l =
    Ok (match l with [] => res | _ => if every op no then forallb f l else existsb f l end, md).
Proof.
  induction l as [|c l IH]; intros H res media; [eexists; reflexivity|].
  destruct (H c (or_introl eq_refl)) as [md E]. cbn [mloop]. rewrite E. cbn [bind fst snd].
  assert (H' : forall c, In c l -> exists md, child_eval m c = Ok (f c, md)) by (intros c' I; apply H; now right).
  destruct (IH H' (f c) (match media with Some _ => media | None => if f c then md else None end)) as [md' E'].
  destruct op, no; cbn [stops every negb forallb existsb]; destruct (f c) eqn:F; cbn [negb andb orb]; try (eexists; reflexivity);
    exists md'; rewrite E'; f_equal; f_equal; cbn [every negb]; destruct l; reflexivity.
Qed.

Section TreeInd.
  Context (P : tree -> Prop).
  Context (Hn : forall id, P (TName id)) (Hc : forall a b, P (TCompare a b)) (Ht : forall t, P t -> P (TNot t)).
  Context (Hb : forall op ops cs, Forall P cs -> P (TBool op ops cs)).
  Fixpoint tree_all (t : tree) : P t :=
    match t with
    | TName id => Hn id
    | TCompare a b => Hc a b
    | TNot c => Ht c (tree_all c)
    | TBool op ops cs => Hb op ops cs ((fix all l : Forall P l := match l with [] => Forall_nil P | c :: l' => Forall_cons c (tree_all c) (all l') end) cs)
    end.
End TreeInd.

Lemma tells_in m v op ops cs c : tells m v (TBool op ops cs) -> In c cs -> tells m v c.
Proof. cbn. induction cs as [|x cs IH]; [intros _ []|]. intros [A B] [<-|I]; auto. Qed.
Lemma plain_in op ops cs c : plain_nots (TBool op ops cs) -> In c cs -> plain_nots c.
Proof. cbn. induction cs as [|x cs IH]; [intros _ []|]. intros [A B] [<-|I]; auto. Qed.
Lemma grammatical_in op ops cs c : grammatical (TBool op ops cs) -> In c cs ->
  match c with TBool _ _ _ => False | TNot _ => grammatical c | _ => True end.
Proof. cbn [grammatical]. intros (_ & _ & H). induction cs as [|x cs IH]; [intros []|]. destruct H as [A B]. intros [E|I]; [rewrite <- E; exact A|exact (IH B I)]. Qed.
Lemma not_mixed ops : ~ (In BAnd ops /\ In BOr ops) -> mixed ops = false.
Proof.
  intros H. unfold mixed. apply Bool.andb_false_iff.
  destruct (existsb _ ops) eqn:A; [|now left]. right. destruct (existsb _ ops) eqn:B in |- *; [|reflexivity].
  exfalso. apply H. apply existsb_exists in A as ([|] & A1 & A2); [|discriminate]. apply existsb_exists in B as ([|] & B1 & B2); [discriminate|]. auto.
Qed.
Lemma is_mixed ops : In BAnd ops -> In BOr ops -> mixed ops = true.
Proof. intros A B. unfold mixed. apply Bool.andb_true_iff. split; apply existsb_exists; [exists BAnd|exists BOr]; auto. Qed.

Lemma match_truth m v t : tells m v t -> plain_nots t ->
  (grammatical t -> forall no, (no = false \/ match t with TBool _ _ cs => length cs = 1%nat | _ => True end) ->
     exists md, match_node m no t = Ok (truth v t, md)) /\
  (match t with TBool _ _ _ => False | TNot _ => grammatical t | _ => True end -> exists md, child_eval m t = Ok (truth v t, md)).
Proof.
  induction t as [id|a b|t IH|op ops cs IH] using tree_all; intros T N.
  - split; [intros []|]. intros _. exact T.
  - split; [intros []|]. intros _. cbn [child_eval]. cbn [tells] in T. rewrite T. eexists; reflexivity.
  - cbn [tells] in T. cbn [plain_nots] in N. destruct N as [N1 N2]. specialize (IH T N2) as [IH _].
    assert (M : grammatical (TNot t) -> exists md, match_node m true (TNot t) = Ok (truth v (TNot t), md)).
    { cbn [grammatical]. intros G. assert (G' : grammatical t) by (destruct t; try contradiction; assumption).
      destruct (IH G' true) as [md E]; [right; destruct t; auto|]. cbn [match_node]. rewrite E. cbn. eexists; reflexivity. }
    split; [|exact M]. intros G no _. destruct (M G) as [md E]. exists md. cbn [match_node] in *. exact E.
  - split; [|intros []]. intros G no Hno. rewrite match_bool.
    assert (NM : mixed ops = false) by (apply not_mixed; apply G). rewrite NM.
    destruct (mloop_spec m (default_op op) no (truth v) cs) with (res := true) (media := @None text) as [md E].
    { intros c I. rewrite Forall_forall in IH. apply (IH c I); [eapply tells_in; eassumption|eapply plain_in; eassumption|].
      eapply grammatical_in; eassumption. }
    exists md. rewrite E. f_equal. f_equal. assert (NE : cs <> []) by apply G.
    destruct cs as [|c [|c2 cs]]; [congruence| |].
    + cbn [forallb existsb]. cbn [truth]. destruct op as [[|]|]; cbn [forallb existsb]; destruct (every _ _); destruct (truth v c); reflexivity.
    + destruct Hno as [->|Hno]; [|discriminate]. destruct op as [[|]|]; reflexivity.
Qed.

(** under 'not' the connectives are exchanged *)
Lemma match_not m v op ops cs : (forall c, In c cs -> exists md, child_eval m c = Ok (truth v c, md)) -> cs <> [] ->
  ~ (In BAnd ops /\ In BOr ops) ->
  exists md, match_node m false (TNot (TBool op ops cs)) =
    Ok (negb (match op with Some BAnd => existsb (truth v) cs | _ => forallb (truth v) cs end), md).
Proof.
  intros H NE NM. cbn [match_node]. change (match_node m true (TBool op ops cs)) with (match_node m true (TBool op ops cs)).
  assert (E0 := match_bool m true op ops cs). cbn [match_node] in E0. rewrite E0. rewrite not_mixed by exact NM.
  destruct (mloop_spec m (default_op op) true (truth v) cs H true None) as [md E]. rewrite E. exists md. cbn [bind fst snd].
  f_equal. f_equal. f_equal. destruct cs; [congruence|]. destruct op as [[|]|]; reflexivity.
Qed.

(** lists *)
Lemma match_list_spec m (f : tree -> bool) l : (forall t, In t l -> exists md, match_node m false t = Ok (f t, md)) ->
  exists md, match_list m l = Ok (existsb f l, md).
Proof.
  induction l as [|t l IH]; intros H; [eexists; reflexivity|]. cbn [match_list existsb].
  destruct (H t (or_introl eq_refl)) as [md E]. rewrite E. cbn [bind fst snd]. destruct (f t); [eexists; reflexivity|].
  apply IH. intros t' I. apply H. now right.
Qed.

(** comparisons *)
Lemma numeric_not_discrete n : numeric n -> (true && negb (text_eqb n (lit "grid")) && mem n discrete_features) = false /\ text_eqb n (lit "aspect-ratio") = false.
Proof.
  intros [A B]. split; [|destruct (text_eqb_spec n (lit "aspect-ratio")); congruence].
  destruct (text_eqb_spec n (lit "grid")) as [->|G]; [reflexivity|]. cbn [negb andb]. apply mem_not_in. intros I. apply B.
  unfold discrete_features in I. cbn [In] in *. intuition congruence.
Qed.
Lemma sign_holds op a b c : (c = 0%Z <-> a == b) -> ((0 < c)%Z <-> b < a) -> ((c < 0)%Z <-> a < b) ->
  (Z.eqb c 0 && op_eq op || Z.ltb 0 c && op_gt op || Z.ltb c 0 && op_lt op) = holds op a b.
Proof.
  intros E G L. destruct (Z.eqb_spec c 0) as [e|e], (Z.ltb_spec 0 c) as [l|l], (Z.ltb_spec c 0) as [l0|l0]; try lia.
  - apply E in e. destruct op; cbn; destruct (Qeq_bool a b) eqn:X1; destruct (Qle_bool a b) eqn:X2; destruct (Qle_bool b a) eqn:X3; try reflexivity;
      rewrite ?Qle_bool_iff, ?Qeq_bool_iff, <- ?Bool.not_true_iff_false in *; rewrite ?Qle_bool_iff, ?Qeq_bool_iff in *; exfalso; lra.
  - apply G in l. destruct op; cbn; destruct (Qeq_bool a b) eqn:X1; destruct (Qle_bool a b) eqn:X2; destruct (Qle_bool b a) eqn:X3; try reflexivity;
      rewrite ?Qle_bool_iff, ?Qeq_bool_iff, <- ?Bool.not_true_iff_false in *; rewrite ?Qle_bool_iff, ?Qeq_bool_iff in *; exfalso; lra.
  - apply L in l0. destruct op; cbn; destruct (Qeq_bool a b) eqn:X1; destruct (Qle_bool a b) eqn:X2; destruct (Qle_bool b a) eqn:X3; try reflexivity;
      rewrite ?Qle_bool_iff, ?Qeq_bool_iff, <- ?Bool.not_true_iff_false in *; rewrite ?Qle_bool_iff, ?Qeq_bool_iff in *; exfalso; lra.
Qed.
Lemma compare_one_num m num l r a b ln rn name op : compares num (qcmp m) -> num l = Some a -> num r = Some b ->
  (ln || rn = true -> exists n, name = Some n /\ numeric n) ->
  compare_one m ln rn name l r op = Ok (if holds op a b then Some r else None).
Proof.
  intros C A B N. unfold compare_one. destruct (C l r a b A B) as (c & E & C1 & C2 & C3).
  destruct (ln || rn) eqn:L.
  - destruct (N eq_refl) as (n & -> & Nn). destruct (numeric_not_discrete n Nn) as [D1 D2]. rewrite D1, D2. cbn [andb]. rewrite E, (sign_holds op a b c C1 C2 C3). reflexivity.
  - cbn [andb]. rewrite E, (sign_holds op a b c C1 C2 C3). reflexivity.
Qed.
Lemma loop_chain m num : compares num (qcmp m) -> forall rights ln name l a, num l = Some a ->
  (ln = true -> exists n, name = Some n /\ numeric n) -> Forall (fun p => proper num m (fst p)) rights ->
  compare_loop m ln name l rights = Ok (chain num m (Some a) rights).
Proof.
  intros C. induction rights as [|[o op] rights IH]; intros ln name l a A L P; [reflexivity|].
  inversion P as [|? ? P1 P2]; subst. cbn [fst] in P1. cbn [compare_loop chain].
  destruct o as [t|n]; cbn [operand_num proper is_name] in *.
  - destruct (num (VText t)) as [b|] eqn:B; [|congruence].
    rewrite (compare_one_num m num l (VText t) a b ln false name op C A B) by (rewrite Bool.orb_false_r; exact L).
    cbn [bind]. destruct (holds op a b); [|reflexivity]. cbn [andb]. apply IH; [exact B|discriminate|exact P2].
  - destruct P1 as [P1 P3]. destruct (dget (qenv m) n) as [v|]; [|reflexivity].
    destruct (num v) as [b|] eqn:B; [|congruence].
    rewrite (compare_one_num m num l v a b ln true (Some n) op C A B) by (intros _; exists n; auto).
    cbn [bind]. destruct (holds op a b); [|reflexivity]. cbn [andb]. apply IH; [exact B|intros _; exists n; auto|exact P2].
Qed.
Lemma compare_chain m num left rights : compares num (qcmp m) -> proper num m left -> Forall (fun p => proper num m (fst p)) rights ->
  eval_compare m left rights = Ok (chain num m (operand_num num m left) rights).
Proof.
  intros C L R. unfold eval_compare. destruct left as [t|n]; cbn [operand_num proper] in *.
  - destruct (num (VText t)) as [a|] eqn:A; [|congruence]. apply loop_chain; auto. discriminate.
  - destruct L as [L1 L2]. destruct (dget (qenv m) n) as [v|]; [|now destruct rights]. destruct (num v) as [a|] eqn:A; [|congruence].
    apply loop_chain; auto. intros _. exists n; auto.
Qed.

(** plain features *)
Lemma plain_min n v : ~ In n discrete_features -> plain (lit "min-" ++ n) v = TCompare (OName n) [(ONum v, OpGe)].
Proof. intros H. unfold plain. change (skipn 4 (lit "min-" ++ n)) with n. rewrite (proj2 (mem_not_in n discrete_features) H). reflexivity. Qed.
Lemma plain_max n v : ~ In n discrete_features -> plain (lit "max-" ++ n) v = TCompare (OName n) [(ONum v, OpLe)].
Proof. intros H. unfold plain. change (skipn 4 (lit "max-" ++ n)) with n. rewrite (proj2 (mem_not_in n discrete_features) H). reflexivity. Qed.
Lemma plain_eq n v : has_prefix (lit "min-") n = false -> has_prefix (lit "max-") n = false -> plain n v = TCompare (OName n) [(ONum v, OpEq)].
Proof. intros A B. unfold plain. rewrite A, B. reflexivity. Qed.

(** discrete features *)
Lemma compare_discrete m n x op v : In n discrete_features -> n <> lit "grid" -> n <> lit "orientation" -> dget (qenv m) n = Some x ->
  eval_compare m (OName n) [(ONum v, op)] = Ok (op_eq op && value_eqb x (VText v)).
Proof.
  intros D G O E. unfold eval_compare. rewrite E. cbn [compare_loop is_name]. unfold compare_one. cbn [orb andb].
  destruct (text_eqb_spec n (lit "grid")); [congruence|]. cbn [negb andb]. rewrite (proj2 (mem_in n discrete_features) D).
  destruct (text_eqb_spec n (lit "orientation")); [congruence|]. cbn [bind fst snd]. destruct (op_eq op && value_eqb x (VText v)); reflexivity.
Qed.
Lemma has_dash_in t : has_dash t = true <-> In 45%N t.
Proof.
  unfold has_dash. rewrite existsb_exists. split; [intros (c & I & E); apply N.eqb_eq in E; now subst|].
  intros I. exists 45%N. split; [exact I|reflexivity].
Qed.
Lemma before_dash_split a : In 45%N a -> exists k, a = before_dash a ++ 45%N :: k /\ ~ In 45%N (before_dash a).
Proof.
  unfold before_dash. induction a as [|c a IH]; [intros []|]. cbn [takewhile]. intros I.
  destruct (N.eqb_spec 45 c) as [<-|Ne]; cbn [negb].
  - exists a. split; [reflexivity|intros []].
  - destruct I as [I|I]; [congruence|]. destruct (IH I) as (k & E & F). exists k. split; [cbn [app]; now rewrite <- E|].
    intros [X|X]; [congruence|contradiction].
Qed.
Lemma dash_unique a b k l : ~ In 45%N a -> ~ In 45%N b -> a ++ 45%N :: k = b ++ 45%N :: l -> a = b.
Proof.
  revert b. induction a as [|c a IH]; intros [|d b] A B E; [reflexivity| | |]; cbn [app] in E; injection E as E1 E2.
  - exfalso. apply B. left. congruence.
  - exfalso. apply A. left. congruence.
  - f_equal; [exact E1|]. apply (IH b); [intros I; apply A; now right|intros I; apply B; now right|exact E2].
Qed.
Lemma before_dash_eq a b : In 45%N a -> (before_dash a = b <-> no_dash b /\ exists k, a = b ++ 45%N :: k).
Proof.
  intros I. destruct (before_dash_split a I) as (k & E & F). split.
  - intros <-. split; [exact F|]. exists k. exact E.
  - intros (N & l & E'). apply (dash_unique _ _ k l F N). congruence.
Qed.
Lemma compare_orientation m a b : dget (qenv m) (lit "orientation") = Some (VText a) ->
  exists r, eval_compare m (OName (lit "orientation")) [(ONum b, OpEq)] = Ok r /\ (r = true <-> same_orientation a b).
Proof.
  intros E. unfold eval_compare. rewrite E. cbn [compare_loop is_name]. unfold compare_one. cbn [orb].
  change (negb (text_eqb (lit "orientation") (lit "grid"))) with true. change (mem (lit "orientation") discrete_features) with true.
  change (text_eqb (lit "orientation") (lit "orientation")) with true. cbn [andb orient op_eq].
  destruct (has_dash a) eqn:A, (has_dash b) eqn:B; cbn [andb negb bind fst snd value_eqb].
  - exists (text_eqb a b). split; [destruct (text_eqb a b); reflexivity|].
    apply has_dash_in in A, B. unfold same_orientation, no_dash. destruct (text_eqb_spec a b); intuition congruence.
  - exists (text_eqb (before_dash a) b). split; [destruct (text_eqb _ b); reflexivity|].
    assert (B' : ~ In 45%N b) by (rewrite <- has_dash_in; congruence). apply has_dash_in in A. unfold same_orientation.
    destruct (text_eqb_spec (before_dash a) b) as [H|H]; rewrite before_dash_eq in H by exact A; [tauto|].
    split; [discriminate|]. intros [->|[X|[X _]]]; [contradiction|contradiction|]. exfalso. now apply X.
  - exists (text_eqb a (before_dash b)). split; [destruct (text_eqb a _); reflexivity|].
    assert (A' : ~ In 45%N a) by (rewrite <- has_dash_in; congruence). apply has_dash_in in B. unfold same_orientation.
    destruct (text_eqb_spec a (before_dash b)) as [H|H]; [symmetry in H|assert (H' : before_dash b <> a) by congruence; clear H; rename H' into H];
      rewrite before_dash_eq in H by exact B; [tauto|].
    split; [discriminate|]. intros [->|[[X _]|X]]; [contradiction| |contradiction]. exfalso. now apply X.
  - exists (text_eqb a b). split; [destruct (text_eqb a b); reflexivity|].
    assert (A' : ~ In 45%N a) by (rewrite <- has_dash_in; congruence). assert (B' : ~ In 45%N b) by (rewrite <- has_dash_in; congruence).
    unfold same_orientation. destruct (text_eqb_spec a b) as [H|H]; [tauto|]. split; [discriminate|].
    intros [X|[[_ [k X]]|[_ [k X]]]]; [contradiction| |]; exfalso; subst; [apply A'|apply B']; apply in_or_app; right; now left.
Qed.

(** features without a value *)
Ltac consts := repeat match goal with
  | |- context [mem (lit ?s) ?l] => let b := eval vm_compute in (mem (lit s) l) in change (mem (lit s) l) with b
  | |- context [text_eqb (lit ?s) (lit ?u)] => let b := eval vm_compute in (text_eqb (lit s) (lit u)) in change (text_eqb (lit s) (lit u)) with b
  end.
Lemma eval_name_on m n v : ~ In n media_types -> dget (qenv m) n = Some v ->
  (match v with VText _ => ~ In n [lit "grid"; lit "color"; lit "color-index"; lit "monochrome"] | VInt _ => True end) ->
  exists b, eval_name m n = Ok (b, None) /\ (b = true <-> feature_on n v).
Proof.
  intros T G K. unfold eval_name. rewrite (proj2 (mem_not_in n media_types) T), G.
  destruct (mem n discrete_features) eqn:D.
  - apply mem_in in D. unfold discrete_features in D. cbn [In] in D.
    repeat (destruct D as [<-|D]; [clear -K; destruct v as [t|z]; unfold feature_on; consts; cbn [is_some negb orb value_eqb];
      first [ eexists; split; [reflexivity|]; first [tauto | apply Z.eqb_eq | destruct (text_eqb_spec t (lit "none")); cbn [negb]; intuition congruence]
            | exfalso; apply K; now left ]|]).
    destruct D.
  - assert (D' : mem n [lit "update"; lit "overflow-block"; lit "overflow-inline"; lit "pointer"; lit "hover"; lit "any-pointer"; lit "any-hover"] = false).
    { apply mem_not_in. apply mem_not_in in D. intros I. apply D. unfold discrete_features. cbn [In] in *. tauto. }
    assert (Gr : text_eqb n (lit "grid") = false) by (destruct (text_eqb_spec n (lit "grid")) as [->|]; [discriminate D|reflexivity]).
    unfold feature_on. rewrite D', Gr.
    assert (M : mem n [lit "color"; lit "color-index"; lit "monochrome"] = text_eqb n (lit "color") || text_eqb n (lit "color-index") || text_eqb n (lit "monochrome"))
      by (unfold mem; cbn [existsb]; rewrite Bool.orb_false_r, Bool.orb_assoc; reflexivity).
    destruct v as [t|z].
    + destruct (mem n [lit "color"; lit "color-index"; lit "monochrome"]) eqn:C; [|eexists; split; [reflexivity|tauto]].
      exfalso. apply mem_in in C. apply K. now right.
    + rewrite <- M. destruct (mem n [lit "color"; lit "color-index"; lit "monochrome"]); eexists; (split; [reflexivity|]); [apply Z.ltb_lt|tauto].
Qed.
Lemma eval_name_off m n : ~ In n media_types -> dget (qenv m) n = None -> eval_name m n = Ok (false, None).
Proof.
  intros T G. unfold eval_name. rewrite (proj2 (mem_not_in n media_types) T), G.
  destruct (mem n discrete_features), (mem n [lit "orientation"; lit "scan"; lit "color-gamut"]), (text_eqb n (lit "grid")),
    (mem n [lit "color"; lit "color-index"; lit "monochrome"]); reflexivity.
Qed.
Lemma eval_name_media m n t : In n media_types -> dget (qenv m) (lit "media") = Some (VText t) ->
  eval_name m n = Ok (text_eqb n (lit "all") || text_eqb t n, if text_eqb n (lit "all") || text_eqb t n then Some n else None).
Proof.
  intros T G. unfold eval_name. rewrite (proj2 (mem_in n media_types) T), G. cbn [value_eqb].
  destruct (text_eqb n (lit "all") || text_eqb t n); reflexivity.
Qed.

(** aspect-ratio *)
Lemma compare_ratio m x a b v op : dget (qenv m) (lit "aspect-ratio") = Some x -> qratio m x = Ok a -> qratio m (VText v) = Ok b ->
  eval_compare m (OName (lit "aspect-ratio")) [(ONum v, op)] =
  Ok (match op with OpEq => true | OpLt => Qle_bool a b | _ => holds op a b end).
Proof.
  intros E A B. unfold eval_compare. rewrite E. cbn [compare_loop is_name]. unfold compare_one. cbn [orb].
  change (mem (lit "aspect-ratio") discrete_features) with false. change (text_eqb (lit "aspect-ratio") (lit "aspect-ratio")) with true.
  rewrite !Bool.andb_false_r. cbn [andb]. rewrite A, B. cbn [bind]. unfold Qltb.
  destruct op; cbn [op_eq op_gt op_lt holds andb orb negb]; destruct (Qeq_bool a b) eqn:X1; destruct (Qle_bool a b) eqn:X2; destruct (Qle_bool b a) eqn:X3; try reflexivity;
      rewrite <- ?Bool.not_true_iff_false in *; rewrite ?Qle_bool_iff, ?Qeq_bool_iff in *; exfalso; lra.
Qed.
