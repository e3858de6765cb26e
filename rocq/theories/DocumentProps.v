(** C50: the child list of a document. *)
From Verif Require Import PyBase PyList DocumentModel DocumentSpec DocumentProofs.

(* the examples: 0 and 1 are elements, 2 to 8 comments, 9 an attribute *)
Definition kd_ex (n : nat) : kind := match n with 0 | 1 => KElement | 9 => KOther | _ => KMisc end%nat.
Definition d0 : doc := mkDoc None [[0]; [1]; [2]; [3]; [4]; [5]]%nat (fun _ => None).
Definition d1 : doc := fst (dstep kd_ex (fst (dstep kd_ex d0 (DAppend [ANode 0; ANode 2]))) (DPrepend [ANode 3; ANode 4]))%nat.
Lemma sane0 : sane kd_ex d0.
Proof. constructor; [cbn; repeat constructor; cbn; intuition discriminate|repeat constructor|discriminate]. Qed.
Lemma sane1 : sane kd_ex d1. Proof. apply step_sane, step_sane, sane0. Qed.
Example c50_d1 : children d1 = [3; 4; 0; 2]%nat. Proof. reflexivity. Qed.

(** After every history the document has no child, or exactly one element among
    its children, which is the document element; no child is there twice. *)
Theorem c50_one_root kd d ops : sane kd d -> let d' := drun kd d ops in
  NoDup (children d') /\ match d_root d' with None => children d' = [] | Some r => filter (is_element kd) (children d') = [r] end.
Proof.
  intros S d'. assert (S' : sane kd d') by now apply run_sane. split; [eapply children_nodup; exact S'|]. destruct (d_root d') as [r|] eqn:R; [now apply children_one|]. unfold children. now rewrite R.
Qed.
Print Assumptions c50_one_root.
Example c50_one_root_ex : sane kd_ex d0 /\ children (drun kd_ex d0 [DAppend [ANode 0; ANode 2; ANode 1; ANode 3]; DInsert 0 3; DRemove 0; DAppend [ANode 2]; DAppend [ANode 1; ANode 3]; DReplace 3 4; DReplace 1 0])%nat = [0; 2]%nat.
Proof. split; [apply sane0|reflexivity]. Qed.
(** Comments and processing instructions appended come last, in order; the others keep theirs. *)
Theorem c50_append kd d ns : sane kd d -> d_root d <> None -> Forall (misc kd) ns -> NoDup ns ->
  exists d', dstep kd d (DAppend (map ANode ns)) = (d', None) /\ d_root d' = d_root d /\ children d' = without ns (children d) ++ ns.
Proof.
  intros S R M D. destruct (d_root d) as [root|] eqn:E; [|congruence]. apply append_children; try assumption. intros l [=].
Qed.
Print Assumptions c50_append.
Example c50_append_ex : children (fst (dstep kd_ex d1 (DAppend [ANode 5; ANode 3])))%nat = [4; 0; 2; 5; 3]%nat. Proof. reflexivity. Qed.
(** Prepended they come first, in order.  Missing: the case that the first child is among them. *)
Theorem c50_prepend_partial kd d ns f : sane kd d -> d_root d <> None -> Forall (misc kd) ns -> NoDup ns -> hd_error (children d) = Some f -> ~ In f ns ->
  exists d', dstep kd d (DPrepend (map ANode ns)) = (d', None) /\ d_root d' = d_root d /\ children d' = ns ++ without ns (children d).
Proof.
  intros S R M D H NF. destruct (d_root d) as [root|] eqn:E; [|congruence]. destruct (children d) as [|x l] eqn:C; [discriminate|]. cbn in H. injection H as ->.
  destruct (prepend_children kd ns d root None f [] l S E M D NF C) as (d' & A & B & Q); [right; auto|intros n _ []|]. exists d'. split; [exact A|]. split; [exact B|]. rewrite Q. cbn [app without filter].
  destruct (existsb (Nat.eqb f) ns) eqn:Z; [apply (mem_in f ns) in Z; contradiction|]. reflexivity.
Qed.
Print Assumptions c50_prepend_partial.
Example c50_prepend_ex : children (fst (dstep kd_ex d1 (DPrepend [ANode 5; ANode 2])))%nat = [5; 2; 3; 4; 0]%nat. Proof. reflexivity. Qed.
Theorem c50_prepend_refuted : exists kd d ns d', sane kd d /\ Forall (misc kd) ns /\ NoDup ns /\ dstep kd d (DPrepend (map ANode ns)) = (d', None) /\ children d' <> ns ++ without ns (children d).
Proof.
  eexists kd_ex, d1, [5; 3; 2]%nat, _. split; [apply sane1|]. split; [repeat constructor|]. split; [repeat constructor; cbn; intuition discriminate|]. split; [vm_compute; reflexivity|]. vm_compute. discriminate.
Qed.
Print Assumptions c50_prepend_refuted.
(** insert puts a new node where the list of the children would have it; beyond the
    last child it fails, even at the end. *)
Theorem c50_insert kd d i n root : sane kd d -> d_root d = Some root -> kd n = KMisc -> ~ In n (children d) ->
  match norm_index (length (children d)) i with
  | Some _ => exists d', dstep kd d (DInsert i n) = (d', None) /\ d_root d' = Some root /\ children d' = list_insert (children d) i n
  | None => dstep kd d (DInsert i n) = (d, Some BadIndex)
  end.
Proof.
  intros S R K N. cbn [dstep]. unfold insert. rewrite R. destruct (Nat.eqb_spec n root) as [E|E]; [subst; destruct (children_root kd d root S R); contradiction|]. unfold list_get.
  destruct (norm_index (length (children d)) i) as [k|] eqn:X; [|reflexivity]. assert (L : (k < length (children d))%nat /\ clamp_index (length (children d)) i = k).
  { revert X. unfold norm_index, clamp_index. set (j := (if (i <? 0)%Z then _ else _)). destruct (Z.leb_spec 0 j); [|discriminate]. destruct (Z.ltb_spec j (Z.of_nat (length (children d)))); [|discriminate]. cbn [andb]. intros [= <-].
    destruct (Z.ltb_spec j 0); [lia|]. destruct (Z.ltb_spec (Z.of_nat (length (children d))) j); [lia|]. split; [lia|reflexivity]. }
  destruct L as [L Q]. destruct (nth_error (children d) k) as [r|] eqn:Y; [|apply nth_error_None in Y; lia].
  destruct (nth_error_split (children d) k Y) as (a & b & C & LA). destruct (add_previous_mid kd d n root r a b S R K C) as (d' & A & _ & B & Z); [intros ->; apply N; rewrite C; apply in_or_app; right; now left|].
  exists d'. split; [exact A|]. split; [exact B|]. rewrite Z. unfold list_insert. rewrite Q, C. rewrite <- LA. rewrite firstn_app, firstn_all, Nat.sub_diag, skipn_app, skipn_all, Nat.sub_diag. cbn [firstn skipn app]. rewrite app_nil_r.
  rewrite C in N. rewrite !drop_nin; [reflexivity| |]; intros I; apply N; apply in_or_app; [right; now right|now left].
Qed.
Print Assumptions c50_insert.
Example c50_insert_ex : children (fst (dstep kd_ex d1 (DInsert (-1) 5)))%nat = [3; 4; 0; 5; 2]%nat /\ snd (dstep kd_ex d1 (DInsert 4 5)) = Some BadIndex. Proof. split; reflexivity. Qed.
(** insert_before puts a node before the given child (one already there moves), last if none is given. *)
Theorem c50_insert_before kd d n c root a b : sane kd d -> d_root d = Some root -> kd n = KMisc -> children d = a ++ c :: b -> n <> c ->
  exists d', dstep kd d (DInsertBefore n (Some c)) = (d', None) /\ d_root d' = Some root /\ children d' = without [n] a ++ n :: c :: without [n] b.
Proof.
  intros S R K C N. cbn [dstep]. unfold insert_before, pre_insert. assert (M : mem c (children d) = true) by (apply mem_in; rewrite C; apply in_or_app; right; now left). rewrite M, K. cbn [negb].
  destruct (Nat.eqb_spec c n); [congruence|]. destruct (add_previous_mid kd d n root c a b S R K C N) as (d' & A & _ & B & Z). exists d'. split; [exact A|]. split; [exact B|]. rewrite Z.
  assert (W : forall l, drop n l = without [n] l) by (intros l; rewrite <- without_cons, without_nil; reflexivity). now rewrite !W.
Qed.
Print Assumptions c50_insert_before.
Example c50_insert_before_ex : children (fst (dstep kd_ex d1 (DInsertBefore 2 (Some 4))))%nat = [3; 2; 4; 0]%nat. Proof. reflexivity. Qed.
Theorem c50_insert_last kd d n : sane kd d -> d_root d <> None -> kd n = KMisc ->
  exists d', dstep kd d (DInsertBefore n None) = (d', None) /\ d_root d' = d_root d /\ children d' = without [n] (children d) ++ [n].
Proof.
  intros S R K. cbn [dstep]. unfold insert_before, pre_insert. rewrite K. apply (c50_append kd d [n] S R); repeat constructor; auto.
Qed.
Print Assumptions c50_insert_last.
(** A node put before itself keeps its place. *)
Theorem c50_insert_self kd d n root : sane kd d -> d_root d = Some root -> kd n = KMisc -> In n (children d) -> exists d', dstep kd d (DInsertBefore n (Some n)) = (d', None) /\ children d' = children d.
Proof.
  intros S R K I. cbn [dstep]. unfold insert_before, pre_insert. assert (M := proj2 (mem_in n (children d)) I). rewrite M, K, Nat.eqb_refl. cbn [negb].
  assert (G := child_group kd d n root S R I).
  rewrite G. assert (D := children_nodup kd d S). destruct (in_split n (children d) I) as (a & b & C). assert (NA : ~ In n (a ++ b)) by (rewrite C in D; now apply NoDup_remove_2 in D).
  assert (AF : after n (children d) = hd_error b). { rewrite C. assert (NA' : ~ In n a) by (intros Z; apply NA; apply in_or_app; now left). clear - NA'. induction a as [|x a IH]; cbn; [now rewrite Nat.eqb_refl|]. destruct (Nat.eqb_spec n x) as [E|]; [subst; destruct NA'; now left|]. apply IH. intros Z. apply NA'. now right. }
  rewrite AF. assert (DA : drop n a = a /\ drop n b = b) by (split; apply drop_nin; intros Z; apply NA; apply in_or_app; [now left|now right]). destruct DA as [DA DB]. destruct b as [|c b]; cbn [hd_error].
  - destruct (c50_append kd d [n] S ltac:(congruence)) as (d' & A & _ & B); [now constructor|repeat constructor; auto|]. exists d'. split; [exact A|]. rewrite B, C. unfold without. rewrite filter_app. cbn [filter existsb]. rewrite Nat.eqb_refl. cbn [orb negb]. rewrite app_nil_r.
    f_equal. rewrite <- DA at 2. unfold drop. apply filter_ext. intros x. rewrite orb_false_r, Nat.eqb_sym. reflexivity.
  - destruct (add_previous_mid kd d n root c (a ++ [n]) b S R K) as (d' & A & _ & _ & Z); [rewrite C, <- app_assoc; reflexivity|intros ->; apply NA; apply in_or_app; right; now left|]. exists d'. split; [exact A|]. rewrite Z, C, drop_app, DA.
    cbn [drop filter]. rewrite Nat.eqb_refl. cbn [negb]. rewrite app_nil_r. f_equal. f_equal. f_equal. apply drop_nin. intros Q. apply NA. apply in_or_app. right. now right.
Qed.
Print Assumptions c50_insert_self.
Example c50_insert_self_ex : children (fst (dstep kd_ex d1 (DInsertBefore 3 (Some 3))))%nat = [3; 4; 0; 2]%nat. Proof. reflexivity. Qed.
(** remove takes out that child alone, if it is not the document element. *)
Theorem c50_remove kd d n root : sane kd d -> d_root d = Some root -> n <> root -> In n (children d) ->
  exists d', dstep kd d (DRemove n) = (d', None) /\ d_root d' = Some root /\ children d' = without [n] (children d).
Proof.
  intros S R N I. destruct (remove_children kd d n root S R N I) as (d' & A & B & C). exists d'. split; [exact A|]. split; [exact B|]. rewrite C, <- without_cons, without_nil. reflexivity.
Qed.
Print Assumptions c50_remove.
Example c50_remove_ex : children (fst (dstep kd_ex d1 (DRemove 4)))%nat = [3; 0; 2]%nat. Proof. reflexivity. Qed.
(** A removed document element leaves an empty document: its siblings are not children any more ... *)
Theorem c50_remove_root kd d root : sane kd d -> d_root d = Some root -> exists d', dstep kd d (DRemove root) = (d', None) /\ d_root d' = None /\ children d' = [].
Proof.
  intros S R. cbn [dstep]. unfold remove, pre_remove. destruct (children_root kd d root S R) as [I _]. apply mem_in in I. rewrite I, R, Nat.eqb_refl. eexists. repeat split.
Qed.
Print Assumptions c50_remove_root.
(* ... so removing it does more than that *)
Theorem c50_remove_root_refuted : exists kd d r, sane kd d /\ d_root d = Some r /\ children (fst (dstep kd d (DRemove r))) <> without [r] (children d).
Proof. exists kd_ex, d1, 0%nat. split; [apply sane1|]. split; [reflexivity|]. vm_compute. discriminate. Qed.
Print Assumptions c50_remove_root_refuted.
(** replace puts a new comment or processing instruction in the place of another. *)
Theorem c50_replace_partial kd d old new root a b : sane kd d -> d_root d = Some root -> kd new = KMisc -> children d = a ++ old :: b -> old <> root -> ~ In new (children d) ->
  exists d', dstep kd d (DReplace old new) = (d', None) /\ d_root d' = Some root /\ children d' = a ++ new :: b.
Proof.
  intros S R K C N NI. cbn [dstep]. unfold replace, pre_insert, pre_remove. assert (M : mem old (children d) = true) by (apply mem_in; rewrite C; apply in_or_app; right; now left). rewrite M, K, R. cbn [negb].
  destruct (Nat.eqb_spec old root); [congruence|]. assert (ON : new <> old) by (intros ->; apply mem_in in M; contradiction).
  destruct (add_previous_mid kd d new root old a b S R K C ON) as (d1 & A1 & S1 & R1 & C1). rewrite A1. rewrite C in NI.
  rewrite !drop_nin in C1; [|intros I; apply NI; apply in_or_app; right; now right|intros I; apply NI; apply in_or_app; now left].
  destruct (remove_children kd d1 old root S1 R1 N) as (d2 & A2 & R2 & C2); [rewrite C1; apply in_or_app; right; right; now left|]. exists d2. split; [exact A2|]. split; [exact R2|]. rewrite C2, C1.
  assert (D := children_nodup kd d S). rewrite C in D. apply NoDup_remove_2 in D. rewrite drop_app. cbn [drop filter]. rewrite Nat.eqb_refl. destruct (Nat.eqb_spec old new); [congruence|]. cbn [negb].
  f_equal; [apply drop_nin; intros I; apply D; apply in_or_app; now left|]. f_equal. apply drop_nin. intros I. apply D. apply in_or_app. now right.
Qed.
Print Assumptions c50_replace_partial.
Example c50_replace_ex : children (fst (dstep kd_ex d1 (DReplace 4 5)))%nat = [3; 5; 0; 2]%nat. Proof. reflexivity. Qed.
(* a child replaced by itself is lost *)
Theorem c50_replace_self_refuted : exists kd d n, sane kd d /\ In n (children d) /\ snd (dstep kd d (DReplace n n)) = None /\ ~ In n (children (fst (dstep kd d (DReplace n n)))).
Proof. exists kd_ex, d1, 3%nat. split; [apply sane1|]. split; [now left|]. split; [reflexivity|]. vm_compute. intuition discriminate. Qed.
Print Assumptions c50_replace_self_refuted.
(* replacing the document element by a comment is refused after the element was taken out *)
Theorem c50_replace_root_refuted : exists kd d r n, sane kd d /\ d_root d = Some r /\ snd (dstep kd d (DReplace r n)) = Some Hierarchy /\ children (fst (dstep kd d (DReplace r n))) = [].
Proof. exists kd_ex, d1, 0%nat, 5%nat. split; [apply sane1|]. repeat split. Qed.
Print Assumptions c50_replace_root_refuted.
(* appending the document element, when it is not last, does not move it *)
Theorem c50_append_root_refuted : exists kd d r, sane kd d /\ d_root d = Some r /\ snd (dstep kd d (DAppend [ANode r])) = None /\ children (fst (dstep kd d (DAppend [ANode r]))) <> without [r] (children d) ++ [r].
Proof. exists kd_ex, d1, 0%nat. split; [apply sane1|]. repeat split. vm_compute. discriminate. Qed.
Print Assumptions c50_append_root_refuted.

(** ** Refusals *)
(** Text, attributes and second elements are refused, and a child reference that is no child. *)
Definition unfit (kd : nat -> kind) (d : doc) (x : arg) : Prop := match x with AStr => True | ANode n => kd n = KOther \/ (kd n = KElement /\ d_root d <> None /\ d_root d <> Some n) \/ (kd n = KMisc /\ d_root d = None) end.
Theorem c50_refused kd d x : unfit kd d x -> (exists e, snd (dstep kd d (DAppend [x])) = Some e) /\ (exists e, snd (dstep kd d (DPrepend [x])) = Some e).
Proof.
  destruct x as [|n]; cbn [unfit dstep]; intros H; [split; eexists; reflexivity|]. unfold append, prepend. cbn [append_go prepend_go]. unfold pre_insert. destruct (kd n) eqn:K.
  - destruct H as [H|[(_ & A & B)|[H _]]]; [discriminate| |discriminate]. destruct (d_root d) as [r|]; [|congruence]. destruct (Nat.eqb_spec n r) as [->|]; [congruence|]. unfold addnext, addprevious, add_sibling. rewrite K. split; eexists; reflexivity.
  - destruct H as [H|[(H & _)|[_ RN]]]; [discriminate|discriminate|]. unfold append. cbn [append_go]. unfold pre_insert. rewrite K, !RN. split; eexists; reflexivity.
  - split; eexists; reflexivity.
Qed.
Print Assumptions c50_refused.
Example c50_refused_ex : unfit kd_ex d1 (ANode 1) /\ unfit kd_ex d0 (ANode 2) /\ snd (dstep kd_ex d1 (DAppend [ANode 1])) = Some LxmlType.
Proof. split; [right; left; repeat split; discriminate|]. split; [right; right; split; reflexivity|reflexivity]. Qed.
Theorem c50_not_found kd d n c : ~ In c (children d) -> dstep kd d (DInsertBefore n (Some c)) = (d, Some NotFound) /\ dstep kd d (DRemove c) = (d, Some NotFound) /\ dstep kd d (DReplace c n) = (d, Some NotFound).
Proof. intros H. apply mem_nin in H. cbn [dstep]. unfold insert_before, remove, replace, pre_insert, pre_remove. rewrite H. repeat split. Qed.
Print Assumptions c50_not_found.
Example c50_not_found_ex : ~ In 5%nat (children d1). Proof. cbn. intuition discriminate. Qed.
(** What is refused leaves the children as they were, for operations on one node other than replacing
    the document element. *)
Definition single (d : doc) (o : dop) : Prop := match o with DAppend l | DPrepend l => length l = 1%nat | DReplace a _ => d_root d <> Some a | _ => True end.
Theorem c50_unchanged kd d o e : sane kd d -> single d o -> snd (dstep kd d o) = Some e -> children (fst (dstep kd d o)) = children d /\ d_root (fst (dstep kd d o)) = d_root d.
Proof.
  assert (ADD : forall put d r n e, snd (add_sibling kd put d r n) = Some e -> children (fst (add_sibling kd put d r n)) = children d /\ d_root (fst (add_sibling kd put d r n)) = d_root d).
  { clear. intros put d r n e H. split; [|apply add_root]. destruct (add_cases kd put d r n) as [[K R]|(e' & [E|E])]; [rewrite add_misc in H by assumption; discriminate|rewrite E; reflexivity|rewrite E; apply children_attach]. }
  assert (APP : forall n, snd (append kd d [ANode n]) = Some e -> children (fst (append kd d [ANode n])) = children d /\ d_root (fst (append kd d [ANode n])) = d_root d).
  { intros n. unfold append. cbn [append_go]. destruct (pre_insert kd d n None); [cbn; auto|]. destruct (d_root d) as [root|] eqn:R; [|destruct (kd n); cbn; auto; discriminate]. destruct (Nat.eqb n root); [discriminate|].
    set (l := List.last _ _). assert (A := ADD put_after d l n). unfold addnext. destruct (add_sibling kd put_after d l n) as [d' [x|]]; [|discriminate]. intros [= ->]. rewrite R in A. apply (A e eq_refl). }
  intros S G. destruct o as [l|l|i n|n c|n|a b]; cbn [dstep single] in *.
  - destruct l as [|[|n] [|y l]]; try discriminate G; [cbn; auto|apply APP].
  - destruct l as [|[|n] [|y l]]; try discriminate G; [cbn; auto|]. unfold prepend. cbn [prepend_go]. destruct (pre_insert kd d n None); [cbn; auto|]. destruct (d_root d) as [root|] eqn:R.
    + destruct (Nat.eqb n root); [discriminate|]. set (l := hd _ _). assert (A := ADD put_before d l n). unfold addprevious. destruct (add_sibling kd put_before d l n) as [d' [x|]]; [|discriminate]. intros [= ->]. rewrite R in A. apply (A e eq_refl).
    + specialize (APP n). destruct (append kd d [ANode n]) as [d' [x|]]; [|discriminate]. intros [= ->]. now apply APP.
  - unfold insert. destruct (d_root d) as [root|] eqn:R; [|apply APP]. destruct (Nat.eqb n root); [discriminate|]. destruct (list_get (children d) i); [|cbn; auto]. rewrite <- R. apply ADD.
  - unfold insert_before. destruct (pre_insert kd d n c); [cbn; auto|]. destruct (match c with Some c => _ | None => None end); [apply ADD|apply APP].
  - unfold remove. destruct (pre_remove d n); [cbn; auto|]. destruct (d_root d) as [r|]; [|discriminate]. destruct (Nat.eqb n r); discriminate.
  - unfold replace, pre_insert. destruct (mem a (children d)) eqn:M; cbn [negb]; [|cbn; auto]. unfold pre_remove. rewrite M. destruct (d_root d) as [root|] eqn:R; [|destruct (kd b); cbn; auto; discriminate].
    destruct (Nat.eqb_spec a root); [congruence|]. assert (A := ADD put_before d a b). assert (SA := add_sane kd put_before d a b putting_before S). assert (CA := add_cases kd put_before d a b).
    assert (RA := add_root kd put_before d a b). unfold addprevious. destruct (kd b) eqn:K; [| |cbn; auto].
    + unfold add_sibling in *. rewrite K in *. cbn [fst snd] in *. intros H. rewrite R in A. now apply (A e).
    + assert (X : exists d', add_sibling kd put_before d a b = (d', None) /\ In a (children d')).
      { destruct (Nat.eq_dec a b) as [->|NE]; [unfold add_sibling; rewrite K, Nat.eqb_refl; eexists; split; [reflexivity|]; rewrite children_attach; now apply mem_in|].
        rewrite add_misc by assumption. eexists. split; [reflexivity|]. rewrite (add_doc_children kd put_before d a b root putting_before S R K NE); [|now apply mem_in]. apply (putting_before a b (drop b (children d))). left. apply drop_in. split; [now apply mem_in|exact NE]. }
      destruct X as (d' & E & I). rewrite E in *. cbn [fst] in *. destruct (remove_children kd d' a root SA) as (d2 & E2 & _); [congruence|assumption|exact I|]. rewrite E2. discriminate.
Qed.
Print Assumptions c50_unchanged.
Example c50_unchanged_ex : single d1 (DReplace 3 1) /\ snd (dstep kd_ex d1 (DReplace 3 1)) = Some LxmlType. Proof. split; [discriminate|reflexivity]. Qed.

(** ** Owners *)
(** As long as the document element stays, a document that owns its children owns them after each operation. *)
Lemma append_owned kd nodes : forall d last root, sane kd d -> d_root d = Some root -> (forall x, In x (children d) -> owned d x) -> (forall l, last = Some l -> In l (children d)) -> forall x, In x (children (fst (append_go kd d last nodes))) -> owned (fst (append_go kd d last nodes)) x.
Proof.
  induction nodes as [|[|n] r IH]; intros d last root S R O L; cbn [append_go]; [exact O|exact O|]. destruct (pre_insert kd d n None); [exact O|]. rewrite R. destruct (Nat.eqb_spec n root) as [E|E]; [now apply (IH d last root)|].
  set (l := match last with Some l => l | None => _ end). assert (I : In l (children d)).
  { unfold l. destruct last as [y|]; [now apply L|]. destruct (children_root kd d root S R) as [I _]. destruct (last_split (children d) root) as (a & A); [intros Z; rewrite Z in I; destruct I|]. rewrite A at 2. apply in_or_app. right. now left. }
  assert (A := add_owner kd put_after d l n putting_after (O l I) O S root R I). assert (SA := add_sane kd put_after d l n putting_after S). assert (RA := add_root kd put_after d l n).
  assert (LA : forall d', add_sibling kd put_after d l n = (d', None) -> In n (children d')).
  { intros d'. destruct (kd n) eqn:K; unfold add_sibling; rewrite K; [discriminate| |discriminate]. destruct (Nat.eqb_spec l n) as [Q|Q]; [intros [= <-]; rewrite children_attach; now subst|].
    intros H. assert (H' := add_misc kd put_after d l n K Q). unfold add_sibling in H'. rewrite K in H'. destruct (Nat.eqb_spec l n); [congruence|]. rewrite H in H'. injection H' as ->. rewrite (add_doc_children kd put_after d l n root putting_after S R K Q I).
    apply (putting_after l n (drop n (children d))). right. split; [reflexivity|]. apply drop_in. now split. }
  unfold addnext. destruct (add_sibling kd put_after d l n) as [d' [e|]]; [exact A|]. cbn [fst] in *. apply (IH d' (Some n) root); [exact SA|congruence|exact A|]. intros y [= <-]. now apply LA.
Qed.
Lemma prepend_owned kd nodes : forall d first root, sane kd d -> d_root d = Some root -> (forall x, In x (children d) -> owned d x) -> (forall l, first = Some l -> In l (children d)) -> forall x, In x (children (fst (prepend_go kd d first nodes))) -> owned (fst (prepend_go kd d first nodes)) x.
Proof.
  induction nodes as [|[|n] r IH]; intros d first root S R O L; cbn [prepend_go]; [exact O|exact O|]. destruct (pre_insert kd d n None); [exact O|]. rewrite R. destruct (Nat.eqb_spec n root) as [E|E]; [now apply (IH d first root)|].
  set (l := match first with Some l => l | None => _ end). assert (I : In l (children d)).
  { unfold l. destruct first as [y|]; [now apply L|]. destruct (children_root kd d root S R) as [I _]. destruct (children d); [destruct I|now left]. }
  assert (A := add_owner kd put_before d l n putting_before (O l I) O S root R I). assert (SA := add_sane kd put_before d l n putting_before S). assert (RA := add_root kd put_before d l n).
  assert (LA : forall d', add_sibling kd put_before d l n = (d', None) -> In l (children d')).
  { intros d'. destruct (kd n) eqn:K; unfold add_sibling; rewrite K; [discriminate| |discriminate]. destruct (Nat.eqb_spec l n) as [Q|Q]; [intros [= <-]; rewrite children_attach; now subst|].
    intros H. assert (H' := add_misc kd put_before d l n K Q). unfold add_sibling in H'. rewrite K in H'. destruct (Nat.eqb_spec l n); [congruence|]. rewrite H in H'. injection H' as ->. rewrite (add_doc_children kd put_before d l n root putting_before S R K Q I).
    apply (putting_before l n (drop n (children d))). left. apply drop_in. now split. }
  unfold addprevious. destruct (add_sibling kd put_before d l n) as [d' [e|]]; [exact A|]. cbn [fst] in *. apply (IH d' (Some l) root); [exact SA|congruence|exact A|]. intros y [= <-]. now apply LA.
Qed.
Lemma remove_owned kd d n root : sane kd d -> d_root d = Some root -> (forall x, In x (children d) -> owned d x) -> forall x, In x (children (fst (remove kd d n))) -> owned (fst (remove kd d n)) x.
Proof.
  intros S R O x. destruct (mem n (children d)) eqn:M; [|unfold remove, pre_remove; rewrite M; apply O]. destruct (Nat.eq_dec n root) as [->|N].
  - unfold remove, pre_remove. rewrite M, R, Nat.eqb_refl. cbn. intros [].
  - destruct (remove_children kd d n root S R N) as (d' & E & _ & C); [now apply mem_in|]. rewrite E. cbn [fst]. rewrite C. intros I. apply drop_in in I. destruct I as [I NE]. revert E. unfold remove, pre_remove. rewrite M, R. destruct (Nat.eqb_spec n root); [congruence|].
    intros [= <-]. unfold owned, set_groups. cbn [d_owner]. destruct (d_owner d root); cbn [attach d_owner]; [destruct (Nat.eqb_spec x n); [congruence|]|]; now apply O.
Qed.
Theorem c50_owner kd d o r : sane kd d -> d_root d = Some r -> (forall x, In x (children d) -> owned d x) -> (forall a b, o = DReplace a b -> a <> r) ->
  forall x, In x (children (fst (dstep kd d o))) -> owned (fst (dstep kd d o)) x.
Proof.
  intros S R O NR. destruct (children_root kd d r S R) as [IR _]. destruct o as [l|l|i n|n c|n|a b]; cbn [dstep].
  - apply (append_owned kd l d None r); auto; discriminate.
  - apply (prepend_owned kd l d None r); auto; discriminate.
  - unfold insert. rewrite R. destruct (Nat.eqb n r); [exact O|]. destruct (list_get (children d) i) as [y|] eqn:E; [|exact O].
    assert (I : In y (children d)). { unfold list_get in E. destruct (norm_index _ _); [|discriminate]. destruct (nth_error (children d) n0) eqn:Q; [|discriminate]. injection E as ->. eapply nth_error_In, Q. }
    apply (add_owner kd put_before d y n putting_before (O y I) O S r R I).
  - unfold insert_before, pre_insert. destruct (match c with Some c => negb (mem c (children d)) | None => false end) eqn:E; [exact O|]. 
    assert (X : forall z, In z (children (fst (match (match c with Some c => if Nat.eqb c n then after n (group_of d n) else Some c | None => None end) with None => append kd d [ANode n] | Some y => addprevious kd d y n end))) ->
      owned (fst (match (match c with Some c => if Nat.eqb c n then after n (group_of d n) else Some c | None => None end) with None => append kd d [ANode n] | Some y => addprevious kd d y n end)) z); [|destruct (kd n); [exact X|exact X|exact O]].
    assert (J : forall y, match c with Some c => if Nat.eqb c n then after n (group_of d n) else Some c | None => None end = Some y -> In y (children d)).
    { intros y. destruct c as [c|]; [|discriminate]. assert (I : In c (children d)) by (apply mem_in; now destruct (mem c (children d))). destruct (Nat.eqb_spec c n) as [Q|_]; [|intros [= <-]; exact I]. subst c. rewrite (child_group kd d n r S R I). apply after_in. }
    destruct (match c with Some c => if Nat.eqb c n then after n (group_of d n) else Some c | None => None end) as [y|]; [|apply (append_owned kd [ANode n] d None r); auto; discriminate].
    specialize (J y eq_refl). apply (add_owner kd put_before d y n putting_before (O y J) O S r R J).
  - now apply (remove_owned kd d n r).
  - unfold replace. destruct (pre_insert kd d b (Some a)); [exact O|]. unfold pre_remove. destruct (mem a (children d)) eqn:M; [|exact O]. rewrite R. specialize (NR a b eq_refl). destruct (Nat.eqb_spec a r); [congruence|].
    apply mem_in in M. assert (A := add_owner kd put_before d a b putting_before (O a M) O S r R M). assert (SA := add_sane kd put_before d a b putting_before S). assert (RA := add_root kd put_before d a b).
    unfold addprevious. destruct (add_sibling kd put_before d a b) as [d' [e|]]; [exact A|]. cbn [fst] in *. apply (remove_owned kd d' a r); [exact SA|congruence|exact A].
Qed.
Print Assumptions c50_owner.
Example c50_owner_ex : forall x, In x (children d1) -> owned d1 x. Proof. cbn. intros x [<-|[<-|[<-|[<-|[]]]]]; reflexivity. Qed.
(** A new document element is owned, with the nodes put beside it later, if it comes alone. *)
Theorem c50_owner_new kd d n : sane kd d -> d_root d = None -> kd n = KElement -> exists d', dstep kd d (DAppend [ANode n]) = (d', None) /\ d_root d' = Some n /\ owned d' n /\ children d' = group_of d n.
Proof.
  intros S R K. cbn [dstep]. unfold append. cbn [append_go]. unfold pre_insert. rewrite K, R. exists (set_root d n). split; [reflexivity|]. split; [reflexivity|]. split; [|apply set_root_children]. unfold owned, set_root. cbn [d_owner]. now rewrite Nat.eqb_refl.
Qed.
Print Assumptions c50_owner_new.
Example c50_owner_new_ex : children (fst (dstep kd_ex d0 (DAppend [ANode 0])))%nat = [0]%nat. Proof. reflexivity. Qed.
(* one that was parsed with a comment after it leaves the comment, and what is put after that, without owner *)
Theorem c50_owner_refuted : exists kd d d' n, sane kd d /\ dstep kd d (DAppend [ANode 0; ANode n]) = (d', None) /\ children d' = [0; 6; n]%nat /\ d_owner d' 6 = None /\ d_owner d' n = None.
Proof.
  eexists kd_ex, (mkDoc None [[0; 6]; [3]] (fun _ => None))%nat, _, 3%nat. split; [constructor; [cbn; repeat constructor; cbn; intuition discriminate|repeat constructor|discriminate]|]. repeat split.
Qed.
Print Assumptions c50_owner_refuted.
