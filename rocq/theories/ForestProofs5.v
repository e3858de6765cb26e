From Coq Require Import ZArith Lia Permutation.
From Verif Require Import PyBase ForestModel ForestSpec ForestProofs ForestProofs2 ForestProofs3 ForestProofs4.
#[local] Open Scope nat_scope.

Definition reference (s : forest) (p n : nat) (child : option nat) : option nat :=
  match child with Some c => if Nat.eqb c n then next_in n (child_list s p) else child | None => None end.
Definition giver (s : forest) (p n : nat) (child : option nat) : option nat :=
  owner_document s (match reference s p n child with Some c => c | None => p end).
Lemma insert_before_out s p n child : NoDup (all s) -> outcome s n (giver s p n child) (at_before p n child) (insert_before s p n child) /\
  (snd (insert_before s p n child) = None <-> exists o l, Row s p El o l /\ In n (all s) /\ ~ below s n p /\ match child with Some c => In c l | None => True end).
Proof.
  intros D. unfold insert_before, giver. fold (reference s p n child). destruct (pre_insertion s p n child) as [e|] eqn:E.
  - split; [constructor|]. cbn [snd]. split; [discriminate|]. intros (o & l & R & I & B & J). assert (X : pre_insertion s p n child = None) by (apply pre_ok; [exact D|]; eauto). congruence.
  - apply pre_ok in E; [|exact D]. destruct E as (o & l & R & I & J). pose proof (proj2 (kind_row s p El o l D R)) as L. pose proof (kids_once s p El o l D R) as DL.
    assert (Fin : forall x : Prop, (x <-> (exists o l, Row s p El o l) /\ In n (all s) /\ ~ below s n p) -> x <-> exists o l, Row s p El o l /\ In n (all s) /\ ~ below s n p /\ match child with Some c => In c l | None => True end).
    { intros x ->. split; [intros (_ & _ & B); exists o, l; auto|]. intros (o1 & l1 & R1 & _ & B & _). eauto. }
    assert (Side : forall c, In c l -> c <> n -> outcome s n (owner_document s c) (side before c n) (addprevious s c n) /\ (snd (addprevious s c n) = None <-> (exists o l, Row s p El o l) /\ In n (all s) /\ ~ below s n p)).
    { intros c Jc Q. destruct (beside_out add_before before s c n before_changed D (kid_in s p El o l c R Jc)) as [A1 A2]. split; [exact A1|]. unfold addprevious. rewrite A2. split.
      - intros (_ & [Z|Z] & _); [congruence|]. split; [eauto|]. split; [exact I|]. intros B. apply Z. exact (below_child s n p El o l c B R Jc).
      - intros (_ & _ & B). split; [exact I|]. split; [right; intros Z; apply B; exact (below_kid s n p El o l c D R Jc Q Z)|]. intros [Z _]. exact (Z _ _ _ _ R Jc). }
    unfold reference. destruct child as [c|]; [|destruct (append_out s p n D) as [A1 A2]; split; [exact A1|apply Fin; exact A2]]. destruct (Nat.eqb_spec c n) as [->|Q].
    + rewrite L. destruct (next_split n l DL J) as (a & b & -> & Na & Nb & Nx). rewrite Nx. cbn [at_before]. unfold side. rewrite Nat.eqb_refl. destruct b as [|x b]; cbn [hd_error].
      * destruct (append_out s p n D) as [A1 A2]. split; [|apply Fin; exact A2]. inversion A1 as [e He|s' e I' C He|s' I' C He]; subst; [constructor|now apply out_docs|]. apply out_ok; [exact I|]. apply (changed_ext _ _ _ _ _ _ C). intros q k1 o1 l1 R1. unfold last_of, still. destruct (Nat.eqb_spec q p) as [->|Qp].
        -- destruct (Row_det _ _ _ _ _ _ _ _ D R R1) as (_ & _ & <-). rewrite minus_mid by assumption. now rewrite app_nil_r.
        -- apply minus_out. intros Z. apply Qp. exact (one_parent s n _ _ _ _ _ _ _ _ D R1 R Z J).
      * assert (Jx : In x (a ++ n :: x :: b)) by (rewrite in_app_iff; cbn; auto). assert (Qx : x <> n) by (intros ->; apply Nb; now left). destruct (Side x Jx Qx) as [A1 A2]. split; [|apply Fin; exact A2].
        unfold side in A1. apply Nat.eqb_neq in Qx. rewrite Qx in A1. inversion A1 as [e He|s' e I' C He|s' I' C He]; subst; [constructor|now apply out_docs|]. apply out_ok; [exact I|]. apply (changed_ext _ _ _ _ _ _ C). intros q k1 o1 l1 R1. unfold still.
        apply NoDup_app_iff in DL. destruct DL as (_ & DL & Dd). apply NoDup_cons_iff in DL. destruct DL as [_ DL]. apply NoDup_cons_iff in DL. destruct DL as [DL _]. assert (Xa : ~ In x a) by (intros Z; apply (Dd x Z); right; now left).
        destruct (Nat.eq_dec q p) as [->|Qp].
        -- destruct (Row_det _ _ _ _ _ _ _ _ D R R1) as (_ & _ & <-). rewrite minus_mid by assumption. now rewrite before_mid.
        -- rewrite minus_out by (intros Z; apply Qp; exact (one_parent s n _ _ _ _ _ _ _ _ D R1 R Z J)). rewrite before_subst. apply subst_out. intros Z. apply Qp. exact (one_parent s x _ _ _ _ _ _ _ _ D R1 R Z Jx).
    + destruct (Side c J Q) as [A1 A2]. split; [exact A1|apply Fin; exact A2].
Qed.
Lemma pre_remove_ok s p n : NoDup (all s) -> pre_remove s p n = None <-> exists o l, Row s p El o l /\ In n l.
Proof.
  intros D. unfold pre_remove. destruct (kind_of s p) as [[|]|] eqn:K.
  - destruct (kind_some s p El K) as (o & l & R). rewrite (proj2 (kind_row s p El o l D R)). split.
    + destruct (existsb (Nat.eqb n) l) eqn:E; [|discriminate]. intros _. exists o, l. split; [exact R|]. apply existsb_exists in E. destruct E as (y & I & J). apply Nat.eqb_eq in J. now subst.
    + intros (o1 & l1 & R1 & J). destruct (Row_det _ _ _ _ _ _ _ _ D R R1) as (_ & -> & ->). replace (existsb (Nat.eqb n) l1) with true; [reflexivity|]. symmetry. apply existsb_exists. exists n. split; [exact J|apply Nat.eqb_refl].
  - split; [discriminate|]. intros (o & l & R & _). rewrite (proj1 (kind_row s p El o l D R)) in K. discriminate.
  - split; [discriminate|]. intros (o & l & R & _). apply kind_none in K. elim K. exact (Row_in _ _ _ _ _ R).
Qed.
Lemma remove_out s p n : NoDup (all s) -> outcome s n None (fun _ l => minus n l) (remove s p n) /\ (snd (remove s p n) = None <-> exists o l, Row s p El o l /\ In n l).
Proof.
  intros D. unfold remove. destruct (pre_remove s p n) as [e|] eqn:E; cbn [snd].
  - split; [constructor|]. split; [discriminate|]. intros H. apply pre_remove_ok in H; [congruence|exact D].
  - apply pre_remove_ok in E; [|exact D]. split; [|tauto]. destruct E as (o & l & R & J). pose proof (kid_in s p El o l n R J) as I. apply out_ok; [exact I|]. now apply remove_changed.
Qed.
Lemma replace_out s p old n : NoDup (all s) -> outcome s n (owner_document s p) (side instead old n) (replace s p old n) /\
  (snd (replace s p old n) = None <-> exists o l, Row s p El o l /\ In old l /\ In n (all s) /\ ~ below s n p).
Proof.
  intros D. unfold replace. destruct (pre_insertion s p n (Some old)) as [e|] eqn:E.
  - cbn [snd]. split; [constructor|]. split; [discriminate|]. intros (o & l & R & J & I & _). assert (X : pre_insertion s p n (Some old) = None) by (apply pre_ok; [exact D|]; eauto). congruence.
  - apply pre_ok in E; [|exact D]. destruct E as (o & l & R & I & J). replace (pre_remove s p old) with (@None pyerr) by (symmetry; apply pre_remove_ok; [exact D|eauto]). set (d := owner_document s p). pose proof (attach_changed s n d D I) as C. unfold lx_replace. rewrite (within_same s _ n d n p D C). unfold side.
    assert (Fin : forall x : Prop, (x <-> ~ below s n p) -> x <-> exists o l, Row s p El o l /\ In old l /\ In n (all s) /\ ~ below s n p) by (intros x ->; split; [intros B; exists o, l; auto|intros (? & ? & _ & _ & _ & B); exact B]).
    destruct (within s n p) eqn:W; cbn [snd].
    + apply within_below in W; [|exact D]. split; [now apply out_docs|]. apply Fin. split; [discriminate|tauto].
    + assert (B : ~ below s n p) by (intros B; apply within_below in B; [congruence|exact D]). destruct (Nat.eqb_spec old n) as [->|Q]; cbn [snd].
      * split; [now apply out_ok|]. apply Fin. tauto.
      * split; [|apply Fin; tauto]. apply out_ok; [exact I|]. apply replace_changed; auto; [exact (kid_in s p El o l old R J)|]. intros Z. apply B. exact (below_kid s n p El o l old D R J Q Z).
Qed.
(** ** What every call keeps *)
Lemma before_nil c n : before c n [] = []. Proof. reflexivity. Qed.
Definition keeps (f : nat -> list nat -> list nat) (s : forest) : Prop := forall q o, Row s q Misc o [] -> f q [] = [].
Lemma outcome_keeps s n d f x : proper s -> outcome s n d f x -> (snd x = None -> keeps f s) -> proper (fst x) /\ Permutation (all s) (all (fst x)).
Proof.
  intros P O K. destruct O as [e|s' e I C|s' I C]; cbn [fst snd] in *; [auto| |].
  - split; [|exact (proj1 C)]. apply (changed_proper s s' n d still P C). reflexivity.
  - split; [|exact (proj1 C)]. apply (changed_proper s s' n d f P C). exact (K eq_refl).
Qed.
Lemma keeps_last s p n o l : NoDup (all s) -> Row s p El o l -> keeps (last_of p n) s.
Proof. intros D R q o' R'. unfold last_of. destruct (Nat.eqb_spec q p) as [->|_]; [|reflexivity]. destruct (Row_det _ _ _ _ _ _ _ _ D R R') as ([=] & _ & _). Qed.
Lemma keeps_side put r n s : (forall a b, put a b [] = []) -> keeps (side put r n) s.
Proof. intros H q o _. unfold side. destruct (Nat.eqb r n); [reflexivity|]. cbn [minus filter]. apply H. Qed.
Lemma attach_keeps s n d : proper s -> proper (attach s n d) /\ Permutation (all s) (all (attach s n d)).
Proof.
  intros P. destruct (in_dec Nat.eq_dec n (all s)) as [I|N].
  - pose proof (attach_changed s n d (p_once s P) I) as C. split; [|exact (proj1 C)]. now apply (changed_proper s _ n d _ P C).
  - destruct d as [d|]; cbn [attach]; [rewrite swaps_out by exact N|]; auto.
Qed.
Lemma detach_keeps s n : proper s -> proper (detach s n) /\ Permutation (all s) (all (detach s n)).
Proof.
  intros P. destruct (in_dec Nat.eq_dec n (all s)) as [I|N]; [|unfold detach; rewrite swaps_out by exact N; auto]. destruct (detach_rows s n (p_once s P) I) as [Pm C]. split; [|exact Pm]. pose proof (Permutation_NoDup Pm (p_once s P)) as D'. split; [exact D'|].
  intros q o l R. assert (Iq : In q (all s)) by (apply (Permutation_in _ (Permutation_sym Pm)); exact (Row_in _ _ _ _ _ R)). destruct (in_Row s q Iq) as (k & o0 & l0 & R0). destruct (C _ _ _ _ R0) as (o1 & R1 & _). destruct (Row_det _ _ _ _ _ _ _ _ D' R R1) as (<- & _ & ->). exact (p_leaf s P _ _ _ R0).
Qed.
Lemma attach_none s n : attach s n None = s. Proof. reflexivity. Qed.
Lemma attach_list_keeps p d ns : forall s, proper s -> proper (fst (attach_list s p d ns)) /\ Permutation (all s) (all (fst (attach_list s p d ns))).
Proof.
  induction ns as [|n ns IH]; intros s P; cbn [attach_list]; [auto|]. destruct (pre_insertion s p n None); [auto|]. destruct (attach_keeps s n d P) as [P1 Q1]. destruct (IH _ P1) as [P2 Q2]. split; [exact P2|]. now transitivity (all (attach s n d)).
Qed.
Lemma append_list_keeps p ns : forall s, proper s -> (exists o l, Row s p El o l) -> (forall n, In n ns -> In n (all s)) -> proper (fst (append_list s p ns)) /\ Permutation (all s) (all (fst (append_list s p ns))).
Proof.
  induction ns as [|n ns IH]; intros s P (o & l & R) H; cbn [append_list]; [auto|]. destruct (lx_append_out s p n None (p_once s P) (H n (or_introl eq_refl)) (Row_in _ _ _ _ _ R)) as [O _]. rewrite attach_none in O.
  destruct (lx_append s p n) as [s' [e|]]; inversion O as [e' He|s1 e' I1 C1 He|s1 I1 C1 He]; subst; cbn [fst].
  - auto.
  - split; [|exact (proj1 C1)]. now apply (changed_proper s _ n None still P C1).
  - pose proof (changed_proper s s' n None _ P C1 (keeps_last s p n o l (p_once s P) R)) as P1. destruct (proj2 C1 _ _ _ _ R) as (o1 & R1 & _). destruct (IH s' P1) as [A B]; [eauto|intros x Hx; apply (Permutation_in _ (proj1 C1)); apply H; now right|]. split; [exact A|]. exact (Permutation_trans (proj1 C1) B).
Qed.
Lemma attach_list_ok p d ns : forall s s', proper s -> attach_list s p d ns = (s', None) -> ns <> [] -> (exists o l, Row s' p El o l) /\ forall n, In n ns -> In n (all s').
Proof.
  induction ns as [|n ns IH]; intros s s' P; [congruence|]. cbn [attach_list]. destruct (pre_insertion s p n None) as [e|] eqn:E; [discriminate|]. intros H _. apply pre_ok in E; [|exact (p_once s P)]. destruct E as (o & l & R & I & _). destruct (attach_keeps s n d P) as [P1 Q1].
  pose proof (attach_changed s n d (p_once s P) I) as C1. destruct (proj2 C1 _ _ _ _ R) as (o1 & R1 & _). destruct ns as [|m ns].
  - cbn [attach_list] in H. injection H as <-. split; [eauto|]. intros x [<-|[]]. apply (Permutation_in _ Q1). exact I.
  - destruct (IH _ _ P1 H) as [A B]; [discriminate|]. split; [exact A|]. intros x [<-|J]; [|now apply B]. destruct (attach_list_keeps p d (m :: ns) (attach s n d) P1) as [_ Q2]. rewrite H in Q2. cbn [fst] in Q2. apply (Permutation_in _ Q2), (Permutation_in _ Q1). exact I.
Qed.
Lemma extend_keeps s p ns : proper s -> proper (fst (extend s p ns)) /\ Permutation (all s) (all (fst (extend s p ns))).
Proof.
  intros P. unfold extend. destruct (attach_list_keeps p (owner_document s p) ns s P) as [P1 Q1]. destruct (attach_list s p (owner_document s p) ns) as [s' [e|]] eqn:E; cbn [fst] in *; [auto|]. destruct ns as [|n ns].
  - cbn [append_list fst]. auto.
  - destruct (attach_list_ok p _ (n :: ns) s s' P E) as [A B]; [discriminate|]. destruct (append_list_keeps p (n :: ns) s' P1 A B) as [P2 Q2]. split; [exact P2|]. now transitivity (all s').
Qed.
Lemma before_keeps r n s : keeps (side before r n) s. Proof. apply keeps_side. reflexivity. Qed.
Lemma side_keeps g put s r n : (forall s n r d, NoDup (all s) -> In n (all s) -> In r (all s) -> ~ below s n r -> changed s (move (attach s n d) n r g) n d (fun q l => put r n (minus n l))) ->
  (forall a b, put a b [] = []) -> proper s -> proper (fst (beside g s r n)) /\ Permutation (all s) (all (fst (beside g s r n))).
Proof.
  intros G Z P. destruct (in_dec Nat.eq_dec r (all s)) as [I|N].
  - destruct (beside_out g put s r n G (p_once s P) I) as [O _]. apply (outcome_keeps _ _ _ _ _ P O). intros _. now apply keeps_side.
  - unfold beside. destruct (kind_of s r) as [k|] eqn:K; [|auto]. destruct (kind_some s r k K) as (o & l & R). elim N. exact (Row_in _ _ _ _ _ R).
Qed.
Lemma remove_keeps s p n : proper s -> proper (fst (remove s p n)) /\ Permutation (all s) (all (fst (remove s p n))).
Proof. intros P. destruct (remove_out s p n (p_once s P)) as [O _]. apply (outcome_keeps _ _ _ _ _ P O). intros _ q o _. reflexivity. Qed.
Lemma run_keeps o s : proper s -> proper (fst (run s o)) /\ Permutation (all s) (all (fst (run s o))).
Proof.
  intros P. pose proof (p_once s P) as D. destruct o as [p n|p i n|p n c|r n|r n|p n|n|p a b|p ns|n d|n]; cbn [run].
  - destruct (append_out s p n D) as [O E]. apply (outcome_keeps _ _ _ _ _ P O). intros X. apply E in X. destruct X as ((o & l & R) & _). exact (keeps_last s p n o l D R).
  - destruct (insert_out s p i n D) as [O E]. apply (outcome_keeps _ _ _ _ _ P O). intros X. apply E in X. destruct X as ((o & l & R) & _). unfold at_child. destruct (find_child (child_list s p) i) as [c|]; [apply before_keeps|exact (keeps_last s p n o l D R)].
  - destruct (insert_before_out s p n c D) as [O E]. apply (outcome_keeps _ _ _ _ _ P O). intros X. apply E in X. destruct X as (o & l & R & _). unfold at_before. destruct c as [c|]; [apply before_keeps|exact (keeps_last s p n o l D R)].
  - exact (side_keeps add_after after s r n after_changed (fun _ _ => eq_refl) P).
  - exact (side_keeps add_before before s r n before_changed (fun _ _ => eq_refl) P).
  - now apply remove_keeps.
  - unfold remove_self. destruct (parent_of s n); [now apply remove_keeps|auto].
  - destruct (replace_out s p a b D) as [O _]. apply (outcome_keeps _ _ _ _ _ P O). intros _. now apply keeps_side.
  - now apply extend_keeps.
  - now apply attach_keeps.
  - now apply detach_keeps.
Qed.
Lemma runs_keeps ops : forall s, proper s -> proper (runs s ops) /\ Permutation (all s) (all (runs s ops)).
Proof.
  induction ops as [|o ops IH]; intros s P; [cbn; auto|]. cbn [runs fold_left]. fold (runs (fst (run s o)) ops). destruct (run_keeps o s P) as [P1 Q1]. destruct (IH _ P1) as [P2 Q2]. split; [exact P2|]. exact (Permutation_trans Q1 Q2).
Qed.
