(** C64: moving nodes between places and trees does to the lists of children exactly what
    the method says, takes the documents along, and never loses or doubles a node. *)
From Coq Require Import ZArith Lia Permutation.
From Verif Require Import PyBase ForestModel ForestSpec ForestProofs ForestProofs2 ForestProofs3 ForestProofs4 ForestProofs5 ForestProofs6 ForestProofs7.
#[local] Open Scope nat_scope.

(* two documents, 100 and 200: 0 holds 1 (which holds the comment 3) and 2; 4 holds 5 *)
Definition f0 : forest := [[Nd 0 El (Some 100) [Nd 1 El (Some 100) [Nd 3 Misc (Some 100) []]; Nd 2 El (Some 100) []]]; [Nd 4 El (Some 200) [Nd 5 El (Some 200) []]]].
Ltac rows H := repeat (destruct H as [H|H]; [injection H as <- <- <- <- || discriminate H|]); [..|destruct H].
Lemma f0_once : NoDup (all f0). Proof. cbn. repeat constructor; cbn; intuition lia. Qed.
Example f0_proper : proper f0.
Proof.
  split; [exact f0_once|]. intros q o l H. cbn in H. repeat destruct H as [H|H]; try discriminate H; try (injection H as <- <- <-; reflexivity); destruct H.
Qed.
Example f0_docs : same_docs f0.
Proof.
  intros q k o l H. assert (D := f0_once). cbn in H. repeat destruct H as [H|H]; try (destruct H; fail); injection H as <- <- <- <-; eexists; (split; [reflexivity|]); intros c k' o' l' J R; cbn in J, R; repeat destruct J as [<-|J]; try (destruct J; fail); repeat destruct R as [R|R]; try (destruct R; fail); try discriminate R; injection R as <- <- <-; reflexivity.
Qed.

(** ** append, insert, insert_before *)
Theorem c64_append s p n s' : proper s -> append s p n = (s', None) ->
  changed s s' n (owner_document s p) (fun q l => if Nat.eqb q p then minus n l ++ [n] else minus n l).
Proof. intros P E. destruct (append_out s p n (p_once s P)) as [O _]. rewrite E in O. now inversion O. Qed.
Print Assumptions c64_append.
Example ex_append : append f0 0 5 = ([[Nd 0 El (Some 100) [Nd 1 El (Some 100) [Nd 3 Misc (Some 100) []]; Nd 2 El (Some 100) []; Nd 5 El (Some 100) []]]; [Nd 4 El (Some 200) []]], None).
Proof. vm_compute. reflexivity. Qed.
Theorem c64_append_ok s p n : proper s -> snd (append s p n) = None <-> (exists o l, Row s p El o l) /\ In n (all s) /\ ~ below s n p.
Proof. intros P. apply append_out. exact (p_once s P). Qed.
Print Assumptions c64_append_ok.
Example ex_append_above : append f0 1 0 = (f0, Some ValueError) /\ append f0 3 2 = (f0, Some HierarchyRequestError). Proof. vm_compute. auto. Qed.

Lemma find_pick l i : find_child l i = pick l i.
Proof.
  unfold find_child, pick. destruct (Z.ltb_spec i 0) as [N|N]; destruct (Z.leb_spec 0 i) as [M|M]; try lia; [|reflexivity]. destruct (Z.leb_spec 0 (Z.of_nat (length l) + i)) as [A|A].
  - rewrite (nth_error_nth' (rev l) 0) by (rewrite rev_length; lia). rewrite (nth_error_nth' l 0) by lia. rewrite rev_nth by lia. do 2 f_equal. lia.
  - apply nth_error_None. rewrite rev_length. lia.
Qed.
Theorem c64_insert s p i n s' o l : proper s -> Row s p El o l -> insert s p i n = (s', None) ->
  changed s s' n (owner_document s p)
    (match pick l i with
     | Some c => if Nat.eqb c n then fun _ l => l else fun _ l => before c n (minus n l)
     | None => fun q l => if Nat.eqb q p then minus n l ++ [n] else minus n l
     end).
Proof.
  intros P R E. destruct (insert_out s p i n (p_once s P)) as [O _]. rewrite E in O. rewrite (proj2 (kind_row s p El o l (p_once s P) R)), find_pick in O. unfold at_child in O. destruct (pick l i) as [c|]; [destruct (Nat.eqb c n)|]; now inversion O.
Qed.
Print Assumptions c64_insert.
Example ex_insert : insert f0 0 (-1) 5 = ([[Nd 0 El (Some 100) [Nd 1 El (Some 100) [Nd 3 Misc (Some 100) []]; Nd 5 El (Some 100) []; Nd 2 El (Some 100) []]]; [Nd 4 El (Some 200) []]], None) /\ pick [1; 2] (-1) = Some 2.
Proof. vm_compute. auto. Qed.
Theorem c64_insert_ok s p i n : proper s -> snd (insert s p i n) = None <-> (exists o l, Row s p El o l) /\ In n (all s) /\ ~ below s n p.
Proof. intros P. apply insert_out. exact (p_once s P). Qed.
Print Assumptions c64_insert_ok.

Theorem c64_insert_before s p n child s' : proper s -> same_docs s -> insert_before s p n child = (s', None) ->
  changed s s' n (owner_document s p)
    (match child with
     | Some c => if Nat.eqb c n then fun _ l => l else fun _ l => before c n (minus n l)
     | None => fun q l => if Nat.eqb q p then minus n l ++ [n] else minus n l
     end).
Proof.
  intros P S E. destruct (insert_before_out s p n child (p_once s P)) as [O K]. rewrite E in O, K. cbn [snd] in K. destruct (proj1 K eq_refl) as (o & l & R & _ & _ & J). rewrite (giver_doc s p n child o l (p_once s P) S R J) in O. unfold at_before, side in O. destruct child as [c|]; [destruct (Nat.eqb c n)|]; now inversion O.
Qed.
Print Assumptions c64_insert_before.
Theorem c64_insert_before_ok s p n child : proper s -> snd (insert_before s p n child) = None <->
  exists o l, Row s p El o l /\ In n (all s) /\ ~ below s n p /\ match child with Some c => In c l | None => True end.
Proof. intros P. apply insert_before_out. exact (p_once s P). Qed.
Print Assumptions c64_insert_before_ok.
Example ex_insert_before : insert_before f0 0 5 (Some 1) = ([[Nd 0 El (Some 100) [Nd 5 El (Some 100) []; Nd 1 El (Some 100) [Nd 3 Misc (Some 100) []]; Nd 2 El (Some 100) []]]; [Nd 4 El (Some 200) []]], None) /\
  insert_before f0 0 2 (Some 2) = (f0, None) /\ insert_before f0 0 1 (Some 1) = (f0, None) /\ insert_before f0 0 1 (Some 5) = (f0, Some NotFoundError).
Proof. vm_compute. auto. Qed.

(** ** addnext, addprevious *)
Theorem c64_addnext s r n s' : proper s -> In r (all s) -> addnext s r n = (s', None) ->
  changed s s' n (owner_document s r) (if Nat.eqb r n then fun _ l => l else fun _ l => after r n (minus n l)).
Proof. intros P I E. destruct (beside_out add_after after s r n after_changed (p_once s P) I) as [O _]. unfold addnext in E. rewrite E in O. unfold side in O. destruct (Nat.eqb r n); now inversion O. Qed.
Print Assumptions c64_addnext.
Theorem c64_addprevious s r n s' : proper s -> In r (all s) -> addprevious s r n = (s', None) ->
  changed s s' n (owner_document s r) (if Nat.eqb r n then fun _ l => l else fun _ l => before r n (minus n l)).
Proof. intros P I E. destruct (beside_out add_before before s r n before_changed (p_once s P) I) as [O _]. unfold addprevious in E. rewrite E in O. unfold side in O. destruct (Nat.eqb r n); now inversion O. Qed.
Print Assumptions c64_addprevious.
Theorem c64_beside_ok s r n : proper s -> In r (all s) ->
  (snd (addnext s r n) = None <-> In n (all s) /\ (r = n \/ ~ below s n r) /\ ~ (parentless s r /\ kind_of s n = Some El)) /\
  (snd (addprevious s r n) = None <-> In n (all s) /\ (r = n \/ ~ below s n r) /\ ~ (parentless s r /\ kind_of s n = Some El)).
Proof. intros P I. split; [exact (proj2 (beside_out add_after after s r n after_changed (p_once s P) I))|exact (proj2 (beside_out add_before before s r n before_changed (p_once s P) I))]. Qed.
Print Assumptions c64_beside_ok.
Example ex_beside : addnext f0 1 5 = ([[Nd 0 El (Some 100) [Nd 1 El (Some 100) [Nd 3 Misc (Some 100) []]; Nd 5 El (Some 100) []; Nd 2 El (Some 100) []]]; [Nd 4 El (Some 200) []]], None) /\
  addprevious f0 4 3 = ([[Nd 0 El (Some 100) [Nd 1 El (Some 100) []; Nd 2 El (Some 100) []]]; [Nd 3 Misc (Some 200) []; Nd 4 El (Some 200) [Nd 5 El (Some 200) []]]], None).
Proof. vm_compute. auto. Qed.

(** ** remove, replace, extend *)
Theorem c64_remove s p n s' : proper s -> remove s p n = (s', None) -> changed s s' n None (fun _ l => minus n l) /\ parentless s' n.
Proof.
  intros P E. destruct (remove_out s p n (p_once s P)) as [O _]. rewrite E in O. inversion O as [| |s1 I C]; subst. split; [exact C|]. intros q k o l R J. destruct (changed_back _ _ _ _ _ _ _ _ _ C (p_once s P) R) as (o0 & l0 & _ & -> & _). now apply in_minus in J.
Qed.
Print Assumptions c64_remove.
Theorem c64_remove_ok s p n : proper s -> snd (remove s p n) = None <-> exists o l, Row s p El o l /\ In n l.
Proof. intros P. apply remove_out. exact (p_once s P). Qed.
Print Assumptions c64_remove_ok.
Theorem c64_remove_self s n : proper s -> exists s', remove_self s n = (s', None) /\ changed s s' n None (fun _ l => minus n l) /\ (In n (all s) -> parentless s' n).
Proof.
  intros P. pose proof (p_once s P) as D. unfold remove_self. destruct (parent_of s n) as [p|] eqn:E.
  - destruct (parent_row s n p E) as (k & o & l & R & J). assert (k = El) as -> by (destruct k; [reflexivity|]; rewrite (p_leaf s P _ _ _ R) in J; destruct J). destruct (remove s p n) as [s' e] eqn:X. assert (e = None) as -> by (change e with (snd (s', e)); rewrite <- X; apply c64_remove_ok; eauto). exists s'. split; [reflexivity|]. destruct (c64_remove s p n s' P X). auto.
  - exists s. split; [reflexivity|]. assert (N := parent_none s n E). split; [|intros _; exact N]. split; [reflexivity|]. intros q k o l R. exists o. split; [|split; auto]. rewrite minus_out; [exact R|]. exact (N _ _ _ _ R).
Qed.
Print Assumptions c64_remove_self.
Example ex_remove : remove f0 0 1 = ([[Nd 0 El (Some 100) [Nd 2 El (Some 100) []]]; [Nd 4 El (Some 200) [Nd 5 El (Some 200) []]]; [Nd 1 El (Some 100) [Nd 3 Misc (Some 100) []]]], None) /\ remove f0 0 3 = (f0, Some NotFoundError).
Proof. vm_compute. auto. Qed.
Theorem c64_replace s p old n s' : proper s -> replace s p old n = (s', None) ->
  changed s s' n (owner_document s p) (if Nat.eqb old n then fun _ l => l else fun _ l => instead old n (minus n l)) /\ (old <> n -> parentless s' old).
Proof.
  intros P E. destruct (replace_out s p old n (p_once s P)) as [O _]. rewrite E in O. unfold side in O. inversion O as [| |s1 I C]; subst. split; [destruct (Nat.eqb old n); exact C|]. intros Q q k o l R J. destruct (changed_back _ _ _ _ _ _ _ _ _ C (p_once s P) R) as (o0 & l0 & _ & -> & _). apply Nat.eqb_neq in Q. rewrite Q in J. unfold instead in J. apply in_map_iff in J. destruct J as (x & X & _). destruct (Nat.eqb_spec x old) as [Z|Z]; [subst; now rewrite Nat.eqb_refl in Q|congruence].
Qed.
Print Assumptions c64_replace.
Theorem c64_replace_ok s p old n : proper s -> snd (replace s p old n) = None <-> exists o l, Row s p El o l /\ In old l /\ In n (all s) /\ ~ below s n p.
Proof. intros P. apply replace_out. exact (p_once s P). Qed.
Print Assumptions c64_replace_ok.
(* the new node may come from inside the old one *)
Example ex_replace : replace f0 0 1 3 = ([[Nd 0 El (Some 100) [Nd 3 Misc (Some 100) []; Nd 2 El (Some 100) []]]; [Nd 4 El (Some 200) [Nd 5 El (Some 200) []]]; [Nd 1 El (Some 100) []]], None). Proof. vm_compute. reflexivity. Qed.
Theorem c64_extend s p ns s' : proper s -> NoDup ns -> extend s p ns = (s', None) ->
  handed s s' ns (owner_document s p) (fun q l => if Nat.eqb q p then without ns l ++ ns else without ns l).
Proof.
  intros P N E. destruct (extend_out s p ns P) as [_ O]. rewrite E in O. destruct (O eq_refl) as [Pm C]. split; [exact Pm|]. intros q k o l R. destruct (C _ _ _ _ R) as (o' & R' & G). exists o'. split; [|exact G]. cbn [fst] in R'. now rewrite lasts_eq in R'.
Qed.
Print Assumptions c64_extend.
Theorem c64_extend_ok s p ns : proper s -> snd (extend s p ns) = None <-> forall n, In n ns -> (exists o l, Row s p El o l) /\ In n (all s) /\ ~ below s n p.
Proof. intros P. now apply extend_out. Qed.
Print Assumptions c64_extend_ok.
Example ex_extend : extend f0 4 [2; 3] = ([[Nd 0 El (Some 100) [Nd 1 El (Some 100) []]]; [Nd 4 El (Some 200) [Nd 5 El (Some 200) []; Nd 2 El (Some 200) []; Nd 3 Misc (Some 200) []]]], None). Proof. vm_compute. reflexivity. Qed.
(** ** A call that fails *)
Theorem c64_failed s o s' e : proper s -> (forall p ns, o <> Extend p ns) -> run s o = (s', Some e) -> same_trees s s'.
Proof.
  intros P N E. pose proof (p_once s P) as D. assert (X : forall n d f x, outcome s n d f x -> snd x = Some e -> same_trees s (fst x)).
  { intros n d f x O H. destruct O as [e'|s1 e' I C|s1 I C]; cbn [fst snd] in *; [intros q k o' l R; eauto| |discriminate]. intros q k o' l R. destruct (proj2 C _ _ _ _ R) as (o1 & R1 & _). eauto. }
  assert (Y : forall g put r n, (forall s n r d, NoDup (all s) -> In n (all s) -> In r (all s) -> ~ below s n r -> changed s (move (attach s n d) n r g) n d (fun q l => put r n (minus n l))) -> snd (beside g s r n) = Some e -> same_trees s (fst (beside g s r n))).
  { intros g put r n G H. destruct (in_dec Nat.eq_dec r (all s)) as [I|M]; [exact (X _ _ _ _ (proj1 (beside_out g put s r n G D I)) H)|]. unfold beside. replace (kind_of s r) with (@None kind) by (symmetry; now apply kind_none). intros q k o' l R. cbn [fst]. eauto. }
  change s' with (fst (s', Some e)). rewrite <- E. assert (H : snd (run s o) = Some e) by now rewrite E. clear E. destruct o as [p n|p i n|p n c|r n|r n|p n|n|p a b|p ns|n d|n]; cbn [run] in *; try discriminate H.
  - exact (X _ _ _ _ (proj1 (append_out s p n D)) H).
  - exact (X _ _ _ _ (proj1 (insert_out s p i n D)) H).
  - exact (X _ _ _ _ (proj1 (insert_before_out s p n c D)) H).
  - exact (Y add_after after r n after_changed H).
  - exact (Y add_before before r n before_changed H).
  - exact (X _ _ _ _ (proj1 (remove_out s p n D)) H).
  - unfold remove_self in *. destruct (parent_of s n) as [p|]; [exact (X _ _ _ _ (proj1 (remove_out s p n D)) H)|discriminate H].
  - exact (X _ _ _ _ (proj1 (replace_out s p a b D)) H).
  - elim (N p ns eq_refl).
Qed.
Print Assumptions c64_failed.
(** ** Histories *)
Theorem c64_tree s ops : proper s -> proper (runs s ops) /\ Permutation (all s) (all (runs s ops)).
Proof. apply runs_keeps. Qed.
Print Assumptions c64_tree.
Theorem c64_one_parent s ops : proper s -> forall n p p' k k' o o' l l', Row (runs s ops) p k o l -> Row (runs s ops) p' k' o' l' -> In n l -> In n l' -> p = p'.
Proof. intros P n p p' k k' o o' l l' R R' J J'. destruct (c64_tree s ops P) as [[D _] _]. exact (one_parent _ n _ _ _ _ _ _ _ _ D R R' J J'). Qed.
Print Assumptions c64_one_parent.
Example ex_history : runs f0 [Append 0 5; Append 5 0; Replace 0 1 4; Extend 4 [1; 9]; RemoveSelf 3] = [[Nd 0 El (Some 100) [Nd 4 El (Some 100) []; Nd 2 El (Some 100) []; Nd 5 El (Some 100) []]]; []; [Nd 1 El (Some 100) []]; [Nd 3 Misc (Some 100) []]].
Proof. vm_compute. reflexivity. Qed.
(** ** Documents *)
Theorem c64_owner_document s n d : proper s -> In n (all s) -> doc s n d <-> owner_document s n = d.
Proof.
  intros P I. pose proof (owner_doc s n (p_once s P) I) as O. split; [|intros <-; exact O]. intros X. exact (eq_sym (doc_det s n d (p_once s P) X _ O)).
Qed.
Print Assumptions c64_owner_document.
Theorem c64_attach s n d : proper s -> In n (all s) -> changed s (attach s n d) n d (fun _ l => l).
Proof. intros P I. exact (attach_changed s n d (p_once s P) I). Qed.
Print Assumptions c64_attach.
Theorem c64_detach s n : proper s -> In n (all s) -> Permutation (all s) (all (detach s n)) /\
  forall q k o l, Row s q k o l -> exists o', Row (detach s n) q k o' l /\ (below s n q -> o' = None) /\ (~ below s n q -> o' = o).
Proof. intros P I. exact (detach_rows s n (p_once s P) I). Qed.
Print Assumptions c64_detach.
(* a detached node below another still answers with the document above it *)
Example ex_detach : owner_document (detach f0 1) 3 = Some 100 /\ owner_document (detach f0 0) 3 = None /\ owner_document (attach f0 1 (Some 7)) 3 = Some 7. Proof. vm_compute. auto. Qed.
Theorem c64_documents_partial s ops : proper s -> same_docs s -> tames s ops -> same_docs (runs s ops).
Proof. apply runs_docs. Qed.
Print Assumptions c64_documents_partial.
Example ex_documents : tames f0 [Append 0 5; Append 5 0; AddNext 2 4; Extend 5 [1; 4]; InsertBefore 0 3 None; RemoveSelf 3]. Proof. vm_compute. repeat split; discriminate. Qed.
(** ** What does not hold *)
(* a node refused as a second root has changed its document, though it has not moved *)
Theorem c64_addnext_refuted : exists s r n s', proper s /\ same_docs s /\ addnext s r n = (s', Some TypeError) /\ same_trees s s' /\ ~ same_docs s'.
Proof.
  exists f0, 4, 1. eexists. split; [exact f0_proper|]. split; [exact f0_docs|]. split; [vm_compute; reflexivity|]. split.
  - intros q k o l H. cbn in H. repeat destruct H as [H|H]; try (destruct H; fail); injection H as <- <- <- <-; eexists; cbn; intuition reflexivity.
  - intros S. destruct (S 0 El (Some 100) [1; 2]) as (d & [= <-] & H); [cbn; auto|]. specialize (H 1 El (Some 200) [3] (or_introl eq_refl)). cbn in H. assert (X : Some 200 = Some 100) by (apply H; auto). discriminate X.
Qed.
Print Assumptions c64_addnext_refuted.
(* when extend refuses its second node, the first stays where it was with the other document *)
Theorem c64_extend_refuted : exists s p ns s' e, proper s /\ same_docs s /\ extend s p ns = (s', Some e) /\ same_trees s s' /\ ~ same_docs s'.
Proof.
  exists f0, 4, [1; 9]. do 2 eexists. split; [exact f0_proper|]. split; [exact f0_docs|]. split; [vm_compute; reflexivity|]. split.
  - intros q k o l H. cbn in H. repeat destruct H as [H|H]; try (destruct H; fail); injection H as <- <- <- <-; eexists; cbn; intuition reflexivity.
  - intros S. destruct (S 0 El (Some 100) [1; 2]) as (d & [= <-] & H); [cbn; auto|]. specialize (H 1 El (Some 200) [3] (or_introl eq_refl)). cbn in H. assert (X : Some 200 = Some 100) by (apply H; auto). discriminate X.
Qed.
Print Assumptions c64_extend_refuted.
(* a tree without a document does not take the document of what is put into it away *)
Theorem c64_append_refuted : exists s p n s', proper s /\ append s p n = (s', None) /\ owner_document s p = None /\ owner_document s' p = None /\ owner_document s' n <> None.
Proof.
  exists (detach f0 4), 4, 1. eexists. split; [exact (proj1 (detach_keeps f0 4 f0_proper))|]. split; [vm_compute; reflexivity|]. vm_compute. repeat split; discriminate.
Qed.
Print Assumptions c64_append_refuted.
(* unlike list.insert, a negative index below all puts the node last *)
Theorem c64_insert_refuted : exists s p i n s' o l, proper s /\ Row s p El o l /\ (i < - Z.of_nat (length l))%Z /\ insert s p i n = (s', None) /\ Row s' p El o (l ++ [n]).
Proof.
  exists f0, 0, (-3)%Z, 5. eexists. exists (Some 100), [1; 2]. split; [exact f0_proper|]. split; [cbn; auto|]. split; [cbn; lia|]. split; [vm_compute; reflexivity|]. cbn. auto.
Qed.
Print Assumptions c64_insert_refuted.
