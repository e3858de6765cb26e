From Coq Require Import ZArith Lia Permutation.
From Verif Require Import PyBase ForestModel ForestSpec ForestProofs ForestProofs2 ForestProofs3 ForestProofs4 ForestProofs5.
#[local] Open Scope nat_scope.

Lemma below_in s n x : below s n x -> In n (all s).
Proof. induction 1; auto. Qed.
Lemma owner_same s p k o l : NoDup (all s) -> same_docs s -> Row s p k o l -> o = owner_document s p /\ exists d, o = Some d.
Proof.
  intros D S R. destruct (S _ _ _ _ R) as (d & -> & _). split; [|eauto]. apply (doc_det s p (Some d) D); [exact (doc_own s p k d l R)|]. apply owner_doc; [exact D|exact (Row_in _ _ _ _ _ R)].
Qed.
Lemma below_doc s n x k o l : NoDup (all s) -> same_docs s -> below s n x -> Row s n k o l -> forall k' o' l', Row s x k' o' l' -> o' = o.
Proof.
  intros D S B R. induction B as [I|q kq oq lq c B IH Rq J]; intros k' o' l' R'.
  - now destruct (Row_det _ _ _ _ _ _ _ _ D R R') as (_ & -> & _).
  - pose proof (IH _ _ _ Rq) as ->. destruct (S _ _ _ _ Rq) as (d & -> & H). exact (H c _ _ _ J R').
Qed.
Lemma changed_docs s s' n d f : NoDup (all s) -> same_docs s -> changed s s' n (Some d) f ->
  (forall q k o l c, Row s q k o l -> In c (f q l) -> (c = n /\ o = Some d) \/ (In c l /\ c <> n)) -> same_docs s'.
Proof.
  intros D S C H q k o' l' R'. destruct (changed_back _ _ _ _ _ _ _ _ _ C D R') as (o & l & R & -> & G1 & G2). destruct (S _ _ _ _ R) as (e & -> & He).
  assert (Kid : forall c k2 o2 l2, In c (f q l) -> Row s' c k2 o2 l2 -> (c = n -> o2 = Some d) /\ (c <> n -> In c l /\ (below s n q -> o2 = Some d) /\ (~ below s n q -> o2 = Some e))).
  { intros c k2 o2 l2 J R2. destruct (changed_back _ _ _ _ _ _ _ _ _ C D R2) as (o0 & l0 & R0 & _ & G3 & G4). split.
    - intros ->. apply G3. constructor. exact (Row_in _ _ _ _ _ R0).
    - intros Q. destruct (H _ _ _ _ _ R J) as [[Z _]|[Jl _]]; [congruence|]. split; [exact Jl|]. split.
      + intros B. apply G3. exact (below_child s n q k (Some e) l c B R Jl).
      + intros B. rewrite G4; [exact (He c _ _ _ Jl R0)|]. intros Z. apply B. exact (below_kid s n q k (Some e) l c D R Jl Q Z). }
  assert (Dec : below s n q \/ ~ below s n q) by (destruct (within s n q) eqn:W; [left; now apply within_below|right; intros Z; apply within_below in Z; [congruence|exact D]]).
  destruct Dec as [B|B].
  - exists d. split; [exact (G1 B)|]. intros c k2 o2 l2 J R2. destruct (Kid _ _ _ _ J R2) as [K1 K2]. destruct (Nat.eq_dec c n) as [Z|Z]; [auto|]. now apply K2.
  - exists e. split; [exact (G2 B)|]. intros c k2 o2 l2 J R2. destruct (Kid _ _ _ _ J R2) as [K1 K2]. destruct (Nat.eq_dec c n) as [Z|Z]; [|now apply K2]. rewrite (K1 Z). destruct (H _ _ _ _ _ R J) as [[_ X]|[_ X]]; congruence.
Qed.
Lemma changed_docs_none s s' n f : NoDup (all s) -> same_docs s -> changed s s' n None f -> (forall q k o l c, Row s q k o l -> In c (f q l) -> In c l) -> same_docs s'.
Proof.
  intros D S C H q k o' l' R'. assert (Same : forall q k o' l', Row s' q k o' l' -> exists l, Row s q k o' l /\ l' = f q l).
  { clear q k o' l' R'. intros q k o' l' R'. destruct (changed_back _ _ _ _ _ _ _ _ _ C D R') as (o & l & R & -> & G1 & G2). exists l. split; [|reflexivity]. destruct (within s n q) eqn:W.
    - apply within_below in W; [|exact D]. now rewrite (G1 W).
    - rewrite G2; [exact R|]. intros Z. apply within_below in Z; [congruence|exact D]. }
  destruct (Same _ _ _ _ R') as (l & R & ->). destruct (S _ _ _ _ R) as (e & -> & He). exists e. split; [reflexivity|]. intros c k2 o2 l2 J R2. destruct (Same _ _ _ _ R2) as (l0 & R0 & _). exact (He c _ _ _ (H _ _ _ _ _ R J) R0).
Qed.
(* the node already has the document *)
Lemma still_docs s s' n d k l : NoDup (all s) -> same_docs s -> changed s s' n (Some d) still -> Row s n k (Some d) l -> same_docs s'.
Proof.
  intros D S C R. apply (changed_docs s s' n d still D S C). intros q k' o' l' c R' J. unfold still in J. destruct (Nat.eq_dec c n) as [->|Q]; [|auto]. left. split; [reflexivity|]. destruct (S _ _ _ _ R') as (e & -> & H). symmetry. exact (H n _ _ _ J R).
Qed.
Lemma in_minus n c l : In c (minus n l) <-> In c l /\ c <> n.
Proof. unfold minus. rewrite filter_In. destruct (Nat.eqb_spec c n) as [->|Q]; cbn [negb]; intuition congruence. Qed.
Lemma last_local s p n d k l0 : NoDup (all s) -> Row s p k (Some d) l0 -> forall q k o l c, Row s q k o l -> In c (last_of p n q l) -> (c = n /\ o = Some d) \/ (In c l /\ c <> n).
Proof.
  intros D R q k' o l c R' J. unfold last_of in J. destruct (Nat.eqb_spec q p) as [->|_]; [|right; now apply in_minus].
  apply in_app_iff in J. destruct J as [J|[<-|[]]]; [right; now apply in_minus|]. left. split; [reflexivity|]. destruct (Row_det _ _ _ _ _ _ _ _ D R R') as (_ & <- & _). reflexivity.
Qed.
Definition only_adds (put : nat -> nat -> list nat -> list nat) : Prop := forall r n l c, In c (put r n l) -> In c l \/ (c = n /\ In r l).
Lemma adds_before : only_adds before.
Proof. intros r n l c J. unfold before in J. apply in_flat_map in J. destruct J as (x & Jx & J). destruct (Nat.eqb_spec x r) as [->|_]; cbn in J; [destruct J as [<-|[<-|[]]]; auto|destruct J as [<-|[]]; auto]. Qed.
Lemma adds_after : only_adds after.
Proof. intros r n l c J. unfold after in J. apply in_flat_map in J. destruct J as (x & Jx & J). destruct (Nat.eqb_spec x r) as [->|_]; cbn in J; [destruct J as [<-|[<-|[]]]; auto|destruct J as [<-|[]]; auto]. Qed.
Lemma adds_instead : only_adds instead.
Proof. intros r n l c J. unfold instead in J. apply in_map_iff in J. destruct J as (y & E & Jy). destruct (Nat.eqb y r) eqn:Z; [apply Nat.eqb_eq in Z; right; subst; auto|left; now subst]. Qed.
(* the document handed over is that of the node beside which, or below whose parent, it goes *)
Lemma side_local put s r n d : only_adds put -> NoDup (all s) -> same_docs s -> (forall q k o l, Row s q k o l -> In r l -> o = Some d) ->
  forall q k o l c, Row s q k o l -> In c (side put r n q l) -> (c = n /\ o = Some d) \/ (In c l /\ c <> n).
Proof.
  intros Ad D S Hr q k o l c R J. unfold side in J. destruct (Nat.eqb_spec r n) as [->|Q].
  - unfold still in J. destruct (Nat.eq_dec c n) as [->|Z]; [|auto]. left. split; [reflexivity|]. exact (Hr _ _ _ _ R J).
  - apply Ad in J. destruct J as [J|[-> J]]; [right; now apply in_minus|]. left. split; [reflexivity|]. apply in_minus in J. exact (Hr _ _ _ _ R (proj1 J)).
Qed.
Lemma below_dec s n q : NoDup (all s) -> below s n q \/ ~ below s n q.
Proof. intros D. destruct (within s n q) eqn:W; [left; now apply within_below|right; intros Z; apply within_below in Z; [congruence|exact D]]. Qed.
(* an outcome whose failures other than early ones come from a node above the place *)
Lemma outcome_docs s n d f x p k l : NoDup (all s) -> same_docs s -> Row s p k (Some d) l -> outcome s n (Some d) f x -> (snd x <> None -> fst x = s \/ below s n p) ->
  (snd x = None -> forall q k o l c, Row s q k o l -> In c (f q l) -> (c = n /\ o = Some d) \/ (In c l /\ c <> n)) -> same_docs (fst x).
Proof.
  intros D S R O F H. destruct O as [e|s' e I C|s' I C]; cbn [fst snd] in *; [exact S| |exact (changed_docs s s' n d f D S C (H eq_refl))].
  destruct F as [->|B]; [discriminate|exact S|]. destruct (in_Row s n I) as (k' & o' & l' & R'). pose proof (below_doc s n p k' o' l' D S B R' _ _ _ R) as E. subst o'. exact (still_docs s s' n d k' l' D S C R').
Qed.
Lemma pre_some s p n c e : pre_insertion s p n c = Some e -> forall o l, NoDup (all s) -> Row s p El o l -> In n (all s) -> match c with Some c => In c l | None => True end -> False.
Proof. intros E o l D R I J. assert (X : pre_insertion s p n c = None) by (apply pre_ok; [exact D|]; eauto). congruence. Qed.
Lemma append_docs s p n : NoDup (all s) -> same_docs s -> same_docs (fst (append s p n)).
Proof.
  intros D S. destruct (append_out s p n D) as [O E]. destruct (pre_insertion s p n None) as [e|] eqn:X; [unfold append in *; rewrite X in *; exact S|]. apply pre_ok in X; [|exact D]. destruct X as (o & l & R & I & _). destruct (owner_same s p El o l D S R) as (Q & d & ->). rewrite <- Q in O.
  apply (outcome_docs s n d _ _ p El l D S R O).
  - intros Z. right. destruct (below_dec s n p D) as [B|B]; [exact B|]. elim Z. apply E. eauto.
  - intros _. exact (last_local s p n d El l D R).
Qed.
Lemma kid_doc s p k o l c : NoDup (all s) -> same_docs s -> Row s p k o l -> In c l -> forall q k' o' l', Row s q k' o' l' -> In c l' -> o' = o.
Proof. intros D S R J q k' o' l' R' J'. pose proof (one_parent s c _ _ _ _ _ _ _ _ D R' R J' J) as ->. now destruct (Row_det _ _ _ _ _ _ _ _ D R R') as (_ & -> & _). Qed.
Lemma insert_docs s p i n : NoDup (all s) -> same_docs s -> same_docs (fst (insert s p i n)).
Proof.
  intros D S. destruct (insert_out s p i n D) as [O E]. destruct (pre_insertion s p n None) as [e|] eqn:X; [unfold insert in *; rewrite X in *; exact S|]. apply pre_ok in X; [|exact D]. destruct X as (o & l & R & I & _). destruct (owner_same s p El o l D S R) as (Q & d & ->). rewrite <- Q in O.
  apply (outcome_docs s n d _ _ p El l D S R O).
  - intros Z. right. destruct (below_dec s n p D) as [B|B]; [exact B|]. elim Z. apply E. eauto.
  - intros _. unfold at_child. rewrite (proj2 (kind_row s p El (Some d) l D R)). destruct (find_child l i) as [c|] eqn:Fc; [|exact (last_local s p n d El l D R)]. apply find_child_in in Fc. exact (side_local before s c n d adds_before D S (kid_doc s p El (Some d) l c D S R Fc)).
Qed.
Lemma reference_in s p n child o l : NoDup (all s) -> Row s p El o l -> match child with Some c => In c l | None => True end -> match reference s p n child with Some c => In c l | None => True end.
Proof.
  intros D R J. unfold reference. destruct child as [c|]; [|exact I]. destruct (Nat.eqb_spec c n) as [->|Q]; [|exact J]. rewrite (proj2 (kind_row s p El o l D R)). destruct (next_split n l (kids_once s p El o l D R) J) as (a & b & -> & _ & _ & ->). destruct b; cbn [hd_error]; [exact I|]. rewrite in_app_iff. cbn. auto.
Qed.
Lemma giver_doc s p n child o l : NoDup (all s) -> same_docs s -> Row s p El o l -> match child with Some c => In c l | None => True end -> giver s p n child = owner_document s p.
Proof.
  intros D S R J. unfold giver. pose proof (reference_in s p n child o l D R J) as Z. destruct (reference s p n child) as [c|]; [|reflexivity]. exact (doc_kid s p El o l c D S R Z).
Qed.
Lemma insert_before_docs s p n child : NoDup (all s) -> same_docs s -> same_docs (fst (insert_before s p n child)).
Proof.
  intros D S. destruct (insert_before_out s p n child D) as [O E]. destruct (pre_insertion s p n child) as [e|] eqn:X; [unfold insert_before in *; rewrite X in *; exact S|]. apply pre_ok in X; [|exact D]. destruct X as (o & l & R & I & J). rewrite (giver_doc s p n child o l D S R J) in O. destruct (owner_same s p El o l D S R) as (Q & d & ->). rewrite <- Q in O.
  apply (outcome_docs s n d _ _ p El l D S R O).
  - intros Z. right. destruct (below_dec s n p D) as [B|B]; [exact B|]. elim Z. apply E. eauto 6.
  - intros _. unfold at_before. destruct child as [c|]; [|exact (last_local s p n d El l D R)]. exact (side_local before s c n d adds_before D S (kid_doc s p El (Some d) l c D S R J)).
Qed.
Lemma replace_docs s p a n : NoDup (all s) -> same_docs s -> same_docs (fst (replace s p a n)).
Proof.
  intros D S. destruct (replace_out s p a n D) as [O E]. destruct (pre_insertion s p n (Some a)) as [e|] eqn:X; [unfold replace in *; rewrite X in *; exact S|]. apply pre_ok in X; [|exact D]. destruct X as (o & l & R & I & J). destruct (owner_same s p El o l D S R) as (Q & d & ->). rewrite <- Q in O.
  apply (outcome_docs s n d _ _ p El l D S R O).
  - intros Z. right. destruct (below_dec s n p D) as [B|B]; [exact B|]. elim Z. apply E. eauto 6.
  - intros _. exact (side_local instead s a n d adds_instead D S (kid_doc s p El (Some d) l a D S R J)).
Qed.
Lemma remove_docs s p n : NoDup (all s) -> same_docs s -> same_docs (fst (remove s p n)).
Proof.
  intros D S. destruct (remove_out s p n D) as [O _]. inversion O as [e He|s' e I C He|s' I C He]; cbn [fst]; [exact S| |].
  - apply (changed_docs_none s s' n still D S C). intros; assumption.
  - apply (changed_docs_none s s' n _ D S C). intros q k o l c _ J. now apply in_minus in J.
Qed.
Lemma side_docs g put s r n : (forall s n r d, NoDup (all s) -> In n (all s) -> In r (all s) -> ~ below s n r -> changed s (move (attach s n d) n r g) n d (fun q l => put r n (minus n l))) ->
  only_adds put -> NoDup (all s) -> same_docs s -> snd (beside g s r n) <> Some TypeError -> same_docs (fst (beside g s r n)).
Proof.
  intros G Ad D S T. destruct (kind_of s r) as [kr|] eqn:Kr; [|unfold beside; rewrite Kr; exact S]. destruct (kind_some s r kr Kr) as (o & l & R). pose proof (Row_in _ _ _ _ _ R) as Ir. destruct (beside_out g put s r n G D Ir) as [O E]. destruct (owner_same s r kr o l D S R) as (Q & d & ->). rewrite <- Q in O.
  apply (outcome_docs s n d _ _ r kr l D S R O).
  - intros Z. destruct (below_dec s n r D) as [B|B]; [now right|]. left. destruct (kind_of s n) as [k|] eqn:K; [|unfold beside; now rewrite Kr, K].
    assert (I : In n (all s)) by (destruct (kind_some s n k K) as (o' & l' & Rw); exact (Row_in _ _ _ _ _ Rw)). elim Z. apply E. split; [exact I|]. split; [now right|]. intros [Pr [= ->]]. apply T. unfold beside. rewrite Kr, K. unfold lx_beside. pose proof (attach_changed s n (owner_document s r) D I) as C.
    rewrite (parent_same s _ n _ r D C), (proj1 (kind_same s _ n _ n D C)), K. destruct (parent_of s r) as [q|] eqn:Pq; [|reflexivity]. destruct (parent_row s r q Pq) as (k' & o' & l' & R' & J'). elim (Pr _ _ _ _ R' J').
  - intros _. apply (side_local put s r n d Ad D S). intros q k o' l' R' J'. destruct (S _ _ _ _ R') as (e & -> & H). symmetry. exact (H r _ _ _ J' R).
Qed.
