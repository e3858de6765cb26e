From Coq Require Import ZArith Lia Permutation.
From Verif Require Import PyBase ForestModel ForestSpec ForestProofs ForestProofs2 ForestProofs3.
#[local] Open Scope nat_scope.

Lemma changed_all s s' n d f x : changed s s' n d f -> In x (all s) <-> In x (all s').
Proof. intros [P _]. split; [apply (Permutation_in _ P)|apply (Permutation_in _ (Permutation_sym P))]. Qed.
Lemma changed_once s s' n d f : changed s s' n d f -> NoDup (all s) -> NoDup (all s').
Proof. intros [P _] D. eapply Permutation_NoDup; eauto. Qed.
Lemma changed_back s s' n d f q k o' l' : changed s s' n d f -> NoDup (all s) -> Row s' q k o' l' -> exists o l, Row s q k o l /\ l' = f q l /\ given s n d q o o'.
Proof.
  intros C D R. pose proof (changed_once _ _ _ _ _ C D) as D'. assert (I : In q (all s)) by (apply (changed_all s s' n d f q C); exact (Row_in _ _ _ _ _ R)). destruct (in_Row s q I) as (k0 & o & l & R0). destruct (proj2 C _ _ _ _ R0) as (o1 & R1 & G).
  destruct (Row_det _ _ _ _ _ _ _ _ D' R R1) as (-> & -> & ->). exists o, l. auto.
Qed.
Lemma changed_proper s s' n d f : proper s -> changed s s' n d f -> (forall q o, Row s q Misc o [] -> f q [] = []) -> proper s'.
Proof.
  intros [D L] C H. split; [exact (changed_once _ _ _ _ _ C D)|]. intros q o' l' R. destruct (changed_back s s' n d f q Misc o' l' C D R) as (o & l & R0 & -> & _). pose proof (L _ _ _ R0) as ->. now apply (H q o).
Qed.
(** ** attach keeps the tree *)
Lemma below_same s s' n d : NoDup (all s) -> changed s s' n d (fun _ l => l) -> forall a b, below s a b <-> below s' a b.
Proof.
  intros D C a b. split.
  - induction 1 as [I|q k o l c B IH R J]; [constructor; now apply (changed_all _ _ _ _ _ a C)|]. destruct (proj2 C _ _ _ _ R) as (o' & R' & _). exact (below_child s' a q k o' l c IH R' J).
  - induction 1 as [I|q k o l c B IH R J]; [constructor; now apply (changed_all _ _ _ _ _ a C)|]. destruct (changed_back s s' n d _ q k o l C D R) as (o0 & l0 & R' & -> & _). exact (below_child s a q k o0 l0 c IH R' J).
Qed.
Lemma kind_same s s' n d x : NoDup (all s) -> changed s s' n d (fun _ l => l) -> kind_of s' x = kind_of s x /\ child_list s' x = child_list s x.
Proof.
  intros D C. pose proof (changed_once _ _ _ _ _ C D) as D'. destruct (in_dec Nat.eq_dec x (all s)) as [I|N].
  - destruct (in_Row s x I) as (k & o & l & R). destruct (proj2 C _ _ _ _ R) as (o' & R' & _). destruct (kind_row s x k o l D R) as [-> ->]. destruct (kind_row s' x k o' l D' R') as [-> ->]. auto.
  - assert (N' : ~ In x (all s')) by (intros J; apply N; now apply (changed_all _ _ _ _ _ x C)). unfold kind_of, child_list. destruct (seek_in s x) as [t|] eqn:E; [elim N; exact (seek_in_some _ _ _ E)|]. destruct (seek_in s' x) as [t|] eqn:E'; [elim N'; exact (seek_in_some _ _ _ E')|]. auto.
Qed.
Lemma parent_same s s' n d x : NoDup (all s) -> changed s s' n d (fun _ l => l) -> parent_of s' x = parent_of s x.
Proof.
  intros D C. destruct (parent_of s x) as [p|] eqn:E; destruct (parent_of s' x) as [p'|] eqn:E'; try reflexivity.
  - destruct (parent_row s x p E) as (k & o & l & R & J). destruct (parent_row s' x p' E') as (k' & o' & l' & R' & J'). destruct (changed_back s s' n d _ _ _ _ _ C D R') as (o0 & l0 & R0 & -> & _). now rewrite (one_parent s x _ _ _ _ _ _ _ _ D R0 R J' J).
  - destruct (parent_row s x p E) as (k & o & l & R & J). destruct (proj2 C _ _ _ _ R) as (o' & R' & _). elim (parent_none s' x E' _ _ _ _ R' J).
  - destruct (parent_row s' x p' E') as (k' & o' & l' & R' & J'). destruct (changed_back s s' n d _ _ _ _ _ C D R') as (o0 & l0 & R0 & -> & _). elim (parent_none s x E _ _ _ _ R0 J').
Qed.
Lemma bool_iff (a b : bool) : (a = true <-> b = true) -> a = b. Proof. destruct a, b; intuition congruence. Qed.
Lemma within_same s s' n d a b : NoDup (all s) -> changed s s' n d (fun _ l => l) -> within s' a b = within s a b.
Proof. intros D C. apply bool_iff. rewrite !within_below; [|exact D|exact (changed_once _ _ _ _ _ C D)]. symmetry. exact (below_same s s' n d D C a b). Qed.

(** ** The methods *)
Definition last_of (p n : nat) (q : nat) (l : list nat) : list nat := if Nat.eqb q p then minus n l ++ [n] else minus n l.
Definition still (q : nat) (l : list nat) : list nat := l.
(* how a call ends: nothing done, only the documents changed, or changed as [f] says *)
Inductive outcome (s : forest) (n : nat) (d : option nat) (f : nat -> list nat -> list nat) : step -> Prop :=
  | out_none e : outcome s n d f (s, Some e)
  | out_docs s' e : In n (all s) -> changed s s' n d still -> outcome s n d f (s', Some e)
  | out_ok s' : In n (all s) -> changed s s' n d f -> outcome s n d f (s', None).
Lemma pre_ok s p n c : NoDup (all s) -> pre_insertion s p n c = None <-> exists o l, Row s p El o l /\ In n (all s) /\ match c with Some c => In c l | None => True end.
Proof.
  intros D. unfold pre_insertion. destruct (kind_of s p) as [[|]|] eqn:K.
  - destruct (kind_some s p El K) as (o & l & R). rewrite (proj2 (kind_row s p El o l D R)). assert (X : match kind_of s n with Some _ => None | None => Some HierarchyRequestError end = None <-> In n (all s)).
    { destruct (kind_of s n) eqn:E; split; try discriminate; auto.
      - intros _. destruct (in_dec Nat.eq_dec n (all s)) as [I|I]; [exact I|]. apply kind_none in I. congruence.
      - apply kind_none in E. tauto. }
    split.
    + intros H. exists o, l. split; [exact R|]. destruct c as [c|]; [|now apply X in H]. destruct (existsb (Nat.eqb c) l) eqn:E; cbn [negb] in H; [|discriminate]. split; [now apply X|]. apply existsb_exists in E. destruct E as (y & I & J). apply Nat.eqb_eq in J. now subst.
    + intros (o1 & l1 & R1 & I & J). destruct (Row_det _ _ _ _ _ _ _ _ D R R1) as (_ & -> & ->). apply X in I. destruct c as [c|]; [|exact I]. replace (existsb (Nat.eqb c) l1) with true; [exact I|]. symmetry. apply existsb_exists. exists c. split; [exact J|apply Nat.eqb_refl].
  - split; [discriminate|]. intros (o & l & R & _). rewrite (proj1 (kind_row s p El o l D R)) in K. discriminate.
  - split; [discriminate|]. intros (o & l & R & _). apply kind_none in K. elim K. exact (Row_in _ _ _ _ _ R).
Qed.
Lemma lx_append_out s p n d : NoDup (all s) -> In n (all s) -> In p (all s) -> outcome s n d (last_of p n) (lx_append (attach s n d) p n) /\ (snd (lx_append (attach s n d) p n) = None <-> ~ below s n p).
Proof.
  intros D N P. pose proof (attach_changed s n d D N) as C. unfold lx_append. rewrite (within_same s _ n d n p D C). destruct (within s n p) eqn:W; cbn [snd].
  - apply within_below in W; [|exact D]. split; [now apply out_docs|]. split; [discriminate|tauto].
  - assert (B : ~ below s n p) by (intros B; apply within_below in B; [congruence|exact D]). split; [|tauto]. apply out_ok; [exact N|]. now apply append_changed.
Qed.
Lemma append_out s p n : NoDup (all s) -> outcome s n (owner_document s p) (last_of p n) (append s p n) /\
  (snd (append s p n) = None <-> (exists o l, Row s p El o l) /\ In n (all s) /\ ~ below s n p).
Proof.
  intros D. unfold append. destruct (pre_insertion s p n None) as [e|] eqn:E.
  - split; [constructor|]. cbn [snd]. split; [discriminate|]. intros ((o & l & R) & I & _). assert (X : pre_insertion s p n None = None) by (apply pre_ok; [exact D|]; eauto). congruence.
  - apply pre_ok in E; [|exact D]. destruct E as (o & l & R & I & _). destruct (lx_append_out s p n (owner_document s p) D I (Row_in _ _ _ _ _ R)) as [A B]. split; [exact A|]. rewrite B. intuition eauto.
Qed.
(* before itself is where it is *)
Lemma find_child_in l i c : find_child l i = Some c -> In c l.
Proof. unfold find_child. destruct (i <? 0)%Z; intros H; apply nth_error_In in H; [now apply in_rev|exact H]. Qed.
Definition at_child (p n : nat) (o : option nat) : nat -> list nat -> list nat :=
  match o with Some c => if Nat.eqb c n then still else fun _ l => before c n (minus n l) | None => last_of p n end.
Lemma below_kid s n p k o l c : NoDup (all s) -> Row s p k o l -> In c l -> c <> n -> below s n c -> below s n p.
Proof.
  intros D R J N B. inversion B as [I|q k' o' l' c' B' R' J']; subst; [congruence|]. now rewrite (one_parent s c _ _ _ _ _ _ _ _ D R R' J J').
Qed.
Lemma kid_in s p k o l c : Row s p k o l -> In c l -> In c (all s).
Proof. intros R J. apply (Permutation_in _ (Permutation_sym (all_kids s))). apply in_or_app. right. apply in_flat_map. exists (p, k, o, l). auto. Qed.
Lemma insert_out s p i n : NoDup (all s) -> outcome s n (owner_document s p) (at_child p n (find_child (child_list s p) i)) (insert s p i n) /\
  (snd (insert s p i n) = None <-> (exists o l, Row s p El o l) /\ In n (all s) /\ ~ below s n p).
Proof.
  intros D. unfold insert. destruct (pre_insertion s p n None) as [e|] eqn:E.
  - split; [constructor|]. cbn [snd]. split; [discriminate|]. intros ((o & l & R) & I & _). assert (X : pre_insertion s p n None = None) by (apply pre_ok; [exact D|]; eauto). congruence.
  - apply pre_ok in E; [|exact D]. destruct E as (o & l & R & I & _). set (d := owner_document s p). pose proof (attach_changed s n d D I) as C. unfold lx_insert. rewrite (proj2 (kind_same s _ n d p D C)). destruct (find_child (child_list s p) i) as [c|] eqn:F; cbn [at_child].
    + rewrite (within_same s _ n d n p D C). rewrite (proj2 (kind_row s p El o l D R)) in F. apply find_child_in in F. destruct (within s n p) eqn:W; cbn [snd].
      * apply within_below in W; [|exact D]. split; [now apply out_docs|]. intuition discriminate.
      * assert (B : ~ below s n p) by (intros B; apply within_below in B; [congruence|exact D]). destruct (Nat.eqb_spec c n) as [->|Q]; cbn [snd].
        -- split; [now apply out_ok|]. intuition eauto.
        -- split; [|intuition eauto]. apply out_ok; [exact I|]. apply before_changed; auto; [exact (kid_in s p El o l c R F)|]. intros Z. apply B. exact (below_kid s n p El o l c D R F Q Z).
    + destruct (lx_append_out s p n d D I (Row_in _ _ _ _ _ R)) as [A B]. split; [exact A|]. rewrite B. intuition eauto.
Qed.
Definition side (put : nat -> nat -> list nat -> list nat) (r n : nat) : nat -> list nat -> list nat :=
  if Nat.eqb r n then still else fun _ l => put r n (minus n l).
Lemma beside_out g put s r n : (forall s n r d, NoDup (all s) -> In n (all s) -> In r (all s) -> ~ below s n r -> changed s (move (attach s n d) n r g) n d (fun q l => put r n (minus n l))) ->
  NoDup (all s) -> In r (all s) -> outcome s n (owner_document s r) (side put r n) (beside g s r n) /\
  (snd (beside g s r n) = None <-> In n (all s) /\ (r = n \/ ~ below s n r) /\ ~ (parentless s r /\ kind_of s n = Some El)).
Proof.
  intros G D R. unfold beside. set (d := owner_document s r). destruct (kind_of s r) as [kr|] eqn:Kr; [|apply kind_none in Kr; tauto]. destruct (kind_of s n) as [k|] eqn:K.
  - assert (I : In n (all s)) by (destruct (kind_some s n k K) as (o & l & Rw); exact (Row_in _ _ _ _ _ Rw)). pose proof (attach_changed s n d D I) as C. unfold lx_beside. rewrite (proj1 (kind_same s _ n d n D C)), (parent_same s _ n d r D C), (within_same s _ n d n r D C), K.
    assert (X : forall b, (b = true -> False) -> outcome s n d (side put r n) (if Nat.eqb r n then (attach s n d, None) else if within s n r then (attach s n d, Some ValueError) else (move (attach s n d) n r g, None)) /\
      (snd (if Nat.eqb r n then (attach s n d, None) else if within s n r then (attach s n d, Some ValueError) else (move (attach s n d) n r g, None)) = None <-> In n (all s) /\ (r = n \/ ~ below s n r) /\ ~ (b = true))).
    { intros b Hb. unfold side. destruct (Nat.eqb_spec r n) as [->|Q]; cbn [snd].
      - split; [now apply out_ok|]. tauto.
      - destruct (within s n r) eqn:W; cbn [snd].
        + apply within_below in W; [|exact D]. split; [now apply out_docs|]. split; [discriminate|]. tauto.
        + assert (B : ~ below s n r) by (intros B; apply within_below in B; [congruence|exact D]). split; [apply out_ok; [exact I|now apply G]|]. split; [|reflexivity]. intros _. split; [exact I|]. split; [now right|exact Hb]. }
    destruct (parent_of s r) as [q|] eqn:P.
    + destruct (X false) as [X1 X2]; [discriminate|]. assert (F0 : false <> true) by discriminate. split; [exact X1|]. rewrite X2. assert (Y : ~ (parentless s r /\ Some k = Some El)); [|tauto]. intros [Z _]. destruct (parent_row s r q P) as (k' & o' & l' & R' & J'). exact (Z _ _ _ _ R' J').
    + destruct k.
      * cbn [snd]. split; [now apply out_docs|]. split; [discriminate|]. intros (_ & _ & Z). elim Z. split; [now apply parent_none|reflexivity].
      * destruct (X false) as [X1 X2]; [discriminate|]. assert (F0 : false <> true) by discriminate. split; [exact X1|]. rewrite X2. assert (Y : ~ (parentless s r /\ Some Misc = Some El)) by (intros [_ Z]; discriminate Z). tauto.
  - cbn [snd]. split; [constructor|]. split; [discriminate|]. intros [I _]. apply kind_none in K. tauto.
Qed.
Lemma next_split n l : NoDup l -> In n l -> exists a b, l = a ++ n :: b /\ ~ In n a /\ ~ In n b /\ next_in n l = hd_error b.
Proof.
  induction l as [|x l IH]; [intros _ []|]. intros D. apply NoDup_cons_iff in D. destruct D as [N D]. cbn [next_in]. destruct (Nat.eqb_spec x n) as [->|Q].
  - intros _. exists [], l. repeat split; auto.
  - intros [E|I]; [congruence|]. destruct (IH D I) as (a & b & -> & A & B & E). exists (x :: a), b. repeat split; auto. intros [Z|Z]; [congruence|tauto].
Qed.
Lemma minus_mid n a b : ~ In n a -> ~ In n b -> minus n (a ++ n :: b) = a ++ b.
Proof. intros A B. rewrite minus_subst, subst_app. change (n :: b) with ([n] ++ b). rewrite subst_app, subst_one, !subst_out by assumption. reflexivity. Qed.
Lemma before_mid c n a b : ~ In c a -> ~ In c b -> before c n (a ++ c :: b) = a ++ n :: c :: b.
Proof. intros A B. rewrite before_subst, subst_app. change (c :: b) with ([c] ++ b). rewrite subst_app, subst_one, !subst_out by assumption. reflexivity. Qed.
Lemma kids_once s p k o l : NoDup (all s) -> Row s p k o l -> NoDup l.
Proof.
  intros D R. rewrite all_kids in D. apply NoDup_app_iff in D. destruct D as (_ & D & _). unfold Row in R. revert D R. generalize (facts s). intros L. induction L as [|x L IH]; [intros _ []|]. cbn [flat_map]. rewrite NoDup_app_iff. intros (D1 & D2 & _) [->|R]; [exact D1|auto].
Qed.
Lemma changed_ext s s' n d f g : changed s s' n d f -> (forall q k o l, Row s q k o l -> f q l = g q l) -> changed s s' n d g.
Proof. intros [P C] E. split; [exact P|]. intros q k o l R. rewrite <- (E q k o l R). now apply C. Qed.
Definition at_before (p n : nat) (child : option nat) : nat -> list nat -> list nat :=
  match child with Some c => side before c n | None => last_of p n end.
Lemma doc_kid s p k o l c : NoDup (all s) -> same_docs s -> Row s p k o l -> In c l -> owner_document s c = owner_document s p.
Proof.
  intros D S R J. pose proof (kid_in s p k o l c R J) as I. destruct (in_Row s c I) as (k' & o' & l' & R'). destruct (S p k o l R) as (d & -> & H). rewrite (H c k' o' l' J R') in R'.
  rewrite <- (doc_det s c _ D (doc_own s c k' d l' R') _ (owner_doc s c D I)). exact (doc_det s p _ D (doc_own s p k d l R) _ (owner_doc s p D (Row_in _ _ _ _ _ R))).
Qed.
