From Coq Require Import ZArith Lia Permutation.
From Verif Require Import PyBase ForestModel ForestSpec ForestProofs ForestProofs2 ForestProofs3 ForestProofs4 ForestProofs5 ForestProofs6.
#[local] Open Scope nat_scope.

(** ** extend *)
Lemma handed_once s s' ns d f : NoDup (all s) -> handed s s' ns d f -> NoDup (all s').
Proof. intros D [P _]. exact (Permutation_NoDup P D). Qed.
Lemma attach_list_handed p d ns : forall s s', proper s -> attach_list s p d ns = (s', None) -> handed s s' ns d still.
Proof.
  induction ns as [|n ns IH]; intros s s' P; cbn [attach_list].
  - intros [= <-]. split; [reflexivity|]. intros q k o l R. exists o. split; [exact R|]. split; [intros (n & [] & _)|reflexivity].
  - destruct (pre_insertion s p n None) as [e|] eqn:E; [discriminate|]. intros H. pose proof (p_once s P) as D. apply pre_ok in E; [|exact D]. destruct E as (o0 & l0 & R0 & I & _). destruct (attach_keeps s n d P) as [P1 Q1]. pose proof (attach_changed s n d D I) as C. destruct (IH _ _ P1 H) as [Q2 X]. split; [exact (Permutation_trans Q1 Q2)|].
    intros q k o l R. destruct (proj2 C _ _ _ _ R) as (o1 & R1 & G1 & G2). destruct (X _ _ _ _ R1) as (o2 & R2 & G3 & G4). exists o2. split; [exact R2|]. pose proof (below_same s _ n d D C) as BS.
    assert (Dec : (exists m, In m ns /\ below (attach s n d) m q) \/ ~ exists m, In m ns /\ below (attach s n d) m q).
    { clear - P1. induction ns as [|m ns IH]; [right; intros (m & [] & _)|]. destruct (below_dec (attach s n d) m q (p_once _ P1)) as [B|B]; [left; exists m; split; [now left|exact B]|]. destruct IH as [(y & J & Y)|N]; [left; exists y; split; [now right|exact Y]|]. right. intros (y & [<-|J] & Y); [tauto|]. apply N. eauto. }
    split.
    + intros (m & J & B). destruct Dec as [Y|N].
      * rewrite (G3 Y). destruct d; [reflexivity|]. destruct (below_dec s n q D) as [Bn|Bn]; [exact (G1 Bn)|exact (G2 Bn)].
      * rewrite (G4 N). destruct J as [<-|J]; [exact (G1 B)|]. elim N. exists m. split; [exact J|]. now apply BS.
    + intros N. rewrite G4, G2; [reflexivity| |].
      * intros B. apply N. exists n. split; [now left|exact B].
      * intros (m & J & B). apply N. exists m. split; [now right|]. now apply BS.
Qed.
Lemma attach_list_ok_iff p d ns : forall s, proper s -> snd (attach_list s p d ns) = None <-> forall n, In n ns -> (exists o l, Row s p El o l) /\ In n (all s).
Proof.
  induction ns as [|n ns IH]; intros s P; cbn [attach_list]; [cbn; split; [intros _ ? []|reflexivity]|]. pose proof (p_once s P) as D. destruct (pre_insertion s p n None) as [e|] eqn:E.
  - cbn [snd]. split; [discriminate|]. intros H. destruct (H n (or_introl eq_refl)) as [(o & l & R) I]. elim (pre_some s p n None e E o l D R I Logic.I).
  - apply pre_ok in E; [|exact D]. destruct E as (o & l & R & I & _). destruct (attach_keeps s n d P) as [P1 Q1]. rewrite (IH _ P1). pose proof (attach_changed s n d D I) as C. split.
    + intros H m [<-|J]; [eauto|]. split; [eauto|]. apply (Permutation_in _ (Permutation_sym Q1)). now apply H.
    + intros H m J. destruct (proj2 C _ _ _ _ R) as (o1 & R1 & _). split; [eauto|]. apply (Permutation_in _ Q1). apply H. now right.
Qed.
(* the nodes above the place stay the same *)
Lemma above_same s s' p n d : NoDup (all s) -> changed s s' n d (last_of p n) -> In p (all s) -> ~ below s n p -> forall x, below s' x p <-> below s x p.
Proof.
  intros D C Ip N x. split.
  - assert (X : forall y, below s' x y -> below s x y \/ (below s n y /\ below s x p)).
    { induction 1 as [I|q k o' l' c B IH R' J].
      - left. constructor. now apply (changed_all _ _ _ _ _ x C).
      - destruct (changed_back _ _ _ _ _ _ _ _ _ C D R') as (o & l & R & -> & _). unfold last_of in J. destruct (Nat.eqb_spec q p) as [->|Q].
        + apply in_app_iff in J. destruct J as [J|[<-|[]]].
          * apply in_minus in J. destruct IH as [B0|[B0 _]]; [left; exact (below_child s x p k o l c B0 R (proj1 J))|tauto].
          * right. destruct IH as [B0|[B0 _]]; [|tauto]. split; [|exact B0]. assert (I : In n (all s')) by (apply (kid_in s' p k o' (minus n l ++ [n])); [|rewrite in_app_iff; cbn; auto]; unfold last_of in R'; now rewrite Nat.eqb_refl in R'). constructor. now apply (changed_all _ _ _ _ _ n C).
        + apply in_minus in J. destruct IH as [B0|[B0 B1]]; [left; exact (below_child s x q k o l c B0 R (proj1 J))|right; split; [exact (below_child s n q k o l c B0 R (proj1 J))|exact B1]]. }
    intros B. destruct (X p B) as [B0|[B0 _]]; [exact B0|tauto].
  - assert (X : forall y, below s x y -> ~ below s n y -> below s' x y).
    { induction 1 as [I|q k o l c B IH R J]; intros Nb.
      - constructor. now apply (changed_all _ _ _ _ _ x C).
      - assert (Nq : ~ below s n q) by (intros Z; apply Nb; exact (below_child s n q k o l c Z R J)). assert (Qc : c <> n) by (intros ->; apply Nb; constructor; exact (kid_in s q k o l n R J)). destruct (proj2 C _ _ _ _ R) as (o' & R' & _). apply (below_child s' x q k o' _ c (IH Nq) R'). unfold last_of. destruct (Nat.eqb q p); [apply in_app_iff; left|]; now apply in_minus. }
    intros B. exact (X p B N).
Qed.
Definition lasts (p : nat) (ns : list nat) (q : nat) (l : list nat) : list nat := fold_left (fun l n => last_of p n q l) ns l.
Lemma append_list_out p ns : forall s, proper s -> (exists o l, Row s p El o l) -> (forall n, In n ns -> In n (all s)) ->
  (snd (append_list s p ns) = None <-> forall n, In n ns -> ~ below s n p) /\
  (snd (append_list s p ns) = None -> forall q k o l, Row s q k o l -> Row (fst (append_list s p ns)) q k o (lasts p ns q l)).
Proof.
  induction ns as [|n ns IH]; intros s P (o & l & R) H; cbn [append_list]; [split; [cbn; split; [intros _ ? []|reflexivity]|intros _; cbn; auto]|]. pose proof (p_once s P) as D. destruct (lx_append_out s p n None D (H n (or_introl eq_refl)) (Row_in _ _ _ _ _ R)) as [O E]. rewrite attach_none in *.
  destruct (lx_append s p n) as [s' [e|]] eqn:L; cbn [fst snd] in *.
  - split; [|discriminate]. split; [discriminate|]. intros Z. assert (X : Some e = None) by (apply E; apply Z; now left). discriminate X.
  - assert (B : ~ below s n p) by (now apply E). inversion O as [| |s1 I1 C1]; subst. pose proof (changed_proper s s' n None _ P C1 (keeps_last s p n o l D R)) as P1. destruct (proj2 C1 _ _ _ _ R) as (o1 & R1 & _). destruct (IH s' P1) as [A1 A2]; [eauto|intros x Hx; apply (Permutation_in _ (proj1 C1)); apply H; now right|].
    pose proof (above_same s s' p n None D C1 (Row_in _ _ _ _ _ R) B) as Ab. split.
    + rewrite A1. split.
      * intros Z m [<-|J]; [exact B|]. rewrite <- Ab. now apply Z.
      * intros Z m J. rewrite Ab. apply Z. now right.
    + intros Z q k oq lq Rq. destruct (proj2 C1 _ _ _ _ Rq) as (o2 & R2 & G1 & G2). assert (Eo : o2 = oq) by (destruct (below_dec s n q D) as [Bq|Bq]; [exact (G1 Bq)|exact (G2 Bq)]). subst o2. exact (A2 Z _ _ _ _ R2).
Qed.
Lemma handed_below s s' ns d : NoDup (all s) -> handed s s' ns d still -> forall a b, below s' a b <-> below s a b.
Proof.
  intros D C a b. pose proof (handed_once _ _ _ _ _ D C) as D'. destruct C as [Pm C]. split.
  - induction 1 as [I|q k o l c B IH R J]; [constructor; exact (Permutation_in _ (Permutation_sym Pm) I)|]. assert (I : In q (all s)) by (apply (Permutation_in _ (Permutation_sym Pm)); exact (Row_in _ _ _ _ _ R)). destruct (in_Row s q I) as (k0 & o0 & l0 & R0). destruct (C _ _ _ _ R0) as (o1 & R1 & _). destruct (Row_det _ _ _ _ _ _ _ _ D' R R1) as (-> & -> & ->). exact (below_child s a q _ _ _ c IH R0 J).
  - induction 1 as [I|q k o l c B IH R J]; [constructor; exact (Permutation_in _ Pm I)|]. destruct (C _ _ _ _ R) as (o1 & R1 & _). exact (below_child s' a q _ _ _ c IH R1 J).
Qed.
Lemma extend_out s p ns : proper s -> (snd (extend s p ns) = None <-> forall n, In n ns -> (exists o l, Row s p El o l) /\ In n (all s) /\ ~ below s n p) /\
  (snd (extend s p ns) = None -> handed s (fst (extend s p ns)) ns (owner_document s p) (lasts p ns)).
Proof.
  intros P. pose proof (extend_keeps s p ns P) as [PK QK]. unfold extend in *. pose proof (attach_list_ok_iff p (owner_document s p) ns s P) as K1. destruct (attach_list s p (owner_document s p) ns) as [s1 [e|]] eqn:E; cbn [fst snd] in *.
  - split; [|discriminate]. split; [discriminate|]. intros H. assert (X : Some e = None) by (apply K1; intros n J; destruct (H n J) as (A & B & _); auto). discriminate X.
  - pose proof (attach_list_handed p _ ns s s1 P E) as Hd. pose proof (attach_list_keeps p (owner_document s p) ns s P) as [P1 Q1]. rewrite E in P1, Q1. cbn [fst] in P1, Q1. destruct ns as [|n0 ns0] eqn:Ens.
    + cbn [append_list fst snd attach_list] in *. injection E as <-. split; [split; [intros _ ? []|reflexivity]|]. intros _. exact Hd.
    + rewrite <- Ens in *. destruct (attach_list_ok p (owner_document s p) ns s s1 P E) as [A B]; [congruence|]. destruct (append_list_out p ns s1 P1 A B) as [O1 O2]. pose proof (handed_below s s1 ns _ (p_once s P) Hd) as HB. split.
      * rewrite O1. pose proof (proj1 K1 eq_refl) as K2. split.
        -- intros Z n J. destruct (K2 n J) as [K3 K4]. split; [exact K3|]. split; [exact K4|]. rewrite <- HB. now apply Z.
        -- intros Z n J. rewrite HB. now apply Z.
      * intros Z. split; [exact QK|]. intros q k o l R. destruct Hd as [_ Hd]. destruct (Hd _ _ _ _ R) as (o1 & R1 & G1 & G2). exists o1. split; [|auto]. exact (O2 Z _ _ _ _ R1).
Qed.
Lemma without_minus n ns l : without ns (minus n l) = without (n :: ns) l.
Proof.
  induction l as [|x l IH]; [reflexivity|]. unfold without, minus in *. cbn [filter existsb]. destruct (Nat.eqb x n); cbn [negb orb filter]; [exact IH|]. destruct (existsb (Nat.eqb x) ns); cbn [negb]; [exact IH|now rewrite IH].
Qed.
Lemma without_app ns a b : without ns (a ++ b) = without ns a ++ without ns b. Proof. apply filter_app. Qed.
Lemma lasts_eq p ns q : NoDup ns -> forall l, lasts p ns q l = if Nat.eqb q p then without ns l ++ ns else without ns l.
Proof.
  induction ns as [|n ns IH]; intros D l; cbn [lasts fold_left].
  - unfold without. cbn. rewrite app_nil_r. assert (X : filter (fun _ : nat => true) l = l) by (induction l; cbn; congruence). rewrite X. now destruct (Nat.eqb q p).
  - apply NoDup_cons_iff in D. destruct D as [N D]. fold (lasts p ns q (last_of p n q l)). rewrite (IH D). unfold last_of. destruct (Nat.eqb q p); [|now rewrite without_minus]. rewrite without_app, without_minus, <- app_assoc. f_equal. unfold without at 1. cbn [filter]. replace (existsb (Nat.eqb n) ns) with false; [reflexivity|]. symmetry. apply not_true_is_false. intros Z. apply existsb_exists in Z. destruct Z as (y & J & Y). apply Nat.eqb_eq in Y. now subst.
Qed.
(** ** Documents after extend *)
Lemma in_lasts p ns q : forall l c, In c (lasts p ns q l) -> (In c l /\ ~ In c ns) \/ (q = p /\ In c ns).
Proof.
  induction ns as [|n ns IH]; intros l c J; [left; split; [exact J|intros []]|]. cbn [lasts fold_left] in J. fold (lasts p ns q (last_of p n q l)) in J. destruct (IH _ _ J) as [[A B]|[A B]]; [|right; split; [exact A|now right]].
  unfold last_of in A. destruct (Nat.eqb_spec q p) as [->|Q].
  - apply in_app_iff in A. destruct A as [A|[<-|[]]]; [apply in_minus in A; left; split; [tauto|intros [Z|Z]; [now apply (proj2 A)|tauto]]|right; split; [reflexivity|now left]].
  - apply in_minus in A. left. split; [tauto|]. intros [Z|Z]; [now apply (proj2 A)|tauto].
Qed.
Lemma extend_docs s p ns : proper s -> same_docs s -> snd (extend s p ns) = None -> same_docs (fst (extend s p ns)).
Proof.
  intros P S Z. pose proof (p_once s P) as D. destruct (extend_out s p ns P) as [O1 O2]. pose proof (O2 Z) as Hd. pose proof (handed_once _ _ _ _ _ D Hd) as D'. destruct Hd as [Pm Hd]. pose proof (proj1 O1 Z) as Ok. destruct ns as [|n0 ns0] eqn:Ens; [cbn; exact S|]. rewrite <- Ens in *. destruct (Ok n0) as ((op & lp & Rp) & _); [rewrite Ens; now left|]. destruct (owner_same s p El op lp D S Rp) as (Q & d & ->). rewrite <- Q in Hd.
  assert (Back : forall q k o' l', Row (fst (extend s p ns)) q k o' l' -> exists o l, Row s q k o l /\ l' = lasts p ns q l /\ ((exists n, In n ns /\ below s n q) -> o' = Some d) /\ (~ (exists n, In n ns /\ below s n q) -> o' = o)).
  { intros q k o' l' R'. assert (I : In q (all s)) by (apply (Permutation_in _ (Permutation_sym Pm)); exact (Row_in _ _ _ _ _ R')). destruct (in_Row s q I) as (k0 & o & l & R). destruct (Hd _ _ _ _ R) as (o1 & R1 & G1 & G2). destruct (Row_det _ _ _ _ _ _ _ _ D' R' R1) as (-> & -> & ->). exists o, l. auto. }
  assert (Dec : forall q, (exists m, In m ns /\ below s m q) \/ ~ exists m, In m ns /\ below s m q).
  { intros q. clear - D. induction ns as [|m ns IH]; [right; intros (m & [] & _)|]. destruct (below_dec s m q D) as [B|B]; [left; exists m; split; [now left|exact B]|]. destruct IH as [(y & J & Y)|N]; [left; exists y; split; [now right|exact Y]|]. right. intros (y & [<-|J] & Y); [tauto|]. apply N. eauto. }
  intros q k o' l' R'. destruct (Back _ _ _ _ R') as (o & l & R & -> & G1 & G2). destruct (S _ _ _ _ R) as (e & -> & He). exists (match o' with Some x => x | None => d end). destruct (Dec q) as [B|B].
  - rewrite (G1 B). split; [reflexivity|]. intros c k2 o2 l2 J R2. destruct (Back _ _ _ _ R2) as (o0 & l0 & R0 & _ & G3 & _). apply G3. destruct (in_lasts _ _ _ _ _ J) as [[Jl _]|[_ Jn]].
    + destruct B as (m & Jm & B). exists m. split; [exact Jm|]. exact (below_child s m q k (Some e) l c B R Jl).
    + exists c. split; [exact Jn|]. constructor. exact (Row_in _ _ _ _ _ R0).
  - rewrite (G2 B). split; [reflexivity|]. intros c k2 o2 l2 J R2. destruct (Back _ _ _ _ R2) as (o0 & l0 & R0 & _ & G3 & G4). destruct (in_lasts _ _ _ _ _ J) as [[Jl Jn]|[-> Jn]].
    + rewrite G4; [exact (He c _ _ _ Jl R0)|]. intros (m & Jm & Bm). apply B. exists m. split; [exact Jm|]. apply (below_kid s m q k (Some e) l c D R Jl); [|exact Bm]. congruence.
    + destruct (Row_det _ _ _ _ _ _ _ _ D Rp R) as (_ & [= <-] & _). apply G3. exists c. split; [exact Jn|]. constructor. exact (Row_in _ _ _ _ _ R0).
Qed.
Lemma run_docs s o : proper s -> same_docs s -> tame s o -> same_docs (fst (run s o)).
Proof.
  intros P S T. pose proof (p_once s P) as D. destruct o as [p n|p i n|p n c|r n|r n|p n|n|p a b|p ns|n d|n]; cbn [run tame] in *; try contradiction.
  - now apply append_docs.
  - now apply insert_docs.
  - now apply insert_before_docs.
  - exact (side_docs add_after after s r n after_changed adds_after D S T).
  - exact (side_docs add_before before s r n before_changed adds_before D S T).
  - now apply remove_docs.
  - unfold remove_self. destruct (parent_of s n); [now apply remove_docs|exact S].
  - now apply replace_docs.
  - now apply extend_docs.
Qed.
Lemma runs_docs ops : forall s, proper s -> same_docs s -> tames s ops -> same_docs (runs s ops).
Proof.
  induction ops as [|o ops IH]; intros s P S T; [exact S|]. destruct T as [T T']. cbn [runs fold_left]. fold (runs (fst (run s o)) ops). apply IH; [now apply run_keeps|now apply run_docs|exact T'].
Qed.
