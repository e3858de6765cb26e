From Verif Require Import PyBase PyText PyDict AttrModel AttrSpec AttrProofs.
From Coq Require Import Lia.

Definition frame (g : option nat) (w w' : world) (e : nat) (n : text) : Prop :=
  (forall e' m, ~ (e' = e /\ m = n) -> lookup w' e' m = lookup w e' m) /\
  (forall b, (b < nexta w)%nat -> Some b <> g -> ~ belongs w b e n -> same_attr w w' b) /\
  (nexta w <= nexta w')%nat.
Lemma frame_refl g w e n : frame g w w e n.
Proof. repeat split; auto. Qed.
Lemma frame_trans g w w1 w2 e n : frame g w w1 e n -> frame g w1 w2 e n -> frame g w w2 e n.
Proof.
  intros (A & B & C) (A' & B' & C'). split; [|split; [|lia]].
  - intros e' m N. now rewrite A', A.
  - intros b L G N. specialize (B b L G N). destruct B as (B1 & B2 & B3).
    destruct (B' b ltac:(lia) G) as (D1 & D2 & D3).
    { intros (_ & X & Y). apply N. repeat split; congruence. }
    repeat split; congruence.
Qed.
Lemma frame_weak g w w' e n : frame None w w' e n -> frame g w w' e n.
Proof. intros (A & B & C). split; [exact A|]. split; [|exact C]. intros b L _. apply B; [exact L|discriminate]. Qed.
Lemma put_attrib_frame w e n d : (forall m, m <> n -> dget d m = lookup w e m) -> frame None w (put_attrib w e d) e n.
Proof.
  intros H. split; [|split; [|reflexivity]].
  - intros e' m N. rewrite lookup_put. destruct (Nat.eqb_spec e' e) as [->|]; [|reflexivity]. apply H. intros ->. now apply N.
  - intros b L _ _. repeat split.
Qed.
Lemma put_set_frame w e n v : frame None w (put_attrib w e (dset (attrib (elems w e)) n v)) e n.
Proof. apply put_attrib_frame. intros m N. rewrite dget_dset. destruct (text_eqb_spec n m); [congruence|reflexivity]. Qed.
Lemma put_del_frame w e n : inv w -> frame None w (put_attrib w e (ddel (attrib (elems w e)) n)) e n.
Proof. intros I. apply put_attrib_frame. intros m N. rewrite dget_ddel by apply I. destruct (text_eqb_spec n m); [congruence|reflexivity]. Qed.
Lemma pop_frame w e n : inv w -> frame None w (pop_attr w e n) e n.
Proof.
  intros I. split; [|split].
  - intros e' m _. apply pop_lookup.
  - intros b L _ N. now apply pop_other.
  - now rewrite pop_nexta.
Qed.
Lemma default_frame w e n : inv w -> frame None w (snd (default_item w e n)) e n.
Proof.
  intros I. destruct (default_item w e n) as [a w'] eqn:E. destruct (default_inv w e n a w' I E) as (_ & _ & A & B & C & _).
  split; [|split; [|exact C]].
  - intros e' m _. apply A.
  - intros b L _ _. unfold same_attr. cbn [snd]. rewrite (B b L). repeat split.
Qed.
Lemma nm_del_frame w e n : inv w -> frame None w (fst (nm_del w e n)) e n.
Proof.
  intros I. unfold nm_del. destruct (lookup (pop_attr w e n) e n); cbn [fst]; [|now apply pop_frame].
  eapply frame_trans; [now apply pop_frame|]. apply put_del_frame. now apply pop_inv.
Qed.
Lemma nm_get_frame w e n : inv w -> frame None w (fst (nm_get w e n)) e n.
Proof.
  intros I. unfold nm_get. destruct (lookup w e n); [|now apply pop_frame].
  pose proof (default_frame w e n I). destruct (default_item w e n); exact H.
Qed.
Lemma nm_set_text_frame w e n v : inv w -> frame None w (nm_set_text w e n v) e n.
Proof.
  intros I. unfold nm_set_text.
  assert (D : frame None w match lookup w e n with Some _ => fst (nm_del w e n) | None => w end e n).
  { destruct (lookup w e n); [now apply nm_del_frame|apply frame_refl]. }
  destruct v as [[|c v]|]; [exact D| |exact D].
  eapply frame_trans; [apply put_set_frame|]. apply default_frame. apply put_attrib_inv; [apply dset_ok, I|exact I].
Qed.
Lemma nm_set_attr_frame w e n a : inv w -> (a < nexta w)%nat -> frame (Some a) w (fst (nm_set_attr w e n a)) e n.
Proof.
  intros I L. unfold nm_set_attr. destruct (text_eqb_spec n (aname (attrs w a))) as [Nm|]; cbn [negb]; [|apply frame_refl].
  destruct (aowner (attrs w a)) as [e'|] eqn:O; [apply frame_refl|].
  assert (D : frame (Some a) w match lookup w e n with Some _ => fst (nm_del w e n) | None => w end e n).
  { apply frame_weak. destruct (lookup w e n); [now apply nm_del_frame|apply frame_refl]. }
  destruct (avalue (attrs w a)) as [[|c v]|] eqn:V; [exact D| |exact D]. cbn [fst].
  destruct (attach_core w e n a (c :: v) _ I L O (eq_sym Nm) V ltac:(discriminate) eq_refl) as (HA & HN & HE & HM).
  cbv zeta in HA, HN, HE, HM. match goal with |- frame _ _ ?x _ _ => set (w3 := x) in * end.
  split; [|split; [|lia]].
  - intros e' m N. unfold lookup. rewrite HE. destruct (Nat.eqb_spec e' e) as [->|]; [|reflexivity]. rewrite dget_dset.
    destruct (text_eqb_spec n m) as [->|]; [destruct N; now split|reflexivity].
  - intros b Lb G N. unfold same_attr. rewrite HA. destruct (Nat.eqb_spec b a) as [->|]; [congruence|].
    destruct (dget (amap (elems w e)) n) as [x|] eqn:E; [|repeat split]. destruct (Nat.eqb_spec b x) as [->|]; [|repeat split].
    destruct N. exact (i_map w I _ _ _ E).
Qed.
Lemma set_named_frame w e a : inv w -> (a < nexta w)%nat -> frame (Some a) w (fst (set_named_item w e a)) e (aname (attrs w a)).
Proof.
  intros I L. unfold set_named_item. set (n := aname (attrs w a)). pose proof (nm_get_inv w e n I) as J.
  pose proof (nexta_get w e n I) as [K _]. pose proof (nm_get_frame w e n I) as F.
  destruct (nm_get w e n) as [w1 old]. cbn [fst] in *.
  pose proof (nm_set_attr_frame w1 e n a J ltac:(lia)) as M. destruct (nm_set_attr w1 e n a) as [w2 r]. cbn [fst] in *.
  eapply frame_trans; [apply frame_weak, F|exact M].
Qed.
Lemma remove_named_frame w e n : inv w -> frame None w (fst (remove_named_item w e n)) e n.
Proof.
  intros I. unfold remove_named_item. pose proof (nm_get_inv w e n I) as J. pose proof (nm_get_frame w e n I) as F.
  destruct (nm_get w e n) as [w1 [a|]]; cbn [fst] in *; [|exact F].
  pose proof (nm_del_frame w1 e n J) as K. destruct (nm_del w1 e n) as [w2 [u|]]; cbn [fst] in *; eapply frame_trans; eassumption.
Qed.
Lemma toggle_frame w e n f : inv w -> frame None w (fst (toggle_attribute w e n f)) e n.
Proof.
  intros I. unfold toggle_attribute.
  assert (R : frame None w (remove_attribute w e n) e n) by (rewrite remove_attribute_eq by exact I; now apply remove_named_frame).
  pose proof (put_set_frame w e n []) as S. fold (raw_set w e n []) in S.
  destruct (lookup w e n); destruct f as [[]|]; cbn [fst]; try exact R; try exact S; apply frame_refl.
Qed.
Lemma frame_use g w w' e n (ab : nat -> text -> Prop) (gv : nat -> Prop) :
  frame g w w' e n -> ab e n -> (forall b, g = Some b -> gv b) ->
  (forall e' m, ~ ab e' m -> lookup w' e' m = lookup w e' m) /\
  (forall b, (b < nexta w)%nat -> ~ gv b -> (forall e' m, ab e' m -> ~ belongs w b e' m) -> same_attr w w' b).
Proof.
  intros (A & B & _) AB GV. split.
  - intros e' m N. apply A. intros [-> ->]. contradiction.
  - intros b L NG N. apply B; [exact L| |now apply N]. intros E. apply NG. now apply GV.
Qed.
Lemma step_frame w o : inv w ->
  (forall e n, ~ about w o e n -> lookup (step w o) e n = lookup w e n) /\
  (forall b, (b < nexta w)%nat -> ~ given o b -> (forall e n, about w o e n -> ~ belongs w b e n) -> same_attr w (step w o) b).
Proof.
  intros I. destruct o; cbn [step about given]; unfold guard.
  - split; [reflexivity|]. intros b L _ _. unfold same_attr. cbn. destruct (Nat.eqb_spec b (nexta w)); [lia|repeat split].
  - eapply frame_use; [now apply nm_set_text_frame|now split|discriminate].
  - destruct (Nat.ltb_spec a (nexta w)); [|repeat split].
    eapply frame_use; [now apply nm_set_attr_frame|now split|]. intros b E. congruence.
  - destruct (Nat.ltb_spec a (nexta w)); [|repeat split].
    eapply frame_use; [now apply set_named_frame|now split|]. intros b E. congruence.
  - eapply frame_use; [now apply nm_del_frame|now split|discriminate].
  - eapply frame_use; [now apply nm_get_frame|now split|discriminate].
  - eapply frame_use; [now apply remove_named_frame|now split|discriminate].
  - rewrite remove_attribute_eq by exact I. eapply frame_use; [now apply remove_named_frame|now split|discriminate].
  - eapply frame_use; [now apply toggle_frame|now split|discriminate].
  - destruct (Nat.ltb_spec a (nexta w)) as [L|]; [|repeat split]. unfold set_value. destruct (aowner (attrs w a)) as [e|] eqn:O.
    + destruct v as [[|c v]|]; (eapply (frame_use None); [|split; reflexivity|discriminate]);
      first [now apply put_del_frame|apply put_set_frame].
    + split; [reflexivity|]. intros b Lb G _. unfold same_attr, put_attr. cbn. destruct (Nat.eqb_spec b a); [contradiction|repeat split].
  - eapply frame_use; [apply put_set_frame|now split|discriminate].
  - eapply frame_use; [now apply put_del_frame|now split|discriminate].
Qed.
Lemma same_attr_value w w' b : same_attr w w' b ->
  (forall e n, aowner (attrs w b) = Some e -> aname (attrs w b) = n -> lookup w' e n = lookup w e n) ->
  attr_value w' b = attr_value w b.
Proof.
  intros (A & B & C) H. unfold attr_value. rewrite A, B, C. destruct (aowner (attrs w b)) as [e|] eqn:O; [|reflexivity]. now apply H.
Qed.

(** reading *)
Lemma nm_get_again w e n a w1 : inv w -> nm_get w e n = (w1, Ok a) -> nm_get w1 e n = (w1, Ok a).
Proof.
  intros I G. destruct (nm_get_some w e n a w1 I G) as (E & J & N & K). unfold nm_get. rewrite K.
  destruct (lookup w e n); [|congruence]. unfold default_item. now rewrite E.
Qed.
(** deleting *)
Lemma nm_del_lookup w e n : inv w -> lookup (fst (nm_del w e n)) e n = None /\
  (snd (nm_del w e n) = Ok tt <-> lookup w e n <> None) /\ (lookup w e n = None -> snd (nm_del w e n) = Err KeyError).
Proof.
  intros I. unfold nm_del. rewrite pop_lookup. destruct (lookup w e n) eqn:X; cbn [fst snd].
  - rewrite lookup_put, Nat.eqb_refl, dget_ddel, text_eqb_refl by apply (pop_inv w e n I). repeat split; congruence.
  - rewrite pop_lookup. repeat split; congruence.
Qed.
Lemma belongs_map w a e n : inv w -> belongs w a e n -> dget (amap (elems w e)) n = Some a.
Proof. intros I B. now apply I. Qed.
