From Verif Require Import PyBase PyText PyDict AttrModel AttrSpec.
From Coq Require Import Lia.

Record inv (w : world) : Prop := mkInv {
  i_map : forall e n a, dget (amap (elems w e)) n = Some a -> belongs w a e n;
  i_own : forall e n a, belongs w a e n -> dget (amap (elems w e)) n = Some a;
  i_dic : forall e, dict_ok (attrib (elems w e)) /\ dict_ok (amap (elems w e)) }.

Ltac neq := repeat match goal with |- context [Nat.eqb ?x ?y] => destruct (Nat.eqb_spec x y) end.

Lemma put_attrib_inv w e d : dict_ok d -> inv w -> inv (put_attrib w e d).
Proof.
  intros D [A B C]. unfold put_attrib, put_elem. split; cbn.
  - intros e' n a. specialize (A e' n a). neq; [subst; exact A|exact A].
  - intros e' n a H. specialize (B e' n a H). neq; [subst; exact B|exact B].
  - intros e'. neq; [split; [exact D|apply C]|apply C].
Qed.
Lemma lookup_put w e d e' n : lookup (put_attrib w e d) e' n = if Nat.eqb e' e then dget d n else lookup w e' n.
Proof. unfold lookup, put_attrib, put_elem. cbn. destruct (Nat.eqb e' e); reflexivity. Qed.

(** frames: what a step leaves alone *)
Definition same_place (w w' : world) (e : nat) (n : text) : Prop := lookup w' e n = lookup w e n.
Definition same_attr (w w' : world) (b : nat) : Prop :=
  aname (attrs w' b) = aname (attrs w b) /\ aowner (attrs w' b) = aowner (attrs w b) /\ avalue (attrs w' b) = avalue (attrs w b).

(** pop_attr *)
Lemma pop_elems w e n : forall e', attrib (elems (pop_attr w e n) e') = attrib (elems w e').
Proof.
  intros e'. unfold pop_attr. destruct (dget (amap (elems w e)) n) as [a|]; [|reflexivity].
  unfold detach, put_amap, put_elem, put_attr. cbn. destruct (aowner _); cbn; neq; subst; reflexivity.
Qed.
Lemma pop_lookup w e n e' m : lookup (pop_attr w e n) e' m = lookup w e' m.
Proof. unfold lookup. now rewrite pop_elems. Qed.
Lemma pop_nexta w e n : nexta (pop_attr w e n) = nexta w.
Proof.
  unfold pop_attr. destruct (dget (amap (elems w e)) n) as [a|]; [|reflexivity].
  unfold detach, put_amap, put_elem, put_attr. cbn. destruct (aowner _); reflexivity.
Qed.
Lemma pop_attr_attrs w e n : inv w -> forall b,
  attrs (pop_attr w e n) b =
  match dget (amap (elems w e)) n with
  | Some a => if Nat.eqb b a then mkA n (lookup w e n) None else attrs w b
  | None => attrs w b
  end.
Proof.
  intros I b. unfold pop_attr. destruct (dget (amap (elems w e)) n) as [a|] eqn:E; [|reflexivity].
  destruct (i_map w I e n a E) as (_ & O & N).
  unfold detach, put_amap, put_elem, put_attr, attr_value, lookup. cbn. rewrite O. cbn. rewrite Nat.eqb_refl, N.
  destruct (Nat.eqb b a); reflexivity.
Qed.
Lemma pop_attr_amap w e n e' : amap (elems (pop_attr w e n) e') =
  if Nat.eqb e' e then ddel (amap (elems w e)) n else amap (elems w e').
Proof.
  unfold pop_attr. destruct (dget (amap (elems w e)) n) as [a|] eqn:E.
  - unfold detach, put_amap, put_elem, put_attr. cbn. destruct (aowner _); cbn; neq; subst; reflexivity.
  - neq; [|reflexivity]. subst. apply dget_keys in E. now rewrite ddel_absent.
Qed.
Lemma pop_inv w e n : inv w -> inv (pop_attr w e n).
Proof.
  intros I. pose proof I as [A B C]. split.
  - intros e' m a H. rewrite pop_attr_amap in H. unfold belongs. rewrite pop_nexta, (pop_attr_attrs w e n I).
    assert (X : dget (amap (elems w e')) m = Some a /\ (e', m) <> (e, n)).
    { destruct (Nat.eqb_spec e' e) as [->|N]; [|split; [exact H|congruence]].
      rewrite dget_ddel in H by apply C. destruct (text_eqb_spec n m); [discriminate|]. split; [exact H|congruence]. }
    destruct X as [X Y]. destruct (A _ _ _ X) as (L & O & N).
    destruct (dget (amap (elems w e)) n) as [a0|] eqn:E; [|repeat split; assumption].
    neq; [|repeat split; assumption]. subst a0. destruct (A _ _ _ E) as (_ & O' & N'). exfalso. apply Y. congruence.
  - intros e' m a (L & O & N). rewrite pop_nexta in L. rewrite (pop_attr_attrs w e n I) in O, N. rewrite pop_attr_amap.
    destruct (dget (amap (elems w e)) n) as [a0|] eqn:E.
    + destruct (Nat.eqb_spec a a0) as [->|D]; [discriminate O|].
      pose proof (B e' m a (conj L (conj O N))) as X. neq; [|exact X]. subst e'. rewrite dget_ddel by apply C.
      destruct (text_eqb_spec n m) as [->|]; [congruence|exact X].
    + pose proof (B e' m a (conj L (conj O N))) as X. neq; [|exact X]. subst e'. rewrite dget_ddel by apply C.
      destruct (text_eqb_spec n m) as [->|]; [congruence|exact X].
  - intros e'. rewrite pop_elems, pop_attr_amap. split; [apply C|]. neq; [apply ddel_ok|]; apply C.
Qed.
Lemma pop_other w e n b : inv w -> ~ belongs w b e n -> (b < nexta w)%nat -> same_attr w (pop_attr w e n) b.
Proof.
  intros I N L. unfold same_attr. rewrite (pop_attr_attrs w e n I). destruct (dget (amap (elems w e)) n) as [a|] eqn:E; [|repeat split].
  neq; [|repeat split]. subst. destruct N. exact (i_map w I e n a E).
Qed.

(** default_item *)
Lemma default_inv w e n a w' : inv w -> default_item w e n = (a, w') ->
  inv w' /\ belongs w' a e n /\ (forall e' m, lookup w' e' m = lookup w e' m) /\
  (forall b, (b < nexta w)%nat -> attrs w' b = attrs w b) /\ (nexta w <= nexta w')%nat /\
  (forall e', attrib (elems w' e') = attrib (elems w e')).
Proof.
  intros I. unfold default_item. destruct (dget (amap (elems w e)) n) as [a0|] eqn:E.
  - injection 1 as <- <-. split; [exact I|]. split; [exact (i_map w I e n a0 E)|]. repeat split; lia || auto.
  - cbn. injection 1 as <- <-. unfold put_amap, put_elem, lookup. cbn. pose proof I as [A B C].
    assert (K : forall e' m a, dget (amap (elems w e')) m = Some a -> (a < nexta w)%nat) by (intros; eapply A; eassumption).
    split; [split|split; [|split; [|split; [|split]]]]; unfold belongs; cbn.
    + intros e' m a H.
      assert (X : (e' = e /\ m = n /\ a = nexta w) \/ dget (amap (elems w e')) m = Some a).
      { destruct (Nat.eqb_spec e' e) as [->|]; [|now right]. cbn in H. rewrite dget_dset in H.
        destruct (text_eqb_spec n m) as [->|]; [injection H as <-; now left|now right]. }
      destruct X as [(-> & -> & ->)|X]; [rewrite Nat.eqb_refl; split; [lia|split; reflexivity]|].
      destruct (A _ _ _ X) as (L & O & N). destruct (Nat.eqb_spec a (nexta w)); [lia|]. repeat split; auto; lia.
    + intros e' m a (L & O & N). destruct (Nat.eqb_spec a (nexta w)) as [->|D].
      * cbn in O, N. injection O as <-. subst m. rewrite Nat.eqb_refl. cbn. rewrite dget_dset, text_eqb_refl. reflexivity.
      * assert (X : dget (amap (elems w e')) m = Some a) by (apply B; repeat split; auto; lia).
        neq; [|exact X]. subst e'. cbn. rewrite dget_dset. destruct (text_eqb_spec n m) as [->|]; [congruence|exact X].
    + intros e'. neq; cbn; [split; [apply C|apply dset_ok, C]|apply C].
    + rewrite Nat.eqb_refl. cbn. repeat split; lia.
    + intros e' m. neq; subst; reflexivity.
    + intros b L. neq; [lia|reflexivity].
    + lia.
    + intros e'. neq; subst; reflexivity.
Qed.

Lemma del_ok d n : dict_ok d -> dict_ok (@ddel text d n).
Proof. apply ddel_ok. Qed.
Lemma nm_del_inv w e n : inv w -> inv (fst (nm_del w e n)).
Proof.
  intros I. unfold nm_del. pose proof (pop_inv w e n I) as J. destruct (lookup _ e n); cbn [fst]; [|exact J].
  apply put_attrib_inv; [apply ddel_ok, J|exact J].
Qed.
Lemma nm_get_inv w e n : inv w -> inv (fst (nm_get w e n)).
Proof.
  intros I. unfold nm_get. destruct (lookup w e n); cbn [fst]; [|now apply pop_inv].
  destruct (default_item w e n) as [a w1] eqn:E. now destruct (default_inv w e n a w1 I E).
Qed.
Lemma nm_set_text_inv w e n v : inv w -> inv (nm_set_text w e n v).
Proof.
  intros I. unfold nm_set_text. assert (D : inv match lookup w e n with Some _ => fst (nm_del w e n) | None => w end).
  { destruct (lookup w e n); [now apply nm_del_inv|exact I]. }
  destruct v as [[|c v]|]; [exact D| |exact D].
  assert (J : inv (put_attrib w e (dset (attrib (elems w e)) n (c :: v)))) by (apply put_attrib_inv; [apply dset_ok, I|exact I]).
  destruct (default_item _ e n) as [a w1] eqn:E. cbn [snd]. now destruct (default_inv _ e n a w1 J E).
Qed.
Lemma set_value_inv w a v : inv w -> inv (set_value w a v).
Proof.
  intros I. unfold set_value. destruct (aowner (attrs w a)) as [e|] eqn:O.
  - destruct v as [[|c v]|]; apply put_attrib_inv; try exact I; try apply ddel_ok, I; apply dset_ok, I.
  - pose proof I as [A B C]. unfold put_attr. split; cbn; [| |exact C]; unfold belongs; cbn.
    + intros e n b H. destruct (A _ _ _ H) as (L & P & N). neq; [subst; congruence|]. repeat split; assumption.
    + intros e n b (L & P & N). apply B. unfold belongs. split; [exact L|]. destruct (Nat.eqb_spec b a); [discriminate P|]. split; assumption.
Qed.

(** setting an Attr *)
Lemma attach_core w e n a v (old : option nat) : inv w -> (a < nexta w)%nat -> aowner (attrs w a) = None -> aname (attrs w a) = n ->
  avalue (attrs w a) = Some v -> v <> [] -> dget (amap (elems w e)) n = old ->
  let w1 := match old with Some x => detach w x | None => w end in
  let w2 := attach w1 a e in
  let w3 := put_amap w2 e (dset (amap (elems w2 e)) n a) in
  (forall b, attrs w3 b = if Nat.eqb b a then mkA n None (Some e) else
     match old with Some x => if Nat.eqb b x then mkA n (lookup w e n) None else attrs w b | None => attrs w b end) /\
  nexta w3 = nexta w /\
  (forall e', attrib (elems w3 e') = if Nat.eqb e' e then dset (attrib (elems w e)) n v else attrib (elems w e')) /\
  (forall e', amap (elems w3 e') = if Nat.eqb e' e then dset (amap (elems w e)) n a else amap (elems w e')).
Proof.
  intros I L O N V NV E. pose proof I as [A B C].
  assert (W1 : exists w1, w1 = match old with Some x => detach w x | None => w end /\
    (forall b, attrs w1 b = match old with Some x => if Nat.eqb b x then mkA n (lookup w e n) None else attrs w b | None => attrs w b end) /\
    nexta w1 = nexta w /\ elems w1 = elems w /\ attrs w1 a = attrs w a).
  { eexists. split; [reflexivity|]. destruct old as [x|]; [|repeat split].
    destruct (A _ _ _ E) as (_ & Ox & Nx). unfold detach, attr_value, put_attr. rewrite Ox, Nx. cbn. repeat split.
    destruct (Nat.eqb_spec a x); [congruence|reflexivity]. }
  destruct W1 as (w1 & <- & HA & HN & HE & Ha). cbv zeta.
  unfold attach. rewrite Ha, O, V. cbv zeta. unfold set_value, put_attr, put_amap, put_attrib, put_elem. cbn. rewrite Nat.eqb_refl. cbn.
  destruct v as [|c v]; [congruence|]. cbn. rewrite !Nat.eqb_refl. cbn. rewrite HE, N. split; [|split; [exact HN|split]].
  - intros b. neq; [subst; reflexivity|]. apply HA.
  - intros e'. neq; subst; reflexivity.
  - intros e'. neq; subst; reflexivity.
Qed.
Lemma nm_set_attr_inv w e n a : inv w -> (a < nexta w)%nat -> inv (fst (nm_set_attr w e n a)).
Proof.
  intros I L. unfold nm_set_attr. destruct (text_eqb_spec n (aname (attrs w a))) as [Nm|]; cbn [negb]; [|exact I].
  destruct (aowner (attrs w a)) as [e'|] eqn:O; [exact I|].
  assert (D : inv match lookup w e n with Some _ => fst (nm_del w e n) | None => w end).
  { destruct (lookup w e n); [now apply nm_del_inv|exact I]. }
  destruct (avalue (attrs w a)) as [[|c v]|] eqn:V; [exact D| |exact D]. cbn [fst].
  destruct (attach_core w e n a (c :: v) _ I L O (eq_sym Nm) V ltac:(discriminate) eq_refl) as (HA & HN & HE & HM).
  cbv zeta in HA, HN, HE, HM. match goal with |- inv ?x => set (w3 := x) in * end. pose proof I as [A B C].
  assert (FR : forall e' m, dget (amap (elems w e')) m <> Some a).
  { intros e' m H. destruct (A _ _ _ H) as (_ & X & _). congruence. }
  split.
  - intros e' m b H. unfold belongs. rewrite HN, HA. rewrite HM in H.
    destruct (Nat.eqb_spec e' e) as [->|De].
    + rewrite dget_dset in H. destruct (text_eqb_spec n m) as [->|Dn].
      * injection H as <-. rewrite Nat.eqb_refl. repeat split; auto.
      * destruct (A _ _ _ H) as (Lb & Ob & Nb). destruct (Nat.eqb_spec b a) as [->|]; [congruence|].
        destruct (dget (amap (elems w e)) n) as [x|] eqn:E; [|repeat split; assumption].
        destruct (Nat.eqb_spec b x) as [->|]; [|repeat split; assumption]. destruct (A _ _ _ E) as (_ & _ & Nx). congruence.
    + destruct (A _ _ _ H) as (Lb & Ob & Nb). destruct (Nat.eqb_spec b a) as [->|]; [congruence|].
      destruct (dget (amap (elems w e)) n) as [x|] eqn:E; [|repeat split; assumption].
      destruct (Nat.eqb_spec b x) as [->|]; [|repeat split; assumption]. destruct (A _ _ _ E) as (_ & Ox & _). congruence.
  - intros e' m b (Lb & Ob & Nb). rewrite HN in Lb. rewrite HA in Ob, Nb. rewrite HM.
    destruct (Nat.eqb_spec b a) as [->|Da].
    + cbn in Ob, Nb. injection Ob as ->. subst m. rewrite Nat.eqb_refl, dget_dset, text_eqb_refl. reflexivity.
    + assert (X : dget (amap (elems w e')) m = Some b).
      { apply B. unfold belongs. destruct (dget (amap (elems w e)) n) as [x|]; [|repeat split; assumption].
        destruct (Nat.eqb_spec b x); [discriminate Ob|repeat split; assumption]. }
      destruct (Nat.eqb_spec e' e) as [->|]; [|exact X]. rewrite dget_dset. destruct (text_eqb_spec n m) as [->|]; [|exact X].
      rewrite X, Nat.eqb_refl in Ob. discriminate Ob.
  - intros e'. rewrite HE, HM. destruct (Nat.eqb_spec e' e) as [->|]; [split; apply dset_ok, C|apply C].
Qed.

(** names and numbers never change *)
Lemma nexta_get w e n : inv w -> (nexta w <= nexta (fst (nm_get w e n)))%nat /\
  (forall b, (b < nexta w)%nat -> aname (attrs (fst (nm_get w e n)) b) = aname (attrs w b)).
Proof.
  intros I. unfold nm_get. destruct (lookup w e n); cbn [fst].
  - destruct (default_item w e n) as [a w1] eqn:E. destruct (default_inv w e n a w1 I E) as (_ & _ & _ & H & L & _). cbn [fst].
    split; [exact L|]. intros b Hb. now rewrite H.
  - rewrite pop_nexta. split; [lia|]. intros b Hb. rewrite (pop_attr_attrs w e n I).
    destruct (dget (amap (elems w e)) n) as [x|] eqn:E; [|reflexivity]. destruct (Nat.eqb_spec b x) as [->|]; [|reflexivity].
    destruct (i_map w I _ _ _ E) as (_ & _ & ->). reflexivity.
Qed.
Lemma set_named_inv w e a : inv w -> (a < nexta w)%nat -> inv (fst (set_named_item w e a)).
Proof.
  intros I L. unfold set_named_item. pose proof (nm_get_inv w e (aname (attrs w a)) I) as J.
  pose proof (nexta_get w e (aname (attrs w a)) I) as [K _].
  destruct (nm_get w e (aname (attrs w a))) as [w1 old]. cbn [fst] in *.
  pose proof (nm_set_attr_inv w1 e (aname (attrs w a)) a J ltac:(lia)) as M.
  destruct (nm_set_attr w1 e _ a) as [w2 r]. exact M.
Qed.
Lemma remove_named_inv w e n : inv w -> inv (fst (remove_named_item w e n)).
Proof.
  intros I. unfold remove_named_item. pose proof (nm_get_inv w e n I) as J. destruct (nm_get w e n) as [w1 [a|]]; cbn [fst] in *; [|exact J].
  pose proof (nm_del_inv w1 e n J) as K. destruct (nm_del w1 e n) as [w2 [u|]]; exact K.
Qed.
(* what remove_named_item gives back is already detached *)
Lemma nm_del_attr w e n a : inv w -> dget (amap (elems w e)) n = Some a -> 
  attrs (fst (nm_del w e n)) a = mkA n (lookup w e n) None.
Proof.
  intros I E. unfold nm_del. assert (X : attrs (pop_attr w e n) a = mkA n (lookup w e n) None) by (rewrite (pop_attr_attrs w e n I), E, Nat.eqb_refl; reflexivity).
  destruct (lookup (pop_attr w e n) e n); exact X.
Qed.
Lemma nm_get_some w e n a w1 : inv w -> nm_get w e n = (w1, Ok a) -> dget (amap (elems w1 e)) n = Some a /\ inv w1 /\ lookup w e n <> None
   /\ (forall e' m, lookup w1 e' m = lookup w e' m).
Proof.
  intros I. unfold nm_get. destruct (lookup w e n) eqn:X; [|discriminate]. destruct (default_item w e n) as [a0 w0] eqn:E.
  injection 1 as <- <-. destruct (default_inv w e n a0 w0 I E) as (J & B & K & _). split; [now apply J|]. split; [exact J|]. split; [congruence|exact K].
Qed.
Lemma remove_attribute_eq w e n : inv w -> remove_attribute w e n = fst (remove_named_item w e n).
Proof.
  intros I. unfold remove_attribute, remove_named_item. destruct (nm_get w e n) as [w1 [a|]] eqn:G; [|reflexivity].
  destruct (nm_get_some w e n a w1 I G) as (E & J & _ & _). pose proof (nm_del_attr w1 e n a J E) as D.
  destruct (nm_del w1 e n) as [w2 [u|]]; [|reflexivity]. cbn [fst] in *. unfold detach. rewrite D. reflexivity.
Qed.
Lemma toggle_inv w e n f : inv w -> inv (fst (toggle_attribute w e n f)).
Proof.
  intros I. unfold toggle_attribute. assert (R : inv (remove_attribute w e n)) by (rewrite remove_attribute_eq by exact I; now apply remove_named_inv).
  assert (S : inv (raw_set w e n [])) by (apply put_attrib_inv; [apply dset_ok, I|exact I]).
  destruct (lookup w e n); destruct f as [[]|]; assumption.
Qed.
Lemma step_inv w o : inv w -> inv (step w o).
Proof.
  intros I. destruct o; cbn [step]; unfold guard.
  - pose proof I as [A B C]. split; cbn; [| |exact C]; unfold belongs; cbn.
    + intros e m a H. destruct (A _ _ _ H) as (L & O & N). neq; [lia|]. repeat split; auto; lia.
    + intros e m a (L & O & N). apply B. unfold belongs. destruct (Nat.eqb_spec a (nexta w)); [discriminate O|]. repeat split; auto; lia.
  - now apply nm_set_text_inv.
  - destruct (Nat.ltb_spec a (nexta w)); [now apply nm_set_attr_inv|exact I].
  - destruct (Nat.ltb_spec a (nexta w)); [now apply set_named_inv|exact I].
  - now apply nm_del_inv.
  - now apply nm_get_inv.
  - now apply remove_named_inv.
  - rewrite remove_attribute_eq by exact I. now apply remove_named_inv.
  - now apply toggle_inv.
  - destruct (Nat.ltb_spec a (nexta w)); [now apply set_value_inv|exact I].
  - apply put_attrib_inv; [apply dset_ok, I|exact I].
  - apply put_attrib_inv; [apply ddel_ok, I|exact I].
Qed.
Lemma start_inv d : (forall e, dict_ok (d e)) -> inv (start d).
Proof.
  intros D. split; cbn.
  - intros e n a. discriminate.
  - intros e n a (L & _). cbn in L. lia.
  - intros e. split; [apply D|constructor].
Qed.
Lemma run_inv l : forall w, inv w -> inv (run w l).
Proof. unfold run. induction l as [|o l IH]; intros w I; [exact I|]. apply IH. now apply step_inv. Qed.
