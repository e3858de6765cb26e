(** C21: NamedNodeMap and Attr (svgpy/dom.py 353-552, 873-1106, 2256-2384). *)
From Verif Require Import PyBase PyText PyDict AttrModel AttrSpec AttrProofs AttrProofs2.
From Coq Require Import Lia.

(* the worlds that histories of operations lead to, from any elements with
   any attributes *)
Definition reachable (w : world) : Prop :=
  exists d l, (forall e, dict_ok (d e)) /\ w = run (start d) l.
Lemma reachable_inv w : reachable w -> inv w.
Proof. intros (d & l & D & ->). apply run_inv, start_inv, D. Qed.

(** In every reachable world at most one Attr is attached to an element under
    a given name. *)
Theorem c21_one_attr w a b e n : reachable w -> belongs w a e n -> belongs w b e n -> a = b.
Proof.
  intros R A B. apply reachable_inv in R. apply (belongs_map w a e n R) in A. apply (belongs_map w b e n R) in B. congruence.
Qed.
Print Assumptions c21_one_attr.

(** attributes[n] gives an Attr of that name, attached, showing the element's
    value; it is the same object every time; a missing name is a KeyError. *)
Theorem c21_get w e n : reachable w ->
  (lookup w e n = None -> snd (nm_get w e n) = Err KeyError) /\
  (forall v, lookup w e n = Some v -> exists a w', nm_get w e n = (w', Ok a) /\ belongs w' a e n /\
     attr_value w' a = Some v /\ nm_get w' e n = (w', Ok a) /\
     (forall b, belongs w b e n -> b = a) /\ forall e' m, lookup w' e' m = lookup w e' m).
Proof.
  intros R. apply reachable_inv in R. split.
  - intros H. unfold nm_get. now rewrite H.
  - intros v H. destruct (nm_get w e n) as [w' r] eqn:G. destruct r as [a|x].
    2:{ unfold nm_get in G. rewrite H in G. destruct (default_item w e n); discriminate. }
    exists a, w'. destruct (nm_get_some w e n a w' R G) as (E & J & _ & K). pose proof (i_map w' J _ _ _ E) as B.
    split; [reflexivity|]. split; [exact B|]. split; [|split; [|split; [|exact K]]].
    + unfold attr_value. destruct B as (_ & -> & ->). now rewrite K.
    + exact (nm_get_again w e n a w' R G).
    + intros b Bb. apply (belongs_map w b e n R) in Bb. unfold nm_get in G. rewrite H in G. unfold default_item in G. rewrite Bb in G.
      injection G as _ <-. reflexivity.
Qed.
Print Assumptions c21_get.

(** Writing a text through the map: the element and every attached Attr show
    it; the empty text (or None) removes the attribute, and the Attr that was
    attached is freed and keeps the value it had. *)
Theorem c21_set_text w e n v : reachable w ->
  (v <> [] -> lookup (nm_set_text w e n (Some v)) e n = Some v /\
     forall a, belongs (nm_set_text w e n (Some v)) a e n -> attr_value (nm_set_text w e n (Some v)) a = Some v) /\
  (forall o, o = None \/ o = Some [] -> lookup (nm_set_text w e n o) e n = None /\
     forall a x, belongs w a e n -> lookup w e n = Some x ->
       aowner (attrs (nm_set_text w e n o) a) = None /\ attr_value (nm_set_text w e n o) a = Some x).
Proof.
  intros R. apply reachable_inv in R. split.
  - intros N. assert (L : lookup (nm_set_text w e n (Some v)) e n = Some v).
    { destruct v as [|c v]; [congruence|]. unfold nm_set_text.
      set (w0 := put_attrib w e _). assert (J : inv w0) by (apply put_attrib_inv; [apply dset_ok, R|exact R]).
      destruct (default_item w0 e n) as [a w1] eqn:E. cbn [snd]. destruct (default_inv _ e n a w1 J E) as (_ & _ & -> & _).
      unfold w0. now rewrite lookup_put, Nat.eqb_refl, dget_dset, text_eqb_refl. }
    split; [exact L|]. intros a (_ & O & M). unfold attr_value. now rewrite O, M.
  - assert (S : forall o, o = None \/ o = Some [] -> nm_set_text w e n o = match lookup w e n with Some _ => fst (nm_del w e n) | None => w end)
      by (intros o [->| ->]; reflexivity).
    intros o Ho. rewrite (S o Ho). clear S. destruct (lookup w e n) eqn:X.
    + split; [apply (nm_del_lookup w e n R)|]. intros a x B E. apply (belongs_map w a e n R) in B.
      pose proof (nm_del_attr w e n a R B) as D. unfold attr_value. rewrite D. cbn. split; [reflexivity|]. congruence.
    + split; [exact X|]. intros a x _ E. congruence.
Qed.
Print Assumptions c21_set_text.

(** Deleting through the map removes the attribute and frees its Attr, which
    keeps its last value; deleting an absent attribute is a KeyError. *)
Theorem c21_delete w e n : reachable w ->
  lookup (fst (nm_del w e n)) e n = None /\
  (lookup w e n = None -> snd (nm_del w e n) = Err KeyError) /\
  (lookup w e n <> None -> snd (nm_del w e n) = Ok tt) /\
  (forall a, belongs w a e n -> aowner (attrs (fst (nm_del w e n)) a) = None /\
     attr_value (fst (nm_del w e n)) a = attr_value w a).
Proof.
  intros R. apply reachable_inv in R. destruct (nm_del_lookup w e n R) as (A & B & C).
  split; [exact A|]. split; [exact C|]. split; [now rewrite B|]. intros a Ba.
  pose proof (nm_del_attr w e n a R (belongs_map w a e n R Ba)) as D. unfold attr_value at 1. rewrite D. cbn. split; [reflexivity|].
  unfold attr_value. destruct Ba as (_ & -> & ->). reflexivity.
Qed.
Print Assumptions c21_delete.

(** remove_named_item (remove_attribute_node) answers the freed Attr, with the
    value the element had. *)
Theorem c21_remove_named w e n v : reachable w -> lookup w e n = Some v -> exists a w',
  remove_named_item w e n = (w', Ok a) /\ lookup w' e n = None /\ aname (attrs w' a) = n /\
  aowner (attrs w' a) = None /\ attr_value w' a = Some v /\ (forall b, belongs w b e n -> b = a) /\
  remove_attribute w e n = w'.
Proof.
  intros R H. destruct (proj2 (c21_get w e n R) v H) as (a & w1 & G & B & V & _ & U & K).
  apply reachable_inv in R. destruct (nm_get_some w e n a w1 R G) as (E & J & _ & _).
  pose proof (remove_attribute_eq w e n R) as RA. unfold remove_named_item in *. rewrite G in *.
  pose proof (nm_del_attr w1 e n a J E) as D. destruct (nm_del_lookup w1 e n J) as (A & S & _).
  destruct (nm_del w1 e n) as [w2 r]. cbn [fst snd] in *. destruct r as [[]|x].
  - exists a, w2. cbn [fst] in RA. unfold attr_value. rewrite D. cbn. rewrite K, H in *. repeat split; auto.
  - exfalso. assert (Err x = Ok tt) as Z; [apply S; rewrite K, H; discriminate|discriminate Z].
Qed.
Print Assumptions c21_remove_named.

(** Setting an Attr. *)
Theorem c21_set_attr w e n a : reachable w -> (a < nexta w)%nat ->
  (aname (attrs w a) <> n -> nm_set_attr w e n a = (w, Err ValueError)) /\
  (aname (attrs w a) = n -> forall e', aowner (attrs w a) = Some e' ->
     nm_set_attr w e n a = (w, if Nat.eqb e' e then Ok tt else Err InUseAttributeError)) /\
  (aname (attrs w a) = n -> aowner (attrs w a) = None -> forall v, attr_value w a = Some v -> v <> [] ->
     exists w', nm_set_attr w e n a = (w', Ok tt) /\ lookup w' e n = Some v /\ belongs w' a e n /\ attr_value w' a = Some v /\
     forall b, belongs w b e n -> aowner (attrs w' b) = None /\ attr_value w' b = attr_value w b).
Proof.
  intros R L. apply reachable_inv in R. unfold nm_set_attr. split; [|split].
  - intros N. destruct (text_eqb_spec n (aname (attrs w a))); [congruence|reflexivity].
  - intros N e' O. rewrite O. destruct (text_eqb_spec n (aname (attrs w a))); [reflexivity|congruence].
  - intros N O v V NV. destruct (text_eqb_spec n (aname (attrs w a))); [|congruence]. cbn [negb]. rewrite O.
    unfold attr_value in V. rewrite O in V. rewrite V.
    destruct (attach_core w e n a v _ R L O N V NV eq_refl) as (HA & HN & HE & HM).
    destruct v as [|c v]; [congruence|]. eexists. split; [reflexivity|]. cbv zeta in HA, HN, HE, HM.
    match goal with |- lookup ?x _ _ = _ /\ _ => set (w3 := x) in * end.
    assert (L3 : lookup w3 e n = Some (c :: v)) by (unfold lookup; rewrite HE, Nat.eqb_refl, dget_dset, text_eqb_refl; reflexivity).
    assert (B3 : belongs w3 a e n) by (unfold belongs; rewrite HN, HA, Nat.eqb_refl; repeat split; assumption).
    split; [exact L3|]. split; [exact B3|]. split; [unfold attr_value; destruct B3 as (_ & -> & ->); exact L3|].
    intros b Bb. pose proof (belongs_map w b e n R Bb) as X. unfold attr_value. destruct Bb as (_ & Ob & Nb).
    rewrite HA, X, Nat.eqb_refl. destruct (Nat.eqb_spec b a) as [->|]; [congruence|]. cbn. split; [reflexivity|].
    now rewrite Ob, Nb.
Qed.
Print Assumptions c21_set_attr.

(** Writing through an Attr: an attached one changes the element, a free one
    only itself. *)
Theorem c21_value w a v : reachable w -> (a < nexta w)%nat -> v <> [] ->
  attr_value (set_value w a (Some v)) a = Some v /\
  (forall e, aowner (attrs w a) = Some e -> lookup (set_value w a (Some v)) e (aname (attrs w a)) = Some v /\
     lookup (set_value w a None) e (aname (attrs w a)) = None /\ lookup (set_value w a (Some [])) e (aname (attrs w a)) = None) /\
  (aowner (attrs w a) = None -> forall o e n, lookup (set_value w a o) e n = lookup w e n).
Proof.
  intros R L N. apply reachable_inv in R. unfold set_value, attr_value. destruct (aowner (attrs w a)) as [e|] eqn:O.
  - destruct v as [|c v]; [congruence|]. split; [|split; [|discriminate]].
    + change (attrs (put_attrib w e _) a) with (attrs w a). rewrite O, lookup_put, Nat.eqb_refl, dget_dset, text_eqb_refl. reflexivity.
    + intros e' E. injection E as <-. rewrite !lookup_put, Nat.eqb_refl, dget_dset, dget_ddel, text_eqb_refl by apply R. repeat split.
  - split; [cbn; rewrite Nat.eqb_refl; reflexivity|]. split; [discriminate|]. reflexivity.
Qed.
Print Assumptions c21_value.

(** No operation changes anything about other names, other elements or other
    Attr objects. *)
Theorem c21_frame w o : reachable w ->
  (forall e n, ~ about w o e n -> lookup (step w o) e n = lookup w e n) /\
  (forall b, (b < nexta w)%nat -> ~ given o b -> (forall e n, about w o e n -> ~ belongs w b e n) ->
     aname (attrs (step w o) b) = aname (attrs w b) /\ aowner (attrs (step w o) b) = aowner (attrs w b) /\
     attr_value (step w o) b = attr_value w b).
Proof.
  intros R. apply reachable_inv in R. destruct (step_frame w o R) as [A B]. split; [exact A|].
  intros b L G N. pose proof (B b L G N) as S. pose proof S as (S1 & S2 & _). split; [exact S1|]. split; [exact S2|].
  apply same_attr_value; [exact S|]. intros e n O M. apply A. intros X. apply (N e n X). repeat split; assumption.
Qed.
Print Assumptions c21_frame.

(** Setting an Attr by its own name: what is given back is the Attr the element
    had under that name (made if need be), freed, with the value it had; nothing
    if the element had no such attribute.  The one being set stays put when it
    is already there, and is refused when it belongs to another element. *)
Theorem c21_set_named w e a : reachable w -> (a < nexta w)%nat ->
  (forall e', aowner (attrs w a) = Some e' -> e' <> e -> snd (set_named_item w e a) = Err InUseAttributeError) /\
  (aowner (attrs w a) = Some e -> lookup w e (aname (attrs w a)) <> None -> set_named_item w e a = (w, Ok (Some a))) /\
  (aowner (attrs w a) = None -> forall v, attr_value w a = Some v -> v <> [] ->
     exists w' old, set_named_item w e a = (w', Ok old) /\ belongs w' a e (aname (attrs w a)) /\ attr_value w' a = Some v /\
     match lookup w e (aname (attrs w a)), old with
     | None, None => True
     | Some x, Some b => b <> a /\ (forall b', belongs w b' e (aname (attrs w a)) -> b' = b) /\ aowner (attrs w' b) = None /\ attr_value w' b = Some x
     | _, _ => False
     end).
Proof.
  intros R L. set (n := aname (attrs w a)). assert (R1 : reachable (fst (nm_get w e n))).
  { destruct R as (d & l & D & ->). exists d, (l ++ [OGet e n]). split; [exact D|]. unfold run. rewrite fold_left_app. reflexivity. }
  pose proof (reachable_inv w R) as I. pose proof (nexta_get w e n I) as [K _]. destruct (c21_frame w (OGet e n) R) as (_ & Fr). destruct (c21_get w e n R) as (G0 & G1).
  change (step w (OGet e n)) with (fst (nm_get w e n)) in Fr.
  assert (Same : forall e', aowner (attrs w a) = e' -> e' <> Some e -> aname (attrs (fst (nm_get w e n)) a) = n /\ aowner (attrs (fst (nm_get w e n)) a) = e' /\ attr_value (fst (nm_get w e n)) a = attr_value w a).
  { intros e' O Ne. destruct (Fr a L (fun Z => Z)) as (A1 & A2 & A3); [intros e2 n2 (-> & ->) (_ & B & _); congruence|]. rewrite A1, A2, A3. auto. }
  unfold set_named_item. fold n. split; [|split].
  - intros e' O Ne. destruct (Same _ O ltac:(congruence)) as (A1 & A2 & A3). destruct (nm_get w e n) as [w1 old]. cbn [fst] in *.
    destruct (c21_set_attr w1 e n a R1 ltac:(lia)) as (_ & S & _). rewrite (S A1 e' A2). destruct (Nat.eqb_spec e' e); [congruence|reflexivity].
  - intros O X. destruct (lookup w e n) as [x|] eqn:Lx; [|congruence]. assert (B : belongs w a e n) by (repeat split; assumption).
    destruct (c21_set_attr w e n a R L) as (_ & S & _). specialize (S eq_refl e O). rewrite Nat.eqb_refl in S.
    unfold nm_get. rewrite Lx. unfold default_item. rewrite (belongs_map w a e n I B). rewrite S. reflexivity.
  - intros O v V Nv. destruct (Same _ O ltac:(discriminate)) as (A1 & A2 & A3). rewrite V in A3. destruct (lookup w e n) as [x|] eqn:Lx.
    + destruct (G1 x eq_refl) as (b & w1 & E & B & Vb & _ & U & _). rewrite E in *. cbn [fst] in *.
      destruct (c21_set_attr w1 e n a R1 ltac:(lia)) as (_ & _ & S). destruct (S A1 A2 v A3 Nv) as (w' & -> & _ & Ba & Va & Fb). exists w', (Some b).
      split; [reflexivity|]. split; [exact Ba|]. split; [exact Va|]. destruct (Fb b B) as (F1 & F2). split; [intros ->; destruct Ba as (_ & Oa & _); congruence|].
      split; [exact U|]. split; [exact F1|]. now rewrite F2.
    + specialize (G0 eq_refl). destruct (nm_get w e n) as [w1 old]. cbn [fst snd] in *. subst old.
      destruct (c21_set_attr w1 e n a R1 ltac:(lia)) as (_ & _ & S). destruct (S A1 A2 v A3 Nv) as (w' & -> & _ & Ba & Va & _). exists w', None.
      split; [reflexivity|]. split; [exact Ba|]. split; [exact Va|exact Logic.I].
Qed.
Print Assumptions c21_set_named.
Example c21_set_named_ex :
  let w := run (start (fun _ => [])) [ONewAttr (lit "x") (lit "1"); ONewAttr (lit "x") (lit "2"); OSetNamed 0 0] in
  aowner (attrs w 1) = None /\ snd (set_named_item w 0 1) = Ok (Some 0%nat) /\ snd (set_named_item w 1 0) = Err InUseAttributeError /\ snd (set_named_item w 0 0) = Ok (Some 0%nat) /\ snd (set_named_item w 2 1) = Ok None.
Proof. vm_compute. repeat split. Qed.

(** toggle_attribute answers whether the attribute is present afterwards. *)
Theorem c21_toggle w e n f : reachable w ->
  snd (toggle_attribute w e n f) = match f with Some b => b | None => match lookup w e n with Some _ => false | None => true end end /\
  (snd (toggle_attribute w e n f) = true <-> lookup (fst (toggle_attribute w e n f)) e n <> None).
Proof.
  intros R. unfold toggle_attribute. destruct (lookup w e n) as [v|] eqn:X.
  - destruct (c21_remove_named w e n v R X) as (a & w' & _ & Y & _ & _ & _ & _ & Z).
    destruct f as [[]|]; cbn [fst snd]; (split; [reflexivity|]); rewrite ?Z, ?Y; split; congruence.
  - destruct f as [[]|]; cbn [fst snd]; (split; [reflexivity|]); unfold raw_set; rewrite ?lookup_put, ?Nat.eqb_refl, ?dget_dset, ?text_eqb_refl, ?X;
    split; congruence.
Qed.
Print Assumptions c21_toggle.

(** A history meeting the hypotheses of the theorems above: two elements, an
    Attr moved from the first to the second. *)
Example c21_ex :
  let w := run (start (fun e => if Nat.eqb e 0 then [(lit "x", lit "1")] else []))
    [OGet 0 (lit "x"); ONewAttr (lit "x") (lit "2"); OSetNamed 0 1; OSetAttr 1 (lit "x") 0; OValue 0 (Some (lit "9"))] in
  reachable w /\ lookup w 0 (lit "x") = Some (lit "2") /\ lookup w 1 (lit "x") = Some (lit "9") /\
  belongs w 1 0 (lit "x") /\ belongs w 0 1 (lit "x") /\ nm_set_attr w 0 (lit "x") 0 = (w, Err InUseAttributeError).
Proof.
  split; [eexists; eexists; split; [|reflexivity]; intros e; unfold dict_ok; destruct (Nat.eqb e 0); cbn; [constructor; [intros []|constructor]|constructor]|].
  split; [reflexivity|]. split; [reflexivity|].
  split; [split; [apply Nat.ltb_lt; vm_compute; reflexivity|split; reflexivity]|]. split; [split; [apply Nat.ltb_lt; vm_compute; reflexivity|split; reflexivity]|]. reflexivity.
Qed.

(** Findings.  An Attr whose value is emptied stays attached although the
    attribute is gone; setting it again has no effect, and the value it had
    is lost. *)
Theorem c21_stale_refuted : exists w a e n v, reachable w /\ belongs w a e n /\ lookup w e n = Some v /\
  let w1 := set_value w a (Some []) in
  lookup w1 e n = None /\ aowner (attrs w1 a) = Some e /\ attr_value w1 a = None /\
  nm_set_attr w1 e n a = (w1, Ok tt).
Proof.
  exists (run (start (fun _ => [(lit "x", lit "1")])) [OGet 0 (lit "x")]), 0%nat, 0%nat, (lit "x"), (lit "1").
  split; [eexists; eexists; split; [|reflexivity]; intros e; unfold dict_ok; cbn; constructor; [intros []|constructor]|].
  split; [split; [apply Nat.ltb_lt; vm_compute; reflexivity|split; reflexivity]|]. repeat (match goal with |- _ /\ _ => split end; [reflexivity|]). 
  cbv zeta. repeat (match goal with |- _ /\ _ => split end; [reflexivity|]). reflexivity.
Qed.
Print Assumptions c21_stale_refuted.
