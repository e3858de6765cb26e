(** C32: sum values, to(), to_sum(), add() and equals(). *)
From Verif Require Import PyBase PyText PySplit PyDict PyCase CssTypeModel CssTypeSpec CssUnitModel CssUnitSpec CssUnitProofs CssUnitProps CssMathModel CssMathSpec CssMathProofs CssMathProps
  CssSumSpec CssSumProofs.
From Coq Require Import Qpower Sorted Permutation.
#[local] Open Scope Q_scope.

(* an assignment of sizes: an em is 10 px, other free units are worth 1 *)
Definition common (u : text) : Q := if text_eqb u (lit "em") then 10 else match canonical u with Some _ => ratio milu u | None => 1 end.
Lemma common_good : good_sizes milu common.
Proof.
  assert (P : 0 < milu) by reflexivity. split; [exact P|]. split; [reflexivity|]. split.
  - intros u. unfold common. destruct (text_eqb u (lit "em")); [reflexivity|]. destruct (canonical u); [apply ratio_pos, P|reflexivity].
  - intros u v (g & G & Iu & Iv). unfold groups in G. cbn [In] in G.
    repeat (destruct G as [<-|G]; [cbn [In] in Iu, Iv; repeat (destruct Iu as [<-|Iu]; [repeat (destruct Iv as [<-|Iv]; [vm_compute; reflexivity|]); contradiction|]); contradiction|]).
    contradiction.
Qed.
Ltac units := apply known_all; vm_compute; tauto.

(** Full statement (refuted below): a sum value is worth the expression under
    every assignment of sizes.  Proved when terms with the same units have the
    same powers of them, which holds for what calc() allows (next). *)
Theorem c32_value_partial : forall pi sz e l, good_sizes pi sz -> made e -> coherent pi e -> sum_value pi e = Some l -> sum_worth sz l == worth sz e.
Proof. intros pi sz e l G M C E. exact (proj1 (sum_value_worth pi sz G e M C l E)). Qed.
Print Assumptions c32_value_partial.
Example c32_value_case : let e := EMax [EProduct [px 3; em 2]; EProduct [em 1; EInvert (nm 2); px 20]] in
  made e /\ coherent milu e /\ (exists v, sum_value milu e = Some [(v, [(lit "px", 1%Z); (lit "em", 1%Z)])] /\ v == 10) /\ worth common e == 100.
Proof.
  cbn zeta. split; [|split; [cbn; tauto|split; [eexists; split; [reflexivity|vm_compute; reflexivity]|vm_compute; reflexivity]]].
  cbn [made conj map px em nm]. repeat match goal with |- _ /\ _ => split | |- _ <> _ => discriminate | |- True => exact I | |- known _ => units end.
Qed.
Theorem c32_value_calc : forall pi sz e l, good_sizes pi sz -> made e -> linear e -> sum_value pi e = Some l -> sum_worth sz l == worth sz e.
Proof. intros pi sz e l G M Li E. exact (proj1 (sum_value_worth pi sz G e M (proj2 (linear_maps pi e M Li)) l E)). Qed.
Print Assumptions c32_value_calc.
Definition calc1 : expr := ESum [EProduct [ESum [px 1; em 2; EUnit 1 (lit "in")]; nm 3; EInvert (ESum [nm 4; ENegate (nm 2)])]; ENegate (EMax [px 7; EUnit 1 (lit "pc")])].
Lemma calc1_good : made calc1 /\ linear calc1.
Proof.
  split.
  - cbn [calc1 made conj map px em nm]. repeat match goal with |- _ /\ _ => split | |- _ <> _ => discriminate | |- True => exact I | |- known _ => units end.
  - cbn [calc1 linear conj map numeric px em nm]. repeat match goal with |- _ /\ _ => split | |- True => exact I | |- _ = _ => reflexivity end.
    eexists [], _, [_; _]. split; [reflexivity|]. intros y [<-|[<-|[]]]; cbn [numeric conj map nm]; repeat split.
Qed.
Example c32_value_calc_case : good_sizes milu common /\ made calc1 /\ linear calc1 /\
  (exists l, sum_value milu calc1 = Some l /\ length l = 2%nat /\ sum_worth common l == (319 # 2)).
Proof. split; [exact common_good|]. split; [apply calc1_good|]. split; [apply calc1_good|]. eexists. split; [reflexivity|]. split; [reflexivity|vm_compute; reflexivity]. Qed.
(** px^2 em and px em^2 are merged *)
Theorem c32_value_refuted : exists e l, made e /\ sum_value milu e = Some l /\ ~ sum_worth common l == worth common e.
Proof.
  exists (ESum [EProduct [px 1; px 1; em 1]; EProduct [px 1; em 1; em 1]]). eexists. split; [|split; [reflexivity|vm_compute; discriminate]].
  cbn [made conj map px em]. repeat match goal with |- _ /\ _ => split | |- _ <> _ => discriminate | |- True => exact I | |- known _ => units end.
Qed.
Print Assumptions c32_value_refuted.
Example c32_value_refuted_case : sum_value milu (ESum [EProduct [px 1; px 1; em 1]; EProduct [px 1; em 1; em 1]]) = Some [(2, [(lit "px", 2%Z); (lit "em", 1%Z)])].
Proof. reflexivity. Qed.

(** where there is a sum value: sums, products and negations of anything, and
    inversions, min() and max() of numbers *)
Theorem c32_defined : forall pi e, made e -> simple e -> exists l, sum_value pi e = Some l /\ l <> [].
Proof. intros pi e M S. destruct (simple_defined pi e M S) as (l & E & N & _). eauto. Qed.
Print Assumptions c32_defined.
Example c32_defined_case : let e := ESum [EProduct [em 2; ESum [px 1; em 3]; EInvert (EMin [nm 2; nm 5])]; ENegate (EProduct [px 1; px 1])] in
  made e /\ simple e /\ sum_value milu (EMax [px 1; em 1]) = None /\ sum_value milu (EInvert (ESum [px 1; em 1])) = None /\ sum_value milu (EClamp (px 1) (px 2) (px 3)) = None.
Proof.
  cbn [made simple numeric conj map px em nm]. repeat match goal with |- _ /\ _ => split | |- _ <> _ => discriminate | |- True => exact I | |- known _ => units | |- _ = _ => reflexivity end.
Qed.

(** to() keeps the worth of a calc() expression, and gives the unit asked for *)
Theorem c32_to_partial : forall pi sz e u y, good_sizes pi sz -> made e -> linear e -> to pi e u = Ok y -> uv y * sz (uu y) == worth sz e /\ uu y = lower u.
Proof. exact to_worth. Qed.
Print Assumptions c32_to_partial.
Definition calc2 : expr := ESum [px 6; EProduct [EUnit 1 (lit "in"); nm 2; EInvert (nm 4)]].
Example c32_to_case : made calc2 /\ linear calc2 /\ exists y, to milu calc2 (lit "PC") = Ok y /\ uv y == (27 # 8).
Proof.
  split; [|split; [|eexists; split; [reflexivity|vm_compute; reflexivity]]].
  - cbn [calc2 made conj map px nm]. repeat match goal with |- _ /\ _ => split | |- _ <> _ => discriminate | |- True => exact I | |- known _ => units end.
  - cbn [calc2 linear conj map px nm numeric]. repeat match goal with |- _ /\ _ => split | |- True => exact I | |- _ = _ => reflexivity end.
    eexists [], _, [_; _]. split; [reflexivity|]. intros y [<-|[<-|[]]]; reflexivity.
Qed.
(** px px can be had in px *)
Theorem c32_to_refuted : exists e y, made e /\ to milu e (lit "px") = Ok y /\ exists sz, good_sizes milu sz /\ ~ uv y * sz (uu y) == worth sz e.
Proof.
  exists (EProduct [px 3; px 5]), (mkU 15 (lit "px")). split; [cbn [made conj map px]; repeat match goal with |- _ /\ _ => split | |- _ <> _ => discriminate | |- True => exact I | |- known _ => units end|].
  split; [reflexivity|].
  exists (fun u => match canonical u with Some _ => (if mem u absolute_units then 2 else 1) * ratio milu u | None => 1 end). split.
  - assert (P : 0 < milu) by reflexivity. split; [exact P|]. split; [reflexivity|]. split.
    + intros u. destruct (canonical u); [|reflexivity]. assert (R := ratio_pos milu u P). destruct (mem u absolute_units); lra.
    + intros u v (g & G & Iu & Iv). unfold groups in G. cbn [In] in G.
      repeat (destruct G as [<-|G]; [cbn [In] in Iu, Iv; repeat (destruct Iu as [<-|Iu]; [repeat (destruct Iv as [<-|Iv]; [vm_compute; reflexivity|]); contradiction|]); contradiction|]).
      contradiction.
  - vm_compute. discriminate.
Qed.
Print Assumptions c32_to_refuted.
Example c32_to_refuted_case : to milu (EProduct [px 3; px 5]) (lit "px") = Ok (mkU 15 (lit "px")). Proof. reflexivity. Qed.

(** to_sum() keeps the worth of a calc() expression; its items have the units asked for *)
Theorem c32_to_sum : forall o pi sz e us r, good_sizes pi sz -> made e -> linear e -> to_sum o pi e us = Ok r ->
  units_worth sz r == worth sz e /\ (us <> [] -> map uu r = map lower us).
Proof.
  intros o pi sz e us r G M Li E. destruct (to_sum_worth o pi sz e us r G M Li E) as (A & B). split; [exact A|]. intros N. destruct us; [congruence|exact B].
Qed.
Print Assumptions c32_to_sum.
Definition calc3 : expr := ESum [em 1; px 96].
Lemma calc3_good : made calc3 /\ linear calc3.
Proof. split; cbn [calc3 made linear conj map px em]; repeat match goal with |- _ /\ _ => split | |- _ <> _ => discriminate | |- True => exact I | |- known _ => units end. Qed.
Example c32_to_sum_case : made calc3 /\ linear calc3 /\ (exists r, to_sum base_keys milu calc3 [lit "em"; lit "in"] = Ok r /\ r = [mkU 1 (lit "em"); mkU (uv (nth 1 r (mkU 0 []))) (lit "in")] /\ uv (nth 1 r (mkU 0 [])) == 1).
Proof. split; [apply calc3_good|]. split; [apply calc3_good|]. eexists. split; [reflexivity|]. split; [reflexivity|vm_compute; reflexivity]. Qed.
(** Without units asked for, the items come in the alphabetical order of their
    units. *)
Lemma ltb_alphabetical a : forall b, if text_ltb a b then alphabetical a b else alphabetical b a.
Proof.
  induction a as [|x a IH]; intros [|y b]; cbn; try constructor. destruct (N.ltb_spec x y) as [L|L]; cbn; [now constructor|]. destruct (N.eqb_spec x y) as [<-|E]; cbn; [|apply al_lt; lia].
  specialize (IH b). destruct (text_ltb a b); now constructor.
Qed.
Lemma alphabetical_trans a b : alphabetical a b -> forall c, alphabetical b c -> alphabetical a c.
Proof. induction 1 as [b|x y a b L|x a b H IH]; intros c K; [constructor| |]; inversion K; subst; first [apply al_lt; lia | apply al_eq; auto]. Qed.
Lemma insert_sorted x l : StronglySorted alphabetical (map uu l) -> StronglySorted alphabetical (map uu (insert_unit x l)).
Proof.
  induction l as [|y l IH]; intros S; cbn; [repeat constructor|]. cbn in S. inversion S as [|? ? S' F]; subst. assert (K := ltb_alphabetical (uu x) (uu y)). destruct (text_ltb (uu x) (uu y)); cbn [map].
  - constructor; [exact S|]. constructor; [exact K|]. eapply Forall_impl; [|exact F]. intros z Z. eapply alphabetical_trans; eassumption.
  - constructor; [now apply IH|]. assert (P := Permutation_map uu (insert_perm x l)). cbn [map] in P. apply Forall_forall. intros z Z. apply (Permutation_in _ P) in Z. destruct Z as [<-|Z]; [exact K|]. rewrite Forall_forall in F. now apply F.
Qed.
Lemma sort_sorted l : StronglySorted alphabetical (map uu (sort_units l)).
Proof.
  unfold sort_units. assert (G : forall acc, StronglySorted alphabetical (map uu acc) -> StronglySorted alphabetical (map uu (fold_left (fun acc x => insert_unit x acc) l acc))).
  { induction l as [|x l IH]; intros acc S; cbn; [exact S|]. apply IH. now apply insert_sorted. }
  apply G. constructor.
Qed.
Theorem c32_to_sum_sorted : forall o pi e r, to_sum o pi e [] = Ok r -> StronglySorted alphabetical (map uu r).
Proof.
  intros o pi e r H. unfold to_sum in H. cbn [map results bind] in H. destruct (sum_value pi e) as [l|]; [|discriminate]. destruct (results (map from_item l)) as [v|]; [|discriminate]. cbn [bind] in H.
  unfold make_sum in H. destruct (results (map (fun x => create_type (uu x)) (sort_units v))) as [[|t ts]|]; cbn [bind] in H; try discriminate. destruct (fold_types o MSum t ts); [|discriminate]. injection H as <-. apply sort_sorted.
Qed.
Print Assumptions c32_to_sum_sorted.
Example c32_to_sum_sorted_case : exists r, to_sum base_keys milu (ESum [px 3; em 2; EUnit 1 (lit "cm"); EUnit 4 (lit "pt")]) [] = Ok r /\ map uu r = [lit "em"; lit "px"].
Proof. eexists. split; reflexivity. Qed.

(** the units of calc3 can be asked for in one order only, and an expression
    without a sum value cannot be asked at all *)
Theorem c32_to_sum_order_refuted :
  (exists r, to_sum base_keys milu calc3 [lit "em"; lit "px"] = Ok r) /\ to_sum base_keys milu calc3 [lit "px"; lit "em"] = Err ValueError /\
  to_sum base_keys milu (EMax [em 1; px 1]) [lit "px"; lit "em"] = Err TypeError.
Proof. split; [eexists; reflexivity|]. split; reflexivity. Qed.
Print Assumptions c32_to_sum_order_refuted.

(** A value with a term that is not a number of one unit (px squared, 1/px,
    px times em) is no sum of units. *)
Theorem c32_to_sum_powers : forall o pi e us l x r, sum_value pi e = Some l -> In x l ->
  (forall u, snd x <> [] /\ snd x <> [(u, 1%Z)]) -> to_sum o pi e us <> Ok r.
Proof.
  intros o pi e us l x r E I N. unfold to_sum. destruct (results (map create_type us)); [|discriminate]. cbn [bind]. rewrite E.
  assert (B : forall v, from_item x <> Ok v).
  { intros v. unfold from_item. destruct (snd x) as [|(u & p) [|y m]] eqn:S; [exfalso; apply (proj1 (N [])); reflexivity| |discriminate].
    destruct (Z.eqb_spec p 1) as [->|]; [|discriminate]. exfalso. apply (proj2 (N u)). reflexivity. }
  assert (R : forall vs, results (map from_item l) <> Ok vs).
  { clear E. induction l as [|y l IH]; [destruct I|]. intros vs. cbn [map results]. destruct (from_item y) as [v|] eqn:F; [|discriminate].
    destruct I as [->|I]; [exfalso; exact (B v F)|]. cbn [bind]. destruct (results (map from_item l)) as [ws|] eqn:W; [|discriminate]. exfalso. exact (IH I ws eq_refl). }
  destruct (results (map from_item l)) as [vs|] eqn:W; [exfalso; exact (R vs eq_refl)|discriminate].
Qed.
Print Assumptions c32_to_sum_powers.
Example c32_to_sum_powers_case : exists l x, sum_value milu (EProduct [px 3; px 5]) = Some l /\ In x l /\ snd x = [(lit "px", 2%Z)] /\
  to_sum base_keys milu (EProduct [px 3; px 5]) [] = Err ValueError.
Proof. do 2 eexists. split; [reflexivity|]. split; [left; reflexivity|]. split; reflexivity. Qed.

(** add() adds *)
Theorem c32_add : forall sz e l, worth sz (add e l) == worth sz e + Qsum (map (worth sz) l).
Proof. exact add_worth. Qed.
Print Assumptions c32_add.
Example c32_add_case : add (px 1) [px 2; px 4] = EUnit 7 (lit "px") /\ add (ESum [px 1; em 2]) [px 4] = ESum [px 1; em 2; px 4] /\ add (ENegate (px 1)) [nm 0] = ESum [ENegate (px 1); nm 0].
Proof. repeat split. Qed.
(** what equals() calls equal is worth the same; but a negation is not even equal to itself *)
Theorem c32_equals : forall sz a b, equals a b = true -> worth sz a == worth sz b.
Proof. exact equals_worth. Qed.
Print Assumptions c32_equals.
Example c32_equals_case : equals (ESum [px 1; EProduct [em 2; nm (6 # 3)]]) (ESum [px 1; EProduct [em 2; nm 2]]) = true /\ equals (ESum [px 1]) (ESum [px 1; px 0]) = false. Proof. split; reflexivity. Qed.
Theorem c32_equals_refl_refuted : equals (ENegate (px 1)) (ENegate (px 1)) = false /\ equals (EInvert (px 1)) (EInvert (px 1)) = false /\
  equals (EClamp (px 1) (px 2) (px 3)) (EClamp (px 1) (px 2) (px 3)) = false.
Proof. repeat split. Qed.
Print Assumptions c32_equals_refl_refuted.
