(** Proofs about the lengths of curves and arcs. *)
From Coq Require Import Lia Lqa Qround Qabs Setoid.
From Verif Require Import PyBase MatrixModel MatrixSpec MatrixProofs PathModel PathSpec PathProofs TravelModel TravelSpec.
Local Open Scope Q_scope.

Ltac nltb := match goal with
  | |- (?x <?q ?y) = _ => destruct (Qltb_spec x y); [try reflexivity; exfalso; lra|try reflexivity; exfalso; lra]
  | |- (?x <=?q ?y) = _ => destruct (Qleb_spec x y); [try reflexivity; exfalso; lra|try reflexivity; exfalso; lra]
  | |- (?x =?q ?y) = _ => destruct (Qeqb_spec x y); [try reflexivity; exfalso; auto|try reflexivity; exfalso; auto] end.
(** ** Angles *)
Notation zq := inject_Z.
Lemma zq_S n : zq (Z.of_nat (S n)) == zq (Z.of_nat n) + 1.
Proof. rewrite Nat2Z.inj_succ. unfold Z.succ. rewrite inject_Z_plus. reflexivity. Qed.
Lemma lower_spec n : forall a, a <= 360 * (zq (Z.of_nat n) + 1) ->
  lower n a <= 360 /\ (exists k, lower n a == a - 360 * zq k) /\ (a <= 360 -> lower n a = a) /\ (0 <= a -> 0 <= lower n a).
Proof.
  induction n as [|n IH]; intros a H; cbn [lower].
  - change (zq (Z.of_nat 0)) with 0 in H. split; [lra|]. split; [exists 0%Z; change (zq 0) with 0; ring|]. auto.
  - rewrite zq_S in H. destruct (Qltb_spec 360 a) as [L|L].
    + destruct (IH (a - 360)) as (A & (k & K) & B & C); [lra|]. split; [exact A|]. split.
      { exists (k + 1)%Z. rewrite K, inject_Z_plus. change (zq 1) with 1. ring. }
      split; [lra|]. intros _. apply C. lra.
    + split; [lra|]. split; [exists 0%Z; change (zq 0) with 0; ring|]. auto.
Qed.
Lemma raise_spec n : forall a, - (360 * zq (Z.of_nat n)) <= a ->
  0 <= raise n a /\ (exists k, raise n a == a - 360 * zq k) /\ (0 <= a -> raise n a = a) /\ (a <= 360 -> raise n a <= 360).
Proof.
  induction n as [|n IH]; intros a H; cbn [raise].
  - change (zq (Z.of_nat 0)) with 0 in H. split; [lra|]. split; [exists 0%Z; change (zq 0) with 0; ring|]. auto.
  - rewrite zq_S in H. destruct (Qltb_spec a 0) as [L|L].
    + destruct (IH (a + 360)) as (A & (k & K) & B & C); [lra|]. split; [exact A|]. split.
      { exists (k - 1)%Z. rewrite K. unfold Z.sub. rewrite inject_Z_plus. change (zq (- (1))) with (- (1)). ring. }
      split; [lra|]. intros _. apply C. lra.
    + split; [lra|]. split; [exists 0%Z; change (zq 0) with 0; ring|]. auto.
Qed.
Lemma turns_spec a : Qabs a <= 360 * zq (Z.of_nat (turns a)).
Proof.
  unfold turns. assert (C := Qle_ceiling (Qabs a / 360)). assert (A := Qabs_nonneg a).
  assert (N : (0 <= Qceiling (Qabs a / 360))%Z).
  { change 0%Z with (Qceiling 0). apply Qceiling_resp_le. apply Qle_shift_div_l; [reflexivity|]. lra. }
  rewrite Z2Nat.id by exact N. assert (Qabs a == 360 * (Qabs a / 360)) by (field; discriminate). lra.
Qed.
Lemma abs_bounds a b : Qabs a <= b -> - b <= a <= b.
Proof. intros H. apply Qabs_Qle_condition in H. lra. Qed.
Lemma full_circle_spec a : 0 <= full_circle a <= 360 /\ (exists k, full_circle a == a - 360 * zq k) /\
  (0 <= a <= 360 -> full_circle a = a).
Proof.
  unfold full_circle. assert (T := turns_spec a). apply abs_bounds in T.
  destruct (lower_spec (turns a) a) as (A & (k & K) & B & C); [lra|]. set (b := lower (turns a) a) in *.
  assert (T' := turns_spec b). apply abs_bounds in T'.
  destruct (raise_spec (turns b) b) as (A' & (k' & K') & B' & C'); [lra|].
  split; [split; [exact A'|auto]|]. split.
  - exists (k + k')%Z. rewrite K', K, inject_Z_plus. ring.
  - intros H. rewrite B' by (apply C; lra). apply B. lra.
Qed.

(** ** Along the ellipse *)
Lemma along_turns ms rx ry f : along ms rx ry f -> forall k a, f (a - 360 * zq k) == f a - 4 * zq k * quarter ms rx ry 90.
Proof.
  intros (Pr & _ & _ & F). set (s := quarter ms rx ry 90) in *.
  assert (U : forall a, f (a + 360) == f a + 4 * s).
  { intros a. rewrite (Pr (a + 360) (a + 180 + 180)) by ring. rewrite !F. ring. }
  assert (N : forall n a, f (a + 360 * zq (Z.of_nat n)) == f a + 4 * zq (Z.of_nat n) * s).
  { induction n as [|n IH]; intros a.
    - change (zq (Z.of_nat 0)) with 0. rewrite (Pr _ a) by ring. ring.
    - rewrite (Pr _ (a + 360 * zq (Z.of_nat n) + 360)) by (rewrite zq_S; ring). rewrite U, IH, zq_S. ring. }
  intros k a. destruct (Z_le_gt_dec 0 k) as [P0|P0].
  - rewrite <- (Z2Nat.id k P0). set (n := Z.to_nat k).
    assert (H := N n (a - 360 * zq (Z.of_nat n))).
    rewrite (Pr (a - 360 * zq (Z.of_nat n) + 360 * zq (Z.of_nat n)) a) in H by ring. lra.
  - assert (E : zq k == - zq (Z.of_nat (Z.to_nat (- k)))).
    { rewrite Z2Nat.id by lia. rewrite inject_Z_opp. ring. }
    rewrite (Pr _ (a + 360 * zq (Z.of_nat (Z.to_nat (- k))))) by (rewrite E; ring). rewrite N, E. ring.
Qed.
Lemma floor_of n a : zq n <= a -> a < zq (n + 1) -> Qfloor a = n.
Proof.
  intros H1 H2. assert (A := Qfloor_le a). assert (B := Qlt_floor a).
  assert (C : zq n < zq (Qfloor a + 1)) by lra. assert (D : zq (Qfloor a) < zq (n + 1)) by lra.
  rewrite <- Zlt_Qlt in C, D. lia.
Qed.
Lemma along_zero ms rx ry f : along ms rx ry f -> f 0 == 0.
Proof. intros (Pr & _ & O & _). assert (H := O 0). rewrite (Pr (- 0) 0) in H by reflexivity. lra. Qed.
(** the second quarter *)
Lemma along_second ms rx ry f a : along ms rx ry f -> 90 <= a <= 180 -> f a == 2 * quarter ms rx ry 90 - quarter ms rx ry (180 - a).
Proof.
  intros (Pr & Q1 & O & F) H. rewrite (Pr a (- (180 - a) + 180)) by ring. rewrite F, O, Q1 by lra. ring.
Qed.
Lemma from_zero_along ms rx ry f a : lawful ms -> along ms rx ry f -> 0 <= a <= 360 -> from_zero ms rx ry a == f a.
Proof.
  intros (_ & _ & Pq) Al H. assert (Z0 := along_zero _ _ _ _ Al). assert (S2 := fun a => along_second _ _ _ _ a Al).
  assert (T := along_turns _ _ _ _ Al). destruct Al as (Pr & Q1 & O & F).
  assert (Eq : forall x y, x == y -> quarter ms rx ry x == quarter ms rx ry y) by (intros x y E; apply Pq; [reflexivity|reflexivity|exact E]).
  assert (Q90 : f 90 == quarter ms rx ry 90) by (apply Q1; lra).
  assert (Fl : forall n, 90 * zq n <= a -> a < 90 * (zq n + 1) -> Qfloor (a / 90) = n).
  { intros n L U. assert (E : a == 90 * (a / 90)) by (field; discriminate).
    apply floor_of; [lra|]. rewrite inject_Z_plus. change (zq 1) with 1. lra. }
  unfold from_zero. set (s0 := quarter ms rx ry 90) in *.
  destruct (Qlt_le_dec a 90) as [L1|L1]; [|destruct (Qlt_le_dec a 180) as [L2|L2]; [|destruct (Qlt_le_dec a 270) as [L3|L3];
    [|destruct (Qlt_le_dec a 360) as [L4|L4]]]].
  - rewrite (Fl 0%Z) by (change (zq 0) with 0; lra). change (zq 0) with 0. cbn zeta.
    replace ((90 <?q a) && (a <=?q 180) || (270 <?q a) && (a <=?q 360)) with false
      by (symmetry; apply orb_false_intro; apply andb_false_iff; left; nltb).
    destruct (Qltb_spec 0 (a - 90 * 0)) as [R|R].
    + rewrite (Eq _ a) by ring. rewrite Q1 by lra. ring.
    + rewrite (Pr a 0) by lra. rewrite Z0. ring.
  - rewrite (Fl 1%Z) by (change (zq 1) with 1; lra). change (zq 1) with 1. cbn zeta.
    rewrite S2 by lra.
    destruct (Qltb_spec 0 (a - 90 * 1)) as [R|R].
    + replace ((90 <?q a) && (a <=?q 180) || (270 <?q a) && (a <=?q 360)) with true
        by (symmetry; apply orb_true_intro; left; apply andb_true_intro; split; nltb).
      rewrite (Eq _ (180 - a)) by ring. fold s0. ring.
    + rewrite (Eq (180 - a) 90) by lra. fold s0. ring.
  - rewrite (Fl 2%Z) by (change (zq 2) with 2; lra). change (zq 2) with 2. cbn zeta.
    rewrite (Pr a (a - 180 + 180)) by ring. rewrite F. fold s0.
    destruct (Qltb_spec 0 (a - 90 * 2)) as [R|R].
    + replace ((90 <?q a) && (a <=?q 180) || (270 <?q a) && (a <=?q 360)) with false
        by (symmetry; apply orb_false_intro; apply andb_false_iff; [right; nltb|left; nltb]).
      rewrite Q1 by lra. rewrite (Eq _ (a - 180)) by ring. ring.
    + rewrite (Pr (a - 180) 0) by lra. rewrite Z0. ring.
  - rewrite (Fl 3%Z) by (change (zq 3) with 3; lra). change (zq 3) with 3. cbn zeta.
    rewrite (Pr a (a - 180 + 180)) by ring. rewrite F, S2 by lra. fold s0.
    destruct (Qltb_spec 0 (a - 90 * 3)) as [R|R].
    + replace ((90 <?q a) && (a <=?q 180) || (270 <?q a) && (a <=?q 360)) with true
        by (symmetry; apply orb_true_intro; right; apply andb_true_intro; split; nltb).
      rewrite (Eq _ (180 - (a - 180))) by ring. ring.
    + rewrite (Eq (180 - (a - 180)) 90) by lra. fold s0. ring.
  - rewrite (Fl 4%Z) by (change (zq 4) with 4; lra). change (zq 4) with 4. cbn zeta.
    destruct (Qltb_spec 0 (a - 90 * 4)) as [R|R]; [lra|].
    rewrite (Pr a (0 + 180 + 180)) by lra. rewrite !F, Z0. fold s0. ring.
Qed.
Lemma ellipse_along ms rx ry f start delta : lawful ms -> along ms rx ry f -> ~ rx == 0 -> ~ ry == 0 -> Qabs delta < 360 ->
  ellipse_length ms rx ry start delta == (if delta <?q 0 then f start - f (start + delta) else f (start + delta) - f start).
Proof.
  intros La Al Nx Ny B. unfold ellipse_length.
  replace ((rx =?q 0) || (ry =?q 0)) with false
    by (symmetry; apply orb_false_intro; nltb).
  destruct (full_circle_spec start) as (R1 & (k1 & K1) & _). set (u := full_circle start) in *. cbn zeta.
  destruct (full_circle_spec (u + delta)) as (R2 & (k2 & K2) & R3). set (v := full_circle (u + delta)) in *.
  assert (T := along_turns _ _ _ _ Al). assert (Pr := proj1 Al).
  assert (Fu : f u == f start - 4 * zq k1 * quarter ms rx ry 90) by (rewrite (Pr u _ K1); apply T).
  assert (Fv : f v == f (start + delta) - 4 * zq (k1 + k2) * quarter ms rx ry 90).
  { rewrite (Pr v (start + delta - 360 * zq (k1 + k2))) by (rewrite K2, K1, inject_Z_plus; ring). apply T. }
  rewrite inject_Z_plus in Fv.
  assert (B' : - (360) < delta /\ delta < 360) by (apply Qabs_Qlt_condition in B; exact B).
  assert (Kc : (k2 = 0 \/ k2 = 1 \/ k2 = -1)%Z).
  { assert (H1 : 360 * zq k2 < 720) by lra. assert (H2 : - (720) < 360 * zq k2) by lra.
    assert (H3 : zq k2 < zq 2) by (change (zq 2) with 2; lra). assert (H4 : zq (-2) < zq k2) by (change (zq (-2)) with (-2); lra).
    rewrite <- Zlt_Qlt in H3, H4. lia. }
  set (s0 := quarter ms rx ry 90) in *.
  destruct (Qeqb_spec u v) as [E|E].
  - assert (D0 : delta == 0).
    { destruct Kc as [->|[->| ->]]; [change (zq 0) with 0 in K2|change (zq 1) with 1 in K2|change (zq (-1)) with (-1) in K2]; lra. }
    assert (H : f (start + delta) == f start) by (apply Pr; lra).
    destruct (delta <?q 0); lra.
  - destruct (Qltb_spec delta 0) as [N|N].
    + destruct (Qltb_spec v u) as [L|L]; rewrite !(from_zero_along ms rx ry f) by (assumption || lra).
      * assert (k2 = 0)%Z as -> by (destruct Kc as [H|[->| ->]]; [exact H|change (zq 1) with 1 in K2; lra|change (zq (-1)) with (-1) in K2; lra]).
        change (zq 0) with 0 in Fv. lra.
      * assert (k2 = -1)%Z as -> by (destruct Kc as [->|[->|H]]; [change (zq 0) with 0 in K2; lra|change (zq 1) with 1 in K2; lra|exact H]).
        change (zq (-1)) with (-1) in Fv. lra.
    + destruct (Qltb_spec u v) as [L|L]; rewrite !(from_zero_along ms rx ry f) by (assumption || lra).
      * assert (k2 = 0)%Z as -> by (destruct Kc as [H|[->| ->]]; [exact H|change (zq 1) with 1 in K2; lra|change (zq (-1)) with (-1) in K2; rewrite R3 in K2 by lra; lra]).
        change (zq 0) with 0 in Fv. lra.
      * assert (k2 = 1)%Z as -> by (destruct Kc as [->|[H| ->]]; [change (zq 0) with 0 in K2; lra|exact H|change (zq (-1)) with (-1) in K2; lra]).
        change (zq 1) with 1 in Fv. lra.
Qed.
(** ** Curves *)
Lemma curve_speed ms a c d b : lawful ms -> curve_length ms a c d b == root_integral ms (speed2 (Cubic a c d b)).
Proof.
  intros (I1 & _). unfold curve_length. cbn zeta. apply I1. intros t.
  unfold integrand, speed2, velocity, mix, coef1, coef2, coef3. ring.
Qed.
Lemma quad_speed ms a c b : lawful ms ->
  root_integral ms (speed2 (Cubic a (lerp23 a c) (lerp23 b c) b)) == root_integral ms (speed2 (Quad a c b)).
Proof.
  intros (I1 & _). apply I1. intros t. unfold speed2, velocity, mix, lerp23. cbn [ptx pty]. ring.
Qed.
Lemma velocity_eq d d' t : stroke_eq d d' -> velocity t ptx d == velocity t ptx d' /\ velocity t pty d == velocity t pty d'.
Proof.
  destruct d, d'; cbn [stroke_eq]; try contradiction; intros H; cbn [velocity]; unfold peq, mix in *;
    repeat match goal with H : _ /\ _ |- _ => destruct H end; split; try reflexivity;
    repeat match goal with E : _ == _ |- _ => rewrite E; clear E end; reflexivity.
Qed.
Lemma length_of_eq ms d d' : lawful ms -> stroke_eq d d' -> length_of ms d == length_of ms d'.
Proof.
  intros La E. destruct La as (I1 & Hy & _).
  assert (Sp : forall t, speed2 d t == speed2 d' t).
  { intros t. unfold speed2. destruct (velocity_eq d d' t E) as [-> ->]. reflexivity. }
  destruct d, d'; cbn [stroke_eq] in E; try contradiction; cbn [length_of]; try reflexivity; try (apply I1; exact Sp);
    destruct E as [[E1 E2] [E3 E4]]; apply Hy; rewrite ?E1, ?E2, ?E3, ?E4; reflexivity.
Qed.
