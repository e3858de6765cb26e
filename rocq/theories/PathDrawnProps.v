(** C14, arcs of circles: what is drawn between the two ends. *)
From Coq Require Import Qabs Qminmax Qround ZArith Lqa Lia Bool List.
From Verif Require Import PyBase MatrixModel MatrixSpec PathModel PathSpec MatrixProofs2 PathArcProofs PathArcSpec PathProps PathArcProps PathCircleProps.
#[local] Open Scope Q_scope.

(* the square of the distance of two points *)
Definition dist2 (p q : pt) : Q := (ptx p - ptx q) * (ptx p - ptx q) + (pty p - pty q) * (pty p - pty q).
(* where curve [i] of [l] starts, when the pen is at [cp] before the first *)
Definition before (cp : pt) (l : list seg) (i : nat) : pt :=
  match i with O => cp | S j => match nth_error l j with Some (SC _ _ _ q) => q | _ => cp end end.

Lemma circle_place o c r r' rot (z p : Q) q : unit_angle o rot -> (forall a, a == 0 -> ocos o a == 1 /\ osin o a == 0) -> r == r' -> r * ocos o z == ptx q - ptx c -> r * osin o z == - (pty q - pty c) -> (~ rot == 0 -> sums o z rot) ->
  p = (if rot =?q 0 then z else z + rot) -> peq (ellipse_at c r r' (ocos o rot) (osin o rot) (ocos o p) (osin o p)) q.
Proof.
  intros U O R HC HS SM ->. unfold unit_angle in U. unfold ellipse_at, peq. cbn [ptx pty]. destruct (Qeqb_spec rot 0) as [Z|Z].
  - destruct (O rot Z) as [Z1 Z2]. rewrite Z1, Z2, <- R. split.
    + transitivity (ptx c + r * ocos o z); [ring|]. rewrite HC. ring.
    + transitivity (pty c - r * osin o z); [ring|]. rewrite HS. ring.
  - destruct (SM Z) as (S1 & S2 & _). rewrite S1, S2, <- R. split.
    + transitivity (ptx c + (ocos o rot * ocos o rot + osin o rot * osin o rot) * (r * ocos o z)); [ring|]. rewrite U, HC. ring.
    + transitivity (pty c - (ocos o rot * ocos o rot + osin o rot * osin o rot) * (r * osin o z)); [ring|]. rewrite U, HS. ring.
Qed.
Lemma cubic_at_eq p0 p0' p1 p2 p3 p3' u : peq p0 p0' -> peq p3 p3' -> peq (cubic_at p0 p1 p2 p3 u) (cubic_at p0' p1 p2 p3' u).
Proof. intros [A B] [C D]. unfold cubic_at, peq, bernstein. cbn [ptx pty]. rewrite A, B, C, D. split; reflexivity. Qed.

(** Everything drawn for an arc of a circle, from the pen to the end point and
    through all its curves, is at most 0.03 % outside the circle and never
    inside it. *)
Theorem c14_circle_drawn : forall o at2 rx ry rot fa fs cp ep c r r' d1 ext l, oracle_basic o -> atan_like at2 -> sine_signs o -> unit_angle o rot ->
  ocos o (- rot) == ocos o rot -> osin o (- rot) == - osin o rot -> (forall x, 0 <= x -> 0 <= osqrt o x) ->
  (forall x y, same_angle x y -> ocos o x == ocos o y /\ osin o x == osin o y) ->
  get_center_of_arc o at2 rx ry rot fa fs cp ep = Centre c r r' d1 ext -> normalize_arc o at2 rx ry rot fa fs cp ep = Ok l -> r == r' -> 0 < r ->
  let a := get_angle at2 (pty cp - pty c) (ptx cp - ptx c) in let b := get_angle at2 (pty ep - pty c) (ptx ep - ptx c) in
  r * ocos o a == ptx cp - ptx c -> r * osin o a == - (pty cp - pty c) -> r * ocos o b == ptx ep - ptx c -> r * osin o b == - (pty ep - pty c) ->
  osin o (b - a) == osin o b * ocos o a - ocos o b * osin o a -> (~ rot == 0 -> sums o a rot /\ sums o b rot) ->
  let inc := ext / inject_Z (Z.of_nat (length l)) in
  unit_angle o (inc / 2) -> 7#10 <= ocos o (inc / 2) -> ocos o (inc / 2) <= 1 ->
  (forall i, (i < length l)%nat -> let m := d1 + inject_Z (Z.of_nat i) * inc + inc / 2 in unit_angle o m /\ sums o m (inc / 2)) ->
  forall i q1 q2 q3, nth_error l i = Some (SC false q1 q2 q3) -> forall u, 0 <= u <= 1 ->
    r * r <= dist2 (cubic_at (before cp l i) q1 q2 q3 u) c <= r * r * (1 + (1#1700)).
Proof.
  intros o at2 rx ry rot fa fs cp ep c r r' d1 ext l O T SG U EC ES SQ PER G N RR RP a b CA SA CB SB DF RS inc U2 H7 H1 MID i q1 q2 q3 NI u Ru.
  destruct (c14_circle_end o at2 rx ry rot fa fs cp ep c r r' d1 ext T SG U SQ G RR RP CA SA CB SB DF) as [END _]. fold b in END.
  assert (PR : forall h k, h == k -> ocos o h == ocos o k /\ osin o h == osin o k) by (intros h k E; apply PER; exists 0%Z; rewrite E; reflexivity + (change (inject_Z 0) with 0; ring)).
  set (on := fun t => ellipse_at c r r' (ocos o rot) (osin o rot) (ocos o t) (osin o t)).
  assert (ONE : forall t t', same_angle t t' -> peq (on t) (on t')). { intros t t' E. destruct (PER _ _ E) as [E1 E2]. unfold on, ellipse_at, peq. cbn [ptx pty]. rewrite E1, E2. split; reflexivity. }
  assert (SA0 : forall x y, x == y -> same_angle x y) by (intros x y E; exists 0%Z; rewrite E; change (inject_Z 0) with 0; ring).
  assert (D1 : d1 = if rot =?q 0 then a else a + rot).
  { unfold get_center_of_arc in G. destruct (_ || _); [discriminate|]. destruct (_ && _); [discriminate|]. set (cc := arc_center _ _ _ _ _ _ _ _) in G. clearbody cc. injection G as G1 _ _ G4 _. rewrite G1 in G4. symmetry. exact G4. }
  assert (PS : peq (on d1) cp) by (apply (circle_place o c r r' rot a); try assumption; [apply O|intros Z; apply RS, Z]).
  assert (PE : peq (on (d1 + ext)) ep).
  { destruct (ONE _ _ END) as [X Y]. assert (K : peq (on (if rot =?q 0 then b else b + rot)) ep) by (apply (circle_place o c r r' rot b); try assumption; [apply O|intros Z; apply RS, Z|reflexivity]). destruct K as [KX KY]. split; [rewrite X; exact KX|rewrite Y; exact KY]. }
  assert (NZ : ~ 1 + ocos o (inc / 2) == 0) by lra.
  assert (VERT : forall j, (j < length l)%nat -> exists p1 p2 p3, nth_error l j = Some (SC false p1 p2 p3) /\ peq p3 (on (d1 + inject_Z (Z.of_nat (S j)) * inc))).
  { intros j J. destruct (MID j J) as [M1 M2]. destruct (c14_arc_middle o at2 rx ry rot fa fs cp ep c r r' d1 ext l O EC ES G N j J U2 NZ PR M2) as (p1 & p2 & p3 & E1 & E2 & E3 & _). fold inc in E2.
    exists p1, p2, p3. split; [exact E1|].
    assert (ST : d1 + inject_Z (Z.of_nat j) * inc + inc == d1 + inject_Z (Z.of_nat (S j)) * inc) by (rewrite Nat2Z.inj_succ; unfold Z.succ; rewrite inject_Z_plus; change (inject_Z 1) with 1; ring).
    destruct (Nat.eq_dec (S j) (length l)) as [L|L].
    - rewrite (E3 L). destruct PE as [X Y]. destruct (ONE (d1 + inject_Z (Z.of_nat (S j)) * inc) (d1 + ext)) as [X' Y'].
      + apply SA0. rewrite L. unfold inc. field. intros Z. assert (ZZ : inject_Z (Z.of_nat (length l)) == inject_Z 0) by exact Z. apply (proj1 (inject_Z_injective _ _)) in ZZ. lia.
      + split; [rewrite X', X|rewrite Y', Y]; reflexivity.
    - destruct (E2 ltac:(lia)) as [X Y]. destruct (ONE _ _ (SA0 _ _ ST)) as [X' Y']. split; [rewrite X; exact X'|rewrite Y; exact Y']. }
  assert (IL : (i < length l)%nat) by (apply nth_error_Some; rewrite NI; discriminate).
  assert (START : peq (before cp l i) (on (d1 + inject_Z (Z.of_nat i) * inc))).
  { destruct i as [|j]; cbn [before].
    - destruct (ONE (d1 + inject_Z (Z.of_nat 0) * inc) d1) as [X Y]; [apply SA0; change (inject_Z (Z.of_nat 0)) with 0; ring|]. destruct PS as [PX PY]. split; [rewrite X, PX|rewrite Y, PY]; reflexivity.
    - destruct (VERT j ltac:(lia)) as (p1 & p2 & p3 & E1 & E2). rewrite E1. exact E2. }
  destruct (VERT i IL) as (p1 & p2 & p3 & E1 & E2). rewrite NI in E1. injection E1 as <- <- <-.
  destruct (MID i IL) as [M1 M2].
  destruct (c14_arc_close o at2 rx ry rot fa fs cp ep c r r' d1 ext l O EC ES G N i IL U2 H7 H1 M1 PR M2) as (p1 & p2 & p3 & E1 & CL). rewrite NI in E1. injection E1 as <- <- <-.
  destruct (CL u Ru) as (x & y & [CX CY] & B). fold inc in CX, CY.
  set (t := d1 + inject_Z (Z.of_nat i) * inc) in *. 
  assert (ST : d1 + inject_Z (Z.of_nat (S i)) * inc == t + inc) by (unfold t; rewrite Nat2Z.inj_succ; unfold Z.succ; rewrite inject_Z_plus; change (inject_Z 1) with 1; ring).
  destruct (ONE _ _ (SA0 _ _ ST)) as [VX VY]. assert (E3 : peq q3 (on (t + inc))) by (destruct E2 as [X Y]; split; [rewrite X; exact VX|rewrite Y; exact VY]).
  destruct (cubic_at_eq (before cp l i) (on t) q1 q2 q3 (on (t + inc)) u START E3) as [QX QY].
  assert (DD : dist2 (cubic_at (before cp l i) q1 q2 q3 u) c == r * r * (x * x + y * y)).
  { unfold dist2. rewrite QX, QY. unfold on. rewrite CX, CY. unfold ellipse_at. cbn [ptx pty]. rewrite <- RR. unfold unit_angle in U. transitivity (r * r * (x * x + y * y) * (ocos o rot * ocos o rot + osin o rot * osin o rot)); [ring|]. rewrite U. ring. }
  rewrite DD. assert (R2 : 0 < r * r) by (apply Qmult_lt_0_compat; exact RP). set (w := x * x + y * y) in *. set (k := r * r) in *. clearbody w k. destruct B as [B1 B2]. split.
  - setoid_replace k with (k * 1) at 1 by ring. apply Qmult_le_l; assumption.
  - apply Qmult_le_l; assumption.
Qed.
Print Assumptions c14_circle_drawn.

(* a made-up cosine and sine, exact at 0, 40 and 80 (20, 21, 29), and an arc of
   "80 degrees" above the axis: one curve from (841, 0) to (41, -840) *)
Definition tcos (t : Q) : Q := let x := turned t in if x =?q 0 then 1 else if x =?q 40 then 21#29 else if x =?q 80 then 41#841 else hsin (x + 90).
Definition tsin (t : Q) : Q := let x := turned t in if x =?q 0 then 0 else if x =?q 40 then 20#29 else if x =?q 80 then 840#841 else hsin x.
Definition table_oracle : oracle := Orc tcos tsin (fun _ => 0) qsqrt.
Definition table_at2 (y x : Q) : Q := if y =?q 0 then (if x <?q 0 then 180 else 0) else if 0 <?q y then 80 else - (80).
Lemma turned_of x : exists m : Z, inject_Z m * 360 <= x < inject_Z m * 360 + 360 /\ turned x == x - inject_Z m * 360.
Proof.
  exists (Qfloor (x / 360)). assert (E : x == x / 360 * 360) by field. assert (A := Qfloor_le (x / 360)). assert (B := Qlt_floor (x / 360)). rewrite inject_Z_plus in B. change (inject_Z 1) with 1 in B.
  split; [lra|]. unfold turned. ring.
Qed.
Lemma turned_same x y : same_angle x y -> turned x == turned y.
Proof. intros [k E]. destruct (turned_of y) as (m & [A B] & F). assert (P := inject_Z_plus m k). rewrite F. rewrite (turned_by x (m + k)); rewrite ?P; lra. Qed.
Lemma hsin_same x y : same_angle x y -> hsin x == hsin y.
Proof.
  intros E. apply turned_same in E. unfold hsin. destruct (Qleb_spec (turned x) 180), (Qleb_spec (turned y) 180); try (exfalso; lra); unfold hump; rewrite E; reflexivity.
Qed.
Lemma same_eq x y : x == y -> same_angle x y.
Proof. intros E. exists 0%Z. rewrite E. change (inject_Z 0) with 0. ring. Qed.
Lemma table_same x y : same_angle x y -> ocos table_oracle x == ocos table_oracle y /\ osin table_oracle x == osin table_oracle y.
Proof.
  intros E. apply turned_same in E. cbn [ocos osin table_oracle]. unfold tcos, tsin.
  destruct (Qeqb_spec (turned x) 0), (Qeqb_spec (turned y) 0); try (exfalso; lra); [split; reflexivity|].
  destruct (Qeqb_spec (turned x) 40), (Qeqb_spec (turned y) 40); try (exfalso; lra); [split; reflexivity|].
  destruct (Qeqb_spec (turned x) 80), (Qeqb_spec (turned y) 80); try (exfalso; lra); [split; reflexivity|].
  split; apply hsin_same, same_eq; rewrite E; reflexivity.
Qed.
Lemma table_signs : sine_signs table_oracle.
Proof.
  intros x. assert (H : forall z, 0 < z -> z < 180 -> turned x == z -> 0 < tsin x).
  { intros z A B E. unfold tsin. destruct (Qeqb_spec (turned x) 0); [exfalso; lra|]. destruct (Qeqb_spec (turned x) 40); [reflexivity|]. destruct (Qeqb_spec (turned x) 80); [reflexivity|].
    destruct (hump_signs (turned x)) as (S1 & S2 & S3 & S4). apply S1; lra. }
  assert (K : forall z, 180 < z -> z < 360 -> turned x == z -> tsin x < 0).
  { intros z A B E. unfold tsin. destruct (Qeqb_spec (turned x) 0); [exfalso; lra|]. destruct (Qeqb_spec (turned x) 40); [exfalso; lra|]. destruct (Qeqb_spec (turned x) 80); [exfalso; lra|].
    destruct (hump_signs (turned x)) as (S1 & S2 & S3 & S4). apply S2; lra. }
  assert (I0 : inject_Z 0 * 360 == 0) by reflexivity. assert (I2 : inject_Z (-1) * 360 == - (360)) by reflexivity.
  cbn [osin table_oracle]. repeat split; intros A B.
  - apply (H x A B). rewrite (turned_by x 0); lra.
  - apply (K x A B). rewrite (turned_by x 0); lra.
  - apply (K (x + 360)); [lra|lra|]. rewrite (turned_by x (-1)); lra.
  - apply (H (x + 360)); [lra|lra|]. rewrite (turned_by x (-1)); lra.
Qed.
Lemma table_atan : atan_like table_at2.
Proof. intros y x. unfold table_at2. destruct (Qeqb_spec y 0); [destruct (x <?q 0); repeat split; intros; lra|]. destruct (Qltb_spec 0 y); repeat split; intros; try lra; contradiction. Qed.
Lemma table_basic : oracle_basic table_oracle.
Proof.
  split; [intros q z Hz H; cbn; now apply qsqrt_ok|]. intros a E. destruct (table_same a 0 (same_eq _ _ E)) as [A B]. rewrite A, B. split; reflexivity.
Qed.
Lemma table_root x : 0 <= x -> 0 <= osqrt table_oracle x.
Proof. intros _. cbn. unfold qsqrt, Qle. cbn. rewrite Z.mul_1_r. apply Z.sqrt_nonneg. Qed.
Definition drawn_centre : pt := P (0 # 5502978152429653099329064693315665920000) (0 # 5502978152429653099329064693315665920000).
Definition drawn_curve : list seg := [SC false (P (15913822500 # 18922500) (-8487372000 # 18922500)) (P (4628831334385461502500 # 9465912749254522500) (-7744378750590100008000 # 9465912749254522500)) (P 41 (-840))].
Lemma drawn_centre_is : get_center_of_arc table_oracle table_at2 841 841 0 0 0 (P 841 0) (P 41 (-840)) = Centre drawn_centre 841 841 0 80.
Proof. vm_compute. reflexivity. Qed.
Lemma drawn_curve_is : normalize_arc table_oracle table_at2 841 841 0 0 0 (P 841 0) (P 41 (-840)) = Ok drawn_curve.
Proof. vm_compute. reflexivity. Qed.
Example c14_circle_drawn_case : forall q1 q2 q3, nth_error drawn_curve 0 = Some (SC false q1 q2 q3) ->
  forall u, 0 <= u <= 1 -> 841 * 841 <= dist2 (cubic_at (P 841 0) q1 q2 q3 u) drawn_centre <= 841 * 841 * (1 + (1#1700)).
Proof.
  intros q1 q2 q3 NE u Ru.
  assert (H1 : unit_angle table_oracle 0) by (vm_compute; reflexivity).
  assert (H2 : ocos table_oracle (- 0) == ocos table_oracle 0) by (vm_compute; reflexivity).
  assert (H3 : osin table_oracle (- 0) == - osin table_oracle 0) by (vm_compute; reflexivity).
  assert (K := c14_circle_drawn table_oracle table_at2 841 841 0 0 0 (P 841 0) (P 41 (-840)) drawn_centre 841 841 0 80 drawn_curve table_basic table_atan table_signs H1 H2 H3 table_root table_same drawn_centre_is drawn_curve_is (Qeq_refl _) eq_refl).
  cbv zeta in K.
  apply (fun H => K ltac:(vm_compute; reflexivity) ltac:(vm_compute; reflexivity) ltac:(vm_compute; reflexivity) ltac:(vm_compute; reflexivity) ltac:(vm_compute; reflexivity)
    (fun N => match N (Qeq_refl 0) with end) ltac:(vm_compute; reflexivity) ltac:(vm_compute; discriminate) ltac:(vm_compute; discriminate) H 0%nat q1 q2 q3 NE u Ru).
  intros i Hi. assert (Z0 : i = 0%nat) by (cbn in Hi; lia). rewrite Z0. vm_compute. repeat split; reflexivity.
Qed.
