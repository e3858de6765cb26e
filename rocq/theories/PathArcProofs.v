(** Proofs about elliptical arcs: the computed centre and the points of the
    approximating curves. *)
From Coq Require Import Qround Qabs.
From Verif Require Import PyBase MatrixModel MatrixSpec MatrixProofs MatrixProofs2 PathModel PathSpec PathProofs PathNormProofs.
Local Open Scope Q_scope.

(** a square root that is exact where it is used *)
Definition root_at (o : oracle) (z : Q) : Prop := osqrt o z * osqrt o z == z.

Lemma half_frame o rot cp ep (c : pt) : unit_angle o rot ->
  let h := arc_half o rot cp ep in
  forall x y,
  ptx c == ocos o rot * x - osin o rot * y + (ptx cp + ptx ep) / 2 ->
  pty c == osin o rot * x + ocos o rot * y + (pty cp + pty ep) / 2 ->
  (ocos o rot * (ptx cp - ptx c) + osin o rot * (pty cp - pty c) == ptx h - x) /\
  (- osin o rot * (ptx cp - ptx c) + ocos o rot * (pty cp - pty c) == pty h - y) /\
  (ocos o rot * (ptx ep - ptx c) + osin o rot * (pty ep - pty c) == - ptx h - x) /\
  (- osin o rot * (ptx ep - ptx c) + ocos o rot * (pty ep - pty c) == - pty h - y).
Proof.
  intros U h x y Hx Hy. unfold unit_angle in U. subst h. unfold arc_half. cbn [ptx pty].
  rewrite Hx, Hy. set (C := ocos o rot) in *. set (S := osin o rot) in *.
  split; [|split; [|split]];
    match goal with |- ?l == ?a - ?z => transitivity (a - (C * C + S * S) * z); [field|rewrite U; ring] end.
Qed.

Lemma center_frame (rx ry x y f : Q) : ~ rx == 0 -> ~ ry == 0 ->
  let D := rx * rx * (y * y) + ry * ry * (x * x) in
  f * f * D == rx * rx * (ry * ry) - D ->
  let u := x - f * (rx * y / ry) in let v := y - f * (- ry * x / rx) in
  let u' := - x - f * (rx * y / ry) in let v' := - y - f * (- ry * x / rx) in
  u * u * (ry * ry) + v * v * (rx * rx) == rx * rx * (ry * ry) /\
  u' * u' * (ry * ry) + v' * v' * (rx * rx) == rx * rx * (ry * ry).
Proof.
  intros A B D H. cbn zeta.
  assert (E : rx * rx * (ry * ry) == D + f * f * D) by (rewrite H; ring).
  split; rewrite E; unfold D; field; auto.
Qed.

Lemma on_ellipse_centre o rx ry rot fa fs cp ep : unit_angle o rot -> ~ rx == 0 -> ~ ry == 0 ->
  let h := arc_half o rot cp ep in
  let D := rx * rx * (pty h * pty h) + ry * ry * (ptx h * ptx h) in
  ~ D == 0 -> D <= rx * rx * (ry * ry) ->
  root_at o (pymax (arc_fp rx ry h) 0) ->
  let c := arc_center o rx ry rot fa fs cp ep in
  on_ellipse c rx ry (ocos o rot) (osin o rot) cp /\
  on_ellipse c rx ry (ocos o rot) (osin o rot) ep.
Proof.
  intros U Rx Ry h D ND LD R c.
  assert (Dpos : 0 < D).
  { assert (0 <= D) by (unfold D; nra). destruct (Qlt_le_dec 0 D); [assumption|]. exfalso; apply ND; lra. }
  assert (FP : arc_fp rx ry h * D == rx * rx * (ry * ry) - D) by (unfold arc_fp; fold D; unfold D in *; field; exact ND).
  assert (F0 : 0 <= arc_fp rx ry h).
  { destruct (Qlt_le_dec (arc_fp rx ry h) 0) as [L|L]; [|exact L]. exfalso.
    assert (arc_fp rx ry h * D < 0) by nra. lra. }
  assert (PM : pymax (arc_fp rx ry h) 0 == arc_fp rx ry h).
  { unfold pymax. destruct (Qltb_spec (arc_fp rx ry h) 0); [lra|reflexivity]. }
  unfold root_at in R. set (f0 := osqrt o (pymax (arc_fp rx ry h) 0)) in *. rewrite PM in R.
  set (f := if Bool.eqb fa fs then - f0 else f0).
  assert (FF : f * f == arc_fp rx ry h).
  { unfold f. destruct (Bool.eqb fa fs); rewrite <- R; ring. }
  set (x := f * (rx * pty h / ry)). set (y := f * (- ry * ptx h / rx)).
  destruct (half_frame o rot cp ep c U x y) as (H1 & H2 & H3 & H4).
  { unfold c, arc_center. cbn [ptx pty]. fold h. fold f0. fold f. unfold x, y. reflexivity. }
  { unfold c, arc_center. cbn [ptx pty]. fold h. fold f0. fold f. unfold x, y. reflexivity. }
  destruct (center_frame rx ry (ptx h) (pty h) f Rx Ry) as (E1 & E2).
  { fold D. rewrite FF, FP. reflexivity. }
  fold x y in E1, E2. fold h in H1, H2, H3, H4.
  unfold on_ellipse. rewrite H1, H2, H3, H4. split; assumption.
Qed.

Lemma radius_cases r : arc_radius r == 0 \/ (arc_radius r = Qabs r /\ ~ Qabs r == 0).
Proof.
  unfold arc_radius, isclose. set (z := Qabs r).
  destruct (Qleb_spec (Qabs (z - 0)) (Qmax (tol * Qmax (Qabs z) (Qabs 0)) tol)) as [L|L].
  - left; reflexivity.
  - right. split; [reflexivity|]. intros E. apply L. rewrite E.
    setoid_replace (0 - 0) with 0 by ring. apply Q.max_le_iff. right. unfold tol. cbn. discriminate.
Qed.

(** Both ends of the arc lie on the ellipse found. *)
Lemma centre_correct o at2 rx ry rot fa fs cp ep c rx' ry' d1 ext :
  unit_angle o rot ->
  (let h := arc_half o rot cp ep in
   let k := arc_factor o (Qabs rx) (Qabs ry) h in
   let a := ptx h * ptx h / (Qabs rx * Qabs rx) + pty h * pty h / (Qabs ry * Qabs ry) in
   (1 < a -> root_at o a) /\
   root_at o (pymax (arc_fp (Qabs rx * k) (Qabs ry * k) h) 0)) ->
  get_center_of_arc o at2 rx ry rot fa fs cp ep = Centre c rx' ry' d1 ext ->
  on_ellipse c rx' ry' (ocos o rot) (osin o rot) cp /\
  on_ellipse c rx' ry' (ocos o rot) (osin o rot) ep /\
  exists k, 1 <= k * k /\ rx' == Qabs rx * k /\ ry' == Qabs ry * k.
Proof.
  intros U (R1 & R2). unfold get_center_of_arc.
  destruct (radius_cases rx) as [Zx|(Ex & Nx)].
  { destruct (Qeqb_spec (arc_radius rx) 0); [discriminate|contradiction]. }
  destruct (radius_cases ry) as [Zy|(Ey & Ny)].
  { destruct (Qeqb_spec (arc_radius ry) 0); [rewrite orb_true_r; discriminate|contradiction]. }
  rewrite Ex, Ey. set (a := Qabs rx) in *. set (b := Qabs ry) in *.
  destruct (Qeqb_spec a 0) as [W|_]; [contradiction|].
  destruct (Qeqb_spec b 0) as [W|_]; [contradiction|]. cbn [orb].
  destruct (isclose (ptx cp) (ptx ep) && isclose (pty cp) (pty ep)) eqn:CL; [discriminate|].
  set (h := arc_half o rot cp ep) in *. cbn zeta in R1, R2.
  set (k := arc_factor o a b h) in *.
  intros [= <- <- <- _ _].
  assert (NH : ~ (ptx h == 0 /\ pty h == 0)).
  { intros [X Y].
    assert (E : ptx cp == ptx ep /\ pty cp == pty ep).
    { unfold h, arc_half in X, Y. cbn [ptx pty] in X, Y. unfold unit_angle in U.
      set (C := ocos o rot) in *. set (S := osin o rot) in *.
      set (dx := (ptx cp - ptx ep) / 2) in *. set (dy := (pty cp - pty ep) / 2) in *.
      assert (dx == 0).
      { transitivity ((C * C + S * S) * dx); [rewrite U; ring|].
        transitivity (C * (C * dx + S * dy) - S * (- S * dx + C * dy)); [ring|rewrite X, Y; ring]. }
      assert (dy == 0).
      { transitivity ((C * C + S * S) * dy); [rewrite U; ring|].
        transitivity (S * (C * dx + S * dy) + C * (- S * dx + C * dy)); [ring|rewrite X, Y; ring]. }
      assert (ptx cp - ptx ep == 2 * dx) by (unfold dx; field).
      assert (pty cp - pty ep == 2 * dy) by (unfold dy; field). lra. }
    destruct E as [E1 E2]. unfold isclose in CL.
    assert (T : forall u v w, u == v -> 0 <= w -> Qabs (u - v) <= w).
    { intros u v w E W. setoid_replace (u - v) with 0 by lra. exact W. }
    assert (B : forall u v, u == v -> (Qabs (u - v) <=?q Qmax (tol * Qmax (Qabs u) (Qabs v)) tol) = true).
    { intros u v E. apply Qle_bool_iff. apply T; [exact E|].
      apply Q.max_le_iff. right. discriminate. }
    rewrite (B _ _ E1), (B _ _ E2) in CL. discriminate. }
  assert (Dh : 0 < a * a * (pty h * pty h) + b * b * (ptx h * ptx h)).
  { assert (0 < a * a) by (assert (0 <= a) by apply Qabs_nonneg; assert (0 < a) by lra; nra).
    assert (0 < b * b) by (assert (0 <= b) by apply Qabs_nonneg; assert (0 < b) by lra; nra).
    destruct (Qeq_dec (ptx h) 0) as [X|X].
    - assert (Y : ~ pty h == 0) by (intros Y; apply NH; split; assumption).
      assert (0 < pty h * pty h) by nra. nra.
    - assert (0 < ptx h * ptx h) by nra. assert (0 <= pty h * pty h) by nra. nra. }
  set (A := ptx h * ptx h / (a * a) + pty h * pty h / (b * b)) in *.
  assert (AD : A * (a * a * (b * b)) == a * a * (pty h * pty h) + b * b * (ptx h * ptx h)).
  { unfold A. field. auto. }
  assert (K : ~ k == 0 /\ 1 <= k * k /\ A <= k * k).
  { unfold k, arc_factor. fold A. destruct (Qltb_spec 1 A) as [L|L].
    - unfold root_at in R1. split; [intros Z; rewrite Z in R1; lra|]. lra.
    - split; [lra|]. lra. }
  destruct K as (K0 & K1 & K2).
  assert (Nak : ~ a * k == 0) by (intros Z; apply Qmult_integral in Z as [Z|Z]; contradiction).
  assert (Nbk : ~ b * k == 0) by (intros Z; apply Qmult_integral in Z as [Z|Z]; contradiction).
  destruct (on_ellipse_centre o (a * k) (b * k) rot (negb (fa =?q 0)) (negb (fs =?q 0)) cp ep U Nak Nbk) as (O1 & O2).
  - fold h. intros Z.
    assert (Z' : k * k * (a * a * (pty h * pty h) + b * b * (ptx h * ptx h)) == 0) by (rewrite <- Z; ring).
    apply Qmult_integral in Z' as [Z'|Z']; [|lra]. lra.
  - fold h.
    apply Qle_trans with (k * k * (A * (a * a * (b * b)))); [rewrite AD; apply Qle_lteq; right; ring|].
    setoid_replace (a * k * (a * k) * (b * k * (b * k))) with (k * k * (k * k * (a * a * (b * b)))) by ring.
    assert (0 <= a * a * (b * b)) by (assert (0 <= a * a) by nra; assert (0 <= b * b) by nra; nra).
    assert (A * (a * a * (b * b)) <= k * k * (a * a * (b * b))) by (apply Qmult_le_compat_r; assumption).
    assert (0 <= k * k) by lra. nra.
  - exact R2.
  - split; [exact O1|]. split; [exact O2|]. exists k. split; [exact K1|]. split; reflexivity.
Qed.

(** the matrix of the approximation puts the unit circle on the ellipse *)
Lemma arc_matrix_point o c rx ry rot x y : oracle_basic o ->
  ocos o (- rot) == ocos o rot -> osin o (- rot) == - osin o rot ->
  let p := arc_point (arc_matrix o c rx ry rot) x y in
  ptx p == ptx c + ocos o rot * (rx * x) + osin o rot * (ry * y) /\
  pty p == pty c + osin o rot * (rx * x) - ocos o rot * (ry * y).
Proof.
  intros O EC ES. cbn zeta.
  set (m := arc_matrix o c rx ry rot).
  assert (E : arc_point m x y = let p := act (arr m) (V4 x y 0 1) in P (v1 p) (- v2 p)).
  { unfold arc_point, transform_point.
    destruct (is2d m && (0 =?q 0) && (1 =?q 1)); reflexivity. }
  rewrite E. cbn zeta. cbn [ptx pty].
  assert (V : veq (act (arr m) (V4 x y 0 1))
    (g_translate (ptx c) (- pty c) 0 (g_rot 0 0 1 (ocos o (- rot)) (osin o (- rot))
      (g_rot 0 1 0 (ocos o 0) (osin o 0) (g_rot 1 0 0 (ocos o 0) (osin o 0)
        (g_scale rx ry 1 0 0 0 (V4 x y 0 1))))))).
  { unfold m, arc_matrix. rewrite scale_meaning, (rotate_meaning o _ _ _ _ _ O), translate_meaning.
    cbn [arr]. rewrite act_mat_vec, id_vec. reflexivity. }
  destruct O as [_ O]. destruct (O 0) as [C0 S0]; [reflexivity|].
  destruct V as (V1 & V2 & _). rewrite V1, V2. clear V1 V2.
  unfold g_translate, g_rot, g_scale. cbn [v1 v2 v3 v4].
  rewrite C0, S0, EC, ES. split; ring.
Qed.

Lemma arc_point_on o c rx ry rot t : oracle_basic o -> unit_angle o rot -> unit_angle o t ->
  ocos o (- rot) == ocos o rot -> osin o (- rot) == - osin o rot ->
  on_ellipse c rx ry (ocos o rot) (osin o rot)
    (arc_point (arc_matrix o c rx ry rot) (ocos o t) (osin o t)).
Proof.
  intros O U T EC ES.
  destruct (arc_matrix_point o c rx ry rot (ocos o t) (osin o t) O EC ES) as [X Y].
  cbn zeta in X, Y. unfold on_ellipse. set (p := arc_point _ _ _) in *.
  unfold unit_angle in U, T. set (C := ocos o rot) in *. set (S := osin o rot) in *.
  set (ct := ocos o t) in *. set (st := osin o t) in *.
  assert (A : C * (ptx p - ptx c) + S * (pty p - pty c) == rx * ct).
  { rewrite X, Y. transitivity ((C * C + S * S) * (rx * ct)); [ring|rewrite U; ring]. }
  assert (B : - S * (ptx p - ptx c) + C * (pty p - pty c) == - (ry * st)).
  { rewrite X, Y. transitivity (- ((C * C + S * S) * (ry * st))); [ring|rewrite U; ring]. }
  rewrite A, B. transitivity ((ct * ct + st * st) * (rx * rx * (ry * ry))); [ring|rewrite T; ring].
Qed.

(** Every curve of a normalised arc ends on the ellipse of the arc. *)
Lemma arc_curves_on o at2 rx ry rot fa fs cp ep l c rx' ry' d1 ext :
  oracle_basic o -> (forall t, unit_angle o t) ->
  ocos o (- rot) == ocos o rot -> osin o (- rot) == - osin o rot ->
  (let h := arc_half o rot cp ep in
   let k := arc_factor o (Qabs rx) (Qabs ry) h in
   let a := ptx h * ptx h / (Qabs rx * Qabs rx) + pty h * pty h / (Qabs ry * Qabs ry) in
   (1 < a -> root_at o a) /\
   root_at o (pymax (arc_fp (Qabs rx * k) (Qabs ry * k) h) 0)) ->
  get_center_of_arc o at2 rx ry rot fa fs cp ep = Centre c rx' ry' d1 ext ->
  normalize_arc o at2 rx ry rot fa fs cp ep = Ok l ->
  Forall (fun g => exists p1 p2 p, g = SC false p1 p2 p /\
     on_ellipse c rx' ry' (ocos o rot) (osin o rot) p) l.
Proof.
  intros O U EC ES R C. destruct (centre_correct _ _ _ _ _ _ _ _ _ _ _ _ _ _ (U rot) R C) as (_ & Oe & _).
  unfold normalize_arc. rewrite C. destruct (Nat.eqb _ 0); [discriminate|]. intros [= <-].
  set (n := Z.to_nat _). apply Forall_forall. intros g Hg. apply in_map_iff in Hg as (i & <- & Hi).
  unfold arc_curve. do 3 eexists. split; [reflexivity|].
  destruct (Nat.eqb (S i) n); [exact Oe|]. apply arc_point_on; auto.
Qed.

(** For a circle without rotation the first curve starts at the start point. *)
Lemma circle_start o at2 r c x y : oracle_basic o ->
  let d := at2 (y - pty c) (x - ptx c) in
  r * ocos o d == x - ptx c -> r * osin o d == y - pty c ->
  ocos o (360 - d) == ocos o d -> osin o (360 - d) == - osin o d ->
  ocos o (- d) == ocos o d -> osin o (- d) == - osin o d ->
  ocos o (- 0) == 1 -> osin o (- 0) == 0 ->
  let d1 := get_angle at2 (y - pty c) (x - ptx c) in
  let p := arc_point (arc_matrix o c r r 0) (ocos o d1) (osin o d1) in
  peq p (P x y).
Proof.
  intros O d Hc Hs C1 S1 C2 S2 C0 S0 d1 p.
  destruct O as [O1 O2]. destruct (O2 0) as [K1 K2]; [reflexivity|].
  destruct (arc_matrix_point o c r r 0 (ocos o d1) (osin o d1) (conj O1 O2)) as [X Y];
    [rewrite C0, K1; reflexivity|rewrite S0, K2; ring|].
  cbn zeta in X, Y. fold p in X, Y.
  assert (D : r * ocos o d1 == x - ptx c /\ r * osin o d1 == - (y - pty c)).
  { unfold d1, get_angle. fold d. destruct (Qltb_spec 0 (y - pty c)).
    - rewrite C1, S1. split; [exact Hc|]. rewrite <- Hs. ring.
    - destruct (Qltb_spec (y - pty c) 0).
      + rewrite C2, S2. split; [exact Hc|]. rewrite <- Hs. ring.
      + split; [exact Hc|]. rewrite Hs. lra. }
  destruct D as [D1 D2]. split; cbn [ptx pty].
  - rewrite X, K1, K2, D1. ring.
  - rewrite Y, K1, K2, D2. ring.
Qed.
