(** C14, arcs: the same arc from its other end. *)
From Coq Require Import Qabs Qminmax ZArith Lqa Lia Bool.
From Verif Require Import PyBase MatrixModel MatrixSpec PathModel PathSpec MatrixProofs2 PathArcProofs PathArcSpec PathProps PathArcProps.
#[local] Open Scope Q_scope.

Lemma isclose_sym a b : isclose a b = isclose b a.
Proof.
  unfold isclose. assert (E : Qabs (a - b) == Qabs (b - a)) by (rewrite Qabs_Qminus; reflexivity). assert (M : Qmax (Qabs a) (Qabs b) == Qmax (Qabs b) (Qabs a)) by apply Q.max_comm.
  assert (F : Qmax (tol * Qmax (Qabs a) (Qabs b)) tol == Qmax (tol * Qmax (Qabs b) (Qabs a)) tol) by (rewrite M; reflexivity).
  destruct (Qleb_spec (Qabs (a - b)) (Qmax (tol * Qmax (Qabs a) (Qabs b)) tol)), (Qleb_spec (Qabs (b - a)) (Qmax (tol * Qmax (Qabs b) (Qabs a)) tol)); try reflexivity; exfalso; lra.
Qed.
Lemma half_opp o rot cp ep : ptx (arc_half o rot ep cp) == - ptx (arc_half o rot cp ep) /\ pty (arc_half o rot ep cp) == - pty (arc_half o rot cp ep).
Proof. unfold arc_half. cbn [ptx pty]. split; field. Qed.
Lemma sq_opp x y : x == - y -> x * x == y * y. Proof. intros ->. ring. Qed.
Lemma pymax_proper a b : a == b -> pymax a 0 == pymax b 0.
Proof. intros E. unfold pymax. repeat match goal with |- context [?x <?q ?y] => destruct (Qltb_spec x y) end; try lra. Qed.
Lemma angle_proper at2 : (forall y y' x x', y == y' -> x == x' -> at2 y x == at2 y' x') -> forall y y' x x', y == y' -> x == x' -> get_angle at2 y x == get_angle at2 y' x'.
Proof.
  intros A y y' x x' Y X. unfold get_angle. assert (E := A y y' x x' Y X). destruct (Qltb_spec 0 y), (Qltb_spec 0 y'); try lra. destruct (Qltb_spec y 0), (Qltb_spec y' 0); try lra.
Qed.
Lemma extent_ends fa fs a b : let x := arc_extent fa fs a b in exists k : Z, b == a + x + inject_Z k * 360 \/ b == a - x + inject_Z k * 360.
Proof.
  assert (I0 : inject_Z 0 * 360 == 0) by reflexivity. assert (I1 : inject_Z 1 * 360 == 360) by reflexivity. assert (I2 : inject_Z (-1) * 360 == - (360)) by reflexivity.
  cbv zeta. unfold arc_extent. destruct (Qlt_le_dec (b - a) 0) as [L|L].
  - assert (E : Qabs (b - a) == a - b) by (rewrite Qabs_neg; lra). set (d := Qabs (b - a)) in *. clearbody d.
    destruct fa, fs, (Qltb_spec d 180), (Qltb_spec 180 d); first [exists 0%Z; left; lra|exists 0%Z; right; lra|exists (-1)%Z; left; lra|exists (-1)%Z; right; lra|exists 1%Z; left; lra|exists 1%Z; right; lra].
  - assert (E : Qabs (b - a) == b - a) by (rewrite Qabs_pos; lra). set (d := Qabs (b - a)) in *. clearbody d.
    destruct fa, fs, (Qltb_spec d 180), (Qltb_spec 180 d); first [exists 0%Z; left; lra|exists 0%Z; right; lra|exists (-1)%Z; left; lra|exists (-1)%Z; right; lra|exists 1%Z; left; lra|exists 1%Z; right; lra].
Qed.
Lemma extent_swap fa fs a b a' b' : a == a' -> b == b' -> arc_extent fa (negb fs) b' a' == - arc_extent fa fs a b.
Proof.
  intros A B. unfold arc_extent. assert (E : Qabs (a' - b') == Qabs (b - a)) by (rewrite Qabs_Qminus, A, B; reflexivity).
  set (d := Qabs (b - a)) in *. set (d' := Qabs (a' - b')) in *. clearbody d d'. destruct fa, fs; cbn [negb]; destruct (Qltb_spec d 180), (Qltb_spec d' 180), (Qltb_spec 180 d), (Qltb_spec 180 d'); lra.
Qed.

(** Drawn from its end to its start, with the other sweep flag, an arc has the
    same centre and radii and the opposite extent, and it starts at the angle
    to which the extent leads, up to full turns and the direction. *)
Theorem c14_arc_reversed : forall o at2 rx ry rot fa fs fs' cp ep c rx1 ry1 d1 ext,
  (forall x y, x == y -> osqrt o x == osqrt o y) -> (forall y y' x x', y == y' -> x == x' -> at2 y x == at2 y' x') -> (fs' == 0 <-> ~ fs == 0) ->
  get_center_of_arc o at2 rx ry rot fa fs cp ep = Centre c rx1 ry1 d1 ext ->
  exists c' rx2 ry2 d2 ext', get_center_of_arc o at2 rx ry rot fa fs' ep cp = Centre c' rx2 ry2 d2 ext'
    /\ ptx c' == ptx c /\ pty c' == pty c /\ rx2 == rx1 /\ ry2 == ry1 /\ ext' == - ext
    /\ exists k : Z, d2 == d1 + ext + inject_Z k * 360 \/ d2 == d1 - ext + inject_Z k * 360.
Proof.
  intros o at2 rx ry rot fa fs fs' cp ep c rx1 ry1 d1 ext SQ AT FS. unfold get_center_of_arc.
  rewrite (isclose_sym (ptx ep) (ptx cp)), (isclose_sym (pty ep) (pty cp)).
  destruct (_ || _) eqn:Z0; [discriminate|]. destruct (_ && _); [discriminate|].
  assert (NF : negb (fs' =?q 0) = negb (negb (fs =?q 0))) by (destruct (Qeqb_spec fs' 0), (Qeqb_spec fs 0); cbn; try reflexivity; exfalso; tauto). rewrite NF.
  set (b := negb (fs =?q 0)). set (g := negb (fa =?q 0)).
  apply orb_false_iff in Z0. destruct Z0 as [ZX ZY]. set (RX := arc_radius rx) in *. set (RY := arc_radius ry) in *.
  assert (NX : ~ RX == 0) by (intros H; apply Qeq_bool_iff in H; congruence). assert (NY : ~ RY == 0) by (intros H; apply Qeq_bool_iff in H; congruence).
  destruct (half_opp o rot cp ep) as [HX HY]. set (h := arc_half o rot cp ep) in *. set (h' := arc_half o rot ep cp) in *.
  assert (HX2 := sq_opp _ _ HX). assert (HY2 := sq_opp _ _ HY).
  assert (KE : arc_factor o RX RY h' == arc_factor o RX RY h).
  { unfold arc_factor. set (a1 := ptx h' * ptx h' / (RX * RX) + pty h' * pty h' / (RY * RY)). set (a2 := ptx h * ptx h / (RX * RX) + pty h * pty h / (RY * RY)).
    assert (E : a1 == a2) by (unfold a1, a2; rewrite HX2, HY2; reflexivity). destruct (Qltb_spec 1 a1), (Qltb_spec 1 a2); [now apply SQ|exfalso; lra|exfalso; lra|reflexivity]. }
  set (k := arc_factor o RX RY h) in *. set (k' := arc_factor o RX RY h') in *.
  assert (CE : let a := arc_center o (RX * k') (RY * k') rot g (negb b) ep cp in let e := arc_center o (RX * k) (RY * k) rot g b cp ep in ptx a == ptx e /\ pty a == pty e).
  { cbv zeta. unfold arc_center. fold h h'.
    assert (FP : osqrt o (pymax (arc_fp (RX * k') (RY * k') h') 0) == osqrt o (pymax (arc_fp (RX * k) (RY * k) h) 0)).
    { apply SQ, pymax_proper. unfold arc_fp. rewrite HX2, HY2, KE. reflexivity. }
    set (f1 := osqrt o (pymax (arc_fp (RX * k') (RY * k') h') 0)) in *. set (f2 := osqrt o (pymax (arc_fp (RX * k) (RY * k) h) 0)) in *.
    assert (FF : (if Bool.eqb g (negb b) then - f1 else f1) == - (if Bool.eqb g b then - f2 else f2)) by (destruct g, b; cbn [Bool.eqb negb]; lra).
    set (s1 := if Bool.eqb g (negb b) then - f1 else f1) in *. set (s2 := if Bool.eqb g b then - f2 else f2) in *. clearbody s1 s2. cbn [ptx pty].
    rewrite FF, HX, HY, KE. unfold Qdiv. split; ring. }
  cbv zeta in CE. set (c1 := arc_center o (RX * k') (RY * k') rot g (negb b) ep cp) in *. set (c2 := arc_center o (RX * k) (RY * k) rot g b cp ep) in *. destruct CE as [CX CY].
  assert (A1 : get_angle at2 (pty cp - pty c2) (ptx cp - ptx c2) == get_angle at2 (pty cp - pty c1) (ptx cp - ptx c1)) by (apply angle_proper; [exact AT|rewrite CY|rewrite CX]; reflexivity).
  assert (A2 : get_angle at2 (pty ep - pty c2) (ptx ep - ptx c2) == get_angle at2 (pty ep - pty c1) (ptx ep - ptx c1)) by (apply angle_proper; [exact AT|rewrite CY|rewrite CX]; reflexivity).
  set (p1 := get_angle at2 (pty cp - pty c2) (ptx cp - ptx c2)) in *. set (p2 := get_angle at2 (pty ep - pty c2) (ptx ep - ptx c2)) in *.
  set (q1 := get_angle at2 (pty cp - pty c1) (ptx cp - ptx c1)) in *. set (q2 := get_angle at2 (pty ep - pty c1) (ptx ep - ptx c1)) in *.
  assert (B1 : (if rot =?q 0 then p1 else p1 + rot) == (if rot =?q 0 then q1 else q1 + rot)) by (destruct (rot =?q 0); lra).
  assert (B2 : (if rot =?q 0 then p2 else p2 + rot) == (if rot =?q 0 then q2 else q2 + rot)) by (destruct (rot =?q 0); lra).
  set (e1 := if rot =?q 0 then p1 else p1 + rot) in *. set (e2 := if rot =?q 0 then p2 else p2 + rot) in *. set (e3 := if rot =?q 0 then q1 else q1 + rot) in *. set (e4 := if rot =?q 0 then q2 else q2 + rot) in *.
  clearbody e1 e2 e3 e4 c1 c2 k k'. intros H. assert (H' : c2 = c /\ RX * k = rx1 /\ RY * k = ry1 /\ e1 = d1 /\ arc_extent g b e1 e2 = ext) by (inversion H; auto). clear H. destruct H' as (-> & <- & <- & <- & <-).
  do 5 eexists. split; [reflexivity|]. split; [exact CX|]. split; [exact CY|]. split; [now rewrite KE|]. split; [now rewrite KE|]. split; [now apply extent_swap|].
  destruct (extent_ends g b e1 e2) as (n & N). exists n. destruct N as [N|N]; [left|right]; rewrite <- B2; exact N.
Qed.
Print Assumptions c14_arc_reversed.
(* a quarter of a circle, from either end *)
Definition flat_oracle : oracle := Orc (fun _ => 1) (fun _ => 0) (fun _ => 0) (fun q => q).
Example c14_arc_reversed_case : (forall x y, x == y -> osqrt flat_oracle x == osqrt flat_oracle y) /\ (forall y y' x x', y == y' -> x == x' -> axis_at2 y x == axis_at2 y' x') /\
  (exists c d, get_center_of_arc flat_oracle axis_at2 5 5 0 0 1 (P 5 0) (P 0 5) = Centre c 5 5 d (-90) /\ peq c (P 0 0) /\ d == 0) /\
  (exists c d, get_center_of_arc flat_oracle axis_at2 5 5 0 0 0 (P 0 5) (P 5 0) = Centre c 5 5 d 90 /\ peq c (P 0 0) /\ d == 270).
Proof.
  split; [intros x y E; exact E|]. split; [intros y y' x x' Y X; unfold axis_at2; repeat match goal with |- context [?a =?q ?b] => destruct (Qeqb_spec a b) | |- context [?a <?q ?b] => destruct (Qltb_spec a b) end; cbn [negb andb]; try reflexivity; exfalso; lra|].
  split; eexists; eexists; (split; [vm_compute; reflexivity|]); repeat split; vm_compute; reflexivity.
Qed.
