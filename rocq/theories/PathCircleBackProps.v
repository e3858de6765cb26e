(** C14, arcs of circles: there and back. *)
From Coq Require Import Qabs Qminmax Qround ZArith Lqa Lia Bool.
From Verif Require Import PyBase MatrixModel MatrixSpec PathModel PathSpec MatrixProofs2 PathArcProofs PathArcSpec PathProps PathArcProps PathReverseProps PathCircleProps.
#[local] Open Scope Q_scope.

Lemma start_angle o at2 rx ry rot fa fs cp ep c r r' d ext : get_center_of_arc o at2 rx ry rot fa fs cp ep = Centre c r r' d ext ->
  d = (if rot =?q 0 then get_angle at2 (pty cp - pty c) (ptx cp - ptx c) else get_angle at2 (pty cp - pty c) (ptx cp - ptx c) + rot).
Proof.
  intros G. unfold get_center_of_arc in G. destruct (_ || _); [discriminate|]. destruct (_ && _); [discriminate|]. set (cc := arc_center _ _ _ _ _ _ _ _) in G. clearbody cc.
  injection G as G1 _ _ G4 _. rewrite G1 in G4. symmetry. exact G4.
Qed.
Lemma angle_eq at2 y y' x x' : (forall y y' x x', y == y' -> x == x' -> at2 y x == at2 y' x') -> y == y' -> x == x' -> get_angle at2 y x == get_angle at2 y' x'.
Proof.
  intros AT Y X. assert (W := AT _ _ _ _ Y X). unfold get_angle. destruct (Qltb_spec 0 y), (Qltb_spec 0 y'); try (exfalso; lra); [lra|]. destruct (Qltb_spec y 0), (Qltb_spec y' 0); try (exfalso; lra); lra.
Qed.

(** The arc of a circle from its other end, with the other sweep flag, starts
    where this one ends and ends where this one starts, turning the other way
    by the same angle. *)
Theorem c14_circle_back : forall o at2 rx ry rot fa fs fs' cp ep c r r' d1 ext, atan_like at2 -> sine_signs o -> unit_angle o rot ->
  (forall x, 0 <= x -> 0 <= osqrt o x) -> (forall x y, x == y -> osqrt o x == osqrt o y) -> (forall y y' x x', y == y' -> x == x' -> at2 y x == at2 y' x') -> (fs' == 0 <-> ~ fs == 0) ->
  get_center_of_arc o at2 rx ry rot fa fs cp ep = Centre c r r' d1 ext -> r == r' -> 0 < r ->
  let a := get_angle at2 (pty cp - pty c) (ptx cp - ptx c) in let b := get_angle at2 (pty ep - pty c) (ptx ep - ptx c) in
  r * ocos o a == ptx cp - ptx c -> r * osin o a == - (pty cp - pty c) -> r * ocos o b == ptx ep - ptx c -> r * osin o b == - (pty ep - pty c) ->
  osin o (b - a) == osin o b * ocos o a - ocos o b * osin o a ->
  exists c' r1 r2 d2 ext', get_center_of_arc o at2 rx ry rot fa fs' ep cp = Centre c' r1 r2 d2 ext' /\ peq c' c /\ r1 == r /\ r2 == r /\ ext' == - ext
    /\ same_angle (d1 + ext) d2 /\ same_angle (d2 + ext') d1.
Proof.
  intros o at2 rx ry rot fa fs fs' cp ep c r r' d1 ext T SG U SQ SP AT FS G RR RP a b CA SA CB SB DF.
  destruct (c14_circle_end o at2 rx ry rot fa fs cp ep c r r' d1 ext T SG U SQ G RR RP CA SA CB SB DF) as [END _]. fold b in END.
  destruct (c14_arc_reversed o at2 rx ry rot fa fs fs' cp ep c r r' d1 ext SP AT FS G) as (c' & r1 & r2 & d2 & ext' & G' & CX & CY & R1 & R2 & E & _).
  exists c', r1, r2, d2, ext'. split; [exact G'|]. split; [split; assumption|]. split; [exact R1|]. split; [rewrite R2; symmetry; exact RR|]. split; [exact E|].
  assert (D2 : d2 == if rot =?q 0 then b else b + rot).
  { rewrite (start_angle _ _ _ _ _ _ _ _ _ _ _ _ _ _ G'). assert (W : get_angle at2 (pty ep - pty c') (ptx ep - ptx c') == b) by (apply angle_eq; [exact AT|rewrite CY; reflexivity|rewrite CX; reflexivity]). destruct (rot =?q 0); rewrite W; reflexivity. }
  destruct END as [k K]. rewrite <- D2 in K. split; [exists k; exact K|]. exists (- k)%Z. rewrite inject_Z_opp, E. lra.
Qed.
Print Assumptions c14_circle_back.
(* a quarter drawn clockwise from (5, 0) and back from (0, 5): the second arc starts
   a turn later than the first ends *)
Lemma axis_proper y y' x x' : y == y' -> x == x' -> axis_at2 y x == axis_at2 y' x'.
Proof. intros Y X. unfold axis_at2. destruct (Qeqb_spec y 0), (Qeqb_spec y' 0); try (exfalso; lra); [destruct (Qltb_spec x 0), (Qltb_spec x' 0); try (exfalso; lra); reflexivity|]. destruct (Qltb_spec 0 y), (Qltb_spec 0 y'); try (exfalso; lra); reflexivity. Qed.
Example c14_circle_back_case : (forall y y' x x', y == y' -> x == x' -> axis_at2 y x == axis_at2 y' x') /\ (0 == 0 <-> ~ 1 == 0) /\
  (forall x y, x == y -> osqrt hump_oracle x == osqrt hump_oracle y) /\
  (exists c d, get_center_of_arc hump_oracle axis_at2 5 5 0 0 1 (P 5 0) (P 0 5) = Centre c 5 5 d (-90) /\ d == 0) /\
  (exists c d, get_center_of_arc hump_oracle axis_at2 5 5 0 0 0 (P 0 5) (P 5 0) = Centre c 5 5 d 90 /\ d == 270).
Proof.
  split; [exact axis_proper|]. split; [split; [intros _; discriminate|reflexivity]|]. split.
  - intros x y E. cbn. destruct (Qltb_spec x 0), (Qltb_spec y 0); try (exfalso; lra); [reflexivity|exact E].
  - split; eexists; eexists; (split; [vm_compute; reflexivity|vm_compute; reflexivity]).
Qed.
