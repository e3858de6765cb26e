(** What C14 says further about arcs: angles read as atan2 gives them, and the
    middle of a cubic curve. *)
From Coq Require Import Qabs.
From Verif Require Import PyBase MatrixModel PathModel PathSpec.
#[local] Open Scope Q_scope.

(* degrees(atan2(y, x)) is between -180 and 180 and has the sign of y *)
Definition atan_like (at2 : Q -> Q -> Q) : Prop := forall y x,
  - (180) <= at2 y x /\ at2 y x <= 180 /\ (0 < y -> 0 <= at2 y x) /\ (y < 0 -> at2 y x <= 0) /\ (y == 0 -> 0 <= at2 y x).
(* the point of a cubic curve at parameter 1/2 *)
Definition middle (p0 p1 p2 p3 : pt) : pt :=
  P ((ptx p0 + 3 * ptx p1 + 3 * ptx p2 + ptx p3) / 8) ((pty p0 + 3 * pty p1 + 3 * pty p2 + pty p3) / 8).
(* the point of the ellipse with axes rx, ry turned by the angle of cosine co
   and sine si, whose image on the unit circle is (x, y); the angle grows
   anticlockwise while y grows downwards *)
Definition ellipse_at (c : pt) (rx ry co si x y : Q) : pt :=
  P (ptx c + co * (rx * x) + si * (ry * y)) (pty c + si * (rx * x) - co * (ry * y)).
(* cosine and sine follow the laws of sums for [m] and [h], both ways *)
Definition sums (o : oracle) (m h : Q) : Prop :=
  ocos o (m + h) == ocos o m * ocos o h - osin o m * osin o h /\ osin o (m + h) == osin o m * ocos o h + ocos o m * osin o h /\
  ocos o (m - h) == ocos o m * ocos o h + osin o m * osin o h /\ osin o (m - h) == osin o m * ocos o h - ocos o m * osin o h.
(* the point of a cubic curve at parameter u *)
Definition bernstein (a b c d u : Q) : Q :=
  (1 - u) * (1 - u) * (1 - u) * a + 3 * u * (1 - u) * (1 - u) * b + 3 * u * u * (1 - u) * c + u * u * u * d.
Definition cubic_at (p0 p1 p2 p3 : pt) (u : Q) : pt :=
  P (bernstein (ptx p0) (ptx p1) (ptx p2) (ptx p3) u) (bernstein (pty p0) (pty p1) (pty p2) (pty p3) u).
(* degrees(atan2(y, x)): in the half of the plane the sign of y says, and the
   same only for points in the same direction *)
Definition exact_angles (at2 : Q -> Q -> Q) : Prop :=
  (forall y x, (0 < y -> 0 < at2 y x /\ at2 y x < 180) /\ (y < 0 -> - (180) < at2 y x /\ at2 y x < 0) /\ (y == 0 -> at2 y x == 0 \/ at2 y x == 180)) /\
  (forall y x y' x', at2 y x == at2 y' x' -> y * x' == y' * x /\ 0 <= x * x' + y * y').
(* the points are not equal up to 1e-9 of themselves, or of 1 *)
Definition near (x y : Q) : Prop := let e := Qabs (x - y) * 1000000000 in e <= 1 \/ e <= Qabs x \/ e <= Qabs y.
Definition apart (d : stroke) : Prop := match d with Arc a _ _ _ _ _ b => ~ (near (ptx a) (ptx b) /\ near (pty a) (pty b)) | _ => True end.
