(** Which points a bounding box has to cover, stated with the strokes a path
    draws and the points of a stroke. *)
From Verif Require Import PyBase RectModel RectSpec MatrixModel PathModel PathSpec.
Local Open Scope Q_scope.

(** p is a point of the stroke d *)
Definition on_stroke (d : stroke) (p : pt) : Prop :=
  exists t, 0 <= t <= 1 /\ at_time t d = Some p.
Definition drawn_stroke (d : stroke) : Prop := match d with Move _ => False | _ => True end.
(** the stroke has extent in x exactly if it has extent in y *)
Definition varies (f : pt -> Q) (d : stroke) : Prop :=
  exists p q, on_stroke d p /\ on_stroke d q /\ ~ f p == f q.
Definition spread (d : stroke) : Prop := varies ptx d <-> varies pty d.
(** the upper left corner of the smallest box around the stroke *)
Definition corner (d : stroke) (q : pt) : Prop :=
  (forall p, on_stroke d p -> ptx q <= ptx p /\ pty q <= pty p) /\
  (exists p, on_stroke d p /\ ptx p == ptx q) /\ (exists p, on_stroke d p /\ pty p == pty q).
(** the points svgpy's box is made of: the corner, and of spread strokes
    every point *)
Definition anchor (d : stroke) (p : pt) : Prop :=
  corner d p \/ (spread d /\ on_stroke d p).
Definition inside (r : rect) (p : pt) : Prop := region r (ptx p) (pty p).

(** the square roots taken for a curve are exact: the discriminant of the
    derivative of one coordinate *)
Definition turning (p0 p1 p2 p3 : Q) : Q :=
  let a := 3 * (p3 - 3 * p2 + 3 * p1 - p0) in
  let b := 6 * (p2 - 2 * p1 + p0) in
  let c := 3 * (p1 - p0) in
  b * b - 4 * a * c.
Definition has_root (z : Q) : Prop := 0 <= z -> exists q, 0 <= q /\ q * q == z.
Definition exact_turns (d : stroke) : Prop :=
  match d with
  | Cubic a c e b => has_root (turning (ptx a) (ptx c) (ptx e) (ptx b)) /\
                     has_root (turning (pty a) (pty c) (pty e) (pty b))
  | _ => True
  end.

(** b is the smallest box around the points of S *)
Definition least_box (S : pt -> Prop) (b : rect) : Prop :=
  proper b /\ (forall p, S p -> inside b p) /\
  (forall c, proper c -> (forall p, S p -> inside c p) -> included b c).
(** the points svgpy's box of a path is made of: where the path starts and
    the anchors of its lines and curves *)
Definition marks (o : oracle) (l : list seg) (q : pt) : Prop :=
  (exists p l', l = SM false p :: l' /\ peq q p) \/
  (exists d, In d (drawing o l) /\ drawn_stroke d /\ anchor d q).
(** every point drawn *)
Definition painted (o : oracle) (l : list seg) (q : pt) : Prop :=
  exists d, In d (drawing o l) /\ drawn_stroke d /\ on_stroke d q.
