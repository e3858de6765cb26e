(** How long the strokes of a path are. *)
From Coq Require Import Qabs.
From Verif Require Import PyBase MatrixModel PathModel PathSpec TravelModel.
Local Open Scope Q_scope.

(** the integral depends on the values of the function only, hypot and the
    arcs on the numbers *)
Definition lawful (ms : measure) : Prop :=
  (forall f g, (forall t, f t == g t) -> root_integral ms f == root_integral ms g) /\
  (forall x y x' y', x == x' -> y == y' -> hypot ms x y == hypot ms x' y') /\
  (forall rx ry a rx' ry' a', rx == rx' -> ry == ry' -> a == a' -> quarter ms rx ry a == quarter ms rx' ry' a').

(** ** Speed *)
Definition velocity (t : Q) (f : pt -> Q) (d : stroke) : Q :=
  match d with
  | Line a b | Close a b => f b - f a
  | Quad a c b => 2 * mix t (f c - f a) (f b - f c)
  | Cubic a c e b => 3 * mix t (mix t (f c - f a) (f e - f c)) (mix t (f e - f c) (f b - f e))
  | _ => 0
  end.
Definition speed2 (d : stroke) (t : Q) : Q :=
  velocity t ptx d * velocity t ptx d + velocity t pty d * velocity t pty d.

(** ** Length along an ellipse
    [along ms rx ry f]: f measures from the first axis of the ellipse, in the
    direction of growing angles; both axes are axes of symmetry. *)
Definition along (ms : measure) (rx ry : Q) (f : Q -> Q) : Prop :=
  (forall a b, a == b -> f a == f b) /\
  (forall a, 0 <= a <= 90 -> f a == quarter ms rx ry a) /\
  (forall a, f (- a) == - f a) /\
  (forall a, f (a + 180) == f a + 2 * quarter ms rx ry 90).

(** ** Lengths of strokes *)
Definition length_of (ms : measure) (d : stroke) : Q :=
  match d with
  | Line a b | Close a b => hypot ms (ptx b - ptx a) (pty b - pty a)
  | Quad _ _ _ | Cubic _ _ _ _ => root_integral ms (speed2 d)
  | _ => 0
  end.
(** An arc is as long as the part of its ellipse between its two angles (C14
    says that the centre and radii are those of the arc); without a radius it
    is a line, and between points that coincide it is nothing. *)
Definition measures (o : oracle) (at2 : Q -> Q -> Q) (ms : measure) (d : stroke) (v : Q) : Prop :=
  match d with
  | Arc a rx ry rot fa fs b =>
      exists a' rot' b', peq a a' /\ rot == rot' /\ peq b b' /\
      match get_center_of_arc o at2 rx ry rot' fa fs a' b' with
      | NoCentre rx' ry' => v == (if (rx' =?q 0) || (ry' =?q 0) then hypot ms (ptx b - ptx a) (pty b - pty a) else 0)
      | Centre _ rx' ry' d1 ext => forall f, along ms rx' ry' f -> Qabs ext < 360 -> ~ rx' == 0 -> ~ ry' == 0 ->
          v == (if ext <?q 0 then f d1 - f (d1 + ext) else f (d1 + ext) - f d1)
      end
  | _ => v == length_of ms d
  end.
Fixpoint sum (l : list Q) : Q := match l with [] => 0 | v :: l' => v + sum l' end.

(** ** Where the control points are right: as in C14, but a bearing between
    two movetos does no harm *)
Definition allowed_len (m : mode) (g : seg) : bool :=
  match g, m with
  | SM _ _, _ => true
  | _, _ => allowed m g
  end.
Fixpoint smooth_len (m : mode) (l : list seg) : bool :=
  match l with [] => true | g :: l' => allowed_len m g && smooth_len (mode_after m g) l' end.

(** ** Laws of lengths *)
(** a square root of k * k * f is k times one of f *)
Definition homogeneous (ms : measure) : Prop :=
  (forall k f g, 0 <= k -> (forall t, g t == k * k * f t) -> root_integral ms g == k * root_integral ms f) /\
  (forall k x y x' y', 0 <= k -> x' * x' + y' * y' == k * k * (x * x + y * y) -> hypot ms x' y' == k * hypot ms x y).
(** the map of a matrix multiplies every distance by k *)
Definition dist2 (p q : pt) : Q := (ptx q - ptx p) * (ptx q - ptx p) + (pty q - pty p) * (pty q - pty p).
Definition similarity (k : Q) (a : mat) : Prop := 0 <= k /\ forall p q, dist2 (img a p) (img a q) == k * k * dist2 p q.
Definition positive (ms : measure) : Prop := (forall f, 0 <= root_integral ms f) /\ forall x y, 0 <= hypot ms x y.
(** atan2 in degrees: above the axis between 0 and 180, below it between -180 and 0 *)
Definition atan2_range (at2 : Q -> Q -> Q) : Prop :=
  forall y x, (0 < y -> 0 < at2 y x < 180) /\ (y < 0 -> - (180) < at2 y x < 0) /\ (y == 0 -> 0 <= at2 y x <= 180).
(** the last command is not a moveto, and there are no bearings *)
Definition drawn_last (l : list seg) : bool :=
  match rev (filter (fun g => match g with SInvalid => false | _ => true end) l) with
  | [] | SM _ _ :: _ => false
  | _ => true
  end.
Definition no_bearing (g : seg) : bool := match g with SB _ _ => false | _ => true end.
