(** Specification vocabulary for rectangles: the closed region a rectangle
    denotes, independent of any method of the model. *)
From Verif Require Import PyBase RectModel.
Local Open Scope Q_scope.

(** The closed set of points a rectangle with non-negative size covers; an
    unset rectangle covers nothing. *)
Definition region (r : rect) (px py : Q) : Prop :=
  match rx r, ry r with
  | Some x, Some y => x <= px <= x + rw r /\ y <= py <= y + rh r
  | _, _ => False
  end.

(** The open interior. *)
Definition interior (r : rect) (px py : Q) : Prop :=
  match rx r, ry r with
  | Some x, Some y => x < px < x + rw r /\ y < py < y + rh r
  | _, _ => False
  end.

Definition overlap (r s : rect) : Prop :=
  exists px py, interior r px py /\ interior s px py.

(** A rectangle in the state bounding-box code keeps it: unset, or placed
    with non-negative sizes. *)
Definition proper (r : rect) : Prop :=
  (rx r = None /\ ry r = None /\ rw r == 0 /\ rh r == 0) \/
  (rx r <> None /\ ry r <> None /\ 0 <= rw r /\ 0 <= rh r).

(** A rectangle that is unset, a point, or has both sizes positive: what
    unite_self handles correctly as an operand. *)
Definition full (r : rect) : Prop :=
  proper r /\ (0 < rw r <-> 0 < rh r).

Definition included (r s : rect) : Prop :=
  forall px py, region r px py -> region s px py.

Definition same_region (r s : rect) : Prop :=
  forall px py, region r px py <-> region s px py.

(** The region swept by a (possibly mirrored) rectangle. *)
Definition swept (r : rect) (px py : Q) : Prop :=
  match rx r, ry r with
  | Some x, Some y =>
      (x <= px <= x + rw r \/ x + rw r <= px <= x) /\
      (y <= py <= y + rh r \/ y + rh r <= py <= y)
  | _, _ => False
  end.
