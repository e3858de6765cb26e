(** Specification vocabulary for matrices: what a matrix does to points, and
    the geometric meaning of each operation, independent of the arrays the
    operations build. *)
From Verif Require Import PyBase MatrixModel.
Local Open Scope Q_scope.

Definition veq (p q : vec4) : Prop :=
  v1 p == v1 q /\ v2 p == v2 q /\ v3 p == v3 q /\ v4 p == v4 q.
Definition meq (a b : mat) : Prop :=
  veq (col1 a) (col1 b) /\ veq (col2 a) (col2 b) /\ veq (col3 a) (col3 b) /\ veq (col4 a) (col4 b).

(** The homogeneous linear map of a matrix, by rows. *)
Definition act (m : mat) (p : vec4) : vec4 :=
  V4 (m11 m * v1 p + m21 m * v2 p + m31 m * v3 p + m41 m * v4 p)
     (m12 m * v1 p + m22 m * v2 p + m32 m * v3 p + m42 m * v4 p)
     (m13 m * v1 p + m23 m * v2 p + m33 m * v3 p + m43 m * v4 p)
     (m14 m * v1 p + m24 m * v2 p + m34 m * v3 p + m44 m * v4 p).

(** Every 3D entry has its identity value. *)
Definition two_d (m : mat) : Prop :=
  m13 m == 0 /\ m14 m == 0 /\ m23 m == 0 /\ m24 m == 0 /\ m31 m == 0 /\ m32 m == 0 /\
  m33 m == 1 /\ m34 m == 0 /\ m43 m == 0 /\ m44 m == 1.
Definition truthful (m : dmat) : Prop := is2d m = true -> two_d (arr m).

(** Same object state up to equality of numbers. *)
Definition deq (m n : dmat) : Prop := meq (arr m) (arr n) /\ is2d m = is2d n.

(** What math.sqrt gives on exact squares: enough to know that a rotation
    about the z axis has a unit axis. *)
Definition sqrt_ok (o : oracle) : Prop :=
  forall q z, 0 <= z -> q == z * z -> osqrt o q == z.
(** The two angles' cosines and sines lie on the unit circle. *)
Definition unit_angle (o : oracle) (a : Q) : Prop :=
  ocos o a * ocos o a + osin o a * osin o a == 1.

(** Geometric meaning of the operations on homogeneous points. *)
Definition g_translate (tx ty tz : Q) (p : vec4) : vec4 :=
  V4 (v1 p + tx * v4 p) (v2 p + ty * v4 p) (v3 p + tz * v4 p) (v4 p).
Definition g_scale (sx sy sz ox oy oz : Q) (p : vec4) : vec4 :=
  V4 (ox * v4 p + sx * (v1 p - ox * v4 p)) (oy * v4 p + sy * (v2 p - oy * v4 p))
     (oz * v4 p + sz * (v3 p - oz * v4 p)) (v4 p).
Definition g_skew_x (t : Q) (p : vec4) : vec4 := V4 (v1 p + t * v2 p) (v2 p) (v3 p) (v4 p).
Definition g_skew_y (t : Q) (p : vec4) : vec4 := V4 (v1 p) (v2 p + t * v1 p) (v3 p) (v4 p).
(** Rodrigues' formula: rotation by an angle with cosine c and sine s about
    the unit axis (x,y,z). *)
Definition g_rot (x y z c s : Q) (p : vec4) : vec4 :=
  let d := x * v1 p + y * v2 p + z * v3 p in
  V4 (c * v1 p + s * (y * v3 p - z * v2 p) + (1 - c) * d * x)
     (c * v2 p + s * (z * v1 p - x * v3 p) + (1 - c) * d * y)
     (c * v3 p + s * (x * v2 p - y * v1 p) + (1 - c) * d * z)
     (v4 p).
(** Rotation in the plane. *)
Definition g_rot2 (c s : Q) (p : vec4) : vec4 :=
  V4 (c * v1 p - s * v2 p) (s * v1 p + c * v2 p) (v3 p) (v4 p).

(** Meaning of one post-multiplying operation; None for the others. *)
Definition g_op (o : oracle) (op : mat_op) : option (vec4 -> vec4) :=
  match op with
  | MMul x => Some (act (arr x))
  | MTranslate tx ty tz => Some (g_translate tx ty tz)
  | MScale sx sy sz ox oy oz =>
      Some (g_scale sx (match sy with Some v => v | None => sx end) sz ox oy oz)
  | MScale3d s ox oy oz => Some (g_scale s s s ox oy oz)
  | MSkewX a => Some (g_skew_x (otan o a))
  | MSkewY a => Some (g_skew_y (otan o a))
  | MRotate rx ry rz =>
      Some (fun p => g_rot 0 0 1 (ocos o rz) (osin o rz)
                    (g_rot 0 1 0 (ocos o ry) (osin o ry)
                    (g_rot 1 0 0 (ocos o rx) (osin o rx) p)))
  | _ => None
  end.
(** The oracle knows the trivial angle and the trivial root. *)
Definition oracle_basic (o : oracle) : Prop :=
  sqrt_ok o /\ (forall a, a == 0 -> ocos o a == 1 /\ osin o a == 0).

(** [g_ops o ops p q]: applying the meanings of [ops], last operation first,
    to [p] gives [q] (post-multiplication: the last operation acts on points
    first). *)
Fixpoint g_ops (o : oracle) (ops : list mat_op) (p : vec4) : option vec4 :=
  match ops with
  | [] => Some p
  | op :: ops' =>
      match g_op o op, g_ops o ops' p with
      | Some f, Some q => Some (f q)
      | _, _ => None
      end
  end.
