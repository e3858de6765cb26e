(** Model of svgpy/geometry/matrix.py with rounded numbers: the same methods as
    MatrixModel.v, with Python's floats in the array.  numpy.dot does not
    promise an order for its sums, nor whether a product is rounded before it
    is added, so that is left open: a [plan] says how one entry is summed.
    Simplified: exponents are unbounded (no overflow, underflow, infinities,
    NaN, signed zeros); numpy.linalg.inv and rotations about slanting axes are
    not modelled with rounding. *)
From Coq Require Import ZArith List Bool.
From Verif Require Import PyBase MatrixModel.
Import ListNotations.
#[local] Open Scope Q_scope.

(* numpy.dot, one entry: start at zero, take the i-th product rounded, add two
   sums, or add a product to a sum with one rounding *)
Inductive plan := PZero | PTerm (i : nat) | PSum (p q : plan) | PFma (i : nat) (p : plan).
Fixpoint eval (f : Q -> Q) (a b : nat -> Q) (p : plan) : Q :=
  match p with
  | PZero => 0
  | PTerm i => f (a i * b i)
  | PSum p q => f (eval f a b p + eval f a b q)
  | PFma i p => f (a i * b i + eval f a b p)
  end.

(* the i-th number of a column, and the entry in row r and column c, counted
   from one *)
Definition vget (v : vec4) (i : nat) : Q := match i with 1%nat => v1 v | 2%nat => v2 v | 3%nat => v3 v | _ => v4 v end.
Definition mcol (m : mat) (c : nat) : vec4 := match c with 1%nat => col1 m | 2%nat => col2 m | 3%nat => col3 m | _ => col4 m end.
Definition entry (m : mat) (r c : nat) : Q := vget (mcol m c) r.

(* numpy.dot of a 4x4 array and a 4x1 array: a plan for each row *)
Definition fmat_vec (f : Q -> Q) (pl : nat -> plan) (m : mat) (p : vec4) : vec4 :=
  V4 (eval f (entry m 1) (vget p) (pl 1%nat)) (eval f (entry m 2) (vget p) (pl 2%nat))
     (eval f (entry m 3) (vget p) (pl 3%nat)) (eval f (entry m 4) (vget p) (pl 4%nat)).
(* numpy.dot of two 4x4 arrays: a plan for each column and row *)
Definition fmat_mul (f : Q -> Q) (pl : nat -> nat -> plan) (a b : mat) : mat :=
  M4 (fmat_vec f (pl 1%nat) a (col1 b)) (fmat_vec f (pl 2%nat) a (col2 b))
     (fmat_vec f (pl 3%nat) a (col3 b)) (fmat_vec f (pl 4%nat) a (col4 b)).

(* matrix.py:52-81 matrix3d: float() of each argument *)
Definition vfloat (f : Q -> Q) (v : vec4) : vec4 := V4 (f (v1 v)) (f (v2 v)) (f (v3 v)) (f (v4 v)).
Definition mfloat (f : Q -> Q) (m : mat) : mat := M4 (vfloat f (col1 m)) (vfloat f (col2 m)) (vfloat f (col3 m)) (vfloat f (col4 m)).

(* matrix.py:926-937 multiply_self *)
Definition fmultiply_self (f : Q -> Q) (pl : nat -> nat -> plan) (m o : dmat) : dmat :=
  DM (fmat_mul f pl (arr m) (arr o)) (is2d m && is2d o).
(* matrix.py:1082-1102 translate_self *)
Definition ftranslate_self (f : Q -> Q) (pl : nat -> nat -> plan) (m : dmat) (tx ty tz : Q) : dmat :=
  if (tx =?q 0) && (ty =?q 0) && (tz =?q 0) then m else
  DM (fmat_mul f pl (arr m) (mfloat f (matrix3d 1 0 0 0 0 1 0 0 0 0 1 0 tx ty tz 1))) (is2d m && (tz =?q 0)).
(* matrix.py:1022-1052 scale_self *)
Definition fscale_self (f : Q -> Q) (pl : nat -> nat -> plan) (m : dmat) (sx : Q) (sy : option Q) (sz ox oy oz : Q) : dmat :=
  let sy := match sy with Some v => v | None => sx end in
  if (sx =?q 1) && (sy =?q 1) && (sz =?q 1) then m else
  let moved := negb ((ox =?q 0) && (oy =?q 0) && (oz =?q 0)) in
  let m := if moved then ftranslate_self f pl m ox oy oz else m in
  let m := DM (fmat_mul f pl (arr m) (mfloat f (matrix3d sx 0 0 0 0 sy 0 0 0 0 sz 0 0 0 0 1))) (is2d m && (sz =?q 1) && (oz =?q 0)) in
  if moved then ftranslate_self f pl m (- ox) (- oy) (- oz) else m.
(* matrix.py:1058-1080 skew_x_self, skew_y_self *)
Definition fskew_x_self (f : Q -> Q) (pl : nat -> nat -> plan) (o : oracle) (m : dmat) (angle : Q) : dmat :=
  DM (fmat_mul f pl (arr m) (mfloat f (matrix2d 1 0 (otan o angle) 1 0 0))) (is2d m).
Definition fskew_y_self (f : Q -> Q) (pl : nat -> nat -> plan) (o : oracle) (m : dmat) (angle : Q) : dmat :=
  DM (fmat_mul f pl (arr m) (mfloat f (matrix2d 1 (otan o angle) 0 1 0 0))) (is2d m).
(* matrix.py:943-973 rotate_axis_angle_self about one of the three axes (their
   length is 1, so nothing is divided) *)
Inductive axis := AxX | AxY | AxZ.
Definition axis_matrix (x : axis) (cos sin : Q) : mat :=
  match x with
  | AxZ => matrix3d cos sin 0 0 (- sin) cos 0 0 0 0 1 0 0 0 0 1
  | AxY => matrix3d cos 0 (- sin) 0 0 1 0 0 sin 0 cos 0 0 0 0 1
  | AxX => matrix3d 1 0 0 0 0 cos sin 0 0 (- sin) cos 0 0 0 0 1
  end.
Definition frotate_axis (f : Q -> Q) (pl : nat -> nat -> plan) (o : oracle) (m : dmat) (x : axis) (angle : Q) : dmat :=
  DM (fmat_mul f pl (arr m) (mfloat f (axis_matrix x (ocos o angle) (osin o angle)))) (is2d m && match x with AxZ => true | _ => false end).
(* matrix.py:999-1020 rotate_self *)
Definition frotate_self (f : Q -> Q) (pl : nat -> nat -> plan) (o : oracle) (m : dmat) (rx ry rz : Q) : dmat :=
  let m := if rz =?q 0 then m else frotate_axis f pl o m AxZ rz in
  let m := if ry =?q 0 then m else frotate_axis f pl o m AxY ry in
  if rx =?q 0 then m else frotate_axis f pl o m AxX rx.

(* matrix.py:420-439 flip_x, flip_y: a copy through tolist, then multiply_self *)
Definition fflip_x (f : Q -> Q) (pl : nat -> nat -> plan) (m : dmat) : result dmat :=
  do c <- init_from_array (tolist m); Ok (fmultiply_self f pl c (DM (mfloat f (matrix2d (-1) 0 0 1 0 0)) true)).
Definition fflip_y (f : Q -> Q) (pl : nat -> nat -> plan) (m : dmat) : result dmat :=
  do c <- init_from_array (tolist m); Ok (fmultiply_self f pl c (DM (mfloat f (matrix2d 1 0 0 (-1) 0 0)) true)).

(* matrix.py:684-700 transform_point *)
Definition ftransform_point (f : Q -> Q) (pl : nat -> plan) (m : dmat) (x y z w : Q) : list Q :=
  let p := fmat_vec f pl (arr m) (vfloat f (V4 x y z w)) in
  if is2d m && (z =?q 0) && (w =?q 1) then [v1 p; v2 p] else [v1 p; v2 p; v3 p; v4 p].

(** The methods that multiply on the right, for histories. *)
Inductive fmat_op :=
| FMul (x : dmat) | FTranslate (tx ty tz : Q) | FScale (sx : Q) (sy : option Q) (sz ox oy oz : Q)
| FSkewX (a : Q) | FSkewY (a : Q) | FRotate (rx ry rz : Q).
Definition fmat_step (f : Q -> Q) (pl : nat -> nat -> plan) (o : oracle) (m : dmat) (op : fmat_op) : dmat :=
  match op with
  | FMul x => fmultiply_self f pl m x
  | FTranslate tx ty tz => ftranslate_self f pl m tx ty tz
  | FScale sx sy sz ox oy oz => fscale_self f pl m sx sy sz ox oy oz
  | FSkewX a => fskew_x_self f pl o m a
  | FSkewY a => fskew_y_self f pl o m a
  | FRotate rx ry rz => frotate_self f pl o m rx ry rz
  end.
