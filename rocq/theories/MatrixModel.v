(** Model of svgpy/geometry/matrix.py: DOMMatrixReadOnly and DOMMatrix.
    Numbers are exact rationals (floating point rounding is not modelled). *)
From Verif Require Import PyBase.
Local Open Scope Q_scope.

(** The numpy array [_matrix], stored by columns: column k holds
    (m_k1, m_k2, m_k3, m_k4), which is how matrix3d (matrix.py:52-81) lays out
    its arguments: _matrix[j-1, k-1] = m_kj. *)
Record vec4 := V4 { v1 : Q; v2 : Q; v3 : Q; v4 : Q }.
Record mat := M4 { col1 : vec4; col2 : vec4; col3 : vec4; col4 : vec4 }.

(* matrix.py:52-81 matrix3d *)
Definition matrix3d (a11 a12 a13 a14 a21 a22 a23 a24 a31 a32 a33 a34 a41 a42 a43 a44 : Q) : mat :=
  M4 (V4 a11 a12 a13 a14) (V4 a21 a22 a23 a24) (V4 a31 a32 a33 a34) (V4 a41 a42 a43 a44).
(* matrix.py:33-49 matrix2d *)
Definition matrix2d (a b c d e f : Q) : mat :=
  matrix3d a b 0 0  c d 0 0  0 0 1 0  e f 0 1.

Definition mat_id : mat := matrix2d 1 0 0 1 0 0.

(* matrix.py:156-290 element getters (a = m11, b = m12, c = m21, d = m22,
   e = m41, f = m42) *)
Definition m11 m := v1 (col1 m). Definition m12 m := v2 (col1 m).
Definition m13 m := v3 (col1 m). Definition m14 m := v4 (col1 m).
Definition m21 m := v1 (col2 m). Definition m22 m := v2 (col2 m).
Definition m23 m := v3 (col2 m). Definition m24 m := v4 (col2 m).
Definition m31 m := v1 (col3 m). Definition m32 m := v2 (col3 m).
Definition m33 m := v3 (col3 m). Definition m34 m := v4 (col3 m).
Definition m41 m := v1 (col4 m). Definition m42 m := v2 (col4 m).
Definition m43 m := v3 (col4 m). Definition m44 m := v4 (col4 m).

(* numpy.dot of a 4x4 array and a 4x1 array *)
Definition mat_vec (m : mat) (p : vec4) : vec4 :=
  V4 (m11 m * v1 p + m21 m * v2 p + m31 m * v3 p + m41 m * v4 p)
     (m12 m * v1 p + m22 m * v2 p + m32 m * v3 p + m42 m * v4 p)
     (m13 m * v1 p + m23 m * v2 p + m33 m * v3 p + m43 m * v4 p)
     (m14 m * v1 p + m24 m * v2 p + m34 m * v3 p + m44 m * v4 p).
(* numpy.dot of two 4x4 arrays *)
Definition mat_mul (a b : mat) : mat :=
  M4 (mat_vec a (col1 b)) (mat_vec a (col2 b)) (mat_vec a (col3 b)) (mat_vec a (col4 b)).

(** A DOMMatrix object: the array and the _is2d flag. *)
Record dmat := DM { arr : mat; is2d : bool }.

Definition flag2d (m : dmat) (keep : bool) : dmat := DM (arr m) (is2d m && keep).

(* numpy.linalg.inv: the exact inverse, LinAlgError when singular.  Computed
   by 2x2 minors of the upper and lower row pairs. *)
Definition minor (a b c d : Q) : Q := a * d - b * c.
  (* rows 1,2 *)
  Definition s0 (m : mat) := minor (m11 m) (m21 m) (m12 m) (m22 m).
  Definition s1 (m : mat) := minor (m11 m) (m31 m) (m12 m) (m32 m).
  Definition s2 (m : mat) := minor (m11 m) (m41 m) (m12 m) (m42 m).
  Definition s3 (m : mat) := minor (m21 m) (m31 m) (m22 m) (m32 m).
  Definition s4 (m : mat) := minor (m21 m) (m41 m) (m22 m) (m42 m).
  Definition s5 (m : mat) := minor (m31 m) (m41 m) (m32 m) (m42 m).
  (* rows 3,4 *)
  Definition t0 (m : mat) := minor (m13 m) (m23 m) (m14 m) (m24 m).
  Definition t1 (m : mat) := minor (m13 m) (m33 m) (m14 m) (m34 m).
  Definition t2 (m : mat) := minor (m13 m) (m43 m) (m14 m) (m44 m).
  Definition t3 (m : mat) := minor (m23 m) (m33 m) (m24 m) (m34 m).
  Definition t4 (m : mat) := minor (m23 m) (m43 m) (m24 m) (m44 m).
  Definition t5 (m : mat) := minor (m33 m) (m43 m) (m34 m) (m44 m).
  Definition det (m : mat) : Q := s0 m * t5 m - s1 m * t4 m + s2 m * t3 m + s3 m * t2 m - s4 m * t1 m + s5 m * t0 m.
  (* adjugate; arguments of matrix3d go down the columns *)
  Definition adj (m : mat) : mat := matrix3d
    (m22 m * t5 m - m32 m * t4 m + m42 m * t3 m)
    (- m12 m * t5 m + m32 m * t2 m - m42 m * t1 m)
    (m12 m * t4 m - m22 m * t2 m + m42 m * t0 m)
    (- m12 m * t3 m + m22 m * t1 m - m32 m * t0 m)
    (- m21 m * t5 m + m31 m * t4 m - m41 m * t3 m)
    (m11 m * t5 m - m31 m * t2 m + m41 m * t1 m)
    (- m11 m * t4 m + m21 m * t2 m - m41 m * t0 m)
    (m11 m * t3 m - m21 m * t1 m + m31 m * t0 m)
    (m24 m * s5 m - m34 m * s4 m + m44 m * s3 m)
    (- m14 m * s5 m + m34 m * s2 m - m44 m * s1 m)
    (m14 m * s4 m - m24 m * s2 m + m44 m * s0 m)
    (- m14 m * s3 m + m24 m * s1 m - m34 m * s0 m)
    (- m23 m * s5 m + m33 m * s4 m - m43 m * s3 m)
    (m13 m * s5 m - m33 m * s2 m + m43 m * s1 m)
    (- m13 m * s4 m + m23 m * s2 m - m43 m * s0 m)
    (m13 m * s3 m - m23 m * s1 m + m33 m * s0 m).
Definition vec_scale (k : Q) (v : vec4) : vec4 := V4 (k * v1 v) (k * v2 v) (k * v3 v) (k * v4 v).
Definition mat_scale (k : Q) (m : mat) : mat :=
  M4 (vec_scale k (col1 m)) (vec_scale k (col2 m)) (vec_scale k (col3 m)) (vec_scale k (col4 m)).
Definition np_inv (m : mat) : result mat :=
  if det m =?q 0 then Err LinAlgError else Ok (mat_scale (/ det m) (adj m)).

(** ** Constructors *)
(* matrix.py:293-302 _init_from_array *)
Definition init_from_array (l : list Q) : result dmat :=
  match l with
  | [a; b; c; d; e; f] => Ok (DM (matrix2d a b c d e f) true)
  | [a11; a12; a13; a14; a21; a22; a23; a24; a31; a32; a33; a34; a41; a42; a43; a44] =>
      Ok (DM (matrix3d a11 a12 a13 a14 a21 a22 a23 a24 a31 a32 a33 a34 a41 a42 a43 a44) false)
  | _ => Err TypeError
  end.

(** Keyword arguments of the constructor; [kextra] says whether a keyword
    outside the documented ones is present. *)
Record kwargs := KW {
  ka : option Q; kb : option Q; kc : option Q; kd : option Q; ke : option Q; kf : option Q;
  k11 : option Q; k12 : option Q; k13 : option Q; k14 : option Q;
  k21 : option Q; k22 : option Q; k23 : option Q; k24 : option Q;
  k31 : option Q; k32 : option Q; k33 : option Q; k34 : option Q;
  k41 : option Q; k42 : option Q; k43 : option Q; k44 : option Q;
  kis2d : option bool; kextra : bool }.

(* matrix.py:17-31 _same_value_zero on numbers, and the "both present"
   tests of lines 310-339 *)
Definition conflict (x y : option Q) : bool :=
  match x, y with Some a, Some b => negb (a =?q b) | _, _ => false end.
(* m11 = m11 or a or default: lines 340-351, 385-404 *)
Definition pick (x y : option Q) (d : Q) : Q :=
  match x with Some v => v | None => match y with Some v => v | None => d end end.
Definition nondefault (x : option Q) (d : Q) : bool :=
  match x with Some v => negb (v =?q d) | None => false end.

(* matrix.py:304-417 _init_from_matrix *)
Definition init_from_matrix (k : kwargs) : result dmat :=
  if conflict (ka k) (k11 k) || conflict (kb k) (k12 k) || conflict (kc k) (k21 k)
     || conflict (kd k) (k22 k) || conflict (ke k) (k41 k) || conflict (kf k) (k42 k)
  then Err ValueError else
  let a11 := pick (k11 k) (ka k) 1 in let a12 := pick (k12 k) (kb k) 0 in
  let a21 := pick (k21 k) (kc k) 0 in let a22 := pick (k22 k) (kd k) 1 in
  let a41 := pick (k41 k) (ke k) 0 in let a42 := pick (k42 k) (kf k) 0 in
  if kextra k then Err TypeError else
  let has3d := nondefault (k13 k) 0 || nondefault (k14 k) 0 || nondefault (k23 k) 0
    || nondefault (k24 k) 0 || nondefault (k31 k) 0 || nondefault (k32 k) 0
    || nondefault (k33 k) 1 || nondefault (k34 k) 0 || nondefault (k43 k) 0
    || nondefault (k44 k) 1 in
  let full3d := Ok (DM (matrix3d a11 a12 (pick (k13 k) None 0) (pick (k14 k) None 0)
                        a21 a22 (pick (k23 k) None 0) (pick (k24 k) None 0)
                        (pick (k31 k) None 0) (pick (k32 k) None 0)
                        (pick (k33 k) None 1) (pick (k34 k) None 0)
                        a41 a42 (pick (k43 k) None 0) (pick (k44 k) None 1)) false) in
  let only2d := Ok (DM (matrix2d a11 a12 a21 a22 a41 a42) true) in
  match kis2d k with
  | None => if has3d then full3d else only2d
  | Some true => if has3d then Err ValueError else only2d
  | Some false => full3d
  end.

(** ** Export *)
(* matrix.py:630-634 to_float_array *)
Definition to_float_array (m : dmat) : list Q :=
  let a := arr m in
  [m11 a; m12 a; m13 a; m14 a; m21 a; m22 a; m23 a; m24 a;
   m31 a; m32 a; m33 a; m34 a; m41 a; m42 a; m43 a; m44 a].
(* matrix.py:668-672 tolist *)
Definition tolist (m : dmat) : list Q :=
  if is2d m then let a := arr m in [m11 a; m12 a; m21 a; m22 a; m41 a; m42 a]
  else to_float_array m.
(* matrix.py:636-666 tojson *)
Definition tojson (m : dmat) : kwargs :=
  let a := arr m in
  if is2d m then
    KW None None None None None None (Some (m11 a)) (Some (m12 a)) None None
       (Some (m21 a)) (Some (m22 a)) None None None None None None
       (Some (m41 a)) (Some (m42 a)) None None (Some true) false
  else
    KW None None None None None None
       (Some (m11 a)) (Some (m12 a)) (Some (m13 a)) (Some (m14 a))
       (Some (m21 a)) (Some (m22 a)) (Some (m23 a)) (Some (m24 a))
       (Some (m31 a)) (Some (m32 a)) (Some (m33 a)) (Some (m34 a))
       (Some (m41 a)) (Some (m42 a)) (Some (m43 a)) (Some (m44 a)) (Some false) false.

(* matrix.py:684-700 transform_point: two coordinates for a 2D matrix and
   z = 0, w = 1; all four otherwise *)
Definition transform_point (m : dmat) (x y z w : Q) : list Q :=
  let p := mat_vec (arr m) (V4 x y z w) in
  if is2d m && (z =?q 0) && (w =?q 1) then [v1 p; v2 p] else [v1 p; v2 p; v3 p; v4 p].

(* matrix.py:172-189 isidentity *)
Definition isidentity (m : dmat) : bool :=
  let a := arr m in
  (m11 a =?q 1) && (m22 a =?q 1) && (m33 a =?q 1) && (m44 a =?q 1)
  && (m12 a =?q 0) && (m13 a =?q 0) && (m14 a =?q 0) && (m21 a =?q 0)
  && (m23 a =?q 0) && (m24 a =?q 0) && (m31 a =?q 0) && (m32 a =?q 0)
  && (m34 a =?q 0) && (m41 a =?q 0) && (m42 a =?q 0) && (m43 a =?q 0).

(** ** In-place operations of DOMMatrix *)
(* matrix.py:767-873 element setters: a row (1..4) and column (1..4) of the
   array.  A Python number is falsy exactly when it is 0. *)
Inductive elem := E11 | E12 | E13 | E14 | E21 | E22 | E23 | E24
                | E31 | E32 | E33 | E34 | E41 | E42 | E43 | E44.
Definition set_elem (m : dmat) (e : elem) (v : Q) : dmat :=
  let 'M4 c1 c2 c3 c4 := arr m in
  let nz := v =?q 0 in let n1 := v =?q 1 in
  match e with
  | E11 => DM (M4 (V4 v (v2 c1) (v3 c1) (v4 c1)) c2 c3 c4) (is2d m)
  | E12 => DM (M4 (V4 (v1 c1) v (v3 c1) (v4 c1)) c2 c3 c4) (is2d m)
  | E13 => DM (M4 (V4 (v1 c1) (v2 c1) v (v4 c1)) c2 c3 c4) (is2d m && nz)
  | E14 => DM (M4 (V4 (v1 c1) (v2 c1) (v3 c1) v) c2 c3 c4) (is2d m && nz)
  | E21 => DM (M4 c1 (V4 v (v2 c2) (v3 c2) (v4 c2)) c3 c4) (is2d m)
  | E22 => DM (M4 c1 (V4 (v1 c2) v (v3 c2) (v4 c2)) c3 c4) (is2d m)
  | E23 => DM (M4 c1 (V4 (v1 c2) (v2 c2) v (v4 c2)) c3 c4) (is2d m && nz)
  | E24 => DM (M4 c1 (V4 (v1 c2) (v2 c2) (v3 c2) v) c3 c4) (is2d m && nz)
  | E31 => DM (M4 c1 c2 (V4 v (v2 c3) (v3 c3) (v4 c3)) c4) (is2d m && nz)
  | E32 => DM (M4 c1 c2 (V4 (v1 c3) v (v3 c3) (v4 c3)) c4) (is2d m && nz)
  | E33 => DM (M4 c1 c2 (V4 (v1 c3) (v2 c3) v (v4 c3)) c4) (is2d m && n1)
  | E34 => DM (M4 c1 c2 (V4 (v1 c3) (v2 c3) (v3 c3) v) c4) (is2d m && nz)
  | E41 => DM (M4 c1 c2 c3 (V4 v (v2 c4) (v3 c4) (v4 c4))) (is2d m)
  | E42 => DM (M4 c1 c2 c3 (V4 (v1 c4) v (v3 c4) (v4 c4))) (is2d m)
  | E43 => DM (M4 c1 c2 c3 (V4 (v1 c4) (v2 c4) v (v4 c4))) (is2d m && nz)
  | E44 => DM (M4 c1 c2 c3 (V4 (v1 c4) (v2 c4) (v3 c4) v)) (is2d m && n1)
  end.

(* matrix.py:875-889 clear *)
Definition clear (m : dmat) (f : option bool) : dmat :=
  DM mat_id (match f with None => is2d m | Some b => b end).

(* matrix.py:929-940 multiply_self *)
Definition multiply_self (m o : dmat) : dmat :=
  DM (mat_mul (arr m) (arr o)) (is2d m && is2d o).
(* matrix.py:143-148 __mul__ / multiply: a copy through tolist, then
   multiply_self *)
Definition multiply (m o : dmat) : result dmat :=
  do c <- init_from_array (tolist m); Ok (multiply_self c o).

(* matrix.py:920-927 invert_self (array unchanged when numpy raises) and
   519-529 inverse *)
Definition invert_self (m : dmat) : result dmat :=
  do i <- np_inv (arr m); Ok (DM i (is2d m)).
Definition inverse (m : dmat) : result dmat :=
  do c <- init_from_array (tolist m); invert_self c.

(* matrix.py:1085-1105 translate_self *)
Definition translate_self (m : dmat) (tx ty tz : Q) : dmat :=
  if (tx =?q 0) && (ty =?q 0) && (tz =?q 0) then m else
  DM (mat_mul (arr m) (matrix3d 1 0 0 0 0 1 0 0 0 0 1 0 tx ty tz 1))
     (is2d m && (tz =?q 0)).

(* matrix.py:1022-1052 scale_self; scale_y None means scale_x *)
Definition scale_self (m : dmat) (sx : Q) (sy : option Q) (sz ox oy oz : Q) : dmat :=
  let sy := match sy with Some v => v | None => sx end in
  if (sx =?q 1) && (sy =?q 1) && (sz =?q 1) then m else
  let moved := negb ((ox =?q 0) && (oy =?q 0) && (oz =?q 0)) in
  let m := if moved then translate_self m ox oy oz else m in
  let m := DM (mat_mul (arr m) (matrix3d sx 0 0 0 0 sy 0 0 0 0 sz 0 0 0 0 1))
              (is2d m && (sz =?q 1) && (oz =?q 0)) in
  if moved then translate_self m (- ox) (- oy) (- oz) else m.
(* matrix.py:1054-1056 scale3d_self *)
Definition scale3d_self (m : dmat) (s ox oy oz : Q) : dmat :=
  scale_self m s (Some s) s ox oy oz.

(* matrix.py:420-439 flip_x, flip_y *)
Definition flip_x (m : dmat) : result dmat := multiply m (DM (matrix2d (-1) 0 0 1 0 0) true).
Definition flip_y (m : dmat) : result dmat := multiply m (DM (matrix2d 1 0 0 (-1) 0 0) true).

(** Trigonometry and square roots come from an oracle (math.cos, math.sin,
    math.tan of degrees converted to radians, math.sqrt); what is assumed of
    it is stated in each theorem. *)
Record oracle := Orc { ocos : Q -> Q; osin : Q -> Q; otan : Q -> Q; osqrt : Q -> Q }.

(* matrix.py:1058-1082 skew_x_self, skew_y_self *)
Definition skew_x_self (o : oracle) (m : dmat) (angle : Q) : dmat :=
  DM (mat_mul (arr m) (matrix2d 1 0 (otan o angle) 1 0 0)) (is2d m).
Definition skew_y_self (o : oracle) (m : dmat) (angle : Q) : dmat :=
  DM (mat_mul (arr m) (matrix2d 1 (otan o angle) 0 1 0 0)) (is2d m).

(* the array r of rotate_axis_angle_self, lines 952-987, for a unit axis *)
Definition rot_matrix (x y z cos sin : Q) : mat :=
  if (x =?q 0) && (y =?q 0) && (z =?q 1) then
    matrix3d cos sin 0 0 (- sin) cos 0 0 0 0 1 0 0 0 0 1
  else if (x =?q 0) && (y =?q 1) && (z =?q 0) then
    matrix3d cos 0 (- sin) 0 0 1 0 0 sin 0 cos 0 0 0 0 1
  else if (x =?q 1) && (y =?q 0) && (z =?q 0) then
    matrix3d 1 0 0 0 0 cos sin 0 0 (- sin) cos 0 0 0 0 1
  else
    matrix3d (cos + x * x * (1 - cos)) (y * x * (1 - cos) + z * sin)
             (z * x * (1 - cos) - y * sin) 0
             (x * y * (1 - cos) - z * sin) (cos + y * y * (1 - cos))
             (z * y * (1 - cos) + x * sin) 0
             (x * z * (1 - cos) + y * sin) (y * z * (1 - cos) - x * sin)
             (cos + z * z * (1 - cos)) 0
             0 0 0 1.
(* matrix.py:939-991 rotate_axis_angle_self *)
Definition rotate_axis_angle_self (o : oracle) (m : dmat) (x y z angle : Q) : dmat :=
  let len := osqrt o (x * x + y * y + z * z) in
  if len =?q 0 then m else
  let '(x, y, z) := if len =?q 1 then (x, y, z) else (x / len, y / len, z / len) in
  DM (mat_mul (arr m) (rot_matrix x y z (ocos o angle) (osin o angle)))
     (is2d m && (x =?q 0) && (y =?q 0)).
(* matrix.py:999-1020 rotate_self *)
Definition rotate_self (o : oracle) (m : dmat) (rx ry rz : Q) : dmat :=
  let m := if rz =?q 0 then m else rotate_axis_angle_self o m 0 0 1 rz in
  let m := if ry =?q 0 then m else flag2d (rotate_axis_angle_self o m 0 1 0 ry) false in
  if rx =?q 0 then m else flag2d (rotate_axis_angle_self o m 1 0 0 rx) false.

(** The editing interface, for histories.  A failing operation (singular
    inverse) leaves the object unchanged. *)
Inductive mat_op :=
| MSet (e : elem) (v : Q) | MClear (f : option bool) | MMul (x : dmat) | MInv
| MTranslate (tx ty tz : Q) | MScale (sx : Q) (sy : option Q) (sz ox oy oz : Q)
| MScale3d (s ox oy oz : Q) | MSkewX (a : Q) | MSkewY (a : Q)
| MRotate (rx ry rz : Q) | MRotateAxis (x y z a : Q).
Definition mat_step (o : oracle) (m : dmat) (op : mat_op) : dmat :=
  match op with
  | MSet e v => set_elem m e v
  | MClear f => clear m f
  | MMul x => multiply_self m x
  | MInv => match invert_self m with Ok m' => m' | Err _ => m end
  | MTranslate tx ty tz => translate_self m tx ty tz
  | MScale sx sy sz ox oy oz => scale_self m sx sy sz ox oy oz
  | MScale3d s ox oy oz => scale3d_self m s ox oy oz
  | MSkewX a => skew_x_self o m a
  | MSkewY a => skew_y_self o m a
  | MRotate rx ry rz => rotate_self o m rx ry rz
  | MRotateAxis x y z a => rotate_axis_angle_self o m x y z a
  end.
