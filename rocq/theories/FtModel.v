(** svgpy/freetype.py: the class FTMatrix (925-1282) and the four-letter tags
    (32-41).  An FT_Matrix of the C library is four integers in 16.16 format;
    numpy's entries are exact rationals here, as in MatrixModel; the range of
    the C integers is not modelled. *)
From Coq Require Import NArith ZArith QArith List.
From Verif Require Import PyBase MatrixModel PathModel LayoutModel.
Import ListNotations.
#[local] Open Scope Q_scope.

(* 27-29: matrix2d(a, b, c, d), the rows being (a, c) and (b, d) *)
Definition ft2d (a b c d : Q) : ftmat := mkFt a c b d.
(* 935-939: without an argument *)
Definition ft_one : ftmat := ft2d 1 0 0 1.
(* FT_Matrix *)
Record fixed := mkFx { xx : Z; xy : Z; yx : Z; yy : Z }.
(* 940-945 *)
Definition of_fixed (f : fixed) : ftmat :=
  ft2d (inject_Z (xx f) / 65536) (inject_Z (yx f) / 65536) (inject_Z (xy f) / 65536) (inject_Z (yy f) / 65536).
(* 1014-1022; int() cuts towards zero *)
Definition to_fixed (m : ftmat) : fixed :=
  mkFx (trunc (f00 m * 65536)) (trunc (f01 m * 65536)) (trunc (f10 m * 65536)) (trunc (f11 m * 65536)).

(** The eight properties (970-1012, 1029-1071) *)
Inductive entry := Ea | Eb | Ec | Ed | Exx | Exy | Eyx | Eyy.
Definition get_entry (m : ftmat) (e : entry) : Q :=
  match e with
  | Ea => f00 m | Eb => f01 m | Ec => f10 m | Ed => f11 m
  | Exx => f00 m | Exy => f01 m | Eyx => f10 m | Eyy => f11 m
  end.
Definition set_entry (m : ftmat) (e : entry) (v : Q) : ftmat :=
  match e with
  | Ea | Exx => mkFt v (f01 m) (f10 m) (f11 m)
  | Eb | Exy => mkFt (f00 m) v (f10 m) (f11 m)
  | Ec | Eyx => mkFt (f00 m) (f01 m) v (f11 m)
  | Ed | Eyy => mkFt (f00 m) (f01 m) (f10 m) v
  end.

(* 1108-1121: from_float_array *)
Definition ft_from_array (l : list Q) : result ftmat :=
  match l with [a; c; b; d] => Ok (ft2d a b c d) | _ => Err ValueError end.
(* 1278-1282: to_float_array, tolist *)
Definition ft_to_array (m : ftmat) : list Q := [get_entry m Ea; get_entry m Eb; get_entry m Ec; get_entry m Ed].
(* np.linalg.inv, exactly; LinAlgError for a singular matrix *)
Definition ft_det (m : ftmat) : Q := f00 m * f11 m - f01 m * f10 m.
Definition ft_inv (m : ftmat) : result ftmat :=
  if ft_det m =?q 0 then Err LinAlgError
  else Ok (mkFt (f11 m / ft_det m) (- f01 m / ft_det m) (- f10 m / ft_det m) (f00 m / ft_det m)).
(* 947-950: == *)
Definition ft_eqb (a b : ftmat) : bool :=
  (f00 a =?q f00 b) && (f01 a =?q f01 b) && (f10 a =?q f10 b) && (f11 a =?q f11 b).

(** The operations that change a matrix: the setters, clear 1073-1080,
    invert_self 1134-1141, multiply_self and [a *= b] 1156-1165, 952-956,
    rotate_self 1181-1193, scale_self 1210-1224, skew_x_self 1240-1250,
    skew_y_self 1266-1276; and flip_x, flip_y 1082-1106, which have no form
    that changes the matrix itself.  The other matrix of a multiplication is
    given by its number. *)
Inductive ftop :=
| FSet (e : entry) (v : Q) | FClear | FInvert | FMul (j : nat) | FRotate (a : Q)
| FScale (x : Q) (y : option Q) | FSkewX (a : Q) | FSkewY (a : Q) | FFlipX | FFlipY.
Definition ft_do (o : oracle) (other : nat -> result ftmat) (m : ftmat) (p : ftop) : result ftmat :=
  match p with
  | FSet e v => Ok (set_entry m e v)
  | FClear => Ok ft_one
  | FInvert => ft_inv m
  | FMul j => do b <- other j; Ok (ft_dot m b)
  | FRotate a => Ok (ft_dot m (ft2d (ocos o a) (- osin o a) (osin o a) (ocos o a)))
  | FScale x y => Ok (ft_dot m (ft2d x 0 0 (match y with Some y => y | None => x end)))
  | FSkewX a => Ok (ft_dot m (ft2d 1 0 (- otan o a) 1))
  | FSkewY a => Ok (ft_dot m (ft2d 1 (- otan o a) 0 1))
  | FFlipX => Ok (ft_dot m (ft2d (-1) 0 0 1))
  | FFlipY => Ok (ft_dot m (ft2d 1 0 0 (-1)))
  end.

(** Any number of FTMatrix objects.  [Change i p] is a method that changes
    object i and returns it; [Derive i p] one that works on a deep copy, which
    becomes the newest object (958-963, 1082-1106, 1123-1132, 1143-1154,
    1167-1179, 1195-1208, 1226-1238, 1252-1264); FSet and FClear have no such
    form.  A failing call changes nothing. *)
Inductive ftcall := Make | MakeFrom (f : fixed) | FromArray (l : list Q) | Change (i : nat) (p : ftop) | Derive (i : nat) (p : ftop).
Definition heap := list ftmat.
Definition ft_at (h : heap) (i : nat) : result ftmat := match nth_error h i with Some m => Ok m | None => Err IndexError end.
Fixpoint put (h : heap) (i : nat) (m : ftmat) : heap :=
  match h, i with [], _ => [] | _ :: r, O => m :: r | x :: r, S i => x :: put r i m end.
Definition ft_call (o : oracle) (h : heap) (c : ftcall) : result (heap * nat) :=
  match c with
  | Make => Ok (h ++ [ft_one], length h)
  | MakeFrom f => Ok (h ++ [of_fixed f], length h)
  | FromArray l => do m <- ft_from_array l; Ok (h ++ [m], length h)
  | Change i p => do m <- ft_at h i; do m2 <- ft_do o (ft_at h) m p; Ok (put h i m2, i)
  | Derive i p => do m <- ft_at h i; do m2 <- ft_do o (ft_at h) m p; Ok (h ++ [m2], length h)
  end.
Definition ft_step (o : oracle) (h : heap) (c : ftcall) : heap := match ft_call o h c with Ok (h2, _) => h2 | Err _ => h end.
Definition ft_run (o : oracle) (l : list ftcall) : heap := fold_left (ft_step o) l [].

(* 857-859: outline.transform(matrix) hands the C library ft_matrix *)
Definition outline_matrix (m : ftmat) : ftmat := of_fixed (to_fixed m).

(** ** Tags *)
#[local] Open Scope N_scope.
(* 32-33; characters are their code points *)
Definition ft_tag (c1 c2 c3 c4 : N) : N :=
  N.lor (N.lor (N.lor (N.shiftl c1 24) (N.shiftl c2 16)) (N.shiftl c3 8)) c4.
(* 36-41; chr() of more than 0x10ffff is a ValueError *)
Definition ft_tag_to_string (t : N) : result (list N) :=
  if N.shiftr t 24 <=? 1114111 then
    Ok [N.shiftr t 24; N.land (N.shiftr t 16) 255; N.land (N.shiftr t 8) 255; N.land t 255]
  else Err ValueError.
