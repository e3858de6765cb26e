(** Model of svgpy/transform.py: SVGTransform and SVGTransformList. *)
From Verif Require Import PyBase PyText PyList FormatModel NumScan MatrixModel.
Local Open Scope Q_scope.

(** An SVGTransform: its type with its _values tuple.  The setters
    (transform.py:121-241) are the only writers of the two fields, so the
    arity of the tuple is determined by the type; _angle is the first value of
    rotate and skew and 0 otherwise. *)
Inductive transform :=
| TUnknown
| TMatrix (a b c d e f : Q)
| TTranslate (tx ty : Q)
| TScale (sx sy : Q)
| TRotate (angle cx cy : Q)
| TSkewX (angle : Q)
| TSkewY (angle : Q).

(* the SVG_TRANSFORM_* constants, transform.py:35-41 *)
Inductive ttype := UNKNOWN | MATRIX | TRANSLATE | SCALE | ROTATE | SKEWX | SKEWY.
Definition type_of (t : transform) : ttype :=
  match t with
  | TUnknown => UNKNOWN | TMatrix _ _ _ _ _ _ => MATRIX | TTranslate _ _ => TRANSLATE
  | TScale _ _ => SCALE | TRotate _ _ _ => ROTATE | TSkewX _ => SKEWX | TSkewY _ => SKEWY
  end.
Definition values_of (t : transform) : list Q :=
  match t with
  | TUnknown => [] | TMatrix a b c d e f => [a; b; c; d; e; f] | TTranslate x y => [x; y]
  | TScale x y => [x; y] | TRotate a x y => [a; x; y] | TSkewX a => [a] | TSkewY a => [a]
  end.

(* transform.py:143-241 set and the set_* methods it calls; a wrong number of
   arguments is a TypeError.  set(UNKNOWN, ...) ignores its arguments. *)
Definition set_transform (ty : ttype) (vs : list Q) : result transform :=
  match ty, vs with
  | MATRIX, [a; b; c; d; e; f] => Ok (TMatrix a b c d e f)
  | ROTATE, [a] => Ok (TRotate a 0 0)
  | ROTATE, [a; cx] => Ok (TRotate a cx 0)
  | ROTATE, [a; cx; cy] => Ok (TRotate a cx cy)
  | SCALE, [sx] => Ok (TScale sx sx)
  | SCALE, [sx; sy] => Ok (TScale sx sy)
  | SKEWX, [a] => Ok (TSkewX a)
  | SKEWY, [a] => Ok (TSkewY a)
  | TRANSLATE, [tx] => Ok (TTranslate tx 0)
  | TRANSLATE, [tx; ty] => Ok (TTranslate tx ty)
  | UNKNOWN, _ => Ok TUnknown
  | _, _ => Err TypeError
  end.
(* transform.py:166-176 set_matrix / from_matrix (tolist of a 2D matrix has
   six entries) *)
Definition from_matrix (m : dmat) : result transform :=
  if is2d m then
    match tolist m with
    | [a; b; c; d; e; f] => Ok (TMatrix a b c d e f)
    | _ => Err TypeError
    end
  else Err ValueError.

Definition identity : dmat := DM mat_id true.
(* transform.py:76-105 matrix *)
Definition transform_matrix (o : oracle) (t : transform) : option dmat :=
  match t with
  | TUnknown => None
  | TMatrix a b c d e f => Some (DM (matrix2d a b c d e f) true)
  | TRotate angle cx cy =>
      let moved := negb (cx =?q 0) || negb (cy =?q 0) in
      let m := if moved then translate_self identity cx cy 0 else identity in
      let m := rotate_self o m 0 0 angle in
      Some (if moved then translate_self m (- cx) (- cy) 0 else m)
  | TScale sx sy => Some (scale_self identity sx (Some sy) 1 0 0 0)
  | TSkewX a => Some (skew_x_self o identity a)
  | TSkewY a => Some (skew_y_self o identity a)
  | TTranslate tx ty => Some (translate_self identity tx ty 0)
  end.

(* transform.py:356-368 SVGTransformList.matrix; multiplying by None is a
   TypeError (DOMMatrix.__imul__ returns NotImplemented, matrix.py:756-760) *)
Fixpoint product (o : oracle) (m : dmat) (l : list transform) : result dmat :=
  match l with
  | [] => Ok m
  | t :: l' => match transform_matrix o t with
               | Some x => product o (multiply_self m x) l'
               | None => Err TypeError
               end
  end.
Definition list_matrix (o : oracle) (l : list transform) : result (option dmat) :=
  match l with
  | [] => Ok None
  | _ => do m <- product o identity l; Ok (Some m)
  end.
(* transform.py:378-384 transform *)
Definition list_transform (o : oracle) (l : list transform) : result (option transform) :=
  do m <- list_matrix o l;
  match m with
  | None => Ok None
  | Some m => do t <- from_matrix m; Ok (Some t)
  end.
(* transform.py:411-426 consolidate: the list afterwards and the returned value *)
Definition consolidate (o : oracle) (l : list transform) : result (list transform * option transform) :=
  do t <- list_transform o l;
  match t with
  | None => Ok (l, None)
  | Some t => Ok ([t], Some t)
  end.

(** ** Text *)
(* _FUNCTION_NAME_MAP, transform.py:552-559 *)
Definition name_of (ty : ttype) : text :=
  match ty with
  | UNKNOWN => [] | MATRIX => lit "matrix" | TRANSLATE => lit "translate" | SCALE => lit "scale"
  | ROTATE => lit "rotate" | SKEWX => lit "skewX" | SKEWY => lit "skewY"
  end.
Definition default_delimiter (d : text) : text := match d with [] => lit ", " | _ => d end.
(* transform.py:243-263: dropping trailing default arguments, on the
   formatted numbers *)
Definition abbreviate (ty : ttype) (ns : list text) : list text :=
  match ty, ns with
  | ROTATE, [a; x; y] => if text_eqb x (lit "0") && text_eqb y (lit "0") then [a] else ns
  | SCALE, [x; y] => if text_eqb x y then [x] else ns
  | TRANSLATE, [x; y] => if text_eqb y (lit "0") then [x] else ns
  | _, _ => ns
  end.
(* transform.py:243-265 tostring; delimiter=None behaves as '' *)
Definition transform_tostring (d : text) (t : transform) : text :=
  match t with
  | TUnknown => []
  | _ => name_of (type_of t) ++ lit "(" ++
         join (default_delimiter d)
              (abbreviate (type_of t) (format_number_sequence precision (values_of t)))
         ++ lit ")"
  end.
(* transform.py:541-549 SVGTransformList.tostring *)
Definition list_tostring (d : text) (l : list transform) : text :=
  join (lit " ") (map (transform_tostring d) l).
(* matrix.py:673-682 DOMMatrixReadOnly.tostring *)
Definition matrix_tostring (d : text) (m : dmat) : text :=
  (if is2d m then lit "matrix" else lit "matrix3d") ++ lit "(" ++
  join (default_delimiter d) (format_number_sequence precision (tolist m)) ++ lit ")".

(** The names of _RE_TRANSFORM_LIST; none is a prefix of another. *)
Definition function_types : list ttype := [MATRIX; TRANSLATE; SCALE; ROTATE; SKEWX; SKEWY].
Fixpoint strip_prefix (p t : text) : option text :=
  match p, t with
  | [], _ => Some t
  | a :: p', b :: t' => if (a =? b)%N then strip_prefix p' t' else None
  | _ :: _, [] => None
  end.
Fixpoint scan_name (tys : list ttype) (t : text) : option (ttype * text) :=
  match tys with
  | [] => None
  | ty :: tys' => match strip_prefix (name_of ty) t with
                  | Some r => Some (ty, r)
                  | None => scan_name tys' t
                  end
  end.
Definition not_close (c : N) : bool := negb (c =? 41)%N.
(* _RE_TRANSFORM_LIST, transform.py:23-25: name, white space, parenthesised
   values without a closing parenthesis, then the end, white space or a comma
   (what the separator consumes is skipped by finditer anyway) *)
Definition scan_function (t : text) : option ((ttype * text) * text) :=
  match scan_name function_types t with
  | Some (ty, r) =>
      match dropwhile is_space r with
      | c :: r1 =>
          if (c =? 40)%N then
            let vs := takewhile not_close r1 in
            match vs, dropwhile not_close r1 with
            | _ :: _, _ :: r2 =>
                if match r2 with [] => true | c :: _ => is_space c || (c =? 44)%N end
                then Some ((ty, vs), r2) else None
            | _, _ => None
            end
          else None
      | [] => None
      end
  | None => None
  end.
Fixpoint make_all (l : list (ttype * text)) : result (list transform) :=
  match l with
  | [] => Ok []
  | (ty, vs) :: l' =>
      do t <- set_transform ty (scan_numbers (strip vs));
      do ts <- make_all l'; Ok (t :: ts)
  end.
(* transform.py:476-510 SVGTransformList.parse *)
Definition parse_transforms (t : text) : result (list transform) :=
  make_all (finditer scan_function (strip t)).
