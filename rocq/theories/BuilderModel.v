(** SVGPathSegment objects as they are: a type, a tuple of values, and the methods that set
    them (svgpy/path.py 292-552).  PathModel.v's segments (C14-C17) are those objects whose
    tuple has the length the type needs; here every pair of a type and a tuple of numbers is
    an object.  isupper and islower are those of ASCII. *)
From Coq Require Import QArith.
From Verif Require Import PyBase PyText FormatModel.
#[local] Open Scope N_scope.

(* path.py 292-294 *)
Record obj := mkO { o_type : option text; o_values : list Q }.
(* an argument of a setter: what float() and int() make of it *)
Record arg := mkA { as_float : result Q; as_int : result Z }.

(* [t in s] for texts *)
Fixpoint starts (t s : text) : bool :=
  match t, s with
  | [], _ => true
  | x :: t', y :: s' => (x =? y) && starts t' s'
  | _ :: _, [] => false
  end.
Fixpoint isin (t s : text) : bool := starts t s || match s with [] => false | _ :: s' => isin t s' end.
Definition upper_letter (c : N) : bool := (65 <=? c) && (c <=? 90).
Definition lower_letter (c : N) : bool := (97 <=? c) && (c <=? 122).
Definition isupper (t : text) : bool := existsb upper_letter t && negb (existsb lower_letter t).
Definition islower (t : text) : bool := existsb lower_letter t && negb (existsb upper_letter t).

(* 1183 PATH_SEGMENT_TYPES *)
Definition segment_types : text := lit "AaBbCcHhLlMmQqSsTtVvZz".
(* 402-407 *)
Definition isvalid (o : obj) : bool :=
  match o_type o with
  | None => false
  | Some t => isin t (lit "Zz") || (isin t segment_types && negb (Nat.eqb (length (o_values o)) 0))
  end.
(* 392-395 *)
Definition isabsolute (o : obj) : option bool := option_map isupper (o_type o).
(* 397-400 *)
Definition isrelative (o : obj) : option bool := option_map islower (o_type o).
(* 296-300 *)
Definition seg_eqb (a b : obj) : bool :=
  match o_type a, o_type b with
  | None, None => true
  | Some x, Some y => text_eqb x y
  | _, _ => false
  end && Nat.eqb (length (o_values a)) (length (o_values b)) && forallb (fun p => Qeq_bool (fst p) (snd p)) (combine (o_values a) (o_values b)).

Definition first (l : list Q) : result Q := match l with x :: _ => Ok x | [] => Err IndexError end.
(* 310-346 *)
Definition seg_end (o : obj) : result (list (option Q)) :=
  if negb (isvalid o) then Ok [None; None] else
  match o_type o with
  | None => Ok [None; None]
  | Some t =>
    let v := o_values o in
    if isin t (lit "Aa") then Ok (map Some (skipn 5 v))
    else if isin t (lit "BbZz") then Ok [None; None]
    else if isin t (lit "Cc") then Ok (map Some (skipn 4 v))
    else if text_eqb t (lit "H") then do x <- first v; Ok [Some x; None]
    else if text_eqb t (lit "h") then do x <- first v; Ok [Some x; Some 0%Q]
    else if isin t (lit "LlMmTt") then Ok (map Some v)
    else if isin t (lit "QqSs") then Ok (map Some (skipn 2 v))
    else if text_eqb t (lit "V") then do y <- first v; Ok [None; Some y]
    else if text_eqb t (lit "v") then do y <- first v; Ok [Some 0%Q; Some y]
    else Err NotImplementedError_
  end.
(* 378-390 *)
Definition get_bearing (o : obj) (bearing : Q) : result Q :=
  match o_type o with
  | None => Ok bearing
  | Some t =>
    if negb (isvalid o) || negb (isin t (lit "Bb")) then Ok bearing
    else if isupper t then first (o_values o)
    else do x <- first (o_values o); Ok (bearing + x)%Q
  end.

(* 520-530: the first two and the last two numbers are joined by a comma *)
Definition arc_words (l : list text) : result (list text) :=
  match l with
  | [] => Ok []
  | rx :: ry :: r =>
    match rev (join [44] [rx; ry] :: r) with
    | y :: x :: r' => Ok (rev r' ++ [join [44] [x; y]])
    | _ => Err IndexError
    end
  | _ => Err IndexError
  end.
(* 517-552 tostring, 358-376 _tostring1, _tostring2, _tostring2n *)
Definition tostring (o : obj) : result text :=
  if negb (isvalid o) then Ok [] else
  match o_type o with
  | None => Ok []
  | Some t =>
    let words := format_number_sequence precision (o_values o) in
    if isin t (lit "Aa") then do l <- arc_words words; Ok (t ++ join [32] l)
    else if isin t (lit "BbHhVv") then Ok (t ++ join [32] words)
    else if isin t (lit "CcQqSsTt") then
      Ok (t ++ join [32] (map (fun p => join [44] (format_number_sequence precision [fst p; snd p])) (to_pairs (o_values o))))
    else if isin t (lit "LlMm") then Ok (t ++ join [44] words)
    else if isin t (lit "Zz") then Ok t
    else Err NotImplementedError_
  end.

(** ** The setters *)
Inductive setter :=
  | Bearing (angle : arg) | Curveto (x1 y1 x2 y2 x y : arg) | Arc (rx ry rot large sweep x y : arg)
  | Horizontal (x : arg) | Lineto (x y : arg) | Moveto (x y : arg) | Quadratic (x1 y1 x y : arg)
  | Smooth (x2 y2 x y : arg) | SmoothQuadratic (x y : arg) | Vertical (y : arg).
(* the tuple is made from left to right *)
Fixpoint floats (l : list arg) : result (list Q) :=
  match l with [] => Ok [] | a :: l' => do x <- as_float a; do r <- floats l'; Ok (x :: r) end.
Definition int_value (a : arg) : result Q := do z <- as_int a; Ok (inject_Z z).
(* self._path_type is assigned before the tuple is made *)
Definition assign (o : obj) (rel : bool) (upper lower : text) (v : result (list Q)) : obj * option pyerr :=
  let t := Some (if rel then lower else upper) in
  match v with Ok l => (mkO t l, None) | Err e => (mkO t (o_values o), Some e) end.
Definition set (o : obj) (rel : bool) (s : setter) : obj * option pyerr :=
  match s with
  (* 409-425 set_bearing_abs, set_bearing_rel *)
  | Bearing a => assign o rel (lit "B") (lit "b") (floats [a])
  (* 427-437 *)
  | Curveto x1 y1 x2 y2 x y => assign o rel (lit "C") (lit "c") (floats [x1; y1; x2; y2; x; y])
  (* 439-459 *)
  | Arc rx ry rot large sweep x y =>
    assign o rel (lit "A") (lit "a")
      (do a <- floats [rx; ry; rot]; do f <- int_value large; do g <- int_value sweep; do e <- floats [x; y]; Ok (a ++ [f; g] ++ e))
  (* 461-467 *)
  | Horizontal x => assign o rel (lit "H") (lit "h") (floats [x])
  (* 469-475 *)
  | Lineto x y => assign o rel (lit "L") (lit "l") (floats [x; y])
  (* 477-483 *)
  | Moveto x y => assign o rel (lit "M") (lit "m") (floats [x; y])
  (* 485-491 *)
  | Quadratic x1 y1 x y => assign o rel (lit "Q") (lit "q") (floats [x1; y1; x; y])
  (* 493-499 *)
  | Smooth x2 y2 x y => assign o rel (lit "S") (lit "s") (floats [x2; y2; x; y])
  (* 501-507 *)
  | SmoothQuadratic x y => assign o rel (lit "T") (lit "t") (floats [x; y])
  (* 509-515 *)
  | Vertical y => assign o rel (lit "V") (lit "v") (floats [y])
  end.
Definition sets (o : obj) (l : list (bool * setter)) : obj := fold_left (fun o p => fst (set o (fst p) (snd p))) l o.
