(** Model of svgpy/geometry/rect.py.

    A DOMRectReadOnly / DOMRect object is the record of its four private
    fields (rect.py:19-33).  Simplification: numbers are exact rationals. *)
From Verif Require Import PyBase.
Local Open Scope Q_scope.

(* rect.py:19-33  DOMRectReadOnly.__init__: x and y may be None. *)
Record rect := mkRect { rx : option Q; ry : option Q; rw : Q; rh : Q }.

(* rect.py:19  default arguments: DOMRect() *)
Definition rect_unset : rect := mkRect None None 0 0.

(* rect.py:19 with all four arguments *)
Definition rect4 (x y w h : Q) : rect := mkRect (Some x) (Some y) w h.

(* rect.py:96-101, 76-81  right / bottom: None when unset *)
Definition right (r : rect) : option Q :=
  match rx r with Some x => Some (x + rw r) | None => None end.
Definition bottom (r : rect) : option Q :=
  match ry r with Some y => Some (y + rh r) | None => None end.

(* rect.py:233-241  isvalid *)
Definition isvalid (r : rect) : bool :=
  is_some (rx r) && is_some (ry r) && (0 <?q rw r) && (0 <?q rh r).

(* rect.py:223-231  isempty *)
Definition isempty (r : rect) : bool :=
  negb (is_some (rx r)) || negb (is_some (ry r))
  || (rw r <=?q 0) || (rh r <=?q 0).

(* Python chained comparison a <= x <= b *)
Definition between (a x b : Q) : bool := (a <=?q x) && (x <=?q b).

(* rect.py:145-162  contains(x, y, width=0, height=0).  After the isvalid
   test x and y are numbers, so the model reads them with a match whose None
   branch is the already excluded invalid case. *)
Definition contains (r : rect) (x y w h : Q) : bool :=
  if negb (isvalid r) then false else
  match rx r, ry r with
  | Some l, Some t =>
      let rgt := l + rw r in
      let btm := t + rh r in
      if (w <=?q 0) || (h <=?q 0) then
        between l x rgt && between t y btm
      else
        between l x rgt && between l (x + w) rgt
        && between t y btm && between t (y + h) btm
  | _, _ => false
  end.

(* rect.py:243-258  normalize.  get_coords gives None corners when unset; in
   that case swapping and subtracting None raises TypeError. *)
Definition normalize (r : rect) : result rect :=
  let fix_axis (p : option Q) (len : Q) : result (option Q * Q) :=
    if len <?q 0 then
      match p with
      | Some a => Ok (Some (a + len), a - (a + len))
      | None => Err TypeError
      end
    else Ok (p, len) in
  do (x, w) <- fix_axis (rx r) (rw r);
  do (y, h) <- fix_axis (ry r) (rh r);
  Ok (mkRect x y w h).

(* rect.py:469-485  set_coords *)
Definition set_coords (x1 y1 x2 y2 : Q) : rect :=
  rect4 x1 y1 (x2 - x1) (y2 - y1).

(* rect.py:369-389  adjust_self *)
Definition adjust_self (r : rect) (dx1 dy1 dx2 dy2 : Q) : rect :=
  if negb (isvalid r) then r else
  match rx r, ry r with
  | Some x1, Some y1 =>
      set_coords (x1 + dx1) (y1 + dy1) (x1 + rw r + dx2) (y1 + rh r + dy2)
  | _, _ => r
  end.

(* rect.py:453-467, 487-516  move_to, set_rect, set_size *)
Definition move_to (r : rect) (x y : Q) : rect :=
  mkRect (Some x) (Some y) (rw r) (rh r).
Definition set_rect (r : rect) (x y w h : Q) : rect := rect4 x y w h.
Definition set_size (r : rect) (w h : Q) : rect := mkRect (rx r) (ry r) w h.

(* rect.py:546-558  translate_self: None += number raises TypeError.  The x
   field is stored before the y field is touched, so with only y unset the
   exception leaves a moved x behind.  Result: final object, exception. *)
Definition translate_self (r : rect) (dx dy : Q) : rect * option pyerr :=
  match rx r with
  | None => (r, Some TypeError)
  | Some x =>
      match ry r with
      | None => (mkRect (Some (x + dx)) None (rw r) (rh r), Some TypeError)
      | Some y => (mkRect (Some (x + dx)) (Some (y + dy)) (rw r) (rh r), None)
      end
  end.

(* rect.py:560-567  transpose_self *)
Definition transpose_self (r : rect) : rect := mkRect (rx r) (ry r) (rh r) (rw r).

(* rect.py:404-451  intersect_self (other is always a rectangle here; the
   isinstance test is not modelled). *)
Definition intersect_self (r o : rect) : rect :=
  if negb (isvalid r) || negb (isvalid o) then r else
  match rx r, ry r, rx o, ry o with
  | Some l, Some t, Some ol, Some ot =>
      if contains o l t (rw r) (rh r) then r else
      let rg := l + rw r in
      let bt := t + rh r in
      let org := ol + rw o in
      let obt := ot + rh o in
      let overlap_v := ((ot <?q t) && (bt <?q obt))
                       || ((t <=?q ot) && (ot <?q bt))
                       || ((t <?q obt) && (obt <=?q bt)) in
      let overlap_h := ((ol <?q l) && (rg <?q org))
                       || ((l <=?q ol) && (ol <?q rg))
                       || ((l <?q org) && (org <=?q rg)) in
      let x1 := if (l <?q ol) && (ol <?q rg) && overlap_v then ol else l in
      let y1 := if (t <?q ot) && (ot <?q bt) && overlap_h then ot else t in
      let x2 := if (l <?q org) && (org <?q rg) && overlap_v then org else rg in
      let y2 := if (t <?q obt) && (obt <?q bt) && overlap_h then obt else bt in
      set_coords x1 y1 x2 y2
  | _, _, _, _ => r
  end.

(* The 2D part of a matrix used by transform_self:
   geometry/matrix.py:684-700 transform_point of a 2D matrix
   (x, y) -> (a x + c y + e, b x + d y + f). *)
Record affine := mkAff { fa : Q; fb : Q; fc : Q; fd : Q; fe : Q; ff : Q }.
Definition apply_x (m : affine) (x y : Q) : Q := fa m * x + fc m * y + fe m.
Definition apply_y (m : affine) (x y : Q) : Q := fb m * x + fd m * y + ff m.

(* Python min/max of four arguments *)
Definition min4 (a b c d : Q) : Q := pymin (pymin (pymin a b) c) d.
Definition max4 (a b c d : Q) : Q := pymax (pymax (pymax a b) c) d.

(* rect.py:518-544  transform_self, with the overwriting of x1 and y1 before
   they are used by max kept as in the source (lines 538-541). *)
Definition transform_self (r : rect) (m : affine) : rect :=
  if negb (isvalid r) then r else
  match rx r, ry r with
  | Some l, Some t =>
      let rg := l + rw r in
      let bt := t + rh r in
      let x1 := apply_x m l t in   let y1 := apply_y m l t in
      let x2 := apply_x m rg t in  let y2 := apply_y m rg t in
      let x3 := apply_x m rg bt in let y3 := apply_y m rg bt in
      let x4 := apply_x m l bt in  let y4 := apply_y m l bt in
      let x1 := min4 x1 x2 x3 x4 in
      let y1 := min4 y1 y2 y3 y4 in
      let x3 := max4 x1 x2 x3 x4 in
      let y3 := max4 y1 y2 y3 y4 in
      set_coords x1 y1 x3 y3
  | _, _ => r
  end.

(* rect.py:569-611  unite_self(x, y, width, height); x or y may be None. *)
Definition unite_self (r : rect) (ox oy : option Q) (w h : Q) : rect :=
  match ox, oy with
  | Some x, Some y =>
      if contains r x y w h then r else
      let '(x1, x2) :=
        match rx r, right r with
        | Some a, Some b =>
            if x <?q a then (x, Some b)
            else if b <?q x then (a, Some x) else (a, Some b)
        | _, b => (x, b)
        end in
      let '(y1, y2) :=
        match ry r, bottom r with
        | Some a, Some b =>
            if y <?q a then (y, Some b)
            else if b <?q y then (a, Some y) else (a, Some b)
        | _, b => (y, b)
        end in
      let '(x2, y2) :=
        if (0 <?q w) && (0 <?q h) then
          let rg := x + w in
          let bt := y + h in
          (match x2 with None => Some rg
                       | Some b => if b <?q rg then Some rg else Some b end,
           match y2 with None => Some bt
                       | Some b => if b <?q bt then Some bt else Some b end)
        else (x2, y2) in
      match x2, y2 with
      | Some b, Some d => set_coords x1 y1 b d
      | _, _ => mkRect (Some x1) (Some y1) (rw r) (rh r)
      end
  | _, _ => r
  end.

(* rect.py:56-61, 344-348  __or__ / __ior__ *)
Definition unite (r o : rect) : rect := unite_self r (rx o) (ry o) (rw o) (rh o).

(* rect.py:41-49  __eq__ *)
Definition opt_eqb (a b : option Q) : bool :=
  match a, b with
  | Some x, Some y => x =?q y
  | None, None => true
  | _, _ => false
  end.
Definition rect_eqb (r s : rect) : bool :=
  opt_eqb (rx r) (rx s) && opt_eqb (ry r) (ry s)
  && (rw r =?q rw s) && (rh r =?q rh s).

(* The in-place editing interface of DOMRect, for histories. *)
Inductive rect_op :=
| OpAdjust (a b c d : Q) | OpMoveTo (x y : Q) | OpSetCoords (a b c d : Q)
| OpSetRect (x y w h : Q) | OpSetSize (w h : Q) | OpTranslate (dx dy : Q)
| OpTranspose | OpIntersect (o : rect) | OpUnite (o : rect)
| OpTransform (m : affine).

Definition rect_step (r : rect) (op : rect_op) : rect :=
  match op with
  | OpAdjust a b c d => adjust_self r a b c d
  | OpMoveTo x y => move_to r x y
  | OpSetCoords a b c d => set_coords a b c d
  | OpSetRect x y w h => set_rect r x y w h
  | OpSetSize w h => set_size r w h
  | OpTranslate dx dy => fst (translate_self r dx dy)
  | OpTranspose => transpose_self r
  | OpIntersect o => intersect_self r o
  | OpUnite o => unite r o
  | OpTransform m => transform_self r m
  end.
