(** Rectangles with rounded numbers (svgpy/geometry/rect.py 76-101, 145-163,
    243-258, 369-451, 469-485, 546-611).

    RectModel takes numbers for exact; here every addition and subtraction is
    rounded by [f].  [fl] is what Python's floats do: the nearest number of 53
    binary digits, the even one of two.  Simplified: no overflow, underflow,
    infinities, NaN and signed zeros (the exponent is unbounded). *)
From Coq Require Import Qround Qabs Qpower ZArith.
From Verif Require Import PyBase RectModel.
#[local] Open Scope Q_scope.

(** ** Rounding to 53 digits *)
Definition pow2 (k : Z) : Q := Qpower 2 k.
(* pow2 k <= q < pow2 (k + 1), for positive q *)
Definition exponent (q : Q) : Z :=
  let k := (Z.log2 (Qnum q) - Z.log2 (Zpos (Qden q)))%Z in if pow2 k <=?q q then k else (k - 1)%Z.
Definition nearest_even (x : Q) : Z :=
  let n := Qfloor x in
  if x - inject_Z n <?q 1#2 then n else if (1#2) <?q x - inject_Z n then (n + 1)%Z else if Z.even n then n else (n + 1)%Z.
Definition fl_pos (q : Q) : Q := let e := (exponent q - 52)%Z in inject_Z (nearest_even (q / pow2 e)) * pow2 e.
Definition fl (q : Q) : Q := if q =?q 0 then 0 else if q <?q 0 then - fl_pos (- q) else fl_pos q.

(** ** Rectangles: [f] is the rounding *)
(* rect.py 96-101, 76-81 *)
Definition fright (f : Q -> Q) (r : rect) : option Q := match rx r with Some x => Some (f (x + rw r)) | None => None end.
Definition fbottom (f : Q -> Q) (r : rect) : option Q := match ry r with Some y => Some (f (y + rh r)) | None => None end.
(* 145-163 *)
Definition fcontains (f : Q -> Q) (r : rect) (x y w h : Q) : bool :=
  if negb (isvalid r) then false else
  match rx r, ry r with
  | Some l, Some t =>
      let rgt := f (l + rw r) in
      let btm := f (t + rh r) in
      if (w <=?q 0) || (h <=?q 0) then between l x rgt && between t y btm
      else between l x rgt && between l (f (x + w)) rgt && between t y btm && between t (f (y + h)) btm
  | _, _ => false
  end.
(* 243-258 *)
Definition fnormalize (f : Q -> Q) (r : rect) : result rect :=
  let fix_axis (p : option Q) (len : Q) : result (option Q * Q) :=
    if len <?q 0 then match p with Some a => Ok (Some (f (a + len)), f (a - f (a + len))) | None => Err TypeError end else Ok (p, len) in
  do (x, w) <- fix_axis (rx r) (rw r);
  do (y, h) <- fix_axis (ry r) (rh r);
  Ok (mkRect x y w h).
(* 469-485 *)
Definition fset_coords (f : Q -> Q) (x1 y1 x2 y2 : Q) : rect := rect4 x1 y1 (f (x2 - x1)) (f (y2 - y1)).
(* 369-389 *)
Definition fadjust (f : Q -> Q) (r : rect) (dx1 dy1 dx2 dy2 : Q) : rect :=
  if negb (isvalid r) then r else
  match rx r, ry r with
  | Some x1, Some y1 => fset_coords f (f (x1 + dx1)) (f (y1 + dy1)) (f (f (x1 + rw r) + dx2)) (f (f (y1 + rh r) + dy2))
  | _, _ => r
  end.
(* 546-558 *)
Definition ftranslate (f : Q -> Q) (r : rect) (dx dy : Q) : rect * option pyerr :=
  match rx r with
  | None => (r, Some TypeError)
  | Some x =>
      match ry r with
      | None => (mkRect (Some (f (x + dx))) None (rw r) (rh r), Some TypeError)
      | Some y => (mkRect (Some (f (x + dx))) (Some (f (y + dy))) (rw r) (rh r), None)
      end
  end.
(* 404-451 *)
Definition fintersect (f : Q -> Q) (r o : rect) : rect :=
  if negb (isvalid r) || negb (isvalid o) then r else
  match rx r, ry r, rx o, ry o with
  | Some l, Some t, Some ol, Some ot =>
      if fcontains f o l t (rw r) (rh r) then r else
      let rg := f (l + rw r) in
      let bt := f (t + rh r) in
      let org := f (ol + rw o) in
      let obt := f (ot + rh o) in
      let overlap_v := ((ot <?q t) && (bt <?q obt)) || ((t <=?q ot) && (ot <?q bt)) || ((t <?q obt) && (obt <=?q bt)) in
      let overlap_h := ((ol <?q l) && (rg <?q org)) || ((l <=?q ol) && (ol <?q rg)) || ((l <?q org) && (org <=?q rg)) in
      let x1 := if (l <?q ol) && (ol <?q rg) && overlap_v then ol else l in
      let y1 := if (t <?q ot) && (ot <?q bt) && overlap_h then ot else t in
      let x2 := if (l <?q org) && (org <?q rg) && overlap_v then org else rg in
      let y2 := if (t <?q obt) && (obt <?q bt) && overlap_h then obt else bt in
      fset_coords f x1 y1 x2 y2
  | _, _, _, _ => r
  end.
(* 569-611 *)
Definition funite_self (f : Q -> Q) (r : rect) (ox oy : option Q) (w h : Q) : rect :=
  match ox, oy with
  | Some x, Some y =>
      if fcontains f r x y w h then r else
      let '(x1, x2) :=
        match rx r, fright f r with
        | Some a, Some b => if x <?q a then (x, Some b) else if b <?q x then (a, Some x) else (a, Some b)
        | _, b => (x, b)
        end in
      let '(y1, y2) :=
        match ry r, fbottom f r with
        | Some a, Some b => if y <?q a then (y, Some b) else if b <?q y then (a, Some y) else (a, Some b)
        | _, b => (y, b)
        end in
      let '(x2, y2) :=
        if (0 <?q w) && (0 <?q h) then
          let rg := f (x + w) in
          let bt := f (y + h) in
          (match x2 with None => Some rg | Some b => if b <?q rg then Some rg else Some b end,
           match y2 with None => Some bt | Some b => if b <?q bt then Some bt else Some b end)
        else (x2, y2) in
      match x2, y2 with
      | Some b, Some d => fset_coords f x1 y1 b d
      | _, _ => mkRect (Some x1) (Some y1) (rw r) (rh r)
      end
  | _, _ => r
  end.
(* 56-61, 344-348 *)
Definition funite (f : Q -> Q) (r o : rect) : rect := funite_self f r (rx o) (ry o) (rw o) (rh o).
