(** SVGLength (svgpy/core.py 956-1568).

    Numbers are exact: rounding of Decimal (28 digits) and of float() is left
    out here (DecModel has it); 96, 72 and 6 are exact, 2.54 and 25.4 are the doubles nearest to them
    (Decimal(2.54)).  What a length reads from its context element is a record:
    font sizes, view box or viewport size, sqrt(vw**2 + vh**2)/sqrt(2), and the
    font metrics (core.py 1409-1415, 1521-1548), [metric_at p] being those
    after set_point_size for p pixels.  copy.deepcopy of a length also copies its context
    element, which takes it out of its tree: [ccopy] is what the copy reads. *)
From Verif Require Import PyBase PyText PySplit PyStrip PyCase CssUnitModel FormatModel NumScan.
From Coq Require Qabs.
#[local] Open Scope Q_scope.

Record lctx := mkC { root_size : Q; parent_size : Q; cvw : Q; cvh : Q; diagonal : Q;
                     metric : option (text -> Q); metric_at : Q -> text -> Q }.
(* no context (1359, 1375, 1394-1395); the diagonal of 100 x 100 is 100; 617 *)
Definition no_context : lctx := mkC 16 16 100 100 100 None (fun _ _ => 0).
Inductive direction : Type := Unspecified | Horizontal | Vertical.
Record slength := mkL { num : Q; lunit : option text; ctx : lctx; ccopy : lctx; ldir : option direction }.

(* 980-986 *)
Definition supported : list text :=
  [lit "%"; lit "em"; lit "ex"; lit "cap"; lit "ch"; lit "ic"; lit "rem"; lit "vw"; lit "vh"; lit "vmin"; lit "vmax";
   lit "cm"; lit "mm"; lit "q"; lit "in"; lit "pt"; lit "pc"; lit "px"; lit "dpi"; lit "dpcm"; lit "dppx"].
Definition resolution_units : list text := [lit "dpi"; lit "dpcm"; lit "dppx"].
Definition metric_units : list text := [lit "ex"; lit "cap"; lit "ch"; lit "ic"].
Definition viewport_units : list text := [lit "vw"; lit "vh"; lit "vmin"; lit "vmax"].
(* unit in [...]: None is in none of the lists, '' is TYPE_NUMBER *)
Definition uin (u : option text) (l : list text) : bool := match u with Some t => mem t l | None => false end.
Definition is_px (u : option text) : bool := match u with None => true | Some t => mem t [[]; lit "px"] end.
Definition unit_eqb (a b : option text) : bool :=
  match a, b with None, None => true | Some s, Some t => text_eqb s t | _, _ => false end.
(* 25.4 as a double *)
Definition d25_4 : Q := inject_Z 7149464408450662 / inject_Z (2 ^ 48).
(* 1009-1017 *)
Definition pixel_size (u : text) : option Q :=
  if text_eqb u (lit "px") then Some 1
  else if text_eqb u (lit "in") then Some 96
  else if text_eqb u (lit "cm") then Some (96 / d254)
  else if text_eqb u (lit "mm") then Some (96 / d25_4)
  else if text_eqb u (lit "q") then Some (96 / d254 / 40)
  else if text_eqb u (lit "pt") then Some (96 / 72)
  else if text_eqb u (lit "pc") then Some (96 / 6)
  else None.
(* Decimal division: DivisionByZero and InvalidOperation are arithmetic errors *)
Definition div (a b : Q) : result Q := if b =?q 0 then Err ZeroDivisionError else Ok (a / b).
(* 1405-1406 *)
Definition vk (c : lctx) (u : text) : Q :=
  if text_eqb u (lit "vw") then cvw c else if text_eqb u (lit "vh") then cvh c
  else if text_eqb u (lit "vmin") then pymin (cvw c) (cvh c) else pymax (cvw c) (cvh c).
(* 1418-1490 *)
Definition to_pixels (c : lctx) (d : option direction) (n : Q) (u : option text) : result Q :=
  if is_px u then Ok n else
  match u with
  | None => Ok n
  | Some t =>
      if text_eqb t (lit "rem") then Ok (n * root_size c)
      else if text_eqb t (lit "em") then Ok (n * parent_size c)
      else if text_eqb t (lit "%") then
        Ok match d with
           | Some Horizontal => n * cvw c / 100
           | Some Vertical => n * cvh c / 100
           | Some Unspecified => n * diagonal c / 100
           | None => n * parent_size c / 100
           end
      else if mem t metric_units then
        Ok match metric c with
           | None => n * parent_size c / 2
           | Some m => n * (if m t =?q 0 then parent_size c else m t)
           end
      else if mem t viewport_units then Ok (n * vk c t / 100)
      else if mem t resolution_units then
        Ok (if text_eqb t (lit "dpi") then n / 96 else if text_eqb t (lit "dpcm") then n / 96 * d254 else n)
      else match pixel_size t with Some k => Ok (n * k) | None => Err NotImplementedError_ end
  end.
(* 1492-1568 *)
Definition from_pixels (c : lctx) (d : option direction) (px : Q) (u : option text) : result Q :=
  if is_px u then Ok px else
  match u with
  | None => Ok px
  | Some t =>
      if text_eqb t (lit "rem") then div px (root_size c)
      else if text_eqb t (lit "em") then div px (parent_size c)
      else if text_eqb t (lit "%") then
        do q <- match d with
                | Some Horizontal => div px (cvw c)
                | Some Vertical => div px (cvh c)
                | Some Unspecified => div px (diagonal c)
                | None => div px (parent_size c)
                end;
        Ok (q * 100)
      else if mem t metric_units then
        match metric c with
        | None => div px (parent_size c / 2)
        | Some _ => div px (if metric_at c px t =?q 0 then parent_size c else metric_at c px t)
        end
      else if mem t viewport_units then (do q <- div px (vk c t); Ok (q * 100))
      else if mem t resolution_units then
        Ok (if text_eqb t (lit "dpi") then px * 96 else if text_eqb t (lit "dpcm") then px * (96 / d254) else px)
      else match pixel_size t with Some k => div px k | None => Err NotImplementedError_ end
  end.
(* 1316-1568; [d] is the argument direction *)
Definition value (x : slength) (u : option text) (d : option direction) : result Q :=
  if unit_eqb u (lunit x) then Ok (num x) else
  let d := match d with None => ldir x | _ => d end in
  if negb (Bool.eqb (uin (lunit x) resolution_units) (uin u resolution_units)) then Err ValueError else
  do px <- to_pixels (ctx x) d (num x) (lunit x);
  from_pixels (ctx x) d px u.
Definition set_num (x : slength) (n : Q) : slength := mkL n (lunit x) (ctx x) (ccopy x) (ldir x).
Definition set_unit (x : slength) (u : option text) : slength := mkL (num x) u (ctx x) (ccopy x) (ldir x).
Definition copied (x : slength) : slength := mkL (num x) (lunit x) (ccopy x) (ccopy x) (ldir x).
(* 1212-1215 *)
Definition unit_of (x : slength) : option text := match lunit x with Some [] => None | u => u end.
(* 1228-1237 *)
Definition convert (x : slength) (u : option text) : result slength :=
  if unit_eqb u (lunit x) then Ok x else (do n <- value x u None; Ok (set_unit (set_num x n) u)).
(* the common beginning: convert(other.unit) when this length has no unit *)
Definition adopt (x y : slength) : result slength :=
  match lunit x, unit_of y with None, Some u => convert x (Some u) | _, _ => Ok x end.
(* 1099-1105 iadd, 1118-1124 isub, 1107-1116 imul, 1126-1135 itruediv *)
Definition iadd (x y : slength) : result slength := do x <- adopt x y; do v <- value y (lunit x) None; Ok (set_num x (num x + v)).
Definition isub (x y : slength) : result slength := do x <- adopt x y; do v <- value y (lunit x) None; Ok (set_num x (num x - v)).
Definition imul (x y : slength) : result slength := do x <- adopt x y; do v <- value y (lunit x) None; Ok (set_num x (num x * v)).
Definition idiv (x y : slength) : result slength :=
  do x <- adopt x y; do v <- value y (lunit x) None; do q <- div (num x) v; Ok (set_num x q).
Definition imul_n (x : slength) (k : Q) : slength := set_num x (num x * k).
Definition idiv_n (x : slength) (k : Q) : result slength := do q <- div (num x) k; Ok (set_num x q).
(* 1058-1065, 1186-1193, 1147-1157, 1195-1205, 1053-1056, 1159-1168 *)
Definition add (x y : slength) : result slength := iadd (copied x) y.
Definition sub (x y : slength) : result slength := isub (copied x) y.
Definition mul (x y : slength) : result slength := imul (copied x) y.
Definition truediv (x y : slength) : result slength := idiv (copied x) y.
Definition mul_n (x : slength) (k : Q) : slength := imul_n (copied x) k.
Definition truediv_n (x : slength) (k : Q) : result slength := idiv_n (copied x) k.
Definition neg (x : slength) : slength := set_num (copied x) (- num x).
Definition abs_ (x : slength) : slength := set_num (copied x) (Qabs.Qabs (num x)).
(* math.isclose with both tolerances 1e-9 (999-1001) *)
Definition isclose (a b : Q) : bool :=
  (a =?q b) || (Qabs.Qabs (a - b) <=?q pymax (tol * pymax (Qabs.Qabs a) (Qabs.Qabs b)) tol).
(* 1067-1097, 1130-1145 *)
Definition eq_ (x y : slength) : result bool := do o <- value y (lunit x) None; Ok (isclose (num x) o).
Definition lt_ (x y : slength) : result bool := do o <- value y (lunit x) None; Ok (if isclose (num x) o then false else num x <?q o).
Definition le_ (x y : slength) : result bool := do o <- value y (lunit x) None; Ok (if isclose (num x) o then true else num x <=?q o).
Definition gt_ (x y : slength) : result bool := do o <- value y (lunit x) None; Ok (if isclose (num x) o then false else o <?q num x).
Definition ge_ (x y : slength) : result bool := do o <- value y (lunit x) None; Ok (if isclose (num x) o then true else o <=?q num x).

(* the unit of RE_LENGTH (992-996): '%' or letters, ASCII; the long s and the
   Kelvin sign, which IGNORECASE lets through, are left out (no unit has them) *)
Definition is_letter (c : N) : bool := ((97 <=? c) && (c <=? 122) || (65 <=? c) && (c <=? 90))%N.
Definition scan_unit (t : text) : option text :=
  match t with
  | [] => None
  | c :: _ => if (c =? 37)%N then Some [c] else match takewhile is_letter t with [] => None | u => Some u end
  end.
(* 1217-1226 *)
Definition normalize (n : Q) (u : option text) : result (Q * option text) :=
  match u with
  | None => Ok (n, None)
  | Some t => if mem (lower t) supported then Ok (n, Some (lower t)) else Err ValueError
  end.
(* 1270-1284 for texts *)
Definition parse (t : text) : result (Q * option text) :=
  match scan_number (strip t) with
  | None => Err ValueError
  | Some (n, r) => normalize n (scan_unit r)
  end.
(* SVGLength(text), SVGLength(number), SVGLength(number, unit) (1047-1051) *)
Definition of_text (t : text) : result slength := do x <- parse t; Ok (mkL (fst x) (snd x) no_context no_context None).
Definition of_number (n : Q) (u : option text) : slength := mkL n u no_context no_context None.
(* 1286-1314 *)
Definition tostring (p : nat) (x : slength) (u : option text) : result text :=
  let u := match u with None => lunit x | _ => u end in
  do n <- value x u None;
  Ok (format_number p n ++ match u with Some t => t | None => [] end).

(* 1239-1259 *)
Definition isabsolute (x : slength) : bool :=
  match lunit x with
  | None => true
  | Some u => mem u [lit "cm"; lit "mm"; lit "q"; lit "in"; lit "pt"; lit "pc"; lit "px"; []]
  end.
Definition isrelative (x : slength) : bool :=
  uin (lunit x) [lit "em"; lit "ex"; lit "ch"; lit "ic"; lit "rem"; lit "%"; lit "vw"; lit "vh"; lit "vmin"; lit "vmax"].
Definition isresolution (x : slength) : bool := uin (lunit x) resolution_units.
