(** CSS unit values (svgpy/css/types.py 357-461, 1603-1754).

    Decimal numbers are exact rationals here: the rounding of Decimal division
    to 28 digits is left out, and format_number_sequence is the subject of C42.
    Decimal(2.54) and Decimal(0.9) are the exact values of those floats;
    Decimal(math.pi) is the parameter [pi]. *)
From Verif Require Import PyBase PyText PySplit PyDict PyCase CssTypeModel.
From Coq Require Import Qabs.
#[local] Open Scope Q_scope.

(* the floats 2.54 and 0.9 *)
Definition d254 : Q := (inject_Z 2859785763380265) / (inject_Z (2 ^ 50)).
Definition d09 : Q := (inject_Z 8106479329266893) / (inject_Z (2 ^ 53)).

Definition absolute_units : list text := [lit "cm"; lit "mm"; lit "q"; lit "in"; lit "pt"; lit "pc"; lit "px"].
(* 407-430 *)
Definition canonical (unit : text) : option text :=
  let u := lower unit in
  if text_eqb u (lit "number") then Some (lit "number")
  else if mem u absolute_units then Some (lit "px")
  else if mem u angle_units then Some (lit "deg")
  else if mem u time_units then Some (lit "ms")
  else if mem u frequency_units then Some (lit "hz")
  else if mem u resolution_units then Some (lit "dppx")
  else None.
(* 432-461 *)
Definition ratio (pi : Q) (unit : text) : Q :=
  let u := lower unit in
  if text_eqb u (lit "cm") then 96 / d254
  else if text_eqb u (lit "mm") then 96 / d254 / 10
  else if text_eqb u (lit "q") then 96 / d254 / 40
  else if text_eqb u (lit "in") then 96
  else if text_eqb u (lit "pt") then 96 / 72
  else if text_eqb u (lit "pc") then 96 / 6
  else if text_eqb u (lit "grad") then d09
  else if text_eqb u (lit "rad") then 180 / pi
  else if text_eqb u (lit "turn") then 360
  else if text_eqb u (lit "s") then 1000
  else if text_eqb u (lit "khz") then 1000
  else if text_eqb u (lit "dpi") then 1 / 96
  else if text_eqb u (lit "dpcm") then 1 / 96 * d254
  else 1.

Record uval := mkU { uv : Q; uu : text }.
(* 1609-1619 *)
Definition unit_value (v : Q) (u : text) : result uval :=
  do _ <- create_type (lower u);
  Ok (mkU v (lower u)).
(* 1726-1740 *)
Definition to_unit (pi : Q) (x : uval) (unit : text) : result uval :=
  let unit := lower unit in
  if text_eqb (uu x) unit then unit_value (uv x) (uu x)
  else match canonical (uu x), canonical unit with
       | Some a, Some b => if text_eqb a b then unit_value (uv x * (ratio pi (uu x) / ratio pi unit)) unit else Err ValueError
       | _, _ => Err ValueError
       end.
(* math.isclose with rel_tol 1e-09 and abs_tol 0; math.isclose first makes floats of
   both: left out *)
Definition tol : Q := 1 # 1000000000.
Definition isclose (a b : Q) : bool :=
  (a =?q b) || (Qabs (a - b) <=?q tol * Qabs a) || (Qabs (a - b) <=?q tol * Qabs b).
(* 1717-1724 for another unit value *)
Definition normalize (pi : Q) (x y : uval) : result uval := if text_eqb (uu x) (uu y) then Ok y else to_unit pi y (uu x).
(* 1621-1672 *)
Definition u_eq (pi : Q) (x y : uval) : result bool := do y' <- normalize pi x y; Ok (isclose (uv x) (uv y')).
Definition u_lt (pi : Q) (x y : uval) : result bool := do y' <- normalize pi x y; Ok (if isclose (uv x) (uv y') then false else uv x <?q uv y').
Definition u_le (pi : Q) (x y : uval) : result bool := do y' <- normalize pi x y; Ok (if isclose (uv x) (uv y') then true else uv x <=?q uv y').
Definition u_gt (pi : Q) (x y : uval) : result bool := do y' <- normalize pi x y; Ok (if isclose (uv x) (uv y') then false else uv y' <?q uv x).
Definition u_ge (pi : Q) (x y : uval) : result bool := do y' <- normalize pi x y; Ok (if isclose (uv x) (uv y') then true else uv y' <=?q uv x).
