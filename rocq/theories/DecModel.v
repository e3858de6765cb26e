(** SVGLength with rounded numbers (svgpy/core.py 1009-1017, 1053-1135,
    1147-1205, 1217-1237, 1316-1568).

    LengthModel takes numbers for exact; here every operation on Decimals is
    rounded by [g] and every float() by [f].  [dl] is what the decimal module
    does by default: 28 decimal digits, the even one of two; [fl] (FloatModel)
    is what float() does.  Decimal(float) is exact.  Simplified: exponents are
    unbounded (no overflow, underflow, infinities and NaN), math.isclose
    compares two floats without rounding their difference, and what the
    context element gives (font sizes, view box) is taken as it is. *)
From Coq Require Import Qabs Qpower ZArith.
From Verif Require Import PyBase PyText PySplit CssUnitModel LengthModel FloatModel.
#[local] Open Scope Q_scope.

(** ** Rounding to [p] digits of base [b] *)
Definition bpow (b k : Z) : Q := Qpower (inject_Z b) k.
(* the first exponent from k on whose successor's power is above q *)
Fixpoint find_exp (b : Z) (fuel : nat) (k : Z) (q : Q) : Z :=
  match fuel with O => k | Datatypes.S n => if q <?q bpow b (k + 1) then k else find_exp b n (k + 1)%Z q end.
Definition expo (b : Z) (q : Q) : Z :=
  let d := Z.log2 (Zpos (Qden q)) in find_exp b (Z.to_nat (Z.log2 (Qnum q) + d + 1)) (- (d + 1))%Z q.
Definition rnd_pos (b p : Z) (q : Q) : Q :=
  let e := (expo b q - (p - 1))%Z in inject_Z (nearest_even (q / bpow b e)) * bpow b e.
Definition rnd (b p : Z) (q : Q) : Q := if q =?q 0 then 0 else if q <?q 0 then - rnd_pos b p (- q) else rnd_pos b p q.
Definition dl : Q -> Q := rnd 10 28.

(** ** Lengths: [g] rounds Decimals, [f] is float() *)
(* 1009-1017; 96, 72, 6 and 40 are exact Decimals *)
Definition rpixel_size (g : Q -> Q) (u : text) : option Q :=
  if text_eqb u (lit "px") then Some 1
  else if text_eqb u (lit "in") then Some 96
  else if text_eqb u (lit "cm") then Some (g (96 / d254))
  else if text_eqb u (lit "mm") then Some (g (96 / d25_4))
  else if text_eqb u (lit "q") then Some (g (g (96 / d254) / 40))
  else if text_eqb u (lit "pt") then Some (g (96 / 72))
  else if text_eqb u (lit "pc") then Some (g (96 / 6))
  else None.
Definition rdiv (g : Q -> Q) (a b : Q) : result Q := if b =?q 0 then Err ZeroDivisionError else Ok (g (a / b)).
(* 1418-1490 *)
Definition rto_pixels (g : Q -> Q) (c : lctx) (d : option direction) (n : Q) (u : option text) : result Q :=
  if is_px u then Ok n else
  match u with
  | None => Ok n
  | Some t =>
      if text_eqb t (lit "rem") then Ok (g (n * root_size c))
      else if text_eqb t (lit "em") then Ok (g (n * parent_size c))
      else if text_eqb t (lit "%") then
        Ok match d with
           | Some Horizontal => g (g (n * cvw c) / 100)
           | Some Vertical => g (g (n * cvh c) / 100)
           | Some Unspecified => g (g (n * diagonal c) / 100)
           | None => g (g (n * parent_size c) / 100)
           end
      else if mem t metric_units then
        Ok match metric c with
           | None => g (g (n * parent_size c) / 2)
           | Some m => g (n * (if m t =?q 0 then parent_size c else m t))
           end
      else if mem t viewport_units then Ok (g (g (n * vk c t) / 100))
      else if mem t resolution_units then
        Ok (if text_eqb t (lit "dpi") then g (n / 96) else if text_eqb t (lit "dpcm") then g (g (n / 96) * d254) else n)
      else match rpixel_size g t with Some k => Ok (g (n * k)) | None => Err NotImplementedError_ end
  end.
(* 1492-1568, before float() *)
Definition rfrom_pixels (g : Q -> Q) (c : lctx) (d : option direction) (px : Q) (u : option text) : result Q :=
  if is_px u then Ok px else
  match u with
  | None => Ok px
  | Some t =>
      if text_eqb t (lit "rem") then rdiv g px (root_size c)
      else if text_eqb t (lit "em") then rdiv g px (parent_size c)
      else if text_eqb t (lit "%") then
        do q <- match d with
                | Some Horizontal => rdiv g px (cvw c)
                | Some Vertical => rdiv g px (cvh c)
                | Some Unspecified => rdiv g px (diagonal c)
                | None => rdiv g px (parent_size c)
                end;
        Ok (g (q * 100))
      else if mem t metric_units then
        match metric c with
        | None => rdiv g px (g (parent_size c / 2))
        | Some _ => rdiv g px (if metric_at c px t =?q 0 then parent_size c else metric_at c px t)
        end
      else if mem t viewport_units then (do q <- rdiv g px (vk c t); Ok (g (q * 100)))
      else if mem t resolution_units then
        Ok (if text_eqb t (lit "dpi") then g (px * 96) else if text_eqb t (lit "dpcm") then g (px * g (96 / d254)) else px)
      else match rpixel_size g t with Some k => rdiv g px k | None => Err NotImplementedError_ end
  end.
(* 1316-1568 *)
Definition rvalue (f g : Q -> Q) (x : slength) (u : option text) (d : option direction) : result Q :=
  if unit_eqb u (lunit x) then Ok (f (num x)) else
  let d := match d with None => ldir x | _ => d end in
  if negb (Bool.eqb (uin (lunit x) resolution_units) (uin u resolution_units)) then Err ValueError else
  do px <- rto_pixels g (ctx x) d (num x) (lunit x);
  do v <- rfrom_pixels g (ctx x) d px u;
  Ok (f v).
(* 1228-1237 *)
Definition rconvert (f g : Q -> Q) (x : slength) (u : option text) : result slength :=
  if unit_eqb u (lunit x) then Ok x else (do n <- rvalue f g x u None; Ok (set_unit (set_num x n) u)).
Definition radopt (f g : Q -> Q) (x y : slength) : result slength :=
  match lunit x, unit_of y with None, Some u => rconvert f g x (Some u) | _, _ => Ok x end.
(* 1099-1105, 1118-1124 *)
Definition riadd (f g : Q -> Q) (x y : slength) : result slength :=
  do x <- radopt f g x y; do v <- rvalue f g y (lunit x) None; Ok (set_num x (g (num x + v))).
Definition risub (f g : Q -> Q) (x y : slength) : result slength :=
  do x <- radopt f g x y; do v <- rvalue f g y (lunit x) None; Ok (set_num x (g (num x - v))).
(* 1067-1097, 1136-1145: math.isclose takes floats, the order is that of Decimals *)
Definition req (f g : Q -> Q) (x y : slength) : result bool := do o <- rvalue f g y (lunit x) None; Ok (isclose (f (num x)) o).
Definition rlt (f g : Q -> Q) (x y : slength) : result bool :=
  do o <- rvalue f g y (lunit x) None; Ok (if isclose (f (num x)) o then false else num x <?q o).
Definition rle (f g : Q -> Q) (x y : slength) : result bool :=
  do o <- rvalue f g y (lunit x) None; Ok (if isclose (f (num x)) o then true else num x <=?q o).
Definition rgt (f g : Q -> Q) (x y : slength) : result bool :=
  do o <- rvalue f g y (lunit x) None; Ok (if isclose (f (num x)) o then false else o <?q num x).
Definition rge (f g : Q -> Q) (x y : slength) : result bool :=
  do o <- rvalue f g y (lunit x) None; Ok (if isclose (f (num x)) o then true else o <=?q num x).
(* 1217-1226, 1270-1284: Decimal(number).normalize() rounds *)
Definition rof_text (g : Q -> Q) (t : text) : result slength :=
  do x <- parse t; Ok (mkL (g (fst x)) (snd x) no_context no_context None).
