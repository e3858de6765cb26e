(** The media query list of a window: Window.match_media and
    MediaQueryList.matches (svgpy/window.py 690-753, 872-876), on top
    of the reading and evaluation of queries (MqParseModel, MediaQueryModel),
    of lengths (LengthModel) and of the screen (ScreenModel). *)
From Coq Require Import ZArith QArith Qround List.
From Verif Require Import PyBase PyText PyStrip PySplit PyDict NumScan LengthModel ScreenModel MediaQueryModel MqParseModel.
Import ListNotations.
#[local] Open Scope Z_scope.

(** What the conditions are made of: the size of the viewport of the root
    element, with what a length reads there (None: the document has no root);
    the inner size of the window; the screen; the zoom of the page.
    Computing the viewport size is not modelled here (C75). *)
Record situation := mkSit { st_root : option (Q * Q * lctx); st_inner : Z * Z; st_screen : screen;
  st_media : text; st_scan : text; st_update : text; st_gamut : text; st_zoom : Q }.
(* '{}'.format(x) of a float; Fraction of a text that is not of the form 'a' or
   'a/b' (decimals, and what is not a number) *)
Record printing := mkPr { p_float : Q -> text; p_decimal : text -> result Q }.

(* '{}'.format(n) of an int *)
Definition zstr (z : Z) : text := (if z <? 0 then [45%N] else []) ++ digits (Z.abs_N z).
(* Fraction(a, b) and its str *)
Definition ratio_text (a b : Z) : result text :=
  if b =? 0 then Err ZeroDivisionError
  else let q := Qred (inject_Z a / inject_Z b) in
       Ok (zstr (Qnum q) ++ match Qden q with 1%positive => [] | d => [47%N] ++ zstr (Zpos d) end).
(* Fraction(text), Fraction(int) *)
Definition read_ratio (p : printing) (v : value) : result Q :=
  match v with
  | VInt z => Ok (inject_Z z)
  | VText t =>
      let '(neg, r) := scan_sign (strip t) in
      let n := let k := Z.of_N (digits_val (takewhile is_digit r)) in if neg then - k else k in
      match takewhile is_digit r, dropwhile is_digit r with
      | [], _ => p_decimal p t
      | _, [] => Ok (inject_Z n)
      | _, c :: d => if (c =? 47)%N then
                       match d with
                       | [] => Err ValueError
                       | _ => if forallb is_digit d
                              then LengthModel.div (inject_Z n) (inject_Z (Z.of_N (digits_val d)))
                              else Err ValueError
                       end
                     else p_decimal p t
      end
  end.

(* SVGLength(value, context=...) *)
Definition length_of (c : lctx) (v : value) : result slength :=
  match v with
  | VInt z => Ok (mkL (inject_Z z) None c c None)
  | VText t => do x <- LengthModel.parse t; Ok (mkL (fst x) (snd x) c c None)
  end.
(* 690-696 *)
Definition mql_compare (c : lctx) (l r : value) : result Z :=
  do a <- length_of c l;
  do b <- length_of c r;
  do e <- eq_ a b;
  if e then Ok 0 else (do g <- gt_ a b; Ok (if g then 1 else -1)).
(* as _eval_expr_compare has it: ValueError is caught; the other errors would
   pass through, see c80_no_other_error *)
Definition compare_func (c : lctx) (l r : value) : option Z := match mql_compare c l r with Ok z => Some z | Err _ => None end.

(* 872-876 *)
Definition device_pixel_ratio (s : situation) : Q := (s_ratio (st_screen s) * st_zoom s)%Q.
Definition px : text := lit "px".
(* 719-726: width and height, also as texts *)
Definition view (s : situation) : Q * Q :=
  match st_root s with Some (w, h, _) => (w, h) | None => (inject_Z (fst (st_inner s)), inject_Z (snd (st_inner s))) end.
Definition view_text (p : printing) (s : situation) : text * text :=
  match st_root s with
  | Some (w, h, _) => (p_float p w, p_float p h)
  | None => (zstr (fst (st_inner s)), zstr (snd (st_inner s)))
  end.
Definition st_ctx (s : situation) : lctx := match st_root s with Some (_, _, c) => c | None => no_context end.
(* 1 << n *)
Definition shifted (n : Z) : result Z := if n <? 0 then Err ValueError else Ok (2 ^ n).
(* 727-750 *)
Definition conditions (p : printing) (s : situation) : result env :=
  let sc := st_screen s in
  do ar <- ratio_text (to_int (fst (view s))) (to_int (snd (view s)));
  do dar <- ratio_text (s_width sc) (s_height sc);
  do ci <- shifted (s_depth sc);
  Ok [(lit "media", VText (st_media s));
      (lit "width", VText (fst (view_text p s) ++ px));
      (lit "height", VText (snd (view_text p s) ++ px));
      (lit "aspect-ratio", VText ar);
      (lit "orientation", VText (orientation_type sc));
      (lit "resolution", VText (p_float p (device_pixel_ratio s) ++ lit "dppx"));
      (lit "scan", VText (st_scan s));
      (lit "grid", VInt 0);
      (lit "update", VText (st_update s));
      (lit "overflow-block", VText (lit "none"));
      (lit "overflow-inline", VText (lit "none"));
      (lit "color", VInt (s_depth sc));
      (lit "color-index", VInt ci);
      (lit "monochrome", VInt (s_mono sc));
      (lit "color-gamut", VText (st_gamut s));
      (lit "device-width", VText (zstr (s_width sc) ++ px));
      (lit "device-height", VText (zstr (s_height sc) ++ px));
      (lit "device-aspect-ratio", VText dar)].
(* 715-753; the list is parsed when it is made (712), which does not depend on
   the situation *)
Definition matches (p : printing) (s : situation) (q : text) : result bool :=
  do ns <- MqParseModel.parse q;
  do e <- conditions p s;
  do r <- match_nodes (mkMq e (compare_func (st_ctx s)) (read_ratio p)) ns;
  Ok (fst r).
