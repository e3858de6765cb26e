(** Computed style: get_computed_style (svgpy/dom.py 1795-1861) with
    CSSUtils.compute_font_size_adjust (svgpy/core.py 144-155), and the calls
    between a length, the font size and the computed style of its context
    element (core.py 1358-1416, 628-633).

    These functions call each other: a length in 'em' asks for the font size of
    the parent, one in 'rem' for that of the root, and one in 'ex', 'cap', 'ch'
    or 'ic' builds a Font, which computes the whole style of the element.  The
    model counts the calls: [fuel] is how deep they may nest, and without fuel
    the result is OtherError, Python's RecursionError.  Font.default_font_size
    is 16 and Font.default_font_weight 400, as they are initially.

    Left as given by the record [lctx] of LengthModel, as in GeomModel: the size
    of the view box or the viewport, the metrics of the font once it is found,
    and the font sizes that lengths inside the geometry attributes refer to. *)
From Coq Require Import NArith ZArith QArith List String.
From Verif Require Import PyBase PyText PySplit PyDict FontTextModel CascadeModel FeatModel LengthModel FontSizeModel GeomModel.
Import ListNotations.
#[local] Open Scope Q_scope.

(** An element: what its rules give (CascadeModel) and the rest *)
Record snode := mkS { s_rules : dict text; s_important : dict text; s_geo : gnode }.
Definition s_attr (n : snode) : dict text := g_attr (s_geo n).
Definition s_el (n : snode) : el := mkEl (s_rules n) (s_important n) (s_attr n).
(* a value of the computed style *)
Inductive cval := CText (t : text) | CList (l : list text) | CNum (q : Q) | CInt (z : Z) | CFeat (f : dict N) | CGeo (g : gval).
Definition cval_of (v : sval) : cval := match v with ST t => CText t | SL l => CList l end.
(* style[key] where a string is needed *)
Definition style_at (s : dict sval) (key : text) : result text :=
  match dget s key with None => Err KeyError | Some (ST t) => Ok t | Some (SL _) => Err TypeError end.
Definition inherited_style (shlex : text -> result (list text)) (chain : list snode) : result (dict sval) :=
  match chain with [] => Err AttributeError | n :: anc => get_inherited_style shlex (s_el n) (map s_el anc) end.

(** The two functions that lengths call: the font size and the computed style of
    the first element of a chain, its ancestors following, nearest first. *)
Definition calls : Type := (list snode -> result Q) * (list snode -> result (dict cval)).
Definition font_units : list text := [lit "em"; lit "%"; lit "ex"; lit "cap"; lit "ch"; lit "ic"].
(* core.py 1358-1416: what SVGLength.value() fetches from its context element
   for its unit; without an element see 1359, 1375, 1394-1395 *)
Definition fetch (k : calls) (chain : list snode) (u : option text) : result lctx :=
  match chain with
  | [] => Ok no_context
  | n :: anc =>
      let c := g_ctx (s_geo n) in
      do r <- (if uin u [lit "rem"] then fst k [last anc n] else Ok (root_size c));
      do p <- (if uin u font_units then match anc with [] => Ok 16 | _ => fst k anc end else Ok (parent_size c));
      do _ <- (if uin u metric_units then snd k chain else Ok []);
      Ok (mkC r p (cvw c) (cvh c) (diagonal c) (metric c) (metric_at c))
  end.
(* SVGLength(t, context=element).value(direction=d) *)
Definition length_at (k : calls) (chain : list snode) (d : option direction) (t : text) : result Q :=
  do x <- parse t; do c <- fetch k chain (snd x); value (mkL (fst x) (snd x) c c None) None d.
(* core.py 213-222: whether it is a percentage, then the number of percents or
   the value *)
Definition line_at (k : calls) (chain : list snode) (t : text) : result (bool * Q) :=
  do x <- parse t;
  if uin (snd x) [lit "%"] then Ok (true, fst x)
  else do c <- fetch k chain (snd x); do q <- value (mkL (fst x) (snd x) c c None) None None; Ok (false, q).
(* the ancestors as compute_font_size reads them *)
Fixpoint size_nodes (k : calls) (anc : list snode) : list fnode :=
  match anc with
  | [] => []
  | n :: r => mkF (dget (s_attr n) (lit "font-size")) (length_at k anc None) :: size_nodes k r
  end.
(* compute_font_size(element, inherited_style=s): core.py 88-142 *)
Definition size_from (k : calls) (chain : list snode) (s : dict sval) : result Q :=
  do t <- style_at s (lit "font-size");
  compute_font_size 16 (length_at k chain None) t (size_nodes k (tl chain)) None.
(* compute_font_size(element) *)
Definition font_size_with (shlex : text -> result (list text)) (k : calls) (chain : list snode) : result Q :=
  do s <- inherited_style shlex chain; size_from k chain s.
(* core.py 144-155 *)
Definition size_adjust (s : dict sval) : result cval :=
  do t <- style_at s (lit "font-size-adjust");
  if text_eqb t (lit "none") then Ok (CText t)
  else do x <- of_text t; do q <- value x None None; Ok (CNum q).
(* dom.py 1812-1818 *)
Definition synthesis (t : text) : list text :=
  let items := filter (fun x => mem x [lit "weight"; lit "style"; lit "none"]) (split_ws t) in
  if mem (lit "none") items && negb (Nat.eqb (length items) 1) then [lit "none"] else items.
(* 1832-1836 *)
Definition line_direction (writing_mode : text) : direction :=
  if mem writing_mode [lit "horizontal-tb"; lit "lr"; lit "lr-tb"; lit "rl"; lit "rl-tb"] then Horizontal else Vertical.
(* 1795-1861 *)
Definition computed_style_with (shlex : text -> result (list text)) (k : calls) (chain : list snode) : result (dict cval) :=
  do s <- inherited_style shlex chain;
  do features <- (do t <- style_at s (lit "font-feature-settings"); parse_font_feature_settings t);
  do size <- size_from k chain s;
  do adjust <- size_adjust s;
  do synth <- (do t <- style_at s (lit "font-synthesis"); Ok (synthesis t));
  do weight <- (do t <- style_at s (lit "font-weight");
                compute_font_weight t (map (fun n => dget (s_attr n) (lit "font-weight")) (tl chain)) None);
  do line <- (do t <- style_at s (lit "line-height"); compute_line_height (line_at k chain) t size);
  do inline <- (do t <- style_at s (lit "inline-size"); do m <- style_at s (lit "writing-mode");
                length_at k [] (Some (line_direction m)) t);
  do stroke <- (do t <- style_at s (lit "stroke-width"); length_at k chain (Some Unspecified) t);
  do tab <- (do t <- style_at s (lit "tab-size"); length_at k chain (Some Unspecified) t);
  do geo <- match map s_geo chain with [] => Err AttributeError | g :: l => computed_geometry g l end;
  let computed := [(lit "font-feature-settings", CFeat features); (lit "font-size", CNum size); (lit "font-size-adjust", adjust);
                   (lit "font-synthesis", CList synth); (lit "font-weight", CInt weight); (lit "line-height", CNum line);
                   (lit "inline-size", CNum inline); (lit "stroke-width", CNum stroke); (lit "tab-size", CNum tab)] in
  Ok (dupdate (dupdate (map (fun p => (fst p, cval_of (snd p))) s) computed) (map (fun p => (fst p, CGeo (snd p))) geo)).

(** The functions with a bound on nested calls *)
Fixpoint level (shlex : text -> result (list text)) (fuel : nat) : calls :=
  match fuel with
  | O => (fun _ => Err OtherError, fun _ => Err OtherError)
  | S f => let k := level shlex f in (font_size_with shlex k, computed_style_with shlex k)
  end.
Definition font_size (shlex : text -> result (list text)) (fuel : nat) (chain : list snode) : result Q := fst (level shlex fuel) chain.
Definition computed_style (shlex : text -> result (list text)) (fuel : nat) (chain : list snode) : result (dict cval) := snd (level shlex fuel) chain.
