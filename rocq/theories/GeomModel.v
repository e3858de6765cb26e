(** Computed geometry: get_computed_geometry of the shapes, of 'svg', 'symbol'
    and 'use' (svgpy/element.py 173-206, 275-330, 416-445, 511-524, 570-576,
    607-613, 648-740, 879-888, 977-1000, 1051-1084) and of text content
    elements (svgpy/text.py 525-606), and the path data made from it.

    Numbers are exact.  What a length reads from its context element is the
    record [lctx] of LengthModel. *)
From Verif Require Import PyBase PyText PySplit PyStrip PyDict NumScan CascadeModel LengthModel ViewModel PathModel ShapeModel.
#[local] Open Scope Q_scope.

(** An element as its geometry sees it: local name, attributes, what lengths
    read from it, and (for 'svg' and 'symbol') the result of get_viewport_size(),
    which is the subject of ViewModel. *)
Record gnode := mkG { g_name : text; g_attr : dict text; g_ctx : lctx;
                      g_view : result (slength * slength * slength * slength) }.
Inductive gval : Type := GNum (q : Q) | GNone | GList (l : list Q) | GText (t : text) | GPoints (l : list (Q * Q)).

(* SVGLength(t, context=n, direction=d).value() *)
Definition glen (n : gnode) (d : direction) (t : text) : result Q :=
  do x <- parse t; value (mkL (fst x) (snd x) (g_ctx n) (g_ctx n) (Some d)) None None.
(* self.get(key, default) *)
Definition gattr (n : gnode) (key default : text) : text :=
  match dget (g_attr n) key with Some v => v | None => default end.
Definition is_auto (t : text) : bool := text_eqb t (lit "auto").
(* SVGLength(self.get(key, '0'), context=self, direction=d).value() *)
Definition coordinate (n : gnode) (key : text) (d : direction) : result Q := glen n d (gattr n key (lit "0")).
(* 655-671: CSSUtils.get_value(self, key, 'auto') and the length in the context
   it gives; SVGLength(None) is 0 *)
Definition extent (n : gnode) (ancestors : list gnode) (key : text) (d : direction) : result Q :=
  do (v, i) <- get_value (map (fun e => (g_name e, g_attr e)) (n :: ancestors)) key (Some (lit "auto"));
  match v with None => Ok 0 | Some t => glen (nth i (n :: ancestors) n) d t end.

(* 173-206 *)
Definition circle_geometry (n : gnode) : result (dict gval) :=
  do cx <- coordinate n (lit "cx") Horizontal; do cy <- coordinate n (lit "cy") Vertical;
  do r <- coordinate n (lit "r") Unspecified;
  Ok [(lit "cx", GNum cx); (lit "cy", GNum cy); (lit "r", GNum r)].
(* 275-330 *)
Definition ellipse_geometry (n : gnode) : result (dict gval) :=
  let rx0 := gattr n (lit "rx") (lit "auto") in
  let ry0 := gattr n (lit "ry") (lit "auto") in
  let '(rx1, ry1) := if negb (is_auto rx0) && is_auto ry0 then (rx0, rx0)
                     else if is_auto rx0 && negb (is_auto ry0) then (ry0, ry0) else (rx0, ry0) in
  do (rx, ry) <- (if is_auto rx1 && is_auto ry1 then Ok (0, 0)
                  else do a <- glen n Horizontal rx1; do b <- glen n Vertical ry1; Ok (a, b));
  do cx <- coordinate n (lit "cx") Horizontal; do cy <- coordinate n (lit "cy") Vertical;
  Ok [(lit "rx", GNum rx); (lit "ry", GNum ry); (lit "cx", GNum cx); (lit "cy", GNum cy)].
(* 416-445 *)
Definition line_geometry (n : gnode) : result (dict gval) :=
  do x1 <- coordinate n (lit "x1") Horizontal; do y1 <- coordinate n (lit "y1") Vertical;
  do x2 <- coordinate n (lit "x2") Horizontal; do y2 <- coordinate n (lit "y2") Vertical;
  Ok [(lit "x1", GNum x1); (lit "y1", GNum y1); (lit "x2", GNum x2); (lit "y2", GNum y2)].
(* 511-524 *)
Definition path_geometry (n : gnode) : dict gval :=
  let d := gattr n (lit "d") (lit "none") in
  [(lit "d", if text_eqb d (lit "none") || match d with [] => true | _ => false end then GNone else GText d)].
(* 570-576, 607-613; base.py 94-119 *)
Definition points_geometry (n : gnode) : dict gval :=
  [(lit "points", GPoints match dget (g_attr n) (lit "points") with None => [] | Some t => get_points t end)].
(* 684-716 *)
Definition rect_rx_ry (n : gnode) (width height : Q) : result (Q * Q) :=
  let rx0 := gattr n (lit "rx") (lit "auto") in
  let ry0 := gattr n (lit "ry") (lit "auto") in
  if is_auto rx0 && is_auto ry0 then Ok (0, 0) else
  do a <- (if is_auto rx0 then Ok 0 else glen n Horizontal rx0);
  do b <- (if is_auto ry0 then Ok 0 else glen n Vertical ry0);
  let '(a, b) := if negb (is_auto rx0) && is_auto ry0 then (a, a)
                 else if is_auto rx0 && negb (is_auto ry0) then (b, b) else (a, b) in
  Ok (if width / 2 <?q a then width / 2 else a, if height / 2 <?q b then height / 2 else b).
(* 648-740 *)
Definition rect_geometry (n : gnode) (ancestors : list gnode) : result (dict gval) :=
  do width <- extent n ancestors (lit "width") Horizontal;
  do height <- extent n ancestors (lit "height") Vertical;
  do (rx, ry) <- rect_rx_ry n width height;
  do x <- coordinate n (lit "x") Horizontal; do y <- coordinate n (lit "y") Vertical;
  Ok [(lit "width", GNum width); (lit "height", GNum height); (lit "rx", GNum rx); (lit "ry", GNum ry);
      (lit "x", GNum x); (lit "y", GNum y)].
(* 879-888 *)
Definition view_geometry (n : gnode) : result (dict gval) :=
  do (v, h) <- g_view n; let '(x, y, w) := v in
  do x <- value x None None; do y <- value y None None; do w <- value w None None; do h <- value h None None;
  Ok [(lit "x", GNum x); (lit "y", GNum y); (lit "width", GNum w); (lit "height", GNum h)].
(* 986-998 *)
Definition reference (n : gnode) (key : text) (words : list text) (d : direction) : result gval :=
  match dget (g_attr n) key with
  | None => Ok GNone
  | Some t => if mem t words then Ok (GText t) else do q <- glen n d t; Ok (GNum q)
  end.
(* 977-1000 *)
Definition symbol_geometry (n : gnode) : result (dict gval) :=
  do g <- view_geometry n;
  do rx <- reference n (lit "refX") [lit "left"; lit "center"; lit "right"] Horizontal;
  do ry <- reference n (lit "refY") [lit "top"; lit "center"; lit "bottom"] Vertical;
  Ok (g ++ [(lit "refX", rx); (lit "refY", ry)]).
(* 1051-1084 *)
Definition use_geometry (n : gnode) (ancestors : list gnode) : result (dict gval) :=
  do x <- coordinate n (lit "x") Horizontal; do y <- coordinate n (lit "y") Vertical;
  do width <- extent n ancestors (lit "width") Horizontal;
  do height <- extent n ancestors (lit "height") Vertical;
  Ok [(lit "x", GNum x); (lit "y", GNum y); (lit "width", GNum width); (lit "height", GNum height)].
(* float(text) for ASCII decimals; 'inf', 'nan' and '_' between digits are left out *)
Definition py_float (t : text) : result Q :=
  match scan_number (strip t) with Some (q, []) => Ok q | _ => Err ValueError end.
(* a list comprehension whose expression may raise *)
Fixpoint map_result (f : text -> result Q) (l : list text) : result (list Q) :=
  match l with [] => Ok [] | t :: l' => do q <- f t; do r <- map_result f l'; Ok (q :: r) end.
(* [f(t) for t in RE_DIGIT_SEQUENCE_SPLITTER.split(v)], None without the attribute *)
Definition listed (f : text -> result Q) (v : option text) : result gval :=
  match v with None => Ok GNone | Some t => do l <- map_result f (split_sequence t); Ok (GList l) end.
(* text.py 525-606 *)
Definition text_geometry (n : gnode) : result (dict gval) :=
  let default := if text_eqb (g_name n) (lit "text") then Some (lit "0") else None in
  let get key := match dget (g_attr n) key with Some v => Some v | None => default end in
  do x <- listed (glen n Horizontal) (get (lit "x")); do y <- listed (glen n Vertical) (get (lit "y"));
  do dx <- listed (glen n Horizontal) (dget (g_attr n) (lit "dx"));
  do dy <- listed (glen n Vertical) (dget (g_attr n) (lit "dy"));
  do rotate <- listed py_float (dget (g_attr n) (lit "rotate"));
  Ok [(lit "x", x); (lit "y", y); (lit "dx", dx); (lit "dy", dy); (lit "rotate", rotate)].

(* the method that the class of the element has (1141-1201); dom.py 1792-1793 *)
Definition computed_geometry (n : gnode) (ancestors : list gnode) : result (dict gval) :=
  let is k := text_eqb (g_name n) k in
  if is (lit "circle") then circle_geometry n
  else if is (lit "ellipse") then ellipse_geometry n
  else if is (lit "line") then line_geometry n
  else if is (lit "path") then Ok (path_geometry n)
  else if is (lit "polygon") || is (lit "polyline") then Ok (points_geometry n)
  else if is (lit "rect") then rect_geometry n ancestors
  else if is (lit "svg") then view_geometry n
  else if is (lit "symbol") then symbol_geometry n
  else if is (lit "use") then use_geometry n ancestors
  else if is (lit "text") || is (lit "tspan") || is (lit "textPath") then text_geometry n
  else Ok [].

(* geometry[key] as a number *)
Definition gnum (g : dict gval) (key : text) : result Q :=
  match dget g key with Some (GNum q) => Ok q | Some _ => Err TypeError | None => Err KeyError end.
(* get_path_data without settings: 218-232, 342-356, 457-469, 588-601, 625-637,
   752-787; that of 'path' is in PathModel *)
Definition element_path (n : gnode) (ancestors : list gnode) : result (list seg) :=
  let is k := text_eqb (g_name n) k in
  do g <- computed_geometry n ancestors;
  if is (lit "circle") then
    do r <- gnum g (lit "r"); do cx <- gnum g (lit "cx"); do cy <- gnum g (lit "cy"); Ok (circle_path cx cy r)
  else if is (lit "ellipse") then
    do rx <- gnum g (lit "rx"); do ry <- gnum g (lit "ry"); do cx <- gnum g (lit "cx"); do cy <- gnum g (lit "cy");
    Ok (ellipse_path cx cy rx ry)
  else if is (lit "line") then
    do x1 <- gnum g (lit "x1"); do y1 <- gnum g (lit "y1"); do x2 <- gnum g (lit "x2"); do y2 <- gnum g (lit "y2");
    Ok (line_path x1 y1 x2 y2)
  else if is (lit "rect") then
    do w <- gnum g (lit "width"); do h <- gnum g (lit "height"); do rx <- gnum g (lit "rx"); do ry <- gnum g (lit "ry");
    do x <- gnum g (lit "x"); do y <- gnum g (lit "y"); Ok (rect_path x y w h rx ry)
  else if is (lit "polygon") || is (lit "polyline") then
    match dget g (lit "points") with
    | Some (GPoints l) => let l := map (fun p => P (fst p) (snd p)) l in
                          Ok (if is (lit "polygon") then polygon_path l else polyline_path l)
    | _ => Err KeyError
    end
  else Err NotImplementedError_.
