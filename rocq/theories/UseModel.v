(** Model of the path data of containers and of the 'use' element
    (svgpy/base.py: SVGGraphicsElement; svgpy/element.py: SVGGElement,
    SVGSVGElement, SVGSymbolElement, SVGUseElement, SVGURIReference). *)
From Verif Require Import PyBase PyText MatrixModel RectModel TransformModel PathModel PathBBoxModel.
Local Open Scope Q_scope.

(** What path data depends on, of one element.
    [el_own]: the path data the element itself has before normalisation: of a
    basic shape or 'path' (element.py:208-240 and the like, ShapeModel), or of
    a text element (text.py:658-674; the glyph outlines are not modelled).  An
    error is what computing them raises.
    [el_geom]: x, y, width, height of get_computed_geometry (element.py:
    1051-1086; lengths are LengthModel's).
    [el_transform], [el_href], [el_xhref], [el_id]: the attributes. *)
Record el := mkEl { el_name : text; el_id : option text; el_transform : option text;
  el_href : option text; el_xhref : option text; el_geom : result (Q * Q * Q * Q);
  el_own : result (list seg) }.
(** A comment or processing instruction child is a node whose name is in no
    table. *)
Inductive node := Node (e : el) (cs : list node).
Definition self (n : node) : el := let '(Node e _) := n in e.
Definition children (n : node) : list node := let '(Node _ cs) := n in cs.

(** element.py:1141-1189: the class of an element by its name, as far as
    get_path_data is concerned.
    [COther]: not an SVGGraphicsElement; [CAbstract]: an SVGGraphicsElement
    that inherits base.py:468-479. *)
Inductive class := CShape | CGroup | CEmpty | CAbstract | CUse | COther.
Definition shape_names : list text :=
  [lit "circle"; lit "ellipse"; lit "line"; lit "path"; lit "polygon"; lit "polyline"; lit "rect";
   lit "text"; lit "textPath"; lit "tspan"].
Definition is_in (t : text) (l : list text) : bool := existsb (text_eqb t) l.
Definition class_of (name : text) : class :=
  if is_in name shape_names then CShape
  else if is_in name [lit "g"; lit "svg"] then CGroup
  else if is_in name [lit "a"; lit "defs"; lit "pattern"; lit "symbol"] then CEmpty
  else if is_in name [lit "marker"; lit "view"] then CAbstract
  else if text_eqb name (lit "use") then CUse
  else COther.
Definition class_of_node (n : node) : class := class_of (el_name (self n)).
(* isinstance(n, SVGGraphicsElement) *)
Definition graphics (n : node) : bool :=
  match class_of_node n with COther => false | _ => true end.

(* base.py:346-358 transform; None is the missing value *)
Definition transform_of (e : el) : result (option (list transform)) :=
  match el_transform e with
  | None => Ok None
  | Some t => if text_eqb t (lit "none") then Ok None
              else do l <- parse_transforms t; Ok (Some l)
  end.

(* base.py:782-788 href *)
Definition href (e : el) : text :=
  match el_href e with
  | Some (c :: t) => c :: t
  | _ => match el_xhref e with Some t => t | None => [] end
  end.

(* utils.py:72-86: descendant-or-self, the first in document order *)
Fixpoint find_id (i : text) (n : node) : option node :=
  match n with
  | Node e cs =>
      if match el_id e with Some j => text_eqb j i | None => false end then Some n
      else (fix go cs := match cs with
                         | [] => None
                         | c :: cs' => match find_id i c with Some r => Some r | None => go cs' end
                         end) cs
  end.

(* element.py:1039-1049 instance_root; [root] is getroottree().getroot().
   Only SVGSVGElement has get_element_by_id (element.py:890). *)
Definition instance_root (root : node) (e : el) : result (option node) :=
  match href e with
  | [] => Ok None
  | c :: i => if (c =? 35)%N
              then if text_eqb (el_name (self root)) (lit "svg") then Ok (find_id i root) else Err AttributeError
              else Err NotImplementedError_
  end.

(* element.py:1108-1129: the transforms of a 'use' for the target named
   [target] whose path data are [l] *)
Definition or_one (v : Q) : Q := if v =?q 0 then 1 else v.
Definition fit (o : oracle) (at2 : Q -> Q -> Q) (w h : Q) (l : list seg) : result (list transform) :=
  if (0 <?q w) || (0 <?q h) then
    do b <- path_bbox o at2 l;
    if rw b =?q 0 then Err ZeroDivisionError
    else if rh b =?q 0 then Err ZeroDivisionError
    else Ok [TScale (or_one (w / rw b)) (or_one (h / rh b))]
  else Ok [].
Definition use_transforms (o : oracle) (at2 : Q -> Q -> Q) (e : el) (target : text) (l : list seg)
  : result (list transform) :=
  do tr <- transform_of e;
  do g <- el_geom e;
  let '(x, y, w, h) := g in
  let shift := if negb (x =?q 0) || negb (y =?q 0) then [TTranslate x y] else [] in
  do f <- (if is_in target [lit "svg"; lit "symbol"] then fit o at2 w h l else Ok []);
  Ok (match tr with Some tr => tr | None => [] end ++ shift ++ f).
(* element.py:1130-1133 *)
Definition place_use (o : oracle) (at2 : Q -> Q -> Q) (e : el) (target : text) (l : list seg)
  : result (list seg) :=
  do tr <- use_transforms o at2 e target l;
  do m <- list_matrix o tr;
  match m with None => Ok l | Some m => path_transform o m l end.

(** A call that has not answered (None) has run out of [fuel]: Python would be
    that deep in calls.  Python's own limit on depth is not modelled. *)
Definition outcome := option (result (list seg)).
(* base.py:461-466 get_descendant_path_data *)
Fixpoint descendants (pd : node -> outcome) (cs : list node) (acc : list seg) : outcome :=
  match cs with
  | [] => Some (Ok acc)
  | c :: cs' =>
      if graphics c then
        match pd c with
        | None => None
        | Some (Err e) => Some (Err e)
        | Some (Ok l) => descendants pd cs' (acc ++ l)
        end
      else descendants pd cs' acc
  end.
(* get_path_data(settings): element.py:166, 254, 379-389, 554-565, 954-964,
   1002-1012, 1088-1133, the shapes' (for example 208-240: the normalisation at
   the end), base.py:468-479.  [norm] is settings.normalize, false also when
   settings is None. *)
Fixpoint path_data (fuel : nat) (o : oracle) (at2 : Q -> Q -> Q) (norm : bool) (root n : node) : outcome :=
  match fuel with
  | O => None
  | S f =>
      match class_of_node n with
      | COther => Some (Err AttributeError)
      | CAbstract => Some (Err NotImplementedError_)
      | CEmpty => Some (Ok [])
      | CShape => Some (do l <- el_own (self n); if norm then normalize o at2 l else Ok l)
      | CGroup => descendants (path_data f o at2 norm root) (children n) []
      | CUse =>
          match instance_root root (self n) with
          | Err e => Some (Err e)
          | Ok None => Some (Ok [])
          | Ok (Some t) =>
              if graphics t then
                match path_data f o at2 norm root t with
                | None => None
                | Some r => Some (do l <- r; place_use o at2 (self n) (el_name (self t)) l)
                end
              else Some (Ok [])
          end
      end
  end.

(* PathParser.transform with a matrix that is None (the list has no item): the
   first segment to be transformed raises AttributeError *)
Definition transforms_point (g : seg) : bool :=
  match kind g with None | Some KB | Some KZ => false | _ => true end.
Definition apply_list (o : oracle) (tr : list transform) (l : list seg) : result (list seg) :=
  do m <- list_matrix o tr;
  match m with
  | Some m => path_transform o m l
  | None => if existsb transforms_point l then Err AttributeError else path_transform o identity l
  end.
Definition apply_own (o : oracle) (e : el) (l : list seg) : result (list seg) :=
  do tr <- transform_of e;
  match tr with None => Ok l | Some tr => apply_list o tr l end.
(* base.py:492-505 get_transformed_path_data *)
Definition transformed (fuel : nat) (o : oracle) (at2 : Q -> Q -> Q) (norm : bool) (root n : node) : outcome :=
  match path_data fuel o at2 norm root n with
  | Some (Ok (g :: l)) =>
      Some (
        do l' <- (if text_eqb (el_name (self n)) (lit "use") then
                    do t <- instance_root root (self n);
                    match t with
                    | Some t => apply_own o (self t) (g :: l)
                    | None => Err AttributeError
                    end
                  else Ok (g :: l));
        apply_own o (self n) l')
  | r => r
  end.
(* base.py:443-447: get_bbox of a graphics element that is no container *)
Definition leaf_bbox (fuel : nat) (o : oracle) (at2 : Q -> Q -> Q) (root n : node) : option (result rect) :=
  match transformed fuel o at2 true root n with
  | None => None
  | Some (Err e) => Some (Err e)
  | Some (Ok []) => Some (Ok rect_unset)
  | Some (Ok l) => Some (path_bbox o at2 l)
  end.
