(** Model of the current transformation matrix and of the bounding box of a
    graphics element (svgpy/base.py: SVGElement and SVGGraphicsElement). *)
From Verif Require Import PyBase PyText MatrixModel RectModel TransformModel.
Local Open Scope Q_scope.

(** What the two methods read of an element: its local name, the value of its
    transform property (base.py:347-360: None when the attribute is missing or
    'none', else the parsed list; parsing is TransformModel.parse), the matrix
    get_viewport_transformation_matrix(recursive=False) gives for it
    (base.py:507-566, ViewModel.viewport_matrix; an error it raises is not
    modelled) and the current scale and translation (element.py:848-877; the
    property of the outermost 'svg' is the stored pair). *)
Record element := mkElem { e_name : text; e_transform : option (list transform);
  e_vtm : dmat; e_scale : Q; e_tx : Q; e_ty : Q }.

(* dom.py:1365-1368 GRAPHICS_ELEMENTS *)
Definition graphics_names : list text :=
  [lit "audio"; lit "canvas"; lit "circle"; lit "ellipse"; lit "foreignObject"; lit "iframe"; lit "image"; lit "line";
    lit "mesh"; lit "path"; lit "polygon"; lit "polyline"; lit "rect"; lit "text"; lit "textPath"; lit "tspan"; lit "video"].
(* dom.py:1388-1390 TRANSFORMABLE_ELEMENTS *)
Definition transformable_names : list text :=
  [lit "a"; lit "defs"; lit "foreignObject"; lit "g"; lit "svg"; lit "switch"; lit "use"] ++ graphics_names.
Definition name_in (n : text) (l : list text) : bool := existsb (text_eqb n) l.
(* dom.py:2191-2193 istransformable; an HTML element ('audio', 'video', ...)
   among the ancestors, which has no transform property, is not modelled *)
Definition transformable (e : element) : bool := name_in (e_name e) transformable_names.
Definition is_svg (e : element) : bool := text_eqb (e_name e) (lit "svg").
(* the test local_name in ('svg', 'symbol') *)
Definition is_viewport (e : element) : bool := name_in (e_name e) [lit "svg"; lit "symbol"].

(** An element is given with its ancestors: [self :: parent :: ...], so
    getparent is the tail.  Two elements of one chain are the same element when
    their chains have the same length. *)
Definition chain := list element.

(* base.py:167-179 get_farthest_svg_element *)
Fixpoint farthest_svg (c : chain) (root : option chain) : option chain :=
  match c with
  | [] => root
  | e :: up => farthest_svg up (if is_svg e then Some c else root)
  end.
(* base.py:198-204 get_nearest_viewport_element *)
Fixpoint nearest_viewport (c : chain) : option chain :=
  match c with
  | [] => None
  | e :: up => if is_viewport e then Some c else nearest_viewport up
  end.

Inductive viewport_type := NEAREST | FARTHEST.

(* base.py:379-390 the loop gathering the viewport elements; [nearest] and
   [self_vp] are the two tests.  "root in roots" never holds: every round
   starts above the last root.  [fuel] is the length of the chain. *)
Fixpoint climb (fuel : nat) (nearest self_vp : bool) (c : chain) (roots : list element)
  : list element :=
  match fuel with
  | O => roots
  | S f =>
      match nearest_viewport c with
      | None => roots
      | Some [] => roots
      | Some (root :: up) =>
          let roots := root :: roots in
          if nearest && (negb self_vp || (2 <=? length roots)%nat) then roots
          else climb f nearest self_vp up roots
      end
  end.

(* base.py:401-410 the transforms from the element up to the nearest viewport
   element, that one included *)
Fixpoint gather (c : chain) (acc : list transform) : list transform :=
  match c with
  | [] => acc
  | e :: up =>
      let acc := if transformable e then
                   match e_transform e with Some l => l ++ acc | None => acc end
                 else acc in
      if is_viewport e then acc else gather up acc
  end.

(* base.py:397-399 *)
Definition times_vtms (m : dmat) (roots : list element) : dmat :=
  fold_left (fun m r => multiply_self m (e_vtm r)) roots m.

(* base.py:365-414 _get_ctm *)
Definition get_ctm_of (o : oracle) (vt : viewport_type) (c : chain) : result dmat :=
  match c with
  | [] => Ok identity
  | self :: _ =>
      match farthest_svg c None with
      | None | Some [] => Ok identity
      | Some (far :: above) =>
          let roots := if (S (length above) =? length c)%nat then [far]
                       else climb (length c)
                              (match vt with NEAREST => true | FARTHEST => false end)
                              (is_viewport self) c [] in
          match roots with
          | [] => Ok identity
          | _ =>
              let ctm := match vt with
                         | FARTHEST => multiply_self identity
                             (DM (matrix2d (e_scale far) 0 0 (e_scale far) (e_tx far) (e_ty far)) true)
                         | NEAREST => identity
                         end in
              let ctm := times_vtms ctm roots in
              do m <- list_matrix o (gather c []);
              match m with
              | None => Ok ctm
              | Some m => Ok (multiply_self ctm m)
              end
          end
      end
  end.
(* base.py:450-459 get_ctm *)
Definition get_ctm (o : oracle) (c : chain) : result dmat := get_ctm_of o NEAREST c.
(* base.py:481-490 get_screen_ctm *)
Definition get_screen_ctm (o : oracle) (c : chain) : result dmat := get_ctm_of o FARTHEST c.

(** ** Bounding box of a subtree *)
(** [GOther]: a child that is not an SVGGraphicsElement (text, title, style).
    [GLeaf d b]: a graphics element that is no container, with its display
    attribute and the box of its transformed normalised path data, unset when
    it has no path data (base.py:443-447, PathBBoxModel).
    [GBox n d t cs]: a container with its local name, display attribute,
    transform property and children. *)
Inductive gnode :=
| GOther
| GLeaf (display : option text) (box : rect)
| GBox (name : text) (display : option text) (tr : option (list transform)) (children : list gnode).

Definition g_display (n : gnode) : option text :=
  match n with GOther => None | GLeaf d _ => d | GBox _ d _ _ => d end.
Definition hidden (n : gnode) : bool :=
  match g_display n with Some d => text_eqb d (lit "none") | None => false end.
(* the six numbers of a matrix that transform_point uses on (x, y) *)
Definition affine_of (m : dmat) : affine :=
  mkAff (m11 (arr m)) (m12 (arr m)) (m21 (arr m)) (m22 (arr m)) (m41 (arr m)) (m42 (arr m)).

(* base.py:437-441: the matrix of an empty list is None, and
   DOMRect.transform_self(None) is an AttributeError unless the box is unset
   (rect.py:527-535) *)
Definition apply_own (o : oracle) (tr : option (list transform)) (b : rect) : result rect :=
  match tr with
  | None => Ok b
  | Some l =>
      do m <- list_matrix o l;
      match m with
      | None => if isvalid b then Err AttributeError else Ok b
      | Some m => Ok (transform_self b (affine_of m))
      end
  end.

(* base.py:416-448 get_bbox; [nested] is _depth > 1 after the increment.
   Symbol and defs give an unset box. *)
Fixpoint get_bbox (o : oracle) (nested : bool) (n : gnode) : result rect :=
  match n with
  | GOther => Ok rect_unset
  | GLeaf _ b => Ok b
  | GBox name _ tr cs =>
      if name_in name [lit "defs"; lit "symbol"] then Ok rect_unset else
      let fix go (acc : rect) (cs : list gnode) : result rect :=
        match cs with
        | [] => Ok acc
        | c :: cs' =>
            match c with
            | GOther => go acc cs'
            | _ => if hidden c then go acc cs'
                   else do b <- get_bbox o true c; go (unite acc b) cs'
            end
        end in
      do b <- go rect_unset cs;
      if nested then apply_own o tr b else Ok b
  end.
