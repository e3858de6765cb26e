(** Specification vocabulary for the current transformation matrix and the
    bounding box: where a point of an element's coordinate system lands, told
    element by element, without any matrix product. *)
From Verif Require Import PyBase PyText MatrixModel MatrixSpec RectModel RectSpec
  TransformModel TransformSpec CtmModel.
Local Open Scope Q_scope.

(** The elements that take a transform and those that open a viewport. *)
Definition takes_transform (n : text) : Prop :=
  In n [lit "a"; lit "audio"; lit "canvas"; lit "circle"; lit "defs"; lit "ellipse";
        lit "foreignObject"; lit "g"; lit "iframe"; lit "image"; lit "line"; lit "mesh"; lit "path";
        lit "polygon"; lit "polyline"; lit "rect"; lit "svg"; lit "switch"; lit "text";
        lit "textPath"; lit "tspan"; lit "use"; lit "video"].
Definition opens_viewport (n : text) : Prop := n = lit "svg" \/ n = lit "symbol".
Definition viewport (e : element) : Prop := opens_viewport (e_name e).
Definition inner (e : element) : Prop := ~ viewport e.

(** [own o e p q]: the element's transform takes [p] to [q]. *)
Definition own (o : oracle) (e : element) (p q : vec4) : Prop :=
  (exists l, takes_transform (e_name e) /\ e_transform e = Some l /\ veq q (g_list o l p)) \/
  (~ takes_transform (e_name e) \/ e_transform e = None) /\ veq q p.
(** The element's transform does nothing. *)
Definition still (e : element) : Prop := ~ takes_transform (e_name e) \/ e_transform e = None.
(** [fits e p q]: the viewport mapping of the element takes [p] to [q]. *)
Definition fits (e : element) (p q : vec4) : Prop :=
  viewport e /\ veq q (act (arr (e_vtm e)) p) \/ inner e /\ veq q p.

(** Where SVG puts a point of the coordinate system inside the first element:
    for each element outwards, its viewport mapping, then its transform. *)
Inductive placed (o : oracle) : chain -> vec4 -> vec4 -> Prop :=
| placed_top p q : veq q p -> placed o [] p q
| placed_up e up p q r s : fits e p q -> own o e q r -> placed o up r s -> placed o (e :: up) p s.

(** The transforms only, from the first element to the last of the list. *)
Inductive moved (o : oracle) : chain -> vec4 -> vec4 -> Prop :=
| moved_top p q : veq q p -> moved o [] p q
| moved_up e up p q r : own o e p q -> moved o up q r -> moved o (e :: up) p r.
(** The viewport mappings only. *)
Inductive fitted : chain -> vec4 -> vec4 -> Prop :=
| fitted_top p q : veq q p -> fitted [] p q
| fitted_up e up p q r : fits e p q -> fitted up q r -> fitted (e :: up) p r.

(** The zoom and pan of the outermost 'svg'. *)
Definition zoomed (e : element) (p q : vec4) : Prop :=
  veq q (V4 (e_scale e * v1 p + e_tx e * v4 p) (e_scale e * v2 p + e_ty e * v4 p) (v3 p) (v4 p)).

(** [far] is the outermost 'svg' and nothing outside it opens a viewport. *)
Definition rooted (c : chain) (far : element) : Prop :=
  exists a b, c = a ++ far :: b /\ e_name far = lit "svg" /\ Forall inner b.
(** Only known transform functions. *)
Definition known_transforms (c : chain) : Prop :=
  forall e l, In e c -> e_transform e = Some l -> forallb known l = true.

(** ** Bounding boxes *)
(** [moves o tr x y x' y']: the transform property takes the point to the other. *)
Definition moves (o : oracle) (tr : option (list transform)) (x y x' y' : Q) : Prop :=
  match tr with
  | None => x' == x /\ y' == y
  | Some l => let q := g_list o l (V4 x y 0 1) in x' == v1 q /\ y' == v2 q
  end.
Definition drawn_name (n : text) : Prop := n <> lit "defs" /\ n <> lit "symbol".
Definition displayed (n : gnode) : Prop := g_display n <> Some (lit "none").

(** The points covered by the boxes of the leaves drawn below a node, in the
    coordinates of the node's parent ([paints]) or of the node itself
    ([paints_in]). *)
Inductive paints (o : oracle) : gnode -> Q -> Q -> Prop :=
| paints_leaf d b x y : region b x y -> paints o (GLeaf d b) x y
| paints_box n d tr cs c x y x' y' : drawn_name n -> In c cs -> displayed c -> paints o c x y ->
    moves o tr x y x' y' -> paints o (GBox n d tr cs) x' y'.
Definition paints_in (o : oracle) (n : gnode) (x y : Q) : Prop :=
  match n with
  | GBox nm _ _ cs => drawn_name nm /\ exists c, In c cs /\ displayed c /\ paints o c x y
  | _ => paints o n x y
  end.

(** A box that is unset or has both sizes positive. *)
Definition solid (b : rect) : Prop :=
  (rx b = None /\ ry b = None /\ rw b == 0 /\ rh b == 0) \/ isvalid b = true.
(** The linear part of a transform list. *)
Definition coef (o : oracle) (l : list transform) : Q * Q * Q * Q :=
  let px := g_list o l (V4 1 0 0 0) in
  let py := g_list o l (V4 0 1 0 0) in
  (v1 px, v2 px, v1 py, v2 py).
(** A transform for which transform_self is right: not empty, no unknown
    function, no axis collapsed, and not two negative numbers in a row. *)
Definition tame (o : oracle) (l : list transform) : Prop :=
  l <> [] /\ forallb known l = true /\
  let '(a, b, c, d) := coef o l in
  ~ (a < 0 /\ c < 0) /\ ~ (b < 0 /\ d < 0) /\ ~ (a == 0 /\ c == 0) /\ ~ (b == 0 /\ d == 0).
(** Scalings and translations. *)
Definition upright (o : oracle) (l : list transform) : Prop :=
  l <> [] /\ forallb known l = true /\
  let '(a, b, c, d) := coef o l in b == 0 /\ c == 0 /\ ~ a == 0 /\ ~ d == 0.

(** [every P Q n]: [P] holds of each leaf box and [Q] of each transform list
    below the node. *)
Fixpoint every (P : rect -> Prop) (R : list transform -> Prop) (n : gnode) : Prop :=
  match n with
  | GOther => True
  | GLeaf _ b => P b
  | GBox _ _ tr cs =>
      match tr with Some l => R l | None => True end /\
      (fix go cs := match cs with [] => True | c :: cs' => every P R c /\ go cs' end) cs
  end.
