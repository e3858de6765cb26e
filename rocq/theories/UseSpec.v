(** What containers and 'use' elements show, with the strokes of PathSpec and
    the plane maps of TransformSpec; nothing here runs get_path_data. *)
From Verif Require Import PyBase PyText MatrixModel MatrixSpec TransformModel TransformSpec PathModel PathSpec UseModel.
Local Open Scope Q_scope.

Definition name (n : node) : text := el_name (self n).
Definition own_outline (n : node) : Prop :=
  In (name n) [lit "circle"; lit "ellipse"; lit "line"; lit "path"; lit "polygon"; lit "polyline"; lit "rect";
    lit "text"; lit "textPath"; lit "tspan"].
Definition grouping (n : node) : Prop := name n = lit "g" \/ name n = lit "svg".
Definition never_shown (n : node) : Prop :=
  name n = lit "a" \/ name n = lit "defs" \/ name n = lit "pattern" \/ name n = lit "symbol".
Definition unfinished (n : node) : Prop := name n = lit "marker" \/ name n = lit "view".
Definition reusing (n : node) : Prop := name n = lit "use".
Definition graphical (n : node) : Prop :=
  own_outline n \/ grouping n \/ never_shown n \/ unfinished n \/ reusing n.

(** ** References *)
Fixpoint in_order (n : node) : list node :=
  match n with Node _ cs => n :: flat_map in_order cs end.
Definition has_id (i : text) (n : node) : Prop := el_id (self n) = Some i.
Definition first_with_id (root : node) (i : text) (t : node) : Prop :=
  exists before after, in_order root = before ++ t :: after /\ has_id i t /\
    Forall (fun m => ~ has_id i m) before.
(** where the element points to: 'href', or 'xlink:href' when that is missing
    or empty *)
Definition points_to (e : el) (url : text) : Prop :=
  (url <> [] /\ el_href e = Some url) \/
  ((el_href e = None \/ el_href e = Some []) /\ el_xhref e = Some url) \/
  ((el_href e = None \/ el_href e = Some []) /\ el_xhref e = None /\ url = []).
Definition refers (root : node) (e : el) (t : node) : Prop :=
  exists i, points_to e (35%N :: i) /\ first_with_id root i t.
(** a reference to an id nobody has *)
Definition dangling (root : node) (e : el) : Prop :=
  exists i, points_to e (35%N :: i) /\ Forall (fun m => ~ has_id i m) (in_order root).

(** ** Placement *)
Definition smap (f : pt -> pt) (d : stroke) : stroke :=
  match d with
  | Move p => Move (f p)
  | Line a b => Line (f a) (f b)
  | Close a b => Close (f a) (f b)
  | Cubic a c e b => Cubic (f a) (f c) (f e) (f b)
  | Quad a c b => Quad (f a) (f c) (f b)
  | Arc a rx ry rot fa fs b => Arc (f a) rx ry rot fa fs (f b)
  end.
(** first scaled, then moved by (x, y), then through the transforms *)
Definition placed (o : oracle) (tr : list transform) (x y sx sy : Q) (p : pt) : pt :=
  let v := g_list o tr (V4 (sx * ptx p + x) (sy * pty p + y) 0 1) in P (v1 v) (v2 v).
Definition transforms (e : el) (tr : list transform) : Prop :=
  match el_transform e with
  | None => tr = []
  | Some t => (t = lit "none" /\ tr = []) \/ (t <> lit "none" /\ parse_transforms t = Ok tr)
  end.
Definition fitted (t : node) (w h : Q) : Prop :=
  (name t = lit "svg" \/ name t = lit "symbol") /\ (0 < w \/ 0 < h).

(** ** What is shown, [own] giving the outline of a shape *)
Inductive shows (o : oracle) (own : node -> list seg -> Prop) (root : node) : node -> list stroke -> Prop :=
| shows_shape n l : own_outline n -> own n l -> shows o own root n (drawing o l)
| shows_never n : never_shown n -> shows o own root n []
| shows_group n ds : grouping n -> shows_all o own root (children n) ds -> shows o own root n ds
| shows_dangling n : reusing n -> name root = lit "svg" -> dangling root (self n) -> shows o own root n []
| shows_unset n : reusing n -> points_to (self n) [] -> shows o own root n []
| shows_foreign n t : reusing n -> name root = lit "svg" -> refers root (self n) t -> ~ graphical t ->
    shows o own root n []
| shows_use n t ds tr x y w h : reusing n -> name root = lit "svg" -> refers root (self n) t -> graphical t ->
    shows o own root t ds -> transforms (self n) tr -> el_geom (self n) = Ok (x, y, w, h) -> ~ fitted t w h ->
    shows o own root n (map (smap (placed o tr x y 1 1)) ds)
with shows_all (o : oracle) (own : node -> list seg -> Prop) (root : node) : list node -> list stroke -> Prop :=
| shows_nil : shows_all o own root [] []
| shows_skip c cs ds : ~ graphical c -> shows_all o own root cs ds -> shows_all o own root (c :: cs) ds
| shows_cons c cs d ds : graphical c -> shows o own root c d -> shows_all o own root cs ds ->
    shows_all o own root (c :: cs) (d ++ ds).

(** the outline of a shape for the given settings *)
Definition asked (o : oracle) (at2 : Q -> Q -> Q) (norm : bool) (n : node) (l : list seg) : Prop :=
  exists raw, el_own (self n) = Ok raw /\ if norm then normalize o at2 raw = Ok l else l = raw.

(** Path data that mean the same wherever they stand in a longer list: empty,
    or an absolute moveto first, not a moveto last, and no bearing, nor a
    coordinate PathParser.transform forgets (PathSpec.remembers). *)
Definition plain (g : seg) : bool :=
  match g with SB _ _ | SCNone _ _ | SInvalid => false | _ => true end.
Definition moving (g : seg) : bool := match g with SM _ _ => true | _ => false end.
Definition tidy (l : list seg) : Prop :=
  l = [] \/ exists p l' g, l = SM false p :: l' ++ [g] /\ moving g = false /\
    forallb plain (l' ++ [g]) = true /\ remembers true true (l' ++ [g]) = true.
(** an arc is only mapped right by a translation (C15) *)
Definition arcless (l : list seg) : Prop :=
  Forall (fun g => match g with SA _ _ _ _ _ _ _ => False | _ => True end) l.
Definition only_moves (n : node) : Prop := transforms (self n) [].

(** ** Which call waits for which *)
Inductive calls (root : node) : node -> node -> Prop :=
| calls_child n c : grouping n -> In c (children n) -> graphical c -> calls root n c
| calls_use n t : reusing n -> name root = lit "svg" -> refers root (self n) t -> graphical t -> calls root n t.
(** [n] cannot answer before [m] has *)
Inductive waits (o : oracle) (at2 : Q -> Q -> Q) (norm : bool) (root : node) : node -> node -> Prop :=
| waits_child n before c after : grouping n -> children n = before ++ c :: after -> graphical c ->
    (forall b, In b before -> graphical b -> exists f l, path_data f o at2 norm root b = Some (Ok l)) ->
    waits o at2 norm root n c
| waits_use n t : reusing n -> name root = lit "svg" -> refers root (self n) t -> graphical t ->
    waits o at2 norm root n t.
