(** Words for the claims about computed geometry. *)
From Verif Require Import PyBase PyText PyDict FormatSpec LengthModel LengthSpec GeomModel.
#[local] Open Scope Q_scope.

(** A decimal numeral, then a unit or none, is a length of [q] pixels. *)
Definition word (c : lctx) (d : direction) (t : text) (q : Q) : Prop :=
  exists w u n s, t = w ++ match u with Some v => v | None => [] end /\ numeral w = Some n /\
    match u with Some v => In v svg_units | None => True end /\ sized c (Some d) u Length s /\ q == n * s.
Definition spaces (t : text) : Prop := forallb is_space t = true.
(** The same with white space around *)
Definition stands (c : lctx) (d : direction) (t : text) (q : Q) : Prop :=
  exists a w b, t = a ++ w ++ b /\ spaces a /\ spaces b /\ word c d w q.
(** A coordinate attribute: no attribute is 0. *)
Definition gives (n : gnode) (key : text) (d : direction) (q : Q) : Prop :=
  match dget (g_attr n) key with None => q == 0 | Some t => stands (g_ctx n) d t q end.
(** A radius attribute: None is auto. *)
Definition radius_of (n : gnode) (key : text) : option text :=
  match dget (g_attr n) key with
  | None => None
  | Some t => if text_eqb t (lit "auto") then None else Some t
  end.
(** The radii of an ellipse: an automatic one is the text of the other *)
Definition ellipse_radii_are (n : gnode) (rx ry : Q) : Prop :=
  let has := stands (g_ctx n) in
  match radius_of n (lit "rx"), radius_of n (lit "ry") with
  | None, None => rx == 0 /\ ry == 0
  | Some a, None => has Horizontal a rx /\ has Vertical a ry
  | None, Some b => has Horizontal b rx /\ has Vertical b ry
  | Some a, Some b => has Horizontal a rx /\ has Vertical b ry
  end.
(** The radii of a rectangle: an automatic one is the length of the other, and
    neither is more than half the side. *)
Definition rect_radii_are (n : gnode) (w h rx ry : Q) : Prop :=
  let has := stands (g_ctx n) in
  match radius_of n (lit "rx"), radius_of n (lit "ry") with
  | None, None => rx == 0 /\ ry == 0
  | Some a, None => exists q, has Horizontal a q /\ rx == Qmin q (w / 2) /\ ry == Qmin q (h / 2)
  | None, Some b => exists q, has Vertical b q /\ rx == Qmin q (w / 2) /\ ry == Qmin q (h / 2)
  | Some a, Some b => exists p q, has Horizontal a p /\ has Vertical b q /\ rx == Qmin p (w / 2) /\ ry == Qmin q (h / 2)
  end.
(** A width or height, read along the element and its ancestors: 'inherit'
    asks the parent; automatic is nothing, but for 'svg' all. *)
Inductive spans (key : text) (d : direction) : list gnode -> Q -> Prop :=
  | sp_end q : q == 0 -> spans key d [] q
  | sp_auto n l q : dget (g_attr n) key = None \/ dget (g_attr n) key = Some (lit "auto") ->
      g_name n <> lit "svg" -> g_name n <> lit "image" -> q == 0 -> spans key d (n :: l) q
  | sp_svg n l q : dget (g_attr n) key = None \/ dget (g_attr n) key = Some (lit "auto") ->
      g_name n = lit "svg" -> stands (g_ctx n) d (lit "100%") q -> spans key d (n :: l) q
  | sp_inherit n l q : dget (g_attr n) key = Some (lit "inherit") -> spans key d l q -> spans key d (n :: l) q
  | sp_length n l t q : dget (g_attr n) key = Some t -> stands (g_ctx n) d t q -> spans key d (n :: l) q.
(** The dictionary holds these numbers under these keys, in this order, and
    nothing else. *)
Definition holds (g : dict gval) (l : list (string * Q)) : Prop :=
  Forall2 (fun a b => fst a = lit (fst b) /\ exists v, snd a = GNum v /\ v == snd b) g l.
(** Commas with white space, or white space *)
Definition gap (s : text) : Prop :=
  exists a b, spaces a /\ spaces b /\ (s = a ++ [44%N] ++ b \/ s = a /\ a <> []).
(** Words with gaps between them *)
Inductive row (w : text -> Q -> Prop) : text -> list Q -> Prop :=
  | row_one t q : w t q -> row w t [q]
  | row_more t q s r l : w t q -> gap s -> row w r l -> row w (t ++ s ++ r) (q :: l).
Definition number (t : text) (q : Q) : Prop := exists v, numeral t = Some v /\ q == v.
(** An attribute that is a row *)
Definition rows (w : text -> Q -> Prop) (v : option text) (l : option (list Q)) : Prop :=
  match v, l with None, None => True | Some t, Some l => row w t l | _, _ => False end.
Definition same_list (v : gval) (l : option (list Q)) : Prop :=
  match v, l with GNone, None => True | GList a, Some b => Forall2 Qeq a b | _, _ => False end.
(** A text that does not begin with a number: no digit, sign or point after
    white space *)
Definition wordy (t : text) : Prop :=
  exists a c r, t = a ++ c :: r /\ spaces a /\ is_space c = false /\ is_digit c = false /\ ~ In c [43; 45; 46]%N.
(** The keys of the geometry of each element *)
Definition geometry_keys (name : text) : list string :=
  if text_eqb name (lit "circle") then ["cx"; "cy"; "r"]%string
  else if text_eqb name (lit "ellipse") then ["rx"; "ry"; "cx"; "cy"]%string
  else if text_eqb name (lit "line") then ["x1"; "y1"; "x2"; "y2"]%string
  else if text_eqb name (lit "path") then ["d"]%string
  else if text_eqb name (lit "polygon") || text_eqb name (lit "polyline") then ["points"]%string
  else if text_eqb name (lit "rect") then ["width"; "height"; "rx"; "ry"; "x"; "y"]%string
  else if text_eqb name (lit "svg") then ["x"; "y"; "width"; "height"]%string
  else if text_eqb name (lit "symbol") then ["x"; "y"; "width"; "height"; "refX"; "refY"]%string
  else if text_eqb name (lit "use") then ["x"; "y"; "width"; "height"]%string
  else if text_eqb name (lit "text") || text_eqb name (lit "tspan") || text_eqb name (lit "textPath")
       then ["x"; "y"; "dx"; "dy"; "rotate"]%string
  else [].
(** Two elements with the same attributes for those keys *)
Definition alike (keys : list string) (m n : gnode) : Prop :=
  g_name m = g_name n /\ g_ctx m = g_ctx n /\ g_view m = g_view n /\
  forall k, In k keys -> dget (g_attr m) (lit k) = dget (g_attr n) (lit k).
(** Words that an attribute may be instead of a length *)
Definition keywords (key : string) : list text :=
  if String.eqb key "rx" || String.eqb key "ry" then [lit "auto"]
  else if String.eqb key "width" || String.eqb key "height" then [lit "auto"; lit "inherit"] else [].
(** The elements whose geometry is lengths only *)
Definition measured : list text :=
  [lit "circle"; lit "ellipse"; lit "line"; lit "rect"; lit "use"; lit "text"; lit "tspan"; lit "textPath"].
(** A reference point: none, a keyword, or a length *)
Inductive ref_value : Type := RNone | RWord (t : text) | RLength (q : Q).
Definition refers (n : gnode) (key : text) (words : list text) (d : direction) (v : ref_value) : Prop :=
  match dget (g_attr n) key with
  | None => v = RNone
  | Some t => In t words /\ v = RWord t \/ ~ In t words /\ exists q, stands (g_ctx n) d t q /\ v = RLength q
  end.
Definition same_val (g : gval) (v : ref_value) : Prop :=
  match g, v with GNone, RNone => True | GText s, RWord t => s = t | GNum a, RLength b => a == b | _, _ => False end.
