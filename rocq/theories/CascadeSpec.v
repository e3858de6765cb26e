(** What the flattened rules, the cascade and inheritance should be. *)
From Verif Require Import PyBase PyText PySplit PyDict UtilsModel FontTextModel CascadeModel.
#[local] Open Scope N_scope.

(** Properties that are not inherited, with their initial values (SVG 1.1 and
    SVG 2; 'mask' is 'no' in the code). *)
Definition standing : list (text * text) :=
  [(lit "alignment-baseline", lit "baseline"); (lit "baseline-shift", lit "0"); (lit "clip", lit "auto"); (lit "clip-path", lit "none");
   (lit "dominant-baseline", lit "auto"); (lit "filter", lit "none"); (lit "flood-color", lit "black"); (lit "flood-opacity", lit "1");
   (lit "inline-size", lit "0"); (lit "lighting-color", lit "white"); (lit "mask", lit "no"); (lit "opacity", lit "1"); (lit "overflow", lit "visible");
   (lit "stop-color", lit "black"); (lit "stop-opacity", lit "1"); (lit "text-decoration", lit "none"); (lit "transform", lit "none");
   (lit "unicode-bidi", lit "normal"); (lit "vector-effect", lit "none")].

(** ** Rules: every rule that is not a group, with the media conditions around it *)
Fixpoint leaves (conditions : list text) (r : rule) : list (list text * rule) :=
  match r with
  | RImport m rs => flat_map (leaves (m :: conditions)) rs
  | RMedia m rs => flat_map (leaves (m :: conditions)) rs
  | _ => [(conditions, r)]
  end.
Definition holds (win : option (text -> bool)) (m : text) : Prop := m = [] \/ m = lit "all" \/ exists f, win = Some f /\ f m = true.
(* the elements of l satisfying P, in order *)
Inductive kept {A} (P : A -> Prop) : list A -> list A -> Prop :=
| kept_nil : kept P [] []
| kept_yes x l k : P x -> kept P l k -> kept P (x :: l) (x :: k)
| kept_no x l k : ~ P x -> kept P l k -> kept P (x :: l) k.
Definition is_group (r : rule) : Prop := match r with RImport _ _ | RMedia _ _ => True | _ => False end.

(* a style sheet link: not an alternative, a real target, used now (or preloaded as a style) *)
Definition sheet_link (rel : list text) (as_ : text) (href : text) : Prop :=
  ~ In (lit "alternate") rel /\ (In (lit "stylesheet") rel \/ In (lit "preload") rel) /\
  (In (lit "preload") rel -> as_ = lit "style") /\ (forall r, href <> lit "#" ++ r).

(** ** The cascade *)
Definition prefix_of (p : text) : text := match p with [] => lit "svg" | _ => p end.
(* the declarations of all matching rules, in order *)
Fixpoint declared (matches : dict text -> text -> option bool) (ns : dict text) (rs : list rule) : list (text * (text * text)) :=
  match rs with
  | [] => []
  | RStyle sel ds :: rs => (match matches ns sel with Some true => ds | _ => [] end) ++ declared matches ns rs
  | RNamespace p u :: rs => declared matches (match u with [] => ns | _ => dset ns (prefix_of p) u end) rs
  | _ :: rs => declared matches ns rs
  end.
(* v is the value of the last declaration of k satisfying P *)
Definition last_value (P : text -> Prop) (ds : list (text * (text * text))) (k v : text) : Prop :=
  exists a p b, ds = a ++ (k, (v, p)) :: b /\ P p /\ forall v' p', In (k, (v', p')) b -> ~ P p'.

(** ** Inheritance *)
(* the value an element specifies: important rules, the style attribute, the
   attribute, then the other rules *)
Definition style_text (e : el) : option text :=
  match dget (e_attr e) (lit "style") with Some t => Some t | None => dget (e_rules e) (lit "style") end.
Definition or_else {A} (a b : option A) : option A := match a with Some x => Some x | None => b end.
Definition specified (e : el) (k : text) : option text :=
  or_else (dget (e_important e) k)
  (or_else (match style_text e with Some t => dget (style_to_dict (Some t)) k | None => None end)
  (or_else (dget (e_attr e) k) (dget (e_rules e) k))).
(* 'inherit' asks for the ancestors *)
Definition wanted (k : text) (e : el) : option text :=
  match specified e k with Some v => if text_eqb v (lit "inherit") then None else Some v | None => None end.
(* the nearest element with an answer *)
Fixpoint nearest {A} (f : el -> option A) (chain : list el) : option A :=
  match chain with [] => None | e :: c => or_else (f e) (nearest f c) end.
(* the properties that no shorthand touches, with their initial values *)
Definition plain_props : list (text * option text) :=
  let T k v := (lit k, Some (lit v)) in
  [T "clip-rule" "nonzero"; T "color" "black"; T "color-interpolation" "sRGB"; T "color-rendering" "auto"; T "cursor" "auto";
   T "direction" "ltr"; T "fill" "black"; T "fill-opacity" "1"; T "fill-rule" "nonzero"; T "font-feature-settings" "normal";
   T "font-synthesis" "weight style"; T "image-rendering" "auto"; (lit "lang", None); T "letter-spacing" "normal";
   T "marker-end" "none"; T "marker-mid" "none"; T "marker-start" "none"; T "paint-order" "normal"; T "pointer-events" "visiblePainted";
   T "shape-rendering" "auto"; T "stroke" "none"; T "stroke-dasharray" "none"; T "stroke-dashoffset" "0"; T "stroke-linecap" "butt";
   T "stroke-linejoin" "miter"; T "stroke-miterlimit" "4"; T "stroke-opacity" "1"; T "stroke-width" "1"; T "tab-size" "8";
   T "text-anchor" "start"; T "text-orientation" "mixed"; T "text-rendering" "auto"; T "visibility" "visible"; T "white-space" "normal";
   T "word-spacing" "normal"; T "writing-mode" "horizontal-tb"; (lit "{http://www.w3.org/XML/1998/namespace}lang", None)]%string.
(* the longhands of 'font' *)
Definition font_props : list (text * text) :=
  let T k v := (lit k, lit v) in
  [T "font-style" "normal"; T "font-variant" "normal"; T "font-weight" "normal"; T "font-stretch" "normal"; T "font-size" "medium";
   T "line-height" "normal"; T "font-size-adjust" "none"; T "font-kerning" "auto"; T "font-language-override" "normal"]%string.
Definition variant_props : list text := map lit ["font-variant-alternates"; "font-variant-caps"; "font-variant-east-asian"; "font-variant-ligatures";
  "font-variant-numeric"; "font-variant-position"]%string.
Definition variant_lists : list text := map lit ["font-variant-alternates"; "font-variant-east-asian"; "font-variant-ligatures"; "font-variant-numeric"]%string.
Definition variant_value (k v : text) : sval := if mem k variant_lists then SL (split_ws v) else ST v.
(* an element as lxml and the cascade give it *)
Definition el_ok (e : el) : Prop := dict_ok (e_attr e) /\ dict_ok (e_important e) /\ dict_ok (e_rules e).

(* what the element's 'font' says, when it has one that can be read *)
Definition font_of (shlex : text -> result (list text)) (e : el) : option (dict sval) :=
  match wanted (lit "font") e with
  | Some v => match parse_font shlex v with Ok o => Some o | Err _ => None end
  | None => None
  end.
(* an element with a 'font' settles every longhand of it, possibly without a value *)
Definition longhand_at (shlex : text -> result (list text)) (k : text) (e : el) : option (option sval) :=
  match font_of shlex e with
  | Some o => Some (or_else (option_map ST (wanted k e)) (dget o k))
  | None => option_map (fun v => Some (ST v)) (wanted k e)
  end.
Definition family_at (shlex : text -> result (list text)) (e : el) : option (option sval) :=
  match font_of shlex e with
  | Some o => Some (dget o (lit "font-family"))
  | None => match wanted (lit "font-family") e with
            | Some v => match parse_font_family shlex v with Ok f => Some (Some (SL f)) | Err _ => None end
            | None => None
            end
  end.
(* the font-variant in force on an element: the one of 'font' if there is one *)
Definition variant_text (shlex : text -> result (list text)) (e : el) : option text :=
  match font_of shlex e with
  | Some o => match dget o (lit "font-variant") with Some (ST t) => Some t | _ => None end
  | None => wanted (lit "font-variant") e
  end.
Definition variant_at (shlex : text -> result (list text)) (k : text) (e : el) : option sval :=
  or_else (option_map (variant_value k) (wanted k e))
          (match variant_text shlex e with Some t => dget (parse_font_variant t) k | None => None end).
(* a system font names no longhand *)
Definition system_font_at (shlex : text -> result (list text)) (e : el) : Prop := exists o, font_of shlex e = Some o /\ dget o (lit "font-variant") = None.
