(** Style rules, the cascade and inheritance: svgpy/style.py 86-131, 152-232,
    279-317; svgpy/dom.py 1863-2047; svgpy/core.py 226-243. *)
From Verif Require Import PyBase PyText PySplit PyDict UtilsModel FontTextModel.
#[local] Open Scope N_scope.

(** ** Rules (style.py 86-121) *)
(* a style rule has a selector text and the declarations name, value, priority;
   [ROther] is any rule of another type, told apart by a number *)
Inductive rule :=
| RStyle (sel : text) (decls : list (text * (text * text)))
| RNamespace (prefix uri : text)
| ROther (id : N)
| RImport (media : text) (sheet : list rule)
| RMedia (media : text) (rules : list rule).
(* the media test; [win] is match_media(...).matches of the window, None without one *)
Definition media_ok (win : option (text -> bool)) (m : text) : bool :=
  mem m [[]; lit "all"] || match win with None => false | Some f => f m end.
Fixpoint flatten1 (win : option (text -> bool)) (r : rule) : list rule :=
  match r with
  | RImport m rs => if media_ok win m then flat_map (flatten1 win) rs else []
  | RMedia m rs => if media_ok win m then flat_map (flatten1 win) rs else []
  | _ => [r]
  end.
Definition flatten (win : option (text -> bool)) (rs : list rule) : list rule := flat_map (flatten1 win) rs.
(* 124-131 *)
Definition get_css_rules (win : option (text -> bool)) (sheets : list (list rule)) : list rule := flatten win (concat sheets).

(* 152-220: a 'link' with its rel tokens, or a 'style'; the sheet is what the
   parser gives for the resource or the text *)
Inductive source :=
| SLink (rel : list text) (as_ : text) (href : option text) (media : text) (sheet : list rule)
| SStyle (type : text) (content : option text) (media : text) (sheet : list rule).
Definition source_sheet (win : option (text -> bool)) (s : source) : result (option (list rule)) :=
  match s with
  | SLink rel as_ href media sheet =>
      let styled := text_eqb as_ (lit "style") in
      if mem (lit "alternate") rel
         || (negb (mem (lit "stylesheet") rel) && negb (mem (lit "preload") rel && styled))
         || (mem (lit "preload") rel && negb styled) then Ok None
      else match href with
           | None => Ok None
           | Some [] => Err IndexError
           | Some (c :: _) => if c =? 35 then Ok None else Ok (if media_ok win media then Some sheet else None)
           end
  | SStyle type content media sheet =>
      if negb (text_eqb type (lit "text/css")) || negb (is_some content) then Ok None
      else Ok (if media_ok win media then Some sheet else None)
  end.
(* 223-232 *)
Fixpoint source_sheets (win : option (text -> bool)) (l : list source) : result (list (list rule)) :=
  match l with
  | [] => Ok []
  | s :: l' => do x <- source_sheet win s; do r <- source_sheets win l'; Ok (match x with None => r | Some x => x :: r end)
  end.

(** ** The cascade (279-317).  [matches namespaces selector] is None when the
    selector cannot be used, which is logged. *)
Definition svg : text := lit "svg".
(* 282-285 *)
Definition start_namespaces (nsmap : dict text) (default : option text) : dict text :=
  match default with None => nsmap | Some u => dset nsmap svg u end.
(* 311-316 *)
Definition namespace_rule (ns : dict text) (prefix uri : text) : dict text :=
  match uri with [] => ns | _ => dset ns (match prefix with [] => svg | _ => prefix end) uri end.
Definition important : text := lit "important".
(* 293-296 *)
Definition declare (s : dict text * dict text) (d : text * (text * text)) : dict text * dict text :=
  let '(k, (v, p)) := d in
  (dset (fst s) k v, if text_eqb p important then dset (snd s) k v else snd s).
Definition cascade_step (matches : dict text -> text -> option bool) (s : dict text * (dict text * dict text)) (r : rule) :=
  match r with
  | RStyle sel decls => match matches (fst s) sel with
                        | Some true => (fst s, fold_left declare decls (snd s))
                        | _ => s
                        end
  | RNamespace p u => (namespace_rule (fst s) p u, snd s)
  | _ => s
  end.
Definition get_css_style (matches : dict text -> text -> option bool) (nsmap : dict text) (default : option text) (rules : list rule) : dict text * dict text :=
  snd (fold_left (cascade_step matches) rules (start_namespaces nsmap default, ([], []))).

(** ** Inheritance (dom.py 1863-2047).  An element is what its rules give, and
    its attributes; a chain is the element with its ancestors, nearest first. *)
Record el := mkEl { e_rules : dict text; e_important : dict text; e_attr : dict text }.
(* dict.update *)
Definition dupdate {V} (d e : dict V) : dict V := fold_left (fun d p => dset d (fst p) (snd p)) e d.
(* 1984-1989 *)
Definition css_style (e : el) : dict text :=
  let d := dupdate (e_rules e) (e_attr e) in
  let own := dget d (lit "style") in
  let d := ddel d (lit "style") in
  let d := match own with None => d | Some t => dupdate d (style_to_dict (Some t)) end in
  dupdate d (e_important e).

(* 1902-1926 *)
Definition non_inherited : dict text :=
  [(lit "alignment-baseline", lit "baseline"); (lit "baseline-shift", lit "0"); (lit "clip", lit "auto"); (lit "clip-path", lit "none");
   (lit "display", lit "inline"); (lit "dominant-baseline", lit "auto"); (lit "filter", lit "none"); (lit "flood-color", lit "black");
   (lit "flood-opacity", lit "1"); (lit "inline-size", lit "0"); (lit "lighting-color", lit "white"); (lit "mask", lit "no");
   (lit "opacity", lit "1"); (lit "overflow", lit "visible"); (lit "stop-color", lit "black"); (lit "stop-opacity", lit "1");
   (lit "text-decoration", lit "none"); (lit "transform", lit "none"); (lit "unicode-bidi", lit "normal"); (lit "vector-effect", lit "none")].
Definition xml_lang : text := lit "{http://www.w3.org/XML/1998/namespace}lang".
(* 1930-1985 *)
Definition inherited_props : dict (option sval) :=
  let T k v := (lit k, Some (ST (lit v))) in let L k v := (lit k, Some (SL [lit v])) in
  [T "clip-rule" "nonzero"; T "color" "black"; T "color-interpolation" "sRGB"; T "color-rendering" "auto"; T "cursor" "auto";
   T "direction" "ltr"; T "fill" "black"; T "fill-opacity" "1"; T "fill-rule" "nonzero"; (lit "font", None); (lit "font-family", None);
   T "font-feature-settings" "normal"; T "font-kerning" "auto"; T "font-language-override" "normal"; T "font-size" "medium";
   T "font-size-adjust" "none"; T "font-stretch" "normal"; T "font-style" "normal"; T "font-synthesis" "weight style";
   T "font-variant" "normal"; L "font-variant-alternates" "normal"; T "font-variant-caps" "normal"; L "font-variant-east-asian" "normal";
   L "font-variant-ligatures" "normal"; L "font-variant-numeric" "normal"; T "font-variant-position" "normal"; T "font-weight" "normal";
   T "image-rendering" "auto"; (lit "lang", None); T "letter-spacing" "normal"; T "line-height" "normal"; (lit "marker", None);
   T "marker-end" "none"; T "marker-mid" "none"; T "marker-start" "none"; T "paint-order" "normal"; T "pointer-events" "visiblePainted";
   T "shape-rendering" "auto"; T "stroke" "none"; T "stroke-dasharray" "none"; T "stroke-dashoffset" "0"; T "stroke-linecap" "butt";
   T "stroke-linejoin" "miter"; T "stroke-miterlimit" "4"; T "stroke-opacity" "1"; T "stroke-width" "1"; T "tab-size" "8";
   T "text-anchor" "start"; T "text-orientation" "mixed"; T "text-rendering" "auto"; T "visibility" "visible"; T "white-space" "normal";
   T "word-spacing" "normal"; T "writing-mode" "horizontal-tb"; (xml_lang, None)]%string.

Definition state : Type := dict sval * dict (option sval).
Definition pops (i : dict (option sval)) (ks : list text) : dict (option sval) := fold_left ddel ks i.
(* 1887-1898 *)
Definition variant_keys : list text := map lit ["font-variant-alternates"; "font-variant-caps"; "font-variant-east-asian"; "font-variant-ligatures";
  "font-variant-numeric"; "font-variant-position"; "font-variant"]%string.
Definition fill (s : dict sval) (other : dict sval) : dict sval :=
  fold_left (fun s p => if dhas s (fst p) then s else dset s (fst p) (snd p)) other s.
Definition update_font_variant (v : text) (st : state) : state := (fill (fst st) (parse_font_variant v), pops (snd st) variant_keys).
(* 1864-1885 *)
Definition font_keys : list text := map lit ["font-style"; "font-variant"; "font-weight"; "font-stretch"; "font-size"; "line-height";
  "font-size-adjust"; "font-kerning"; "font-language-override"; "font-family"; "font"]%string.
Definition font_fill (st : state) (p : text * sval) : state :=
  if dhas (fst st) (fst p) then st
  else let st := (dset (fst st) (fst p) (snd p), snd st) in
       match snd p with
       | ST v => if text_eqb (fst p) (lit "font-variant") then update_font_variant v st else st
       | SL _ => st
       end.
Definition update_font (other : dict sval) (st : state) : state :=
  let st := fold_left font_fill other st in (fst st, pops (snd st) font_keys).
Definition list_keys : list text := map lit ["font-variant-alternates"; "font-variant-east-asian"; "font-variant-ligatures"; "font-variant-numeric"]%string.
(* 1993-2022: one key with its value *)
Definition take_value (shlex : text -> result (list text)) (key v : text) (st : state) : result state :=
  if text_eqb key (lit "font") then
    do other <- parse_font shlex v; Ok (update_font other (dset (fst st) key (ST v), snd st))
  else if text_eqb key (lit "font-family") then
    do fam <- parse_font_family shlex v;
    if dhas (snd st) key then Ok (dset (fst st) key (SL fam), ddel (snd st) key) else Err KeyError
  else if text_eqb key (lit "font-variant") then Ok (update_font_variant v (dset (fst st) key (ST v), snd st))
  else if text_eqb key (lit "marker") then Err NotImplementedError_
  else Ok (dset (fst st) key (if mem key list_keys then SL (split_ws v) else ST v), ddel (snd st) key).
Definition take_key (shlex : text -> result (list text)) (css : dict text) (key : text) (st : state) : result state :=
  match dget css key with
  | None => Ok st
  | Some v => if text_eqb v (lit "inherit") then Ok st else take_value shlex key v st
  end.
Fixpoint take_keys (shlex : text -> result (list text)) (css : dict text) (keys : list text) (st : state) : result state :=
  match keys with [] => Ok st | k :: ks => do st <- take_key shlex css k st; take_keys shlex css ks st end.
(* 1983-2027 for one element *)
Definition element_step (shlex : text -> result (list text)) (e : el) (st : state) : result state :=
  let css := css_style e in
  do st <- take_keys shlex css (dkeys (snd st)) st;
  Ok (match dget css (lit "display") with
      | Some d => if text_eqb d (lit "none") then (dset (fst st) (lit "display") (ST (lit "none")), snd st) else st
      | None => st
      end).
Fixpoint walk (shlex : text -> result (list text)) (chain : list el) (st : state) : result state :=
  match chain with [] => Ok st | e :: c => do st <- element_step shlex e st; walk shlex c st end.
(* 1927-1929 *)
Definition own_props (self : dict text) : dict sval :=
  map (fun p => (fst p, ST (match dget self (fst p) with Some v => v | None => snd p end))) non_inherited.
(* 2029-2038 *)
Definition finish (st : state) : dict sval :=
  let s := fold_left (fun s p => match snd p with None => s | Some v => dset s (fst p) v end) (snd st) (fst st) in
  match dget s (lit "font-family") with
  | None => dset s (lit "font-family") (SL (family_names [lit "sans-serif"]))
  | Some _ => s
  end.
(* the chain of an element is never empty *)
Definition get_inherited_style (shlex : text -> result (list text)) (self : el) (ancestors : list el) : result (dict sval) :=
  do st <- walk shlex (self :: ancestors) (own_props (e_attr self), inherited_props); Ok (finish st).

(** ** CSSUtils.get_value (core.py 226-243): local names and attributes, nearest first;
    the position of the element the value was found on *)
Fixpoint get_value_at (n : nat) (chain : list (text * dict text)) (key : text) (default : option text) : result (option text * nat) :=
  match chain with
  | [] => Ok (None, 0%nat)
  | (name, attr) :: c =>
      match match dget attr key with Some v => Some v | None => default end with
      | Some v =>
          if text_eqb v (lit "auto") && mem key [lit "width"; lit "height"] then
            if text_eqb name svg then Ok (Some (lit "100%"), n)
            else if text_eqb name (lit "image") then Err NotImplementedError_
            else Ok (Some (lit "0"), n)
          else if text_eqb v (lit "inherit") then get_value_at (S n) c key default
          else Ok (Some v, n)
      | None => get_value_at (S n) c key default
      end
  end.
Definition get_value := get_value_at 0.
