(** Shorthand properties and CSS declaration blocks: svgpy/css/shorthands.py
    35-906 and CSSStyleDeclaration of svgpy/css/__init__.py 43-47, 1293-1583.

    tinycss2 and the property descriptors of props.py are not part of the
    model: they are the fields of a record [css].  [cparse] is
    tinycss2.parse_component_value_list (comments skipped), a component value
    is its kind and its text, and tinycss2.serialize is the concatenation of
    the texts (tinycss2 adds an empty comment between two components that would
    otherwise run together; the components here come from one text and keep
    their order, except that components between them may have been taken out).
    [csupport] is PropertyDescriptor.support (props.py 159-345), which raises
    for some tokens, with the flag "syntax is CUSTOM_IDENT"; [csupports] is
    PropertyDescriptor.supports (347-369); [cinitial] is initial_value;
    [ccomma], [cslash] tell whether the syntax text of a property contains
    ',' or '#', and '/'.

    Only declaration blocks that are not the inline style of an element are
    modelled (_declarations, __init__.py 1371-1421, is then the map itself). *)
From Verif Require Import PyBase PyText PySplit PyDict PyCase.
Local Open Scope nat_scope.

Inductive ckind : Type := CWs | CIdent | CLit | COther.
Record comp := mkC { ck : ckind; ctext : text }.
Record css := mkCss {
  cparse : text -> list comp;
  csupport : text -> comp -> result (bool * bool);
  csupports : text -> text -> bool;
  cinitial : text -> text;
  ccomma : text -> bool;
  cslash : text -> bool }.

Definition serialize (l : list comp) : text := concat (map ctext l).
(* {property: (value, priority)} *)
Definition decls := dict (text * text).

Definition wide_keywords : list text :=
  [lit "default"; lit "inherit"; lit "initial"; lit "revert"; lit "unset"].
Definition color_keywords : list text := [lit "currentcolor"; lit "transparent"].
Definition is_wide (t : text) : bool := mem t wide_keywords.
Definition is_wide_not_initial (t : text) : bool := is_wide t && negb (text_eqb t (lit "initial")).

(* shorthands.py 899-973 *)
Definition with_solidus : list text := [lit "line-height"; lit "mask-border-width"; lit "mask-border-outset"].
Definition font_sub_properties : list text :=
  [lit "font-size-adjust"; lit "font-kerning"; lit "font-feature-settings"; lit "font-language-override";
   lit "font-min-size"; lit "font-max-size"; lit "font-optical-sizing"; lit "font-variation-settings"; lit "font-palette"].
Definition l_font : list text :=
  [lit "font-style"; lit "font-variant-css2"; lit "font-weight"; lit "font-stretch-css3"; lit "font-size";
   lit "line-height"; lit "font-family"].
Definition l_font_synthesis : list text := [lit "font-synthesis-weight"; lit "font-synthesis-style"].
Definition l_font_variant : list text :=
  [lit "font-variant-ligatures"; lit "font-variant-caps"; lit "font-variant-alternates";
   lit "font-variant-numeric"; lit "font-variant-east-asian"; lit "font-variant-position"].
Definition l_mask : list text :=
  [lit "mask-image"; lit "mask-position"; lit "mask-size"; lit "mask-repeat"; lit "mask-origin"; lit "mask-clip";
   lit "mask-composite"; lit "mask-mode"].
Definition l_mask_border : list text :=
  [lit "mask-border-source"; lit "mask-border-slice"; lit "mask-border-width"; lit "mask-border-outset";
   lit "mask-border-repeat"; lit "mask-border-mode"].
Definition l_overflow : list text := [lit "overflow-x"; lit "overflow-y"].
Definition l_text_decoration : list text :=
  [lit "text-decoration-line"; lit "text-decoration-style"; lit "text-decoration-color"].
Definition l_white_space : list text := [lit "text-space-collapse"; lit "text-wrap"; lit "text-space-trim"].
Inductive shorthand : Type := SFont | SFontSynthesis | SFontVariant | SMask | SMaskBorder | SOverflow | STextDecoration | SWhiteSpace.
Definition shorthand_map : dict (shorthand * list text) :=
  [(lit "font", (SFont, l_font)); (lit "font-synthesis", (SFontSynthesis, l_font_synthesis));
   (lit "font-variant", (SFontVariant, l_font_variant)); (lit "mask", (SMask, l_mask));
   (lit "mask-border", (SMaskBorder, l_mask_border)); (lit "overflow", (SOverflow, l_overflow));
   (lit "text-decoration", (STextDecoration, l_text_decoration)); (lit "white-space", (SWhiteSpace, l_white_space))].

Definition custom (name : text) : bool := text_eqb (firstn 2 name) (lit "--").
(* the pattern -css[0-9] at the end of a name (26) is taken off *)
Definition strip_version (t : text) : text :=
  match rev t with
  | d :: r => if is_digit d && text_eqb (firstn 4 r) (rev (lit "-css")) then rev (skipn 4 r) else t
  | [] => t
  end.
(* 101-105, 107-113 *)
Definition find_shorthand (name : text) : option (shorthand * list text) :=
  if custom name then None else dget shorthand_map (lower name).
Definition is_shorthand (name : text) : bool := match find_shorthand name with Some _ => true | None => false end.
Definition longhands (name : text) : list text :=
  match dget shorthand_map (lower name) with Some (_, l) => map strip_version l | None => [] end.

(* 35-43; the table is nested once, [fuel] is its depth *)
Fixpoint longhand_list (fuel : nat) (name : text) : list text :=
  match fuel with
  | O => []
  | S f => flat_map (fun n => if is_shorthand n then longhand_list f n else [n]) (longhands name)
  end.
Definition depth : nat := 3.

Definition all_same (l : list text) : bool :=
  match l with [] => true | x :: r => forallb (text_eqb x) r end.
Definition common (ps : list text) : option text :=
  match ps with [] => None | p :: _ => if all_same ps then Some p else None end.

(* 55-71 *)
Fixpoint sh_priority (fuel : nat) (d : decls) (name : text) : text :=
  match fuel with
  | O => []
  | S f =>
      let ps := flat_map (fun n => if is_shorthand n then [sh_priority f d n]
                                   else match dget d n with Some (_, p) => [p] | None => [] end) (longhands name) in
      match common ps with Some p => p | None => [] end
  end.

(* str.index in the keys *)
Fixpoint index_of (k : text) (l : list text) : nat :=
  match l with [] => 0 | x :: l' => if text_eqb x k then 0 else S (index_of k l') end.
Definition span_max (keys names : list text) : nat := fold_right Nat.max 0 (map (fun n => index_of n keys) names).
Definition span_min (keys names : list text) : nat :=
  match map (fun n => index_of n keys) names with [] => 0 | i :: l => fold_right Nat.min i l end.
(* the checks on the order of declarations of 271-291, 533-553 and 657-677:
   true if the shorthand can be written.  [later_initial]: a property of [subs]
   declared after is harmless if its value is 'initial' *)
Definition order_ok (later_initial : bool) (d : decls) (names subs : list text) : bool :=
  let keys := dkeys d in
  forallb (fun n => mem n keys) names &&
  forallb (fun n =>
    match dget d n with
    | None => true
    | Some (v, _) =>
        let i := index_of n keys in
        negb ((span_min keys names <? i) && (i <? span_max keys names)
              || (span_max keys names <? i) && negb (later_initial && text_eqb v (lit "initial")))
    end) subs.

Definition all_wide_same (vs : list text) : bool := forallb is_wide vs && all_same vs.
Definition hd_text (l : list text) : text := match l with x :: _ => x | [] => [] end.
Fixpoint all_some (l : list (option text)) : option (list text) :=
  match l with
  | [] => Some []
  | Some x :: l' => match all_some l' with Some r => Some (x :: r) | None => None end
  | None :: _ => None
  end.
Definition nonempty (t : text) : bool := match t with [] => false | _ => true end.

(* 267-343 *)
Definition font_tostring (c : css) (d : decls) (pm : dict text) : text :=
  if negb (order_ok true d (longhand_list depth (lit "font")) font_sub_properties) then [] else
  match all_some (map (dget pm) (map strip_version l_font)) with
  | None => []
  | Some vs =>
      if negb (forallb nonempty vs) then []
      else if existsb is_wide vs then (if all_wide_same vs then hd_text vs else [])
      else match dget pm (lit "font-variant"), dget pm (lit "font-stretch"), dget pm (lit "font-size"), dget pm (lit "line-height") with
           | Some fv, Some fs, Some size, Some lh =>
               if negb (csupports c (lit "font-variant-css2") fv) then []
               else if negb (csupports c (lit "font-stretch-css3") fs) then []
               else
                 let pm' := if text_eqb lh (lit "normal") then pm
                            else ddel (dset pm (lit "font-size") (size ++ lit "/" ++ lh)) (lit "line-height") in
                 join [32%N] (map snd (filter (fun p => text_eqb (fst p) (lit "font-family")
                                                        || negb (text_eqb (snd p) (cinitial c (fst p)))) pm'))
           | _, _, _, _ => []
           end
  end.
(* 386-406 *)
Definition font_synthesis_tostring (pm : dict text) : text :=
  match dget pm (lit "font-synthesis-weight"), dget pm (lit "font-synthesis-style") with
  | Some w, Some s =>
      if text_eqb w (lit "none") && text_eqb s (lit "none") then lit "none"
      else if text_eqb w (lit "auto") && text_eqb s (lit "none") then lit "weight"
      else if text_eqb w (lit "none") && text_eqb s (lit "auto") then lit "style"
      else if text_eqb w (lit "auto") && text_eqb s (lit "auto") then lit "weight style"
      else if text_eqb w s && is_wide w then w
      else []
  | _, _ => []
  end.
(* 433-469 *)
Definition font_variant_tostring (pm : dict text) : text :=
  match all_some (map (dget pm) l_font_variant) with
  | None => []
  | Some vs =>
      let normal := forallb (text_eqb (lit "normal")) in
      if normal vs then lit "normal"
      else if text_eqb (hd_text vs) (lit "none") then (if normal (tl vs) then lit "none" else [])
      else if existsb is_wide vs then (if all_wide_same vs then hd_text vs else [])
      else join [32%N] (filter (fun x => negb (text_eqb x (lit "normal"))) vs)
  end.
(* 532-600 *)
Definition mask_border_tostring (d : decls) (pm : dict text) : text :=
  if negb (order_ok false d l_mask_border l_mask) then [] else
  match all_some (map (dget pm) l_mask_border) with
  | None => []
  | Some vs =>
      let init k := match dget pm k with Some v => text_eqb v (lit "initial") | None => false end in
      if all_wide_same vs then hd_text vs
      else if existsb is_wide_not_initial vs then []
      else if init (lit "mask-border-slice") && negb (init (lit "mask-border-width"))
              || (init (lit "mask-border-slice") || init (lit "mask-border-width")) && negb (init (lit "mask-border-outset")) then []
      else join [32%N] (flat_map (fun k =>
             match dget pm k with
             | Some v => if text_eqb v (lit "initial") then []
                         else if text_eqb k (lit "mask-border-width") || text_eqb k (lit "mask-border-outset") then [lit "/"; v]
                         else [v]
             | None => []
             end) l_mask_border)
  end.
(* 655-708 *)
Definition mask_tostring (d : decls) (pm : dict text) : text :=
  if negb (order_ok true d l_mask l_mask_border) then [] else
  match all_some (map (dget pm) l_mask) with
  | None => []
  | Some vs =>
      let init k := match dget pm k with Some v => text_eqb v (lit "initial") | None => false end in
      if all_wide_same vs then hd_text vs
      else if existsb is_wide_not_initial vs then []
      else if init (lit "mask-position") && negb (init (lit "mask-size")) then []
      else join [32%N] (flat_map (fun k =>
             match dget pm k with
             | Some v => if text_eqb v (lit "initial") then []
                         else if text_eqb k (lit "mask-clip")
                                 && match dget pm (lit "mask-origin") with Some o => text_eqb o v | None => false end then []
                         else if text_eqb k (lit "mask-size") then [lit "/"; v]
                         else [v]
             | None => []
             end) l_mask)
  end.
(* 741-758 *)
Definition overflow_tostring (pm : dict text) : text :=
  match dget pm (lit "overflow-x"), dget pm (lit "overflow-y") with
  | Some x, Some y =>
      if text_eqb x y then x else if is_wide x || is_wide y then [] else join [32%N] [x; y]
  | _, _ => []
  end.
(* 784-804 *)
Definition text_decoration_tostring (pm : dict text) : text :=
  match all_some (map (dget pm) l_text_decoration) with
  | None => []
  | Some vs =>
      if all_wide_same vs then hd_text vs
      else if existsb is_wide_not_initial vs then []
      else join [32%N] (filter (fun x => negb (text_eqb x (lit "initial"))) vs)
  end.
(* 855-885 *)
Definition white_space_tostring (pm : dict text) : text :=
  match all_some (map (dget pm) l_white_space) with
  | Some [c; w; t] =>
      let n := text_eqb t (lit "none") in
      if text_eqb c (lit "collapse") && text_eqb w (lit "wrap") && n then lit "normal"
      else if text_eqb c (lit "preserve") && text_eqb w (lit "nowrap") && n then lit "pre"
      else if text_eqb c (lit "collapse") && text_eqb w (lit "nowrap") && n then lit "nowrap"
      else if text_eqb c (lit "preserve") && text_eqb w (lit "wrap") && n then lit "pre-wrap"
      else if text_eqb c (lit "preserve-breaks") && text_eqb w (lit "wrap") && n then lit "pre-line"
      else if all_wide_same [c; w; t] then c
      else []
  | _ => []
  end.
Definition tostring (c : css) (s : shorthand) (d : decls) (pm : dict text) : text :=
  match s with
  | SFont => font_tostring c d pm
  | SFontSynthesis => font_synthesis_tostring pm
  | SFontVariant => font_variant_tostring pm
  | SMask => mask_tostring d pm
  | SMaskBorder => mask_border_tostring d pm
  | SOverflow => overflow_tostring pm
  | STextDecoration => text_decoration_tostring pm
  | SWhiteSpace => white_space_tostring pm
  end.

(* 73-98; the entries of property_map with their priorities, None when a value
   is empty or not supported *)
Fixpoint sh_value (fuel : nat) (c : css) (d : decls) (name : text) : text :=
  match fuel with
  | O => []
  | S f =>
      let step n (acc : option (list (text * (text * text)))) :=
        match acc with
        | None => None
        | Some r =>
            if is_shorthand n then Some ((n, (sh_value f c d n, sh_priority depth d n)) :: r)
            else match dget d n with
                 | None => Some r
                 | Some (v, p) => if negb (nonempty v) || negb (csupports c n v) then None else Some ((n, (v, p)) :: r)
                 end
        end in
      match fold_right step (Some []) (longhands name), find_shorthand name with
      | Some entries, Some (s, _) =>
          match common (map (fun e => snd (snd e)) entries) with
          | None => []
          | Some _ => tostring c s d (map (fun e => (fst e, fst (snd e))) entries)
          end
      | _, _ => []
      end
  end.

(* 115-128 *)
Fixpoint sh_remove (fuel : nat) (d : decls) (name : text) : decls * bool :=
  match fuel with
  | O => (d, false)
  | S f =>
      fold_left (fun (acc : decls * bool) n =>
        if is_shorthand n then let '(d', r) := sh_remove f (fst acc) n in (d', snd acc || r)
        else if dhas (fst acc) n then (ddel (fst acc) n, true) else acc)
        (longhands name) (d, false)
  end.

(* component_list.remove(component): literals are equal when their texts are,
   other components are compared by identity *)
Definition lit_eqb (a b : comp) : bool :=
  match ck a, ck b with CLit, CLit => text_eqb (ctext a) (ctext b) | _, _ => false end.
Fixpoint remove_lit (x : comp) (l : list comp) : option (list comp) :=
  match l with
  | [] => None
  | y :: l' => if lit_eqb y x then Some l' else match remove_lit x l' with Some r => Some (y :: r) | None => None end
  end.
(* what stays of the components already passed, after remove(x) for the current x *)
Definition take_out (kept : list comp) (x : comp) : list comp :=
  match remove_lit x kept with Some r => r ++ [x] | None => kept end.
Definition is_lit (s : text) (x : comp) : bool := match ck x with CLit => text_eqb (ctext x) s | _ => false end.
Definition app_target (t : option (list comp)) (x : comp) : option (list comp) :=
  Some (match t with Some l => l ++ [x] | None => [x] end).
Definition started (t : option (list comp)) : bool := match t with Some (_ :: _) => true | _ => false end.

(* 143-205: what remains of component_list, the components found for the
   property (None: no entry) and the CSS-wide keywords *)
Fixpoint scan (c : css) (p : text) (todo kept : list comp) (solidus : bool) (target : option (list comp)) (wides : list text)
  : result (list comp * option (list comp) * list text) :=
  match todo with
  | [] => Ok (kept, target, wides)
  | x :: todo' =>
      let stop := Ok (kept ++ todo, target, wides) in
      match ck x with
      | CWs => match target with
               | Some _ => scan c p todo' kept solidus (app_target target x) wides
               | None => scan c p todo' (kept ++ [x]) solidus target wides
               end
      | k =>
        if match k with CIdent => is_wide (lower (ctext x)) | _ => false end
        then scan c p todo' kept solidus target (wides ++ [lower (ctext x)])
        else if is_lit (lit ",") x then
          if negb (ccomma c p) then Ok (kept ++ todo, None, wides)
          else match target with
               | Some _ => scan c p todo' (take_out kept x) solidus (app_target target x) wides
               | None => scan c p todo' (kept ++ [x]) solidus target wides
               end
        else if is_lit (lit "/") x then
          if negb (mem p with_solidus) && negb (cslash c p) then
            if started target then stop else scan c p todo' (kept ++ [x]) solidus target wides
          else if solidus then stop
          else
            let t := match target with Some l => l | None => [] end in
            scan c p todo' (take_out kept x) true (Some (if cslash c p then t ++ [x] else t)) wides
        else if mem p with_solidus && negb solidus then scan c p todo' (kept ++ [x]) solidus target wides
        else
          do r <- csupport c p x;
          if fst r then
            let kept' := take_out kept x in
            if text_eqb p (lit "mask-border-slice") && snd r then Ok (kept' ++ todo', app_target target x, wides)
            else scan c p todo' kept' solidus (app_target target x) wides
          else if solidus || started target then stop
          else scan c p todo' (kept ++ [x]) solidus target wides
      end
  end.
(* with 202-204: an empty list of components is no entry *)
Definition parse_component_list (c : css) (p : text) (comps : list comp) (cm : dict (list comp)) (wides : list text)
  : result (list comp * dict (list comp) * list text) :=
  do r <- scan c p comps [] false None wides;
  let '(rest, t, w) := r in
  Ok (rest, match t with Some ((_ :: _) as l) => dset cm p l | _ => cm end, w).
Fixpoint parse_each (c : css) (ps : list text) (comps : list comp) (cm : dict (list comp)) (wides : list text)
  : result (list comp * dict (list comp) * list text) :=
  match ps with
  | [] => Ok (comps, cm, wides)
  | p :: ps' => do r <- parse_component_list c p comps cm wides;
                let '(rest, cm', w) := r in parse_each c ps' rest cm' w
  end.
(* entries for the properties that have none *)
Definition fill (ps : list text) (f : text -> list comp) (cm : dict (list comp)) : dict (list comp) :=
  fold_left (fun m p => if dhas m p then m else dset m p (f p)) ps cm.

(* 207-232, set_initial_value=True *)
Definition parse_css_declaration (c : css) (ps : list text) (comps : list comp) : result (dict (list comp)) :=
  do r <- parse_each c ps comps [] [];
  let '(_, cm, w) := r in
  match w with
  | [] => Ok (fill ps (fun p => cparse c (cinitial c p)) cm)
  | [k] => Ok (fill ps (fun _ => cparse c k) [])
  | _ => Ok (fill ps (fun p => cparse c (cinitial c p)) [])
  end.
(* the common ending of 481-530, 604-653 and 763-782 *)
Definition finish_wide (c : css) (ps : list text) (cm : dict (list comp)) (w : list text) : option (dict (list comp)) :=
  match w with
  | [] => Some (fill ps (fun _ => cparse c (lit "initial")) cm)
  | [k] => Some (fill ps (fun _ => cparse c k) [])
  | _ => None
  end.

(* declarations[name] = value after move_to_end *)
Definition dset_end {V} (d : dict V) (k : text) (v : V) : dict V := ddel d k ++ [(k, v)].
(* 234-244 *)
Definition set_map (d : decls) (cm : dict (list comp)) (prio : text) : decls :=
  fold_left (fun d' e => dset_end d' (fst e) (strip (serialize (snd e)), prio)) cm d.

Definition not_ws (x : comp) : bool := match ck x with CWs => false | _ => true end.

(* 411-431 *)
Definition font_variant_map (c : css) (comps : list comp) : result (dict (list comp)) :=
  let value := strip (serialize comps) in
  if text_eqb value (lit "normal") || text_eqb value (lit "none") then
    Ok (map (fun p => (p, cparse c (if text_eqb p (lit "font-variant-ligatures") && text_eqb value (lit "none")
                                   then lit "none" else cinitial c p))) l_font_variant)
  else parse_css_declaration c l_font_variant comps.
(* 347-384 *)
Definition font_synthesis_values (c : css) (comps : list comp) : text * text :=
  let iw := cinitial c (lit "font-synthesis-weight") in
  let is := cinitial c (lit "font-synthesis-style") in
  match map ctext (filter not_ws comps) with
  | [v] => if text_eqb v (lit "none") then (lit "none", lit "none")
           else if text_eqb v (lit "weight") then (lit "auto", lit "none")
           else if text_eqb v (lit "style") then (lit "none", lit "auto")
           else if is_wide (lower v) then (lower v, lower v)
           else (iw, is)
  | [a; b] => if mem (lit "weight") [a; b] && mem (lit "style") [a; b] then (lit "auto", lit "auto") else (iw, is)
  | _ => (iw, is)
  end.
(* 809-853 *)
Definition white_space_values (c : css) (comps : list comp) : text * text * text :=
  let v := strip (serialize comps) in
  if text_eqb v (lit "normal") then (lit "collapse", lit "wrap", lit "none")
  else if text_eqb v (lit "pre") then (lit "preserve", lit "nowrap", lit "none")
  else if text_eqb v (lit "nowrap") then (lit "collapse", lit "nowrap", lit "none")
  else if text_eqb v (lit "pre-wrap") then (lit "preserve", lit "wrap", lit "none")
  else if text_eqb v (lit "pre-line") then (lit "preserve-breaks", lit "wrap", lit "none")
  else if is_wide (lower v) then (lower v, lower v, lower v)
  else (cinitial c (lit "text-space-collapse"), cinitial c (lit "text-wrap"), cinitial c (lit "text-space-trim")).

(* set_css_declaration of each shorthand: the new declarations, or None when
   it reports that nothing was set.  An exception leaves the declarations as
   they were: nothing is written before the last parse.
   251-265, 347-384, 411-431, 475-530, 604-653, 713-739, 763-782, 809-853 *)
Definition sh_set (c : css) (s : shorthand) (d : decls) (comps : list comp) (prio : text) : result (option decls) :=
  match s with
  | SFont =>
      do cm <- parse_css_declaration c l_font comps;
      let fv := match dget cm (lit "font-variant-css2") with Some l => l | None => [] end in
      do vm <- font_variant_map c fv;
      let d1 := set_map d vm prio in
      let fs := match dget cm (lit "font-stretch-css3") with Some l => l | None => [] end in
      let cm' := dset (ddel (ddel cm (lit "font-variant-css2")) (lit "font-stretch-css3")) (lit "font-stretch") fs in
      Ok (Some (set_map d1 cm' prio))
  | SFontSynthesis =>
      let '(w, s) := font_synthesis_values c comps in
      Ok (Some (set_map d [(lit "font-synthesis-weight", cparse c w); (lit "font-synthesis-style", cparse c s)] prio))
  | SFontVariant =>
      do cm <- font_variant_map c comps; Ok (Some (set_map d cm prio))
  | SMaskBorder =>
      do r1 <- parse_each c [lit "mask-border-source"; lit "mask-border-slice"] comps [] [];
      let '(rest1, cm1, w1) := r1 in
      do r2 <- (if dhas cm1 (lit "mask-border-slice") then parse_component_list c (lit "mask-border-width") rest1 cm1 w1 else Ok r1);
      let '(rest2, cm2, w2) := r2 in
      do r3 <- (if dhas cm2 (lit "mask-border-width") then parse_component_list c (lit "mask-border-outset") rest2 cm2 w2 else Ok r2);
      let '(rest3, cm3, w3) := r3 in
      do r4 <- parse_each c [lit "mask-border-repeat"; lit "mask-border-mode"] rest3 cm3 w3;
      let '(_, cm, w) := r4 in
      Ok (match finish_wide c l_mask_border cm w with Some m => Some (set_map d m prio) | None => None end)
  | SMask =>
      do r <- parse_each c l_mask comps [] [];
      let '(_, cm0, w) := r in
      let cm0 := match w with [] => cm0 | _ => [] end in
      let cm := match dget cm0 (lit "mask-origin") with
                | Some o =>
                    match filter not_ws o, dget cm0 (lit "mask-clip") with
                    | [a], None => dset cm0 (lit "mask-clip") [a]
                    | [a; b], None => dset (dset cm0 (lit "mask-origin") [a]) (lit "mask-clip") [b]
                    | _ :: _ :: _, _ => ddel cm0 (lit "mask-origin")
                    | _, _ => cm0
                    end
                | None => cm0
                end in
      Ok (match finish_wide c l_mask cm w with Some m => Some (set_map d m prio) | None => None end)
  | SOverflow =>
      do r <- parse_component_list c (lit "overflow-x") comps [] [];
      let '(_, cm, w) := r in
      match w with
      | [] => match dget cm (lit "overflow-x") with
              | None => Err KeyError
              | Some l => match filter not_ws l with
                          | [a] => Ok (Some (set_map d [(lit "overflow-x", [a]); (lit "overflow-y", [a])] prio))
                          | [a; b] => Ok (Some (set_map d [(lit "overflow-x", [a]); (lit "overflow-y", [b])] prio))
                          | _ => Ok None
                          end
              end
      | [k] => Ok (Some (set_map d [(lit "overflow-x", cparse c k); (lit "overflow-y", cparse c k)] prio))
      | _ => Ok None
      end
  | STextDecoration =>
      do r <- parse_each c l_text_decoration comps [] [];
      let '(_, cm, w) := r in
      Ok (match finish_wide c l_text_decoration cm w with Some m => Some (set_map d m prio) | None => None end)
  | SWhiteSpace =>
      let '(a, b, t) := white_space_values c comps in
      Ok (Some (set_map d [(lit "text-space-collapse", cparse c a); (lit "text-wrap", cparse c b); (lit "text-space-trim", cparse c t)] prio))
  end.

(** Declaration blocks. *)
Record block := mkB { bdecls : decls; breadonly : bool }.

(* __init__.py 43-47: line ends become spaces, runs of spaces one space *)
Fixpoint lines_to_spaces (t : text) : text :=
  match t with
  | [] => []
  | c :: t' =>
      if N.eqb c 13 then
        match t' with
        | c' :: t'' => if N.eqb c' 10 then 32%N :: lines_to_spaces t'' else 32%N :: lines_to_spaces t'
        | [] => [32%N]
        end
      else (if N.eqb c 10 then 32%N else c) :: lines_to_spaces t'
  end.
Fixpoint collapse (t : text) : text :=
  match t with
  | c :: ((c' :: _) as t') => if N.eqb c 32 && N.eqb c' 32 then collapse t' else c :: collapse t'
  | _ => t
  end.
Definition normalize_text (t : text) : text := collapse (lines_to_spaces (strip t)).

Definition key (name : text) : text := if custom name then name else lower name.

(* 1432-1444 *)
Definition set_longhand (d : decls) (name : text) (comps : list comp) (prio : text) : option decls :=
  let v := strip (serialize comps) in
  if nonempty v then
    let v' := if mem (lower v) color_keywords || is_wide (lower v) then lower v else v in
    Some (dset_end d name (v', prio))
  else None.
(* 1446-1467 *)
Definition set_internal (c : css) (d : decls) (name value prio : text) : result (option decls) :=
  match cparse c value with
  | [] => Ok None
  | comps => match find_shorthand name with
             | Some (s, _) => sh_set c s d comps prio
             | None => Ok (set_longhand d name comps prio)
             end
  end.
(* 1473-1513 *)
Definition get_property_priority (b : block) (name : text) : text :=
  if is_shorthand (key name) then sh_priority depth (bdecls b) (key name)
  else match dget (bdecls b) (key name) with Some (_, p) => p | None => [] end.
Definition get_property_value (c : css) (b : block) (name : text) : text :=
  if is_shorthand (key name) then sh_value depth c (bdecls b) (key name)
  else match dget (bdecls b) (key name) with Some (v, _) => v | None => [] end.
(* 1525-1548: the new block and the value returned *)
Definition remove_property (c : css) (b : block) (name : text) : result (block * text) :=
  if breadonly b then Err NoModificationAllowedError else
  let v := get_property_value c b name in
  let d := if is_shorthand (key name) then fst (sh_remove depth (bdecls b) (key name))
           else ddel (bdecls b) (key name) in
  Ok (mkB d false, v).
(* 1550-1579; __setitem__ is set_property without priority *)
Definition set_property (c : css) (b : block) (name value : text) (prio : option text) : result block :=
  if breadonly b then Err NoModificationAllowedError else
  let value := normalize_text value in
  if negb (nonempty value) then do r <- remove_property c b name; Ok (fst r)
  else
    let p := match prio with None => get_property_priority b (key name) | Some p => lower p end in
    if negb (text_eqb p [] || text_eqb p (lit "important")) then Ok b
    else do r <- set_internal c (bdecls b) (key name) value p;
         Ok (match r with Some d => mkB d false | None => b end).
(* 1343-1347, 1515-1517, 1519-1523, 1316-1319 *)
Definition length_ (b : block) : nat := length (bdecls b).
Definition keys (b : block) : list text := dkeys (bdecls b).
Definition item (b : block) (i : nat) : option text := nth_error (keys b) i.
Definition contains (b : block) (name : text) : bool := dhas (bdecls b) (key name).
(* 1423-1430: the declarations of a style rule, as parsed *)
Fixpoint parse_content (c : css) (b : block) (l : list (text * text * bool)) : result block :=
  match l with
  | [] => Ok b
  | (n, v, imp) :: l' =>
      do b' <- set_property c b n v (Some (if imp then lit "important" else []));
      parse_content c b' l'
  end.
