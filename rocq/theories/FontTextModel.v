(** The font texts of svgpy/core.py: parse_font (331-417), parse_font_family
    (420-450) and parse_font_variant (492-588). *)
From Verif Require Import PyBase PyText PySplit PyDict DatasetModel.
#[local] Open Scope N_scope.

(* a style value: a text or a list of texts *)
Inductive sval := ST (t : text) | SL (l : list text).

(** ** font-variant *)
(* 546-551 *)
Definition lig_tokens : list text := map lit ["common-ligatures"; "no-common-ligatures"; "discretionary-ligatures";
  "no-discretionary-ligatures"; "historical-ligatures"; "no-historical-ligatures"; "contextual"; "no-contextual"]%string.
(* 552-559 *)
Definition alt_prefixes : list text := map lit ["stylistic("; "styleset("; "character-variant("; "swash("; "ornaments("; "annotation("]%string.
Definition is_alt (w : text) : bool := text_eqb w (lit "historical-forms") || existsb (fun p => starts_with p w) alt_prefixes.
(* 560-562 *)
Definition caps_tokens : list text := map lit ["small-caps"; "all-small-caps"; "petite-caps"; "all-petite-caps"; "unicase"; "titling-caps"]%string.
(* 563-566 *)
Definition asian_tokens : list text := map lit ["jis78"; "jis83"; "jis90"; "jis04"; "simplified"; "traditional"; "full-width"; "proportional-width"; "ruby"]%string.
(* 567-571 *)
Definition num_tokens : list text := map lit ["lining-nums"; "oldstyle-nums"; "proportional-nums"; "tabular-nums"; "diagonal-fractions";
  "stacked-fractions"; "ordinal"; "slashed-zero"]%string.
(* 572-573 *)
Definition pos_tokens : list text := map lit ["sub"; "super"]%string.

Record variants := mkV { valt : list text; vcaps : text; vasian : list text; vlig : list text; vnum : list text; vpos : text }.
(* the loop 543-573, an if-elif chain *)
Definition variant_step (v : variants) (w : text) : variants :=
  if mem w lig_tokens then mkV (valt v) (vcaps v) (vasian v) (vlig v ++ [w]) (vnum v) (vpos v)
  else if is_alt w then mkV (valt v ++ [w]) (vcaps v) (vasian v) (vlig v) (vnum v) (vpos v)
  else if mem w caps_tokens then mkV (valt v) w (vasian v) (vlig v) (vnum v) (vpos v)
  else if mem w asian_tokens then mkV (valt v) (vcaps v) (vasian v ++ [w]) (vlig v) (vnum v) (vpos v)
  else if mem w num_tokens then mkV (valt v) (vcaps v) (vasian v) (vlig v) (vnum v ++ [w]) (vpos v)
  else if mem w pos_tokens then mkV (valt v) (vcaps v) (vasian v) (vlig v) (vnum v) w
  else v.
Definition normal : text := lit "normal".
Definition or_normal (l : list text) : list text := match l with [] => [normal] | _ => l end.
Definition variants_dict (v : variants) : dict sval :=
  [(lit "font-variant-alternates", SL (or_normal (valt v))); (lit "font-variant-caps", ST (vcaps v));
   (lit "font-variant-east-asian", SL (or_normal (vasian v))); (lit "font-variant-ligatures", SL (or_normal (vlig v)));
   (lit "font-variant-numeric", SL (or_normal (vnum v))); (lit "font-variant-position", ST (vpos v))].
Definition no_variants : variants := mkV [] normal [] [] [] normal.
Definition parse_font_variant (t : text) : dict sval :=
  if text_eqb t normal then variants_dict no_variants
  else if text_eqb t (lit "none") then variants_dict (mkV [] normal [] [lit "none"] [] normal)
  else variants_dict (fold_left variant_step (split_ws t) no_variants).

(** ** font-family *)
(* 442-450; the names of a list of texts *)
Definition family_names (items : list text) : list text :=
  flat_map (fun x => filter (fun n => match n with [] => false | _ => true end) (map strip (split_on 44 x))) items.
(* 433-441; [shlex] is shlex.split *)
Definition parse_font_family (shlex : text -> result (list text)) (t : text) : result (list text) :=
  if existsb (fun c => (c =? 34) || (c =? 39)) t then do items <- shlex t; Ok (family_names items)
  else Ok (family_names [t]).

(** ** font *)
Definition ends_comma (t : text) : bool := match rev t with c :: _ => c =? 44 | [] => false end.
(* 366-377; [r] is the reversed rest, the result the family texts and the rest *)
Fixpoint take_family (r : list text) (delimiter : bool) (fam : list text) : list text * list text :=
  match r with
  | [] => (fam, [])
  | x :: r' => if text_eqb x (lit ",") then take_family r' true fam
               else if delimiter || ends_comma x then take_family r' false (x :: fam)
               else (fam, r)
  end.
Definition style_words : list text := map lit ["italic"; "oblique"]%string.
Definition weight_words : list text := map lit ["bold"; "bolder"; "lighter"; "100"; "200"; "300"; "400"; "500"; "600"; "700"; "800"; "900"]%string.
Definition stretch_words : list text := map lit ["ultra-condensed"; "extra-condensed"; "condensed"; "semi-condensed"; "semi-expanded";
  "expanded"; "extra-expanded"; "ultra-expanded"]%string.
Definition system_fonts : list text := map lit ["caption"; "icon"; "menu"; "message-box"; "small-caption"; "status-bar"]%string.
(* 392-415: an unknown word ends the loop *)
Fixpoint font_words (ws : list text) (d : dict sval) : dict sval :=
  match ws with
  | [] => d
  | w :: ws' => if text_eqb w normal then font_words ws' d
                else if mem w style_words then font_words ws' (dset d (lit "font-style") (ST w))
                else if text_eqb w (lit "small-caps") then font_words ws' (dset d (lit "font-variant") (ST w))
                else if mem w weight_words then font_words ws' (dset d (lit "font-weight") (ST w))
                else if mem w stretch_words then font_words ws' (dset d (lit "font-stretch") (ST w))
                else d
  end.
(* 351-364 *)
Definition font_defaults : dict sval :=
  [(lit "font-family", SL []); (lit "font-kerning", ST (lit "auto")); (lit "font-language-override", ST normal);
   (lit "font-size", ST (lit "medium")); (lit "font-size-adjust", ST (lit "none")); (lit "font-stretch", ST normal);
   (lit "font-style", ST normal); (lit "font-variant", ST normal); (lit "font-weight", ST normal); (lit "line-height", ST normal)].
Definition parse_font_items (items : list text) : dict sval :=
  match rev items with
  | [] => []
  | last :: r =>
      if existsb (fun x => mem x system_fonts) items then [] else
      let (fam, rest) := take_family r false [last] in
      let d := dset font_defaults (lit "font-family") (SL (family_names fam)) in
      match rest with
      | [] => []
      | size :: before =>
          let d := match split_on 47 size with
                   | a :: b :: _ => dset (dset d (lit "font-size") (ST a)) (lit "line-height") (ST b)
                   | _ => dset d (lit "font-size") (ST size)
                   end in
          font_words (rev before) d
      end
  end.
Definition parse_font (shlex : text -> result (list text)) (t : text) : result (dict sval) :=
  do items <- shlex t; Ok (parse_font_items items).
