(** What the words of 'font-variant' and 'font' mean. *)
From Verif Require Import PyBase PyText PySplit PyDict FontTextModel.
#[local] Open Scope N_scope.

Definition word (s : string) (w : text) : Prop := w = lit s.
(* a functional value *)
Definition call (s : string) (w : text) : Prop := exists r, w = lit s ++ lit "(" ++ r.
Inductive belongs : text -> text -> Prop :=
| B_lig w : In w (map lit ["common-ligatures"; "no-common-ligatures"; "discretionary-ligatures"; "no-discretionary-ligatures";
                           "historical-ligatures"; "no-historical-ligatures"; "contextual"; "no-contextual"]%string) ->
    belongs (lit "font-variant-ligatures") w
| B_alt w : word "historical-forms" w \/ call "stylistic" w \/ call "styleset" w \/ call "character-variant" w
            \/ call "swash" w \/ call "ornaments" w \/ call "annotation" w -> belongs (lit "font-variant-alternates") w
| B_caps w : In w (map lit ["small-caps"; "all-small-caps"; "petite-caps"; "all-petite-caps"; "unicase"; "titling-caps"]%string) ->
    belongs (lit "font-variant-caps") w
| B_asian w : In w (map lit ["jis78"; "jis83"; "jis90"; "jis04"; "simplified"; "traditional"; "full-width"; "proportional-width"; "ruby"]%string) ->
    belongs (lit "font-variant-east-asian") w
| B_num w : In w (map lit ["lining-nums"; "oldstyle-nums"; "proportional-nums"; "tabular-nums"; "diagonal-fractions"; "stacked-fractions";
                           "ordinal"; "slashed-zero"]%string) -> belongs (lit "font-variant-numeric") w
| B_pos w : word "sub" w \/ word "super" w -> belongs (lit "font-variant-position") w.
Definition list_longhands : list text := map lit ["font-variant-ligatures"; "font-variant-alternates"; "font-variant-east-asian"; "font-variant-numeric"]%string.
Definition word_longhands : list text := map lit ["font-variant-caps"; "font-variant-position"]%string.

(* the words of h among ws, in their order *)
Inductive picked (P : text -> Prop) : list text -> list text -> Prop :=
| picked_nil : picked P [] []
| picked_yes w ws l : P w -> picked P ws l -> picked P (w :: ws) (w :: l)
| picked_no w ws l : ~ P w -> picked P ws l -> picked P (w :: ws) l.
Definition last_of (l : list text) (d : text) : text := last l d.

(** ** font *)
Inductive sets : text -> text -> Prop :=
| Sets_style w : word "italic" w \/ word "oblique" w -> sets (lit "font-style") w
| Sets_variant : sets (lit "font-variant") (lit "small-caps")
| Sets_weight w : In w (map lit ["bold"; "bolder"; "lighter"; "100"; "200"; "300"; "400"; "500"; "600"; "700"; "800"; "900"]%string) -> sets (lit "font-weight") w
| Sets_stretch w : In w (map lit ["ultra-condensed"; "extra-condensed"; "condensed"; "semi-condensed"; "semi-expanded"; "expanded";
                                  "extra-expanded"; "ultra-expanded"]%string) -> sets (lit "font-stretch") w.
Definition known_word (w : text) : Prop := w = lit "normal" \/ exists h, sets h w.
Definition system_font (w : text) : Prop := In w (map lit ["caption"; "icon"; "menu"; "message-box"; "small-caption"; "status-bar"]%string).
(* a family name: nothing to strip, no comma *)
Definition name_ok (n : text) : Prop := n <> [] /\ strip n = n /\ ~ In 44 n.
(* names separated by commas, as separate items: "a," "b," "c" *)
Fixpoint comma_items (l : list text) : list text :=
  match l with [] => [] | [x] => [x] | x :: l' => (x ++ lit ",") :: comma_items l' end.
