(** Vocabulary for the claims about declaration blocks and shorthands. *)
From Verif Require Import PyBase PyText PySplit PyDict PyCase ShortModel.
Local Open Scope nat_scope.

(* the longhands of each shorthand, written out *)
Definition font_variant_leaves : list text :=
  [lit "font-variant-ligatures"; lit "font-variant-caps"; lit "font-variant-alternates";
   lit "font-variant-numeric"; lit "font-variant-east-asian"; lit "font-variant-position"].
Definition leaves (s : shorthand) : list text :=
  match s with
  | SFont => [lit "font-style"; lit "font-weight"; lit "font-stretch"; lit "font-size"; lit "line-height"; lit "font-family"]
             ++ font_variant_leaves
  | SFontSynthesis => [lit "font-synthesis-weight"; lit "font-synthesis-style"]
  | SFontVariant => font_variant_leaves
  | SMask => [lit "mask-image"; lit "mask-position"; lit "mask-size"; lit "mask-repeat"; lit "mask-origin"; lit "mask-clip";
              lit "mask-composite"; lit "mask-mode"]
  | SMaskBorder => [lit "mask-border-source"; lit "mask-border-slice"; lit "mask-border-width"; lit "mask-border-outset";
                    lit "mask-border-repeat"; lit "mask-border-mode"]
  | SOverflow => [lit "overflow-x"; lit "overflow-y"]
  | STextDecoration => [lit "text-decoration-line"; lit "text-decoration-style"; lit "text-decoration-color"]
  | SWhiteSpace => [lit "text-space-collapse"; lit "text-wrap"; lit "text-space-trim"]
  end.
Definition sname (s : shorthand) : text :=
  match s with
  | SFont => lit "font" | SFontSynthesis => lit "font-synthesis" | SFontVariant => lit "font-variant" | SMask => lit "mask"
  | SMaskBorder => lit "mask-border" | SOverflow => lit "overflow" | STextDecoration => lit "text-decoration"
  | SWhiteSpace => lit "white-space"
  end.
(* the properties a declaration of this name writes *)
Definition written (name : text) : list text :=
  match find_shorthand (key name) with Some (s, _) => leaves s | None => [key name] end.

Definition block_ok (b : block) : Prop := dict_ok (bdecls b).

(* what the text given as a value is kept as; None: it is no value *)
Definition stored (c : css) (value : text) : option text :=
  let v := strip (concat (map ctext (cparse c (normalize_text value)))) in
  if nonempty v then Some (if mem (lower v) [lit "currentcolor"; lit "transparent"; lit "default"; lit "inherit";
                                             lit "initial"; lit "revert"; lit "unset"] then lower v else v)
  else None.
Definition good_priority (p : text) : bool := text_eqb p [] || text_eqb p (lit "important").

Inductive dop : Type :=
  | DSet (name value : text) (prio : option text)
  | DRemove (name : text).
Definition dop_name (o : dop) : text := match o with DSet n _ _ => n | DRemove n => n end.
Definition drun (c : css) (b : block) (o : dop) : block :=
  match o with
  | DSet n v p => match set_property c b n v p with Ok b' => b' | Err _ => b end
  | DRemove n => match remove_property c b n with Ok (b', _) => b' | Err _ => b end
  end.

(* the declaration of one property, after a history: only the operations on
   that property count *)
Definition entry := option (text * text).
Definition latest_step (c : css) (q : text) (e : entry) (o : dop) : entry :=
  match o with
  | DSet n v p =>
      if text_eqb (key n) q then
        if nonempty (normalize_text v) then
          let pr := match p with Some p => lower p | None => match e with Some (_, p) => p | None => [] end end in
          match stored c v with
          | Some w => if good_priority pr then Some (w, pr) else e
          | None => e
          end
        else None
      else e
  | DRemove n => if text_eqb (key n) q then None else e
  end.
Definition latest (c : css) (q : text) (h : list dop) (e : entry) : entry := fold_left (latest_step c q) h e.
Definition entry_value (e : entry) : text := match e with Some (v, _) => v | None => [] end.
Definition entry_priority (e : entry) : text := match e with Some (_, p) => p | None => [] end.

(* words: what tinycss2 reads as one identifier *)
Definition word_char (x : N) : bool := is_low x || N.eqb x 45.
Definition word (w : text) : bool :=
  match w with x :: r => is_low x && forallb word_char r | [] => false end.
(* words with one space between, as component values *)
Fixpoint interleave (l : list text) : list comp :=
  match l with
  | [] => []
  | [w] => [mkC CIdent w]
  | w :: l' => mkC CIdent w :: mkC CWs [32%N] :: interleave l'
  end.
(* facts about tinycss2 and the descriptors that reading back needs *)
Record css_ok (c : css) : Prop := {
  ok_words : forall l, Forall (fun w => word w = true) l -> cparse c (join [32%N] l) = interleave l;
  ok_wide : forall p k, is_wide k = true -> csupports c p k = true }.

(** A value of a shorthand made of words: groups of words, each of one property. *)
Definition group := (text * list text)%type.
Definition value_words (gs : list group) : list text := flat_map snd gs.
Definition value_text (gs : list group) : text := join [32%N] (value_words gs).
(* each property has one group, of words it accepts and no property before it in [ps] accepts *)
Definition sorted_out (c : css) (ps : list text) (gs : list group) : Prop :=
  NoDup (map fst gs) /\ (forall p ws, In (p, ws) gs -> In p ps /\ ws <> [] /\ Forall (fun w => word w = true /\ is_wide w = false) ws) /\
  (forall p ws w, In (p, ws) gs -> In w ws -> csupport c p (mkC CIdent w) = Ok (true, false)) /\
  (forall p ws w q l1 l2, In (p, ws) gs -> In w ws -> ps = l1 ++ q :: l2 -> In p l2 ->
     exists f, csupport c q (mkC CIdent w) = Ok (false, f)).
(* the words given to a property *)
Definition given (gs : list group) (p : text) : option text :=
  match find (fun g => text_eqb (fst g) p) gs with Some g => Some (join [32%N] (snd g)) | None => None end.
(* the given values in the order of [ps] *)
Definition given_in_order (gs : list group) (ps : list text) : text :=
  join [32%N] (flat_map (fun p => match given gs p with Some v => [v] | None => [] end) ps).
