(** Vocabulary for the claims about inline styles. *)
From Verif Require Import PyBase PyText PySplit PyDict PyCase UtilsModel UtilsSpec ShortModel ShortSpec InlineModel.
Local Open Scope nat_scope.

(* what the attribute gives for a property: its last declaration there (C41) *)
Definition attr_of (s : inline) (k : text) : option text := dget (style_to_dict (iattr s)) k.

(* a value of the attribute, as it is kept *)
Definition kept_as (c : css) (v : text) : option text :=
  let w := strip (concat (map ctext (cparse c v))) in
  if nonempty w then Some (if mem (lower w) [lit "currentcolor"; lit "transparent"; lit "default"; lit "inherit";
                                             lit "initial"; lit "revert"; lit "unset"] then lower w else w)
  else None.
(* the declaration [e] of a property after the attribute was looked at: what is
   there wins, the priority stays *)
Definition seen (c : css) (e : entry) (a : option text) : entry :=
  match a with
  | None => e
  | Some v =>
      if match e with Some (w, _) => text_eqb v w | None => false end then e
      else match kept_as c v with Some w => Some (w, entry_priority e) | None => e end
  end.

Definition font_extras : list text :=
  [lit "font-size-adjust"; lit "font-kerning"; lit "font-feature-settings"; lit "font-language-override"; lit "font-min-size";
   lit "font-max-size"; lit "font-optical-sizing"; lit "font-variation-settings"; lit "font-palette"].
Definition all_leaves : list text :=
  leaves SFont ++ leaves SFontSynthesis ++ leaves SMask ++ leaves SMaskBorder ++ leaves SOverflow ++ leaves STextDecoration ++ leaves SWhiteSpace.
Definition all_shorthands : list text := map sname [SFont; SFontSynthesis; SFontVariant; SMask; SMaskBorder; SOverflow; STextDecoration; SWhiteSpace].
(* a property that has nothing to do with a shorthand: [fill], [--x]; keys are lower case *)
Definition plain (k : text) : Prop :=
  key k = k /\ ~ In k all_leaves /\ ~ In k all_shorthands /\ ~ In k font_extras.

Definition inline_ok (s : inline) : Prop := dict_ok (idecls s) /\ ironly s = false.
(* the declarations and the attribute say the same, of plain properties only *)
Definition in_step (s : inline) : Prop :=
  inline_ok s /\ (forall k, In k (dkeys (idecls s)) -> plain k) /\ (forall k, attr_of s k = option_map fst (dget (idecls s) k)) /\
  (idecls s = [] -> iattr s = None) /\ (idecls s <> [] -> iattr s <> None).

Definition irun (c : css) (s : inline) (o : dop) : inline :=
  match o with
  | DSet n v p => match i_set c s n v p with Ok s' => s' | Err _ => s end
  | DRemove n => match i_remove c s n with Ok (s', _) => s' | Err _ => s end
  end.
(* a plain property, and a value the attribute can hold *)
Definition fits (c : css) (o : dop) : Prop :=
  plain (key (dop_name o)) /\ neat (key (dop_name o)) /\
  match o with DSet _ v _ => forall w, stored c v = Some w -> neat w | DRemove _ => True end.
Definition fresh : inline := mkI [] None false.
