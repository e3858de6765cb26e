(** Font features: CSSUtils.parse_font_feature_settings (svgpy/core.py 452-489) and
    features_from_style (svgpy/opentype.py 627-750).  Text is read as in PySplit and PyInt:
    isdigit() and int() know the ASCII digits only (isdigit() also accepts superscripts,
    for which int() then raises ValueError). *)
From Coq Require Import ZArith NArith List.
From Verif Require Import PyBase PyText PySplit PyDict.
#[local] Open Scope N_scope.
Import ListNotations.

Definition printable (c : N) : bool := (32 <=? c) && (c <=? 126).
Definition is_quote (c : N) : bool := (c =? 34) || (c =? 39).
(* 465-468: quotes around the tag, or one quote that is all there is *)
Definition unquote (t : text) : text :=
  match t with
  | [] => []
  | c :: r => if (c =? last t 0) && is_quote c then removelast r else t
  end.
(* 474-483 *)
Definition switch (items : list text) : option N :=
  match items with
  | v :: _ =>
      if negb (match v with [] => true | _ => false end) && forallb is_digit v then Some (digits_val v)
      else if text_eqb v (lit "on") then Some 1
      else if text_eqb v (lit "off") then Some 0
      else None
  | [] => Some 1
  end.
Fixpoint read_tags (parts : list text) (features : dict N) : result (dict N) :=
  match parts with
  | [] => Ok features
  | p :: r =>
      match split_ws p with
      | [] => Err IndexError
      | t :: items =>
          let tag := unquote t in
          if negb (Nat.eqb (length tag) 4) then read_tags r features
          else if negb (forallb printable tag) then read_tags r features
          else match switch items with Some sw => read_tags r (dset features tag sw) | None => read_tags r features end
      end
  end.
Definition parse_font_feature_settings (value : text) : result (dict N) :=
  if text_eqb value (lit "normal") then Ok [] else read_tags (split_on 44 value) [].

(** ** features_from_style *)
Record fstyle := mkF {
  settings : dict N; kerning : text; alternates : list text; caps : text; east_asian : list text;
  ligatures : list text; numeric : list text; position : text }.
Fixpoint texts_eqb (a b : list text) : bool :=
  match a, b with [], [] => true | x :: a', y :: b' => text_eqb x y && texts_eqb a' b' | _, _ => false end.
Definition put (tag : string) (v : N) (f : dict N) : dict N := dset f (lit tag) v.
Definition has (k : string) (l : list text) : bool := mem (lit k) l.
Definition is (t : text) (k : string) : bool := text_eqb t (lit k).
(* 630-636 *)
Definition with_kerning (st : fstyle) (f : dict N) : dict N :=
  if is (kerning st) "none" then put "vkrn" 0 (put "kern" 0 f)
  else if is (kerning st) "normal" then put "vkrn" 1 (put "kern" 1 f) else f.
(* 638-650 *)
Definition with_alternates (st : fstyle) (f : dict N) : dict N :=
  if texts_eqb (alternates st) [lit "normal"] then f else if has "historical-forms" (alternates st) then put "hist" 1 f else f.
(* 652-666 *)
Definition with_caps (st : fstyle) (f : dict N) : dict N :=
  let c := caps st in
  if is c "small-caps" then put "smcp" 1 f
  else if is c "all-small-caps" then put "smcp" 1 (put "c2sc" 1 f)
  else if is c "petite-caps" then put "pcap" 1 f
  else if is c "all-petite-caps" then put "pcap" 1 (put "c2pc" 1 f)
  else if is c "unicase" then put "unic" 1 f
  else if is c "titling-caps" then put "titl" 1 f
  else f.
(* 668-686 *)
Definition with_east_asian (st : fstyle) (f : dict N) : dict N :=
  let l := east_asian st in
  let f := if has "jis78" l then put "jp78" 1 f
           else if has "jis83" l then put "jp83" 1 f
           else if has "jis90" l then put "jp90" 1 f
           else if has "simplified" l then put "smpl" 1 f
           else if has "traditional" l then put "trad" 1 f
           else f in
  let f := if has "full-width" l then put "fwid" 1 f else if has "proportional-width" l then put "pwid" 1 f else f in
  if has "ruby" l then put "ruby" 1 f else f.
(* 688-717 *)
Definition with_ligatures (st : fstyle) (f : dict N) : dict N :=
  let l := ligatures st in
  if texts_eqb l [lit "normal"] then f
  else if texts_eqb l [lit "none"] then put "calt" 0 (put "hlig" 0 (put "dlig" 0 (put "clig" 0 (put "liga" 0 f))))
  else
    let f := if has "common-ligatures" l then put "clig" 1 (put "liga" 1 f)
             else if has "no-common-ligatures" l then put "clig" 0 (put "liga" 0 f) else f in
    let f := if has "discretionary-ligatures" l then put "dlig" 1 f else if has "no-discretionary-ligatures" l then put "dlig" 0 f else f in
    let f := if has "historical-ligatures" l then put "hlig" 1 f else if has "no-historical-ligatures" l then put "hlig" 0 f else f in
    if has "contextual" l then put "calt" 1 f else if has "no-contextual" l then put "calt" 0 f else f.
(* 719-741 *)
Definition with_numeric (st : fstyle) (f : dict N) : dict N :=
  let l := numeric st in
  if texts_eqb l [lit "normal"] then f
  else
    let f := if has "lining-nums" l then put "lnum" 1 f else if has "oldstyle-nums" l then put "onum" 1 f else f in
    let f := if has "proportional-nums" l then put "pnum" 1 f else if has "tabular-nums" l then put "tnum" 1 f else f in
    let f := if has "diagonal-fractions" l then put "frac" 1 f else if has "stacked-fractions" l then put "afrc" 1 f else f in
    let f := if has "ordinal" l then put "ordn" 1 f else f in
    if has "slashed-zero" l then put "zero" 1 f else f.
(* 743-747 *)
Definition with_position (st : fstyle) (f : dict N) : dict N :=
  if is (position st) "sub" then put "subs" 1 f else if is (position st) "super" then put "sups" 1 f else f.
Definition features (st : fstyle) : dict N :=
  with_position st (with_numeric st (with_ligatures st (with_east_asian st (with_caps st (with_alternates st (with_kerning st (settings st))))))).
(* 749 *)
Definition show (p : text * N) : text := fst p ++ lit "=" ++ digits (snd p).
Definition features_from_style (st : fstyle) : list text := map show (features st).
