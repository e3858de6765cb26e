(** Which keyword turns which OpenType features on or off: a table, as in CSS Fonts. *)
From Coq Require Import ZArith NArith List.
From Verif Require Import PyBase PyText PyDict FeatModel.
#[local] Open Scope N_scope.
Import ListNotations.

(* where a keyword stands: the whole of a property, one of a list, or all of a list *)
Inductive place := Whole (f : fstyle -> text) | Among (f : fstyle -> list text) | Alone (f : fstyle -> list text).
Definition there (st : fstyle) (p : place) (k : text) : Prop :=
  match p with Whole f => f st = k | Among f => In k (f st) | Alone f => f st = [k] end.
Definition row := (string * list (string * N))%type.
(* a group: of its keywords the first in the table that is there counts *)
Definition group := (place * list row)%type.
Definition table : list group :=
  [ (Whole kerning, [("none", [("kern", 0); ("vkrn", 0)]); ("normal", [("kern", 1); ("vkrn", 1)])]);
    (Among alternates, [("historical-forms", [("hist", 1)])]);
    (Whole caps, [("small-caps", [("smcp", 1)]); ("all-small-caps", [("c2sc", 1); ("smcp", 1)]); ("petite-caps", [("pcap", 1)]);
                  ("all-petite-caps", [("c2pc", 1); ("pcap", 1)]); ("unicase", [("unic", 1)]); ("titling-caps", [("titl", 1)])]);
    (Among east_asian, [("jis78", [("jp78", 1)]); ("jis83", [("jp83", 1)]); ("jis90", [("jp90", 1)]); ("simplified", [("smpl", 1)]); ("traditional", [("trad", 1)])]);
    (Among east_asian, [("full-width", [("fwid", 1)]); ("proportional-width", [("pwid", 1)])]);
    (Among east_asian, [("ruby", [("ruby", 1)])]);
    (Alone ligatures, [("none", [("liga", 0); ("clig", 0); ("dlig", 0); ("hlig", 0); ("calt", 0)])]);
    (Among ligatures, [("common-ligatures", [("liga", 1); ("clig", 1)]); ("no-common-ligatures", [("liga", 0); ("clig", 0)])]);
    (Among ligatures, [("discretionary-ligatures", [("dlig", 1)]); ("no-discretionary-ligatures", [("dlig", 0)])]);
    (Among ligatures, [("historical-ligatures", [("hlig", 1)]); ("no-historical-ligatures", [("hlig", 0)])]);
    (Among ligatures, [("contextual", [("calt", 1)]); ("no-contextual", [("calt", 0)])]);
    (Among numeric, [("lining-nums", [("lnum", 1)]); ("oldstyle-nums", [("onum", 1)])]);
    (Among numeric, [("proportional-nums", [("pnum", 1)]); ("tabular-nums", [("tnum", 1)])]);
    (Among numeric, [("diagonal-fractions", [("frac", 1)]); ("stacked-fractions", [("afrc", 1)])]);
    (Among numeric, [("ordinal", [("ordn", 1)])]);
    (Among numeric, [("slashed-zero", [("zero", 1)])]);
    (Whole position, [("sub", [("subs", 1)]); ("super", [("sups", 1)])]) ]%string.
(* the row of a group that counts *)
Definition counts (st : fstyle) (g : group) (r : row) : Prop :=
  exists before after, snd g = before ++ r :: after /\ there st (fst g) (lit (fst r)) /\ forall q, In q before -> ~ there st (fst g) (lit (fst q)).
Definition turned (st : fstyle) (tag : text) (v : N) : Prop :=
  exists g r t, In g table /\ counts st g r /\ In (t, v) (snd r) /\ tag = lit t.

(* a tag as written: four visible characters, no comma *)
Definition tag_ok (t : text) : bool := Nat.eqb (length t) 4 && forallb (fun c => (33 <=? c) && (c <=? 126) && negb (c =? 44)) t.
Inductive value := Bare | On | Off | Num (n : N).
Definition value_of (v : value) : N := match v with Bare | On => 1 | Off => 0 | Num n => n end.
Definition write_value (v : value) : text :=
  match v with Bare => [] | On => lit " on" | Off => lit " off" | Num n => lit " " ++ digits n end.
Definition write (q : N) (l : list (text * value)) : text := join (lit ", ") (map (fun p => [q] ++ fst p ++ [q] ++ write_value (snd p)) l).
(* the last value written for a tag *)
Fixpoint last_value (tag : text) (l : list (text * value)) : option N :=
  match l with
  | [] => None
  | (t, v) :: r => match last_value tag r with Some n => Some n | None => if text_eqb t tag then Some (value_of v) else None end
  end.
Definition read_feature (t : text) : text * N := (firstn 4 t, digits_val (skipn 5 t)).
