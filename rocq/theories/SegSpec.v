(** What cutting a text means, without code units: pieces before and after a
    cursor. *)
From Coq Require Import NArith ZArith List.
From Verif Require Import PyBase PyText SegModel.
Import ListNotations.
#[local] Open Scope N_scope.

(** Unicode scalar values other than U+0000: what XML text consists of. *)
Definition scalar (c : N) : Prop := (0 < c < 55296) \/ (57343 < c < 1114112).
(** Number of UTF-16 code units. *)
Definition width (t : text) : nat := fold_right (fun c n => ((if N.ltb c 65536 then 1 else 2) + n)%nat) 0%nat t.
(** The ends of consecutive pieces. *)
Fixpoint ends (a : nat) (ps : list text) : list nat :=
  match ps with [] => [] | p :: ps' => (a + width p)%nat :: ends (a + width p)%nat ps' end.
(** An engine that breaks every text at the ends of the pieces that [cut]
    gives of it. *)
Definition cuts (cut : text -> list text) (t : text) : Prop := concat (cut t) = t /\ Forall (fun p => p <> []) (cut t).
Definition honest (e : engine) (cut : text -> list text) : Prop :=
  forall t, Forall scalar t -> cuts cut t /\ e_breaks e (utf16 t) = ends 0 (cut t).

(** The cursor: pieces before it, the last one first; pieces after it. *)
Definition cursor : Type := list text * list text.
Definition whole (z : cursor) : list text := rev (fst z) ++ snd z.
Definition offset (z : cursor) : Z := Z.of_nat (width (concat (rev (fst z)))).
Definition z_step (cut : text -> list text) (z : cursor) (c : call) : answer * cursor :=
  match c with
  | First => (Offset 0, ([], whole z))
  | Last => let z' := (rev (whole z), []) in (Offset (offset z'), z')
  | Next => match snd z with [] => (Offset (-1), z) | p :: r => let z' := (p :: fst z, r) in (Offset (offset z'), z') end
  | Previous => match fst z with [] => (Offset (-1), z) | p :: l => let z' := (l, p :: snd z) in (Offset (offset z'), z') end
  | Current => (Offset (offset z), z)
  | SetText t => (Nothing, ([], cut t))
  | Iter => (Nothing, ([], whole z))
  | PyNext => match snd z with [] => (Stop, z) | p :: r => (Piece p, (p :: fst z, r)) end
  | ForAll => (Pieces (whole z), (rev (whole z), []))
  | Reversed => (Pieces (rev (whole z)), (rev (whole z), []))
  end.
Fixpoint z_steps (cut : text -> list text) (z : cursor) (cs : list call) : list answer * cursor :=
  match cs with
  | [] => ([], z)
  | c :: cs' => let '(a, z1) := z_step cut z c in let '(as_, z2) := z_steps cut z1 cs' in (a :: as_, z2)
  end.
Definition z_open (cut : text -> list text) (t : option text) : cursor := match t with None => ([], []) | Some t => ([], cut t) end.
(** Only texts of scalar values are set. *)
Definition sets_scalar (c : call) : Prop := match c with SetText t => Forall scalar t | _ => True end.
(** The text that was set last. *)
Fixpoint text_now (t : text) (cs : list call) : text :=
  match cs with [] => t | SetText t' :: cs' => text_now t' cs' | _ :: cs' => text_now t cs' end.

(** Limits that climb from [a] to [n]. *)
Fixpoint climbs (a : nat) (ms : list nat) (n : nat) : Prop :=
  match ms with [] => a = n | m :: ms' => (a < m)%nat /\ climbs m ms' n end.
(** A part of a text in logical order. *)
Definition logical (ltr : bool) (p : part) : list text := if Bool.eqb ltr (pt_rtl p) then rev (pt_lines p) else pt_lines p.
(** The characters of a text within the code units from [a] to [m]; the text
    starts at [o]. *)
Fixpoint spanned (o a m : nat) (t : text) : text :=
  match t with
  | [] => []
  | c :: r => (if andb (Nat.leb a o) (Nat.ltb o m) then [c] else []) ++ spanned (o + width [c]) a m r
  end.
(** The part that a logical run from [a] should be. *)
Definition proper_part (cut : text -> list text) (ltr : bool) (t : text) (a : nat) (r : nat * N) : part :=
  let ls := cut (spanned 0 a (fst r) t) in
  mkPart a (N.odd (snd r)) (if Bool.eqb ltr (N.odd (snd r)) then rev ls else ls).
Fixpoint proper_parts (cut : text -> list text) (ltr : bool) (t : text) (a : nat) (rs : list (nat * N)) : list part :=
  match rs with [] => [] | r :: rs' => proper_part cut ltr t a r :: proper_parts cut ltr t (fst r) rs' end.

(** Runs of a text in logical order, each with whether it is right-to-left, and
    an order in which they are seen, as ICU tells it. *)
Definition nth_run (rs : list (text * bool)) (i : nat) : text * bool := nth i rs ([], false).
Definition told (rs : list (text * bool)) (i : nat) : nat * nat * N :=
  (width (concat (map fst (firstn i rs))), width (fst (nth_run rs i)), if snd (nth_run rs i) then 1 else 0).
Definition seen (r : text * bool) : text := if snd r then rev (fst r) else fst r.
