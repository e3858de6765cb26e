(** What a buffer should hold. *)
From Verif Require Import PyBase PyText.
#[local] Open Scope N_scope.

(** The characters of a text: not surrogates, in the range of Unicode. *)
Definition character (c : N) : Prop := c < 55296 \/ 57343 < c < 1114112.
Definition lone (c : N) : Prop := 55296 <= c <= 57343.
(** The units of a character. *)
Inductive units8 : N -> nat -> Prop :=
  | u8_1 c : c < 128 -> units8 c 1 | u8_2 c : 128 <= c < 2048 -> units8 c 2 | u8_3 c : 2048 <= c < 65536 -> units8 c 3 | u8_4 c : 65536 <= c -> units8 c 4.
Inductive units16 : N -> nat -> Prop := | u16_1 c : c < 65536 -> units16 c 1 | u16_2 c : 65536 <= c -> units16 c 2.
Inductive units32 : N -> nat -> Prop := | u32_1 c : units32 c 1.
(** The characters, each with the number of units before it. *)
Inductive placed (units : N -> nat -> Prop) : nat -> text -> list (N * nat) -> Prop :=
  | pl_nil o : placed units o [] []
  | pl_cons o c n t l : units c n -> placed units (o + n) t l -> placed units o (c :: t) ((c, o) :: l).
(** The text before the first U+0000. *)
Inductive before_nul : text -> text -> Prop :=
  | bn_none t : ~ In 0 t -> before_nul t t
  | bn_some a b : ~ In 0 a -> before_nul (a ++ 0 :: b) a.
(** What one addition to the buffer brings. *)
Inductive brings8 (t : text) : list (N * nat) -> Prop :=
  | b8_text a l : Forall character t -> before_nul t a -> placed units8 0 a l -> brings8 t l
  | b8_lone c : In c t -> lone c -> brings8 t [].
Inductive brings_marked (units : N -> nat -> Prop) (t : text) : list (N * nat) -> Prop :=
  | bm_text l : Forall character t -> placed units 0 (65279 :: t) l -> brings_marked units t l
  | bm_lone c : In c t -> lone c -> brings_marked units t [].
