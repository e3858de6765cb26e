(** What DOMTokenList must mean, in terms of lists of texts only. *)
From Verif Require Import PyBase PyText.
Local Open Scope N_scope.

(* a token no character of which separates words *)
Definition plain (t : text) : Prop := t <> [] /\ forall c, In c t -> is_space c = false.
(* what the DOM accepts as a token: not empty, no ASCII white space *)
Definition dom_token (t : text) : Prop :=
  t <> [] /\ forall c, In c t -> ~ In c [9; 10; 12; 13; 32].

(* number of occurrences *)
Fixpoint occ (x : text) (l : list text) : nat :=
  match l with [] => O | y :: l' => ((if text_eqb x y then 1 else 0) + occ x l')%nat end.

(* the words of an attribute value: [words v l] when v is made of the words
   of l separated by white space *)
Inductive words : text -> list text -> Prop :=
| w_nil : words [] []
| w_space c v l : is_space c = true -> words v l -> words (c :: v) l
| w_last w : plain w -> words w [w]
| w_word w c v l : plain w -> is_space c = true -> words v l -> words (w ++ c :: v) (w :: l).
