(** Words for the claims about CSS numeric types. *)
From Verif Require Import PyBase PyText PySplit PyDict CssTypeModel.
From Coq Require Import Permutation.
#[local] Open Scope Z_scope.

(* the same type: the same powers (absent is 0) and hint *)
Definition teq (a b : ntype) : Prop := (forall k, pget a k = pget b k) /\ hint a = hint b.
Definition oteq (a b : option ntype) : Prop :=
  match a, b with Some x, Some y => teq x y | None, None => True | _, _ => False end.
(* the types there should be: powers of the base types and percent; a hint is a
   base type, and a hinted type has no power of percent left *)
Definition good (t : ntype) : Prop :=
  dict_ok (pw t) /\ (forall k, In k (dkeys (pw t)) -> k = percent \/ In k base_keys) /\
  match hint t with Some h => In h base_keys /\ pget t percent = 0 | None => True end.
(* the power of k, percentages counting as h *)
Definition resolved (h : option text) (t : ntype) (k : text) : Z :=
  pget t k + match h with Some h => if text_eqb h k then pget t percent else 0 | None => 0 end.
(* the hint of a combination *)
Definition hints_agree (a b : ntype) : Prop := match hint a, hint b with Some x, Some y => x = y | _, _ => True end.
Definition joint (a b : ntype) : option text := match hint a with Some h => Some h | None => hint b end.
Definition some_order (o : list text) : Prop := Permutation o base_keys.
