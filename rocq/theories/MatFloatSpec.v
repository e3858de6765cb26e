(** What C88 needs to say: which plans add up a whole row and column, exact
    rows times columns, sizes of entries, and numbers the rounding keeps. *)
From Coq Require Import Qabs Qpower ZArith List Bool Permutation.
From Verif Require Import PyBase MatrixModel MatrixSpec FloatSpec MatFloatModel.
Import ListNotations.
#[local] Open Scope Q_scope.

(* the products a plan adds up *)
Fixpoint terms (p : plan) : list nat :=
  match p with PZero => [] | PTerm i => [i] | PSum p q => terms p ++ terms q | PFma i p => i :: terms p end.
(* each of the four products once, in whatever order and however grouped *)
Definition complete (p : plan) : Prop := Permutation (terms p) [1; 2; 3; 4]%nat.

(* row times column *)
Definition dot (a b : nat -> Q) : Q := a 1%nat * b 1%nat + a 2%nat * b 2%nat + a 3%nat * b 3%nat + a 4%nat * b 4%nat.
(* the same with all numbers taken positive: the size against which errors are measured *)
Definition vsize (v : vec4) : vec4 := V4 (Qabs (v1 v)) (Qabs (v2 v)) (Qabs (v3 v)) (Qabs (v4 v)).
Definition msize (m : mat) : mat := M4 (vsize (col1 m)) (vsize (col2 m)) (vsize (col3 m)) (vsize (col4 m)).
(* off by at most a part of a size, entry by entry *)
Definition vnear (e : Q) (x y s : vec4) : Prop := forall r, Qabs (vget x r - vget y r) <= e * vget s r.
Definition mnear (e : Q) (x y s : mat) : Prop := forall r c, Qabs (entry x r c - entry y r c) <= e * entry s r c.

(* arrays of numbers the rounding keeps *)
Definition vkept (f : Q -> Q) (v : vec4) : Prop := forall r, f (vget v r) == vget v r.
Definition mkept (f : Q -> Q) (m : mat) : Prop := forall r c, f (entry m r c) == entry m r c.

(* the last row of a transformation that is not a projection *)
Definition affine (m : mat) : Prop := m14 m == 0 /\ m24 m == 0 /\ m34 m == 0 /\ m44 m == 1.
