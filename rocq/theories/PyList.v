(** Python list semantics (indices, insertion, slices of step 1) and the mixin
    methods of collections.abc.MutableSequence. *)
From Verif Require Import PyBase.
Local Open Scope Z_scope.

(* l[i]: negative indices count from the end *)
Definition norm_index (n : nat) (i : Z) : option nat :=
  let j := if i <? 0 then i + Z.of_nat n else i in
  if (0 <=? j) && (j <? Z.of_nat n) then Some (Z.to_nat j) else None.
(* insertion points and slice bounds are clamped *)
Definition clamp_index (n : nat) (i : Z) : nat :=
  let j := if i <? 0 then i + Z.of_nat n else i in
  if j <? 0 then O else if Z.of_nat n <? j then n else Z.to_nat j.

Definition list_get {A} (l : list A) (i : Z) : result A :=
  match norm_index (length l) i with
  | Some k => match nth_error l k with Some x => Ok x | None => Err IndexError end
  | None => Err IndexError
  end.
Definition list_set {A} (l : list A) (i : Z) (x : A) : result (list A) :=
  match norm_index (length l) i with
  | Some k => Ok (firstn k l ++ x :: skipn (S k) l)
  | None => Err IndexError
  end.
Definition list_del {A} (l : list A) (i : Z) : result (list A) :=
  match norm_index (length l) i with
  | Some k => Ok (firstn k l ++ skipn (S k) l)
  | None => Err IndexError
  end.
Definition list_insert {A} (l : list A) (i : Z) (x : A) : list A :=
  let k := clamp_index (length l) i in firstn k l ++ x :: skipn k l.
(* l[i:j] and l[i:j] = xs (del l[i:j] is the case xs = []) *)
Definition list_slice {A} (l : list A) (i j : Z) : list A :=
  let a := clamp_index (length l) i in let b := clamp_index (length l) j in
  firstn (b - a) (skipn a l).
Definition list_set_slice {A} (l : list A) (i j : Z) (xs : list A) : list A :=
  let a := clamp_index (length l) i in
  let b := Nat.max a (clamp_index (length l) j) in
  firstn a l ++ xs ++ skipn b l.
