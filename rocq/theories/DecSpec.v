(** What C87 needs to say, without the model's functions: how near two numbers
    are, and the numbers a Decimal or a float can hold. *)
From Coq Require Import Qabs Qpower Qminmax ZArith.
From Verif Require Import PyBase.
#[local] Open Scope Q_scope.

(* [x] is off from [y] by at most an [e]th part of it *)
Definition near (e x y : Q) : Prop := Qabs (x - y) <= e * Qabs y.
(* at most [p] digits of base [b] and an exponent *)
Definition digits (b p : Z) (x : Q) : Prop := exists m e, (Z.abs m <= b ^ p)%Z /\ x == inject_Z m * inject_Z b ^ e.
(* half of the last of 28 digits; half of the last of 53 binary ones *)
Definition u10 : Q := (1#2) * 10 ^ (-27).
Definition u2 : Q := 2 ^ (-53).
(* [a] and [b] differ by at most [e], of one or of the greater of them *)
Definition band (e a b : Q) : Prop := Qabs (a - b) <= e * Qmax 1 (Qmax (Qabs a) (Qabs b)).
(* what conversions add: the float's rounding and a little for the Decimals *)
Definition e_value : Q := u2 + (1#100000000000000000000000000).
