(** Model of svgpy/formatter.py.  Numbers are exact rationals; infinities and
    NaN are not modelled. *)
From Verif Require Import PyBase PyText.
Local Open Scope N_scope.

(* round(a / b) to the nearest integer, ties to even: how '{:.nf}' rounds *)
Definition rhe (a b : N) : N :=
  let q := a / b in
  match 2 * (a mod b) ?= b with
  | Lt => q
  | Gt => q + 1
  | Eq => if N.even q then q else q + 1
  end.
(* |x| in units of 10^-p *)
Definition scaled (p : nat) (x : Q) : N :=
  rhe (Z.to_N (Z.abs (Qnum x)) * 10 ^ N.of_nat p) (Npos (Qden x)).
(* exactly p digits *)
Fixpoint frac (p : nat) (k : N) : text :=
  match p with O => [] | S p' => frac p' (k / 10) ++ [48 + k mod 10] end.
Definition negative (x : Q) : bool := (Qnum x <? 0)%Z.
(* '{:.{precision}f}'.format(x): no decimal point when the precision is 0 *)
Definition fixed (p : nat) (x : Q) : text :=
  let n := scaled p x in
  (if negative x then [45] else []) ++ digits (n / 10 ^ N.of_nat p)
  ++ (match p with O => [] | _ => [46] end) ++ frac p (n mod 10 ^ N.of_nat p).
(* formatter.py:23-29 format_number_sequence, one number *)
Definition format_number (p : nat) (x : Q) : text :=
  let s := rstrip 46 (rstrip 48 (fixed p x)) in
  if text_eqb s (lit "-0") then lit "0" else s.
Definition format_number_sequence (p : nat) (l : list Q) : list text := map (format_number p) l.
(* formatter.py:17; "must be greater than zero" *)
Definition precision : nat := 6.

(* formatter.py:44-47 to_coordinate_pair_sequence: zip(it, it) drops an odd
   last element *)
Fixpoint to_pairs {A} (l : list A) : list (A * A) :=
  match l with a :: b :: l' => (a, b) :: to_pairs l' | _ => [] end.
(* formatter.py:32-41 format_coordinate_pair_sequence *)
Definition flat_pairs {A} (l : list (A * A)) : list A := flat_map (fun p => [fst p; snd p]) l.
Definition format_pairs (p : nat) (l : list (Q * Q)) : text :=
  join [32] (map (fun xy => fst xy ++ [44] ++ snd xy)
                 (to_pairs (format_number_sequence p (flat_pairs l)))).
