(** CSS.escape: svgpy/css/__init__.py 300-324. *)
From Verif Require Import PyBase PyText.
#[local] Open Scope N_scope.

(* a digit of the format {:x} *)
Definition hex_digit (d : N) : N := if d <? 10 then 48 + d else 87 + d.
(* '{:x}'.format(ord(ch)); only reached for code points below 128 *)
Definition hex (c : N) : text := if c <? 16 then [hex_digit c] else [hex_digit (c / 16); hex_digit (c mod 16)].
Definition between (a c b : N) : bool := (a <=? c) && (c <=? b).
(* 303-322 at index i of ident; [dash] is whether ident[0] is '-', [single] whether len(ident) is 1 *)
Definition escape_char (i : nat) (dash single : bool) (c : N) : text :=
  if c =? 0 then [65533]
  else if (between 1 c 31 || (c =? 127)) || ((Nat.eqb i 0) && is_digit c) || ((Nat.eqb i 1) && is_digit c && dash) then 92 :: hex c ++ [32]
  else if (Nat.eqb i 0) && (c =? 45) && single then [92; c]
  else if (128 <=? c) || ((c =? 45) || (c =? 95)) || is_digit c || between 65 c 90 || between 97 c 122 then [c]
  else [92; c].
Fixpoint escape_from (i : nat) (dash single : bool) (t : text) : text :=
  match t with [] => [] | c :: t' => escape_char i dash single c ++ escape_from (S i) dash single t' end.
Definition escape (t : text) : text :=
  escape_from 0 (match t with c :: _ => c =? 45 | [] => false end) (match t with [_] => true | _ => false end) t.
