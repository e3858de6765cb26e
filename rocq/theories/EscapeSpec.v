(** Identifiers of CSS Syntax level 3 and their escapes. *)
From Verif Require Import PyBase PyText.
#[local] Open Scope N_scope.

Definition hex_value (c : N) : option N :=
  if (48 <=? c) && (c <=? 57) then Some (c - 48) else if (97 <=? c) && (c <=? 102) then Some (c - 87)
  else if (65 <=? c) && (c <=? 70) then Some (c - 55) else None.
Definition newline (c : N) : bool := (c =? 10) || (c =? 13) || (c =? 12).
(* zero, a surrogate or too large: the replacement character *)
Definition code_point (v : N) : N := if (v =? 0) || ((55296 <=? v) && (v <=? 57343)) || (1114111 <? v) then 65533 else v.
(* "consume an escaped code point": plain, after the backslash, or with some digits read *)
Inductive mode := Plain | Slash | Digits (n : nat) (v : N).
Fixpoint unescape (m : mode) (t : text) : option (list (bool * N)) :=
  match t with
  | [] => Some (match m with Plain => [] | Slash => [(true, 65533)] | Digits _ v => [(true, code_point v)] end)
  | c :: t' =>
      let plain := if c =? 92 then unescape Slash t' else option_map (cons (false, c)) (unescape Plain t') in
      match m with
      | Plain => plain
      | Slash => match hex_value c with
                 | Some d => unescape (Digits 1 d) t'
                 | None => if newline c then None else option_map (cons (true, c)) (unescape Plain t')
                 end
      | Digits n v =>
          match hex_value c with
          | Some d => if (n <? 6)%nat then unescape (Digits (S n) (16 * v + d)) t' else option_map (cons (true, code_point v)) plain
          | None => option_map (cons (true, code_point v)) (if newline c || (c =? 32) || (c =? 9) then unescape Plain t' else plain)
          end
      end
  end.
Definition name_start (x : bool * N) : bool :=
  let (e, c) := x in e || (128 <=? c) || (c =? 95) || ((65 <=? c) && (c <=? 90)) || ((97 <=? c) && (c <=? 122)).
Definition name_char (x : bool * N) : bool := name_start x || (snd x =? 45) || ((48 <=? snd x) && (snd x <=? 57)).
(* an <ident-token>: '--', or an optional '-' and a name start, then name characters *)
Definition identifier (l : list (bool * N)) : bool :=
  forallb name_char l &&
  match l with
  | [] => false
  | (e, c) :: r => if negb e && (c =? 45) then match r with x :: _ => name_start x || (negb (fst x) && (snd x =? 45)) | [] => false end else name_start (e, c)
  end.
Definition nul_replaced (t : text) : text := map (fun c => if c =? 0 then 65533 else c) t.
