(** The number pattern shared by transform.py:27-30, path.py:1178-1181 and
    core.py:992-996, and re.finditer.  \d is restricted to ASCII digits. *)
From Verif Require Import PyBase PyText.
Local Open Scope N_scope.

(** re.finditer for a pattern that never matches the empty text: try to match
    here, otherwise move on one character.  [m t] gives the value of the match
    at the start of [t] and the text after it. *)
Fixpoint finditer_f {A} (m : text -> option (A * text)) (fuel : nat) (t : text) : list A :=
  match fuel with
  | O => []
  | S k => match t with
           | [] => []
           | _ :: t' => match m t with
                        | Some (a, r) => a :: finditer_f m k r
                        | None => finditer_f m k t'
                        end
           end
  end.
Definition finditer {A} (m : text -> option (A * text)) (t : text) : list A :=
  finditer_f m (length t) t.

(* [+-]? *)
Definition scan_sign (t : text) : bool * text :=
  match t with
  | c :: t' => if c =? 43 then (false, t') else if c =? 45 then (true, t') else (false, t)
  | [] => (false, t)
  end.
(* a decimal point *)
Definition scan_dot (t : text) : option text :=
  match t with c :: t' => if c =? 46 then Some t' else None | [] => None end.
(* ([Ee][+-]?\d+)? *)
Definition scan_exp (t : text) : Z * text :=
  match t with
  | c :: t1 =>
      if (c =? 69) || (c =? 101) then
        let '(neg, t2) := scan_sign t1 in
        match takewhile is_digit t2 with
        | [] => (0%Z, t)
        | d => let n := Z.of_N (digits_val d) in
               ((if neg then - n else n)%Z, dropwhile is_digit t2)
        end
      else (0%Z, t)
  | [] => (0%Z, t)
  end.
(* float(...) of the matched text, exactly *)
Definition decimal (neg : bool) (i f : text) (e : Z) : Q :=
  let v := (inject_Z (Z.of_N (digits_val (i ++ f))) * Qpower 10 (e - Z.of_nat (length f)))%Q in
  if neg then (- v)%Q else v.
(* group "number": digits with optional fraction and exponent, or a fraction
   without integer digits, after an optional sign; the second
   alternative is reached only when no digit follows the sign.  The trailing
   separator (comma, white space) is left to finditer, which skips it anyway. *)
Definition scan_number (t : text) : option (Q * text) :=
  let '(neg, t1) := scan_sign t in
  let i := takewhile is_digit t1 in
  let t2 := dropwhile is_digit t1 in
  let '(f, t3) := match scan_dot t2 with
                  | Some t' => (takewhile is_digit t', dropwhile is_digit t')
                  | None => ([], t2)
                  end in
  match i, f with
  | [], [] => None
  | _, _ => let '(e, t4) := scan_exp t3 in Some (decimal neg i f e, t4)
  end.
Definition scan_numbers (t : text) : list Q := finditer scan_number t.
