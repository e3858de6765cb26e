(** Specification vocabulary: reading a plain decimal numeral. *)
From Verif Require Import PyBase PyText.
From Coq Require Qabs.
Local Open Scope N_scope.

Definition Qof (n : N) : Q := inject_Z (Z.of_N n).
(** digits [i] before and [f] after the point *)
Definition dec_value (i f : text) : Q :=
  (Qof (digits_val i) + Qof (digits_val f) / Qof (10 ^ N.of_nat (length f)))%Q.
Definition unsigned_value (t : text) : option Q :=
  let i := takewhile is_digit t in
  match i, dropwhile is_digit t with
  | _ :: _, [] => Some (dec_value i [])
  | _ :: _, 46 :: f => match f with
                       | [] => None
                       | _ => if forallb is_digit f then Some (dec_value i f) else None
                       end
  | _, _ => None
  end.
(** the value of a decimal numeral [-]ddd[.ddd] *)
Definition numeral (t : text) : option Q :=
  match t with
  | 45 :: t' => match unsigned_value t' with Some q => Some (- q)%Q | None => None end
  | _ => unsigned_value t
  end.

(** canonical numerals: no superfluous zero, no bare point, no negative zero *)
Definition canonical (t : text) : Prop :=
  exists sgn i f, t = sgn ++ i ++ (match f with [] => [] | _ => 46 :: f end) /\
    (sgn = [] \/ sgn = [45]) /\ i <> [] /\ forallb is_digit i = true /\ forallb is_digit f = true /\
    (forall a, f <> a ++ [48]) /\ (forall a, i = 48 :: a -> a = []) /\
    (sgn = [45] -> i = [48] -> f <> []).
(** rounding: the nearest multiple of 10^-p *)
Definition nearest (p : nat) (x r : Q) : Prop :=
  (exists k : Z, r == inject_Z k / Qof (10 ^ N.of_nat p))%Q /\
  (Qabs.Qabs (r - x) <= (1 # 2) / Qof (10 ^ N.of_nat p))%Q.
