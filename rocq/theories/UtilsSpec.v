(** What style texts, case-insensitive mappings and qualified names mean. *)
From Verif Require Import PyBase PyText PySplit PyDict UtilsModel.
#[local] Open Scope N_scope.

(** ** Style texts *)
Definition free (c : N) (t : text) : Prop := ~ In c t.
(* a declaration reading k as v *)
Definition declares (x k v : text) : Prop :=
  exists a b, x = a ++ [58] ++ b /\ free 58 a /\ free 58 b /\ strip a = k /\ strip b = v.
(* the last declaration of k in t gives it the value v *)
Definition last_declared (t k v : text) : Prop :=
  exists before x after, t = join [59] (before ++ x :: after) /\ Forall (free 59) (before ++ x :: after)
    /\ declares x k v /\ forall y w, In y after -> ~ declares y k w.
(* a name or value that can be written and read back *)
Definition neat (t : text) : Prop := strip t = t /\ free 59 t /\ free 58 t.
Definition declaration (p : text * text) : text := fst p ++ lit ": " ++ snd p ++ lit ";".
(* order of code points, a prefix first *)
Inductive before : text -> text -> Prop :=
| before_nil t : before [] t
| before_lt c d a b : c < d -> before (c :: a) (d :: b)
| before_eq c a b : before a b -> before (c :: a) (c :: b).

(** ** Case-insensitive mappings as histories *)
Definition op_key {V} (o : ci_op V) : text := match o with CSet k _ => k | CDel k => k end.
(* the value after the operations, given the value before *)
Fixpoint value_after {V} (low : text -> text) (h : list (ci_op V)) (k : text) (v : option V) : option V :=
  match h with
  | [] => v
  | o :: h => value_after low h k (if text_eqb (low (op_key o)) (low k) then match o with CSet _ x => Some x | CDel _ => None end else v)
  end.
(* the key spelt so was introduced by this operation and is still there *)
Definition born {V} (low : text -> text) (past : list (ci_op V)) (o : ci_op V) (rest : list (ci_op V)) : bool :=
  match o with
  | CSet k _ => negb (is_some (value_after low past k None))
                && forallb (fun o => match o with CDel k' => negb (text_eqb (low k') (low k)) | _ => true end) rest
  | CDel _ => false
  end.
Fixpoint births {V} (low : text -> text) (past h : list (ci_op V)) : list text :=
  match h with
  | [] => []
  | o :: h => (if born low past o h then [op_key o] else []) ++ births low (past ++ [o]) h
  end.

(** ** Qualified names *)
Definition no_space (t : text) : Prop := forall c, In c t -> ~ In c [9; 10; 12; 13; 32].
(* the three ways of writing a name *)
Inductive written (nsmap : dict text) : text -> option text -> option text -> text -> Prop :=
| W_clark ns l : free 125 ns -> written nsmap ([123] ++ ns ++ [125] ++ l) None (Some ns) l
| W_prefix p l : free 58 p -> (forall ns l', p ++ [58] ++ l <> [123] ++ ns ++ [125] ++ l') ->
    written nsmap (p ++ [58] ++ l) (Some p) (dget nsmap p) l
| W_plain l : free 58 l -> (forall ns l', l <> [123] ++ ns ++ [125] ++ l') -> written nsmap l None None l.
