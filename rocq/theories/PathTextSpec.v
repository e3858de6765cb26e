(** What it means that a path survives the trip through text. *)
From Verif Require Import PyBase PyText FormatModel FormatSpec MatrixModel FormatProofs PathModel PathTextModel TransformSpec.
Local Open Scope Q_scope.

(** the same command with each number replaced by its decimal form *)
Definition written (g h : seg) : Prop :=
  kind g = kind h /\ isrelative g = isrelative h /\
  Forall2 Qeq (map (rounded precision) (values g)) (values h).
Definition seg_same (g h : seg) : Prop :=
  kind g = kind h /\ isrelative g = isrelative h /\ Forall2 Qeq (values g) (values h).
Definition valid (g : seg) : bool := match g with SInvalid => false | _ => true end.
(** no closepath directly after a closepath written with the same letter *)
Fixpoint no_double_close (l : list seg) : bool :=
  match l with
  | SZ r :: ((SZ r' :: _) as l') => negb (Bool.eqb r r') && no_double_close l'
  | _ :: l' => no_double_close l'
  | [] => true
  end.
Definition complete (g : seg) : bool := match g with SCNone _ _ => false | _ => true end.
