(** The content of an element as one sequence of characters and nodes. *)
From Verif Require Import PyBase PyText ContentModel.

Inductive item : Type := Ch (c : N) | Nd (n : nat).
Definition chars (t : text) : list item := map Ch t.
Definition kids_items (l : list (nat * text)) : list item := flat_map (fun k => Nd (fst k) :: chars (snd k)) l.
Definition content (s : elem) : list item := chars (etext s) ++ kids_items (kids s).
(* an argument, a node with the text that follows it *)
Definition arg_items (tl : nat -> text) (a : arg) : list item :=
  match a with AText t => chars t | ANode n => Nd n :: chars (tl n) end.
Definition args_items (tl : nat -> text) (l : list arg) : list item := flat_map (arg_items tl) l.
Definition nodes (l : list arg) : list nat := flat_map (fun a => match a with ANode n => [n] | _ => [] end) l.
(* the texts given before the first node *)
Fixpoint leading_text (l : list arg) : text :=
  match l with AText t :: l' => t ++ leading_text l' | _ => [] end.
Fixpoint after_leading (l : list arg) : list arg :=
  match l with AText t :: l' => after_leading l' | _ => l end.
(* the texts given before any node come first, unchanged; then every node, the
   texts given after it and then the text that followed it already *)
Fixpoint groups (tl : nat -> text) (l : list arg) : list item :=
  match l with
  | [] => []
  | AText _ :: l' => groups tl l'
  | ANode n :: l' => Nd n :: chars (leading_text l') ++ chars (tl n) ++ groups tl l'
  end.
(* the children other than the given nodes *)
Definition keep (ns : list nat) (l : list (nat * text)) : list (nat * text) :=
  filter (fun k => negb (existsb (Nat.eqb (fst k)) ns)) l.
(* no node is a child twice *)
Definition wf (s : elem) : Prop := NoDup (map fst (kids s)).
(* a node that is not a child and has no text after it *)
Definition fresh (s : elem) (n : nat) : Prop := is_kid n (kids s) = false /\ loose s n = [].
