(** What is claimed of walking a tree. *)
From Verif Require Import PyBase ForestModel ForestSpec WalkModel.
#[local] Open Scope nat_scope.

(** A list of siblings: the children of a node, or a root with what stands beside it. *)
Definition kin (s : forest) (l : list nat) : Prop := (exists p k o, Row s p k o l) \/ (exists g, In g s /\ l = map id_of g).
Definition a_element (s : forest) (n : nat) : Prop := exists o l, Row s n El o l.
Definition a_misc (s : forest) (n : nat) : Prop := exists o l, Row s n Misc o l.
(* next to each other, *)
Definition adjacent (l : list nat) (a b : nat) : Prop := exists l1 l2, l = l1 ++ a :: b :: l2.
(* or with no element between *)
Definition adjacent_elements (s : forest) (l : list nat) (a b : nat) : Prop :=
  exists l1 m l2, l = l1 ++ a :: m ++ b :: l2 /\ a_element s b /\ forall x, In x m -> a_misc s x.
Definition adjacent_elements_back (s : forest) (l : list nat) (a b : nat) : Prop :=
  exists l1 m l2, l = l1 ++ b :: m ++ a :: l2 /\ a_element s b /\ forall x, In x m -> a_misc s x.

(** Going on with [step] as long as there is somewhere to go. *)
Inductive steps (step : nat -> option nat) : option nat -> list nat -> Prop :=
  | steps_none : steps step None []
  | steps_some n l : steps step (step n) l -> steps step (Some n) (n :: l).

(** The usual walk through all that is below [top]: to the first child, or else to the next sibling
    of the nearest node, on the way up, that has one. *)
Inductive past (s : forest) (top : nat) : nat -> option nat -> Prop :=
  | past_top : past s top top None
  | past_next m b : m <> top -> next_sibling s m = Some b -> past s top m (Some b)
  | past_up m p r : m <> top -> next_sibling s m = None -> parent_node s m = Some p -> past s top p r -> past s top m r.
Definition onward (s : forest) (top n : nat) (r : option nat) : Prop :=
  match first_child s n with Some c => r = Some c | None => past s top n r end.
Inductive visits (s : forest) (top : nat) : option nat -> list nat -> Prop :=
  | visits_none : visits s top None []
  | visits_some n r l : onward s top n r -> visits s top r l -> visits s top (Some n) (n :: l).

(** Going up as far as there is a parent. *)
Inductive topmost (s : forest) : nat -> nat -> Prop :=
  | topmost_here n : parent_node s n = None -> topmost s n n
  | topmost_up n p r : parent_node s n = Some p -> topmost s p r -> topmost s n r.
(* no two elements beside each other without a parent *)
Definition one_root (s : forest) : Prop :=
  forall g, In g s -> length (filter is_el g) <= 1.
