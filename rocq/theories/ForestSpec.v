(** What moving nodes does, said about each node by itself: its parent's list of children
    and its document. *)
From Coq Require Import ZArith Permutation.
From Verif Require Import PyBase ForestModel.
#[local] Open Scope nat_scope.

Fixpoint ids (t : tree) : list nat := match t with Nd i _ _ ks => i :: flat_map ids ks end.
Definition all (s : forest) : list nat := flat_map (flat_map ids) s.
(* a node, its kind, its own _owner_document and its children *)
Definition row := (nat * kind * option nat * list nat)%type.
Fixpoint nodes (t : tree) : list row := match t with Nd i k o ks => (i, k, o, map id_of ks) :: flat_map nodes ks end.
Definition facts (s : forest) : list row := flat_map (flat_map nodes) s.
Definition Row (s : forest) (q : nat) (k : kind) (o : option nat) (l : list nat) : Prop := In (q, k, o, l) (facts s).
(* each node is there once, and only elements have children *)
Record proper (s : forest) : Prop := {
  p_once : NoDup (all s);
  p_leaf : forall q o l, Row s q Misc o l -> l = [] }.
Definition parentless (s : forest) (q : nat) : Prop := forall p k o l, Row s p k o l -> ~ In q l.
(* the node itself and its descendants *)
Inductive below (s : forest) (n : nat) : nat -> Prop :=
  | below_self : In n (all s) -> below s n n
  | below_child q k o l c : below s n q -> Row s q k o l -> In c l -> below s n c.
(* the document of a node: its own, or else its parent's *)
Inductive doc (s : forest) : nat -> option nat -> Prop :=
  | doc_own q k d l : Row s q k (Some d) l -> doc s q (Some d)
  | doc_up q k l p k' o' l' d : Row s q k None l -> Row s p k' o' l' -> In q l' -> doc s p d -> doc s q d
  | doc_none q k l : Row s q k None l -> parentless s q -> doc s q None.

Definition minus (n : nat) (l : list nat) : list nat := filter (fun x => negb (Nat.eqb x n)) l.
(* [n] put before or after [c], or in its stead, in a list *)
Definition before (c n : nat) (l : list nat) : list nat := flat_map (fun x => if Nat.eqb x c then [n; x] else [x]) l.
Definition after (c n : nat) (l : list nat) : list nat := flat_map (fun x => if Nat.eqb x c then [x; n] else [x]) l.
Definition instead (c n : nat) (l : list nat) : list nat := map (fun x => if Nat.eqb x c then n else x) l.
(* the documents of [n] and of what is below it become [d], if there is one *)
Definition given (s : forest) (n : nat) (d : option nat) (q : nat) (o o' : option nat) : Prop :=
  (below s n q -> o' = match d with Some _ => d | None => o end) /\ (~ below s n q -> o' = o).
(* every node is still there with its kind; its children are [f] of what they were; the
   documents below [n] are [d] *)
Definition changed (s s' : forest) (n : nat) (d : option nat) (f : nat -> list nat -> list nat) : Prop :=
  Permutation (all s) (all s') /\
  forall q k o l, Row s q k o l -> exists o', Row s' q k o' (f q l) /\ given s n d q o o'.
(* parents and children have the same document, and all have one *)
Definition same_docs (s : forest) : Prop :=
  forall q k o l, Row s q k o l -> exists d, o = Some d /\ forall c k' o' l', In c l -> Row s c k' o' l' -> o' = Some d.
(* the same for several nodes *)
Definition handed (s s' : forest) (ns : list nat) (d : option nat) (f : nat -> list nat -> list nat) : Prop :=
  Permutation (all s) (all s') /\
  forall q k o l, Row s q k o l -> exists o', Row s' q k o' (f q l) /\
    ((exists n, In n ns /\ below s n q) -> o' = match d with Some _ => d | None => o end) /\ (~ (exists n, In n ns /\ below s n q) -> o' = o).
(* all of a list taken out *)
Definition without (ns l : list nat) : list nat := filter (fun x => negb (existsb (Nat.eqb x) ns)) l.
(* calls after which the documents agree again *)
Definition tame (s : forest) (o : op) : Prop :=
  match o with
  | Append _ _ | InsertAt _ _ _ | InsertBefore _ _ _ | Remove _ _ | RemoveSelf _ | Replace _ _ _ => True
  | AddNext _ _ | AddPrevious _ _ => snd (run s o) <> Some TypeError
  | Extend _ _ => snd (run s o) = None
  | Attach _ _ | Detach _ => False
  end.
Fixpoint tames (s : forest) (ops : list op) : Prop := match ops with [] => True | o :: r => tame s o /\ tames (fst (run s o)) r end.
(* the child at an index: from the end if it is negative *)
Definition pick (l : list nat) (i : Z) : option nat :=
  if (0 <=? i)%Z then nth_error l (Z.to_nat i) else if (0 <=? Z.of_nat (length l) + i)%Z then nth_error l (Z.to_nat (Z.of_nat (length l) + i)) else None.
(* the same trees, whatever the documents *)
Definition same_trees (s s' : forest) : Prop := forall q k o l, Row s q k o l -> exists o', Row s' q k o' l.
