(** Moving nodes between and within trees, and the documents that own them: Node's
    owner_document, attach_document, detach_document and validity checks (svgpy/dom.py
    614-627, 671-723), Element's addnext, addprevious, append, attach_document,
    detach_document, extend, insert, insert_before, remove and replace (1566-1645,
    1717-1739, 2147-2165, 2236-2252, 2298-2320), node_insert_before (59-77), and the same
    methods of comments and processing instructions (1209-1300, 2510-2600).

    lxml's part is modelled as its source has it: a node that is put somewhere leaves its
    old place; a node is refused inside itself or one of its descendants; beside a root
    only comments and processing instructions may stand.  Texts and tails are C22's, the
    children of a Document C50's.  All Python objects are taken to be held: lxml makes a
    new one, without a document, for a node nobody holds. *)
From Coq Require Import ZArith.
From Verif Require Import PyBase.
#[local] Open Scope nat_scope.

(** A node: its identity, whether it is an element or a comment or processing
    instruction, its _owner_document, its children. *)
Inductive kind := El | Misc.
Inductive tree := Nd (id : nat) (k : kind) (own : option nat) (kids : list tree).
Definition id_of (t : tree) : nat := match t with Nd i _ _ _ => i end.
Definition kids_of (t : tree) : list tree := match t with Nd _ _ _ ks => ks end.
(* all nodes there are: lists of siblings without a parent.  A root element stands in its
   list with the comments and processing instructions beside it. *)
Definition forest := list (list tree).

Definition first_some {A B} (f : A -> option B) : list A -> option B :=
  fix go l := match l with [] => None | x :: r => match f x with Some y => Some y | None => go r end end.
Fixpoint seek (n : nat) (t : tree) : option tree :=
  match t with Nd i k o ks => if Nat.eqb i n then Some t else first_some (seek n) ks end.
Definition seek_in (s : forest) (n : nat) : option tree := first_some (first_some (seek n)) s.
(* the subtree of [r] becomes [g] of it *)
Fixpoint swap (r : nat) (g : tree -> list tree) (t : tree) : list tree :=
  match t with Nd i k o ks => if Nat.eqb i r then g t else [Nd i k o (flat_map (swap r g) ks)] end.
Definition swaps (r : nat) (g : tree -> list tree) (s : forest) : forest := map (flat_map (swap r g)) s.
(* getparent() *)
Fixpoint parent_in (n : nat) (t : tree) : option nat :=
  match t with Nd i _ _ ks => if existsb (fun u => Nat.eqb (id_of u) n) ks then Some i else first_some (parent_in n) ks end.
Definition parent_of (s : forest) (n : nat) : option nat := first_some (first_some (parent_in n)) s.
Definition kind_of (s : forest) (n : nat) : option kind := match seek_in s n with Some (Nd _ k _ _) => Some k | None => None end.
Definition child_list (s : forest) (p : nat) : list nat := match seek_in s p with Some t => map id_of (kids_of t) | None => [] end.

(** ** Documents *)
Definition first_of (a b : option nat) : option nat := match a with Some _ => a | None => b end.
(* 614-627 *)
Fixpoint owner_in (above : option nat) (n : nat) (t : tree) : option (option nat) :=
  match t with Nd i _ o ks => if Nat.eqb i n then Some (first_of o above) else first_some (owner_in (first_of o above) n) ks end.
Definition owner_document (s : forest) (n : nat) : option nat :=
  match first_some (first_some (owner_in None n)) s with Some o => o | None => None end.
(* 671-692, 1632-1645, 1717-1728 *)
Fixpoint own_all (d : option nat) (t : tree) : tree := match t with Nd i k _ ks => Nd i k d (map (own_all d) ks) end.
Definition attach (s : forest) (n : nat) (d : option nat) : forest :=
  match d with None => s | Some _ => swaps n (fun t => [own_all d t]) s end.
Definition detach (s : forest) (n : nat) : forest := swaps n (fun t => [own_all None t]) s.

(** ** lxml *)
Definition step := (forest * option pyerr)%type.
Definition within (s : forest) (n p : nat) : bool :=
  match seek_in s n with Some t => match seek p t with Some _ => true | None => false end | None => false end.
(* the subtree of [n] leaves its place, then the subtree of [r] becomes [g] of both *)
Definition move (s : forest) (n r : nat) (g : tree -> tree -> list tree) : forest :=
  match seek_in s n with Some t => swaps r (g t) (swaps n (fun _ => []) s) | None => s end.
Definition add_last (t u : tree) : list tree := match u with Nd i k o ks => [Nd i k o (ks ++ [t])] end.
Definition add_before (t u : tree) : list tree := [t; u].
Definition add_after (t u : tree) : list tree := [u; t].
Definition lx_append (s : forest) (p n : nat) : step :=
  if within s n p then (s, Some ValueError) else (move s n p add_last, None).
Definition lx_beside (g : tree -> tree -> list tree) (s : forest) (r n : nat) : step :=
  match parent_of s r, kind_of s n with
  | None, Some El => (s, Some TypeError)
  | _, _ => if Nat.eqb r n then (s, None) else if within s n r then (s, Some ValueError) else (move s n r g, None)
  end.
(* a negative index counts from the end; without a child there the node is appended *)
Definition find_child (l : list nat) (i : Z) : option nat :=
  if (i <? 0)%Z then nth_error (rev l) (Z.to_nat (- i - 1)) else nth_error l (Z.to_nat i).
Definition lx_insert (s : forest) (p : nat) (i : Z) (n : nat) : step :=
  match find_child (child_list s p) i with
  | None => lx_append s p n
  | Some c => if within s n p then (s, Some ValueError) else if Nat.eqb c n then (s, None) else (move s n c add_before, None)
  end.
Definition alone (s : forest) (o : option tree) : forest := match o with Some t => s ++ [[t]] | None => s end.
Definition lx_remove (s : forest) (n : nat) : forest := alone (swaps n (fun _ => []) s) (seek_in s n).
(* the old node, which may hold the new one, ends up on its own *)
Definition lx_replace (s : forest) (p old new : nat) : step :=
  if within s new p then (s, Some ValueError)
  else if Nat.eqb old new then (s, None)
  else let rest := swaps new (fun _ => []) s in (alone (move s new old (fun t _ => [t])) (seek_in rest old), None).

(** ** The methods *)
(* 694-712; a comment's methods check the same and do no more *)
Definition pre_insertion (s : forest) (p n : nat) (child : option nat) : option pyerr :=
  match kind_of s p with
  | Some El =>
      if match child with Some c => negb (existsb (Nat.eqb c) (child_list s p)) | None => false end then Some NotFoundError
      else match kind_of s n with Some _ => None | None => Some HierarchyRequestError end
  | _ => Some HierarchyRequestError
  end.
(* 714-723 *)
Definition pre_remove (s : forest) (p n : nat) : option pyerr :=
  match kind_of s p with
  | Some El => if existsb (Nat.eqb n) (child_list s p) then None else Some NotFoundError
  | _ => Some HierarchyRequestError
  end.
(* 1596-1619 with one node, 1621-1630 *)
Definition append (s : forest) (p n : nat) : step :=
  match pre_insertion s p n None with Some e => (s, Some e) | None => lx_append (attach s n (owner_document s p)) p n end.
(* 2147-2154 *)
Definition insert (s : forest) (p : nat) (i : Z) (n : nat) : step :=
  match pre_insertion s p n None with Some e => (s, Some e) | None => lx_insert (attach s n (owner_document s p)) p i n end.
(* 1566-1594; [r] is the node whose method it is *)
Definition beside (g : tree -> tree -> list tree) (s : forest) (r n : nat) : step :=
  match kind_of s r, kind_of s n with
  | Some _, Some _ => lx_beside g (attach s n (owner_document s r)) r n
  | _, _ => (s, Some HierarchyRequestError)
  end.
Definition addnext := beside add_after.
Definition addprevious := beside add_before.
(* the sibling after a child, getnext() *)
Fixpoint next_in (n : nat) (l : list nat) : option nat :=
  match l with [] => None | x :: r => if Nat.eqb x n then match r with [] => None | y :: _ => Some y end else next_in n r end.
(* 59-77 *)
Definition insert_before (s : forest) (p n : nat) (child : option nat) : step :=
  match pre_insertion s p n child with
  | Some e => (s, Some e)
  | None =>
      match match child with Some c => if Nat.eqb c n then next_in n (child_list s p) else child | None => None end with
      | None => append s p n
      | Some c => addprevious s c n
      end
  end.
(* 2236-2252 *)
Definition remove (s : forest) (p n : nat) : step :=
  match pre_remove s p n with Some e => (s, Some e) | None => (lx_remove s n, None) end.
Definition remove_self (s : forest) (n : nat) : step := match parent_of s n with Some p => remove s p n | None => (s, None) end.
(* 2298-2307 *)
Definition replace (s : forest) (p old new : nat) : step :=
  match pre_insertion s p new (Some old) with
  | Some e => (s, Some e)
  | None => match pre_remove s p old with Some e => (s, Some e) | None => lx_replace (attach s new (owner_document s p)) p old new end
  end.
(* 1730-1739, the nodes in a list *)
Fixpoint attach_list (s : forest) (p : nat) (d : option nat) (ns : list nat) : step :=
  match ns with
  | [] => (s, None)
  | n :: r => match pre_insertion s p n None with Some e => (s, Some e) | None => attach_list (attach s n d) p d r end
  end.
Fixpoint append_list (s : forest) (p : nat) (ns : list nat) : step :=
  match ns with
  | [] => (s, None)
  | n :: r => match lx_append s p n with (s', None) => append_list s' p r | x => x end
  end.
Definition extend (s : forest) (p : nat) (ns : list nat) : step :=
  match attach_list s p (owner_document s p) ns with (s', None) => append_list s' p ns | x => x end.

Inductive op :=
  | Append (p n : nat) | InsertAt (p : nat) (i : Z) (n : nat) | InsertBefore (p n : nat) (child : option nat)
  | AddNext (r n : nat) | AddPrevious (r n : nat) | Remove (p n : nat) | RemoveSelf (n : nat) | Replace (p old new : nat)
  | Extend (p : nat) (ns : list nat) | Attach (n : nat) (d : option nat) | Detach (n : nat).
Definition run (s : forest) (o : op) : step :=
  match o with
  | Append p n => append s p n
  | InsertAt p i n => insert s p i n
  | InsertBefore p n c => insert_before s p n c
  | AddNext r n => addnext s r n
  | AddPrevious r n => addprevious s r n
  | Remove p n => remove s p n
  | RemoveSelf n => remove_self s n
  | Replace p a b => replace s p a b
  | Extend p ns => extend s p ns
  | Attach n d => (attach s n d, None)
  | Detach n => (detach s n, None)
  end.
Definition runs (s : forest) (ops : list op) : forest := fold_left (fun s o => fst (run s o)) ops s.
