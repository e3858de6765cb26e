(** What is claimed of finding elements and of their text. *)
From Coq Require Import Sorted.
From Verif Require Import PyBase PyText PyDict PySplit LookupModel.
#[local] Open Scope N_scope.

(** The node at a path. *)
Fixpoint at_path (n : xnode) (p : path) : option xnode :=
  match p with
  | [] => Some n
  | i :: r => match n with XElem _ _ _ kids => match nth_error kids i with Some (c, _) => at_path c r | None => None end | XOther => None end
  end.
Definition is_elem (n : xnode) : Prop := match n with XElem _ _ _ _ => True | XOther => False end.
(** Document order: an ancestor comes before what is in it, an earlier child
    before a later one. *)
Fixpoint doc_before (p q : path) : Prop :=
  match p, q with
  | [], _ :: _ => True
  | i :: p', j :: q' => (i < j)%nat \/ i = j /\ doc_before p' q'
  | _, [] => False
  end.
(** A list of exactly the elements (below n, or n itself) with a property, in
    document order. *)
Definition lists (include_self : bool) (n : xnode) (P : xnode -> Prop) (l : list path) : Prop :=
  StronglySorted doc_before l /\
  forall p, In p l <-> exists x, at_path n p = Some x /\ is_elem x /\ (include_self = false -> p <> []) /\ P x.

(** Names and attributes. *)
Definition named (q : text) (x : xnode) : Prop :=
  exists nm a t k, x = XElem nm a t k /\
    match x_prefix nm with Some p => q = p ++ lit ":" ++ x_local nm | None => q = x_local nm end.
Definition local_named (l : text) (x : xnode) : Prop := exists nm a t k, x = XElem nm a t k /\ x_local nm = l.
Definition in_ns (u : text) (x : xnode) : Prop :=
  exists nm a t k, x = XElem nm a t k /\ (x_ns nm = Some u \/ x_ns nm = None /\ u = []).
Definition has_attr (k v : text) (x : xnode) : Prop := exists nm a t ks, x = XElem nm a t ks /\ dget a k = Some v.
(** Class names: the words of the attribute, separated by white space. *)
Definition classes (x : xnode) : list text :=
  match x with XElem _ a _ _ => match dget a (lit "class") with Some c => split_ws c | None => [] end | XOther => [] end.
Definition only_spaces (x : xnode) : Prop := forall c, has_attr (lit "class") c x -> forall ch, In ch c -> is_space ch = true -> ch = 32.
Definition plain_name (w : text) : Prop := forall c, In c w -> ~ In c (lit "\^$*+?{}[]|().") /\ c <> 34.

(** All text in a node, in document order (DOM). *)
Fixpoint all_text (n : xnode) : text :=
  match n with
  | XOther => []
  | XElem _ _ txt kids => match txt with Some t => t | None => [] end ++ flat_map (fun ct => all_text (fst ct) ++ match snd ct with Some t => t | None => [] end) kids
  end.
(** Only 'tspan' elements below. *)
Inductive spans : xnode -> Prop :=
| spans_elem nm a txt kids : Forall (fun ct => local_named (lit "tspan") (fst ct) /\ spans (fst ct)) kids -> spans (XElem nm a txt kids).
(** What counts: without children that are no text elements, and without the
    text after them; after a 'text' in a text no text counts either. *)
Definition counted (ct : xnode * option text) : bool :=
  match fst ct with XElem nm _ _ _ => text_eqb (x_local nm) (lit "text") || text_eqb (x_local nm) (lit "tspan") | XOther => false end.
Definition cut_tail (ct : xnode * option text) : xnode * option text :=
  match fst ct with XElem nm _ _ _ => if text_eqb (x_local nm) (lit "tspan") then ct else (fst ct, None) | XOther => ct end.
Fixpoint pruned (n : xnode) : xnode :=
  match n with
  | XOther => XOther
  | XElem nm a txt kids => XElem nm a txt (flat_map (fun ct => if counted ct then [cut_tail (pruned (fst ct), snd ct)] else []) kids)
  end.
