(** Model of the editing interface of svgpy/transform.py SVGTransformList,
    lines 310-345 and 386-540, and of the collections.abc.MutableSequence
    mixins it inherits (pop, clear, reverse, remove, extend).  Items are
    objects with an identity: SVGTransform instances, or anything else. *)
From Verif Require Import PyBase PyList.
Local Open Scope Z_scope.

Inductive obj := Tr (id : nat) | Other (id : nat).
(* isinstance(item, SVGTransform) *)
Definition is_transform (x : obj) : bool := match x with Tr _ => true | Other _ => false end.
(* v is value or v == value: SVGTransform defines no __eq__ *)
Definition obj_eqb (x y : obj) : bool :=
  match x, y with
  | Tr a, Tr b => Nat.eqb a b
  | Other a, Other b => Nat.eqb a b
  | _, _ => false
  end.

(** A method: the items afterwards, and the returned object or exception. *)
Definition outcome := (list obj * result (option obj))%type.

(* transform.py:386-395 append *)
Definition tl_append (l : list obj) (x : obj) : outcome :=
  if is_transform x then (l ++ [x], Ok None) else (l, Err TypeError).
(* transform.py:397-409 append_item *)
Definition tl_append_item (l : list obj) (x : obj) : outcome :=
  match tl_append l x with (l', Ok _) => (l', Ok (Some x)) | (l', Err e) => (l', Err e) end.
(* transform.py:447-460 insert; 462-474 insert_item_before *)
Definition tl_insert (l : list obj) (i : Z) (x : obj) : outcome :=
  if is_transform x then (list_insert l i x, Ok None) else (l, Err TypeError).
Definition tl_insert_before (l : list obj) (x : obj) (i : Z) : outcome :=
  match tl_insert l i x with (l', Ok _) => (l', Ok (Some x)) | (l', Err e) => (l', Err e) end.
(* transform.py:328-340 __setitem__ with an index *)
Definition tl_set (l : list obj) (i : Z) (x : obj) : outcome :=
  if is_transform x then
    match list_set l i x with Ok l' => (l', Ok None) | Err e => (l, Err e) end
  else (l, Err TypeError).
(* transform.py:528-539 replace_item *)
Definition tl_replace (l : list obj) (x : obj) (i : Z) : outcome :=
  match tl_set l i x with (l', Ok _) => (l', Ok (Some x)) | (l', Err e) => (l', Err e) end.
(* transform.py:328-340 __setitem__ with a slice of step 1 *)
Definition tl_set_slice (l : list obj) (i j : Z) (xs : list obj) : outcome :=
  if forallb is_transform xs then (list_set_slice l i j xs, Ok None) else (l, Err TypeError).
(* transform.py:308-309 __delitem__ *)
Definition tl_del (l : list obj) (i : Z) : outcome :=
  match list_del l i with Ok l' => (l', Ok None) | Err e => (l, Err e) end.
Definition tl_del_slice (l : list obj) (i j : Z) : outcome := (list_set_slice l i j [], Ok None).
(* transform.py:516-526 remove_item; MutableSequence.pop: v = self[i]; del self[i]; return v *)
Definition tl_pop (l : list obj) (i : Z) : outcome :=
  match list_get l i with
  | Ok v => match list_del l i with Ok l' => (l', Ok (Some v)) | Err e => (l, Err e) end
  | Err e => (l, Err e)
  end.
(* MutableSequence.clear: pop until IndexError *)
Fixpoint clear_loop (fuel : nat) (l : list obj) : list obj :=
  match fuel with
  | O => l
  | S k => match tl_pop l (-1) with
           | (l', Ok _) => clear_loop k l'
           | (l', Err _) => l'
           end
  end.
Definition tl_clear (l : list obj) : list obj := clear_loop (S (length l)) l.
(* MutableSequence.reverse: self[i], self[n-i-1] = self[n-i-1], self[i] for i in range(n//2) *)
Definition swap_step (n : nat) (l : list obj) (i : nat) : list obj :=
  let a := Z.of_nat i in let b := Z.of_nat n - Z.of_nat i - 1 in
  match list_get l b, list_get l a with
  | Ok x, Ok y => fst (tl_set (fst (tl_set l a x)) b y)
  | _, _ => l
  end.
Definition tl_reverse (l : list obj) : list obj :=
  fold_left (swap_step (length l)) (seq 0 (Nat.div2 (length l))) l.
(* MutableSequence.extend: append each value *)
Fixpoint tl_extend (l xs : list obj) : outcome :=
  match xs with
  | [] => (l, Ok None)
  | x :: xs' => match tl_append l x with
                | (l', Ok _) => tl_extend l' xs'
                | (l', Err e) => (l', Err e)
                end
  end.
(* Sequence.index and MutableSequence.remove *)
Fixpoint index_of (x : obj) (l : list obj) (k : nat) : option nat :=
  match l with
  | [] => None
  | y :: l' => if obj_eqb y x then Some k else index_of x l' (S k)
  end.
Definition tl_remove (l : list obj) (x : obj) : outcome :=
  match index_of x l 0 with
  | Some k => tl_del l (Z.of_nat k)
  | None => (l, Err ValueError)
  end.
(* transform.py:433-445 initialize *)
Definition tl_initialize (l : list obj) (x : obj) : outcome :=
  match tl_append (tl_clear l) x with (l', Ok _) => (l', Ok (Some x)) | (l', Err e) => (l', Err e) end.

Inductive tl_op :=
| Append (x : obj) | AppendItem (x : obj) | Insert (i : Z) (x : obj) | InsertBefore (x : obj) (i : Z)
| SetItem (i : Z) (x : obj) | ReplaceItem (x : obj) (i : Z) | SetSlice (i j : Z) (xs : list obj)
| DelItem (i : Z) | DelSlice (i j : Z) | RemoveItem (i : Z) | Pop (i : Z) | Clear | Reverse
| Extend (xs : list obj) | Remove (x : obj) | Initialize (x : obj).
Definition tl_step (l : list obj) (op : tl_op) : outcome :=
  match op with
  | Append x => tl_append l x
  | AppendItem x => tl_append_item l x
  | Insert i x => tl_insert l i x
  | InsertBefore x i => tl_insert_before l x i
  | SetItem i x => tl_set l i x
  | ReplaceItem x i => tl_replace l x i
  | SetSlice i j xs => tl_set_slice l i j xs
  | DelItem i => tl_del l i
  | DelSlice i j => tl_del_slice l i j
  | RemoveItem i => tl_pop l i
  | Pop i => tl_pop l i
  | Clear => (tl_clear l, Ok None)
  | Reverse => (tl_reverse l, Ok None)
  | Extend xs => tl_extend l xs
  | Remove x => tl_remove l x
  | Initialize x => tl_initialize l x
  end.
