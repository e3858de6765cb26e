(** The abstract editing interface: a plain list of transforms.  Every
    operation is described by positions: the items before, the items after. *)
From Verif Require Import PyBase TransformListModel.
Local Open Scope Z_scope.

(** [at_index l i a x b]: l = a ++ x :: b with x at Python index i. *)
Definition at_index (l : list obj) (i : Z) (a : list obj) (x : obj) (b : list obj) : Prop :=
  l = a ++ x :: b /\ (i = Z.of_nat (length a) \/ i = - Z.of_nat (length (x :: b))).
(** [cut l i a b]: l = a ++ b cut at the Python insertion point i. *)
Definition cut (l : list obj) (i : Z) (a b : list obj) : Prop :=
  l = a ++ b /\
  ((0 <= i /\ (Z.of_nat (length a) = i \/ (b = [] /\ Z.of_nat (length l) < i))) \/
   (i < 0 /\ (- Z.of_nat (length b) = i \/ (a = [] /\ i < - Z.of_nat (length l))))).
Definition out_of_range (l : list obj) (i : Z) : Prop :=
  i < - Z.of_nat (length l) \/ Z.of_nat (length l) <= i.

(** Accepted operations: the list before, the list after, the result. *)
Inductive accepts : list obj -> tl_op -> list obj -> option obj -> Prop :=
| A_append l n : accepts l (Append (Tr n)) (l ++ [Tr n]) None
| A_append_item l n : accepts l (AppendItem (Tr n)) (l ++ [Tr n]) (Some (Tr n))
| A_insert l i n a b : cut l i a b -> accepts l (Insert i (Tr n)) (a ++ Tr n :: b) None
| A_insert_before l i n a b : cut l i a b ->
    accepts l (InsertBefore (Tr n) i) (a ++ Tr n :: b) (Some (Tr n))
| A_set l i n a x b : at_index l i a x b -> accepts l (SetItem i (Tr n)) (a ++ Tr n :: b) None
| A_replace l i n a x b : at_index l i a x b ->
    accepts l (ReplaceItem (Tr n) i) (a ++ Tr n :: b) (Some (Tr n))
| A_set_slice l i j xs a m b a' : cut l i a (m ++ b) -> cut l j a' b -> a' = a ++ m ->
    Forall (fun x => is_transform x = true) xs -> accepts l (SetSlice i j xs) (a ++ xs ++ b) None
| A_set_slice_empty l i j xs a b a' b' : cut l i a b -> cut l j a' b' -> (length a' <= length a)%nat ->
    Forall (fun x => is_transform x = true) xs -> accepts l (SetSlice i j xs) (a ++ xs ++ b) None
| A_del l i a x b : at_index l i a x b -> accepts l (DelItem i) (a ++ b) None
| A_del_slice l i j a m b a' : cut l i a (m ++ b) -> cut l j a' b -> a' = a ++ m ->
    accepts l (DelSlice i j) (a ++ b) None
| A_del_slice_empty l i j a b a' b' : cut l i a b -> cut l j a' b' -> (length a' <= length a)%nat ->
    accepts l (DelSlice i j) l None
| A_remove_item l i a x b : at_index l i a x b -> accepts l (RemoveItem i) (a ++ b) (Some x)
| A_pop l i a x b : at_index l i a x b -> accepts l (Pop i) (a ++ b) (Some x)
| A_clear l : accepts l Clear [] None
| A_reverse l : accepts l Reverse (rev l) None
| A_extend l xs : Forall (fun x => is_transform x = true) xs -> accepts l (Extend xs) (l ++ xs) None
| A_remove x a b : ~ In x a -> accepts (a ++ x :: b) (Remove x) (a ++ b) None
| A_initialize l n : accepts l (Initialize (Tr n)) [Tr n] (Some (Tr n)).

(** Rejected operations and the exception. *)
Inductive rejects : list obj -> tl_op -> pyerr -> Prop :=
| R_append l n : rejects l (Append (Other n)) TypeError
| R_append_item l n : rejects l (AppendItem (Other n)) TypeError
| R_insert l i n : rejects l (Insert i (Other n)) TypeError
| R_insert_before l i n : rejects l (InsertBefore (Other n) i) TypeError
| R_set l i n : rejects l (SetItem i (Other n)) TypeError
| R_set_range l i n : out_of_range l i -> rejects l (SetItem i (Tr n)) IndexError
| R_replace l i n : rejects l (ReplaceItem (Other n) i) TypeError
| R_replace_range l i n : out_of_range l i -> rejects l (ReplaceItem (Tr n) i) IndexError
| R_set_slice l i j xs n : In (Other n) xs -> rejects l (SetSlice i j xs) TypeError
| R_del l i : out_of_range l i -> rejects l (DelItem i) IndexError
| R_remove_item l i : out_of_range l i -> rejects l (RemoveItem i) IndexError
| R_pop l i : out_of_range l i -> rejects l (Pop i) IndexError
| R_extend l xs n : In (Other n) xs -> rejects l (Extend xs) TypeError
| R_remove l x : ~ In x l -> rejects l (Remove x) ValueError
| R_initialize l n : rejects l (Initialize (Other n)) TypeError.

(** Rejected operations whose partial effect survives in the code: extend
    keeps the items before the bad one, initialize has already cleared. *)
Definition leaky (op : tl_op) : bool :=
  match op with
  | Extend xs => negb (forallb is_transform xs)
  | Initialize x => negb (is_transform x)
  | _ => false
  end.
