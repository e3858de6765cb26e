(** Children of an element: Element.append, prepend, insert_before, remove
    and replace (svgpy/dom.py 48-88, 1596-1619, 2147-2165, 2195-2252,
    2298-2320).

    As in lxml, the text of an element is kept in pieces: [etext] before the
    first child, and with every child the text that follows it (its tail).
    A node carries its tail with it wherever it is moved.  [loose n] is the
    tail of a node that is not a child of this element.  None and '' are the
    same text.  Not modelled: attach_document; the checks of
    ensure_pre_insertion_validity on node types (an argument of another type
    raises HierarchyRequestError); lxml's refusal of an ancestor. *)
From Verif Require Import PyBase PyText.

Record elem := mkEl { etext : text; kids : list (nat * text); loose : nat -> text }.
Inductive arg : Type := AText (t : text) | ANode (n : nat).

Fixpoint is_kid (n : nat) (l : list (nat * text)) : bool :=
  match l with [] => false | (m, _) :: l' => Nat.eqb m n || is_kid n l' end.
Fixpoint kid_tail (n : nat) (l : list (nat * text)) : option text :=
  match l with [] => None | (m, t) :: l' => if Nat.eqb m n then Some t else kid_tail n l' end.
Fixpoint drop_kid (n : nat) (l : list (nat * text)) : list (nat * text) :=
  match l with [] => [] | (m, t) :: l' => if Nat.eqb m n then l' else (m, t) :: drop_kid n l' end.
Fixpoint set_tail (n : nat) (f : text -> text) (l : list (nat * text)) : list (nat * text) :=
  match l with [] => [] | (m, t) :: l' => if Nat.eqb m n then (m, f t) :: l' else (m, t) :: set_tail n f l' end.
Fixpoint insert_at (c : nat) (x : nat * text) (l : list (nat * text)) : list (nat * text) :=
  match l with [] => [] | (m, t) :: l' => if Nat.eqb m c then x :: (m, t) :: l' else (m, t) :: insert_at c x l' end.

(* the tail a node has now *)
Definition tail_of (s : elem) (n : nat) : text :=
  match kid_tail n (kids s) with Some t => t | None => loose s n end.
(* lxml element.append(node): the node leaves its old place, with its tail *)
Definition lx_append (s : elem) (n : nat) : elem :=
  mkEl (etext s) (drop_kid n (kids s) ++ [(n, tail_of s n)]) (loose s).
(* lxml child.addprevious(node); before itself is no change *)
Definition lx_addprevious (s : elem) (c n : nat) : elem :=
  if Nat.eqb c n then s else
  mkEl (etext s) (insert_at c (n, tail_of s n) (drop_kid n (kids s))) (loose s).
(* lxml element.remove(child) *)
Definition lx_remove (s : elem) (n : nat) : elem :=
  mkEl (etext s) (drop_kid n (kids s)) (fun x => if Nat.eqb x n then tail_of s n else loose s x).
(* lxml element.replace(old, new): the new node takes the place, both keep
   their tails; replacing a node by itself is no change *)
Fixpoint put_kid (old : nat) (x : nat * text) (l : list (nat * text)) : list (nat * text) :=
  match l with [] => [] | (m, t) :: l' => if Nat.eqb m old then x :: l' else (m, t) :: put_kid old x l' end.
Definition lx_replace (s : elem) (old new : nat) : elem :=
  if Nat.eqb old new then s else
  mkEl (etext s) (put_kid old (new, tail_of s new) (drop_kid new (kids s)))
       (fun x => if Nat.eqb x old then tail_of s old else loose s x).

(* dom.py 48-56 and 80-88; target None is the element itself (tail=False),
   Some n the node n (tail=True), a child of the element *)
Definition append_data (s : elem) (target : option nat) (d : text) : elem :=
  match target with
  | None => mkEl (etext s ++ d) (kids s) (loose s)
  | Some n => mkEl (etext s) (set_tail n (fun t => t ++ d) (kids s)) (loose s)
  end.
Definition prepend_data (s : elem) (target : option nat) (d : text) : elem :=
  match target with
  | None => mkEl (d ++ etext s) (kids s) (loose s)
  | Some n => mkEl (etext s) (set_tail n (fun t => d ++ t) (kids s)) (loose s)
  end.
(* if len(data) > 0: ... *)
Definition append_data_if (s : elem) (target : option nat) (d : text) : elem :=
  match d with [] => s | _ => append_data s target d end.
Definition prepend_data_if (s : elem) (target : option nat) (d : text) : elem :=
  match d with [] => s | _ => prepend_data s target d end.

(* dom.py 1596-1619 *)
Fixpoint append_loop (s : elem) (target : option nat) (data : text) (l : list arg) : elem :=
  match l with
  | [] => append_data_if s target data
  | AText t :: l' => append_loop s target (data ++ t) l'
  | ANode n :: l' => append_loop (lx_append (append_data_if s target data) n) (Some n) [] l'
  end.
Definition append (s : elem) (l : list arg) : elem := append_loop s None [] l.

(* dom.py 2195-2228 *)
Fixpoint prepend_loop (s : elem) (first : option nat) (target : option nat) (data : text) (text0 : text) (l : list arg) : elem :=
  match l with
  | [] => append_data_if (prepend_data_if s target data) target text0
  | AText t :: l' => prepend_loop s first target (data ++ t) text0 l'
  | ANode n :: l' =>
      let s1 := prepend_data_if s target data in
      match first with
      | None => prepend_loop (lx_append s1 n) (Some n) (Some n) [] text0 l'
      | Some c => prepend_loop (lx_addprevious s1 c n) first (Some n) [] text0 l'
      end
  end.
Definition prepend (s : elem) (l : list arg) : elem :=
  prepend_loop (mkEl [] (kids s) (loose s)) (match kids s with [] => None | (c, _) :: _ => Some c end) None [] (etext s) l.

(* dom.py 59-77, 2156-2165: insert_before(node, child) *)
Fixpoint next_of (n : nat) (l : list (nat * text)) : option nat :=
  match l with
  | [] => None
  | (m, _) :: l' => if Nat.eqb m n then match l' with (k, _) :: _ => Some k | [] => None end else next_of n l'
  end.
Definition insert_before (s : elem) (n : nat) (child : option nat) : result elem :=
  match child with
  | None => Ok (append s [ANode n])
  | Some c => if negb (is_kid c (kids s)) then Err NotFoundError else
              match (if Nat.eqb c n then next_of n (kids s) else Some c) with
              | None => Ok (append s [ANode n])
              | Some r => Ok (lx_addprevious s r n)
              end
  end.
(* dom.py 2238-2252, 2287-2296: remove_child *)
Definition remove_child (s : elem) (n : nat) : result elem :=
  if is_kid n (kids s) then Ok (lx_remove s n) else Err NotFoundError.
(* dom.py 2298-2320: replace_child(node, child) *)
Definition replace_child (s : elem) (new old : nat) : result elem :=
  if is_kid old (kids s) then Ok (lx_replace s old new) else Err NotFoundError.
