(** DOMTokenList (svgpy/dom.py 176-350): the set of tokens held in one
    attribute of an element.

    State: the value of the attribute, [None] when the element has no such
    attribute.  The element itself (lxml) is a dictionary of attributes; only
    the entry named by [_local_name] is read or written by this class, so
    only this entry is modelled.  Simplification: lxml refuses attribute
    values holding characters XML forbids; texts are taken without them. *)
From Verif Require Import PyBase PyText PyList PySplit.
Local Open Scope N_scope.

Definition attr := option text.

(* utils.py 28 and 173-176: the text holds one of tab, LF, FF, CR, space *)
Definition ascii_ws (c : N) : bool := (c =? 9) || (c =? 10) || (c =? 12) || (c =? 13) || (c =? 32).
Definition is_ascii_whitespace (t : text) : bool := existsb ascii_ws t.

(* dom.py 222-227 *)
Definition tokens (a : attr) : list text := split_ws (match a with Some v => v | None => [] end).

(* dom.py 239-245 *)
Definition set_tokens (l : list text) : attr :=
  match strip (join [32] l) with [] => None | v => Some v end.

(* dom.py 234-237 *)
Definition value (a : attr) : text := join [32] (tokens a).

(* dom.py 247-253 *)
Definition validate_token (t : text) : result unit :=
  match t with
  | [] => Err ValueError
  | _ => if is_ascii_whitespace t then Err ValueError else Ok tt
  end.
(* dom.py 255-258 *)
Fixpoint validate_tokens (l : list text) : result unit :=
  match l with [] => Ok tt | t :: l' => do _ <- validate_token t; validate_tokens l' end.

(* dom.py 190-193: del self[i], del self[i:j] *)
Definition del_item (a : attr) (i : Z) : result attr :=
  do l <- list_del (tokens a) i; Ok (set_tokens l).
Definition del_slice (a : attr) (i j : Z) : attr := set_tokens (list_set_slice (tokens a) i j []).

(* dom.py 204-220, self[i] = str *)
Definition set_item (a : attr) (i : Z) (t : text) : result attr :=
  if mem t (tokens a) then Ok a else
  do l <- list_set (tokens a) i t; Ok (set_tokens l).
(* dom.py 204-220, self[i:j] = list: the tokens already present are taken
   out of the given list (a copy is iterated, the first equal one removed,
   once for each occurrence) *)
Definition set_slice (a : attr) (i j : Z) (l : list text) : attr :=
  match filter (fun t => negb (mem t (tokens a))) l with
  | [] => a
  | l' => set_tokens (list_set_slice (tokens a) i j l')
  end.

(* dom.py 282-290 *)
Definition insert (a : attr) (i : Z) (t : text) : result attr :=
  do _ <- validate_token t; Ok (set_slice a i i [t]).
(* MutableSequence.append *)
Definition append (a : attr) (t : text) : result attr :=
  insert a (Z.of_nat (length (tokens a))) t.
(* MutableSequence.extend: what was appended before an error stays *)
Fixpoint extend (a : attr) (l : list text) : attr * result unit :=
  match l with
  | [] => (a, Ok tt)
  | t :: l' => match append a t with Ok a' => extend a' l' | Err e => (a, Err e) end
  end.
(* dom.py 260-267 *)
Definition add (a : attr) (l : list text) : attr * result unit :=
  match validate_tokens l with Ok _ => extend a l | Err e => (a, Err e) end.

(* dom.py 269-280 *)
Definition contains (a : attr) (t : text) : bool := mem t (tokens a).

(* list.index *)
Fixpoint index_of (t : text) (l : list text) : option nat :=
  match l with
  | [] => None
  | x :: l' => if text_eqb x t then Some O else option_map S (index_of t l')
  end.
(* MutableSequence.remove: del self[self.index(value)] *)
Definition remove1 (a : attr) (t : text) : result attr :=
  match index_of t (tokens a) with
  | Some k => del_item a (Z.of_nat k)
  | None => Err ValueError
  end.
Fixpoint remove_all (a : attr) (l : list text) : attr * result unit :=
  match l with
  | [] => (a, Ok tt)
  | t :: l' => if mem t (tokens a)
               then match remove1 a t with Ok a' => remove_all a' l' | Err e => (a, Err e) end
               else remove_all a l'
  end.
(* dom.py 302-312 *)
Definition remove (a : attr) (l : list text) : attr * result unit :=
  match validate_tokens l with Ok _ => remove_all a l | Err e => (a, Err e) end.

(* dom.py 314-329 *)
Definition replace (a : attr) (t n : text) : attr * result bool :=
  match validate_tokens [t; n] with
  | Err e => (a, Err e)
  | Ok _ =>
      if negb (mem t (tokens a)) || mem n (tokens a) then (a, Ok false) else
      match index_of t (tokens a) with
      | None => (a, Err ValueError)
      | Some k => match set_item a (Z.of_nat k) n with
                  | Ok a' => (a', Ok true)
                  | Err e => (a, Err e)
                  end
      end
  end.

(* dom.py 331-350 *)
Definition toggle (a : attr) (t : text) (force : option bool) : attr * result bool :=
  if mem t (tokens a) then
    match force with
    | Some true => (a, Ok true)
    | _ => let '(a', r) := remove a [t] in
           (a', match r with Ok _ => Ok false | Err e => Err e end)
    end
  else
    match force with
    | Some false => (a, Ok false)
    | _ => let '(a', r) := add a [t] in
           (a', match r with Ok _ => Ok true | Err e => Err e end)
    end.

(* MutableSequence.pop(index) *)
Definition pop (a : attr) (i : Z) : attr * result text :=
  match list_get (tokens a) i, del_item a i with
  | Ok t, Ok a' => (a', Ok t)
  | Err e, _ => (a, Err e)
  | _, Err e => (a, Err e)
  end.
(* MutableSequence.clear: pop() until IndexError *)
Fixpoint clear_f (n : nat) (a : attr) : attr :=
  match n with
  | O => a
  | S k => match pop a (-1)%Z with (a', Ok _) => clear_f k a' | (a', Err _) => a' end
  end.
Definition clear (a : attr) : attr := clear_f (S (length (tokens a))) a.
(* MutableSequence.reverse:
     for i in range(n//2): self[i], self[n-i-1] = self[n-i-1], self[i]  *)
Fixpoint reverse_f (todo : nat) (i : nat) (n : nat) (a : attr) : result attr :=
  match todo with
  | O => Ok a
  | S k =>
      do x <- list_get (tokens a) (Z.of_nat (n - i - 1));
      do y <- list_get (tokens a) (Z.of_nat i);
      do a1 <- set_item a (Z.of_nat i) x;
      do a2 <- set_item a1 (Z.of_nat (n - i - 1)) y;
      reverse_f k (S i) n a2
  end.
Definition reverse (a : attr) : result attr :=
  let n := length (tokens a) in reverse_f (Nat.div n 2) O n a.

(** The operations of a history *)
Inductive op : Type :=
| OAdd (l : list text) | ORemove (l : list text) | OToggle (t : text) (f : option bool)
| OReplace (t n : text) | OInsert (i : Z) (t : text) | OSetItem (i : Z) (t : text)
| OSetSlice (i j : Z) (l : list text) | ODel (i : Z) | ODelSlice (i j : Z)
| OPop (i : Z) | OClear | OReverse
| OSetAttr (v : text). (* element.set(name, v), behind the list's back *)

Definition keep (a : attr) (r : result attr) : attr := match r with Ok a' => a' | Err _ => a end.
Definition step (a : attr) (o : op) : attr :=
  match o with
  | OAdd l => fst (add a l)
  | ORemove l => fst (remove a l)
  | OToggle t f => fst (toggle a t f)
  | OReplace t n => fst (replace a t n)
  | OInsert i t => keep a (insert a i t)
  | OSetItem i t => keep a (set_item a i t)
  | OSetSlice i j l => set_slice a i j l
  | ODel i => keep a (del_item a i)
  | ODelSlice i j => del_slice a i j
  | OPop i => fst (pop a i)
  | OClear => clear a
  | OReverse => keep a (reverse a)
  | OSetAttr v => Some v
  end.
Definition run (a : attr) (ops : list op) : attr := fold_left step ops a.
