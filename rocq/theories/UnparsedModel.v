(** Unparsed values and var() references: svgpy/css/types.py 583-628, 1757-1818, 1841-1877.
    CSSUnparsedValue takes append, extend, pop, remove, clear, reverse and += from
    collections.abc.MutableSequence (Python's Lib/_collections_abc.py). *)
From Verif Require Import PyBase PyText PyCase PyList.

(* a member: a string, a reference with its name and its fallback, or an object of
   another type.  A fallback that is a string is that string alone. *)
Inductive item := Str (t : text) | Ref (name : text) (fallback : option (list item)) | Other.
Definition bad (x : item) : bool := match x with Other => true | _ => false end.
(* the css_text of CSSStyleValue and the tokens *)
Record unparsed := mkU { u_css : option text; u_toks : list item }.

(* 1865-1876 and 1809-1818 without the print; an object of another type cannot occur *)
Fixpoint item_text (x : item) : text :=
  match x with
  | Str t => t
  | Ref n fb => lit "var(" ++ n ++ match fb with None => [] | Some l => lit "," ++ flat_map item_text l end ++ lit ")"
  | Other => []
  end.
Definition items_text (l : list item) : text := flat_map item_text l.
Definition unparsed_text (u : unparsed) : text := match u_css u with Some t => t | None => items_text (u_toks u) end.

(** ** The sequence.  A step gives the new tokens and the exception, if any. *)
Definition outcome := (list item * option pyerr)%type.
(* 1786-1799 for an int *)
Definition set_int (l : list item) (i : Z) (x : item) : outcome := if bad x then (l, Some TypeError) else (list_insert l i x, None).
(* 1786-1799 for a slice of step 1 *)
Definition set_slice (l : list item) (i j : Z) (xs : list item) : outcome :=
  if existsb bad xs then (l, Some TypeError) else (list_set_slice l i j xs, None).
(* 1806-1807 *)
Definition insert (l : list item) (i : Z) (x : item) : outcome := set_int l i x.
(* MutableSequence.append *)
Definition append (l : list item) (x : item) : outcome := insert l (Z.of_nat (length l)) x.
(* MutableSequence.extend *)
Fixpoint extend (l : list item) (xs : list item) : outcome :=
  match xs with [] => (l, None) | x :: r => match append l x with (l', None) => extend l' r | e => e end end.
(* 1774-1775 *)
Definition del_int (l : list item) (i : Z) : outcome := match list_del l i with Ok l' => (l', None) | Err e => (l, Some e) end.
(* MutableSequence.pop *)
Definition pop (l : list item) (i : Z) : outcome := match list_get l i with Ok _ => del_int l i | Err e => (l, Some e) end.
(* MutableSequence.remove of a string: Sequence.index, then del *)
Fixpoint index_from (l : list item) (t : text) (i : Z) : option Z :=
  match l with [] => None | x :: r => if match x with Str s => text_eqb s t | _ => false end then Some i else index_from r t (i + 1) end.
Definition remove (l : list item) (t : text) : outcome := match index_from l t 0 with Some i => del_int l i | None => (l, Some ValueError) end.
(* MutableSequence.clear: pop until IndexError *)
Fixpoint clear_f (fuel : nat) (l : list item) : outcome :=
  match fuel with O => (l, None) | S f => match pop l (-1) with (l', None) => clear_f f l' | (l', Some _) => (l', None) end end.
Definition clear (l : list item) : outcome := clear_f (S (length l)) l.
(* MutableSequence.reverse: the swaps i = k .. k + m - 1 for the length n taken at the start *)
Fixpoint swaps (n : nat) (k : Z) (m : nat) (l : list item) : outcome :=
  match m with
  | O => (l, None)
  | S m' => match list_get l (Z.of_nat n - k - 1), list_get l k with
            | Ok a, Ok b => match set_int l k a with
                            | (l1, None) => match set_int l1 (Z.of_nat n - k - 1) b with (l2, None) => swaps n (k + 1) m' l2 | e => e end
                            | e => e
                            end
            | Err e, _ => (l, Some e)
            | _, Err e => (l, Some e)
            end
  end.
Definition reverse (l : list item) : outcome := swaps (length l) 0 (Nat.div2 (length l)) l.
Inductive uop := USet (i : Z) (x : item) | USetSlice (i j : Z) (xs : list item) | UInsert (i : Z) (x : item) | UAppend (x : item) | UExtend (xs : list item)
  | UDel (i : Z) | UDelSlice (i j : Z) | UPop (i : Z) | URemove (t : text) | UClear | UReverse.
Definition ustep (l : list item) (o : uop) : outcome :=
  match o with
  | USet i x => set_int l i x | USetSlice i j xs => set_slice l i j xs | UInsert i x => insert l i x | UAppend x => append l x | UExtend xs => extend l xs
  | UDel i => del_int l i | UDelSlice i j => (list_set_slice l i j [], None) | UPop i => pop l i | URemove t => remove l t | UClear => clear l | UReverse => reverse l
  end.
(* the text of the value is not renewed *)
Definition urun (u : unparsed) (ops : list uop) : unparsed := mkU (u_css u) (fold_left (fun l o => fst (ustep l o)) ops (u_toks u)).

(** ** Reification (583-628).  A component value: any but a function, as tinycss2 writes
    it and whether it is a comma, or a function.  A block is one value.  The names of
    functions are those that need no escape. *)
Inductive tok := TVal (s : text) (comma : bool) | TFun (name : text) (args : list tok).
(* tinycss2.serialize *)
Fixpoint ser (t : tok) : text := match t with TVal s _ => s | TFun n args => n ++ lit "(" ++ flat_map ser args ++ lit ")" end.
Definition flush_str (s : text) : list item := match s with [] => [] | _ => [Str s] end.
Definition is_var (n : text) : bool := text_eqb (lower n) (lit "var").
(* one turn of the loop 586-624 on (members, single_string) *)
Fixpoint reify1 (t : tok) (st : list item * text) : list item * text :=
  match t with
  | TVal s _ => (fst st, snd st ++ s)
  | TFun n args =>
      if is_var n then
        let '(v, fb) :=
          (fix var (args : list tok) (acc : text) : text * option (list item) :=
             match args with
             | [] => (acc, None)
             | TVal s true :: r =>
                 (acc, match r with
                       | [] => None
                       | _ => let st := (fix loop (ts : list tok) (st : list item * text) := match ts with [] => st | t :: r => loop r (reify1 t st) end) r ([], []) in
                              Some (fst st ++ flush_str (snd st))
                       end)
             | a :: r => var r (acc ++ ser a)
             end) args [] in
        (fst st ++ flush_str (snd st) ++ [Ref (strip v) fb], [])
      else
        let st' := (fix loop (ts : list tok) (st : list item * text) := match ts with [] => st | t :: r => loop r (reify1 t st) end) args ([], []) in
        let u := fst st' ++ flush_str (snd st') in
        let '(s, u) := match u with Str x :: u' => (snd st ++ n ++ lit "(" ++ x, u') | _ => (snd st ++ n ++ lit "(", u) end in
        let '(s', u) := match rev u with Str x :: u' => (x, rev u') | _ => ([], u) end in
        (fst st ++ [Str s] ++ u, s' ++ lit ")")
  end.
Fixpoint reify_loop (ts : list tok) (st : list item * text) : list item * text := match ts with [] => st | t :: r => reify_loop r (reify1 t st) end.
(* 583-628 *)
Definition reify (ts : list tok) : list item := let st := reify_loop ts ([], []) in fst st ++ flush_str (snd st).
