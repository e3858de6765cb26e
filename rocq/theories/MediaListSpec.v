(** Words for the claims about media lists. *)
From Verif Require Import PyBase PyText PyList MediaListModel.

(* one media query, without a comma *)
Definition single (s : text) : Prop := ~ In 44%N s.
(* l without its first m *)
Definition without (m : text) (l : list text) : list text :=
  filter (fun x => if list_eq_dec N.eq_dec x m then false else true) l.
(* operations that never put the same query in twice *)
Inductive mop : Type :=
  | MAppend (s : text) | MExtend (ss : list text) | MDelete (s : text) | MRemove (s : text) | MDelItem (i : Z) | MReverse | MClear.
Definition mstep (l : media) (o : mop) : media :=
  let keep r := match r with Ok l' => l' | Err _ => l end in
  match o with
  | MAppend s => append_medium l s
  | MExtend ss => extend l ss
  | MDelete s => keep (delete_medium l s)
  | MRemove s => keep (remove l s)
  | MDelItem i => keep (list_del l i)
  | MReverse => rev l
  | MClear => []
  end.
(* a query as the list keeps it: nothing around it, no comma in it *)
Definition query (m : text) : Prop := ~ In 44%N m /\
  (forall c r, m = c :: r -> is_space c = false) /\ (forall c r, m = r ++ [c] -> is_space c = false).
