(** MediaList (svgpy/css/__init__.py 798-902) with the MutableSequence mixins
    it inherits.  State: the list of media queries.  Letter case is that of
    ASCII; slices are modelled only in [insert]. *)
From Verif Require Import PyBase PyText PySplit PyCase PyList.
From Verif Require Import ShortModel.
Local Open Scope N_scope.

Definition media := list text.

(* 846-849 *)
Definition parse_query_list (s : text) : list text := map strip (split_on 44 s).
(* 841-844 *)
Definition parse_query (s : text) : option text :=
  match parse_query_list s with [m] => Some m | _ => None end.
(* 823-828 *)
Definition media_text (l : media) : text := lower (join (lit ", ") l).
(* 830-837; clear() empties the list *)
Definition set_media_text (l : media) (v : text) : media :=
  match normalize_text v with [] => [] | _ => parse_query_list v end.
(* 884-892 *)
Definition insert (l : media) (i : Z) (s : text) : media := list_set_slice l i i [strip s].
(* 860-870; append (851-858) is the same *)
Definition append_medium (l : media) (s : text) : media :=
  match parse_query s with
  | None => l
  | Some m => if mem m l then l else insert l (Z.of_nat (length l)) m
  end.
(* Sequence.index *)
Fixpoint index (m : text) (l : media) : option nat :=
  match l with [] => None | x :: l' => if text_eqb x m then Some O else option_map S (index m l') end.
(* 872-882 *)
Definition delete_medium (l : media) (s : text) : result media :=
  match parse_query s with
  | None => Ok l
  | Some m => match index m l with Some i => list_del l (Z.of_nat i) | None => Err ValueError end
  end.
(* MutableSequence.remove, extend, pop, reverse; __setitem__, __delitem__ *)
Definition remove (l : media) (m : text) : result media :=
  match index m l with Some i => list_del l (Z.of_nat i) | None => Err ValueError end.
Definition extend (l : media) (ss : list text) : media := fold_left append_medium ss l.
Definition set_item (l : media) (i : Z) (s : text) : result media := list_set l i s.
Definition item (l : media) (i : Z) : result text := list_get l i.
