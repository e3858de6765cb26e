(** Lists of strings and references as Python lists, and the text of var() references. *)
From Verif Require Import PyBase PyText PyCase PyList UnparsedModel.

Definition member (x : item) : Prop := x <> Other.
(* the members before the first that is of another type *)
Fixpoint good_prefix (xs : list item) : list item := match xs with [] => [] | x :: r => match x with Other => [] | _ => x :: good_prefix r end end.
Definition all_good (xs : list item) : bool := forallb (fun x => match x with Other => false | _ => true end) xs.
(* the list without its first string t *)
Fixpoint without_first (t : text) (l : list item) : list item :=
  match l with [] => [] | x :: r => match x with Str s => if text_eqb s t then r else x :: without_first t r | _ => x :: without_first t r end end.
Definition has_str (t : text) (l : list item) : bool := existsb (fun x => match x with Str s => text_eqb s t | _ => false end) l.
(* what a Python list of members would become; None for the operations that differ *)
Definition list_step (l : list item) (o : uop) : option (list item * option pyerr) :=
  match o with
  | USet _ _ | UReverse => None
  | USetSlice i j xs => Some (if all_good xs then (list_set_slice l i j xs, None) else (l, Some TypeError))
  | UInsert i x => Some (match x with Other => (l, Some TypeError) | _ => (list_insert l i x, None) end)
  | UAppend x => Some (match x with Other => (l, Some TypeError) | _ => (l ++ [x], None) end)
  | UExtend xs => Some (l ++ good_prefix xs, if all_good xs then None else Some TypeError)
  | UDel i | UPop i => Some (match list_del l i with Ok l' => (l', None) | Err e => (l, Some e) end)
  | UDelSlice i j => Some (list_set_slice l i j [], None)
  | URemove t => Some (if has_str t l then (without_first t l, None) else (l, Some ValueError))
  | UClear => Some ([], None)
  end.

(* the text of component values, with each var() written in lower case, its name
   stripped, and its fallback after a comma unless empty *)
Fixpoint before_comma (ts : list tok) : list tok := match ts with [] => [] | TVal _ true :: _ => [] | t :: r => t :: before_comma r end.
Fixpoint after_comma (ts : list tok) : list tok := match ts with [] => [] | TVal _ true :: r => r | _ :: r => after_comma r end.
Inductive written : list tok -> text -> Prop :=
| w_nil : written [] []
| w_val s c ts r : written ts r -> written (TVal s c :: ts) (s ++ r)
| w_fun n args ts a r : is_var n = false -> written args a -> written ts r -> written (TFun n args :: ts) (n ++ lit "(" ++ a ++ lit ")" ++ r)
| w_var n args ts r : is_var n = true -> after_comma args = [] -> written ts r ->
    written (TFun n args :: ts) (lit "var(" ++ strip (flat_map ser (before_comma args)) ++ lit ")" ++ r)
| w_var_or n args ts f r : is_var n = true -> after_comma args <> [] -> written (after_comma args) f -> written ts r ->
    written (TFun n args :: ts) (lit "var(" ++ strip (flat_map ser (before_comma args)) ++ lit "," ++ f ++ lit ")" ++ r).
(* written as it would be: every var() in lower case with a stripped name, a comma as ','
   and none before an empty fallback *)
Fixpoint has_comma (ts : list tok) : bool := match ts with [] => false | TVal _ true :: _ => true | _ :: r => has_comma r end.
Inductive tidy : list tok -> Prop :=
| t_nil : tidy []
| t_val s c ts : (c = true -> s = lit ",") -> tidy ts -> tidy (TVal s c :: ts)
| t_fun n args ts : is_var n = false -> tidy args -> tidy ts -> tidy (TFun n args :: ts)
| t_var n args ts : n = lit "var" -> has_comma args = false -> strip (flat_map ser args) = flat_map ser args -> tidy ts -> tidy (TFun n args :: ts)
| t_var_or n args ts b s f : n = lit "var" -> args = b ++ TVal s true :: f -> s = lit "," -> has_comma b = false -> strip (flat_map ser b) = flat_map ser b -> f <> [] ->
    tidy f -> tidy ts -> tidy (TFun n args :: ts).
(* the names referred to outside of other references, in order *)
Fixpoint var_names (t : tok) : list text :=
  match t with
  | TVal _ _ => []
  | TFun n args => if is_var n then [strip (flat_map ser (before_comma args))] else flat_map var_names args
  end.
Definition ref_names (l : list item) : list text := flat_map (fun x => match x with Ref n _ => [n] | _ => [] end) l.
