(** Words for the claims about computed style. *)
From Verif Require Import PyBase PyText PyDict FormatSpec FontTextModel CascadeModel CascadeSpec LengthModel LengthSpec GeomModel GeomSpec ComputedModel.
#[local] Open Scope Q_scope.

(** ** Texts *)
(* white space, a numeral, a unit or none, white space *)
Definition amount (t : text) (n : Q) (u : option text) : Prop :=
  exists a w b, t = a ++ w ++ match u with Some v => v | None => [] end ++ b /\ spaces a /\ spaces b /\ numeral w = Some n /\
    match u with Some v => In v svg_units | None => True end.
(* units that need nothing from the element *)
Definition absolute_unit (u : option text) : Prop :=
  match u with None => True | Some v => In v [lit "px"; lit "in"; lit "cm"; lit "mm"; lit "q"; lit "pt"; lit "pc"] end.
Definition metric_unit (u : option text) : Prop := exists v, u = Some v /\ In v [lit "ex"; lit "cap"; lit "ch"; lit "ic"].

(** ** Chains: an element and its ancestors, nearest first *)
Definition chain_ok (chain : list snode) : Prop := chain <> [] /\ Forall (fun n => el_ok (s_el n)) chain.
(* the text that a property without shorthand has on the element *)
Definition said (chain : list snode) (k init : string) : text :=
  match nearest (wanted (lit k)) (map s_el chain) with Some t => t | None => lit init end.
(* the same for a property that 'font' can set; None where 'font' leaves it out *)
Definition font_said (shlex : text -> result (list text)) (chain : list snode) (k init : string) : option text :=
  match nearest (longhand_at shlex (lit k)) (map s_el chain) with
  | Some (Some (ST t)) => Some t
  | Some _ => None
  | None => Some (lit init)
  end.
(* an element that says nothing about inherited properties, nor hides itself *)
Definition silent (e : el) : Prop :=
  (forall k, In k (dkeys inherited_props) -> wanted k e = None) /\ specified e (lit "display") <> Some (lit "none").

(** ** What lengths of the element refer to *)
Definition looks_up (size : list snode -> result Q) (chain : list snode) (u : option text) (c : lctx) : Prop :=
  match chain with
  | [] => c = no_context
  | n :: anc =>
      let g := g_ctx (s_geo n) in
      cvw c = cvw g /\ cvh c = cvh g /\ diagonal c = diagonal g /\ metric c = metric g /\
      (u = Some (lit "rem") -> size [last anc n] = Ok (root_size c)) /\
      (u = Some (lit "em") \/ u = Some (lit "%") \/ metric_unit u -> match anc with [] => parent_size c = 16 | _ => size anc = Ok (parent_size c) end)
  end.
(* the text is a length of q pixels for the element *)
Definition reads (size : list snode -> result Q) (chain : list snode) (d : option direction) (t : text) (q : Q) : Prop :=
  exists n u c s, amount t n u /\ looks_up size chain u c /\ sized c d u Length s /\ q == n * s.
(** The nine properties that have a computed value of their own *)
Definition nine : list text :=
  map lit ["font-feature-settings"; "font-size"; "font-size-adjust"; "font-synthesis"; "font-weight"; "line-height"; "inline-size"; "stroke-width"; "tab-size"]%string.
(* a length that needs nothing from the element *)
Definition settled (t : text) : Prop := exists n u, amount t n u /\ absolute_unit u.
