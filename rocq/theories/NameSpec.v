(** What a name means, and what a history leaves under it. *)
From Verif Require Import PyBase PyText PyDict UtilsModel UtilsSpec AttrModel NameModel.
#[local] Open Scope N_scope.

(** The prefixes the classes know. *)
Definition known_prefixes : list (text * text) :=
  [(lit "html", lit "http://www.w3.org/1999/xhtml"); (lit "xlink", lit "http://www.w3.org/1999/xlink");
   (lit "xml", lit "http://www.w3.org/XML/1998/namespace"); (lit "xmlns", lit "http://www.w3.org/2000/xmlns/")].

(* a local name or prefix, not written in Clark notation *)
Definition word (t : text) : Prop := t <> [] /\ no_space t.
Definition bare (t : text) : Prop := forall a b, t <> [123] ++ a ++ [125] ++ b.
(* the namespace argument: the empty one is none *)
Definition nons (ns : option text) : Prop := ns = None \/ ns = Some [].
Definition isns (ns : option text) (n : text) : Prop := ns = Some n /\ word n.

(* the expanded name that a namespace and a qualified name stand for *)
Inductive means : option text -> text -> qname -> Prop :=
| M_plain ns l : nons ns -> word l -> free 58 l -> bare l -> means ns l (mkQN None l)
| M_in ns n l : isns ns n -> word l -> free 58 l -> bare l -> means ns l (mkQN (Some n) l)
| M_prefix ns n p l : isns ns n -> word p -> word l -> free 58 p -> bare (p ++ [58] ++ l) -> In (p, n) known_prefixes ->
    means ns (p ++ [58] ++ l) (mkQN (Some n) l)
| M_clark ns n l : nons ns \/ isns ns n -> word n -> word l -> free 125 n -> means ns ([123] ++ n ++ [125] ++ l) (mkQN (Some n) l).

(* no closing brace in the namespaces of a history *)
Definition whole (ns : option text) : Prop := forall n, ns = Some n -> free 125 n.
Definition op_ns (o : nop) : option text := match o with NSet _ ns _ _ | NRemove _ ns _ | NNode _ ns _ => ns end.

(* setting to nothing removes *)
Definition kept (v : option text) : option text := match v with Some [] => None | _ => v end.
(* the operation writes the attribute x of e *)
Definition writes (o : nop) (e : nat) (x : qname) : Prop :=
  match o with
  | NSet e' ns q _ | NRemove e' ns q => e' = e /\ means ns q x
  | NNode _ _ _ => False
  end.
(* the value of attribute x of e before and after a history *)
Inductive history (e : nat) (x : qname) : list nop -> option text -> option text -> Prop :=
| H_nil v : history e x [] v v
| H_set ns q t h v v' : means ns q x -> history e x h (kept t) v' -> history e x (NSet e ns q t :: h) v v'
| H_remove ns q h v v' : means ns q x -> history e x h None v' -> history e x (NRemove e ns q :: h) v v'
| H_other o h v v' : ~ writes o e x -> history e x h v v' -> history e x (o :: h) v v'.

(** ** Elements *)
(* lxml: a name in a namespace gets a prefix bound to it and no binding given
   is lost; a name in none has no prefix and the bindings given *)
Definition fair (mk : maker) : Prop := forall name m, let '(p, m') := mk name m in
  match clark_match name with
  | Some (ns, _) => pget m' p = Some ns /\ forall k v, pget m k = Some v -> pget m' k = Some v
  | None => p = None /\ forall k, pget m' k = pget m k
  end.
