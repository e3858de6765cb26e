(** What must hold between elements and their Attr objects. *)
From Verif Require Import PyBase PyText PyDict AttrModel.

(* the Attr [a] belongs to the element [e] under the name [n] *)
Definition belongs (w : world) (a e : nat) (n : text) : Prop :=
  (a < nexta w)%nat /\ aowner (attrs w a) = Some e /\ aname (attrs w a) = n.

(* the places an operation is about, and the Attr object it is given *)
Definition about (w : world) (o : aop) (e : nat) (n : text) : Prop :=
  match o with
  | ONewAttr _ _ => False
  | OSetText e' n' _ | OSetAttr e' n' _ | ODel e' n' | OGet e' n' | ORemoveNamed e' n' | ORemove e' n'
  | OToggle e' n' _ | ORawSet e' n' _ | ORawDel e' n' => e = e' /\ n = n'
  | OSetNamed e' a => e = e' /\ n = aname (attrs w a)
  | OValue a _ => aowner (attrs w a) = Some e /\ n = aname (attrs w a)
  end.
Definition given (o : aop) (a : nat) : Prop :=
  match o with OSetAttr _ _ a' | OSetNamed _ a' | OValue a' _ => a = a' | _ => False end.
