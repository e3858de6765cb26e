(** NamedNodeMap and Attr (svgpy/dom.py 353-552, 873-1106) and the attribute
    methods of Element built on them (2256-2384).

    A world holds any number of elements and Attr objects, named by numbers.
    An element has its attributes [attrib] (lxml) and the cache [amap] of
    Attr objects kept by its NamedNodeMap.  Names are expanded names
    (QualifiedName is modelled in QNameModel.v). *)
From Verif Require Import PyBase PyText PyDict.

(* dom.py 876-906: _qualified_name, _value, _owner_element *)
Record arec := mkA { aname : text; avalue : option text; aowner : option nat }.
(* dom.py 356-370: _attrib, _attr_map *)
Record erec := mkE { attrib : dict text; amap : dict nat }.
Record world := mkW { attrs : nat -> arec; nexta : nat; elems : nat -> erec }.

Definition put_attr (w : world) (a : nat) (r : arec) : world :=
  mkW (fun x => if Nat.eqb x a then r else attrs w x) (nexta w) (elems w).
Definition put_elem (w : world) (e : nat) (r : erec) : world :=
  mkW (attrs w) (nexta w) (fun x => if Nat.eqb x e then r else elems w x).
Definition put_attrib (w : world) (e : nat) (d : dict text) : world :=
  put_elem w e (mkE d (amap (elems w e))).
Definition put_amap (w : world) (e : nat) (d : dict nat) : world :=
  put_elem w e (mkE (attrib (elems w e)) d).
Definition lookup (w : world) (e : nat) (n : text) : option text := dget (attrib (elems w e)) n.

(* dom.py 984-989 *)
Definition attr_value (w : world) (a : nat) : option text :=
  match aowner (attrs w a) with
  | Some e => lookup w e (aname (attrs w a))
  | None => avalue (attrs w a)
  end.
(* dom.py 991-1000 *)
Definition set_value (w : world) (a : nat) (v : option text) : world :=
  let r := attrs w a in
  match aowner r with
  | Some e => match v with
              | None | Some [] => put_attrib w e (ddel (attrib (elems w e)) (aname r))
              | Some t => put_attrib w e (dset (attrib (elems w e)) (aname r) t)
              end
  | None => put_attr w a (mkA (aname r) v None)
  end.
(* dom.py 1012-1028 *)
Definition attach (w : world) (a e : nat) : world :=
  let r := attrs w a in
  match aowner r with
  | Some _ => w
  | None => let w1 := put_attr w a (mkA (aname r) None (Some e)) in
            match avalue r with Some v => set_value w1 a (Some v) | None => w1 end
  end.
(* dom.py 1030-1041 *)
Definition detach (w : world) (a : nat) : world :=
  let r := attrs w a in
  match aowner r with
  | Some _ => put_attr w a (mkA (aname r) (attr_value w a) None)
  | None => w
  end.
(* dom.py 876-906: Attr(None, name, value) *)
Definition new_attr (w : world) (n : text) (v : option text) (o : option nat) : nat * world :=
  let a := nexta w in
  (a, mkW (fun x => if Nat.eqb x a then mkA n v o else attrs w x) (S a) (elems w)).

(* dom.py 433-444, the attribute being present in [attrib] *)
Definition default_item (w : world) (e : nat) (n : text) : nat * world :=
  match dget (amap (elems w e)) n with
  | Some a => (a, w)
  | None => let '(a, w1) := new_attr w n None (Some e) in
            (a, put_amap w1 e (dset (amap (elems w1 e)) n a))
  end.
(* self._attr_map.pop(name, None), then detach *)
Definition pop_attr (w : world) (e : nat) (n : text) : world :=
  match dget (amap (elems w e)) n with
  | Some a => detach (put_amap w e (ddel (amap (elems w e)) n)) a
  | None => w
  end.
(* dom.py 375-385 *)
Definition nm_del (w : world) (e : nat) (n : text) : world * result unit :=
  let w1 := pop_attr w e n in
  match lookup w1 e n with
  | Some _ => (put_attrib w1 e (ddel (attrib (elems w1 e)) n), Ok tt)
  | None => (w1, Err KeyError)
  end.
(* dom.py 387-402 *)
Definition nm_get (w : world) (e : nat) (n : text) : world * result nat :=
  match lookup w e n with
  | None => (pop_attr w e n, Err KeyError)
  | Some _ => let '(a, w1) := default_item w e n in (w1, Ok a)
  end.
(* dom.py 413-427, value None or str *)
Definition nm_set_text (w : world) (e : nat) (n : text) (v : option text) : world :=
  match v with
  | None | Some [] => match lookup w e n with Some _ => fst (nm_del w e n) | None => w end
  | Some t => snd (default_item (put_attrib w e (dset (attrib (elems w e)) n t)) e n)
  end.
(* dom.py 428-445, value an Attr *)
Definition nm_set_attr (w : world) (e : nat) (n : text) (a : nat) : world * result unit :=
  let r := attrs w a in
  if negb (text_eqb n (aname r)) then (w, Err ValueError) else
  match aowner r with
  | Some e' => (w, if Nat.eqb e' e then Ok tt else Err InUseAttributeError)
  | None =>
      match avalue r with
      | None | Some [] => (match lookup w e n with Some _ => fst (nm_del w e n) | None => w end, Ok tt)
      | Some _ =>
          let w1 := match dget (amap (elems w e)) n with Some old => detach w old | None => w end in
          let w2 := attach w1 a e in
          (put_amap w2 e (dset (amap (elems w2 e)) n a), Ok tt)
      end
  end.
(* dom.py 536-552; Mapping.get turns KeyError into None *)
Definition set_named_item (w : world) (e : nat) (a : nat) : world * result (option nat) :=
  let n := aname (attrs w a) in
  let '(w1, old) := nm_get w e n in
  let '(w2, r) := nm_set_attr w1 e n a in
  (w2, match r with Ok _ => Ok (match old with Ok x => Some x | Err _ => None end) | Err x => Err x end).
(* dom.py 505-518 *)
Definition remove_named_item (w : world) (e : nat) (n : text) : world * result nat :=
  match nm_get w e n with
  | (w1, Ok a) => match nm_del w1 e n with
                  | (w2, Ok _) => (w2, Ok a)
                  | (w2, Err x) => (w2, Err x)
                  end
  | (w1, Err x) => (w1, Err x)
  end.
(* dom.py 2274-2286 *)
Definition remove_attribute (w : world) (e : nat) (n : text) : world :=
  match remove_named_item w e n with
  | (w1, Ok a) => detach w1 a
  | (w1, Err _) => w1
  end.
(* lxml element.set *)
Definition raw_set (w : world) (e : nat) (n v : text) : world :=
  put_attrib w e (dset (attrib (elems w e)) n v).
(* del element.attrib[name], the name being present *)
Definition raw_del (w : world) (e : nat) (n : text) : world :=
  put_attrib w e (ddel (attrib (elems w e)) n).
(* dom.py 2363-2384 *)
Definition toggle_attribute (w : world) (e : nat) (n : text) (force : option bool) : world * bool :=
  match lookup w e n with
  | Some _ => match force with
              | Some true => (w, true)
              | _ => (remove_attribute w e n, false)
              end
  | None => match force with
            | Some false => (w, false)
            | _ => (raw_set w e n [], true)
            end
  end.

(** Histories *)
Inductive aop : Type :=
| ONewAttr (n v : text)                     (* Attr(None, n, v) *)
| OSetText (e : nat) (n : text) (v : option text)   (* attributes[n] = v, set_attribute *)
| OSetAttr (e : nat) (n : text) (a : nat)   (* attributes[n] = attr *)
| OSetNamed (e : nat) (a : nat)             (* set_named_item, set_attribute_node *)
| ODel (e : nat) (n : text)                 (* del attributes[n] *)
| OGet (e : nat) (n : text)                 (* attributes[n] *)
| ORemoveNamed (e : nat) (n : text)         (* remove_named_item *)
| ORemove (e : nat) (n : text)              (* remove_attribute *)
| OToggle (e : nat) (n : text) (f : option bool)
| OValue (a : nat) (v : option text)        (* attr.value = v *)
| ORawSet (e : nat) (n v : text)            (* element.set(n, v) *)
| ORawDel (e : nat) (n : text).             (* del element.attrib[n] *)

(* only Attr objects that exist can be passed *)
Definition guard (w : world) (a : nat) (w' : world) : world := if Nat.ltb a (nexta w) then w' else w.
Definition step (w : world) (o : aop) : world :=
  match o with
  | ONewAttr n v => snd (new_attr w n (Some v) None)
  | OSetText e n v => nm_set_text w e n v
  | OSetAttr e n a => guard w a (fst (nm_set_attr w e n a))
  | OSetNamed e a => guard w a (fst (set_named_item w e a))
  | ODel e n => fst (nm_del w e n)
  | OGet e n => fst (nm_get w e n)
  | ORemoveNamed e n => fst (remove_named_item w e n)
  | ORemove e n => remove_attribute w e n
  | OToggle e n f => fst (toggle_attribute w e n f)
  | OValue a v => guard w a (set_value w a v)
  | ORawSet e n v => raw_set w e n v
  | ORawDel e n => raw_del w e n
  end.
Definition run (w : world) (l : list aop) : world := fold_left step l w.

(* dom.py 356-370: a new element with attributes [d e]; every attribute gets
   an Attr.  Here the elements start without Attr objects, which
   [default_item] creates on demand: the objects are the same up to naming. *)
Definition start (d : nat -> dict text) : world :=
  mkW (fun _ => mkA [] None None) O (fun e => mkE (d e) []).
