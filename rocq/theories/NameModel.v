(** Names of attributes and elements: the attribute methods of Element by
    namespace and qualified name (svgpy/dom.py 1741-1790, 2116-2144, 2253-2286,
    2322-2361; NamedNodeMap 466-518), the names an element and an Attr report
    (876-906, 1453-1460, 1515-1527), creation of elements (svgpy/element.py 1141-1201,
    1286-1340).

    Elements and Attr objects are those of AttrModel, qualified names those of
    UtilsModel.  lxml is given: how it chooses a prefix for a new element.  The names that
    lxml itself refuses (not XML names) are not refused here. *)
From Verif Require Import PyBase PyText PyDict UtilsModel AttrModel.
#[local] Open Scope N_scope.

(* utils.py 33-39; the entry for None is never asked for, a prefix being a str *)
Definition ns_map : dict text :=
  [(lit "html", lit "http://www.w3.org/1999/xhtml"); (lit "xlink", lit "http://www.w3.org/1999/xlink");
   (lit "xml", lit "http://www.w3.org/XML/1998/namespace"); (lit "xmlns", lit "http://www.w3.org/2000/xmlns/")].
Definition expanded (ns : option text) (q : text) : result text := do x <- qualified ns q ns_map; Ok (clark x).

(** ** Attributes *)
(* dom.py 1780-1790; 1741-1749 without a namespace *)
Definition get_attribute_ns (w : world) (e : nat) (ns : option text) (q : text) : result (option text) :=
  do n <- expanded ns q; Ok (lookup w e n).
Definition get_attribute (w : world) (e : nat) (q : text) : result (option text) := get_attribute_ns w e None q.
(* 2127-2138, 2116-2125 *)
Definition has_attribute_ns (w : world) (e : nat) (ns : option text) (q : text) : result bool :=
  do n <- expanded ns q; Ok (is_some (lookup w e n)).
Definition has_attribute (w : world) (e : nat) (q : text) : result bool := has_attribute_ns w e None q.
(* 2140-2144 *)
Definition has_attributes (w : world) (e : nat) : bool := negb (Nat.eqb (length (attrib (elems w e))) 0).
(* 1751-1757 *)
Definition get_attribute_names (w : world) (e : nat) : list text := sort_texts (dkeys (attrib (elems w e))).
(* 2352-2361, 2322-2329 *)
Definition set_attribute_ns (w : world) (e : nat) (ns : option text) (q : text) (v : option text) : world * result unit :=
  match expanded ns q with Ok n => (nm_set_text w e n v, Ok tt) | Err x => (w, Err x) end.
Definition set_attribute (w : world) (e : nat) (q : text) (v : option text) : world * result unit := set_attribute_ns w e None q v.
(* 2275-2286, 2253-2259; only KeyError is caught *)
Definition remove_attribute_ns (w : world) (e : nat) (ns : option text) (q : text) : world * result unit :=
  match expanded ns q with Ok n => (remove_attribute w e n, Ok tt) | Err x => (w, Err x) end.
(* 1759-1778, 466-486: MutableMapping.get turns KeyError into None *)
Definition get_attribute_node_ns (w : world) (e : nat) (ns : option text) (q : text) : world * result (option nat) :=
  match expanded ns q with
  | Err x => (w, Err x)
  | Ok n => match nm_get w e n with (w1, Ok a) => (w1, Ok (Some a)) | (w1, Err _) => (w1, Ok None) end
  end.
(* 2261-2273, 505-518: by the name of the Attr, whatever element it is attached
   to; its namespace and local name read back as its name (C39) *)
Definition remove_attribute_node (w : world) (e : nat) (a : nat) : world * result nat :=
  match remove_named_item w e (aname (attrs w a)) with
  | (w1, Ok b) => (detach w1 b, Ok b)
  | (w1, Err x) => (w1, Err x)
  end.

Inductive nop :=
| NSet (e : nat) (ns : option text) (q : text) (v : option text)
| NRemove (e : nat) (ns : option text) (q : text)
| NNode (e : nat) (ns : option text) (q : text).
Definition n_step (w : world) (o : nop) : world :=
  match o with
  | NSet e ns q v => fst (set_attribute_ns w e ns q v)
  | NRemove e ns q => fst (remove_attribute_ns w e ns q)
  | NNode e ns q => fst (get_attribute_node_ns w e ns q)
  end.
Definition n_run (w : world) (l : list nop) : world := fold_left n_step l w.

(** ** Elements *)
(* a prefix map: None is the default namespace *)
Definition prefixes := list (option text * text).
Definition key_eqb (a b : option text) : bool :=
  match a, b with None, None => true | Some x, Some y => text_eqb x y | _, _ => false end.
Definition pget (m : prefixes) (k : option text) : option text :=
  match find (fun p => key_eqb (fst p) k) m with Some (_, v) => Some v | None => None end.
(* lxml's element: tag in Clark notation, prefix, nsmap *)
Record elem := mkEl { el_tag : text; el_prefix : option text; el_nsmap : prefixes }.
(* lxml's makeelement: the prefix and the nsmap of the new element *)
Definition maker := text -> prefixes -> option text * prefixes.
Definition makeelement (mk : maker) (name : text) (m : prefixes) : elem :=
  let '(p, m') := mk name m in mkEl name p m'.
Definition svg_ns : text := lit "http://www.w3.org/2000/svg".
Definition xhtml_ns : text := lit "http://www.w3.org/1999/xhtml".
(* element.py 1331-1340: the element, and the dict the caller passed as nsmap *)
Definition create_element_ns (mk : maker) (ns : option text) (q : text) (nsmap : option prefixes) : result elem * option prefixes :=
  let m := match nsmap with Some m => m | None => [] end in
  let m := match pget m None with Some _ => m | None => m ++ [(None, svg_ns)] end in
  (do x <- qualified ns q ns_map; Ok (makeelement mk (clark x) m), match nsmap with Some _ => Some m | None => None end).
(* 1286-1302 *)
Definition create_element (mk : maker) (q : text) (nsmap : option prefixes) := create_element_ns mk None q nsmap.
(* etree.QName(self).localname, dom.py 1453-1456, 1515-1518 *)
Definition local_name (e : elem) : text := match clark_match (el_tag e) with Some (_, l) => l | None => el_tag e end.
(* dom.py 1458-1460 *)
Definition namespace_uri (e : elem) : option text := pget (el_nsmap e) (el_prefix e).
(* dom.py 1520-1527 *)
Definition tag_name (e : elem) : text := match el_prefix e with Some p => p ++ [58] ++ local_name e | None => local_name e end.
(* dom.py 895-906: the prefix that an Attr made for an element reports; an
   Attr made without one and attached later reports None *)
Definition attr_prefix (m : prefixes) (ns : option text) : option text :=
  match ns with
  | None => None
  | Some n => match find (fun p => text_eqb (snd p) n) m with Some (p, _) => p | None => None end
  end.

(** ** Classes (element.py 1141-1201) *)
Inductive eclass := CSvg (local : text) | CHtml (local : text) | CSvgElement | CHtmlElement.
Definition svg_names : list text := map lit
  ["a"; "circle"; "defs"; "desc"; "ellipse"; "g"; "hatch"; "hatchpath"; "line"; "linearGradient"; "marker"; "meshgradient"; "meshpatch"; "meshrow";
   "metadata"; "path"; "pattern"; "polygon"; "polyline"; "radialGradient"; "rect"; "script"; "solidcolor"; "stop"; "style"; "svg"; "symbol"; "text";
   "textPath"; "title"; "tspan"; "use"; "view"]%string.
Definition html_names : list text := map lit ["audio"; "canvas"; "iframe"; "link"; "video"]%string.
Definition class_of (ns : option text) (local : text) : eclass :=
  if existsb (text_eqb local) svg_names then CSvg local
  else if existsb (text_eqb local) html_names then CHtml local
  else match ns with Some n => if text_eqb n xhtml_ns then CHtmlElement else CSvgElement | None => CSvgElement end.
