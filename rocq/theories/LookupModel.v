(** Finding elements in a tree (svgpy/utils.py 72-165, with the methods of
    dom.py 2049-2103, element.py 890-952 and window.py 428-497), and the text
    of elements (svgpy/dom.py 1530-1564).
    Evaluation of the XPath expressions is by lxml: the axis in document order,
    elements only, filtered by the predicate.  An element is named by its path
    from the start: the positions of the child nodes. *)
From Verif Require Import PyBase PyText PyDict PySplit.
#[local] Open Scope N_scope.

(** A node with its children, each with the text after it (its tail). *)
Record xname := mkName { x_prefix : option text; x_ns : option text; x_local : text }.
Inductive xnode :=
| XElem (nm : xname) (attrs : dict text) (txt : option text) (kids : list (xnode * option text))
| XOther.                                       (* comment or processing instruction *)
Definition path := list nat.

(** ** Axes *)
(* descendant-or-self::*, in document order *)
Fixpoint walk (p : path) (n : xnode) : list (path * xnode) :=
  match n with
  | XOther => []
  | XElem _ _ _ kids =>
      (p, n) :: (fix go (i : nat) (ks : list (xnode * option text)) : list (path * xnode) :=
                   match ks with [] => [] | (c, _) :: r => walk (p ++ [i]) c ++ go (S i) r end) O kids
  end.
(* descendant::* *)
Definition axis (include_self : bool) (n : xnode) : list (path * xnode) :=
  if include_self then walk [] n else tl (walk [] n).
Definition select (include_self : bool) (f : xnode -> bool) (n : xnode) : list path :=
  map fst (filter (fun x => f (snd x)) (axis include_self n)).

(** ** Predicates *)
Definition attr_of (n : xnode) (k : text) : option text := match n with XElem _ a _ _ => dget a k | XOther => None end.
Definition local_of (n : xnode) : text := match n with XElem nm _ _ _ => x_local nm | XOther => [] end.
Definition ns_of (n : xnode) : text := match n with XElem nm _ _ _ => match x_ns nm with Some u => u | None => [] end | XOther => [] end.
(* name() *)
Definition qname_of (n : xnode) : text :=
  match n with XElem nm _ _ _ => match x_prefix nm with Some p => p ++ lit ":" ++ x_local nm | None => x_local nm end | XOther => [] end.
(* 72-86 *)
Definition by_id (n : xnode) (i : text) : option path :=
  hd_error (select true (fun x => match attr_of x (lit "id") with Some t => text_eqb t i | None => false end) n).
(* 117-138 *)
Definition by_tag (include_self : bool) (n : xnode) (q : text) : list path :=
  select include_self (fun x => text_eqb q (lit "*") || text_eqb (qname_of x) q) n.
(* 141-165 *)
Definition by_tag_ns (include_self : bool) (n : xnode) (ns : option text) (l : text) : list path :=
  select include_self (fun x =>
    (match ns with Some u => text_eqb u (lit "*") || text_eqb (ns_of x) u | None => true end) &&
    (text_eqb l (lit "*") || text_eqb (local_of x) l)) n.
(* dom.py 2063-2074 *)
Definition by_local (n : xnode) (l : text) : list path := select false (fun x => text_eqb (local_of x) l) n.

(** ** Class names *)
(* a class name becomes part of a regular expression: '.' is any character
   but a newline; names with the other special characters, and with the quote
   that ends the XPath string, are not modelled *)
Definition special (c : N) : bool := existsb (N.eqb c) (lit "\^$*+?{}[]|()" ++ [34]).
Definition char_pattern (c : N) : N -> bool := if c =? 46 then fun x => negb (x =? 10) else N.eqb c.
Fixpoint pattern_of (name : text) : result (list (N -> bool)) :=
  match name with
  | [] => Ok []
  | c :: r => if special c then Err NotImplementedError_ else do ps <- pattern_of r; Ok (char_pattern c :: ps)
  end.
Fixpoint patterns_of (names : list text) : result (list (list (N -> bool))) :=
  match names with [] => Ok [] | x :: r => do p <- pattern_of x; do ps <- patterns_of r; Ok (p :: ps) end.
(* what is left after the characters of the name *)
Fixpoint after (ps : list (N -> bool)) (s : text) : option text :=
  match ps, s with
  | [], _ => Some s
  | p :: ps', c :: s' => if p c then after ps' s' else None
  | _, [] => None
  end.
(* ($| ): the end, also before a newline at the end *)
Definition ends (s : text) : bool := match s with [] => true | [10] => true | 32 :: _ => true | _ => false end.
Definition here (ps : list (N -> bool)) (s : text) : bool := match after ps s with Some r => ends r | None => false end.
(* (^| ) somewhere in the text *)
Fixpoint later (ps : list (N -> bool)) (s : text) : bool :=
  match s with [] => false | c :: r => (c =? 32) && here ps r || later ps r end.
Definition re_test (ps : list (N -> bool)) (s : text) : bool := here ps s || later ps s.
Definition class_of (n : xnode) : text := match attr_of n (lit "class") with Some c => c | None => [] end.
(* 89-114, with the caller's dictionary of prefixes afterwards *)
Definition re_uri : text := lit "http://exslt.org/regular-expressions".
Definition by_class (include_self : bool) (n : xnode) (names : text) (nsmap : option (dict text)) : result (list path) * option (dict text) :=
  match split_ws names with
  | [] => (Ok [], nsmap)
  | l => ((do ps <- patterns_of l; Ok (select include_self (fun x => forallb (fun p => re_test p (class_of x)) ps) n)),
          match nsmap with Some d => Some (dset d (lit "re") re_uri) | None => None end)
  end.

(** ** Text content *)
(* dom.py 1354, 1382-1386 *)
Definition descriptive : list text := [lit "desc"; lit "metadata"; lit "title"].
Definition text_elements : list text := [lit "text"; lit "tspan"].
Definition text_children : list text := [lit "textPath"; lit "tspan"].
Definition dflt_text (o : option text) : text := match o with Some t => t | None => [] end.
(* 1548-1564 *)
Fixpoint chars_of (n : xnode) : text :=
  match n with
  | XOther => []
  | XElem _ _ txt kids =>
      dflt_text txt ++
      (fix go (ks : list (xnode * option text)) : text :=
         match ks with
         | [] => []
         | (c, tail) :: r =>
             (match c with
              | XOther => []
              | XElem nm _ _ _ =>
                  if mem (x_local nm) text_elements
                  then chars_of c ++ (if mem (x_local nm) text_children then dflt_text tail else [])
                  else []
              end) ++ go r
         end) kids
  end.
(* 1530-1540 *)
Definition text_content (n : xnode) : option text :=
  match n with
  | XOther => None
  | XElem nm _ txt _ =>
      if mem (x_local nm) descriptive then txt
      else if mem (x_local nm) text_elements then Some (chars_of n)
      else None
  end.
(* 1542-1545; removing a child takes its tail along (lxml) *)
Definition set_text_content (n : xnode) (t : option text) : xnode :=
  match n with XElem nm a _ _ => XElem nm a t [] | XOther => XOther end.
