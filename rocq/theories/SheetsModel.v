(** The style sheets of a document: svgpy/style.py 124-276, svgpy/css/__init__.py 905-931 (StyleSheet), 1626-1638, 1687-1773 (CSSParser.parse and
    fromstring), svgpy/element.py 49-155 and 812-836 (the attributes of <link> and <style>), svgpy/dom.py 2425-2433 (LinkStyle).
    The rules that tinycss2 and CSSParser.parse_rules make of bytes or text, with the sheets they import, are arguments: rules are those of CascadeModel.
    OtherError stands for URLError, the one exception that the parser handles.  Attributes are those without namespace. *)
From Verif Require Import PyBase PyText PyDict PySplit UtilsModel UrlModel TokenModel CascadeModel LoadModel.
#[local] Open Scope N_scope.

(** Elements with local name, attributes, the text before their first child, and the children; processing instructions; comments. *)
Inductive node := NElem (name : text) (attrs : dict text) (txt : option text) (kids : list node) | NPI (target : text) (attrs : dict text) | NNote.
(** What stands before the root, in document order, and the root. *)
Record page := mkPage { p_prolog : list node; p_root : node }.

(** The window's answer to media queries, the document's URI, the decoding of URLs, the current folder, the net, and the parsers. *)
Record ctx := mkCtx { c_win : option (text -> bool); c_uri : option text; c_web : web; c_cwd : text; c_wire : wire;
  c_bytes : text -> body -> result (list rule); c_text : text -> result (list rule); c_agent : list rule }.

(** The node a sheet belongs to: none for the one of the user agent, the place before the root, or the way from the root. *)
Inductive owner := OAgent | OPI (i : nat) | OElem (path : list nat).
(* css/__init__.py 905-931, 1636-1638: [s_media] is what the media list is set to *)
Record sheet := mkSheet { s_owner : owner; s_type : text; s_href : option text; s_title : option text; s_media : text; s_rules : list rule }.

Definition get_or (a : dict text) (k : text) (d : text) : text := match dget a k with Some v => v | None => d end.

(* utils.py 206-231 *)
Definition sheet_url (c : ctx) (src : text) : result url :=
  construct_text (c_web c) src (match c_uri c with None => c_cwd c | Some b => if text_eqb (firstn 6 b) (lit "about:") then c_cwd c else b end).

(* css/__init__.py 1714-1773 *)
Definition parse_sheet (c : ctx) (o : owner) (a : dict text) (src : text) (advice : option text) : result sheet :=
  let s := mkSheet o (get_or a (lit "type") (lit "text/css")) (dget a (lit "href")) (dget a (lit "title")) (get_or a (lit "media") []) in
  match (do (b, h) <- load (c_web c) (c_wire c) src; c_bytes c (css_encoding advice h) b) with
  | Ok rs => Ok (s rs)
  | Err OtherError => Ok (s [])
  | Err e => Err e
  end.

(* style.py 165-195 *)
Definition link_sheet (c : ctx) (o : owner) (a : dict text) : result (option sheet) :=
  let rel := tokens (dget a (lit "rel")) in
  let styled := text_eqb (get_or a (lit "as") []) (lit "style") in
  if mem (lit "alternate") rel
     || (negb (mem (lit "stylesheet") rel) && negb (mem (lit "preload") rel && styled))
     || (mem (lit "preload") rel && negb styled) then Ok None
  else match get_or a (lit "href") [] with
       | [] => Err IndexError
       | x :: r =>
           if x =? 35 then Ok None
           else if media_ok (c_win c) (get_or a (lit "media") []) then do u <- sheet_url c (x :: r); do s <- parse_sheet c o a (snd (tostring u)) None; Ok (Some s)
           else Ok None
       end.
(* 196-220, css/__init__.py 1688-1712: fromstring gives no rules for a URLError *)
Definition style_sheet (c : ctx) (o : owner) (a : dict text) (t : option text) : result (option sheet) :=
  let type := get_or a (lit "type") (lit "text/css") in
  match t with
  | None => Ok None
  | Some t =>
      if negb (text_eqb type (lit "text/css")) then Ok None
      else if media_ok (c_win c) (get_or a (lit "media") (lit "all")) then
        do rs <- match c_text c t with Ok rs => Ok rs | Err OtherError => Ok [] | Err e => Err e end;
        Ok (Some (mkSheet o type None (dget a (lit "title")) (get_or a (lit "media") (lit "all")) rs))
      else Ok None
  end.
(* 152-163 *)
Definition element_sheet (c : ctx) (o : owner) (n : node) : result (option sheet) :=
  match n with
  | NElem name a t _ => if text_eqb name (lit "link") then link_sheet c o a else if text_eqb name (lit "style") then style_sheet c o a t else Err ValueError
  | _ => Err ValueError
  end.

(* lxml's iter: the element and all below, in document order, with the way to each; the tags select links and styles of any namespace *)
Definition named (n : node) : bool := match n with NElem name _ _ _ => text_eqb name (lit "link") || text_eqb name (lit "style") | _ => false end.
Fixpoint walk (p : list nat) (n : node) : list (list nat * node) :=
  match n with
  | NElem _ _ _ kids => (p, n) :: (fix go i l := match l with [] => [] | k :: r => walk (p ++ [i]) k ++ go (S i) r end) O kids
  | _ => []
  end.
Fixpoint collect {A} (f : A -> result (option sheet)) (l : list A) : result (list sheet) :=
  match l with
  | [] => Ok []
  | x :: r => do s <- f x; do ss <- collect f r; Ok (match s with None => ss | Some s => s :: ss end)
  end.
(* 223-232 *)
Definition tree_sheets (c : ctx) (root : node) : result (list sheet) :=
  collect (fun x => element_sheet c (OElem (fst x)) (snd x)) (filter (fun x => named (snd x)) (walk [] root)).

(* 250-276: one node before the root *)
Definition pi_sheet (c : ctx) (x : nat * node) : result (option sheet) :=
  match snd x with
  | NPI target a =>
      if text_eqb target (lit "xml-stylesheet") then
        match dget a (lit "href") with
        | None => Ok None
        | Some [] => Err IndexError
        | Some (h :: r) =>
            if (h =? 35) || text_eqb (get_or a (lit "alternate") []) (lit "yes") then Ok None
            else if media_ok (c_win c) (get_or a (lit "media") []) then
              do u <- sheet_url c (h :: r); do s <- parse_sheet c (OPI (fst x)) a (snd (tostring u)) (dget a (lit "charset")); Ok (Some s)
            else Ok None
        end
      else Ok None
  | _ => Ok None
  end.
Fixpoint numbered {A} (i : nat) (l : list A) : list (nat * A) := match l with [] => [] | x :: r => (i, x) :: numbered (S i) r end.
(* 235-276 *)
Definition prolog_sheets (c : ctx) (l : list node) : result (list sheet) := collect (pi_sheet c) (numbered 0 l).

(* 133-149 *)
Definition agent_sheet (c : ctx) : sheet := mkSheet OAgent (lit "text/css") None None [] (c_agent c).
Definition get_sheets (c : ctx) (p : page) : result (list sheet) :=
  do a <- prolog_sheets c (p_prolog p); do b <- tree_sheets c (p_root p); Ok (agent_sheet c :: a ++ b).
(* 124-131 *)
Definition page_rules (c : ctx) (p : page) : result (list rule) := do l <- get_sheets c p; Ok (get_css_rules (c_win c) (map s_rules l)).
