(** Navigation: svgpy/url.py 56-205 (Location), svgpy/window.py 37-67 (BrowsingContext), 73-103, 139-171, 548-566 (Document's location and
    navigate), 850-864 and 902-913 (Window's location), svgpy/utils.py 206-231 (normalize_url).  URLs are those of UrlModel.
    What a URL leads to (SVGDOMImplementation.parse: fetching, decoding, the XML parser) is an oracle from its text to a page or the exception,
    the same at every call; pages stand for root elements with all that is below and beside them.  A location outside every browsing context, which
    never navigates, is not here: it is the URL alone.  There is one window, and any number of documents made with it as their default view or with none. *)
From Verif Require Import PyBase PyText PyCase PyDict PySplit UrlModel.
#[local] Open Scope N_scope.

(** The decoding of URLs, the current folder as a file URI, and the pages. *)
Record net (A : Type) := mkNet { n_web : web; n_cwd : text; n_fetch : text -> result A }.
Arguments mkNet {A}. Arguments n_web {A}. Arguments n_cwd {A}. Arguments n_fetch {A}.

(** A location with the document it is to navigate: the URL, that document's root element, and whether it has an implementation, which
    is what parses pages. *)
Record tab (A : Type) := mkTab { t_url : url; t_root : option A; t_impl : bool }.
Arguments mkTab {A}. Arguments t_url {A}. Arguments t_root {A}. Arguments t_impl {A}.

(* url.py 577-583: href *)
Definition href (u : url) : text := snd (tostring u).

(* window.py 548-566: the root is removed first *)
Definition navigate {A} (n : net A) (t : tab A) : tab A * option pyerr :=
  let u := look (t_url t) in  (* href reads the host *)
  if text_eqb (u_protocol u) (lit "about:") then (mkTab u None (t_impl t), None)
  else if t_impl t then
    match n_fetch n (href u) with
    | Ok p => (mkTab u (Some p) (t_impl t), None)
    | Err e => (mkTab u None (t_impl t), Some e)
    end
  else (mkTab u None (t_impl t), Some AttributeError).

(* url.py 175-184: the host is read only where there is no scheme *)
Definition no_page (u : url) : bool :=
  (negb (nonempty (u_protocol u)) && negb (nonempty (get_host u))) || mem (u_protocol u) [lit "blob:"; lit "data:"]
  || (mem (u_protocol u) [lit "about:"; lit "file:"] && negb (nonempty (get_pathname u))).
Definition go {A} (n : net A) (t : tab A) : tab A * option pyerr :=
  if no_page (t_url t) then (mkTab (look (t_url t)) (t_root t) (t_impl t), Some ValueError)  (* the message has the href *)
  else navigate n t.

(* a setter of the URL and then the navigation: the URL keeps what a failing setter did to it *)
Definition moved {A} (n : net A) (t : tab A) (s : setting) : tab A * option pyerr :=
  match s with
  | (u, Some e) => (mkTab u (t_root t) (t_impl t), Some e)
  | (u, None) => go n (mkTab u (t_root t) (t_impl t))
  end.

(* url.py 71-173: the components that can be set *)
Inductive part := PHash | PHost | PHostname | PPathname | PPort | PProtocol | PSearch.
Definition comp_of (p : part) : comp :=
  match p with PHash => CHash | PHost => CHost | PHostname => CHostname | PPathname => CPathname | PPort => CPort | PProtocol => CProtocol | PSearch => CSearch end.
Definition set_part {A} (n : net A) (t : tab A) (p : part) (v : text) : tab A * option pyerr := moved n t (set_comp (n_web n) (comp_of p) (t_url t) v).
(* 109-119 *)
Definition set_href {A} (n : net A) (t : tab A) (v : text) : tab A * option pyerr := moved n t (parse_url (n_web n) (t_url t) v).
(* 186-192 *)
Definition assign {A} (n : net A) (t : tab A) (v : text) : tab A * option pyerr := set_href n t v.
(* 194-196 *)
Definition reload {A} (n : net A) (t : tab A) : tab A * option pyerr := go n t.

(* utils.py 206-231, given the text of the base *)
Definition starts_about (t : text) : bool := text_eqb (firstn 6 t) (lit "about:").
Definition normalize_url {A} (n : net A) (src base : text) : result url := construct_text (n_web n) src (if starts_about base then n_cwd n else base).

(* window.py 163-171 and 902-913: the base is the href, read before *)
Definition move_to {A} (n : net A) (t : tab A) (base src : text) : tab A * option pyerr :=
  let t := mkTab (look (t_url t)) (t_root t) (t_impl t) in
  match normalize_url n src base with
  | Err e => (t, Some e)
  | Ok u => set_href n t (href u)
  end.

(** ** The window and the documents *)
(* a document with a location of its own, or one that shares the window's: only its root is its own *)
Inductive doc (A : Type) := Alone (t : tab A) | Viewed (root : option A).
Arguments Alone {A}. Arguments Viewed {A}.
Record world (A : Type) := mkWorld { w_main : tab A; w_docs : list (doc A) }.
Arguments mkWorld {A}. Arguments w_main {A}. Arguments w_docs {A}.

(* url.py 66-67 *)
Definition about_blank (w : web) : url := fst (parse_url w blank (lit "about:blank")).
(* window.py 850-864: the window's document has an <svg> root *)
Definition new_world {A} (n : net A) (svg : A) : world A := mkWorld (mkTab (about_blank (n_web n)) (Some svg) true) [].

Inductive who := Win | Doc (i : nat).
(** The location that the location of a window or a document is. *)
Inductive place := Main | Own (i : nat).
Definition place_of {A} (w : world A) (x : who) : option place :=
  match x with
  | Win => Some Main
  | Doc i => match nth_error (w_docs w) i with Some (Alone _) => Some (Own i) | Some (Viewed _) => Some Main | None => None end
  end.
Definition tab_at {A} (w : world A) (p : place) : option (tab A) :=
  match p with Main => Some (w_main w) | Own i => match nth_error (w_docs w) i with Some (Alone t) => Some t | _ => None end end.
Fixpoint put {B} (l : list B) (i : nat) (x : B) : list B := match l, i with [], _ => [] | _ :: r, O => x :: r | y :: r, S j => y :: put r j x end.
Definition tab_put {A} (w : world A) (p : place) (t : tab A) : world A :=
  match p with Main => mkWorld t (w_docs w) | Own i => mkWorld (w_main w) (put (w_docs w) i (Alone t)) end.

Inductive lop := LPart (p : part) (v : text) | LHref (v : text) | LAssign (v : text) | LReload | LRead | LMove (src : text).
(* the location of a window or a document is used; LMove is the assignment to its attribute location *)
Definition loc_step {A} (n : net A) (t : tab A) (o : lop) : tab A * option pyerr :=
  match o with
  | LPart p v => set_part n t p v
  | LHref v => set_href n t v
  | LAssign v => assign n t v
  | LReload => reload n t
  | LRead => (mkTab (look (t_url t)) (t_root t) (t_impl t), None)
  | LMove src => move_to n t (href (t_url t)) src  (* either way the base is this location's own text *)
  end.

Inductive wop (A : Type) :=
  | WLoc (x : who) (o : lop)
  | WNew (impl : bool) (root : option A)  (* Document(), or create_document without default_view *)
  | WView (root : option A)               (* the same with the window as default_view *)
  | WRoot (x : who) (root : option A).    (* the root taken away or put into the document by hand *)
Arguments WLoc {A}. Arguments WNew {A}. Arguments WView {A}. Arguments WRoot {A}.

Definition set_root {A} (t : tab A) (r : option A) : tab A := mkTab (t_url t) r (t_impl t).
Definition world_step {A} (n : net A) (w : world A) (o : wop A) : world A * option pyerr :=
  match o with
  | WLoc x o =>
      match place_of w x with
      | None => (w, None)
      | Some p => match tab_at w p with None => (w, None) | Some t => let '(t, e) := loc_step n t o in (tab_put w p t, e) end
      end
  | WNew impl root => (mkWorld (w_main w) (w_docs w ++ [Alone (mkTab (about_blank (n_web n)) root impl)]), None)
  | WView root => (mkWorld (w_main w) (w_docs w ++ [Viewed root]), None)
  | WRoot Win r => (mkWorld (set_root (w_main w) r) (w_docs w), None)
  | WRoot (Doc i) r =>
      (mkWorld (w_main w) (match nth_error (w_docs w) i with
                           | Some (Alone t) => put (w_docs w) i (Alone (set_root t r))
                           | Some (Viewed _) => put (w_docs w) i (Viewed r)
                           | None => w_docs w
                           end), None)
  end.
Fixpoint world_run {A} (n : net A) (w : world A) (ops : list (wop A)) : world A * list (option pyerr) :=
  match ops with [] => (w, []) | o :: r => let '(w, e) := world_step n w o in let '(w, es) := world_run n w r in (w, e :: es) end.
