(** What C73 says, apart from the model's functions. *)
From Verif Require Import PyBase PyText PyDict PySplit UtilsModel UrlModel TokenModel CascadeModel CascadeSpec LoadModel SheetsModel.
#[local] Open Scope N_scope.

(** The node at the end of a way from the root. *)
Inductive at_way : node -> list nat -> node -> Prop :=
| way_here n : at_way n [] n
| way_down name a t kids i k p n : nth_error kids i = Some k -> at_way k p n -> at_way (NElem name a t kids) (i :: p) n.
(** Document order of ways: a node before those below it, and all below a child before the next child. *)
Inductive before : list nat -> list nat -> Prop :=
| before_below i p : before [] (i :: p)
| before_left i j p q : (i < j)%nat -> before (i :: p) (j :: q)
| before_same i p q : before p q -> before (i :: p) (i :: q).
Inductive ascending {A} (lt : A -> A -> Prop) : list A -> Prop :=
| asc_nil : ascending lt []
| asc_cons x l : (forall y, In y l -> lt x y) -> ascending lt l -> ascending lt (x :: l).

(** An attribute without default. *)
Definition attr_is (a : dict text) (k v : text) : Prop := dget a k = Some v.
Definition attr_or (a : dict text) (k d v : text) : Prop := dget a k = Some v \/ (dget a k = None /\ v = d).

(** A link to be used: its relations are words of its attribute. *)
Definition has_rel (a : dict text) (r : text) : Prop := exists v, attr_is a (lit "rel") v /\ In r (tokens (Some v)).
Definition styled (a : dict text) : Prop := attr_is a (lit "as") (lit "style").
Definition sheet_rel (a : dict text) : Prop :=
  ~ has_rel a (lit "alternate") /\ (has_rel a (lit "stylesheet") \/ has_rel a (lit "preload")) /\ (has_rel a (lit "preload") -> styled a).
(** Its reference is not to a part of the document. *)
Definition elsewhere (h : text) : Prop := h <> [] /\ forall r, h <> 35 :: r.
Definition media_holds (c : ctx) (a : dict text) : Prop := forall m, attr_is a (lit "media") m -> holds (c_win c) m.

(** A node of the tree that gives a sheet *)
Definition used_element (c : ctx) (n : node) : Prop :=
  exists name a t kids, n = NElem name a t kids /\ media_holds c a /\
    ((name = lit "link" /\ sheet_rel a /\ exists h, attr_is a (lit "href") h /\ elsewhere h) \/
     (name = lit "style" /\ t <> None /\ forall ty, attr_is a (lit "type") ty -> ty = lit "text/css")).
(** and one before the root. *)
Definition used_pi (c : ctx) (n : node) : Prop :=
  exists a h, n = NPI (lit "xml-stylesheet") a /\ media_holds c a /\ attr_is a (lit "href") h /\ elsewhere h /\ ~ attr_is a (lit "alternate") (lit "yes").

(** What a reference leads to: against the document's URI, or the current folder where it has none or is blank; no rules where it cannot be reached. *)
Definition based (c : ctx) (b : text) : Prop :=
  match c_uri c with None => b = c_cwd c | Some u => (exists r, u = lit "about:" ++ r) /\ b = c_cwd c \/ (~ (exists r, u = lit "about:" ++ r)) /\ b = u end.
Definition fetched (c : ctx) (t : text) (advice : option text) (rs : list rule) : Prop :=
  (exists d hs, load (c_web c) (c_wire c) t = Ok (d, hs) /\ let got := c_bytes c (match advice with Some e => e | None => charset_of hs end) d in got = Ok rs \/ got = Err OtherError /\ rs = [])
  \/ load (c_web c) (c_wire c) t = Err OtherError /\ rs = [].
Definition leads (c : ctx) (h : text) (advice : option text) (rs : list rule) : Prop :=
  exists b u, based c b /\ construct_text (c_web c) h b = Ok u /\ fetched c (snd (tostring u)) advice rs.
(** The sheet of a node, with its attributes. *)
Definition carries (a : dict text) (s : sheet) : Prop :=
  attr_or a (lit "type") (lit "text/css") (s_type s) /\ s_title s = dget a (lit "title").
Definition sheet_for (c : ctx) (n : node) (s : sheet) : Prop :=
  match n with
  | NElem name a t _ =>
      carries a s /\
      ((name = lit "link" /\ attr_or a (lit "media") [] (s_media s) /\ exists h, attr_is a (lit "href") h /\ s_href s = Some h /\ leads c h None (s_rules s)) \/
       (name = lit "style" /\ attr_or a (lit "media") (lit "all") (s_media s) /\ s_href s = None /\
        exists x, t = Some x /\ (c_text c x = Ok (s_rules s) \/ c_text c x = Err OtherError /\ s_rules s = [])))
  | NPI _ a => carries a s /\ attr_or a (lit "media") [] (s_media s) /\ exists h, attr_is a (lit "href") h /\ s_href s = Some h /\ leads c h (dget a (lit "charset")) (s_rules s)
  | NNote => False
  end.

(** The node of a page that an owner is. *)
Definition owns (p : page) (o : owner) (n : node) : Prop :=
  match o with OAgent => False | OPI i => nth_error (p_prolog p) i = Some n | OElem w => at_way (p_root p) w n end.
Definition used (c : ctx) (o : owner) (n : node) : Prop := match o with OAgent => False | OPI _ => used_pi c n | OElem _ => used_element c n end.
Definition precedes (x y : owner) : Prop :=
  match x, y with
  | OAgent, OAgent => False
  | OAgent, _ => True
  | OPI i, OPI j => (i < j)%nat
  | OPI _, OElem _ => True
  | OElem p, OElem q => before p q
  | _, _ => False
  end.

(** A node that stops the collection, with the exception: a link to be used, or a stylesheet instruction, with an empty reference; a sheet to be used whose
    reference is no URL, or whose loading or parsing fails otherwise than by URLError. *)
Definition no_target (o : owner) (n : node) : Prop :=
  match o, n with
  | OElem _, NElem name a _ _ => name = lit "link" /\ sheet_rel a /\ attr_or a (lit "href") [] []
  | OPI _, NPI t a => t = lit "xml-stylesheet" /\ attr_is a (lit "href") []
  | _, _ => False
  end.
Definition fails (c : ctx) (h : text) (advice : option text) (e : pyerr) : Prop :=
  exists b, based c b /\ (construct_text (c_web c) h b = Err e \/
    exists u, construct_text (c_web c) h b = Ok u /\ e <> OtherError /\
      (load (c_web c) (c_wire c) (snd (tostring u)) = Err e \/
       exists d hs, load (c_web c) (c_wire c) (snd (tostring u)) = Ok (d, hs) /\ c_bytes c (match advice with Some e => e | None => charset_of hs end) d = Err e)).
Definition stops (c : ctx) (o : owner) (n : node) (e : pyerr) : Prop :=
  no_target o n /\ e = IndexError \/
  used c o n /\
    match n with
    | NElem name a t _ => name = lit "link" /\ (exists h, attr_is a (lit "href") h /\ fails c h None e) \/ name = lit "style" /\ exists x, t = Some x /\ c_text c x = Err e /\ e <> OtherError
    | NPI _ a => exists h, attr_is a (lit "href") h /\ fails c h (dget a (lit "charset")) e
    | NNote => False
    end.
(** The nodes that matter, in document order: what stands in the tree apart from links and styles is left out. *)
Inductive listed : node -> list node -> Prop :=
| listed_elem name a t kids l : listed_all kids l -> (name = lit "link" \/ name = lit "style") -> listed (NElem name a t kids) (NElem name a t [] :: l)
| listed_other name a t kids l : listed_all kids l -> name <> lit "link" -> name <> lit "style" -> listed (NElem name a t kids) l
| listed_pi t a : listed (NPI t a) []
| listed_note : listed NNote []
with listed_all : list node -> list node -> Prop :=
| all_nil : listed_all [] []
| all_cons k r l m : listed k l -> listed_all r m -> listed_all (k :: r) (l ++ m).
(** A sheet as if it belonged to no node. *)
Definition unowned (s : sheet) : sheet := mkSheet OAgent (s_type s) (s_href s) (s_title s) (s_media s) (s_rules s).
