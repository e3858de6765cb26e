(** Trees of CSS rules: CSSRule and its subclasses, CSSGroupingRule.insert_rule and
    delete_rule, CSSStyleSheet.insert_rule and delete_rule, CSSParser.fromstring and
    parse_rules (svgpy/css/__init__.py 662-768, 973-1291, 1586-1715, 1774-1819). *)
From Coq Require Import ZArith.
From Verif Require Import PyBase PyText PyList PySplit PyDict PyCase UtilsModel.

(** What tinycss2 gives.  A token: ident, string, url, literal, integer number, or any
    other with its text.  A node of a rule list: an at-rule with its keyword in lower
    case, its prelude, and, if it has a block, the block both as tokens and as what
    parse_rule_list reads from it; a qualified rule; or a parse error. *)
Inductive tok := Ident (v : text) | Str (v : text) | Url (v : text) | Lit (v : text) | Int (n : Z) | Other (t : text).
Inductive node :=
  | At (keyword : text) (prelude : list tok) (block : bool) (content : list tok) (inner : list node)
  | Qual (prelude content : list tok)
  | Bad.

(** A rule object: its identity, what it is, its parent_style_sheet and parent_rule, and
    its css_rules.  Declaration blocks are kept as the tokens they are read from (C23),
    media lists as the tokens of media_text (C57). *)
Definition features := dict (cimap (list Z)).
Inductive kind :=
  | KStyle (selector style : list tok)
  | KFontFace (style : list tok)
  | KFeatures (family : list tok) (values : features)
  | KImport (href : option text) (media : list tok)
  | KMedia (media : list tok)
  | KNamespace (uri : option text) (prefix : text).
Inductive rule := Rl (id : nat) (k : kind) (sheet parent : option nat) (kids : list rule).
(* 665-675 *)
Definition rule_type (k : kind) : N :=
  match k with KStyle _ _ => 1 | KImport _ _ => 3 | KMedia _ => 4 | KFontFace _ => 5 | KNamespace _ _ => 10 | KFeatures _ _ => 14 end%N.
Definition type_of (r : rule) : N := match r with Rl _ k _ _ _ => rule_type k end.

(** ** @font-feature-values (1006-1081) *)
Definition feature_types : list text :=
  [lit "annotation"; lit "character-variant"; lit "ornaments"; lit "styleset"; lit "stylistic"; lit "swash"].
(* 1022-1027 *)
Definition no_features : features := map (fun k => (k, ci_empty)) feature_types.
(* 1064-1077 *)
Definition store (fs : features) (ft name : text) (vals : list Z) : features :=
  match dget fs ft with Some m => dset fs ft (ci_set lower m name vals) | None => fs end.
(* 1052-1079 *)
Definition fstep (ft : text) (s : features * option text * option (list Z)) (t : tok) : features * option text * option (list Z) :=
  let '(fs, name, vals) := s in
  match t with
  | Ident v => (fs, Some v, vals)
  | Lit v =>
      if text_eqb v (lit ":") then (fs, name, match name with Some _ => Some [] | None => vals end)
      else if text_eqb v (lit ";") then
        (match name, vals with Some nm, Some (x :: l) => store fs ft nm (x :: l) | _, _ => fs end, None, None)
      else s
  | Int n => (fs, name, match vals with Some l => Some (if (0 <=? n)%Z then l ++ [n] else l) | None => None end)
  | _ => s
  end.
Definition read_features (fs : features) (ft : text) (content : list tok) : features := fst (fst (fold_left (fstep ft) content (fs, None, None))).
(* 1044-1081; a block is missing: for token in None *)
Fixpoint features_of (fs : features) (nodes : list node) : result features :=
  match nodes with
  | [] => Ok fs
  | At kw _ block content _ :: r => if block then features_of (read_features fs kw content) r else Err TypeError
  | _ :: r => features_of fs r
  end.
(* 1149-1178 without the loading: the first string or url, resolved, and what follows it *)
Fixpoint import_prelude (resolve : text -> text) (l : list tok) : option text * list tok :=
  match l with
  | [] => (None, [])
  | Str v :: r => (Some (resolve v), r)
  | Url v :: r => (Some (resolve v), r)
  | _ :: r => import_prelude resolve r
  end.
(* 1275-1280 *)
Definition namespace_prelude (l : list tok) : option text * text :=
  fold_left (fun s t => match t with Url v => (Some v, snd s) | Ident v => (fst s, v) | _ => s end) l (None, []).

(** ** parse_rules (1774-1819).  [n] is the next identity.  The media rule's rules are made
    with the media rule as their parent (1198-1220).  @font-face, @media and
    @font-feature-values without a block fail: tinycss2 iterates over None. *)
Fixpoint parse_node (resolve : text -> text) (sheet parent : option nat) (nd : node) (n : nat) : result (list rule * nat) :=
  match nd with
  | Bad => Ok ([], n)
  | Qual prelude content => Ok ([Rl n (KStyle prelude content) sheet parent []], S n)
  | At kw prelude block content inner =>
      if text_eqb kw (lit "font-face") then
        if block then Ok ([Rl n (KFontFace content) sheet parent []], S n) else Err TypeError
      else if text_eqb kw (lit "font-feature-values") then
        if block then do fs <- features_of no_features inner; Ok ([Rl n (KFeatures prelude fs) sheet parent []], S n) else Err TypeError
      else if text_eqb kw (lit "import") then
        let '(href, media) := import_prelude resolve prelude in Ok ([Rl n (KImport href media) sheet parent []], S n)
      else if text_eqb kw (lit "media") then
        if block then
          do (kids, m) <- (fix go (l : list node) (m : nat) : result (list rule * nat) :=
                             match l with
                             | [] => Ok ([], m)
                             | x :: l' => do (a, m1) <- parse_node resolve sheet (Some n) x m; do (b, m2) <- go l' m1; Ok (a ++ b, m2)
                             end) inner (S n);
          Ok ([Rl n (KMedia prelude) sheet parent kids], m)
        else Err TypeError
      else if text_eqb kw (lit "namespace") then
        let '(uri, prefix) := namespace_prelude prelude in Ok ([Rl n (KNamespace uri prefix) sheet parent []], S n)
      else Ok ([], n)
  end.
Fixpoint parse_rules (resolve : text -> text) (sheet parent : option nat) (l : list node) (n : nat) : result (list rule * nat) :=
  match l with
  | [] => Ok ([], n)
  | x :: r => do (a, n1) <- parse_node resolve sheet parent x n; do (b, n2) <- parse_rules resolve sheet parent r n1; Ok (a ++ b, n2)
  end.

(** ** A style sheet and its edits (743-768, 1626-1684).  Python's slices and indices. *)
Record style_sheet := mkSheet { sid : nat; owner_rule : option nat; css_rules : list rule; fresh : nat }.
(* a place is the sheet, or the media rule reached through these indices of css_rules *)
Inductive op := Insert (place : list nat) (nodes : list node) (index : Z) | Delete (place : list nat) (index : Z).
Fixpoint at_place (place : list nat) (sheet parent : option nat) (l : list rule)
                  (f : option nat -> option nat -> list rule -> result (list rule * nat)) : result (list rule * nat) :=
  match place with
  | [] => f sheet parent l
  | i :: place' =>
      match nth_error l i with
      | None => Err IndexError
      | Some (Rl id (KMedia m) sh p kids) =>
          do (kids', n) <- at_place place' sh (Some id) kids f;
          Ok (firstn i l ++ Rl id (KMedia m) sh p kids' :: skipn (S i) l, n)
      | Some _ => Err AttributeError
      end
  end.
Definition edit (resolve : text -> text) (s : style_sheet) (o : op) : result style_sheet :=
  do (l, n) <- match o with
               | Insert place nodes i =>
                   at_place place (Some (sid s)) (owner_rule s) (css_rules s) (fun sh p l =>
                     do (new, n) <- parse_rules resolve sh p nodes (fresh s); Ok (list_set_slice l i i new, n))
               | Delete place i => at_place place (Some (sid s)) (owner_rule s) (css_rules s) (fun _ _ l => do l' <- list_del l i; Ok (l', fresh s))
               end;
  Ok (mkSheet (sid s) (owner_rule s) l n).
(* an edit that raises leaves the sheet as it was *)
Definition edits (resolve : text -> text) (s : style_sheet) (ops : list op) : style_sheet :=
  fold_left (fun s o => match edit resolve s o with Ok s' => s' | Err _ => s end) ops s.
