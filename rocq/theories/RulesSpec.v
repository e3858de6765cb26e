(** What a tree of CSS rules should look like. *)
From Coq Require Import ZArith.
From Verif Require Import PyBase PyText PySplit PyDict PyCase UtilsModel UtilsSpec RulesModel.

(** The kinds of font feature values of CSS Fonts 3. *)
Definition feature_words : list text :=
  [lit "annotation"; lit "character-variant"; lit "ornaments"; lit "styleset"; lit "stylistic"; lit "swash"].

(* the at-rules that are kept and their types in CSSOM; style rules have type 1 *)
Definition kept_rules : list (text * N) :=
  [(lit "import", 3); (lit "media", 4); (lit "font-face", 5); (lit "namespace", 10); (lit "font-feature-values", 14)]%N.
Definition node_type (nd : node) : list N :=
  match nd with
  | Qual _ _ => [1%N]
  | Bad => []
  | At kw _ _ _ _ => map snd (filter (fun e => text_eqb (fst e) kw) kept_rules)
  end.
Definition known (nd : node) : bool := match node_type nd with [] => false | _ => true end.
Definition locator (t : tok) : bool := match t with Str _ | Url _ => true | _ => false end.
Fixpoint urls (l : list tok) : list text := match l with [] => [] | Url v :: r => v :: urls r | _ :: r => urls r end.
Fixpoint idents (l : list tok) : list text := match l with [] => [] | Ident v :: r => v :: idents r | _ :: r => idents r end.
Definition final {A} (l : list A) : option A := match rev l with [] => None | x :: _ => Some x end.
(* which node makes which rule *)
Inductive describes (resolve : text -> text) : node -> kind -> Prop :=
  | d_style p c : describes resolve (Qual p c) (KStyle p c)
  | d_face p c i : describes resolve (At (lit "font-face") p true c i) (KFontFace c)
  | d_media p c i : describes resolve (At (lit "media") p true c i) (KMedia p)
  | d_features p c i fs : describes resolve (At (lit "font-feature-values") p true c i) (KFeatures p fs)
  | d_import_str pre v media b c i : existsb locator pre = false -> describes resolve (At (lit "import") (pre ++ Str v :: media) b c i) (KImport (Some (resolve v)) media)
  | d_import_url pre v media b c i : existsb locator pre = false -> describes resolve (At (lit "import") (pre ++ Url v :: media) b c i) (KImport (Some (resolve v)) media)
  | d_import_none pre b c i : existsb locator pre = false -> describes resolve (At (lit "import") pre b c i) (KImport None [])
  | d_namespace p b c i : describes resolve (At (lit "namespace") p b c i)
                            (KNamespace (final (urls p)) (match final (idents p) with Some v => v | None => [] end)).
Definition kind_of (r : rule) : kind := match r with Rl _ k _ _ _ => k end.
Definition id_of (r : rule) : nat := match r with Rl i _ _ _ _ => i end.
Definition kids_of (r : rule) : list rule := match r with Rl _ _ _ _ kids => kids end.

(** A rule stands where it says it does, and so do the rules in it. *)
Fixpoint placed (sheet parent : option nat) (r : rule) : Prop :=
  match r with
  | Rl id k s p kids => s = sheet /\ p = parent /\ fold_right and True (map (placed sheet (Some id)) kids)
  end.
Fixpoint ids (r : rule) : list nat := match r with Rl id _ _ _ kids => id :: flat_map ids kids end.
Record sheet_ok (s : style_sheet) : Prop := {
  ok_placed : Forall (placed (Some (sid s)) (owner_rule s)) (css_rules s);
  ok_distinct : NoDup (flat_map ids (css_rules s));
  ok_fresh : forall i, In i (flat_map ids (css_rules s)) -> (i < fresh s)%nat }.
(* every rule that has to have a block has one, as far as rules are read *)
Fixpoint blocked (nd : node) : bool :=
  match nd with
  | At kw _ b _ inner =>
      if text_eqb kw (lit "media") then b && forallb blocked inner
      else if text_eqb kw (lit "font-face") then b
      else if text_eqb kw (lit "font-feature-values") then b && forallb (fun x => match x with At _ _ b' _ _ => b' | _ => true end) inner
      else true
  | _ => true
  end.

(** ** Feature values as they are written *)
Definition blank (t : tok) : bool := match t with Other _ => true | _ => false end.
Definition spell (d : text * list Z) : list tok := Ident (fst d) :: Lit (lit ":") :: map Int (snd d) ++ [Lit (lit ";")].
Definition proper (d : text * list Z) : Prop := snd d <> [] /\ Forall (fun n => (0 <= n)%Z) (snd d).
Definition written (content : list tok) (ds : list (text * list Z)) : Prop := filter (fun t => negb (blank t)) content = flat_map spell ds /\ Forall proper ds.
(* an at-rule of the block: its keyword and its declarations *)
Definition wrote (nd : node) (e : text * list (text * list Z)) : Prop :=
  exists pre content inner, nd = At (fst e) pre true content inner /\ written content (snd e).
Definition history_of (ft : text) (es : list (text * list (text * list Z))) : list (ci_op (list Z)) :=
  map (fun d => CSet (fst d) (snd d)) (flat_map snd (filter (fun e => text_eqb (fst e) ft) es)).
