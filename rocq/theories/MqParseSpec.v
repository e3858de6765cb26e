(** Words for the claims about reading media queries: queries as data, their
    text, the tree that the text stands for, and what it says. *)
From Verif Require Import PyBase PyText PySplit PyCase MediaQueryModel MediaQuerySpec.
#[local] Open Scope N_scope.

(** ** Words *)
(* no white space, no upper case, none of ( ) , : < = > *)
Definition wordc (c : N) : bool :=
  negb (is_space c) && negb (is_up c) && negb (existsb (N.eqb c) [40; 41; 44; 58; 60; 61; 62]).
Definition word (t : text) : Prop := t <> [] /\ Forall (fun c => wordc c = true) t.
Definition sp (k : nat) : text := repeat 32 k.
(* words that are not media types *)
Definition keyword (t : text) : Prop := In t [lit "and"; lit "or"; lit "not"; lit "only"].

(** ** Features; the numbers are numbers of spaces *)
Inductive feature :=
| FBool (n : text)                                             (* (n) *)
| FPlain (a : nat) (n : text) (b c : nat) (v : text) (d : nat) (* ( n : v ) *)
| FRange (a : nat) (l : text) (b : nat) (o : cop) (c : nat) (r : text) (d : nat)  (* ( l < r ) *)
| FRange2 (a : nat) (l : text) (b : nat) (o : cop) (c : nat) (r : text) (b2 : nat) (o2 : cop) (c2 : nat) (r2 : text) (d : nat).
Definition op_text (o : cop) : text :=
  match o with OpEq => lit "=" | OpLt => lit "<" | OpLe => lit "<=" | OpGt => lit ">" | OpGe => lit ">=" end.
Definition inner (f : feature) : text :=
  match f with
  | FBool n => n
  | FPlain a n b c v d => sp a ++ n ++ sp b ++ [58] ++ sp c ++ v ++ sp d
  | FRange a l b o c r d => sp a ++ l ++ sp b ++ op_text o ++ sp c ++ r ++ sp d
  | FRange2 a l b o c r b2 o2 c2 r2 d =>
      sp a ++ l ++ sp b ++ op_text o ++ sp c ++ r ++ sp b2 ++ op_text o2 ++ sp c2 ++ r2 ++ sp d
  end.
Definition feature_text (f : feature) : text := [40] ++ inner f ++ [41].
(* an inequality needs a space on one of its sides: (width>=600px) is read
   otherwise, see c57_tight_range_refuted; OpEq has no range syntax *)
Definition good_feature (f : feature) : Prop :=
  match f with
  | FBool n => word n
  | FPlain _ n _ _ v _ => word n /\ word v
  | FRange _ l b o c r _ => word l /\ word r /\ o <> OpEq /\ (0 < b + c)%nat
  | FRange2 _ l b o c r _ o2 _ r2 _ => word l /\ word r /\ word r2 /\ o <> OpEq /\ o2 <> OpEq /\ (0 < b + c)%nat
  end.

(** what they stand for *)
(* a number begins with a digit, after a sign and a point if any *)
Definition number_like (t : text) : bool :=
  let after_sign := match t with c :: t' => if (c =? 43) || (c =? 45) then t' else t | [] => [] end in
  match after_sign with
  | c :: t' => is_digit c || (c =? 46) && match t' with d :: _ => is_digit d | [] => false end
  | [] => false
  end.
Definition operand_tree (t : text) : operand := if number_like t then ONum t else OName t.
(* min- and max- are bounds, but not of discrete features *)
Inductive bound_name : text -> text -> cop -> Prop :=
| bn_min x : ~ In x discrete_words -> bound_name (lit "min-" ++ x) x OpGe
| bn_max x : ~ In x discrete_words -> bound_name (lit "max-" ++ x) x OpLe
| bn_discrete p x : p = lit "min-" \/ p = lit "max-" -> In x discrete_words -> bound_name (p ++ x) (p ++ x) OpEq
| bn_plain x : (forall y, x <> lit "min-" ++ y) -> (forall y, x <> lit "max-" ++ y) -> bound_name x x OpEq.
Inductive feature_tree : feature -> tree -> Prop :=
| ft_bool n : feature_tree (FBool n) (TName n)
| ft_plain a n b c v d x o : bound_name n x o -> feature_tree (FPlain a n b c v d) (TCompare (OName x) [(ONum v, o)])
| ft_range a l b o c r d : feature_tree (FRange a l b o c r d) (TCompare (operand_tree l) [(operand_tree r, o)])
| ft_range2 a l b o c r b2 o2 c2 r2 d :
    feature_tree (FRange2 a l b o c r b2 o2 c2 r2 d) (TCompare (operand_tree l) [(operand_tree r, o); (operand_tree r2, o2)]).

(** ** Queries *)
Record link := mkLink { l_before : nat; l_op : bop; l_after : nat; l_feature : feature }.
Definition bop_text (o : bop) : text := match o with BAnd => lit "and" | BOr => lit "or" end.
(* the spaces around 'and' and 'or' are at least one *)
Definition link_text (k : link) : text :=
  sp (S (l_before k)) ++ bop_text (l_op k) ++ sp (S (l_after k)) ++ feature_text (l_feature k).
Definition links_text (ks : list link) : text := concat (map link_text ks).
Inductive prefix := NoPrefix | Only (k : nat) | Not (k : nat).
Definition prefix_text (p : prefix) : text :=
  match p with NoPrefix => [] | Only k => lit "only" ++ sp (S k) | Not k => lit "not" ++ sp (S k) end.
Inductive query :=
(* [only|not] type, or [only|not] type and f1 [and|or f2 ...] *)
| QType (p : prefix) (t : text)
| QTypeAnd (p : prefix) (t : text) (a b : nat) (f : feature) (ks : list link)
(* [not] f1 [and|or f2 ...] *)
| QFeatures (neg : option nat) (f : feature) (ks : list link).
Definition neg_text (n : option nat) : text := match n with Some k => lit "not" ++ sp (S k) | None => [] end.
Definition query_text (q : query) : text :=
  match q with
  | QType p t => prefix_text p ++ t
  | QTypeAnd p t a b f ks =>
      prefix_text p ++ t ++ link_text (mkLink a BAnd b f) ++ links_text ks
  | QFeatures n f ks => neg_text n ++ feature_text f ++ links_text ks
  end.
Definition good_links (ks : list link) : Prop := Forall (fun k => good_feature (l_feature k)) ks.
Definition good_query (q : query) : Prop :=
  match q with
  | QType _ t => word t /\ ~ keyword t
  | QTypeAnd _ t _ _ f ks => word t /\ ~ keyword t /\ good_feature f /\ good_links ks
  | QFeatures _ f ks => good_feature f /\ good_links ks
  end.

(** the trees *)
Definition negated (p : prefix) (t : tree) : tree := match p with Not _ => TNot t | _ => t end.
Definition first_op (ks : list link) : option bop := match ks with k :: _ => Some (l_op k) | [] => None end.
Definition ops (ks : list link) : list bop := map l_op ks.
Definition link_trees (ks : list link) (ts : list tree) : Prop := Forall2 (fun k t => feature_tree (l_feature k) t) ks ts.
Inductive query_tree : query -> tree -> Prop :=
| qt_type p t : query_tree (QType p t) (negated p (TBool None [] [TName t]))
| qt_type_and p t a b f ks x xs : feature_tree f x -> link_trees ks xs ->
    query_tree (QTypeAnd p t a b f ks)
      (negated p (TBool (Some BAnd) (match p with Not _ => BAnd :: ops ks | _ => ops ks end) (TName t :: x :: xs)))
| qt_features n f ks x xs : feature_tree f x -> link_trees ks xs ->
    query_tree (QFeatures n f ks)
      (let t := TBool (first_op ks) (ops ks) (x :: xs) in match n with Some _ => TNot t | None => t end).

(** ** Lists: items with spaces around, some of them empty *)
Definition item := (nat * option query * nat)%type.
Definition item_text (i : item) : text :=
  let '(a, q, b) := i in sp a ++ match q with Some q => query_text q | None => [] end ++ sp b.
Definition list_text (l : list item) : text := join [44] (map item_text l).
Definition queries (l : list item) : list query :=
  flat_map (fun i => match snd (fst i) with Some q => [q] | None => [] end) l.

(** ** What a query says, the truth of types and features being given *)
Record truths := mkTruths { t_type : text -> bool; t_feature : feature -> bool }.
Definition all_of (v : truths) (f : feature) (ks : list link) : bool :=
  t_feature v f && forallb (fun k => t_feature v (l_feature k)) ks.
Definition any_of (v : truths) (f : feature) (ks : list link) : bool :=
  t_feature v f || existsb (fun k => t_feature v (l_feature k)) ks.
Definition only_ands (ks : list link) : bool := forallb (fun k => match l_op k with BAnd => true | BOr => false end) ks.
Definition negate (p : prefix) (b : bool) : bool := match p with Not _ => negb b | _ => b end.
Definition says (v : truths) (q : query) : bool :=
  match q with
  | QType p t => negate p (t_type v t)
  | QTypeAnd p t _ _ f ks => negate p (t_type v t && all_of v f ks)
  | QFeatures n f ks =>
      let b := if only_ands ks then all_of v f ks else any_of v f ks in
      match n with Some _ => negb b | None => b end
  end.
(* the queries that CSS allows: 'and' and 'or' do not mix, no 'or' after a type *)
Definition lawful (q : query) : Prop :=
  match q with
  | QType _ _ => True
  | QTypeAnd _ _ _ _ _ ks => only_ands ks = true
  | QFeatures _ _ ks => only_ands ks = true \/ Forall (fun k => l_op k = BOr) ks
  end.
(* 'not' is about a single condition *)
Definition single_not (q : query) : Prop :=
  match q with
  | QTypeAnd (Not _) _ _ _ _ _ => False
  | QFeatures (Some _) _ ks => ks = []
  | _ => True
  end.
(* v tells the truth, in the environment m, about the type and the features of q *)
Definition comes_out (m : mqenv) (x : tree) (b : bool) : Prop :=
  match x with
  | TName n => exists md, eval_name m n = Ok (b, md)
  | TCompare l rs => eval_compare m l rs = Ok b
  | _ => False
  end.
Definition sincere (m : mqenv) (v : truths) (q : query) : Prop :=
  let ok f := forall x, feature_tree f x -> comes_out m x (t_feature v f) in
  let oks f ks := ok f /\ Forall (fun k => ok (l_feature k)) ks in
  match q with
  | QType _ t => comes_out m (TName t) (t_type v t)
  | QTypeAnd _ t _ _ f ks => comes_out m (TName t) (t_type v t) /\ oks f ks
  | QFeatures _ f ks => oks f ks
  end.
