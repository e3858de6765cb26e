(** C57: reading media queries. *)
From Verif Require Import PyBase PyText PySplit PyCase PyDict MediaQueryModel MediaQuerySpec MediaQueryProps
  MqParseModel MqParseSpec MqParseProofs4 MqParseProofs5.

(** C57.  Reading the text of queries gives their trees, one for every query,
    in order; empty items are skipped.  All queries of the grammar of
    MqParseSpec: any words, any number of features, of queries and of spaces. *)
Theorem c57_read : forall l, Forall good_item l ->
  exists ns ts, parse (list_text l) = Ok ns /\ Forall2 (fun n t => tree_of n = Ok t) ns ts /\ Forall2 query_tree (queries l) ts.
Proof. exact list_read. Qed.
Print Assumptions c57_read.
(** there is only one tree for a query *)
Theorem c57_tree_unique : forall q s t, query_tree q s -> query_tree q t -> s = t.
Proof. exact query_tree_fun. Qed.
Print Assumptions c57_tree_unique.
(** so that a text matches as its trees do *)
Theorem c57_match : forall m l ts, Forall good_item l -> Forall2 query_tree (queries l) ts -> match_text m (list_text l) = match_list m ts.
Proof.
  intros m l ts G T. destruct (list_read l G) as (ns & ts' & E & F & Q). unfold match_text. rewrite E. cbn [bind].
  rewrite (match_nodes_trees m ns ts' F). f_equal. clear E F. revert ts T. induction Q as [|q t' qs ts' Q1 Q IH]; intros ts T; inversion T as [|? t ? ts0 T1 T2]; subst; [reflexivity|].
  rewrite (query_tree_fun _ _ _ Q1 T1), (IH _ T2). reflexivity.
Qed.
Print Assumptions c57_match.

(* "screen and (min-width: 500px) and (500px < width <= 600px),, not  (scan)" *)
Definition demo_min := FPlain 0 (lit "min-width") 0 1 (lit "500px") 0.
Definition demo_between := FRange2 0 (lit "500px") 1 OpLt 1 (lit "width") 1 OpLe 1 (lit "600px") 0.
Definition demo_list : list item :=
  [(0%nat, Some (QTypeAnd NoPrefix (lit "screen") 0 0 demo_min [mkLink 0 BAnd 0 demo_between]), 0%nat);
   (0%nat, None, 0%nat); (1%nat, Some (QFeatures (Some 1%nat) (FBool (lit "scan")) []), 0%nat)].
Lemma good_word : forall t, t <> [] -> forallb wordc t = true -> word t.
Proof. intros t N F. split; [exact N|]. apply Forall_forall. rewrite forallb_forall in F. exact F. Qed.
Example c57_read_case : Forall good_item demo_list /\
  list_text demo_list = lit "screen and (min-width: 500px) and (500px < width <= 600px),, not  (scan)" /\
  Forall2 query_tree (queries demo_list)
    [TBool (Some BAnd) [BAnd] [TName (lit "screen"); TCompare (OName (lit "width")) [(ONum (lit "500px"), OpGe)];
       TCompare (ONum (lit "500px")) [(OName (lit "width"), OpLt); (ONum (lit "600px"), OpLe)]];
     TNot (TBool None [] [TName (lit "scan")])] /\
  match_text demo (list_text demo_list) = Ok (true, Some (lit "screen")).
Proof.
  split; [|split; [reflexivity|split; [|reflexivity]]].
  - apply Forall_cons; [|apply Forall_cons; [exact Logic.I|apply Forall_cons; [|apply Forall_nil]]]; cbn [good_item fst snd good_query].
    + split; [apply good_word; [discriminate|reflexivity]|]. split; [intros [H|[H|[H|[H|[]]]]]; discriminate H|].
      split; [split; apply good_word; (discriminate || reflexivity)|]. apply Forall_cons; [|apply Forall_nil].
      cbn [l_feature demo_between good_feature]. repeat split; try discriminate; try (apply Forall_forall; apply forallb_forall; reflexivity). repeat constructor.
    + split; [apply good_word; (discriminate || reflexivity)|apply Forall_nil].
  - apply Forall2_cons; [|apply Forall2_cons; [|apply Forall2_nil]].
    + apply (qt_type_and NoPrefix (lit "screen") 0 0 demo_min [mkLink 0 BAnd 0 demo_between]).
      * apply ft_plain. apply (bn_min (lit "width")). cbn. intros H. repeat (destruct H as [H|H]; [discriminate H|]). exact H.
      * apply Forall2_cons; [|apply Forall2_nil]. exact (ft_range2 0 (lit "500px") 1 OpLt 1 (lit "width") 1 OpLe 1 (lit "600px") 0).
    + apply (qt_features (Some 1%nat) (FBool (lit "scan")) [] _ []); [constructor|apply Forall2_nil].
Qed.

(** What queries say: a list matches when one of its queries says something
    true: 'and' is all, 'or' is one of them, 'not' is the opposite.
    Missing: 'not' about several conditions (c57_not_type_refuted). *)
Theorem c57_says_partial : forall m v l, Forall good_item l -> Forall lawful (queries l) -> Forall single_not (queries l) -> Forall (sincere m v) (queries l) ->
  exists md, match_text m (list_text l) = Ok (existsb (says v) (queries l), md).
Proof.
  intros m v l G L N S0. destruct (list_read l G) as (ns & ts & _ & _ & Q). rewrite (c57_match m l ts G Q). exact (list_says m v _ ts Q L N S0).
Qed.
Print Assumptions c57_says_partial.
(* the demo list: all its conditions hold but "scan" is not absent *)
Definition demo_says : truths := mkTruths (fun t => text_eqb t (lit "screen")) (fun f => true).
Example c57_says_case : Forall lawful (queries demo_list) /\ Forall single_not (queries demo_list) /\ Forall (sincere demo demo_says) (queries demo_list) /\
  existsb (says demo_says) (queries demo_list) = true.
Proof.
  split; [|split; [|split; [|reflexivity]]].
  - apply Forall_cons; [reflexivity|]. apply Forall_cons; [left; reflexivity|apply Forall_nil].
  - apply Forall_cons; [exact Logic.I|]. apply Forall_cons; [reflexivity|apply Forall_nil].
  - destruct c57_read_case as (_ & _ & Q & _).
    apply Forall_cons; [|apply Forall_cons; [|apply Forall_nil]].
    + split; [exists (Some (lit "screen")); reflexivity|]. split.
      * intros x T. assert (E : x = TCompare (OName (lit "width")) [(ONum (lit "500px"), OpGe)]).
        { apply (MqParseProofs2.feature_tree_fun _ _ _ T). apply ft_plain. apply (bn_min (lit "width")). cbn. intros H. repeat (destruct H as [H|H]; [discriminate H|]). exact H. }
        rewrite E. reflexivity.
      * apply Forall_cons; [|apply Forall_nil]. intros x T.
        rewrite (MqParseProofs2.feature_tree_fun _ _ _ T (ft_range2 0 (lit "500px") 1 OpLt 1 (lit "width") 1 OpLe 1 (lit "600px") 0)). reflexivity.
    + split; [|apply Forall_nil]. intros x T. rewrite (MqParseProofs2.feature_tree_fun _ _ _ T (ft_bool (lit "scan"))). exists None. reflexivity.
Qed.

(** Any text: a comma separates queries, whatever they are; *)
Theorem c57_comma : forall a b, parse (a ++ [44%N] ++ b) = do x <- parse a; do y <- parse b; Ok (x ++ y).
Proof. exact parse_comma. Qed.
Print Assumptions c57_comma.
Example c57_comma_case : exists x y, parse (lit "screen") = Ok [x] /\ parse (lit "(color)") = Ok [y] /\ parse (lit "screen,(color)") = Ok [x; y].
Proof. eexists _, _. repeat split; vm_compute; reflexivity. Qed.
(** case does not matter; *)
Theorem c57_case : forall a b, lower a = lower b -> parse a = parse b.
Proof. exact parse_case. Qed.
Print Assumptions c57_case.
Example c57_case_case : lower (lit "Screen AND (Color)") = lower (lit "screen and (color)"). Proof. reflexivity. Qed.
(** white space and commas are no query *)
Theorem c57_blank : forall s, forallb (fun c => is_space c || N.eqb 44 c) s = true -> parse s = Ok [] /\ forall m, match_text m s = Ok (false, None).
Proof. intros s H. unfold match_text. rewrite (parse_blank s H). split; reflexivity. Qed.
Print Assumptions c57_blank.
Example c57_blank_case : forallb (fun c => is_space c || N.eqb 44 c) (lit " , ,") = true. Proof. reflexivity. Qed.

(** CSS wants a query with an error to be "not all".  One with an opening
    parenthesis at its start and no closing one recurses for ever. *)
Theorem c57_unclosed : forall a q, forallb is_space a = true -> ~ In 41%N q -> ~ In 44%N q -> parse (a ++ [40%N] ++ q) = Err OtherError.
Proof. exact parse_unclosed. Qed.
Print Assumptions c57_unclosed.
Example c57_unclosed_case : ~ In 41%N (lit "color") /\ ~ In 44%N (lit "color") /\ parse (lit " (color") = Err OtherError.
Proof. split; [|split; [|reflexivity]]; vm_compute; intros H; repeat (destruct H as [H|H]; [discriminate H|]); exact H. Qed.

(** ** What goes wrong *)
Definition trees (s : string) : result (list (result tree)) := do ns <- parse (lit s); Ok (map tree_of ns).
(** (width>=600px): without a space the inequality is taken for a name *)
Theorem c57_tight_range_refuted : exists f, (forall b c, (0 < b + c)%nat -> good_feature (f b c)) /\ feature_text (f 0%nat 0%nat) = lit "(width>=600px)" /\
  trees "(width>=600px)" = Ok [Ok (TBool None [] [TName (lit "width>=600px")])] /\
  match_text demo (lit "(width >= 600px)") = Ok (true, None) /\ match_text demo (lit "(width>=600px)") = Ok (false, None).
Proof.
  exists (fun b c => FRange 0 (lit "width") b OpGe c (lit "600px") 0). split; [|split; [reflexivity|split; [vm_compute; reflexivity|split; vm_compute; reflexivity]]].
  intros b c L. cbn [good_feature]. split; [apply good_word; (discriminate || reflexivity)|]. split; [apply good_word; (discriminate || reflexivity)|]. split; [discriminate|exact L].
Qed.
Print Assumptions c57_tight_range_refuted.
(** ( color ): the spaces become part of the name *)
Theorem c57_spaced_name_refuted : trees "( color )" = Ok [Ok (TBool None [] [TName (lit " color ")])] /\
  match_text demo (lit "(color)") = Ok (true, None) /\ match_text demo (lit "( color )") = Ok (false, None).
Proof. repeat split; vm_compute; reflexivity. Qed.
Print Assumptions c57_spaced_name_refuted.
(** (aspect-ratio: 16 / 9): a value with spaces leaves a query without
    values, and matching raises KeyError *)
Theorem c57_spaced_value_refuted : match_text demo (lit "(aspect-ratio: 16/9)") = Ok (true, None) /\
  match_text demo (lit "(aspect-ratio: 16 / 9)") = Err KeyError.
Proof. repeat split; vm_compute; reflexivity. Qed.
Print Assumptions c57_spaced_value_refuted.
(** (hover) and not (grid): the 'not' replaces what stands before it; here
    (hover) is false and the query matches nevertheless *)
Theorem c57_and_not_refuted : trees "(hover) and not (grid)" = Ok [Ok (TNot (TBool None [] [TName (lit "grid")]))] /\
  match_text demo (lit "(hover)") = Ok (false, None) /\ match_text demo (lit "(hover) and not (grid)") = Ok (true, None).
Proof. repeat split; vm_compute; reflexivity. Qed.
Print Assumptions c57_and_not_refuted.
(** ((scan) and (color)) or (hover): parentheses do not group, so that 'and'
    and 'or' seem mixed, which never matches *)
Theorem c57_nested_refuted : match_text demo (lit "(scan) and (color)") = Ok (true, None) /\
  match_text demo (lit "((scan) and (color)) or (hover)") = Ok (false, None).
Proof. repeat split; vm_compute; reflexivity. Qed.
Print Assumptions c57_nested_refuted.
(** not print and (color), on a screen with colour: 'not' is about both *)
Theorem c57_not_type_refuted : exists l, list_text l = lit "not print and (color)" /\ Forall good_item l /\ Forall lawful (queries l) /\
  (exists v, Forall (sincere demo v) (queries l) /\ existsb (says v) (queries l) = true) /\ match_text demo (list_text l) = Ok (false, None).
Proof.
  exists [(0%nat, Some (QTypeAnd (Not 0) (lit "print") 0 0 (FBool (lit "color")) []), 0%nat)]. split; [reflexivity|]. split; [|split; [|split]].
  - apply Forall_cons; [|apply Forall_nil]. cbn [good_item fst snd good_query]. split; [apply good_word; (discriminate || reflexivity)|].
    split; [intros [H|[H|[H|[H|[]]]]]; discriminate H|]. split; [apply good_word; (discriminate || reflexivity)|apply Forall_nil].
  - apply Forall_cons; [reflexivity|apply Forall_nil].
  - exists demo_says. split; [|reflexivity]. apply Forall_cons; [|apply Forall_nil]. split; [exists None; reflexivity|]. split; [|apply Forall_nil].
    intros x T. rewrite (MqParseProofs2.feature_tree_fun _ _ _ T (ft_bool (lit "color"))). exists None. reflexivity.
  - vm_compute. reflexivity.
Qed.
Print Assumptions c57_not_type_refuted.
(** screen and (hover) or (color): an error by CSS, read as 'and' throughout;
    screen foo: the rest is dropped *)
Theorem c57_lenient_refuted : trees "screen and (hover) or (color)" = Ok [Ok (TBool (Some BAnd) [BOr] [TName (lit "screen"); TName (lit "hover"); TName (lit "color")])] /\
  match_text demo (lit "screen and (scan) or (color)") = Ok (true, Some (lit "screen")) /\
  parse (lit "screen foo (bar)") = parse (lit "screen").
Proof. repeat split; vm_compute; reflexivity. Qed.
Print Assumptions c57_lenient_refuted.
(** a tab before the inequality sign becomes part of the name; a carriage
    return at the end of a type raises IndexError *)
Theorem c57_white_space_refuted : match_text demo ([40%N] ++ lit "width" ++ [9%N] ++ lit ">= 600px)") = Ok (false, None) /\
  parse (lit "screen" ++ [13%N; 32%N] ++ lit "foo") = Err IndexError.
Proof. repeat split; vm_compute; reflexivity. Qed.
Print Assumptions c57_white_space_refuted.
