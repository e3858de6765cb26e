(** Reading media queries: the words of a query, and lists. *)
From Coq Require Import Lia.
From Verif Require Import PyBase PyText PySplit PyStrip PyCase PyRegex PyRegexProofs PyDict MediaQueryModel MediaQuerySpec MediaQueryProofs MediaQueryProps
  MqParseModel MqParseSpec MqParseProofs MqParseProofs2 MqParseProofs3.
#[local] Open Scope N_scope.

Lemma text_neq : forall a b, a <> b -> text_eqb a b = false.
Proof. intros a b N. destruct (text_eqb_spec a b) as [E|]; [destruct (N E)|reflexivity]. Qed.
Lemma no_space : forall t, Forall (fun c => is_space c = false) t -> existsb is_space t = false.
Proof. intros t F. induction F as [|c t H F IH]; [reflexivity|]. cbn [existsb]. rewrite H, IH. reflexivity. Qed.
Lemma word_seg : forall t, word t -> Forall (fun c => not_space c = true) t.
Proof. intros t W. apply (word_forall _ t word_not_space W). Qed.

(** ** The words of a query *)
Lemma seg_last_type : forall f rec t st, word t -> segments (S f) rec t st = Ok (media_type t st).
Proof.
  intros f rec t st W. cbn [segments]. rewrite (no_space t (word_no_space t W)). cbn [negb].
  destruct t as [|c t]; [destruct (proj1 W eq_refl)|]. destruct W as [_ F]. inversion F as [|? ? Wc _]; subst. unfold is_open. destruct (word_facts c Wc) as (_ & _ & E & _). rewrite E. reflexivity.
Qed.
Lemma seg_conds : forall f rec s st, enclosed s -> segments (S f) rec s st = rec s st.
Proof.
  intros f rec s st E. destruct (enclosed_head s E) as [y ->]. cbn [segments]. destruct (negb (existsb is_space (40 :: y))); [reflexivity|].
  cbn [takewhile]. change (not_space 40) with true. cbv iota. set (z := takewhile not_space y).
  change (text_eqb (40 :: z) (lit "only")) with false. change (text_eqb (40 :: z) (lit "not")) with false. change (text_eqb (40 :: z) (lit "and")) with false.
  change (text_eqb (40 :: z) (lit "or")) with false. reflexivity.
Qed.
Lemma seg_only : forall f rec k c s st, is_space c = false -> segments (S f) rec (lit "only" ++ sp (S k) ++ c :: s) st = segments f rec (c :: s) st.
Proof.
  intros f rec k c s st H. destruct (seg_split (lit "only") k c s) as (A & B & D); [repeat constructor|exact H|]. cbn [segments]. rewrite A, B, D. reflexivity.
Qed.
Lemma seg_not : forall f rec k c s st, is_space c = false -> segments (S f) rec (lit "not" ++ sp (S k) ++ c :: s) st = segments f rec (c :: s) (make_not st).
Proof.
  intros f rec k c s st H. destruct (seg_split (lit "not") k c s) as (A & B & D); [repeat constructor|exact H|]. cbn [segments]. rewrite A, B, D. reflexivity.
Qed.
Lemma seg_type : forall f rec t k c s st, word t -> ~ keyword t -> is_space c = false ->
  segments (S f) rec (t ++ sp (S k) ++ c :: s) st = segments f rec (c :: s) (media_type t st).
Proof.
  intros f rec t k c s st W K H. destruct (seg_split t k c s) as (A & B & D); [apply word_seg, W|exact H|]. cbn [segments]. rewrite A, B, D. cbn [negb].
  rewrite !text_neq by (apply no_keyword; [exact K|cbn; auto]). cbn [orb].
  destruct t as [|x t]; [reflexivity|]. destruct W as [_ F]. inversion F as [|? ? Wc _]; subst. unfold is_open. destruct (word_facts x Wc) as (_ & _ & E & _). rewrite E. reflexivity.
Qed.
Lemma seg_and : forall f rec k c s st, is_space c = false ->
  segments (S f) rec (lit "and" ++ sp (S k) ++ c :: s) st =
    match n_unary st with
    | None => segments f rec (c :: s) (media_type (lit "and") st)
    | Some true => segments f rec (c :: s) (on_operand (fun x => set_op (lit "and") (push_op (lit "and") x)) st)
    | Some false => segments f rec (c :: s) (on_own (set_op (lit "and")) st)
    end.
Proof.
  intros f rec k c s st H. destruct (seg_split (lit "and") k c s) as (A & B & D); [repeat constructor|exact H|]. cbn [segments]. rewrite A, B, D. reflexivity.
Qed.

Lemma type_parse : forall n p t rest st, word t -> ~ keyword t -> tailq rest ->
  parse_query (S n) (prefix_text p ++ t ++ rest) st =
  segments (S (length (prefix_text p ++ t ++ rest))) (parse_query n) (prefix_text p ++ t ++ rest) st.
Proof. intros n p t rest st W K Q. cbn [parse_query]. rewrite (type_found p t rest W K Q). reflexivity. Qed.
(* after the prefix *)
Definition after_prefix (p : prefix) : node := match p with Not _ => make_not no_node | _ => no_node end.
Lemma prefix_segments : forall p f rec t rest, word t -> (length (prefix_text p ++ t ++ rest) <= f)%nat ->
  exists f', (length (t ++ rest) <= f')%nat /\ segments (S f) rec (prefix_text p ++ t ++ rest) no_node = segments (S f') rec (t ++ rest) (after_prefix p).
Proof.
  intros p f rec t rest W L. destruct (word_head t rest W) as (x & y & E & Wx). pose proof (word_is_space x Wx) as Sx.
  destruct p as [|k|k]; cbn [prefix_text after_prefix] in *.
  - exists f. split; [exact L|reflexivity].
  - rewrite <- app_assoc in *. rewrite E in *. rewrite seg_only by exact Sx. destruct f as [|f]; [rewrite !app_length in L; cbn in L; lia|].
    exists f. split; [rewrite !app_length in L; cbn in L |- *; lia|reflexivity].
  - rewrite <- app_assoc in *. rewrite E in *. rewrite seg_not by exact Sx. destruct f as [|f]; [rewrite !app_length in L; cbn in L; lia|].
    exists f. split; [rewrite !app_length in L; cbn in L |- *; lia|reflexivity].
Qed.
Lemma bops_read : forall ks, map bop_of (map (fun k => bop_text (l_op k)) ks) = ops ks.
Proof. intros ks. unfold ops. rewrite map_map. apply map_ext. intros k. destruct (l_op k); reflexivity. Qed.
Lemma first_read : forall ks, opt_bop (or_first None ks) = first_op ks.
Proof. intros [|k ks]; [reflexivity|]. cbn [or_first opt_bop first_op]. destruct (l_op k); reflexivity. Qed.
Lemma query_read : forall n q, good_query q -> exists nd t, parse_query (S (S n)) (query_text q) no_node = Ok nd /\ tree_of nd = Ok t /\ query_tree q t.
Proof.
  intros n q G. destruct q as [p t|p t a b f ks|ng f ks]; cbn [good_query query_text] in *.
  - destruct G as [W K]. replace (prefix_text p ++ t) with (prefix_text p ++ t ++ []) by (now rewrite app_nil_r).
    rewrite (type_parse _ p t [] no_node W K (or_introl eq_refl)).
    destruct (prefix_segments p _ (parse_query (S n)) t [] W (le_n _)) as (f' & L & E). rewrite E. rewrite app_nil_r, (seg_last_type f' _ t _ W).
    eexists _, (negated p (TBool None [] [TName t])). split; [reflexivity|]. split; [|constructor]. destruct p; reflexivity.
  - destruct G as (W & K & Gf & Gk). pose proof (cond_shape ks f Gf Gk) as En. set (c := conds f ks) in *.
    replace (link_text (mkLink a BAnd b f) ++ links_text ks) with (sp (S a) ++ lit "and" ++ sp (S b) ++ c)
      by (unfold link_text, c, conds; cbn [l_before l_op l_after l_feature bop_text]; rewrite <- !app_assoc; reflexivity).
    rewrite (type_parse _ p t _ no_node W K (or_intror (ex_intro _ a (ex_intro _ b (ex_intro _ c (conj eq_refl En)))))).
    destruct (prefix_segments p _ (parse_query (S n)) t (sp (S a) ++ lit "and" ++ sp (S b) ++ c) W (le_n _)) as (f' & L & E). rewrite E. clear E.
    rewrite !app_length in L. cbn [length lit] in L. assert (Lw : (1 <= length t)%nat) by (destruct t; [destruct (proj1 W eq_refl)|cbn; lia]).
    assert (La : (3 <= length (lit "and"))%nat) by (cbn; lia).
    destruct f' as [|[|f']]; [lia|lia|].
    change (lit "and" ++ sp (S b) ++ c) with (97 :: [110; 100] ++ sp (S b) ++ c). rewrite (seg_type _ _ t a 97) by (assumption || reflexivity).
    change (97 :: [110; 100] ++ sp (S b) ++ c) with (lit "and" ++ sp (S b) ++ c).
    destruct (enclosed_head c En) as [y Ey]. rewrite Ey. rewrite seg_and by reflexivity. rewrite <- Ey.
    set (st2 := match p with Not _ => on_operand (fun x => set_op (lit "and") (push_op (lit "and") x)) (media_type t (after_prefix p))
                           | _ => on_own (set_op (lit "and")) (media_type t (after_prefix p)) end).
    assert (X : match n_unary (media_type t (after_prefix p)) with
      | Some true => segments (S f') (parse_query (S n)) c (on_operand (fun x => set_op (lit "and") (push_op (lit "and") x)) (media_type t (after_prefix p)))
      | Some false => segments (S f') (parse_query (S n)) c (on_own (set_op (lit "and")) (media_type t (after_prefix p)))
      | None => segments (S f') (parse_query (S n)) c (media_type (lit "and") (media_type t (after_prefix p))) end
      = segments (S f') (parse_query (S n)) c st2) by (destruct p; reflexivity).
    rewrite X. clear X. rewrite (seg_conds _ _ c _ En).
    destruct (parse_conds n f ks st2 Gf Gk) as (x & xs & T & Ts & E). fold c in E. rewrite E.
    eexists _, (negated p (TBool (Some BAnd) (match p with Not _ => BAnd :: ops ks | _ => ops ks end) (TName t :: x :: xs))).
    split; [reflexivity|]. split; [|constructor; assumption].
    rewrite <- (bops_read ks). destruct p; reflexivity.
  - destruct G as [Gf Gk]. pose proof (cond_shape ks f Gf Gk) as En. fold (conds f ks). destruct ng as [k|]; cbn [neg_text].
    + rewrite <- app_assoc.
      destruct (parse_conds n f ks (make_not no_node) Gf Gk) as (x & xs & T & Ts & E).
      eexists _, (TNot (TBool (first_op ks) (ops ks) (x :: xs))). split; [|split; [|exact (qt_features (Some k) f ks x xs T Ts)]].
      * cbn [parse_query]. rewrite (not_found k _ En).
        transitivity (do st <- media_not (parse_query (S n)) (lit "not" ++ sp (S k) ++ conds f ks) no_node; media_loop (parse_query (S n)) [] st); [reflexivity|].
        rewrite (media_not_rest _ k _ _ En), E. reflexivity.
      * rewrite <- (bops_read ks), <- first_read. reflexivity.
    + cbn [app]. destruct (parse_conds (S n) f ks no_node Gf Gk) as (x & xs & T & Ts & E).
      eexists _, (TBool (first_op ks) (ops ks) (x :: xs)). split; [exact E|]. split; [|exact (qt_features None f ks x xs T Ts)].
      rewrite <- (bops_read ks), <- first_read. reflexivity.
Qed.

(** ** Splitting at commas *)
Lemma split_acc_pre : forall f t w, split_on_acc f w t = match split_on_acc f [] t with h :: r => (w ++ h) :: r | [] => [] end.
Proof.
  intros f t. induction t as [|c t IH]; intros w; cbn [split_on_acc]; [rewrite app_nil_r; reflexivity|].
  destruct (f c); [rewrite app_nil_r; reflexivity|]. rewrite (IH (w ++ [c])), (IH ([] ++ [c])). destruct (split_on_acc f [] t); [reflexivity|]. rewrite <- app_assoc. reflexivity.
Qed.
Lemma split_acc_sep : forall a b w, split_on_acc (N.eqb 44) w (a ++ 44 :: b) = split_on_acc (N.eqb 44) w a ++ split_on 44 b.
Proof.
  intros a b. induction a as [|c a IH]; intros w; cbn [app split_on_acc]; [reflexivity|]. destruct (44 =? c); [rewrite IH; reflexivity|apply IH].
Qed.
Lemma split_sep : forall a b, split_on 44 (a ++ 44 :: b) = split_on 44 a ++ split_on 44 b.
Proof. intros a b. apply split_acc_sep. Qed.
Lemma split_acc_post : forall b, forallb (fun x => negb (44 =? x)) b = true -> forall x w, exists l z,
  split_on_acc (N.eqb 44) w x = l ++ [z] /\ split_on_acc (N.eqb 44) w (x ++ b) = l ++ [z ++ b].
Proof.
  intros b Fb. induction x as [|c x IH]; intros w; cbn [app split_on_acc].
  - exists [], w. split; [reflexivity|]. revert w Fb. induction b as [|d b IHb]; intros w Fb; cbn [split_on_acc]; [rewrite app_nil_r; reflexivity|].
    cbn [forallb] in Fb. apply andb_prop in Fb as [Hd Fb]. apply negb_true_iff in Hd. rewrite Hd, (IHb (w ++ [d]) Fb). rewrite <- app_assoc. reflexivity.
  - destruct (44 =? c).
    + destruct (IH []) as (l & z & A & B). rewrite A, B. exists (w :: l), z. split; reflexivity.
    + apply IH.
Qed.
Lemma space_not_comma : forall b, forallb is_space b = true -> forallb (fun x => negb (44 =? x)) b = true.
Proof.
  intros b H. apply forallb_forall. intros x I. rewrite forallb_forall in H. specialize (H x I). destruct (N.eqb_spec 44 x) as [E|]; [subst x; discriminate H|reflexivity].
Qed.
Lemma strip_around : forall s, exists a b, s = a ++ strip s ++ b /\ forallb is_space a = true /\ forallb is_space b = true.
Proof.
  intros s. unfold strip. destruct (rdropwhile_split is_space (dropwhile is_space s)) as (b & E & Fb).
  exists (takewhile is_space s), b. split; [|split; [apply takewhile_forall|exact Fb]]. rewrite <- E. symmetry. apply take_drop.
Qed.
Lemma split_strip : forall s, map strip (split_on 44 (strip s)) = map strip (split_on 44 s).
Proof.
  intros s. destruct (strip_around s) as (a & b & E & Fa & Fb). rewrite E at 2. set (x := strip s). clearbody x. clear E s. symmetry.
  transitivity (map strip (split_on 44 (x ++ b))).
  - unfold split_on. assert (X : split_on_acc (N.eqb 44) [] (a ++ x ++ b) = split_on_acc (N.eqb 44) a (x ++ b)).
    { rewrite (split_on_word (N.eqb 44) a [] (x ++ b)) by (apply space_not_comma, Fa). reflexivity. }
    rewrite X, split_acc_pre. destruct (split_on_acc (N.eqb 44) [] (x ++ b)) as [|h r]; [reflexivity|]. cbn [map]. rewrite strip_left by exact Fa. reflexivity.
  - destruct (split_acc_post b (space_not_comma b Fb) x []) as (l & z & A & B). unfold split_on. rewrite A, B, !map_app. cbn [map]. rewrite strip_right by exact Fb. reflexivity.
Qed.
Lemma parse_list_strip : forall l, parse_list l = parse_list (map strip l).
Proof. induction l as [|q l IH]; [reflexivity|]. cbn [map parse_list]. rewrite strip_strip, IH. reflexivity. Qed.
Lemma parse_split : forall s, parse s = parse_list (split_on 44 (lower s)).
Proof.
  intros s. unfold parse. rewrite <- strip_lower. rewrite parse_list_strip, split_strip, <- parse_list_strip. reflexivity.
Qed.
Lemma parse_list_app : forall a b, parse_list (a ++ b) = do x <- parse_list a; do y <- parse_list b; Ok (x ++ y).
Proof.
  induction a as [|q a IH]; intros b; cbn [app parse_list].
  - cbn [bind app]. destruct (parse_list b); reflexivity.
  - destruct (strip q) as [|c q'] eqn:E; [apply IH|]. destruct (parse_query (2 + length (c :: q')) (c :: q') no_node) as [nd|e]; cbn [bind]; [|reflexivity].
    rewrite IH. destruct (parse_list a) as [x|e]; cbn [bind]; [|reflexivity]. destruct (parse_list b) as [y|e]; reflexivity.
Qed.

(** ** Lists of queries *)
Lemma query_strip : forall q a b, good_query q -> strip (sp a ++ query_text q ++ sp b) = query_text q /\ query_text q <> [].
Proof.
  assert (Sp : forall k, forallb is_space (sp k) = true) by (intros k; apply forallb_forall; intros x I; apply repeat_spec in I; subst x; reflexivity).
  assert (Wl : forall t u, word t -> head_not is_space (rev (u ++ t)) = true).
  { intros t u W. rewrite rev_app_distr. destruct W as [N F]. apply Forall_rev in F. destruct (rev t) as [|c r] eqn:E.
    - destruct N. rewrite <- (rev_involutive t), E. reflexivity.
    - inversion F as [|? ? Wc _]; subst. cbn [app head_not]. rewrite (word_is_space c Wc). reflexivity. }
  intros q a b G. rewrite strip_left by apply Sp. rewrite strip_right by apply Sp.
  assert (H : head_not is_space (query_text q) = true /\ head_not is_space (rev (query_text q)) = true /\ query_text q <> []).
  { destruct q as [p t|p t x y f ks|ng f ks]; cbn [good_query query_text] in *.
    - destruct G as [W _]. split; [|split; [apply Wl, W|]].
      + destruct p; try reflexivity. destruct (word_head t [] W) as (x & y & E & Wx). rewrite app_nil_r in E. cbn [prefix_text app]. rewrite E. cbn [head_not]. rewrite (word_is_space x Wx). reflexivity.
      + intros E. apply app_eq_nil in E as [_ E]. exact (proj1 W E).
    - destruct G as (W & _ & Gf & Gk). destruct (cond_shape ks f Gf Gk) as (w & E & _). unfold conds in E. unfold link_text. cbn [l_before l_op l_after l_feature].
      rewrite <- !app_assoc, E. split; [|split].
      + destruct p; try reflexivity. destruct (word_head t (sp (S x) ++ bop_text BAnd ++ sp (S y) ++ 40 :: w ++ [41]) W) as (c & r & Ec & Wc). cbn [prefix_text app] in *. rewrite Ec. cbn [head_not]. rewrite (word_is_space c Wc). reflexivity.
      + change (40 :: w ++ [41]) with ((40 :: w) ++ [41]). rewrite !app_assoc, rev_app_distr. reflexivity.
      + intros X. apply app_eq_nil in X as [_ X]. apply app_eq_nil in X as [X _]. exact (proj1 W X).
    - destruct G as [Gf Gk]. destruct (cond_shape ks f Gf Gk) as (w & E & _). unfold conds in E. rewrite E. split; [|split].
      + destruct ng; reflexivity.
      + change (40 :: w ++ [41]) with ((40 :: w) ++ [41]). rewrite app_assoc, rev_app_distr. reflexivity.
      + intros X. apply app_eq_nil in X as [_ X]. discriminate X. }
  destruct H as (H1 & H2 & H3). split; [apply strip_id; assumption|exact H3].
Qed.
Definition good_item (i : item) : Prop := match snd (fst i) with Some q => good_query q | None => True end.
Lemma item_read : forall l, Forall good_item l -> exists ns ts, parse_list (map item_text l) = Ok ns /\ Forall2 (fun n t => tree_of n = Ok t) ns ts /\ Forall2 query_tree (queries l) ts.
Proof.
  intros l F. induction F as [|[[a [q|]] b] l G F IH].
  - exists [], []. repeat constructor.
  - destruct IH as (ns & ts & E & T & Q). cbn [good_item fst snd] in G. destruct (query_strip q a b G) as [E1 N1].
    destruct (query_read (length (query_text q)) q G) as (nd & t & En & Et & Qt). exists (nd :: ns), (t :: ts).
    cbn [map parse_list item_text]. rewrite E1. split; [|split; constructor; assumption].
    destruct (query_text q) as [|c r] eqn:Eq; [destruct (N1 eq_refl)|]. change (2 + length (c :: r))%nat with (S (S (length (c :: r)))). rewrite En. cbn [bind]. rewrite E. reflexivity.
  - destruct IH as (ns & ts & E & T & Q). exists ns, ts. split; [|split; [exact T|exact Q]]. cbn [map parse_list item_text].
    assert (Z : strip (sp a ++ [] ++ sp b) = []).
    { apply strip_nil_iff. rewrite !forallb_app. cbn [forallb andb]. rewrite andb_true_iff. split; apply forallb_forall; intros x I; apply repeat_spec in I; subst x; reflexivity. }
    rewrite Z. exact E.
Qed.
Lemma item_chars : forall i, good_item i -> qtext (item_text i).
Proof.
  intros [[a [q|]] b] G; cbn [item_text good_item fst snd] in *.
  - apply q_app; [apply q_sp|]. apply q_app; [apply q_query, G|apply q_sp].
  - apply q_app; [apply q_sp|]. apply q_app; [constructor|apply q_sp].
Qed.
Lemma parse_items : forall l, Forall good_item l -> l <> [] -> parse (list_text l) = parse_list (map item_text l).
Proof.
  intros l F N. rewrite parse_split. unfold list_text. rewrite lower_join.
  assert (L : map lower (map item_text l) = map item_text l).
  { clear N. induction F as [|i l G F IH]; [reflexivity|]. cbn [map]. rewrite IH. f_equal. apply lower_id. apply forallb_forall. intros c I.
    pose proof (item_chars i G) as Q. unfold qtext in Q. rewrite Forall_forall in Q. destruct (qchar_facts c (Q c I)) as (_ & U & _). rewrite U. reflexivity. }
  rewrite L. change (lower [44]) with [44]. rewrite split_on_join; [reflexivity| |].
  - destruct l; [destruct (N eq_refl)|discriminate].
  - clear N L. induction F as [|i l G F IH]; [constructor|]. cbn [map]. constructor; [|exact IH]. apply forallb_forall. intros c I.
    pose proof (item_chars i G) as Q. unfold qtext in Q. rewrite Forall_forall in Q. destruct (qchar_facts c (Q c I)) as (_ & _ & U). rewrite U. reflexivity.
Qed.
Lemma list_read : forall l, Forall good_item l -> exists ns ts, parse (list_text l) = Ok ns /\ Forall2 (fun n t => tree_of n = Ok t) ns ts /\ Forall2 query_tree (queries l) ts.
Proof.
  intros l F. destruct l as [|i l]; [exists [], []; repeat constructor|]. rewrite parse_items by (exact F || discriminate). apply item_read, F.
Qed.
Lemma match_nodes_trees : forall m ns ts, Forall2 (fun n t => tree_of n = Ok t) ns ts -> match_nodes m ns = match_list m ts.
Proof.
  intros m ns ts F. induction F as [|n t ns ts E F IH]; [reflexivity|]. cbn [match_nodes match_list]. rewrite E. cbn [bind].
  destruct (match_node m false t) as [[[|] md]|e]; cbn [bind fst]; [reflexivity|exact IH|reflexivity].
Qed.
Lemma link_trees_fun : forall ks xs ys, link_trees ks xs -> link_trees ks ys -> xs = ys.
Proof.
  intros ks xs ys H. revert ys. induction H as [|k x ks xs T H IH]; intros ys H2; inversion H2 as [|? y ? ys' T2 H3]; subst; [reflexivity|].
  rewrite (feature_tree_fun _ _ _ T T2), (IH _ H3). reflexivity.
Qed.
Lemma query_tree_fun : forall q s t, query_tree q s -> query_tree q t -> s = t.
Proof.
  intros q s t H1 H2. inversion H1 as [p x|p x a b f ks y ys T Ts|n f ks y ys T Ts]; subst; inversion H2 as [|? ? ? ? ? ? z zs T' Ts'|? ? ? z zs T' Ts']; subst; try reflexivity;
    rewrite (feature_tree_fun _ _ _ T T'), (link_trees_fun _ _ _ Ts Ts'); reflexivity.
Qed.

(** ** What queries say *)
Definition outcome (m : mqenv) (x : tree) : bool :=
  match x with
  | TName n => match eval_name m n with Ok r => fst r | Err _ => false end
  | TCompare l rs => match eval_compare m l rs with Ok b => b | Err _ => false end
  | _ => false
  end.
Definition atomic (x : tree) : Prop := match x with TName _ | TCompare _ _ => True | _ => False end.
Lemma comes_out_facts : forall m x b, comes_out m x b -> atomic x /\ tells m (outcome m) x /\ outcome m x = b.
Proof.
  intros m [n|l rs|c|o os cs] b H; cbn [comes_out] in H; try contradiction.
  - destruct H as [md H]. split; [exact Logic.I|]. cbn [tells outcome]. rewrite H. split; [exists md|]; reflexivity.
  - split; [exact Logic.I|]. cbn [tells outcome]. rewrite H. split; reflexivity.
Qed.
Lemma links_out : forall m v ks xs, Forall (fun k => forall x, feature_tree (l_feature k) x -> comes_out m x (t_feature v (l_feature k))) ks -> link_trees ks xs ->
  Forall (fun x => atomic x /\ tells m (outcome m) x) xs /\
  forallb (outcome m) xs = forallb (fun k => t_feature v (l_feature k)) ks /\ existsb (outcome m) xs = existsb (fun k => t_feature v (l_feature k)) ks.
Proof.
  intros m v ks xs H T. induction T as [|k x ks xs Tk T IH]; [repeat constructor|]. inversion H as [|? ? Hk H']; subst. destruct (IH H') as (A & B & C).
  destruct (comes_out_facts m x _ (Hk x Tk)) as (A1 & A2 & A3). split; [constructor; [split; assumption|exact A]|]. cbn [forallb existsb]. rewrite B, C, A3. split; reflexivity.
Qed.
Lemma atoms_tree : forall m op os cs, cs <> [] -> ~ (In BAnd os /\ In BOr os) -> Forall (fun x => atomic x /\ tells m (outcome m) x) cs ->
  tells m (outcome m) (TBool op os cs) /\ grammatical (TBool op os cs) /\ plain_nots (TBool op os cs) /\
  truth (outcome m) (TBool op os cs) = match op with Some BAnd => forallb (outcome m) cs | _ => existsb (outcome m) cs end.
Proof.
  intros m op os cs N M F. cbn [tells grammatical plain_nots]. split; [|split; [split; [exact M|split; [exact N|]]|split]].
  - clear N. induction F as [|x cs [_ T] F IH]; [exact Logic.I|]. split; [exact T|exact IH].
  - clear N. induction F as [|x cs [A _] F IH]; [exact Logic.I|]. split; [destruct x; try contradiction; exact Logic.I|exact IH].
  - clear N. induction F as [|x cs [A _] F IH]; [exact Logic.I|]. split; [destruct x; try contradiction; exact Logic.I|exact IH].
  - clear N. assert (X : forall x, In x cs -> truth (outcome m) x = outcome m x).
    { intros x I. rewrite Forall_forall in F. destruct (F x I) as [A _]. destruct x; try contradiction; reflexivity. }
    clear F M. assert (X1 : forallb (truth (outcome m)) cs = forallb (outcome m) cs).
    { induction cs as [|x cs IH]; [reflexivity|]. cbn [forallb]. rewrite (X x (or_introl eq_refl)), IH by (intros; apply X; right; assumption). reflexivity. }
    assert (X2 : existsb (truth (outcome m)) cs = existsb (outcome m) cs).
    { clear X1. induction cs as [|x cs IH]; [reflexivity|]. cbn [existsb]. rewrite (X x (or_introl eq_refl)), IH by (intros; apply X; right; assumption). reflexivity. }
    cbn [truth]. destruct op as [[|]|]; assumption.
Qed.
Lemma ands_ops : forall ks, only_ands ks = true -> ~ (In BAnd (ops ks) /\ In BOr (ops ks)).
Proof.
  intros ks H [_ I]. unfold ops in I. apply in_map_iff in I as (k & E & I). unfold only_ands in H. rewrite forallb_forall in H. specialize (H k I). rewrite E in H. discriminate H.
Qed.
Lemma ors_ops : forall ks, Forall (fun k => l_op k = BOr) ks -> ~ (In BAnd (ops ks) /\ In BOr (ops ks)).
Proof. intros ks H [I _]. unfold ops in I. apply in_map_iff in I as (k & E & I). rewrite Forall_forall in H. rewrite (H k I) in E. discriminate E. Qed.
Lemma query_says : forall m v q t, query_tree q t -> lawful q -> single_not q -> sincere m v q -> exists md, match_node m false t = Ok (says v q, md).
Proof.
  intros m v q t T L N S0.
  assert (K : forall x, tells m (outcome m) x -> grammatical x -> plain_nots x -> truth (outcome m) x = says v q -> exists md, match_node m false x = Ok (says v q, md)).
  { intros x A B C E. rewrite <- E. apply c26_boolean_partial; assumption. }
  destruct T as [p t|p t a b f ks x xs Tf Tk|n f ks x xs Tf Tk]; cbn [lawful single_not sincere] in *.
  - destruct (comes_out_facts m _ _ S0) as (A1 & A2 & A3).
    destruct (atoms_tree m None [] [TName t]) as (B1 & B2 & B3 & B4); [discriminate|intros [[] _]|constructor; [split; assumption|constructor]|].
    assert (E : truth (outcome m) (TBool None [] [TName t]) = t_type v t) by (rewrite B4; cbn [existsb]; rewrite A3; apply orb_false_r).
    apply K; destruct p; cbn [negated]; try assumption.
    + split; [reflexivity|exact B3].
    + cbn [says negate]. rewrite <- E. reflexivity.
  - destruct S0 as (S1 & S2 & S3). destruct (comes_out_facts m _ _ S1) as (A1 & A2 & A3). destruct (comes_out_facts m _ _ (S2 x Tf)) as (C1 & C2 & C3).
    destruct (links_out m v ks xs S3 Tk) as (D1 & D2 & D3).
    assert (P : match p with Not _ => False | _ => True end) by (destruct p; [exact Logic.I|exact Logic.I|exact N]).
    destruct (atoms_tree m (Some BAnd) (ops ks) (TName t :: x :: xs)) as (B1 & B2 & B3 & B4); [discriminate|apply ands_ops, L|repeat (constructor; [split; assumption|]); exact D1|].
    assert (E : truth (outcome m) (TBool (Some BAnd) (ops ks) (TName t :: x :: xs)) = t_type v t && all_of v f ks).
    { rewrite B4. cbn [forallb]. rewrite A3, C3, D2. reflexivity. }
    apply K; destruct p; try contradiction; cbn [negated]; try assumption.
  - destruct S0 as (S2 & S3). destruct (comes_out_facts m _ _ (S2 x Tf)) as (C1 & C2 & C3). destruct (links_out m v ks xs S3 Tk) as (D1 & D2 & D3).
    assert (M : ~ (In BAnd (ops ks) /\ In BOr (ops ks))) by (destruct L as [L|L]; [apply ands_ops, L|apply ors_ops, L]).
    destruct (atoms_tree m (first_op ks) (ops ks) (x :: xs)) as (B1 & B2 & B3 & B4); [discriminate|exact M|constructor; [split; assumption|exact D1]|].
    assert (E : truth (outcome m) (TBool (first_op ks) (ops ks) (x :: xs)) = if only_ands ks then all_of v f ks else any_of v f ks).
    { rewrite B4. unfold all_of, any_of. destruct ks as [|k ks].
      - inversion Tk; subst. cbn [first_op existsb only_ands forallb]. rewrite C3, orb_false_r, andb_true_r. reflexivity.
      - cbn [first_op]. destruct L as [L|L].
        + rewrite L. cbn [only_ands forallb] in L. destruct (l_op k); [|discriminate L]. cbn [forallb]. rewrite C3. f_equal. exact D2.
        + inversion L as [|? ? Lk L']; subst. rewrite Lk. assert (O : only_ands (k :: ks) = false) by (cbn [only_ands forallb]; rewrite Lk; reflexivity). rewrite O.
          cbn [existsb]. rewrite C3. f_equal. exact D3. }
    destruct n as [k|]; cbn [says] in *.
    + subst ks. inversion Tk; subst. apply K; [exact B1|exact B2|split; [reflexivity|exact B3]|]. cbn [truth] in E |- *. cbn [first_op] in *. rewrite <- E. reflexivity.
    + apply K; assumption.
Qed.
Lemma list_says : forall m v qs ts, Forall2 query_tree qs ts -> Forall lawful qs -> Forall single_not qs -> Forall (sincere m v) qs ->
  exists md, match_list m ts = Ok (existsb (says v) qs, md).
Proof.
  intros m v qs ts F. induction F as [|q t qs ts T F IH]; intros L N S0; [exists None; reflexivity|].
  inversion L as [|? ? L1 L2]; subst. inversion N as [|? ? N1 N2]; subst. inversion S0 as [|? ? S1 S2]; subst.
  destruct (query_says m v q t T L1 N1 S1) as [md E]. destruct (IH L2 N2 S2) as [md2 E2]. cbn [match_list existsb]. rewrite E. cbn [bind fst snd].
  destruct (says v q); [exists md; reflexivity|exists md2; exact E2].
Qed.
