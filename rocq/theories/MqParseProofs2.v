(** Reading media queries: the values of features, and conditions. *)
From Coq Require Import Lia.
From Verif Require Import PyBase PyText PySplit PyCase PyRegex PyRegexProofs PyDict MediaQueryModel MqParseModel MqParseSpec MqParseProofs.
#[local] Open Scope N_scope.

(** ** The matches of a condition *)
Definition feature_kind (f : feature) : text :=
  match f with FBool _ => lit "mf_boolean" | FPlain _ _ _ _ _ _ => lit "mf_plain" | _ => lit "mf_range" end.
Definition feature_caps (f : feature) : caps := [(feature_kind f, feature_text f)].
Lemma erased : forall e s w, re_match e s = Some w -> re_match (erase e) s = Some (fst w, []).
Proof. intros e s w H. rewrite match_erase, H. reflexivity. Qed.
Lemma in_parens_alt : re_in_parens =
  RAlt (RGrp (lit "mf_plain") plain_pattern) (RAlt (RGrp (lit "mf_boolean") boolean_pattern) (RAlt (RGrp (lit "mf_range") range_pattern)
    (RAlt re_media_not (RAlt (RGrp (lit "media_in_parens") parens) (RSeqs [ws1; RGrp (lit "op") (RAlt (RLit "and") (RLit "or")); ws1]))))).
Proof. reflexivity. Qed.
Lemma in_parens_nullable : nullable re_in_parens = false. Proof. reflexivity. Qed.
Lemma feature_found : forall f s, good_feature f -> after s -> re_match re_in_parens (feature_text f ++ s) = Some (s, feature_caps f).
Proof.
  intros f s G A. rewrite in_parens_alt. unfold feature_caps.
  assert (GR : forall n e, re_match e (feature_text f ++ s) = Some (s, []) -> re_match (RGrp n e) (feature_text f ++ s) = Some (s, [(n, feature_text f)])).
  { intros n e H. rewrite match_grp, H. cbn [option_map fst snd]. rewrite upto_app. reflexivity. }
  assert (GN : forall n e, re_match e (feature_text f ++ s) = None -> re_match (RGrp n e) (feature_text f ++ s) = None).
  { intros n e H. rewrite match_grp, H. reflexivity. }
  rewrite match_alt. destruct f as [n|a n b c v d|a l b o c r d|a l b o c r b2 o2 c2 r2 d].
  - rewrite (GN _ plain_pattern) by (apply boolean_not_plain; [exact G|exact A]). rewrite match_alt, (GR _ boolean_pattern) by (apply boolean_match; [exact G|exact A]). reflexivity.
  - rewrite (GR _ plain_pattern); [reflexivity|]. rewrite plain_erase. destruct G as [Wn Wv]. rewrite (erased _ _ _ (plain_match a n b c v d s Wn Wv A)). reflexivity.
  - pose proof (range_not_plain _ s (Logic.I : is_range (FRange a l b o c r d)) G) as [N1 N2]. rewrite (GN _ _ N1), match_alt, (GN _ _ N2), match_alt.
    rewrite (GR _ range_pattern); [reflexivity|]. rewrite range_erase, (erased _ _ _ (range_match _ s (Logic.I : is_range (FRange a l b o c r d)) G)). reflexivity.
  - pose proof (range_not_plain _ s (Logic.I : is_range (FRange2 a l b o c r b2 o2 c2 r2 d)) G) as [N1 N2]. rewrite (GN _ _ N1), match_alt, (GN _ _ N2), match_alt.
    rewrite (GR _ range_pattern); [reflexivity|]. rewrite range_erase, (erased _ _ _ (range_match _ s (Logic.I : is_range (FRange2 a l b o c r b2 o2 c2 r2 d)) G)). reflexivity.
Qed.
Lemma match_spaces1 : forall k s, ends is_space s -> re_match (RPlus is_space) (sp (S k) ++ s) = Some (s, []).
Proof.
  intros k s E. unfold re_match. cbn [ways]. change (sp (S k)) with (32 :: sp k). cbn [app pluses]. change (is_space 32) with true. cbv iota.
  rewrite (stars_run is_space (sp k) s) by (apply sp_forall; reflexivity). rewrite (stars_end _ _ E). reflexivity.
Qed.
Lemma bop_group : forall o s, re_match (RGrp (lit "op") (RAlt (RLit "and") (RLit "or"))) (bop_text o ++ s) = Some (s, [(lit "op", bop_text o)]).
Proof.
  intros o s. rewrite match_grp, match_alt. unfold RLit.
  assert (X : match re_match (RWord (lit "and")) (bop_text o ++ s) with Some w => Some w | None => re_match (RWord (lit "or")) (bop_text o ++ s) end = Some (s, [])).
  { destruct o.
    - unfold bop_text. rewrite match_word by discriminate. reflexivity.
    - change (re_match (RWord (lit "and")) (bop_text BOr ++ s)) with (@None way). cbv iota. unfold bop_text. rewrite match_word by discriminate. reflexivity. }
  rewrite X. cbn [option_map fst snd]. rewrite upto_app. reflexivity.
Qed.
Lemma op_found : forall a o b s, ends is_space s ->
  re_match re_in_parens (sp (S a) ++ bop_text o ++ sp (S b) ++ s) = Some (s, [(lit "op", bop_text o)]).
Proof.
  intros a o b s E. rewrite in_parens_alt, !match_alt.
  assert (X : forall e, dead e 32 -> re_match e (sp (S a) ++ bop_text o ++ sp (S b) ++ s) = None) by (intros e D; exact (match_dead e 32 _ D)).
  rewrite !X by (split; reflexivity). clear X. unfold ws1. cbn [RSeqs].
  rewrite seq_spaces1; [|reflexivity|reflexivity|destruct o; reflexivity].
  rewrite (seq_hd _ _ _ _ _ (bop_group o (sp (S b) ++ s)) (match_spaces1 b s E)). reflexivity.
Qed.
Lemma after_links : forall ks, after (links_text ks).
Proof.
  intros [|[a o b f] ks]; [left; reflexivity|right]. destruct o; cbn [links_text map concat link_text l_before l_op l_after l_feature bop_text].
  - exists a, 97. eexists. unfold link_text. cbn [l_before l_op l_after l_feature bop_text]. rewrite <- !app_assoc. split; [reflexivity|left; reflexivity].
  - exists a, 111. eexists. unfold link_text. cbn [l_before l_op l_after l_feature bop_text]. rewrite <- !app_assoc. split; [reflexivity|right; reflexivity].
Qed.
Definition link_caps (k : link) : list caps := [[(lit "op", bop_text (l_op k))]; feature_caps (l_feature k)].
Lemma links_found : forall ks f, good_feature f -> good_links ks ->
  finditer re_in_parens (feature_text f ++ links_text ks) = feature_caps f :: flat_map link_caps ks.
Proof.
  intros ks. induction ks as [|k ks IH]; intros f G GL.
  - rewrite (finditer_step _ _ _ _ in_parens_nullable (feature_found f _ G (after_links []))). change (links_text []) with (@nil N). rewrite (finditer_nil _ in_parens_nullable). reflexivity.
  - rewrite (finditer_step _ _ _ _ in_parens_nullable (feature_found f _ G (after_links (k :: ks)))). f_equal.
    inversion GL as [|? ? G1 GL']; subst. cbn [links_text map concat flat_map]. unfold link_text at 1. rewrite <- !app_assoc.
    rewrite (finditer_step re_in_parens _ (feature_text (l_feature k) ++ links_text ks) [(lit "op", bop_text (l_op k))] in_parens_nullable).
    + rewrite (IH _ G1 GL'). reflexivity.
    + apply op_found. reflexivity.
Qed.

(** ** What the features give *)
Lemma strip_parens_word : forall n, word n -> strip_parens (40 :: n ++ [41]) = n.
Proof.
  intros n W. unfold strip_parens. cbn [dropwhile]. change (is_open 40 || is_close 40) with true. cbv iota.
  assert (P : forall c, wordc c = true -> is_open c || is_close c = false) by (intros c H; classes H; reflexivity).
  assert (H : forall m, Forall (fun c => wordc c = true) m -> head_not (fun c => is_open c || is_close c) m = true).
  { intros [|c m] F; [reflexivity|]. cbn [head_not]. rewrite P by (inversion F; assumption). reflexivity. }
  destruct W as [N F]. rewrite dropwhile_head.
  - rewrite rdropwhile_app by reflexivity. apply rdropwhile_id. apply H. apply Forall_rev, F.
  - destruct n as [|c n]; [destruct (N eq_refl)|]. cbn [app head_not]. rewrite P by (inversion F; assumption). reflexivity.
Qed.
Lemma has_prefix_4 : forall p n, length p = 4%nat -> has_prefix p n = true -> n = p ++ skipn 4 n.
Proof.
  intros p n L H. unfold has_prefix in H. destruct (text_eqb_spec (firstn 4 n) p) as [E|]; [|discriminate H]. rewrite <- E. symmetry. apply firstn_skipn.
Qed.
Lemma no_prefix_4 : forall p n, length p = 4%nat -> has_prefix p n = false -> forall y, n <> p ++ y.
Proof.
  intros p n L H y E. unfold has_prefix in H. destruct (text_eqb_spec (firstn 4 n) p) as [|D]; [discriminate H|]. apply D. rewrite E, firstn_app, L.
  rewrite Nat.sub_diag, firstn_O, app_nil_r, <- L. apply firstn_all.
Qed.
Lemma plain_tree : forall n v, exists x o, plain n v = TCompare (OName x) [(ONum v, o)] /\ bound_name n x o.
Proof.
  intros n v. unfold plain. destruct (has_prefix (lit "max-") n) eqn:E1; cbn [orb].
  - pose proof (has_prefix_4 (lit "max-") n eq_refl E1) as E. destruct (mem (skipn 4 n) discrete_features) eqn:M; cbn [andb].
    + exists n, OpEq. split; [reflexivity|]. rewrite E. apply bn_discrete; [right; reflexivity|apply mem_in, M].
    + exists (skipn 4 n), OpLe. split; [reflexivity|]. rewrite E at 1. apply bn_max. apply mem_not_in, M.
  - destruct (has_prefix (lit "min-") n) eqn:E2.
    + pose proof (has_prefix_4 (lit "min-") n eq_refl E2) as E. destruct (mem (skipn 4 n) discrete_features) eqn:M; cbn [andb].
      * exists n, OpEq. split; [reflexivity|]. rewrite E. apply bn_discrete; [left; reflexivity|apply mem_in, M].
      * exists (skipn 4 n), OpGe. split; [reflexivity|]. rewrite E at 1. apply bn_min. apply mem_not_in, M.
    + cbn [andb]. exists n, OpEq. split; [reflexivity|]. apply bn_plain; apply no_prefix_4; (reflexivity || assumption).
Qed.
Lemma bound_plain : forall n x o, bound_name n x o -> plain n [] = TCompare (OName x) [(ONum [], o)].
Proof.
  assert (P : forall p x, length p = 4%nat -> has_prefix p (p ++ x) = true).
  { intros p x L. unfold has_prefix. rewrite firstn_app, L, Nat.sub_diag, firstn_O, app_nil_r, <- L, firstn_all. apply text_eqb_refl. }
  intros n x o H. destruct H as [x H|x H|p x H M|x H1 H2]; unfold plain; try change MediaQuerySpec.discrete_words with discrete_features in *.
  - change (has_prefix (lit "max-") (lit "min-" ++ x)) with false. rewrite (P (lit "min-") x eq_refl). change (skipn 4 (lit "min-" ++ x)) with x.
    apply mem_not_in in H. rewrite H. reflexivity.
  - rewrite (P (lit "max-") x eq_refl). change (skipn 4 (lit "max-" ++ x)) with x. apply mem_not_in in H. rewrite H. reflexivity.
  - apply mem_in in M. destruct H as [-> | ->].
    + change (has_prefix (lit "max-") (lit "min-" ++ x)) with false. rewrite (P (lit "min-") x eq_refl). change (skipn 4 (lit "min-" ++ x)) with x. rewrite M. reflexivity.
    + rewrite (P (lit "max-") x eq_refl). change (skipn 4 (lit "max-" ++ x)) with x. rewrite M. reflexivity.
  - destruct (has_prefix (lit "max-") x) eqn:E1; [destruct (H2 _ (has_prefix_4 (lit "max-") x eq_refl E1))|].
    destruct (has_prefix (lit "min-") x) eqn:E2; [destruct (H1 _ (has_prefix_4 (lit "min-") x eq_refl E2))|]. reflexivity.
Qed.
Lemma bound_name_fun : forall n x o y p, bound_name n x o -> bound_name n y p -> x = y /\ o = p.
Proof. intros n x o y p H1 H2. apply bound_plain in H1, H2. rewrite H1 in H2. injection H2 as -> ->. split; reflexivity. Qed.
Lemma feature_tree_fun : forall f s t, feature_tree f s -> feature_tree f t -> s = t.
Proof.
  intros f s t H1 H2. inversion H1; subst; inversion H2; subst; try reflexivity.
  match goal with A : bound_name _ _ _, B : bound_name _ _ _ |- _ => destruct (bound_name_fun _ _ _ _ _ A B) as [-> ->] end. reflexivity.
Qed.

(* _RE_NUMBER matches what begins like a number *)
Lemma stars_some : forall p s, stars p s <> [].
Proof. intros p [|c s]; cbn [stars]; [discriminate|]. destruct (p c); [|discriminate]. intros H. apply app_eq_nil in H as [_ H]. discriminate H. Qed.
Lemma alt_some : forall a b s, re_match (RAlt a b) s = None <-> re_match a s = None /\ re_match b s = None.
Proof. intros a b s. rewrite match_alt. destruct (re_match a s); split; [discriminate|intros [H _]; discriminate H|auto|intros [_ H]; exact H]. Qed.
Lemma opt_some : forall a s, re_match (ROpt a) s <> None.
Proof. intros a s. unfold ROpt. rewrite match_alt, match_eps. destruct (re_match a s); discriminate. Qed.
(* a sequence whose second part always matches *)
Lemma seq_always : forall a b s, (forall r, re_match b r <> None) -> re_match (RSeq a b) s = None <-> re_match a s = None.
Proof.
  intros a b s B. split; intros H; [|apply seq_none, H]. destruct (re_match a s) as [w|] eqn:E; [|reflexivity].
  destruct (re_match b (fst w)) as [r|] eqn:E2; [|destruct (B _ E2)]. rewrite (seq_hd _ _ _ _ _ E E2) in H. discriminate H.
Qed.
Lemma star_some : forall p s, re_match (RStar p) s <> None.
Proof. intros p s. unfold re_match. cbn [ways]. pose proof (stars_some p s). destruct (stars p s); [congruence|discriminate]. Qed.
Definition digits_part := RAlt (RSeqs [RStar is_digit; RChr (N.eqb 46); RPlus is_digit]) (RSeqs [RPlus is_digit; ROpt (RChr (N.eqb 46)); RStar is_digit]).
Definition exp_part := ROpt (RSeqs [RChr (fun c => (c =? 101) || (c =? 69)); re_sign; RPlus is_digit]).
Definition digits_like (t : text) : bool :=
  match t with
  | c :: t' => is_digit c || (c =? 46) && match t' with d :: _ => is_digit d | [] => false end
  | [] => false
  end.
Lemma digits_match : forall t, re_match digits_part t = None <-> digits_like t = false.
Proof.
  intros [|c t]; [split; reflexivity|]. unfold digits_part, digits_like. rewrite alt_some. cbn [RSeqs].
  destruct (is_digit c) eqn:D; cbn [orb].
  - split; [|discriminate]. intros [_ H]. exfalso. rewrite seq_always in H.
    + unfold re_match in H. cbn [ways pluses] in H. rewrite D in H. pose proof (stars_some is_digit t). destruct (stars is_digit t); [congruence|discriminate H].
    + intros r H0. rewrite seq_always in H0; [exact (opt_some _ _ H0)|]. intros x. apply star_some.
  - rewrite (match_dead (RSeq (RPlus is_digit) (RSeq (ROpt (RChr (N.eqb 46))) (RStar is_digit))) c t)
      by (split; [reflexivity|cbn [first nullable]; rewrite D; reflexivity]).
    change (c :: t) with ([] ++ c :: t). rewrite (seq_star is_digit _ [] (c :: t)) by (constructor || exact D).
    destruct (c =? 46) eqn:E; cbn [andb].
    + apply N.eqb_eq in E. subst c. rewrite seq_chr by reflexivity. unfold re_match. cbn [ways].
      destruct t as [|d t]; [split; [reflexivity|split; reflexivity]|]. cbn [pluses]. destruct (is_digit d).
      * pose proof (stars_some is_digit t). destruct (stars is_digit t); [congruence|]. split; [intros [H0 _]; discriminate H0|discriminate].
      * split; [reflexivity|split; reflexivity].
    + rewrite N.eqb_sym in E. rewrite match_dead by (split; [reflexivity|cbn [first nullable]; rewrite E; reflexivity]). split; [reflexivity|split; reflexivity].
Qed.
Lemma operand_read : forall t, operand_of t = operand_tree t.
Proof.
  intros t. unfold operand_of, operand_tree.
  assert (N : forall s, re_match (RSeq digits_part exp_part) s = None <-> digits_like s = false).
  { intros s. rewrite seq_always by (intros r; apply opt_some). apply digits_match. }
  assert (X : re_match re_number t = None <-> number_like t = false).
  { change re_number with (RSeq re_sign (RSeq digits_part exp_part)). unfold re_sign, ROpt. rewrite match_alt_seq, seq_eps. unfold number_like.
    destruct t as [|c t]; [split; reflexivity|]. destruct ((c =? 43) || (c =? 45)) eqn:S0.
    - rewrite seq_chr by exact S0. fold (digits_like t). rewrite <- N. destruct (re_match (RSeq digits_part exp_part) t); [split; discriminate|].
      split; [reflexivity|]. intros _. apply N. cbn [digits_like]. apply orb_true_iff in S0 as [E|E]; apply N.eqb_eq in E; subst c; reflexivity.
    - rewrite seq_none by (apply match_dead; split; [reflexivity|exact S0]). fold (digits_like (c :: t)). apply N. }
  destruct (re_match re_number t), (number_like t); try reflexivity.
  - destruct X as [_ X]. discriminate (X eq_refl).
  - destruct X as [X _]. discriminate (X eq_refl).
Qed.
Lemma cop_read : forall o, o <> OpEq -> cop_of (op_text o) = o.
Proof. intros [] N; try reflexivity. destruct (N eq_refl). Qed.
Lemma feature_read : forall rec f ms tg st, good_feature f ->
  exists t, feature_tree f t /\ in_parens_loop rec (feature_caps f :: ms) tg st = in_parens_loop rec ms tg (add_value t st).
Proof.
  intros rec f ms tg st G. destruct f as [n|a n b c v d|a l b o c r d|a l b o c r b2 o2 c2 r2 d].
  - exists (TName n). split; [constructor|]. cbn [in_parens_loop]. unfold feature_caps, feature_kind.
    change (mf_boolean (feature_text (FBool n))) with (TName (strip_parens (40 :: n ++ [41]))).
    transitivity (in_parens_loop rec ms tg (add_value (mf_boolean (feature_text (FBool n))) st)); [reflexivity|].
    unfold mf_boolean, feature_text, inner. cbn [app]. rewrite (strip_parens_word n G). reflexivity.
  - destruct (plain_tree n v) as (x & o & E & B). exists (TCompare (OName x) [(ONum v, o)]). split; [constructor; exact B|].
    destruct G as [Wn Wv]. pose proof (plain_match a n b c v d [] Wn Wv (or_introl eq_refl)) as M. rewrite app_nil_r in M.
    transitivity (do t <- mf_plain (feature_text (FPlain a n b c v d)); in_parens_loop rec ms tg (add_value t st)); [reflexivity|].
    unfold mf_plain. rewrite M. change (group [(lit "mf_value", v); (lit "mf_name", n)] (lit "mf_name")) with (Some n).
    change (group [(lit "mf_value", v); (lit "mf_name", n)] (lit "mf_value")) with (Some v). cbv iota. rewrite E. reflexivity.
  - eexists. split; [constructor|]. pose proof (range_match _ [] (Logic.I : is_range (FRange a l b o c r d)) G) as M. rewrite app_nil_r in M.
    transitivity (do t <- mf_range (feature_text (FRange a l b o c r d)); in_parens_loop rec ms tg (add_value t st)); [reflexivity|].
    unfold mf_range. rewrite M. unfold range_caps. set (g := [_; _; _]).
    change (group g (lit "left")) with (Some l). change (group g (lit "op")) with (Some (op_text o)). change (group g (lit "right")) with (Some r).
    change (group g (lit "right2")) with (@None text). cbv iota. rewrite !operand_read, cop_read by apply G. reflexivity.
  - eexists. split; [constructor|]. pose proof (range_match _ [] (Logic.I : is_range (FRange2 a l b o c r b2 o2 c2 r2 d)) G) as M. rewrite app_nil_r in M.
    transitivity (do t <- mf_range (feature_text (FRange2 a l b o c r b2 o2 c2 r2 d)); in_parens_loop rec ms tg (add_value t st)); [reflexivity|].
    unfold mf_range. rewrite M. unfold range_caps. set (g := [_; _; _; _; _]).
    change (group g (lit "left")) with (Some l). change (group g (lit "op")) with (Some (op_text o)). change (group g (lit "right")) with (Some r).
    change (group g (lit "right2")) with (Some r2). change (group g (lit "op2")) with (Some (op_text o2)). cbv iota. rewrite !operand_read, !cop_read by apply G. reflexivity.
Qed.

(** ** The loop over a condition *)
(* the state is a 'not' exactly when values go to the operand *)
Definition fits (tg : target) (st : node) : Prop :=
  match tg with Own => n_unary st = Some false | Operand => n_unary st = Some true | Detached => False end.
Lemma add_value_target : forall tg t st, fits tg st -> add_value t st = on_target tg (push t) st.
Proof. intros tg t [u w d] F. unfold add_value, set_bool, is_unary. destruct tg; cbn [fits n_unary] in F; try contradiction; subst u; reflexivity. Qed.
Lemma fits_on : forall tg f st, fits tg st -> fits tg (on_target tg f st).
Proof. intros tg f [u w d] F. destruct tg; exact F. Qed.
Lemma on_target_comp : forall tg f g st, on_target tg f (on_target tg g st) = on_target tg (fun x => f (g x)) st.
Proof. intros [] f g [u w d]; reflexivity. Qed.
Lemma on_target_ext : forall tg f g st, (forall x, f x = g x) -> on_target tg f st = on_target tg g st.
Proof. intros [] f g [u w d] H; unfold on_target, on_own, on_operand; cbn; rewrite ?H; reflexivity. Qed.
(* the operator that is set by links, when there is one already or not *)
Definition or_first (o : option text) (ks : list link) : option text :=
  match o with Some x => Some x | None => match ks with k :: _ => Some (bop_text (l_op k)) | [] => None end end.
Definition extend (ks : list link) (ts : list tree) (f : flat) : flat :=
  mkFlat (or_first (f_op f) ks) (match ks with [] => f_ops f | _ => Some (dflt (f_ops f) ++ map (fun k => bop_text (l_op k)) ks) end)
    (match ts with [] => f_values f | _ => Some (dflt (f_values f) ++ ts) end).
Lemma op_step : forall rec o ms tg st,
  in_parens_loop rec ([(lit "op", o)] :: ms) tg st = in_parens_loop rec ms tg (on_target tg (fun f => push_op o (set_op o f)) st).
Proof. reflexivity. Qed.
Lemma links_loop : forall rec ks tg st, fits tg st -> good_links ks ->
  exists ts, link_trees ks ts /\ in_parens_loop rec (flat_map link_caps ks) tg st = Ok (on_target tg (extend ks ts) st).
Proof.
  intros rec ks. induction ks as [|k ks IH]; intros tg st F G.
  - exists []. split; [constructor|]. cbn [flat_map in_parens_loop]. f_equal. destruct tg, st as [u [a b c] [a' b' c']]; unfold on_target, on_own, on_operand, extend, or_first; cbn;
      repeat match goal with |- context [match ?x with _ => _ end] => destruct x end; reflexivity.
  - inversion G as [|? ? G1 G2]; subst. cbn [flat_map]. unfold link_caps at 1. cbn [app]. rewrite op_step.
    set (st1 := on_target tg _ st). assert (F1 : fits tg st1) by (apply fits_on, F).
    destruct (feature_read rec (l_feature k) (flat_map link_caps ks) tg st1 G1) as (t & T & E). rewrite E. clear E.
    rewrite (add_value_target tg t st1 F1).
    destruct (IH tg (on_target tg (push t) st1) (fits_on _ _ _ F1) G2) as (ts & Ts & E). exists (t :: ts). split; [constructor; assumption|].
    rewrite E. f_equal. unfold st1. rewrite !on_target_comp. apply on_target_ext. intros [p q v]. unfold extend, push, push_op, set_op, or_first, dflt.
    destruct p, q, v, ks, ts; cbn [f_op f_ops f_values map app]; rewrite <- ?app_assoc; try reflexivity; inversion Ts.
Qed.
