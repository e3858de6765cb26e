(** Reading media queries: whole queries and lists of them. *)
From Coq Require Import Lia.
From Verif Require Import PyBase PyText PySplit PyStrip PyCase PyRegex PyRegexProofs PyDict MediaQueryModel MqParseModel MqParseSpec MqParseProofs MqParseProofs2.
#[local] Open Scope N_scope.

(** ** Conditions *)
Definition conds (f : feature) (ks : list link) : text := feature_text f ++ links_text ks.
Definition gather (ks : list link) (ts : list tree) (x : flat) : flat :=
  mkFlat (or_first (f_op x) ks) (Some (dflt (f_ops x) ++ map (fun k => bop_text (l_op k)) ks)) (Some (dflt (f_values x) ++ ts)).
Definition where_ (st : node) : target := if is_unary st then Operand else Own.
Lemma in_parens_read : forall rec f ks st, good_feature f -> good_links ks ->
  exists t ts, feature_tree f t /\ link_trees ks ts /\ in_parens rec (conds f ks) st = Ok (on_target (where_ st) (gather ks (t :: ts)) (set_bool st)).
Proof.
  intros rec f ks st G GL. unfold in_parens, conds. rewrite (links_found ks f G GL).
  assert (W : is_unary (set_bool st) = is_unary st) by (destruct st as [[|] w d]; reflexivity). rewrite W. fold (where_ st).
  set (st1 := on_target (where_ st) _ (set_bool st)).
  assert (F : fits (where_ st) st1) by (destruct st as [[[|]|] w d]; reflexivity).
  destruct (feature_read rec f (flat_map link_caps ks) (where_ st) st1 G) as (t & T & E). rewrite E. clear E. rewrite (add_value_target _ t st1 F).
  destruct (links_loop rec ks (where_ st) (on_target (where_ st) (push t) st1) (fits_on _ _ _ F) GL) as (ts & Ts & E).
  exists t, ts. split; [exact T|]. split; [exact Ts|]. rewrite E. f_equal. unfold st1. rewrite !on_target_comp. apply on_target_ext.
  intros [p q v]. unfold extend, push, gather, or_first, dflt. inversion Ts; subst; destruct p, q, v; cbn [f_op f_ops f_values map app]; rewrite ?app_nil_r, <- ?app_assoc; reflexivity.
Qed.

(** ** Characters of queries *)
Definition qchar (c : N) : bool := wordc c || existsb (N.eqb c) [32; 40; 41; 58; 60; 61; 62].
Lemma qchar_facts : forall c, qchar c = true -> any c = true /\ is_up c = false /\ (44 =? c) = false.
Proof.
  intros c H. unfold qchar in H. apply orb_true_iff in H as [H|H].
  - rewrite (word_any c H). destruct (word_facts c H) as (_ & U & _ & _ & K & _). rewrite N.eqb_sym. auto.
  - cbn [existsb] in H. repeat (apply orb_true_iff in H as [H|H]; [apply N.eqb_eq in H; subst c; repeat split; reflexivity|]). discriminate H.
Qed.
Definition qtext (t : text) : Prop := Forall (fun c => qchar c = true) t.
Lemma q_app : forall a b, qtext a -> qtext b -> qtext (a ++ b). Proof. intros a b A B. apply Forall_app. split; assumption. Qed.
Lemma q_word : forall t, word t -> qtext t.
Proof. intros t W. apply (word_forall _ t); [|exact W]. intros c H. unfold qchar. rewrite H. reflexivity. Qed.
Lemma q_sp : forall k, qtext (sp k). Proof. intros k. apply sp_forall. reflexivity. Qed.
Lemma q_op : forall o, qtext (op_text o). Proof. intros []; repeat constructor. Qed.
Lemma q_bop : forall o, qtext (bop_text o). Proof. intros []; repeat constructor. Qed.
Lemma q_inner : forall f, good_feature f -> qtext (inner f).
Proof.
  intros [n|a n b c v d|a l b o c r d|a l b o c r b2 o2 c2 r2 d] G; cbn [good_feature inner] in *; repeat apply q_app;
    first [apply q_sp | apply q_op | apply q_word; apply G | (constructor; [reflexivity|constructor])].
Qed.
Lemma q_feature : forall f, good_feature f -> qtext (feature_text f).
Proof. intros f G. unfold feature_text. apply q_app; [constructor; [reflexivity|constructor]|]. apply q_app; [apply q_inner, G|constructor; [reflexivity|constructor]]. Qed.
Lemma q_link : forall k, good_feature (l_feature k) -> qtext (link_text k).
Proof. intros k G. unfold link_text. apply q_app; [apply q_sp|]. apply q_app; [apply q_bop|]. apply q_app; [apply q_sp|apply q_feature, G]. Qed.
Lemma q_links : forall ks, good_links ks -> qtext (links_text ks).
Proof. intros ks G. unfold links_text. induction G as [|k ks G1 G2 IH]; [constructor|]. cbn [map concat]. apply q_app; [apply q_link, G1|exact IH]. Qed.
Lemma q_prefix : forall p, qtext (prefix_text p).
Proof. intros [|k|k]; cbn [prefix_text]; [constructor| |]; (apply q_app; [repeat constructor|apply q_sp]). Qed.
Lemma q_query : forall q, good_query q -> qtext (query_text q).
Proof.
  intros [p t|p t a b f ks|n f ks] G; cbn [good_query query_text] in *.
  - apply q_app; [apply q_prefix|apply q_word, G].
  - apply q_app; [apply q_prefix|]. apply q_app; [apply q_word, G|]. apply q_app; [apply q_link, G|apply q_links, G].
  - apply q_app; [|apply q_app; [apply q_feature, G|apply q_links, G]]. destruct n; cbn [neg_text]; [apply q_app; [repeat constructor|apply q_sp]|constructor].
Qed.
Lemma inner_nonempty : forall f, good_feature f -> inner f <> [].
Proof.
  intros f G E. destruct f as [n|a n b c v d|a l b o c r d|a l b o c r b2 o2 c2 r2 d]; cbn [good_feature inner] in *; repeat (apply app_eq_nil in E as [? E]); try (destruct G as [G _]); (apply G; assumption) || (destruct G as [G0 _]; apply G0; assumption).
Qed.
Definition enclosed (s : text) : Prop := exists w, s = 40 :: w ++ [41] /\ w <> [] /\ Forall (fun c => any c = true) w.
Lemma cond_shape : forall ks f, good_feature f -> good_links ks -> enclosed (conds f ks).
Proof.
  assert (A : forall f, good_feature f -> Forall (fun c => any c = true) (inner f)).
  { intros f G. apply Forall_impl with (2 := q_inner f G). intros c H. apply qchar_facts, H. }
  induction ks as [|k ks IH]; intros f G GL.
  - exists (inner f). unfold conds, links_text, feature_text. cbn [map concat]. rewrite app_nil_r. split; [reflexivity|]. split; [apply inner_nonempty, G|apply A, G].
  - inversion GL as [|? ? G1 G2]; subst. destruct (IH (l_feature k) G1 G2) as (w & E & Nw & Fw).
    exists (inner f ++ 41 :: sp (S (l_before k)) ++ bop_text (l_op k) ++ sp (S (l_after k)) ++ 40 :: w).
    unfold conds, links_text in *. cbn [map concat]. unfold link_text at 1. unfold feature_text at 1. rewrite <- !app_assoc. rewrite E.
    split; [|split].
    + cbn [app]. f_equal. repeat (rewrite <- !app_assoc; cbn [app]). reflexivity.
    + intros H. apply app_eq_nil in H as [_ H]. discriminate H.
    + apply Forall_app. split; [apply A, G|]. constructor; [reflexivity|]. apply Forall_app. split; [apply sp_forall; reflexivity|].
      apply Forall_app. split; [destruct (l_op k); repeat constructor|]. apply Forall_app. split; [apply sp_forall; reflexivity|]. constructor; [reflexivity|exact Fw].
Qed.
Lemma parens_match : forall s, enclosed s -> re_match parens s = Some ([], []).
Proof.
  intros s (w & -> & N & F). unfold parens, open_, close_. cbn [RSeqs]. rewrite seq_chr by reflexivity.
  apply (seq_plus_last any (RChr is_close) w 41); try assumption; reflexivity.
Qed.
Lemma upto_all : forall s, upto s [] = s.
Proof. intros s. unfold upto. cbn [length]. rewrite Nat.sub_0_r. apply firstn_all. Qed.
Lemma enclosed_head : forall s, enclosed s -> exists y, s = 40 :: y.
Proof. intros s (w & -> & _). eexists. reflexivity. Qed.

Lemma media_nullable : nullable re_media_query = false. Proof. reflexivity. Qed.
Definition type_pattern := RSeqs [ROpt (RAlt (RSeq (RLit "not") ws1) (RSeq (RLit "only") ws1)); RPlus not_blank; ROpt (RSeqs [ws1; RLit "and"; ws1; RRep parens])].
Lemma media_alt : re_media_query = RAlt re_media_not (RAlt (RGrp (lit "media_in_parens") parens) (RGrp (lit "media_query") type_pattern)).
Proof. reflexivity. Qed.
Lemma cond_found : forall s, enclosed s -> finditer re_media_query s = [[(lit "media_in_parens", s)]].
Proof.
  intros s E. rewrite (finditer_step _ _ [] [(lit "media_in_parens", s)] media_nullable); [rewrite (finditer_nil _ media_nullable); reflexivity|].
  destruct (enclosed_head s E) as [y Ey]. rewrite media_alt, match_alt. rewrite Ey at 1. rewrite match_dead by (split; reflexivity).
  rewrite match_alt, match_grp, (parens_match s E). cbn [option_map fst snd]. rewrite upto_all. reflexivity.
Qed.
Lemma parse_conds : forall n f ks st, good_feature f -> good_links ks ->
  exists t ts, feature_tree f t /\ link_trees ks ts /\ parse_query (S n) (conds f ks) st = Ok (on_target (where_ st) (gather ks (t :: ts)) (set_bool st)).
Proof.
  intros n f ks st G GL. destruct (in_parens_read (parse_query n) f ks st G GL) as (t & ts & T & Ts & E). exists t, ts. split; [exact T|]. split; [exact Ts|].
  cbn [parse_query]. rewrite (cond_found _ (cond_shape ks f G GL)).
  transitivity (do st <- in_parens (parse_query n) (conds f ks) st; media_loop (parse_query n) [] st); [reflexivity|]. rewrite E. reflexivity.
Qed.

(** ** not ( ... ) *)
Lemma not_found : forall k s, enclosed s -> finditer re_media_query (lit "not" ++ sp (S k) ++ s) = [[(lit "media_not", lit "not" ++ sp (S k) ++ s)]].
Proof.
  intros k s E. rewrite (finditer_step _ _ [] [(lit "media_not", lit "not" ++ sp (S k) ++ s)] media_nullable); [rewrite (finditer_nil _ media_nullable); reflexivity|].
  rewrite media_alt, match_alt. unfold re_media_not. rewrite match_grp. unfold RLit, ws1. cbn [RSeqs]. rewrite seq_word by discriminate.
  rewrite seq_spaces1; [|reflexivity|reflexivity|destruct (enclosed_head s E) as [y ->]; reflexivity].
  rewrite (parens_match s E). cbn [option_map fst snd]. rewrite upto_all. reflexivity.
Qed.
Lemma seg_split : forall w k c s, Forall (fun c => not_space c = true) w -> is_space c = false ->
  existsb is_space (w ++ sp (S k) ++ c :: s) = true /\ takewhile not_space (w ++ sp (S k) ++ c :: s) = w /\
  dropwhile is_space (dropwhile not_space (w ++ sp (S k) ++ c :: s)) = c :: s.
Proof.
  intros w k c s F H. assert (Fb : forallb not_space w = true) by (apply forallb_forall; rewrite Forall_forall in F; exact F). split; [|split].
  - rewrite !existsb_app. cbn [sp repeat existsb]. change (is_space 32) with true. rewrite !orb_true_r. reflexivity.
  - apply takewhile_app; [exact Fb|reflexivity].
  - rewrite dropwhile_app_stop by (exact Fb || reflexivity). rewrite dropwhile_app.
    + cbn [dropwhile]. rewrite H. reflexivity.
    + apply forallb_forall. intros x I. apply repeat_spec in I. subst x. reflexivity.
Qed.
Lemma media_not_rest : forall rec k s st, enclosed s -> media_not rec (lit "not" ++ sp (S k) ++ s) st = rec s (make_not st).
Proof.
  intros rec k s st E. unfold media_not. destruct (enclosed_head s E) as [y ->].
  destruct (seg_split (lit "not") k 40 y) as (_ & _ & X); [repeat constructor|reflexivity|]. rewrite X. reflexivity.
Qed.

(** ** Media types *)
Definition tailq (rest : text) : Prop := rest = [] \/ exists a b s, rest = sp (S a) ++ lit "and" ++ sp (S b) ++ s /\ enclosed s.
Lemma tailq_ends : forall p rest, p 32 = false -> tailq rest -> ends p rest.
Proof. intros p rest H [->|(a & b & s & -> & _)]; [exact Logic.I|exact H]. Qed.
Lemma seq_plus_hd : forall p b u s r, u <> [] -> Forall (fun c => p c = true) u -> ends p s -> re_match b s = Some r -> re_match (RSeq (RPlus p) b) (u ++ s) = Some r.
Proof.
  intros p b [|c u] s r N F E B; [destruct (N eq_refl)|]. inversion F as [|? ? H F']; subst. unfold re_match in *. rewrite ways_plus_seq. cbn [app pluses].
  rewrite H, (stars_run p u s F'), (stars_end p s E), flat_map_app. cbn [flat_map]. rewrite app_nil_r, hd_app, B. reflexivity.
Qed.
Definition core := RSeq (RPlus not_blank) (ROpt (RSeqs [ws1; RLit "and"; ws1; RRep parens])).
Lemma core_match : forall t rest, word t -> tailq rest -> re_match core (t ++ rest) = Some ([], []).
Proof.
  intros t rest W Q. unfold core. apply seq_plus_hd.
  - apply W.
  - apply (word_forall _ t word_not_blank W).
  - apply tailq_ends; [reflexivity|exact Q].
  - unfold ROpt, ws1. rewrite match_alt. cbn [RSeqs]. destruct Q as [->|(a & b & s & -> & E)].
    + rewrite match_nil by reflexivity. reflexivity.
    + rewrite seq_spaces1 by reflexivity. unfold RLit. rewrite seq_word by discriminate.
      rewrite seq_spaces1; [|reflexivity|reflexivity|destruct (enclosed_head s E) as [y ->]; reflexivity].
      rewrite (match_rep parens s [] []); [reflexivity|apply parens_match, E|reflexivity].
Qed.
Lemma no_keyword : forall t k, ~ keyword t -> In k [lit "and"; lit "or"; lit "not"; lit "only"] -> t <> k.
Proof. intros t k N I E. apply N. subst t. exact I. Qed.
Lemma word_no_space : forall t, word t -> Forall (fun c => is_space c = false) t.
Proof. intros t W. apply (word_forall _ t word_is_space W). Qed.
Lemma keyword_none : forall k b t rest, k <> [] -> Forall (fun c => is_space c = false) k -> word t -> t <> k -> tailq rest ->
  re_match (RSeq (RWord k) (RSeq (RPlus is_space) b)) (t ++ rest) = None.
Proof.
  intros k b t rest N F W D Q. apply seq_word_none; try assumption; [apply word_no_space, W|].
  destruct Q as [->|(a & b' & s & -> & _)]; [exact Logic.I|reflexivity].
Qed.
Lemma type_found : forall p t rest, word t -> ~ keyword t -> tailq rest ->
  finditer re_media_query (prefix_text p ++ t ++ rest) = [[(lit "media_query", prefix_text p ++ t ++ rest)]].
Proof.
  intros p t rest W K Q. set (s := prefix_text p ++ t ++ rest).
  rewrite (finditer_step _ s [] [(lit "media_query", s)] media_nullable); [rewrite (finditer_nil _ media_nullable); reflexivity|].
  assert (H1 : re_match (RSeqs [RLit "not"; ws1; parens]) s = None).
  { unfold s, RLit, ws1. cbn [RSeqs]. destruct p as [|k|k]; cbn [prefix_text app].
    - apply keyword_none; try assumption; [discriminate|repeat constructor|apply no_keyword; [exact K|cbn; auto]].
    - apply match_dead. split; reflexivity.
    - rewrite <- app_assoc. rewrite seq_word by discriminate. rewrite seq_spaces1; [|reflexivity|reflexivity|apply ends_word; [exact word_is_space|exact W]].
      destruct (word_head t rest W) as (x & y & -> & Wx). apply match_dead. split; [reflexivity|]. unfold parens, open_. cbn [RSeqs first nullable andb]. classes Wx. reflexivity. }
  assert (H2 : re_match parens s = None).
  { unfold s. destruct p as [|k|k]; cbn [prefix_text app]; try (apply match_dead; split; reflexivity).
    destruct (word_head t rest W) as (x & y & -> & Wx). apply match_dead. split; [reflexivity|]. unfold parens, open_. cbn [RSeqs first nullable andb]. classes Wx. reflexivity. }
  assert (H3 : re_match type_pattern s = Some ([], [])).
  { change type_pattern with (RSeq (ROpt (RAlt (RSeq (RLit "not") ws1) (RSeq (RLit "only") ws1))) core). unfold ROpt. rewrite match_alt_seq, match_alt_seq, !match_assoc, seq_eps. unfold s, RLit, ws1.
    destruct p as [|k|k]; cbn [prefix_text].
    - cbn [app]. rewrite (keyword_none (lit "not")); try assumption; [|discriminate|repeat constructor|apply no_keyword; [exact K|cbn; auto]].
      rewrite (keyword_none (lit "only")); try assumption; [|discriminate|repeat constructor|apply no_keyword; [exact K|cbn; auto]].
      apply core_match; assumption.
    - rewrite <- app_assoc. change (lit "only" ++ sp (S k) ++ t ++ rest) with (111 :: 110 :: 108 :: 121 :: sp (S k) ++ t ++ rest) at 1.
      rewrite match_dead by (split; reflexivity). rewrite seq_word by discriminate.
      rewrite seq_spaces1; [|reflexivity|reflexivity|apply ends_word; [exact word_is_space|exact W]]. rewrite (core_match t rest W Q). reflexivity.
    - rewrite <- app_assoc. rewrite seq_word by discriminate.
      rewrite seq_spaces1; [|reflexivity|reflexivity|apply ends_word; [exact word_is_space|exact W]]. rewrite (core_match t rest W Q). reflexivity. }
  rewrite media_alt, !match_alt. unfold re_media_not. rewrite !match_grp, H1, H2, H3. cbn [option_map fst snd]. rewrite upto_all. reflexivity.
Qed.
