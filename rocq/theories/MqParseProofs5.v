(** Reading media queries: facts about any text. *)
From Coq Require Import Lia.
From Verif Require Import PyBase PyText PySplit PyStrip PyCase PyRegex PyRegexProofs PyDict MediaQueryModel
  MqParseModel MqParseSpec MqParseProofs MqParseProofs2 MqParseProofs3 MqParseProofs4.
#[local] Open Scope N_scope.

Lemma parse_comma : forall a b, parse (a ++ [44] ++ b) = do x <- parse a; do y <- parse b; Ok (x ++ y).
Proof.
  intros a b. rewrite !parse_split. rewrite lower_app. change (lower ([44] ++ b)) with (44 :: lower b). rewrite split_sep. apply parse_list_app.
Qed.
Lemma parse_case : forall a b, lower a = lower b -> parse a = parse b.
Proof. intros a b E. rewrite !parse_split, E. reflexivity. Qed.
Lemma blank_pieces : forall s w, forallb is_space w = true -> forallb (fun c => is_space c || (44 =? c)) s = true ->
  Forall (fun p => forallb is_space p = true) (split_on_acc (N.eqb 44) w s).
Proof.
  induction s as [|c s IH]; intros w W H; cbn [split_on_acc]; [constructor; [exact W|constructor]|]. cbn [forallb] in H. apply andb_prop in H as [Hc H].
  destruct (44 =? c) eqn:E.
  - constructor; [exact W|]. apply IH; [reflexivity|exact H].
  - apply IH; [|exact H]. rewrite forallb_app. rewrite orb_false_r in Hc. cbn [forallb]. rewrite W, Hc. reflexivity.
Qed.
Lemma parse_blank : forall s, forallb (fun c => is_space c || (44 =? c)) s = true -> parse s = Ok [].
Proof.
  intros s H. rewrite parse_split.
  assert (H' : forallb (fun c => is_space c || (44 =? c)) (lower s) = true).
  { apply forallb_forall. intros c I. unfold lower in I. apply in_map_iff in I as (d & <- & I). rewrite forallb_forall in H. specialize (H d I).
    rewrite is_space_low. apply orb_true_iff in H as [H|H]; [rewrite H; reflexivity|]. apply N.eqb_eq in H. subst d. reflexivity. }
  pose proof (blank_pieces (lower s) [] eq_refl H') as F. unfold split_on. induction F as [|p l Hp F IH]; [reflexivity|].
  cbn [parse_list]. apply strip_nil_iff in Hp. rewrite Hp. exact IH.
Qed.

(** ** A parenthesis that is not closed *)
Lemma no_close : forall s, ~ In 41 s -> ways parens s = [].
Proof.
  intros s N. destruct s as [|c s]; [reflexivity|]. unfold parens, open_, close_. cbn [RSeqs].
  assert (H : ways (RSeq (RPlus any) (RChr is_close)) s = []).
  { rewrite ways_plus_seq. destruct s as [|d s]; [reflexivity|]. cbn [pluses]. destruct (any d); [|reflexivity].
    assert (X : forall r, In r (stars any s) -> ways (RChr is_close) r = []).
    { intros r I. destruct (stars_in _ _ _ I) as [u ->]. destruct r as [|x r]; [reflexivity|]. cbn [ways]. unfold is_close. destruct (N.eqb_spec x 41) as [E|]; [|reflexivity].
      destruct N. subst x. right. right. apply in_or_app. right. left. reflexivity. }
    induction (stars any s) as [|r l IH]; [reflexivity|]. cbn [flat_map]. rewrite (X r (or_introl eq_refl)), IH by (intros; apply X; right; assumption). reflexivity. }
  cbn [ways] in *. destruct (is_open c); [|reflexivity]. cbn [flat_map fst snd]. rewrite H. reflexivity.
Qed.
Lemma rep_none : forall a s, ways a s = [] -> ways (RRep a) s = [].
Proof. intros a s H. cbn [ways repeat_ways]. rewrite H. reflexivity. Qed.
Lemma seq_all_none : forall a b s, (forall w, In w (ways a s) -> ways b (fst w) = []) -> ways (RSeq a b) s = [].
Proof.
  intros a b s H. cbn [ways]. induction (ways a s) as [|w l IH]; [reflexivity|]. cbn [flat_map]. rewrite (H w (or_introl eq_refl)), IH by (intros; apply H; right; assumption). reflexivity.
Qed.
Lemma no_close_tail : forall s, ~ In 41 s -> ways (RSeqs [ws1; RLit "and"; ws1; RRep parens]) s = [].
Proof.
  intros s N. cbn [RSeqs]. apply seq_all_none. intros w Iw. destruct (ways_suffix _ _ _ Iw) as (u1 & -> & _).
  apply seq_all_none. intros w2 I2. destruct (ways_suffix _ _ _ I2) as (u2 & E2 & _). apply seq_all_none. intros w3 I3. destruct (ways_suffix _ _ _ I3) as (u3 & E3 & _).
  apply rep_none, no_close. intros I. apply N. rewrite E2, E3. apply in_or_app. right. apply in_or_app. right. apply in_or_app. right. exact I.
Qed.
Lemma take_in : forall f t c, In c (takewhile f t) -> In c t.
Proof. intros f t c I. rewrite <- (take_drop f t). apply in_or_app. left. exact I. Qed.
Lemma dropwhile_ends : forall f t, ends f (dropwhile f t).
Proof. intros f t. pose proof (dropwhile_stop f t) as H. destruct (dropwhile f t); [exact Logic.I|]. cbn [head_not] in H. apply negb_true_iff in H. exact H. Qed.
Lemma forallb_F : forall (f : N -> bool) t, forallb f t = true -> Forall (fun c => f c = true) t.
Proof. intros f t H. apply Forall_forall. rewrite forallb_forall in H. exact H. Qed.
Lemma unclosed_found : forall q, ~ In 41 q -> exists g ms, finditer re_media_query (40 :: q) = g :: ms /\ group g (lit "media_not") = None /\
  group g (lit "media_in_parens") = None /\ group g (lit "media_query") = Some (40 :: takewhile not_blank q).
Proof.
  intros q N. set (s := 40 :: q). assert (Ns : ~ In 41 s) by (intros [E|I]; [discriminate E|exact (N I)]).
  set (u := 40 :: takewhile not_blank q). set (r := dropwhile not_blank q).
  assert (Es : s = u ++ r) by (unfold s, u, r; cbn [app]; rewrite take_drop; reflexivity).
  assert (H : re_match type_pattern s = Some (r, [])).
  { change type_pattern with (RSeq (ROpt (RAlt (RSeq (RLit "not") ws1) (RSeq (RLit "only") ws1))) core). unfold ROpt. rewrite match_alt_seq.
    assert (D : re_match (RSeq (RAlt (RSeq (RLit "not") ws1) (RSeq (RLit "only") ws1)) core) s = None) by (unfold s; apply match_dead; split; reflexivity).
    rewrite D, seq_eps. rewrite Es. unfold core. apply seq_plus_hd.
    - discriminate.
    - unfold u. constructor; [reflexivity|apply forallb_F, takewhile_forall].
    - apply dropwhile_ends.
    - unfold ROpt. rewrite match_alt, ways_none; [reflexivity|]. apply no_close_tail. intros I. apply Ns. rewrite Es. apply in_or_app. right. exact I. }
  exists [(lit "media_query", u)], (finditer re_media_query r). split; [|repeat split].
  apply finditer_step; [exact media_nullable|]. rewrite media_alt, !match_alt.
  assert (D : re_match re_media_not s = None) by (unfold s; apply match_dead; split; reflexivity). rewrite D, !match_grp.
  rewrite (ways_none _ _ (no_close s Ns)), H. cbn [option_map fst snd]. rewrite Es, upto_app. reflexivity.
Qed.
Lemma unclosed_loops : forall n q st, ~ In 41 q -> parse_query n (40 :: q) st = Err OtherError.
Proof.
  induction n as [|n IH]; intros q st N; [reflexivity|]. cbn [parse_query]. destruct (unclosed_found q N) as (g & ms & E & G1 & G2 & G3). rewrite E.
  cbn [media_loop]. rewrite G1, G2, G3. cbn [segments]. set (t := takewhile not_blank q).
  assert (R : parse_query n (40 :: t) st = Err OtherError) by (apply IH; intros I; apply N; exact (take_in _ _ _ I)).
  destruct (negb (existsb is_space (40 :: t))); [exact R|]. cbn [takewhile]. change (not_space 40) with true. cbv iota. set (z := takewhile not_space t).
  change (text_eqb (40 :: z) (lit "only")) with false. change (text_eqb (40 :: z) (lit "not")) with false. change (text_eqb (40 :: z) (lit "and")) with false.
  change (text_eqb (40 :: z) (lit "or")) with false. exact R.
Qed.
Lemma lower_in : forall x t, is_low x = false -> In x (lower t) -> In x t.
Proof.
  intros x t L I. unfold lower in I. apply in_map_iff in I as (d & E & I). destruct (is_up d) eqn:U; [pose proof (to_low_up d U) as H; rewrite E in H; congruence|].
  rewrite (to_low_id d U) in E. subst d. exact I.
Qed.
Lemma parse_unclosed : forall a q, forallb is_space a = true -> ~ In 41 q -> ~ In 44 q -> parse (a ++ 40 :: q) = Err OtherError.
Proof.
  intros a q A N1 N2. rewrite parse_split. rewrite lower_app. change (lower (40 :: q)) with (40 :: lower q).
  assert (La : forallb is_space (lower a) = true).
  { apply forallb_forall. intros c I. unfold lower in I. apply in_map_iff in I as (d & <- & I). rewrite is_space_low. rewrite forallb_forall in A. exact (A d I). }
  assert (S1 : split_on 44 (lower a ++ 40 :: lower q) = [lower a ++ 40 :: lower q]).
  { apply split_on_single. rewrite forallb_app, (space_not_comma _ La). cbn [forallb andb]. apply forallb_forall. intros x I. destruct (N.eqb_spec 44 x) as [E|]; [|reflexivity].
    subst x. destruct N2. apply (lower_in 44 q eq_refl I). }
  rewrite S1. cbn [parse_list]. rewrite strip_left by exact La.
  assert (X : exists q', strip (40 :: lower q) = 40 :: q' /\ ~ In 41 q').
  { unfold strip. cbn [dropwhile]. change (is_space 40) with false. cbv iota. destruct (rdropwhile_split is_space (40 :: lower q)) as (b & E & Fb).
    destruct (rdropwhile is_space (40 :: lower q)) as [|c r].
    - cbn [app] in E. subst b. discriminate Fb.
    - injection E as <- E. exists r. split; [reflexivity|]. intros I. apply N1. apply (lower_in 41 q eq_refl). rewrite E. apply in_or_app. left. exact I. }
  destruct X as (q' & -> & Nq). rewrite (unclosed_loops _ q' no_node Nq). reflexivity.
Qed.
