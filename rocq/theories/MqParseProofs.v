(** Reading media queries: features. *)
From Coq Require Import Lia.
From Verif Require Import PyBase PyText PySplit PyCase PyRegex PyRegexProofs PyDict MediaQueryModel MqParseModel MqParseSpec.
#[local] Open Scope N_scope.

(** ** Characters *)
Lemma word_facts : forall c, wordc c = true ->
  is_space c = false /\ is_up c = false /\ (c =? 40) = false /\ (c =? 41) = false /\ (c =? 44) = false /\ (c =? 58) = false /\
  (c =? 60) = false /\ (c =? 61) = false /\ (c =? 62) = false.
Proof.
  intros c H. unfold wordc in H. apply andb_prop in H as [H1 H3]. apply andb_prop in H1 as [H1 H2].
  apply negb_true_iff in H1, H2, H3. cbn [existsb] in H3. repeat (apply orb_false_iff in H3 as [? H3]). repeat split; assumption.
Qed.
Lemma not_space_facts : forall c, is_space c = false -> (c =? 32) = false /\ (c =? 10) = false /\ (c =? 9) = false.
Proof.
  intros c H. repeat split; apply N.eqb_neq; intros ->; discriminate H.
Qed.
Ltac classes H :=
  let S := fresh "Sp" in let S2 := fresh "Sp" in let S3 := fresh "Sp" in let S4 := fresh "Sp" in
  let A := fresh in let B := fresh in let C := fresh in let D := fresh in let E := fresh in let F := fresh in let G := fresh in let K := fresh in
  destruct (word_facts _ H) as (S & A & B & C & D & E & F & G & K); destruct (not_space_facts _ S) as (S2 & S3 & S4);
  unfold not_space, any, not_blank, range_left, range_right, is_open, is_close, is_angle;
  rewrite ?(N.eqb_sym 58), ?(N.eqb_sym 61), ?S, ?A, ?B, ?C, ?D, ?E, ?F, ?G, ?K, ?S2, ?S3, ?S4.
Ltac deadw :=
  split; [reflexivity|];
  cbn [first nullable RSeqs ROpt RAlts orb andb]; unfold ws, ws1, open_, close_, range_op, parens, ROpt in *; cbn [first nullable RSeqs orb andb];
  match goal with H : wordc _ = true |- _ => classes H end; cbn [orb andb negb]; try reflexivity.

Lemma sp_forall : forall (P : N -> Prop) k, P 32 -> Forall P (sp k).
Proof. intros P k H. unfold sp. induction k; cbn [repeat]; constructor; assumption. Qed.
Lemma word_forall : forall (P : N -> Prop) t, (forall c, wordc c = true -> P c) -> word t -> Forall P t.
Proof. intros P t H [_ F]. apply Forall_impl with (2 := F). exact H. Qed.
Lemma ends_word : forall p w s, (forall c, wordc c = true -> p c = false) -> word w -> ends p (w ++ s).
Proof. intros p [|c w] s H [N F]; [destruct (N eq_refl)|]. inversion F; subst. cbn [app ends]. apply H. assumption. Qed.
Lemma word_not_space : forall c, wordc c = true -> not_space c = true.
Proof. intros c H. classes H. reflexivity. Qed.
Lemma word_is_space : forall c, wordc c = true -> is_space c = false.
Proof. intros c H. classes H. reflexivity. Qed.
Lemma word_range_left : forall c, wordc c = true -> range_left c = true.
Proof. intros c H. classes H. reflexivity. Qed.
Lemma word_range_right : forall c, wordc c = true -> range_right c = true.
Proof. intros c H. classes H. reflexivity. Qed.
Lemma word_any : forall c, wordc c = true -> any c = true.
Proof. intros c H. classes H. reflexivity. Qed.
Lemma word_not_blank : forall c, wordc c = true -> not_blank c = true.
Proof. intros c H. classes H. reflexivity. Qed.
Lemma ends_sp : forall p k s, p 32 = false -> ends p s -> ends p (sp k ++ s).
Proof. intros p [|k] s H E; [exact E|]. exact H. Qed.
Lemma ends_sp1 : forall p k s, p 32 = false -> ends p (sp (S k) ++ s).
Proof. intros p k s H. exact H. Qed.

(** ** After a feature: nothing, or spaces and a letter of "and", "or" *)
Definition pause (P : N -> Prop) (s : text) : Prop := s = [] \/ exists k x y, s = sp (S k) ++ x :: y /\ P x.
Definition after : text -> Prop := pause (fun x => x = 97 \/ x = 111).
Lemma pause_ends : forall P s, pause P s -> ends not_space s.
Proof. intros P s [->|(k & x & y & -> & _)]; [exact Logic.I|reflexivity]. Qed.
Lemma pause_none : forall P b s, pause P s -> nullable b = false -> first b 32 = false -> (forall x, P x -> first b x = false /\ is_space x = false) ->
  re_match (RSeq (RStar is_space) b) s = None.
Proof.
  intros P b s [->|(k & x & y & -> & Hx)] N F H.
  - apply match_nil. cbn [nullable]. exact N.
  - destruct (H x Hx) as [Fx Sx]. rewrite (seq_star is_space b (sp (S k)) (x :: y)).
    + apply match_dead. split; assumption.
    + apply sp_forall. reflexivity.
    + exact Sx.
    + apply sp_forall. split; assumption.
Qed.
Lemma seq_spaces : forall b k s, nullable b = false -> first b 32 = false -> ends is_space s -> re_match (RSeq (RStar is_space) b) (sp k ++ s) = re_match b s.
Proof. intros b k s N F E. apply seq_star; [apply sp_forall; reflexivity|exact E|apply sp_forall; split; assumption]. Qed.
Lemma seq_spaces1 : forall b k s, nullable b = false -> first b 32 = false -> ends is_space s -> re_match (RSeq (RPlus is_space) b) (sp (S k) ++ s) = re_match b s.
Proof. intros b k s N F E. apply seq_plus; [discriminate|apply sp_forall; reflexivity|exact E|apply sp_forall; split; assumption]. Qed.
Lemma seq_space0 : forall b s, nullable b = false -> first b 32 = false -> ends is_space s -> re_match (RSeq (RStar is_space) b) s = re_match b s.
Proof. intros b s N F E. exact (seq_spaces b 0 s N F E). Qed.

(** ** ( n : v ) *)
Lemma value_close : forall g v d s, word v -> after s ->
  re_match (RSeq (RGrp g (RPlus not_space)) (RSeq (RStar is_space) (RChr is_close))) (v ++ sp d ++ 41 :: s) = Some (s, [(g, v)]).
Proof.
  intros g v d s V A. destruct d as [|d].
  - cbn [sp repeat app]. change (41 :: s) with (41 :: [] ++ s). rewrite (seq_grp_plus_mid g not_space _ v 41 [] s).
    + cbn [app]. rewrite (seq_space0 (RChr is_close)) by reflexivity. rewrite match_chr by reflexivity. reflexivity.
    + apply V.
    + apply (word_forall _ v word_not_space V).
    + reflexivity.
    + constructor.
    + apply (pause_ends _ s A).
    + apply (pause_none _ _ s A); [reflexivity|reflexivity|]. intros x [-> | ->]; split; reflexivity.
    + apply (word_forall _ v); [|exact V]. intros c W. deadw.
    + constructor.
  - rewrite (seq_grp_plus g not_space _ v (sp (S d) ++ 41 :: s)).
    + rewrite seq_spaces by reflexivity. rewrite match_chr by reflexivity. reflexivity.
    + apply V.
    + apply (word_forall _ v word_not_space V).
    + apply ends_sp1. reflexivity.
    + apply (word_forall _ v); [|exact V]. intros c W. deadw.
Qed.
(* a run of characters that are not spaces, up to the next space *)
Lemma value_run : forall c v d s, word v -> after s ->
  exists u s', sp c ++ v ++ sp d ++ 41 :: s = u ++ s' /\ Forall (fun x => wordc x = true \/ x = 41) u /\
    pause (fun x => wordc x = true \/ x = 41 \/ x = 97 \/ x = 111) s'.
Proof.
  intros c v d s V A. destruct c as [|c].
  - cbn [sp repeat app]. destruct d as [|d].
    + exists (v ++ [41]), s. rewrite <- app_assoc. split; [reflexivity|]. split.
      * apply Forall_app. split; [apply (word_forall _ v); [left; assumption|exact V]|constructor; [right; reflexivity|constructor]].
      * destruct A as [->|(k & x & y & -> & H)]; [left; reflexivity|right; exists k, x, y; split; [reflexivity|right; right; exact H]].
    + exists v, (sp (S d) ++ 41 :: s). split; [reflexivity|]. split; [apply (word_forall _ v); [left; assumption|exact V]|].
      right. exists d, 41, s. split; [reflexivity|right; left; reflexivity].
  - exists [], (sp (S c) ++ v ++ sp d ++ 41 :: s). split; [reflexivity|]. split; [constructor|]. right.
    destruct V as [N F]. destruct v as [|x v]; [destruct (N eq_refl)|]. exists c, x, (v ++ sp d ++ 41 :: s). split; [reflexivity|left; inversion F; assumption].
Qed.
Lemma plain_match : forall a n b c v d s, word n -> word v -> after s ->
  re_match re_mf_plain (feature_text (FPlain a n b c v d) ++ s) = Some (s, [(lit "mf_value", v); (lit "mf_name", n)]).
Proof.
  intros a n b c v d s Wn Wv A. unfold feature_text, inner. rewrite <- !app_assoc. cbn [app].
  unfold re_mf_plain, ws, open_, close_. cbn [RSeqs]. rewrite seq_chr by reflexivity.
  rewrite seq_spaces; [|reflexivity|reflexivity|apply ends_word; [exact word_is_space|exact Wn]].
  set (B := RSeq (RStar is_space) (RSeq (RChr (N.eqb 58)) _)).
  assert (X : re_match B (sp b ++ 58 :: sp c ++ v ++ sp d ++ 41 :: s) = Some (s, [(lit "mf_value", v)])).
  { unfold B. rewrite seq_spaces by reflexivity. rewrite seq_chr by reflexivity.
    rewrite seq_spaces; [|reflexivity|reflexivity|apply ends_word; [exact word_is_space|exact Wv]]. apply value_close; assumption. }
  assert (DB : forall x, wordc x = true -> dead B x) by (intros x W; unfold B; deadw).
  destruct b as [|b].
  - cbn [sp repeat app] in *. destruct (value_run c v d s Wv A) as (u & s' & E & Fu & Ps). unfold sp in E. cbn [repeat] in E. fold (sp c) (sp d) in *.
    rewrite E in *. rewrite (seq_grp_plus_mid (lit "mf_name") not_space B n 58 u s').
    + rewrite X. reflexivity.
    + apply Wn.
    + apply (word_forall _ n word_not_space Wn).
    + reflexivity.
    + apply Forall_impl with (2 := Fu). intros x [W | ->]; [apply word_not_space, W|reflexivity].
    + apply (pause_ends _ s' Ps).
    + unfold B. apply (pause_none _ _ s' Ps); [reflexivity|reflexivity|]. intros x [W|[-> | [-> | ->]]]; try (split; reflexivity).
      split; [|apply word_is_space, W]. cbn [first nullable andb]. classes W. reflexivity.
    + apply (word_forall _ n DB Wn).
    + apply Forall_impl with (2 := Fu). intros x [W | ->]; [apply DB, W|split; reflexivity].
  - rewrite (seq_grp_plus (lit "mf_name") not_space B n).
    + rewrite X. reflexivity.
    + apply Wn.
    + apply (word_forall _ n word_not_space Wn).
    + apply ends_sp1. reflexivity.
    + apply (word_forall _ n DB Wn).
Qed.

(** ** ( n ) *)
Definition plain_pattern := RSeqs [open_; ws; RPlus not_space; ws; RChr (N.eqb 58); ws; RPlus not_space; ws; close_].
Definition boolean_pattern := RSeqs [open_; ws; RPlus not_space; ws; close_].
Definition range_pattern := RSeqs [open_; ws; RPlus range_left; ws; range_op; ws; RPlus range_right; ws;
                                   ROpt (RSeqs [range_op; ws; RPlus range_right; ws]); close_].
Lemma plain_erase : plain_pattern = erase re_mf_plain. Proof. reflexivity. Qed.
Lemma range_erase : range_pattern = erase re_mf_range. Proof. reflexivity. Qed.
Lemma boolean_match : forall n s, word n -> after s -> re_match boolean_pattern (feature_text (FBool n) ++ s) = Some (s, []).
Proof.
  intros n s W A. unfold feature_text, inner. rewrite <- !app_assoc. cbn [app]. unfold boolean_pattern, ws, open_, close_. cbn [RSeqs].
  rewrite seq_chr by reflexivity. rewrite seq_space0; [|reflexivity|reflexivity|apply ends_word; [exact word_is_space|exact W]].
  change (41 :: s) with (41 :: [] ++ s). rewrite (seq_plus_mid not_space _ n 41 [] s).
  - cbn [app]. rewrite seq_space0 by reflexivity. apply match_chr. reflexivity.
  - apply W.
  - apply (word_forall _ n word_not_space W).
  - reflexivity.
  - constructor.
  - apply (pause_ends _ s A).
  - apply (pause_none _ _ s A); [reflexivity|reflexivity|]. intros x [-> | ->]; split; reflexivity.
  - apply (word_forall _ n); [|exact W]. intros c Wc. deadw.
  - constructor.
Qed.
Lemma boolean_not_plain : forall n s, word n -> after s -> re_match plain_pattern (feature_text (FBool n) ++ s) = None.
Proof.
  intros n s W A. unfold feature_text, inner. rewrite <- !app_assoc. cbn [app]. unfold plain_pattern, ws, open_, close_. cbn [RSeqs].
  rewrite seq_chr by reflexivity. rewrite seq_space0; [|reflexivity|reflexivity|apply ends_word; [exact word_is_space|exact W]].
  replace (n ++ 41 :: s) with ((n ++ [41]) ++ s) by (now rewrite <- app_assoc). apply seq_plus_none.
  - apply Forall_app. split; [apply (word_forall _ n word_not_space W)|constructor; [reflexivity|constructor]].
  - apply (pause_ends _ s A).
  - apply (pause_none _ _ s A); [reflexivity|reflexivity|]. intros x [-> | ->]; split; reflexivity.
  - apply Forall_app. split; [apply (word_forall _ n); [|exact W]; intros c Wc; deadw|constructor; [split; reflexivity|constructor]].
Qed.

(** ** ( l < r ) *)
Definition opc (x : N) : Prop := x = 60 \/ x = 61 \/ x = 62.
Lemma op_chars : forall o, o <> OpEq -> Forall opc (op_text o).
Proof. intros [] N; try (destruct (N eq_refl)); cbn [op_text]; unfold lit; cbn; repeat (apply Forall_cons; [unfold opc; auto|]); apply Forall_nil. Qed.
Lemma op_head : forall o, o <> OpEq -> exists x y, op_text o = x :: y /\ (x = 60 \/ x = 62).
Proof. intros [] N; try (destruct (N eq_refl)); eexists _, _; (split; [reflexivity|auto]). Qed.
Lemma range_run : forall l b o c z, word l -> o <> OpEq -> (0 < b + c)%nat -> (exists x y, z = x :: y /\ wordc x = true) ->
  exists u s', l ++ sp b ++ op_text o ++ sp c ++ z = u ++ s' /\ Forall (fun x => wordc x = true \/ opc x) u /\
    pause (fun x => wordc x = true \/ opc x) s'.
Proof.
  intros l b o c z W O L (x & y & -> & Wx). destruct b as [|b].
  - destruct c as [|c]; [cbn in L; lia|]. cbn [sp repeat app]. exists (l ++ op_text o), (sp (S c) ++ x :: y). rewrite <- app_assoc.
    split; [reflexivity|]. split.
    + apply Forall_app. split; [apply (word_forall _ l); [left; assumption|exact W]|]. apply Forall_impl with (2 := op_chars o O). intros; right; assumption.
    + right. exists c, x, y. split; [reflexivity|left; exact Wx].
  - exists l, (sp (S b) ++ op_text o ++ sp c ++ x :: y). split; [reflexivity|]. split; [apply (word_forall _ l); [left; assumption|exact W]|].
    right. destruct (op_head o O) as (p & q & E & H). rewrite E. exists b, p, (q ++ sp c ++ x :: y). split; [reflexivity|right].
    destruct H as [-> | ->]; unfold opc; auto.
Qed.
Definition run_pattern (b : re) := RSeqs [open_; ws; RPlus not_space; ws; b].
Lemma range_not_run : forall bb a l b o c z, nullable bb = false -> first bb 32 = false -> (forall x, wordc x = true \/ opc x -> first bb x = false) ->
  word l -> o <> OpEq -> (0 < b + c)%nat -> (exists x y, z = x :: y /\ wordc x = true) ->
  re_match (run_pattern bb) (40 :: sp a ++ l ++ sp b ++ op_text o ++ sp c ++ z) = None.
Proof.
  intros bb a l b o c z N F32 F W O L Z. unfold run_pattern, ws, open_. cbn [RSeqs].
  assert (SP : forall x, wordc x = true \/ opc x -> is_space x = false).
  { intros x [Wx|[-> |[-> | ->]]]; try reflexivity. apply word_is_space, Wx. }
  rewrite seq_chr by reflexivity. rewrite seq_spaces; [|reflexivity|reflexivity|apply ends_word; [exact word_is_space|exact W]].
  destruct (range_run l b o c z W O L Z) as (u & s' & E & Fu & Ps). rewrite E. apply seq_plus_none.
  - apply Forall_impl with (2 := Fu). intros x Hx. unfold not_space. rewrite (SP x Hx). reflexivity.
  - apply (pause_ends _ s' Ps).
  - apply (pause_none _ _ s' Ps); [exact N|exact F32|]. intros x Hx. split; [apply F, Hx|apply SP, Hx].
  - apply Forall_impl with (2 := Fu). intros x Hx. split; [cbn [nullable andb]; exact N|]. cbn [first nullable andb]. rewrite (SP x Hx), (F x Hx). reflexivity.
Qed.
Lemma word_head : forall t s, word t -> exists x y, t ++ s = x :: y /\ wordc x = true.
Proof. intros [|x t] s [N F]; [destruct (N eq_refl)|]. exists x, (t ++ s). split; [reflexivity|inversion F; assumption]. Qed.
Definition is_range (f : feature) : Prop := match f with FRange _ _ _ _ _ _ _ | FRange2 _ _ _ _ _ _ _ _ _ _ _ => True | _ => False end.
Lemma range_not_plain : forall f s, is_range f -> good_feature f -> re_match plain_pattern (feature_text f ++ s) = None /\ re_match boolean_pattern (feature_text f ++ s) = None.
Proof.
  assert (K : forall a l b o c z, word l -> o <> OpEq -> (0 < b + c)%nat -> (exists x y, z = x :: y /\ wordc x = true) ->
    re_match plain_pattern (40 :: sp a ++ l ++ sp b ++ op_text o ++ sp c ++ z) = None /\ re_match boolean_pattern (40 :: sp a ++ l ++ sp b ++ op_text o ++ sp c ++ z) = None).
  { intros a l b o c z W O L Z. split.
    - apply (range_not_run (RSeqs [RChr (N.eqb 58); ws; RPlus not_space; ws; close_]) a l b o c z); try assumption; try reflexivity.
      intros x [Wx|[-> |[-> | ->]]]; try reflexivity. cbn [first nullable RSeqs andb]. classes Wx. reflexivity.
    - apply (range_not_run (RChr is_close) a l b o c z); try assumption; try reflexivity.
      intros x [Wx|[-> |[-> | ->]]]; try reflexivity. cbn [first]. classes Wx. reflexivity. }
  intros f s R G. destruct f as [|?|a l b o c r d|a l b o c r b2 o2 c2 r2 d]; try contradiction; cbn [good_feature] in G; unfold feature_text, inner; rewrite <- !app_assoc; cbn [app].
  - destruct G as (Wl & Wr & O & L). apply K; try assumption. apply word_head, Wr.
  - destruct G as (Wl & Wr & Wr2 & O & O2 & L). apply K; try assumption. apply word_head, Wr.
Qed.

Lemma op_group : forall n o s, o <> OpEq -> ends (N.eqb 61) s -> re_match (RGrp n range_op) (op_text o ++ s) = Some (s, [(n, op_text o)]).
Proof.
  intros n o s O E. rewrite match_grp.
  assert (X : re_match range_op (op_text o ++ s) = Some (s, [])).
  { unfold range_op. destruct (op_head o O) as (x & y & Ex & Hx). assert (A : is_angle x = true) by (destruct Hx as [-> | ->]; reflexivity).
    rewrite Ex. cbn [app]. rewrite seq_chr by exact A. unfold ROpt. rewrite match_alt.
    destruct o; try (destruct (O eq_refl)); injection Ex as <- <-; cbn [app].
    - destruct s as [|z s]; [reflexivity|]. cbn [ends] in E. rewrite match_dead by (split; [reflexivity|exact E]). reflexivity.
    - rewrite match_chr by reflexivity. reflexivity.
    - destruct s as [|z s]; [reflexivity|]. cbn [ends] in E. rewrite match_dead by (split; [reflexivity|exact E]). reflexivity.
    - rewrite match_chr by reflexivity. reflexivity. }
  rewrite X. cbn [option_map fst snd]. rewrite upto_app. reflexivity.
Qed.
Lemma seq_op : forall n o b s r, o <> OpEq -> ends (N.eqb 61) s -> re_match b s = Some r ->
  re_match (RSeq (RGrp n range_op) b) (op_text o ++ s) = Some (add_caps [(n, op_text o)] r).
Proof. intros n o b s r O E B. exact (seq_hd _ _ _ _ _ (op_group n o s O E) B). Qed.
Lemma ends_eq : forall k w s, word w -> ends (N.eqb 61) (sp k ++ w ++ s).
Proof. intros k w s W. apply ends_sp; [reflexivity|]. apply ends_word; [|exact W]. intros c Wc. classes Wc. reflexivity. Qed.
Lemma ends_angle_space : forall o s, o <> OpEq -> ends is_space (op_text o ++ s).
Proof. intros o s O. destruct (op_head o O) as (x & y & E & [-> | ->]); rewrite E; reflexivity. Qed.
Lemma ends_sp_right : forall k o s, o <> OpEq -> ends range_right (sp k ++ op_text o ++ s).
Proof. intros k o s O. apply ends_sp; [reflexivity|]. destruct (op_head o O) as (x & y & E & [-> | ->]); rewrite E; reflexivity. Qed.
Lemma ends_sp_left : forall k o s, o <> OpEq -> ends range_left (sp k ++ op_text o ++ s).
Proof. intros k o s O. apply ends_sp; [reflexivity|]. destruct (op_head o O) as (x & y & E & [-> | ->]); rewrite E; reflexivity. Qed.

(* what follows the operator *)
Definition range_caps (f : feature) : caps :=
  match f with
  | FRange _ l _ o _ r _ => [(lit "right", r); (lit "op", op_text o); (lit "left", l)]
  | FRange2 _ l _ o _ r _ o2 _ r2 _ => [(lit "right2", r2); (lit "op2", op_text o2); (lit "right", r); (lit "op", op_text o); (lit "left", l)]
  | _ => []
  end.
Lemma range_match : forall f s, is_range f -> good_feature f -> re_match re_mf_range (feature_text f ++ s) = Some (s, range_caps f).
Proof.
  intros f s R G.
  set (T := RSeq (RStar is_space) (RSeq (ROpt (RSeqs [RGrp (lit "op2") range_op; RStar is_space; RGrp (lit "right2") (RPlus range_right); RStar is_space])) (RChr is_close))).
  assert (DT : forall x, wordc x = true -> dead T x) by (intros x W; unfold T; deadw).
  assert (K : forall a l b o c r z w, word l -> word r -> o <> OpEq -> ends range_right z -> re_match T z = Some (s, w) ->
    re_match re_mf_range (40 :: sp a ++ l ++ sp b ++ op_text o ++ sp c ++ r ++ z) = Some (s, w ++ [(lit "right", r); (lit "op", op_text o); (lit "left", l)])).
  { intros a l b o c r z w Wl Wr O Ez Tz. unfold re_mf_range, ws, open_, close_. cbn [RSeqs]. rewrite seq_chr by reflexivity.
    rewrite seq_spaces; [|reflexivity|reflexivity|apply ends_word; [exact word_is_space|exact Wl]].
    rewrite (seq_grp_plus (lit "left") range_left _ l).
    - rewrite seq_spaces; [|reflexivity|reflexivity|apply ends_angle_space, O].
      rewrite (seq_op (lit "op") o _ _ (s, w ++ [(lit "right", r)]) O (ends_eq c r z Wr)).
      + cbn [add_to option_map add_caps fst snd]. unfold add_caps. cbn [fst snd]. rewrite <- !app_assoc. reflexivity.
      + rewrite seq_spaces; [|reflexivity|reflexivity|apply ends_word; [exact word_is_space|exact Wr]].
        rewrite (seq_grp_plus (lit "right") range_right _ r).
        * fold T. change (RSeq (RStar is_space) (RSeq (ROpt (RSeq (RGrp (lit "op2") range_op) (RSeq (RStar is_space) (RSeq (RGrp (lit "right2") (RPlus range_right)) (RStar is_space))))) (RChr is_close))) with T.
          rewrite Tz. reflexivity.
        * apply Wr.
        * apply (word_forall _ r word_range_right Wr).
        * exact Ez.
        * apply (word_forall _ r DT Wr).
    - apply Wl.
    - apply (word_forall _ l word_range_left Wl).
    - apply ends_sp_left, O.
    - apply (word_forall _ l); [|exact Wl]. intros x W. deadw. }
  destruct f as [|?|a l b o c r d|a l b o c r b2 o2 c2 r2 d]; try contradiction; cbn [good_feature] in G; unfold feature_text, inner, range_caps; rewrite <- !app_assoc; cbn [app].
  - destruct G as (Wl & Wr & O & L). rewrite (K a l b o c r (sp d ++ 41 :: s) []); try assumption; [reflexivity|apply ends_sp; reflexivity|].
    unfold T. rewrite seq_spaces by reflexivity. unfold ROpt. rewrite match_alt_seq. rewrite match_dead by (split; reflexivity). rewrite seq_eps. apply match_chr. reflexivity.
  - destruct G as (Wl & Wr & Wr2 & O & O2 & L).
    rewrite (K a l b o c r (sp b2 ++ op_text o2 ++ sp c2 ++ r2 ++ sp d ++ 41 :: s) [(lit "right2", r2); (lit "op2", op_text o2)]); try assumption; [reflexivity|apply ends_sp_right, O2|].
    unfold T. rewrite seq_spaces; [|reflexivity|reflexivity|apply ends_angle_space, O2]. unfold ROpt. rewrite match_alt_seq. cbn [RSeqs]. rewrite match_assoc.
    rewrite (seq_op (lit "op2") o2 _ _ (s, [(lit "right2", r2)]) O2 (ends_eq c2 r2 _ Wr2)); [reflexivity|].
    rewrite match_assoc. rewrite seq_spaces; [|reflexivity|reflexivity|apply ends_word; [exact word_is_space|exact Wr2]]. rewrite match_assoc.
    rewrite (seq_grp_plus (lit "right2") range_right _ r2).
    + rewrite seq_spaces by reflexivity. rewrite match_chr by reflexivity. reflexivity.
    + apply Wr2.
    + apply (word_forall _ r2 word_range_right Wr2).
    + apply ends_sp; reflexivity.
    + apply (word_forall _ r2); [|exact Wr2]. intros x W. deadw.
Qed.
