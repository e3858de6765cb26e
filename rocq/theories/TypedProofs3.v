(** Parsing as a whole, and what supports says (C67). *)
From Coq Require Import ZArith NArith List Lia.
From Verif Require Import PyBase PyText PySplit PyDict PyCase DatasetModel DatasetProofs SupportModel SupportTable ShortModel ShortSpec ShortProofs ShortProofs2 TypedTable TypedModel TypedSpec TypedProofs TypedProofs2.
#[local] Open Scope N_scope.
Import ListNotations.

Definition finish (name t : text) (raw : list tvalue) : list tvalue :=
  match map (set_assoc name) raw with [v] => [set_css t v] | vs => vs end.
Lemma finish_spec name t raw vs : finish name t raw = vs <-> finished name t raw vs.
Proof.
  unfold finished. split.
  - intros <-. unfold finish. destruct raw as [|r [|r' raw]]; cbn [map].
    + split; [reflexivity|]. intros i v r H. destruct i; discriminate.
    + split; [reflexivity|]. intros i v x H H'. destruct i as [|[|i]]; try discriminate. injection H as <-. injection H' as <-. cbn. auto.
    + split; [cbn; now rewrite map_length|]. intros i v x H H'. change (nth_error (map (set_assoc name) (r :: r' :: raw)) i = Some v) in H. rewrite nth_error_map, H' in H. injection H as <-. cbn. auto.
  - intros [LEN H].
    assert (X : forall (m vs : list tvalue), length vs = length m -> (forall i v r, nth_error vs i = Some v -> nth_error m i = Some r -> v = r) -> m = vs).
    { clear. induction m as [|a m IH]; intros [|b vs] E H; try discriminate; [reflexivity|]. f_equal; [symmetry; now apply (H 0%nat)|]. apply IH; [now injection E|]. intros i. apply (H (S i)). }
    apply X.
    + rewrite LEN. unfold finish. destruct raw as [|r [|r' raw]]; cbn; try reflexivity. now rewrite map_length.
    + intros i v r Hv Hr. unfold finish in Hr. destruct raw as [|r0 [|r1 raw]].
      * destruct i; discriminate.
      * cbn [map] in Hr. destruct i as [|[|i]]; try discriminate. injection Hr as <-. destruct (H 0%nat v r0 Hv eq_refl) as (A & B & C & D). destruct v. cbn in *. unfold set_css, set_assoc. cbn. congruence.
      * change (nth_error (map (set_assoc name) (r0 :: r1 :: raw)) i = Some r) in Hr. rewrite nth_error_map in Hr. destruct (nth_error (r0 :: r1 :: raw) i) as [x|] eqn:E; [|discriminate]. injection Hr as <-.
        destruct (H i v x Hv E) as (A & B & C & D). destruct v. cbn in *. unfold set_assoc. congruence.
Qed.
Lemma custom_spec n : custom n = true <-> firstn 2 n = lit "--".
Proof. unfold custom. destruct (text_eqb_spec (firstn 2 n) (lit "--")); split; congruence. Qed.
Lemma typed_text_spec reg name t : (has_var t || (custom name && negb (mem name reg)))%bool = false <-> typed_text reg name t.
Proof.
  unfold typed_text. rewrite orb_false_iff, andb_false_iff, negb_false_iff, mem_in, <- has_var_spec, <- custom_spec. destruct (has_var t), (custom name); intuition congruence.
Qed.
Definition describe (table : dict descr) (name : text) : descr := match dget table name with Some d => d | None => descriptor ANY end.
Lemma describe_spec table name d : describes table name d <-> describe table name = d.
Proof. unfold describes, describe. destruct (dget table name); change (descriptor (lit "*")) with (descriptor ANY); intuition congruence. Qed.
Definition raw_values (L : lib) (d : descr) (name t : text) : result (list tvalue) :=
  if mem name single_multi_valued_properties then do ss <- check_all L d (ltokens L t); reify_all L name [[(t, whole_type ss)]]
  else do gs <- groups L d (ltokens L t) []; reify_all L name gs.
Definition alone (ts : list token) : bool := negb (Nat.ltb 0 (wides ts) && Nat.ltb 1 (length ts)).
Lemma parse_all_typed L table reg name t : typed_text reg (key name) (fold_keyword t) ->
  parse_all L table reg name t =
  (do raw <- raw_values L (describe table (key name)) (key name) (fold_keyword t);
   if alone (ltokens L (fold_keyword t)) then Ok (finish (key name) (fold_keyword t) raw) else Err ValueError).
Proof.
  intros H. apply typed_text_spec in H. unfold parse_all. cbv zeta. rewrite H. unfold raw_values, describe, alone, finish.
  destruct (mem (key name) single_multi_valued_properties).
  - destruct (check_all _ _ _) as [ss|e]; cbn [bind]; [|reflexivity]. unfold whole_type. destruct (reify_all _ _ _) as [a|]; cbn [bind]; [|reflexivity]. destruct (Nat.ltb 0 _ && Nat.ltb 1 _)%bool; cbn [bind negb]; [reflexivity|]. destruct (map (set_assoc (key name)) a) as [|? [|? ?]]; reflexivity.
  - destruct (groups _ _ _ _) as [ss|e]; cbn [bind]; [|reflexivity]. destruct (reify_all _ _ _) as [a|]; cbn [bind]; [|reflexivity]. destruct (Nat.ltb 0 _ && Nat.ltb 1 _)%bool; cbn [bind negb]; [reflexivity|]. destruct (map (set_assoc (key name)) a) as [|? [|? ?]]; reflexivity.
Qed.
Lemma keyword_token_spec t : wide_token (fst t) = true <-> keyword_token t.
Proof. unfold keyword_token. destruct (fst t); cbn; try (split; [discriminate|contradiction]). apply wide_mem. Qed.
Lemma alone_spec ts : alone ts = true <-> (Exists keyword_token ts -> length ts = 1%nat).
Proof.
  unfold alone, wides. rewrite negb_true_iff, andb_false_iff, !Nat.ltb_ge.
  assert (X : Exists keyword_token ts <-> (0 < length (filter (fun p => wide_token (fst p)) ts))%nat).
  { rewrite Exists_exists. split.
    - intros (t & I0 & K). apply keyword_token_spec in K. assert (J : In t (filter (fun p => wide_token (fst p)) ts)) by (apply filter_In; auto). unfold token in *. destruct (filter (fun p : stok * text => wide_token (fst p)) ts); [contradiction|cbn; lia].
    - intros H. unfold token in *. destruct (filter (fun p : stok * text => wide_token (fst p)) ts) as [|t l] eqn:E; [cbn in H; lia|]. assert (J : In t (filter (fun p => wide_token (fst p)) ts)) by (rewrite E; now left). apply filter_In in J as [A B]. exists t. split; [exact A|now apply keyword_token_spec]. }
  rewrite X. assert (Y : (length (filter (fun p : token => wide_token (fst p)) ts) <= length ts)%nat) by (clear; induction ts as [|t r IH]; cbn; [lia|]; destruct (wide_token (fst t)); cbn; lia). unfold token in *. lia.
Qed.
Lemma noncomma_spec t : noncomma t = negb (comma (fst t)).
Proof. unfold noncomma. destruct (fst t); reflexivity. Qed.
Lemma check_all_spec L d ts ss : check_all L d ts = Ok ss <-> Forall2 (accepted_as L d) (filter noncomma ts) ss.
Proof.
  revert ss. induction ts as [|[k x] r IH]; intros ss; cbn [check_all filter].
  - split; [intros [= <-]; constructor|intros H; now inversion H].
  - rewrite noncomma_spec. cbn [fst]. destruct (comma k); cbn [negb]; [apply IH|]. destruct (checked L d k) as [s|e] eqn:C; cbn [bind].
    + change k with (fst (k, x)) in C. apply checked_spec in C. destruct (check_all L d r) as [rest|e]; cbn [bind].
      * split; [intros [= <-]; constructor; [exact C|now apply IH]|]. intros H. inversion H as [|? s' ? rest' A F]; subst. apply IH in F. unfold accepted_as in *. congruence.
      * split; [discriminate|]. intros H. inversion H as [|? s' ? rest' A F]; subst. apply IH in F. discriminate.
    + split; [discriminate|]. intros H. inversion H as [|? s' ? rest' A F]; subst. apply checked_spec in A. cbn [fst] in A. congruence.
Qed.
Lemma raw_whole L d name t raw : In name single_multi_valued_properties -> fold_keyword t = t ->
  raw_values L d name t = Ok raw <-> exists syns v, Forall2 (accepted_as L d) (filter noncomma (ltokens L t)) syns /\ raw = [v] /\ good L name [whole_type syns] t v.
Proof.
  intros S0 FT. unfold raw_values. apply mem_in in S0. rewrite S0. split.
  - destruct (check_all L d (ltokens L t)) as [ss|e] eqn:C; cbn [bind]; [|discriminate]. apply check_all_spec in C. intros H. apply reify_all_spec in H.
    inversion H as [|? v ? l R F]; subst. inversion F; subst. exists ss, v. split; [exact C|]. split; [reflexivity|]. apply reify_spec in R. cbn in R. now rewrite FT in R.
  - intros (syns & v & F & -> & G). apply check_all_spec in F. rewrite F. cbn [bind]. apply reify_all_spec. constructor; [|constructor]. apply reify_spec. cbn. now rewrite FT.
Qed.
Lemma raw_list L d name t pieces raw : ~ In name single_multi_valued_properties -> between (ltokens L t) pieces ->
  raw_values L d name t = Ok raw <-> Forall2 (represents L name d) pieces raw.
Proof. intros S0 B. apply mem_false in S0. unfold raw_values. rewrite S0. now apply list_values. Qed.

(** ** What supports says *)
Lemma accepted_scan L d ts : (forall t, In t ts -> ~ is_comma t) -> forall n,
  (exists ss, Forall2 (accepted_as L d) ts ss) <-> exists m, scan_tokens (lcolor L) d (map fst ts) n = Ok (Some m).
Proof.
  induction ts as [|[k x] r IH]; intros C n; cbn [map scan_tokens fst].
  - split; [eauto|]. intros _. exists []. constructor.
  - assert (K : comma k = false) by (apply (not_comma (k, x)), C; now left). rewrite K.
    assert (C' : forall t, In t r -> ~ is_comma t) by (intros t I0; apply C; now right).
    destruct (wide_token k) eqn:W.
    + rewrite <- (IH C' (S n)). assert (A : support (lcolor L) d k = Ok (true, None)).
      { destruct k; try discriminate W. cbn [wide_token] in W. cbn [support]. now rewrite W. }
      split; [intros [ss F]; inversion F; subst; eauto|]. intros [ss F]. exists (None :: ss). now constructor.
    + destruct (support (lcolor L) d k) as [[b o]|e] eqn:S0; cbn [bind fst].
      * destruct b.
        -- rewrite <- (IH C' n). split; [intros [ss F]; inversion F; subst; eauto|]. intros [ss F]. exists (o :: ss). now constructor.
        -- split; [intros [ss F]|intros [m H]; discriminate]. inversion F as [|? ? ? ? A]; subst. unfold accepted_as in A. cbn [fst] in A. congruence.
      * split; [intros [ss F]|intros [m H]; discriminate]. inversion F as [|? ? ? ? A]; subst. unfold accepted_as in A. cbn [fst] in A. congruence.
Qed.
Lemma scan_count cw d ts : forall n m, scan_tokens cw d (map fst ts) n = Ok (Some m) -> (forall t, In t ts -> ~ is_comma t) -> m = (n + wides ts)%nat.
Proof.
  unfold wides. induction ts as [|[k x] r IH]; intros n m H C; cbn [map scan_tokens fst filter length] in *; [injection H as <-; lia|].
  assert (K : comma k = false) by (apply (not_comma (k, x)), C; now left). rewrite K in H.
  assert (C' : forall t, In t r -> ~ is_comma t) by (intros t I0; apply C; now right).
  destruct (wide_token k).
  - apply IH in H; [cbn [length]; lia|exact C'].
  - destruct (support cw d k) as [[[] o]|e]; cbn [bind fst] in H; try discriminate. now apply IH in H.
Qed.
Lemma supports_iff L d ts : (forall t, In t ts -> ~ is_comma t) ->
  supports (lcolor L) d (map fst ts) = Ok true <-> (exists ss, Forall2 (accepted_as L d) ts ss) /\ alone ts = true.
Proof.
  intros C. rewrite (accepted_scan L d ts C 0). unfold supports, alone. split.
  - destruct (scan_tokens (lcolor L) d (map fst ts) 0) as [[m|]|e] eqn:E; cbn [bind]; try discriminate. intros H. split; [eauto|].
    apply scan_count in E; [|exact C]. cbn in E. subst m. rewrite map_length in H. now injection H.
  - intros [[m H] A]. rewrite H. cbn [bind]. apply scan_count in H; [|exact C]. cbn in H. subst m. rewrite map_length. f_equal. exact A.
Qed.
Lemma filter_all (ts : list token) : (forall t, In t ts -> ~ is_comma t) -> filter noncomma ts = ts.
Proof. induction ts as [|t r IH]; intros C; cbn; [reflexivity|]. rewrite noncomma_spec. assert (K := proj2 (not_comma t) (C t (or_introl eq_refl))). rewrite K. cbn. f_equal. apply IH. intros x I0. apply C. now right. Qed.
Lemma accepted_total L d : forall t ts, In t ts -> forall ss, Forall2 (accepted_as L d) ts ss -> exists s, accepted_as L d t s.
Proof. intros t ts I0 ss F. induction F; [contradiction|]. destruct I0 as [->|I0]; eauto. Qed.

(* the types support may name *)
Lemma when_some d ks k o s : when d ks k o = Ok (true, Some s) -> (flags d ks = Ok true /\ s = k) \/ o = Ok (true, Some s).
Proof. unfold when. destruct (flags d ks) as [[]|e]; cbn [bind]; [|auto|discriminate]. intros [= <-]. auto. Qed.
Lemma flags_get d ks : flags d ks = Ok true -> exists k, In k ks /\ dget (d_components d) k = Some true.
Proof.
  induction ks as [|k r IH]; cbn [flags]; [discriminate|]. unfold flag. destruct (dget (d_components d) k) as [b|] eqn:E; cbn [bind]; [|discriminate].
  destruct b; [intros _; exists k; split; [now left|exact E]|]. intros H. destruct (IH H) as (x & I0 & G). exists x. split; [now right|exact G].
Qed.
Definition transforms (d : descr) : bool := existsb (fun k => match dget (d_components d) k with Some b => b | None => false end) [ANY; TRANSFORM_FUNCTION; TRANSFORM_LIST].
Lemma support_types cw d k s : support cw d k = Ok (true, Some s) -> transforms d = false ->
  In s (map lit ["<color>"; "<custom-ident>"; "<image>"; "<url>"]%string) \/ In s numbers.
Proof.
  intros H T.
  assert (NT : forall ks, (forall x, In x ks -> In x [ANY; TRANSFORM_FUNCTION; TRANSFORM_LIST]) -> flags d ks = Ok true -> False).
  { intros ks I0 F. apply flags_get in F as (x & J & G). unfold transforms in T. apply I0 in J. assert (E : existsb (fun k => match dget (d_components d) k with Some b => b | None => false end) [ANY; TRANSFORM_FUNCTION; TRANSFORM_LIST] = true) by (apply existsb_exists; exists x; rewrite G; auto). congruence. }
  unfold no, yes in *. destruct k; cbn [support] in H;
    repeat match type of H with
    | (if ?b then _ else _) = _ => destruct b
    | bind ?r _ = _ => let E := fresh "E" in destruct r eqn:E; cbn [bind] in H; try discriminate H
    | when _ _ _ _ = _ => apply when_some in H as [[? ->]|H]
    | no = _ => discriminate H
    | yes _ = _ => injection H as <-
    | Ok (_, _) = _ => try discriminate H; injection H as <-
    | Err _ = _ => discriminate H
    end;
    first [ left; cbn; tauto | right; cbn; tauto | exfalso; eapply NT; [|eassumption]; cbn; tauto ].
Qed.
Lemma table_transforms : forallb (fun p : text * descr => mem (fst p) keyword_properties || mem (fst p) plain_properties || negb (transforms (snd p))) css_property_descriptor_map = true.
Proof. vm_compute. reflexivity. Qed.
Lemma typed_some name syns : (forall s, In (Some s) syns -> In s (map lit ["<color>"; "<custom-ident>"; "<image>"; "<url>"]%string) \/ In s numbers) -> exists k, typed name syns k.
Proof.
  intros H. destruct syns as [|s r].
  - assert (M : forall s, ~ same_type [] s) by (intros s [X _]; now apply X). destruct (mem name (map lit ["text-indent"; "vertical-align"]%string)) eqn:E; [apply mem_in in E|apply mem_false in E]; eauto using t_mixed, t_mixed_word.
  - destruct (forallb (fun p => opt_eqb p s) r) eqn:F.
    + assert (S0 : same_type (s :: r) s) by (split; [discriminate|]; rewrite forallb_forall in F; intros x [->|I0]; [reflexivity|now apply opt_eqb_spec, F]). destruct s as [s|].
      * destruct (H s (or_introl eq_refl)) as [I0|I0]; [|eauto using t_number]. cbn in I0. destruct I0 as [<-|[<-|[<-|[<-|[]]]]]; [exists VStyle; now apply t_color|exists VKeyword; now apply t_ident|exists VImage; now apply t_image|exists VUrl; now apply t_url].
      * destruct (mem name (map lit ["height"; "width"]%string)) eqn:E; [apply mem_in in E|apply mem_false in E]; eauto using t_size, t_unknown.
    + assert (M : forall x, ~ same_type (s :: r) x).
      { intros x [_ X]. assert (forallb (fun p => opt_eqb p s) r = true); [|congruence]. apply forallb_forall. intros p I0. apply opt_eqb_spec. rewrite (X p) by now right. rewrite (X s) by now left. reflexivity. }
      destruct (mem name (map lit ["text-indent"; "vertical-align"]%string)) eqn:E; [apply mem_in in E|apply mem_false in E]; eauto using t_mixed, t_mixed_word.
Qed.
Lemma class_some name syns t : (In name keyword_properties \/ In name plain_properties \/ forall s, In (Some s) syns -> In s (map lit ["<color>"; "<custom-ident>"; "<image>"; "<url>"]%string) \/ In s numbers) -> exists k, class name syns t k.
Proof.
  intros H. destruct (mem t wide_words) eqn:W; [apply mem_in in W; eauto using c_wide|apply mem_false in W].
  destruct (mem name keyword_properties) eqn:K; [apply mem_in in K; eauto using c_keyword|apply mem_false in K].
  destruct (mem name plain_properties) eqn:P; [apply mem_in in P; eauto using c_plain|apply mem_false in P].
  destruct H as [H|[H|H]]; try contradiction. destruct (typed_some name syns H) as [k T]. exists k. now apply c_typed.
Qed.
Lemma good_some L name syns t : t <> [] -> (forall x, lnumeric L x = None) -> (exists k, class name syns t k) -> exists v, good L name syns t v.
Proof.
  intros N0 NU [k C].
  assert (U : k <> VUnparsed) by (intros ->; inversion C; subst; match goal with T : typed _ _ VUnparsed |- _ => inversion T end).
  destruct k; try congruence.
  - exists (mkT VStyle t None None). unfold good. cbn. auto.
  - exists (mkT VKeyword t None None). unfold good. cbn. auto.
  - exists (mkT VImage t None None). unfold good. cbn. auto.
  - assert (E : exists y, url_value t = Ok y).
    { unfold url_value. assert (X : match url_inner t with Some r => r | None => t end <> []). { destruct (url_inner t) as [r|] eqn:E; [|exact N0]. unfold url_inner in E. destruct (_ && _)%bool; [|discriminate]. destruct (removelast (skipn 4 t)) as [|a l] eqn:Q; [discriminate|]. destruct (existsb _ _); [discriminate|]. injection E as <-. discriminate. }
      destruct (match url_inner t with Some r => r | None => t end) as [|c r]; [congruence|]. eauto. }
    destruct E as [y E]. exists (mkT VUrl y None None). unfold good. cbn. auto.
  - exists (mkT VNumeric t (Some t) None). unfold good. cbn. auto.
Qed.
