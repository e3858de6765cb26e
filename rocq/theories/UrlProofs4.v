From Coq Require Import Sorted.
From Verif Require Import PyBase PyText PyCase PyDict PySplit PyStrip UrlModel UrlSpec UrlProofs UrlProofs2 UrlProofs3.
#[local] Open Scope N_scope.
Ltac euclid := zify; Z.to_euclidean_division_equations; lia.

(** ** The decoder of the examples *)
Lemma unhex_hexdigit d : d < 16 -> unhex (hexdigit d) = d.
Proof. intros H. unfold unhex, hexdigit. destruct (N.ltb_spec d 10); [destruct (N.ltb_spec (48 + d) 58); lia|]. destruct (N.ltb_spec d 16); [|lia]. destruct (N.ltb_spec (55 + d) 58); lia. Qed.
Lemma byte_at_percent b r : b < 256 -> byte_at (percent b ++ r) = Some (b, r).
Proof.
  intros H. cbn [percent app byte_at]. rewrite !unhex_hexdigit; [|apply N.mod_lt; discriminate|apply N.div_lt_upper_bound; [discriminate|exact H]].
  f_equal. f_equal. pose proof (N.div_mod b 16 ltac:(discriminate)). lia.
Qed.
Lemma more_byte n b r : b < 256 -> more n (byte_at (percent b ++ r)) = Some (64 * n + (b - 128), r).
Proof. intros H. rewrite byte_at_percent by exact H. reflexivity. Qed.
Lemma char_at_utf8 c r : c < 1114112 -> char_at (flat_map percent (utf8 c) ++ r) = Some (c, r).
Proof.
  intros H. unfold utf8. destruct (N.ltb_spec c 128) as [A|A].
  - cbn [flat_map]. rewrite <- !app_assoc. cbn [app]. unfold char_at. rewrite byte_at_percent by lia. destruct (N.ltb_spec c 128); [reflexivity|lia].
  - destruct (N.ltb_spec c 2048) as [B|B]; [|destruct (N.ltb_spec c 65536) as [C|C]]; cbn [flat_map]; rewrite <- !app_assoc; rewrite app_nil_l; unfold char_at.
    + rewrite byte_at_percent by euclid. destruct (N.ltb_spec (192 + c / 64) 128); [euclid|]. destruct (N.ltb_spec (192 + c / 64) 224); [|euclid].
      rewrite more_byte by euclid. do 2 f_equal. euclid.
    + rewrite byte_at_percent by euclid. destruct (N.ltb_spec (224 + c / 4096) 128); [euclid|]. destruct (N.ltb_spec (224 + c / 4096) 224); [euclid|]. destruct (N.ltb_spec (224 + c / 4096) 240); [|euclid].
      rewrite !more_byte by euclid. do 2 f_equal. euclid.
    + rewrite byte_at_percent by euclid. destruct (N.ltb_spec (240 + c / 262144) 128); [euclid|]. destruct (N.ltb_spec (240 + c / 262144) 224); [euclid|]. destruct (N.ltb_spec (240 + c / 262144) 240); [euclid|].
      rewrite !more_byte by euclid. do 2 f_equal. euclid.
Qed.
Lemma char_at_plain c r : c <> 37 -> char_at (c :: r) = None.
Proof. intros H. unfold char_at, byte_at. destruct c as [|q]; [reflexivity|]. do 6 (destruct q as [q|q|]; try reflexivity). contradiction. Qed.
Lemma decode_quote safe t : ~ In 37 safe -> unicode t -> forall f, (length (quote safe t) <= f)%nat -> decode f (quote safe t) = t.
Proof.
  intros S. induction t as [|c t IH]; intros U f F; [destruct f; reflexivity|]. inversion_clear U as [|? ? C U']. rewrite quote_cons, app_length in *.
  unfold quote_char in *. destruct (safe_char safe c) eqn:E.
  - destruct f as [|f]; [cbn in F; lia|]. cbn [app decode]. rewrite char_at_plain; [f_equal; apply IH; [exact U'|cbn in F; lia]|]. intros ->. unfold safe_char in E. apply is_in_not in S. now rewrite S in E.
  - pose proof (utf8_nonempty c) as N. assert (L : (1 <= length (flat_map percent (utf8 c)))%nat) by (destruct (utf8 c); [contradiction|cbn; lia]). destruct f as [|f]; [lia|]. cbn [decode].
    rewrite char_at_utf8 by exact C. destruct (N.ltb_spec c 1114112); [|lia]. f_equal. apply IH; [exact U'|lia].
Qed.
Lemma char_at_sub t c r : char_at t = Some (c, r) -> unicode t -> unicode r.
Proof.
  assert (B : forall t b r, byte_at t = Some (b, r) -> unicode t -> unicode r).
  { clear. intros t b r. unfold byte_at. destruct t as [|x t]; [discriminate|]. destruct x as [|q]; [discriminate|]. do 6 (destruct q as [q|q|]; try discriminate).
    destruct t as [|y [|z t]]; try discriminate. intros [= _ <-] U. inversion_clear U as [|? ? _ U1]. inversion_clear U1 as [|? ? _ U2]. now inversion_clear U2. }
  assert (M : forall n t c r, more n (byte_at t) = Some (c, r) -> unicode t -> unicode r).
  { intros n x c' r' H. unfold more in H. destruct (byte_at x) as [[b y]|] eqn:E; [|discriminate]. injection H as _ <-. eapply B, E. }
  unfold char_at. destruct (byte_at t) as [[b r1]|] eqn:E1; [|discriminate]. intros H U. pose proof (B _ _ _ E1 U) as U1.
  destruct (b <? 128); [injection H as _ <-; exact U1|]. destruct (b <? 224); [eapply M; eassumption|].
  destruct (b <? 240).
  - destruct (more (b - 224) (byte_at r1)) as [[n r2]|] eqn:E2; [|discriminate]. eapply M; [exact H|]. eapply M; eassumption.
  - destruct (more (b - 240) (byte_at r1)) as [[n r2]|] eqn:E2; [|discriminate]. destruct (more n (byte_at r2)) as [[n' r3]|] eqn:E3; [|discriminate]. eapply M; [exact H|]. eapply M; [exact E3|]. eapply M; eassumption.
Qed.
Lemma decode_unicode f : forall t, unicode t -> unicode (decode f t).
Proof.
  induction f as [|f IH]; intros t U; [constructor|]. cbn [decode]. destruct (char_at t) as [[c r]|] eqn:E.
  - constructor; [destruct (N.ltb_spec c 1114112); lia|]. apply IH. eapply char_at_sub; eassumption.
  - destruct t as [|c t]; [constructor|]. inversion_clear U as [|? ? C U']. constructor; [exact C|now apply IH].
Qed.
Lemma plain_web_decodes : decodes plain_web.
Proof. split; cbn [plain_web unquote]; [intros safe t S U; now apply decode_quote|intros t U; now apply decode_unicode]. Qed.

(** ** A component that was set keeps its value when it is set to it *)
Lemma unicode_unquote_nil w : decodes w -> unquote w [] = [].
Proof. intros [D _]. exact (D [] [] (fun x => x) (Forall_nil _)). Qed.
Lemma settle_quote w t : decodes w -> unicode t -> quote [] (unquote w (quote [] (unquote w t))) = quote [] (unquote w t).
Proof. intros [D U] T. rewrite D; [reflexivity|exact (fun x => x)|now apply U]. Qed.
Lemma settle_protocol u t v : set_protocol u t = (v, None) -> set_protocol v (u_protocol v) = (v, None).
Proof.
  unfold set_protocol at 1. destruct t as [|x t]; [intros [= <-]; reflexivity|]. pose proof (lower_lower (rstrip 58 (x :: t))) as LL. pose proof (lower_no_up (rstrip 58 (x :: t))) as NU.
  destruct (lower (rstrip 58 (x :: t))) as [|c r] eqn:E; [discriminate|]. destruct (negb (is_up c || is_low c) || negb (forallb (fun c => is_alnum c || is_in c (lit "+-.")) r)) eqn:B; [discriminate|]. intros [= <-].
  cbn [with_protocol u_protocol]. apply orb_false_iff in B as [B1 B2]. apply negb_false_iff in B1, B2. cbn in NU. apply andb_true_iff in NU as [NU _]. apply negb_true_iff in NU. rewrite NU in B1. cbn [orb] in B1.
  assert (R : rstrip 58 (c :: r ++ [58]) = c :: r).
  { unfold rstrip. change (c :: r ++ [58]) with ((c :: r) ++ [58]). rewrite rdropwhile_app by reflexivity. pose proof (set_protocol_scheme u c r B1 B2 LL) as Z.
    apply rdropwhile_id. pose proof (scheme_avoids c r B1 B2) as A. destruct (snoc_inv (c :: r)) as [|(a & y & F)]; [discriminate|]. rewrite F in *. rewrite rev_app_distr. cbn [rev app head_not]. rewrite avoids_app in A. apply andb_true_iff in A as [_ A].
    rewrite avoids_cons in A. apply andb_true_iff in A as [A _]. apply negb_true_iff, is_in_not in A. apply negb_true_iff, N.eqb_neq. intros <-. apply A. cbn. tauto. }
  unfold set_protocol. rewrite R, LL, B1, B2, orb_true_r. reflexivity.
Qed.
Lemma settle_port u t v : set_port u t = (v, None) -> set_port v (u_port v) = (v, None).
Proof.
  unfold set_port at 1. destruct t as [|x t]; [intros [= <-]; reflexivity|]. destruct (negb (forallb is_digit (x :: t)) || (65535 <? digits_val (x :: t))) eqn:B; [discriminate|]. intros [= <-].
  cbn [with_host with_port u_port u_hostname u_protocol]. unfold set_port. rewrite B. reflexivity.
Qed.
Lemma settle_path w u t v : decodes w -> unicode t -> ~ In (u_protocol u) [lit "about:"; lit "blob:"; lit "data:"] -> absolute w t -> set_pathname w u t = (v, None) -> u_pathname v = clean_path w t /\ set_pathname w v (u_pathname v) = (v, None).
Proof.
  intros D T O A. assert (Q : opaque (u_protocol u) = false) by (apply Bool.not_true_iff_false; rewrite opaque_in; exact O).
  assert (M : mem (u_protocol u) [lit "blob:"; lit "data:"] = false) by (apply mem_not_in; intros I; apply O; cbn in *; tauto).
  pose proof (clean_path_normal w t A) as NP. pose proof (normal_starts _ NP) as SS. unfold set_pathname at 1. destruct t as [|c t].
  { exfalso. destruct A as (r & A). rewrite (unicode_unquote_nil w D) in A. destruct A; discriminate. }
  destruct (_ && _); [discriminate|]. rewrite M, Q, SS. cbn [negb andb]. intros [= <-]. split; [reflexivity|]. cbn [with_pathname u_pathname]. unfold set_pathname. cbn [with_pathname u_protocol].
  pose proof (clean_path_idem w (c :: t) D T) as I. destruct (clean_path w (c :: t)) as [|x p] eqn:E; [discriminate|]. rewrite <- E in *.
  replace (is_in 92 (clean_path w (c :: t))) with false.
  2: { symmetry. apply is_in_not. rewrite clean_path_raw. now apply qchar_not. }
  rewrite andb_false_r, M, Q. rewrite I, SS. cbn [negb andb]. reflexivity.
Qed.

(** ** The query *)
Definition qsafe (c : N) : bool := (c =? 32) || safe_char query_safe c && negb (c =? 43) && negb (c =? 61).
Definition to_plus (t : text) : text := map (fun c => if c =? 32 then 43 else c) t.
Lemma ref_at_none t : is_in 38 t = false -> ref_at t = None.
Proof.
  intros H. unfold ref_at. destruct t as [|x t]; [reflexivity|]. apply is_in_not in H. destruct x as [|q]; [reflexivity|]. do 6 (destruct q as [q|q|]; try reflexivity). exfalso. apply H. now left.
Qed.
Lemma qsafe_avoids t : forallb qsafe t = true -> avoids [38; 35; 43; 61] t = true.
Proof. intros H. apply (pred_avoids qsafe); [exact H|reflexivity]. Qed.
Lemma quote_query_safe t : forallb qsafe t = true -> quote_query query_safe t = to_plus t.
Proof.
  unfold quote_query. assert (G : forall t f, (length t < f)%nat -> forallb qsafe t = true -> quote_refs f query_safe t = to_plus t).
  { clear. induction t as [|c t IH]; intros f F Q; (destruct f as [|f]; [cbn in F; lia|]); [reflexivity|]. cbn [quote_refs]. rewrite ref_at_none.
    - cbn in Q. apply andb_true_iff in Q as [Q1 Q2]. rewrite IH; [|cbn in F; lia|exact Q2]. unfold plus_char. cbn [to_plus map]. unfold qsafe in Q1. destruct (c =? 32); [reflexivity|]. cbn [orb] in Q1. rewrite !andb_true_iff in Q1. destruct Q1 as [[Q1 _] _].
      now rewrite (quote_safe_char query_safe c Q1).
    - apply avoids_one. exact (avoids_sub _ [38] _ (qsafe_avoids _ Q) eq_refl). }
  intros H. apply G; [lia|exact H].
Qed.
Lemma plus_space_to_plus t : forallb qsafe t = true -> plus_space (to_plus t) = t.
Proof.
  intros H. apply qsafe_avoids in H. unfold plus_space, to_plus. rewrite map_map. rewrite <- (map_id t) at 2. apply map_ext_in. intros c I. rewrite avoids_in in H. specialize (H c I). destruct (N.eqb_spec c 32) as [->|]; [reflexivity|].
  destruct (N.eqb_spec c 43) as [->|]; [exfalso; apply H; cbn; tauto|reflexivity].
Qed.
Lemma to_plus_avoids l t : avoids l t = true -> is_in 43 l = false -> avoids l (to_plus t) = true.
Proof. rewrite !avoids_in. intros H P c I J. apply in_map_iff in I as (d & E & I). destruct (d =? 32); [subst; apply is_in_not in P; contradiction|subst; eapply H; eassumption]. Qed.
Lemma pair_back k v : forallb qsafe k = true -> forallb qsafe v = true -> pair_of (to_plus k ++ 61 :: to_plus v) = (k, v).
Proof.
  intros K V. unfold pair_of. replace (to_plus k ++ 61 :: to_plus v) with (join [61] [to_plus k; to_plus v]) by reflexivity.
  assert (F : forall t, forallb qsafe t = true -> forallb (fun x => negb (61 =? x)) (to_plus t) = true).
  { intros t T. pose proof (to_plus_avoids [61] t (avoids_sub _ [61] _ (qsafe_avoids t T) eq_refl) eq_refl) as A. rewrite avoids_in in A. apply forallb_forall. intros x I. apply negb_true_iff, N.eqb_neq. intros <-. apply (A 61 I). now left. }
  rewrite split_on_join; [|discriminate|repeat constructor; now apply F]. now rewrite !plus_space_to_plus.
Qed.
Lemma str_ltb_trans a : forall b c, str_ltb a b = true -> str_ltb b c = true -> str_ltb a c = true.
Proof.
  induction a as [|x a IH]; intros [|y b] [|z c]; cbn; try discriminate; try reflexivity.
  destruct (N.ltb_spec x y), (N.ltb_spec y z), (N.ltb_spec x z), (N.ltb_spec y x), (N.ltb_spec z y), (N.ltb_spec z x); try discriminate; try reflexivity; try lia. apply IH.
Qed.
Lemma str_ltb_irrefl a : str_ltb a a = false.
Proof. induction a as [|x a IH]; [reflexivity|]. cbn. rewrite N.ltb_irrefl. exact IH. Qed.
Lemma str_ltb_asym a b : str_ltb a b = true -> str_ltb b a = false.
Proof. intros H. destruct (str_ltb b a) eqn:E; [|reflexivity]. pose proof (str_ltb_trans a b a H E) as Z. now rewrite str_ltb_irrefl in Z. Qed.
Lemma before_iff a : forall b, before a b <-> str_ltb a b = true.
Proof.
  induction a as [|x a IH]; intros [|y b]; cbn [before str_ltb]; [split; [tauto|discriminate]|tauto|split; [tauto|discriminate]|].
  specialize (IH b). destruct (N.ltb_spec x y) as [A|A]; [split; [reflexivity|now left]|]. destruct (N.ltb_spec y x) as [B|B].
  - split; [intros [C|[C _]]; lia|discriminate].
  - rewrite <- IH. split; [intros [C|[_ C]]; [lia|exact C]|intros C; right; split; [lia|exact C]].
Qed.
Definition ordered (d : dict text) : Prop := Sorted (fun p q => str_ltb (fst p) (fst q) = true) d.
Lemma in_order_ordered d : in_order d <-> ordered d.
Proof. unfold in_order, ordered. split; intros H; induction H as [|p d S IH HD]; constructor; auto; inversion HD; constructor; now apply before_iff. Qed.
Lemma query_plain_qsafe t : query_plain t -> forallb qsafe t = true.
Proof.
  unfold query_plain. intros H. apply forallb_forall. intros c I. rewrite Forall_forall in H. specialize (H c I). cbv beta in H. unfold qsafe. destruct (N.eqb_spec c 32); [reflexivity|]. cbn [orb].
  assert (A : is_alnum c = true -> safe_char query_safe c && negb (c =? 43) && negb (c =? 61) = true).
  { intros A. unfold safe_char. rewrite A. cbn [orb andb]. destruct (N.eqb_spec c 43) as [->|]; [discriminate|]. destruct (N.eqb_spec c 61) as [->|]; [discriminate|reflexivity]. }
  unfold is_alnum in A. destruct H as [H|[H|[H|[H|H]]]]; [contradiction| | | |].
  - apply A. apply digit_range in H. rewrite H. now rewrite orb_true_r.
  - apply A. apply is_up_iff in H. now rewrite H.
  - apply A. apply is_low_iff in H. rewrite H. now rewrite orb_true_r.
  - cbn in H. repeat (destruct H as [<-|H]; [reflexivity|]). contradiction.
Qed.
Lemma sort_params_id d : ordered d -> sort_params d = d.
Proof.
  unfold ordered, sort_params. induction d as [|p d IH]; intros S; [reflexivity|]. inversion_clear S as [|? ? S' H]. cbn [fold_right]. rewrite IH by exact S'. destruct d as [|q d]; [reflexivity|]. inversion_clear H as [|? ? L]. cbn [insert_param]. now rewrite (str_ltb_asym _ _ L).
Qed.
Lemma ordered_ok d : ordered d -> dict_ok d.
Proof.
  intros S. assert (SS : StronglySorted (fun p q => str_ltb (fst p) (fst q) = true) d) by (apply Sorted_StronglySorted; [intros a b c; apply str_ltb_trans|exact S]).
  clear S. unfold dict_ok, dkeys. induction SS as [|p d S IH F]; cbn; constructor; [|exact IH]. intros I. apply in_map_iff in I as (q & E & I). rewrite Forall_forall in F. specialize (F q I). cbv beta in F. rewrite E in F. now rewrite str_ltb_irrefl in F.
Qed.
Lemma dset_new (d : dict text) k v : ~ In k (dkeys d) -> dset d k v = d ++ [(k, v)].
Proof.
  induction d as [|[k' v'] d IH]; intros H; [reflexivity|]. cbn in *. destruct (text_eqb_spec k' k) as [->|N]; [exfalso; apply H; now left|]. rewrite IH by tauto. reflexivity.
Qed.
Lemma fold_dset (l : dict text) : forall acc, dict_ok (acc ++ l) -> fold_left (fun d p => dset d (fst p) (snd p)) l acc = acc ++ l.
Proof.
  induction l as [|[k v] l IH]; intros acc K; [now rewrite app_nil_r|]. cbn [fold_left fst snd]. unfold dict_ok, dkeys in K. rewrite map_app in K. cbn in K. pose proof (NoDup_remove_2 _ _ _ K) as N. rewrite in_app_iff in N.
  rewrite dset_new by (unfold dkeys; tauto). rewrite IH; [now rewrite <- app_assoc|]. unfold dict_ok, dkeys. rewrite !map_app. cbn. rewrite <- app_assoc. exact K.
Qed.
Definition item (p : text * text) : text := to_plus (fst p) ++ 61 :: to_plus (snd p).
Lemma search_back u v : ordered (u_params u) -> Forall (fun p => forallb qsafe (fst p) = true /\ forallb qsafe (snd p) = true) (u_params u) ->
  (forall p r, hd_error (u_params u) = Some p -> fst p <> 63 :: r) -> u_params (fst (set_search v (get_search u))) = u_params u.
Proof.
  intros O F H. unfold set_search, get_search. cbn [fst with_params u_params]. destruct (u_params u) as [|p d] eqn:E; [reflexivity|]. rewrite <- E in *. rewrite sort_params_id by exact O.
  set (items := map _ (u_params u)). assert (I : items = map item (u_params u)).
  { apply map_ext_in. intros q Q. rewrite Forall_forall in F. destruct (F q Q). unfold item. now rewrite !quote_query_safe. }
  assert (D : dropwhile (N.eqb 63) (63 :: join [38] items) = join [38] items).
  { change (dropwhile (N.eqb 63) (join [38] items) = join [38] items). apply dropwhile_head. rewrite I, E. cbn [map]. destruct (join_cons_head [38] (item p) (map item d)) as (r & ->).
    rewrite E in H. specialize (H p). unfold item. destruct (fst p) as [|c k]; [reflexivity|]. cbn -[N.eqb]. apply negb_true_iff, N.eqb_neq. intros C. destruct (N.eqb_spec c 32) as [|]; [discriminate|]. subst c. now apply (H k eq_refl). }
  rewrite D. assert (N : join [38] items <> []) by (rewrite I, E; cbn [map]; destruct (join_cons_head [38] (item p) (map item d)) as (r & ->); unfold item; now destruct (to_plus (fst p))).
  destruct (join [38] items) as [|j0 j] eqn:J; [contradiction|]. rewrite <- J. rewrite split_on_join.
  - rewrite I. assert (G : forall l acc, Forall (fun p => forallb qsafe (fst p) = true /\ forallb qsafe (snd p) = true) l ->
      fold_left (fun d p => dset d (fst (pair_of p)) (snd (pair_of p))) (map item l) acc = fold_left (fun d p => dset d (fst p) (snd p)) l acc).
    { clear. induction l as [|[k v] l IH]; intros acc F; [reflexivity|]. inversion_clear F as [|? ? [K V] F']. cbn [map fold_left fst snd] in *. assert (PB : pair_of (item (k, v)) = (k, v)) by (unfold item; cbn [fst snd]; now apply pair_back). rewrite PB. now apply IH. }
    rewrite (G _ [] F). rewrite fold_dset; [reflexivity|]. now apply ordered_ok.
  - rewrite I, E. discriminate.
  - rewrite I. apply Forall_map. eapply Forall_impl; [|exact F]. intros q [A B]. pose proof (to_plus_avoids [38] (fst q) (avoids_sub _ [38] _ (qsafe_avoids _ A) eq_refl) eq_refl) as X.
    pose proof (to_plus_avoids [38] (snd q) (avoids_sub _ [38] _ (qsafe_avoids _ B) eq_refl) eq_refl) as Y. assert (Z : avoids [38] (item q) = true) by (unfold item; rewrite avoids_app, avoids_cons, X, Y; reflexivity).
    rewrite avoids_in in Z. apply forallb_forall. intros x XI. apply negb_true_iff, N.eqb_neq. intros <-. apply (Z 38 XI). now left.
Qed.

(** ** References *)
Definition relocate (u : url) (p : text) (d : dict text) (h : text) : url := with_hash (with_params (with_pathname u p) d) h.
Lemma set_port_reloc u t p d h : set_port (relocate u p d h) t = (relocate (fst (set_port u t)) p d h, snd (set_port u t)).
Proof. unfold set_port. destruct t; [reflexivity|]. change (u_hostname (relocate u p d h)) with (u_hostname u). change (u_protocol (relocate u p d h)) with (u_protocol u). destruct (_ || _); reflexivity. Qed.
Lemma parse_host_reloc w u t b p d h : parse_host w (relocate u p d h) t b = (relocate (fst (parse_host w u t b)) p d h, snd (parse_host w u t b)).
Proof.
  unfold parse_host. destruct t; [destruct b; reflexivity|]. destruct (existsb _ _); [reflexivity|]. destruct (idna w _); [|reflexivity]. cbv zeta.
  match goal with |- context [match ?x with Some _ => _ | None => _ end] => destruct x as [[n' q]|] end; [|reflexivity].
  assert (E : with_host (with_hostname (relocate u p d h) n') n' = relocate (with_host (with_hostname u n') n') p d h) by reflexivity. rewrite E.
  destruct b, q as [q|]; [destruct (nonempty q); [apply set_port_reloc|reflexivity]|apply set_port_reloc|apply set_port_reloc|reflexivity].
Qed.
Lemma set_protocol_reloc u t p d h : set_protocol (relocate u p d h) t = (relocate (fst (set_protocol u t)) p d h, snd (set_protocol u t)).
Proof. unfold set_protocol. destruct t; [reflexivity|]. destruct (lower _); [reflexivity|]. destruct (_ || _); reflexivity. Qed.
Lemma relocate_stable w b p : stable w b -> decodes w -> set_pathname w (at_path b p) (get_pathname (at_path b p)) = (at_path b p, None) -> stable w (at_path b p).
Proof.
  intros S D P. assert (E : at_path b p = relocate b p [] []) by reflexivity. assert (L : look (relocate b p [] []) = relocate b p [] []).
  { unfold look. change (u_port (relocate b p [] [])) with (u_port b). change (u_protocol (relocate b p [] [])) with (u_protocol b). pose proof (stable_look w b S) as L. unfold look in L. destruct (_ && _); [|reflexivity].
    apply (f_equal u_host) in L. cbn in L. unfold relocate. cbn. now rewrite L. }
  rewrite E in *. intros c. pose proof (S c) as Sc. destruct c; cbn [set_comp get_comp] in *.
  - change (u_protocol (relocate b p [] [])) with (u_protocol b). now rewrite set_protocol_reloc, Sc.
  - unfold set_username in *. injection Sc as Sc. apply (f_equal u_username) in Sc. cbn [with_username u_username] in Sc. change (u_username (relocate b p [] [])) with (u_username b). now rewrite Sc.
  - unfold set_password in *. injection Sc as Sc. apply (f_equal u_password) in Sc. cbn [with_password u_password] in Sc. change (u_password (relocate b p [] [])) with (u_password b). now rewrite Sc.
  - unfold get_host in *. rewrite L. rewrite (stable_look w b S) in Sc. change (u_host (relocate b p [] [])) with (u_host b). unfold set_host in *. now rewrite parse_host_reloc, Sc.
  - change (u_hostname (relocate b p [] [])) with (u_hostname b). unfold set_hostname in *. now rewrite parse_host_reloc, Sc.
  - change (u_port (relocate b p [] [])) with (u_port b). now rewrite set_port_reloc, Sc.
  - exact P.
  - reflexivity.
  - unfold set_hash. cbn [get_hash relocate with_hash u_hash dropwhile]. rewrite (unicode_unquote_nil w D). reflexivity.
Qed.
(* a text that starts with one slash, or has neither colon nor slash in front, is no URL *)
Lemma slash_no_url w t : (exists r, t = 47 :: r /\ starts_slash r = false) -> avoids [9; 10; 13] t = true -> parse_url w blank t = (blank, Some ValueError).
Proof.
  intros (r & -> & N) A. rewrite parse_url_eq. unfold urlsplit. rewrite dropwhile_head by reflexivity. rewrite filter_avoids by exact A.
  replace (match cut 58 (47 :: r) with Some (c :: s, r0) => if (is_up c || is_low c) && forallb (fun c => is_alnum c || is_in c (lit "+-.")) s then (lower (c :: s), r0) else ([], 47 :: r) | _ => ([], 47 :: r) end) with ([] : text, 47 :: r).
  2: { unfold cut. destruct (is_in 58 (47 :: r)); reflexivity. }
  replace (match 47 :: r with 47 :: 47 :: r0 => (takewhile (fun c => negb (is_in c (lit "/?#"))) r0, dropwhile (fun c => negb (is_in c (lit "/?#"))) r0) | _ => ([], 47 :: r) end) with ([] : text, 47 :: r).
  2: { destruct r as [|x r]; [reflexivity|]. destruct (N.eq_dec x 47) as [->|X]; [discriminate|]. destruct x as [|q]; [reflexivity|]. do 6 (destruct q as [q|q|]; try reflexivity). contradiction. }
  cbn [is_in existsb xorb]. destruct (cut_or 35 (47 :: r)) as [x f]. destruct (cut_or 63 x) as [y q]. reflexivity.
Qed.
Lemma name_no_url w t : t <> [] -> starts_slash t = false -> avoids [9; 10; 13; 58] t = true -> (forall c r, t = c :: r -> 32 < c) -> parse_url w blank t = (blank, Some ValueError).
Proof.
  intros T N A H. rewrite parse_url_eq. unfold urlsplit. rewrite dropwhile_head by (destruct t as [|c r]; [reflexivity|]; cbn; specialize (H c r eq_refl); apply negb_true_iff, N.leb_gt; exact H).
  rewrite filter_avoids by exact (avoids_sub _ [9; 10; 13] _ A eq_refl). rewrite cut_none by exact (avoids_sub _ [58] _ A eq_refl).
  replace (match t with 47 :: 47 :: r0 => (takewhile (fun c => negb (is_in c (lit "/?#"))) r0, dropwhile (fun c => negb (is_in c (lit "/?#"))) r0) | _ => ([], t) end) with ([] : text, t).
  2: { destruct t as [|x r]; [reflexivity|]. destruct (N.eq_dec x 47) as [->|X]; [discriminate|]. destruct x as [|q]; [reflexivity|]. do 6 (destruct q as [q|q|]; try reflexivity). contradiction. }
  cbn [is_in existsb xorb]. destruct (cut_or 35 t) as [x f]. destruct (cut_or 63 x) as [y q]. reflexivity.
Qed.
Lemma at_path_hier b p : hierarchical b -> hierarchical (at_path b p).
Proof. exact (fun x => x). Qed.
Lemma at_path_carried b p : carried b -> carried (at_path b p).
Proof. exact (fun x => x). Qed.
(* a path put into the base and the base read again *)
Lemma moved_base w b t : decodes w -> unicode t -> stable w b -> hierarchical b -> carried b -> absolute w t -> ~ In 92 t ->
  set_pathname w b t = (with_pathname b (clean_path w t), None) /\ stable w (at_path b (clean_path w t)) /\ tostring (at_path b (clean_path w t)) = (at_path b (clean_path w t), snd (tostring (at_path b (clean_path w t)))) /\
  parse_url w blank (snd (tostring (at_path b (clean_path w t)))) = (at_path b (clean_path w t), None).
Proof.
  intros D U S H K A N. pose proof H as [_ O]. assert (Q : opaque (u_protocol b) = false) by (apply Bool.not_true_iff_false; rewrite opaque_in; exact O).
  assert (M : mem (u_protocol b) [lit "blob:"; lit "data:"] = false) by (apply mem_not_in; intros I; apply O; cbn in *; tauto).
  pose proof (normal_starts _ (clean_path_normal w t A)) as SS.
  assert (E : set_pathname w b t = (with_pathname b (clean_path w t), None)).
  { unfold set_pathname. destruct t as [|c t]; [exfalso; destruct A as (r & A); rewrite (unicode_unquote_nil w D) in A; destruct A; discriminate|].
    replace (is_in 92 (c :: t)) with false by (symmetry; now apply is_in_not). rewrite andb_false_r, M, Q, SS. reflexivity. }
  destruct (settle_path w b t _ D U O A E) as [P1 P2]. cbn [with_pathname u_pathname] in P2.
  assert (S' : stable w (at_path b (clean_path w t))).
  { apply relocate_stable; [exact S|exact D|]. unfold get_pathname. change (u_protocol (at_path b (clean_path w t))) with (u_protocol b). change (u_pathname (at_path b (clean_path w t))) with (clean_path w t).
    rewrite Q, SS. cbn [negb andb]. rewrite (set_pathname_cong w (with_pathname b (clean_path w t))) by (reflexivity || now rewrite P2). rewrite P2. reflexivity. }
  repeat split; [exact E|exact S'| |now apply roundtrip]. unfold tostring. cbn [snd]. f_equal. apply (stable_look w _ S').
Qed.
Theorem absolute_path w b t r : decodes w -> unicode t -> stable w b -> hierarchical b -> carried b -> t = 47 :: r -> starts_slash r = false -> absolute w t -> avoids [9; 10; 13; 92] t = true ->
  construct w t (Some b) = (Ok (at_path b (clean_path w t)), Some (at_path b (clean_path w t))).
Proof.
  intros D U S H K E N A V. assert (BS : ~ In 92 t) by (rewrite avoids_in in V; intros I; apply (V 92 I); cbn; tauto).
  destruct (moved_base w b t D U S H K A BS) as (P & S' & TS & RT). unfold construct. rewrite slash_no_url by (eauto || exact (avoids_sub _ [9; 10; 13] _ V eq_refl)).
  pose proof H as [_ O]. replace (opaque (u_protocol b)) with false by (symmetry; apply Bool.not_true_iff_false; rewrite opaque_in; exact O).
  unfold base_paths. rewrite E at 1. cbn [starts_slash]. rewrite P. cbv zeta.
  assert (X : set_hash w (fst (set_search (with_pathname b (clean_path w t)) [])) [] = (at_path b (clean_path w t), None)) by (unfold set_hash; cbn [dropwhile]; rewrite (unicode_unquote_nil w D); reflexivity).
  rewrite X, TS, RT. reflexivity.
Qed.
Lemma dirname_folder f name : ~ In 47 name -> (f = [] \/ ends_slash f = false) -> (f = [] -> dirname (f ++ 47 :: name) = [47]) /\ (f <> [] -> dirname (f ++ 47 :: name) = f).
Proof.
  intros N F. unfold dirname. assert (H : rdropwhile (fun c => negb (c =? 47)) (f ++ 47 :: name) = f ++ [47]).
  { apply (before_last_app 47). apply avoids_in. intros c I [<-|[]]. contradiction. }
  rewrite H. split; [intros ->; reflexivity|]. intros NE. destruct F as [|F]; [contradiction|]. destruct (snoc_inv f) as [|(a & x & ->)]; [contradiction|].
  assert (X : x <> 47) by (intros ->; apply ends_slash_false in F; apply F; eauto).
  replace (forallb (N.eqb 47) ((a ++ [x]) ++ [47])) with false.
  - unfold rstrip. rewrite rdropwhile_app by reflexivity. apply rdropwhile_id. rewrite rev_app_distr. cbn [rev app head_not]. apply negb_true_iff, N.eqb_neq. congruence.
  - symmetry. rewrite !forallb_app. cbn [forallb]. destruct (N.eqb_spec 47 x); [congruence|]. now rewrite !andb_false_r.
Qed.
Lemma join_folder f name t : ~ In 47 name -> (f = [] \/ ends_slash f = false) -> starts_slash t = false -> join_path (dirname (f ++ 47 :: name)) t = f ++ 47 :: t.
Proof.
  intros N F T. destruct (dirname_folder f name N F) as [A B]. unfold join_path. rewrite T. destruct f as [|x f]; [rewrite A by reflexivity; reflexivity|]. rewrite B by discriminate. destruct F as [|F]; [discriminate|]. rewrite F. reflexivity.
Qed.
Lemma urlsplit_path t r : t = 47 :: r -> starts_slash r = false -> avoids [9; 10; 13; 35; 63] t = true -> urlsplit t = Ok (mkSplit [] [] t [] []).
Proof.
  intros -> N A. unfold urlsplit. rewrite dropwhile_head by reflexivity. rewrite filter_avoids by exact (avoids_sub _ [9; 10; 13] _ A eq_refl).
  replace (match cut 58 (47 :: r) with Some (c :: s, r0) => if (is_up c || is_low c) && forallb (fun c => is_alnum c || is_in c (lit "+-.")) s then (lower (c :: s), r0) else ([], 47 :: r) | _ => ([], 47 :: r) end) with ([] : text, 47 :: r).
  2: { unfold cut. destruct (is_in 58 (47 :: r)); reflexivity. }
  replace (match 47 :: r with 47 :: 47 :: r0 => (takewhile (fun c => negb (is_in c (lit "/?#"))) r0, dropwhile (fun c => negb (is_in c (lit "/?#"))) r0) | _ => ([], 47 :: r) end) with ([] : text, 47 :: r).
  2: { destruct r as [|x r]; [reflexivity|]. destruct (N.eq_dec x 47) as [->|X]; [discriminate|]. destruct x as [|q]; [reflexivity|]. do 6 (destruct q as [q|q|]; try reflexivity). contradiction. }
  cbn [is_in existsb xorb]. rewrite cut_or_none by exact (avoids_sub _ [35] _ A eq_refl). rewrite cut_or_none by exact (avoids_sub _ [63] _ A eq_refl). reflexivity.
Qed.
Theorem relative_path w b f name t : decodes w -> unicode t -> unicode f -> stable w b -> hierarchical b -> carried b -> u_protocol b <> lit "file:" ->
  u_pathname b = f ++ 47 :: name -> ~ In 47 name -> ends_slash f = false -> starts_slash (tl f) = false ->
  t <> [] -> starts_slash t = false -> (forall c r, t = c :: r -> 32 < c) -> avoids [9; 10; 13; 35; 58; 63; 92] t = true -> absolute w (f ++ 47 :: t) ->
  construct w t (Some b) = (Ok (at_path b (clean_path w (f ++ 47 :: t))), Some (at_path b (clean_path w (f ++ 47 :: t)))).
Proof.
  intros D U UF S H K FI PN N F F2 T TS TH V A. pose proof H as [_ O]. assert (Q : opaque (u_protocol b) = false) by (apply Bool.not_true_iff_false; rewrite opaque_in; exact O).
  destruct (stable_path w b S Q) as (pr & PE). pose proof (stable_path_avoids w b S Q) as PA. rewrite PN in PA. rewrite avoids_app in PA. apply andb_true_iff in PA as [PA _].
  assert (FB : ~ In 92 f).
  { pose proof (S CPathname) as SP. cbn [set_comp get_comp] in SP. unfold get_pathname in SP. rewrite Q, PE in SP. cbn [negb andb starts_slash] in SP. unfold set_pathname in SP.
    assert (M : mem (u_protocol b) [lit "blob:"; lit "data:"] = false) by (apply mem_not_in; intros I; apply O; cbn in *; tauto). rewrite M in SP. destruct (_ && _) in SP; [discriminate|]. injection SP as SP. apply (f_equal u_pathname) in SP. cbn [with_pathname u_pathname] in SP.
    intros I. assert (J : In 92 (u_pathname b)) by (rewrite PN; apply in_or_app; now left). rewrite <- SP in J. rewrite clean_path_raw in J. match type of J with context [if ?x then _ else _] => destruct x end; [destruct J as [|J]; [discriminate|]|]; revert J; apply qchar_not; reflexivity. }
  set (full := f ++ 47 :: t) in *. assert (FULL : exists r, full = 47 :: r /\ starts_slash r = false).
  { unfold full. destruct f as [|x f]; [now exists t|]. assert (x = 47) by (rewrite PN in PE; now injection PE). subst x. exists (f ++ 47 :: t). split; [reflexivity|]. cbn [tl] in F2. destruct f as [|y f]; [discriminate|]. destruct (N.eq_dec y 47) as [->|Y]; [discriminate|].
    destruct (starts_slash _) eqn:Z; [|reflexivity]. apply starts_slash_iff in Z as (z & Z). injection Z as Z _. contradiction. }
  assert (FA : avoids [9; 10; 13; 35; 63] full = true) by (unfold full; rewrite avoids_app, PA, avoids_cons, (avoids_sub _ [9; 10; 13; 35; 63] _ V eq_refl); reflexivity).
  assert (BS : ~ In 92 full).
  { unfold full. rewrite in_app_iff. intros [I|[I|I]]; [contradiction|discriminate|]. rewrite avoids_in in V. apply (V 92 I). cbn. tauto. }
  assert (UU : unicode full) by (unfold full; apply Forall_app; split; [exact UF|constructor; [lia|exact U]]).
  destruct (moved_base w b full D UU S H K A BS) as (P & S' & TT & RT). unfold construct. rewrite name_no_url; [|exact T|exact TS|exact (avoids_sub _ [9; 10; 13; 58] _ V eq_refl)|exact TH].
  rewrite Q. unfold base_paths. rewrite TS. replace (text_eqb (u_protocol b) (lit "file:")) with false by (symmetry; destruct (text_eqb_spec (u_protocol b) (lit "file:")); [contradiction|reflexivity]). cbn [andb]. cbv zeta.
  assert (GP : get_pathname b = f ++ 47 :: name) by (unfold get_pathname; rewrite Q, <- PN, PE; reflexivity).
  rewrite GP, join_folder by tauto. fold full. rewrite fix_id by exact BS. destruct FULL as (fr & FE & FN). rewrite (urlsplit_path full fr FE FN FA). cbn [sp_path sp_query sp_fragment]. rewrite P.
  assert (X : set_hash w (fst (set_search (with_pathname b (clean_path w full)) [])) [] = (at_path b (clean_path w full), None)) by (unfold set_hash; cbn [dropwhile]; rewrite (unicode_unquote_nil w D); reflexivity).
  rewrite X, TT, RT. reflexivity.
Qed.

(** ** about:, blob: and data: *)
Theorem roundtrip_opaque w u : stable w u -> In (u_protocol u) [lit "about:"; lit "blob:"; lit "data:"] -> u_hostname u = [] -> u_port u = [] -> u_username u = [] -> u_password u = [] ->
  u_pathname u <> [] -> starts_slash (u_pathname u) = false -> avoids [9; 10; 13; 35; 63] (u_pathname u) = true -> parse_url w blank (snd (tostring u)) = (u, None).
Proof.
  intros S P HN PO UN PW PN PS PA. assert (Q : opaque (u_protocol u) = true) by now apply opaque_in. assert (NE : u_protocol u <> []) by (intros E; rewrite E in Q; discriminate).
  destruct (stable_protocol w u S NE) as (c & r & E & C & R & L). pose proof (stable_host0 w u S (or_intror HN)) as HH. rewrite HN in HH.
  assert (GP : get_pathname u = u_pathname u) by (unfold get_pathname; rewrite Q, PS; reflexivity).
  assert (T : snd (tostring u) = (c :: r) ++ 58 :: u_pathname u ++ get_search u ++ get_hash u).
  { unfold tostring, get_host. rewrite (stable_look w u S), HH, GP, Q, E. cbn [snd nonempty andb orb app]. destruct (u_pathname u); [contradiction|]. cbn [nonempty]. rewrite <- !app_assoc. reflexivity. }
  rewrite T. pose proof (scheme_avoids c r C R) as SC. pose proof (get_search_avoids u) as SA.
  assert (HA : avoids [9; 10; 13] (get_hash u) = true) by (unfold get_hash; pose proof (stable_hash_avoids w u S) as HA; destruct (u_hash u); [reflexivity|]; rewrite avoids_cons, HA; reflexivity).
  assert (U : urlsplit ((c :: r) ++ 58 :: u_pathname u ++ get_search u ++ get_hash u) = Ok (mkSplit (c :: r) [] (u_pathname u) (tl (get_search u)) (tl (get_hash u)))).
  { unfold urlsplit. rewrite dropwhile_head by (cbn; apply is_low_iff in C; apply negb_true_iff, N.leb_gt; lia). rewrite filter_avoids.
    2: { rewrite avoids_app, (avoids_cons _ 58), !avoids_app. rewrite HA, (avoids_sub _ [9; 10; 13] (get_search u) SA), (avoids_sub _ [9; 10; 13] (u_pathname u) PA), (avoids_sub _ [9; 10; 13] (c :: r) SC) by reflexivity. reflexivity. }
    rewrite cut_app by now apply (avoids_sub _ [58] (c :: r) SC). rewrite C, R, orb_true_r, L. cbn [andb].
    destruct (u_pathname u) as [|p0 pn] eqn:PE; [contradiction|]. assert (P0 : p0 <> 47) by (intros ->; discriminate).
    replace (match (p0 :: pn) ++ get_search u ++ get_hash u with 47 :: 47 :: r0 => (takewhile (fun c => negb (is_in c (lit "/?#"))) r0, dropwhile (fun c => negb (is_in c (lit "/?#"))) r0) | _ => ([], (p0 :: pn) ++ get_search u ++ get_hash u) end) with ([] : text, (p0 :: pn) ++ get_search u ++ get_hash u).
    2: { cbn [app]. destruct p0 as [|q]; [reflexivity|]. do 6 (destruct q as [q|q|]; try reflexivity). contradiction. }
    cbn [is_in existsb xorb]. rewrite <- PE in *.
    assert (X : cut_or 35 (u_pathname u ++ get_search u ++ get_hash u) = (u_pathname u ++ get_search u, tl (get_hash u))).
    { assert (PSA : avoids [35] (u_pathname u ++ get_search u) = true) by (rewrite avoids_app, (avoids_sub _ [35] _ PA), (avoids_sub _ [35] _ SA); reflexivity).
      unfold get_hash. destruct (u_hash u); [rewrite app_nil_r; now apply cut_or_none|rewrite app_assoc; now apply cut_or_app]. }
    rewrite X. assert (Y : cut_or 63 (u_pathname u ++ get_search u) = (u_pathname u, tl (get_search u))).
    { pose proof (avoids_sub _ [63] _ PA eq_refl) as PQ. destruct (get_search_shape u) as [->|(q & ->)]; [rewrite app_nil_r; now apply cut_or_none|now apply cut_or_app]. }
    now rewrite Y. }
  rewrite parse_url_eq, U. cbn [sp_scheme sp_netloc sp_path sp_query sp_fragment nonempty negb andb orb]. replace (nonempty (u_pathname u)) with true by (destruct (u_pathname u); [contradiction|reflexivity]). cbn [negb]. rewrite andb_false_r.
  rewrite set_protocol_scheme by assumption. rewrite <- E. cbn [authority]. cbv zeta.
  replace (sp_userinfo []) with (None : option text, None : option text) by reflexivity. cbn [fst snd].
  pose proof (stable_username w u S) as SU. rewrite UN in SU. rewrite SU.
  pose proof (S CPathname) as SPA. cbn [set_comp get_comp] in SPA. rewrite GP in SPA.
  rewrite (set_pathname_cong w u) by (reflexivity || now rewrite SPA). rewrite SPA. cbn [fst].
  pose proof (S CSearch) as SS. cbn [set_comp get_comp] in SS. destruct (set_search_tl u) as [_ ST]. rewrite SS in ST. cbn [fst] in ST.
  pose proof (S CHash) as SH. cbn [set_comp get_comp] in SH. unfold set_hash in *. f_equal.
  assert (HX : quote hash_safe (unquote w (dropwhile (N.eqb 35) (tl (get_hash u)))) = u_hash u).
  { injection SH as SH. apply (f_equal u_hash) in SH. cbn [with_hash u_hash] in SH. etransitivity; [|exact SH]. unfold get_hash. destruct (u_hash u); reflexivity. }
  rewrite HX. unfold set_search in *. cbn [fst with_params u_params] in *. rewrite ST. clear - HN PO UN PW HH. destruct u. cbn in *. subst. reflexivity.
Qed.
