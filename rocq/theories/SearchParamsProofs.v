(** Proofs about search parameters. *)
From Coq Require Import Sorted Permutation.
From Verif Require Import PyBase PyText PyCase PyDict PySplit UrlModel UrlSpec UrlProofs UrlProofs2 UrlProofs3 UrlProofs4 SearchParamsModel SearchParamsSpec.
#[local] Open Scope N_scope.

(** ** Characters *)
Definition fsafe (c : N) : Prop := c = 37 \/ c = 43 \/ safe_char form_safe c = true.
Lemma hexdigit_alnum d : is_alnum (hexdigit d) = true.
Proof.
  unfold hexdigit, is_alnum. destruct (N.ltb_spec d 10).
  - assert (D : is_digit (48 + d) = true) by (apply digit_range; lia). rewrite D. now rewrite orb_true_r.
  - destruct (N.ltb_spec d 16); [|reflexivity]. assert (D : is_up (55 + d) = true) by (apply is_up_iff; lia). now rewrite D.
Qed.
Lemma plus_char_fsafe c : Forall fsafe (plus_char form_safe c).
Proof.
  unfold plus_char. destruct (c =? 32); [constructor; [right; now left|constructor]|]. unfold quote_char. destruct (safe_char form_safe c) eqn:E; [constructor; [right; now right|constructor]|].
  apply Forall_forall. intros x I. apply in_flat_map in I as (b & _ & I). cbn in I. destruct I as [<-|[<-|[<-|[]]]]; [now left| |]; right; right; unfold safe_char; now rewrite hexdigit_alnum.
Qed.
Lemma form_text_fsafe t : Forall fsafe (form_text t).
Proof. unfold form_text. apply Forall_forall. intros x I. apply in_flat_map in I as (c & _ & I). pose proof (plus_char_fsafe c) as F. rewrite Forall_forall in F. now apply F. Qed.
Lemma fsafe_not c : fsafe c -> c <> 38 /\ c <> 61 /\ c <> 32.
Proof. intros [->|[->|H]]; repeat split; try discriminate; intros ->; discriminate. Qed.
Lemma fsafe_char c : fsafe c -> form_char c.
Proof.
  unfold form_char. intros [->|[->|H]]; [cbn; tauto|cbn; tauto|]. unfold safe_char, is_alnum in H. apply orb_true_iff in H as [H|H]; [apply orb_true_iff in H as [H|H]; [apply orb_true_iff in H as [H|H]; [apply orb_true_iff in H as [H|H]|]|]|].
  - apply is_up_iff in H. tauto.
  - apply is_low_iff in H. tauto.
  - apply digit_range in H. tauto.
  - unfold is_in in H. apply existsb_exists in H as (x & I & E). apply N.eqb_eq in E as <-. do 3 right. cbn in *. tauto.
  - unfold is_in in H. apply existsb_exists in H as (x & I & E). apply N.eqb_eq in E as <-. do 3 right. cbn in *. tauto.
Qed.

(** ** Decoding *)
Lemma unplus_app a b : unplus (a ++ b) = unplus a ++ unplus b.
Proof. apply map_app. Qed.
Lemma unplus_same t : ~ In 43 t -> unplus t = t.
Proof. intros H. unfold unplus. rewrite <- (map_id t) at 2. apply map_ext_in. intros c I. destruct (N.eqb_spec c 43) as [->|]; [contradiction|reflexivity]. Qed.
Lemma unplus_form t : unplus (form_text t) = quote (32 :: form_safe) t.
Proof.
  induction t as [|c t IH]; [reflexivity|]. rewrite quote_cons. change (form_text (c :: t)) with (plus_char form_safe c ++ form_text t). rewrite unplus_app, IH. f_equal.
  unfold plus_char, quote_char. destruct (N.eqb_spec c 32) as [->|C]; [reflexivity|].
  assert (S : safe_char (32 :: form_safe) c = safe_char form_safe c) by (unfold safe_char; f_equal; unfold is_in; cbn [existsb]; apply N.eqb_neq in C; now rewrite C).
  rewrite S. destruct (safe_char form_safe c) eqn:E; apply unplus_same.
  - intros [->|[]]. discriminate.
  - intros I. apply in_flat_map in I as (b & _ & I). cbn in I. destruct I as [I|[I|[I|[]]]]; [discriminate| |]; pose proof (hexdigit_alnum (b / 16)) as A; pose proof (hexdigit_alnum (b mod 16)) as B; rewrite I in *; discriminate.
Qed.
Lemma form_decode_text t : unicode t -> form_decode (form_text t) = t.
Proof.
  intros U. unfold form_decode. assert (L : length (form_text t) = length (unplus (form_text t))) by (unfold unplus; now rewrite map_length). rewrite L, unplus_form. apply decode_quote; [|exact U|lia].
  cbn. intros H. repeat (destruct H as [H|H]; [discriminate|]). exact H.
Qed.
Lemma cut_at_app c a b : ~ In c a -> cut_at c (a ++ c :: b) = (a, b).
Proof.
  induction a as [|x a IH]; intros H; cbn; [now rewrite N.eqb_refl|]. destruct (N.eqb_spec x c) as [->|]; [destruct H; now left|]. rewrite IH; [reflexivity|]. intros I. apply H. now right.
Qed.
Lemma read_pair_form p : unicode (fst p) -> unicode (snd p) -> read_pair (form_pair p) = p.
Proof.
  intros A B. unfold read_pair, form_pair. rewrite cut_at_app.
  - cbn [fst snd]. rewrite !form_decode_text by assumption. now destruct p.
  - intros I. pose proof (form_text_fsafe (fst p)) as F. rewrite Forall_forall in F. now destruct (fsafe_not _ (F _ I)) as (_ & H & _).
Qed.
Lemma form_pair_amp p : forallb (fun x => negb (38 =? x)) (form_pair p) = true.
Proof.
  apply forallb_forall. intros x I. apply negb_true_iff, N.eqb_neq. intros <-. unfold form_pair in I. apply in_app_iff in I as [I|[I|I]]; [|discriminate|];
  pose proof (form_text_fsafe (fst p)) as F; pose proof (form_text_fsafe (snd p)) as G; rewrite Forall_forall in F, G; [destruct (fsafe_not _ (F _ I))|destruct (fsafe_not _ (G _ I))]; congruence.
Qed.

(** ** Sorting *)
Lemma insert_perm p d : Permutation (p :: d) (insert_param p d).
Proof.
  induction d as [|q d IH]; [reflexivity|]. cbn. destruct (str_ltb (fst q) (fst p)); [|reflexivity]. rewrite perm_swap. now constructor.
Qed.
Lemma sort_perm d : Permutation d (sort_params d).
Proof. unfold sort_params. induction d as [|p d IH]; [reflexivity|]. cbn [fold_right]. rewrite <- insert_perm. now constructor. Qed.
Lemma str_total a : forall b, str_ltb a b = false -> a = b \/ str_ltb b a = true.
Proof.
  induction a as [|x a IH]; intros [|y b]; cbn; [now left|discriminate|now right|]. destruct (N.ltb_spec x y) as [|A]; [discriminate|]. destruct (N.ltb_spec y x) as [|B]; [now right|]. intros H. assert (x = y) as -> by lia.
  destruct (IH b H) as [->|E]; [now left|now right].
Qed.
Lemma insert_ordered p d : ordered d -> ~ In (fst p) (dkeys d) -> ordered (insert_param p d).
Proof.
  unfold ordered. induction d as [|q d IH]; intros S N; [repeat constructor|]. cbn. inversion_clear S as [|? ? S' H]. cbn in N. destruct (str_ltb (fst q) (fst p)) eqn:E.
  - constructor; [apply IH; [exact S'|tauto]|]. destruct d as [|r d]; cbn; [now constructor|]. inversion_clear H as [|? ? R]. destruct (str_ltb (fst r) (fst p)); now constructor.
  - constructor; [now constructor|]. constructor. destruct (str_total _ _ E) as [X|X]; [|exact X]. exfalso. apply N. now left.
Qed.
Lemma sort_ordered d : dict_ok d -> ordered (sort_params d).
Proof.
  unfold dict_ok, sort_params. induction d as [|p d IH]; intros D; [constructor|]. cbn in D. inversion_clear D as [|? ? N D']. cbn [fold_right]. apply insert_ordered; [now apply IH|]. intros I. apply N.
  unfold dkeys in *. eapply Permutation_in; [|exact I]. symmetry. apply Permutation_map. apply sort_perm.
Qed.
Lemma ordered_unique a b : ordered a -> ordered b -> Permutation a b -> a = b.
Proof.
  unfold ordered. intros A B. assert (T : forall x y z : text * text, str_ltb (fst x) (fst y) = true -> str_ltb (fst y) (fst z) = true -> str_ltb (fst x) (fst z) = true) by (intros x y z; apply str_ltb_trans).
  apply Sorted_StronglySorted in A; [|exact T]. apply Sorted_StronglySorted in B; [|exact T]. revert b B. induction A as [|p a A IH F]; intros b B P; [now apply Permutation_nil in P|].
  destruct B as [|q b B G]; [apply Permutation_sym, Permutation_nil in P; discriminate|]. assert (p = q) as ->.
  - assert (I : In p (q :: b)) by (eapply Permutation_in; [exact P|now left]). assert (J : In q (p :: a)) by (eapply Permutation_in; [symmetry; exact P|now left]).
    destruct I as [I|I]; [now symmetry|]. destruct J as [J|J]; [exact J|]. rewrite Forall_forall in F, G. specialize (F q J). specialize (G p I). cbv beta in F, G. rewrite (str_ltb_asym _ _ F) in G. discriminate.
  - f_equal. apply IH; [exact B|]. now apply Permutation_cons_inv in P.
Qed.
Lemma sort_same a b : dict_ok a -> Permutation a b -> sort_params a = sort_params b.
Proof.
  intros D P. assert (E : dict_ok b) by (unfold dict_ok, dkeys in *; eapply Permutation_NoDup; [apply Permutation_map; exact P|exact D]).
  apply ordered_unique; [now apply sort_ordered|now apply sort_ordered|]. now rewrite <- !sort_perm.
Qed.

(** ** The text *)
Lemma params_text_eq d : d <> [] -> params_text d = join [38] (map form_pair (sort_params d)).
Proof. destruct d; [contradiction|reflexivity]. Qed.
Lemma sort_nonempty d : d <> [] -> sort_params d <> [].
Proof. intros H E. pose proof (sort_perm d) as P. rewrite E in P. apply Permutation_sym, Permutation_nil in P. contradiction. Qed.
Lemma read_params d : Forall (fun p => unicode (fst p) /\ unicode (snd p)) d -> read_form (params_text d) = sort_params d.
Proof.
  intros F. assert (N : d = [] \/ d <> []) by (destruct d; [now left|right; discriminate]). destruct N as [->|N]; [reflexivity|]. rewrite params_text_eq by exact N. unfold read_form. rewrite split_on_join.
  - assert (G : Forall (fun p => unicode (fst p) /\ unicode (snd p)) (sort_params d)) by (eapply Permutation_Forall; [apply sort_perm|exact F]). clear - G.
    induction G as [|p l [A B] G IH]; [reflexivity|]. cbn [map filter]. destruct (form_pair p) eqn:X; [unfold form_pair in X; now destruct (form_text (fst p))|]. rewrite <- X. cbn [map]. rewrite read_pair_form by assumption. f_equal. exact IH.
  - intros H. apply map_eq_nil in H. now apply sort_nonempty in N.
  - apply Forall_map, Forall_forall. intros q _. apply form_pair_amp.
Qed.
Lemma params_order a b : dict_ok a -> Permutation a b -> params_text a = params_text b.
Proof.
  intros D P. destruct a as [|p a]; [apply Permutation_nil in P as ->; reflexivity|]. destruct b as [|q b]; [apply Permutation_sym, Permutation_nil in P; discriminate|].
  unfold params_text. now rewrite (sort_same _ _ D P).
Qed.
Lemma join_form l : Forall form_char (join [38] (map form_pair l)).
Proof.
  assert (T : forall t, Forall form_char (form_text t)) by (intros t; eapply Forall_impl; [|apply form_text_fsafe]; apply fsafe_char).
  assert (P : forall p, Forall form_char (form_pair p)) by (intros p; unfold form_pair; apply Forall_app; split; [apply T|constructor; [unfold form_char; cbn; tauto|apply T]]).
  induction l as [|p [|q l] IH]; [constructor|apply P|]. change (join [38] (map form_pair (p :: q :: l))) with (form_pair p ++ [38] ++ join [38] (map form_pair (q :: l))). apply Forall_app. split; [apply P|]. apply Forall_app. split; [repeat constructor; unfold form_char; cbn; tauto|exact IH].
Qed.
Lemma params_chars d : Forall form_char (params_text d).
Proof. destruct d; [constructor|]. apply join_form. Qed.

(** ** Through URL.search *)
Lemma form_plain_qsafe t : form_plain t -> forallb qsafe t = true /\ form_text t = to_plus t.
Proof.
  intros H. assert (Q : forall c, c = 32 \/ 48 <= c <= 57 \/ 65 <= c <= 90 \/ 97 <= c <= 122 \/ In c (lit "*-._~") -> c = 32 \/ safe_char form_safe c = true).
  { intros c [A|[A|[A|[A|A]]]]; [now left|right|right|right|right].
    - apply digit_range in A. unfold safe_char, is_alnum. rewrite A. now rewrite orb_true_r.
    - apply is_up_iff in A. unfold safe_char, is_alnum. now rewrite A.
    - apply is_low_iff in A. unfold safe_char, is_alnum. rewrite A. now rewrite orb_true_r.
    - cbn in A. repeat (destruct A as [<-|A]; [reflexivity|]). contradiction. }
  split.
  - apply query_plain_qsafe. eapply Forall_impl; [|exact H]. intros c. cbn. tauto.
  - induction H as [|c t C H IH]; [reflexivity|]. change (form_text (c :: t)) with (plus_char form_safe c ++ form_text t). rewrite IH. cbn [to_plus map]. unfold plus_char. destruct (N.eqb_spec c 32); [reflexivity|].
    destruct (Q c C) as [|S]; [contradiction|]. unfold quote_char. now rewrite S.
Qed.
Lemma search_of_params u d : dict_ok d -> Forall (fun p => form_plain (fst p) /\ form_plain (snd p)) d -> u_params (fst (set_search u (params_text d))) = sort_params d.
Proof.
  intros D F. assert (G : Forall (fun p => form_plain (fst p) /\ form_plain (snd p)) (sort_params d)) by (eapply Permutation_Forall; [apply sort_perm|exact F]).
  pose proof (search_back (with_params blank (sort_params d)) u) as S. cbn [with_params u_params] in S. rewrite <- S.
  - assert (N : d = [] \/ d <> []) by (destruct d; [now left|right; discriminate]). destruct N as [->|N]; [reflexivity|]. rewrite params_text_eq by exact N. unfold get_search, with_params, u_params.
    pose proof (sort_nonempty _ N) as M. destruct (sort_params d) as [|q l] eqn:L; [contradiction|]. rewrite <- L. rewrite (sort_params_id (sort_params d)) by now apply sort_ordered.
    unfold set_search. cbn [dropwhile]. change (63 =? 63) with true. cbv iota. replace (map (fun p => quote_query query_safe (fst p) ++ 61 :: quote_query query_safe (snd p)) (sort_params d)) with (map form_pair (sort_params d)); [reflexivity|].
    apply map_ext_in. intros r R. rewrite <- L in G. rewrite Forall_forall in G. destruct (G r R) as [A B]. destruct (form_plain_qsafe _ A) as [A1 A2], (form_plain_qsafe _ B) as [B1 B2]. unfold form_pair. rewrite A2, B2. now rewrite !quote_query_safe.
  - now apply sort_ordered.
  - eapply Forall_impl; [|exact G]. intros p [A B]. split; now apply form_plain_qsafe.
  - intros p r H E. destruct (sort_params d) as [|q l]; [discriminate|]. injection H as ->. inversion_clear G as [|? ? [A _] _]. rewrite E in A. inversion_clear A as [|? ? C _]. cbn in C. lia.
Qed.

(** ** The mapping *)
Lemma update_get l : forall d k, dget (update d l) k = last_of l k (dget d k).
Proof. unfold update. induction l as [|[k' v] l IH]; intros d k; [reflexivity|]. cbn [fold_left fst snd last_of]. rewrite IH, dget_dset. reflexivity. Qed.
Lemma update_ok l : forall d, dict_ok d -> dict_ok (update d l).
Proof. unfold update. induction l as [|[k v] l IH]; intros d D; [exact D|]. cbn [fold_left]. apply IH. now apply dset_ok. Qed.
Lemma step_ok d o : dict_ok d -> dict_ok (fst (params_step d o)).
Proof. intros D. destruct o; cbn; try (destruct (dhas d k)); cbn; auto using dset_ok, ddel_ok, update_ok. constructor. Qed.
Lemma dhas_false (d : dict text) k : dhas d k = false -> dget d k = None.
Proof. unfold dhas. now destruct (dget d k). Qed.
Lemma step_get d o k : dict_ok d -> dget (fst (params_step d o)) k = value_after k (dget d k) o.
Proof.
  intros D. destruct o as [k' v|k'|k'|k' v|l|]; cbn [params_step value_after].
  - apply dget_dset.
  - destruct (dhas d k') eqn:E; cbn [fst]; [now apply dget_ddel|]. destruct (text_eqb k' k) eqn:T; [|reflexivity]. destruct (text_eqb_spec k' k) as [<-|]; [|discriminate]. now apply dhas_false.
  - destruct (dhas d k') eqn:E; cbn [fst]; [now apply dget_ddel|]. destruct (text_eqb k' k) eqn:T; [|reflexivity]. destruct (text_eqb_spec k' k) as [<-|]; [|discriminate]. now apply dhas_false.
  - destruct (dhas d k') eqn:E; cbn [fst].
    + destruct (text_eqb k' k) eqn:T; [|reflexivity]. destruct (text_eqb_spec k' k) as [<-|]; [|discriminate]. unfold dhas in E. now destruct (dget d k').
    + rewrite dget_dset. destruct (text_eqb k' k) eqn:T; [|reflexivity]. destruct (text_eqb_spec k' k) as [<-|]; [|discriminate]. now rewrite (dhas_false _ _ E).
  - apply update_get.
  - reflexivity.
Qed.
Lemma run_get ops : forall d k, dict_ok d -> dict_ok (params_run d ops) /\ dget (params_run d ops) k = fold_left (value_after k) ops (dget d k).
Proof.
  unfold params_run. induction ops as [|o ops IH]; intros d k D; [now split|]. cbn [fold_left]. rewrite <- step_get by exact D. apply IH. now apply step_ok.
Qed.
Lemma last_of_app a b k o : last_of (a ++ b) k o = last_of b k (last_of a k o).
Proof. revert o. induction a as [|[x y] a IH]; intros o; [reflexivity|]. cbn. apply IH. Qed.
Lemma last_of_get l k o : dict_ok l -> last_of l k o = match dget l k with Some v => Some v | None => o end.
Proof.
  unfold dict_ok. revert o. induction l as [|[x y] l IH]; intros o D; [reflexivity|]. cbn in *. inversion_clear D as [|? ? N D']. rewrite IH by exact D'. destruct (text_eqb_spec x k) as [<-|]; [|reflexivity].
  apply dget_keys in N. now rewrite N.
Qed.
Lemma new_get l k : dict_ok (params_new l) /\ dget (params_new l) k = last_of l k None.
Proof.
  assert (O : dict_ok (update [] l)) by (apply update_ok; constructor). split; [apply update_ok; constructor|]. unfold params_new. rewrite update_get. rewrite last_of_get by exact O. rewrite update_get. cbn. now destruct (last_of l k None).
Qed.
Lemma step_error d o e : snd (params_step d o) = Some e <-> exists k, o = PDel k /\ e = KeyError /\ dget d k = None.
Proof.
  destruct o as [k v|k|k|k v|l|]; cbn; try (split; [discriminate|intros (? & ? & _); discriminate]). unfold dhas. destruct (dget d k) eqn:E; cbn.
  - split; [discriminate|]. intros (k' & [= <-] & _ & H). congruence.
  - split; [intros [= <-]; eauto|]. intros (k' & _ & -> & _). reflexivity.
Qed.
