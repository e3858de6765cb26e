From Coq Require Import ZArith Lia.
From Verif Require Import PyBase PyText PyList PySplit PyDict PyCase UtilsModel UtilsSpec UtilsProofs RulesModel RulesSpec RulesProofs.
#[local] Open Scope nat_scope.

(** ** Edits *)
Record kept_ok (N0 : nat) (sheet parent : option nat) (l l' : list rule) (n : nat) : Prop := {
  k_placed : Forall (placed sheet parent) l';
  k_distinct : NoDup (flat_map ids l');
  k_le : N0 <= n;
  k_from : forall i, In i (flat_map ids l') -> In i (flat_map ids l) \/ N0 <= i < n }.
Definition good (N0 : nat) (f : option nat -> option nat -> list rule -> result (list rule * nat)) : Prop :=
  forall sheet parent l l' n, Forall (placed sheet parent) l -> NoDup (flat_map ids l) -> (forall i, In i (flat_map ids l) -> i < N0) ->
    f sheet parent l = Ok (l', n) -> kept_ok N0 sheet parent l l' n.
Lemma NoDup_app_iff {A} (a b : list A) : NoDup (a ++ b) <-> NoDup a /\ NoDup b /\ (forall x, In x a -> ~ In x b).
Proof.
  induction a as [|x a IH]; cbn [app].
  - split; [intros H; repeat split; [constructor|exact H|intros x []]|tauto].
  - rewrite !NoDup_cons_iff, IH, in_app_iff. split.
    + intros (H1 & H2 & H3 & H4). repeat split; auto. intros y [<-|I]; auto.
    + intros ((H1 & H2) & H3 & H4). repeat split; auto; [|intros y I; apply H4; now right]. intros [I|I]; [now apply H1|]. apply (H4 x); auto. now left.
Qed.
Lemma swap_ok N0 sheet parent a x x' b n :
  Forall (placed sheet parent) (a ++ x :: b) -> NoDup (flat_map ids (a ++ x :: b)) -> (forall i, In i (flat_map ids (a ++ x :: b)) -> i < N0) ->
  placed sheet parent x' -> NoDup (ids x') -> N0 <= n -> (forall i, In i (ids x') -> In i (ids x) \/ N0 <= i < n) ->
  kept_ok N0 sheet parent (a ++ x :: b) (a ++ x' :: b) n.
Proof.
  intros P D L Px Dx Le From. rewrite flat_map_app in D, L. cbn [flat_map] in D, L. apply Forall_app in P. destruct P as [Pa Pb]. apply Forall_cons_iff in Pb. destruct Pb as [_ Pb].
  rewrite !NoDup_app_iff in D. destruct D as (Da & (Dx0 & Db & Dxb) & Dax). split.
  - apply Forall_app. split; [exact Pa|]. now constructor.
  - rewrite flat_map_app. cbn [flat_map]. rewrite !NoDup_app_iff. repeat split; auto.
    + intros i I J. destruct (From i I) as [X|X]; [now apply (Dxb i X)|]. assert (i < N0) by (apply L; apply in_or_app; right; apply in_or_app; now right). lia.
    + intros i I J. apply in_app_or in J. destruct J as [J|J].
      * destruct (From i J) as [X|X]; [apply (Dax i I); apply in_or_app; now left|]. assert (i < N0) by (apply L; apply in_or_app; now left). lia.
      * apply (Dax i I). apply in_or_app. now right.
  - exact Le.
  - intros i. rewrite !flat_map_app. cbn [flat_map]. rewrite !in_app_iff. intros [I|[I|I]]; [auto| |auto]. destruct (From i I); auto.
Qed.
Lemma split_nth {A} (l : list A) i x : nth_error l i = Some x -> l = firstn i l ++ x :: skipn (S i) l.
Proof. revert l. induction i as [|i IH]; intros [|y l]; cbn [nth_error firstn skipn app]; try discriminate; [now intros [= ->]|]. intros H. f_equal. now apply IH. Qed.
Lemma at_place_good N0 f place : good N0 f -> good N0 (fun sh p l => at_place place sh p l f).
Proof.
  intros G. induction place as [|i place IH]; intros sheet parent l l' n P D L; cbn [at_place]; [now apply G|].
  destruct (nth_error l i) as [r|] eqn:E; [|discriminate]. destruct r as [id k s p kids]. destruct k as [a b|a|a b|a b|m|a b]; try discriminate.
  destruct (at_place place s (Some id) kids f) as [[kids' n']|] eqn:F; [|discriminate]. pose proof (split_nth l i _ E) as S.
  remember (firstn i l) as u. remember (skipn (Datatypes.S i) l) as v. cbn [bind]. intros [= <- <-]. clear Hequ Heqv E. subst l. pose proof P as P0. apply Forall_app in P0. destruct P0 as [_ P0]. apply Forall_cons_iff in P0. destruct P0 as [Px _].
  cbn [placed] in Px. destruct Px as (-> & -> & Pk). apply placed_all in Pk.
  assert (Lx : forall j, In j (ids (Rl id (KMedia m) sheet parent kids)) -> j < N0) by (intros j I; apply L; rewrite flat_map_app; cbn [flat_map]; apply in_or_app; right; apply in_or_app; now left).
  assert (Dx : NoDup (ids (Rl id (KMedia m) sheet parent kids))).
  { rewrite flat_map_app in D. cbn [flat_map] in D. rewrite !NoDup_app_iff in D. tauto. }
  cbn [ids] in Dx, Lx. apply NoDup_cons_iff in Dx. destruct Dx as [Dx1 Dx2].
  destruct (IH sheet (Some id) kids kids' n' Pk Dx2 ltac:(intros j I; apply Lx; now right) F) as [K1 K2 K3 K4].
  apply swap_ok; auto.
  - cbn [placed]. repeat split. now apply placed_all.
  - cbn [ids]. apply NoDup_cons_iff. split; [|exact K2]. intros I. destruct (K4 id I) as [X|X]; [now apply Dx1|]. specialize (Lx id (or_introl eq_refl)). lia.
  - intros j. cbn [ids]. intros [<-|I]; [left; now left|]. destruct (K4 j I); [left; now right|now right].
Qed.
Lemma insert_good resolve N0 nodes i : good N0 (fun sh p l => do (new, n) <- parse_rules resolve sh p nodes N0; Ok (list_set_slice l i i new, n)).
Proof.
  intros sheet parent l l' n P D L. destruct (parse_rules resolve sheet parent nodes N0) as [[new m]|] eqn:E; [|discriminate]. cbn [bind]. intros [= <- <-]. apply rules_made in E. destruct E as [_ _ A3 A4 A5 A6].
  unfold list_set_slice. rewrite Nat.max_id. set (k := clamp_index (length l) i). assert (S : l = firstn k l ++ skipn k l) by now rewrite firstn_skipn.
  rewrite S in P, D, L. rewrite flat_map_app in D, L. apply Forall_app in P. destruct P as [P1 P2]. rewrite NoDup_app_iff in D. destruct D as (D1 & D2 & D3). split.
  - apply Forall_app. split; [exact P1|]. apply Forall_app. auto.
  - rewrite !flat_map_app, !NoDup_app_iff. repeat split; auto.
    + intros j I J. apply A6 in I. assert (j < N0) by (apply L; apply in_or_app; now right). lia.
    + intros j I J. apply in_app_or in J. destruct J as [J|J]; [|now apply (D3 j I)]. apply A6 in J. assert (j < N0) by (apply L; apply in_or_app; now left). lia.
  - exact A4.
  - intros j. rewrite !flat_map_app, !in_app_iff. assert (T : flat_map ids l = flat_map ids (firstn k l) ++ flat_map ids (skipn k l)) by (rewrite <- flat_map_app; now f_equal). rewrite T, in_app_iff. intros [I|[I|I]]; [now left; left|right; now apply A6|left; now right].
Qed.
Lemma delete_good N0 i : good N0 (fun _ _ l => do l' <- list_del l i; Ok (l', N0)).
Proof.
  intros sheet parent l l' n P D L. unfold list_del. destruct (norm_index (length l) i) as [k|] eqn:K; [|discriminate]. cbn [bind]. intros [= <- <-].
  assert (S : exists x, l = firstn k l ++ x :: skipn (S k) l).
  { destruct (nth_error l k) as [x|] eqn:E; [exists x; now apply split_nth|]. apply nth_error_None in E. unfold norm_index in K. destruct (_ && _)%bool eqn:B; [|discriminate]. apply andb_true_iff in B. destruct B as [B1 B2].
    apply Z.leb_le in B1. apply Z.ltb_lt in B2. injection K as <-. lia. }
  destruct S as (x & S). rewrite S in P, D, L. rewrite flat_map_app in D, L. cbn [flat_map] in D, L. apply Forall_app in P. destruct P as [P1 P2]. apply Forall_cons_iff in P2. destruct P2 as [_ P2].
  rewrite !NoDup_app_iff in D. destruct D as (D1 & (D2 & D3 & D4) & D5). split.
  - apply Forall_app. auto.
  - rewrite flat_map_app, NoDup_app_iff. repeat split; auto. intros j I J. apply (D5 j I). apply in_or_app. now right.
  - lia.
  - intros j. rewrite flat_map_app, in_app_iff. assert (T : flat_map ids l = flat_map ids (firstn k l) ++ ids x ++ flat_map ids (skipn (Datatypes.S k) l)) by (rewrite S at 1; now rewrite flat_map_app). rewrite T, !in_app_iff. tauto.
Qed.
Lemma edit_ok resolve s o s' : sheet_ok s -> edit resolve s o = Ok s' -> sheet_ok s' /\ sid s' = sid s /\ owner_rule s' = owner_rule s.
Proof.
  intros [P D L]. unfold edit.
  assert (G : forall l n, kept_ok (fresh s) (Some (sid s)) (owner_rule s) (css_rules s) l n -> sheet_ok (mkSheet (sid s) (owner_rule s) l n)).
  { intros l n [K1 K2 K3 K4]. split; cbn [sid owner_rule css_rules fresh]; auto. intros i I. destruct (K4 i I) as [X|X]; [apply L in X; lia|lia]. }
  destruct o as [place nodes i|place i].
  - destruct (at_place place _ _ _ _) as [[l n]|] eqn:E; [|discriminate]. cbn [bind]. intros [= <-]. split; [|split; reflexivity]. apply G.
    exact (at_place_good (fresh s) _ place (insert_good resolve (fresh s) nodes i) _ _ _ _ _ P D L E).
  - destruct (at_place place _ _ _ _) as [[l n]|] eqn:E; [|discriminate]. cbn [bind]. intros [= <-]. split; [|split; reflexivity]. apply G.
    exact (at_place_good (fresh s) _ place (delete_good (fresh s) i) _ _ _ _ _ P D L E).
Qed.
Lemma edits_ok resolve ops : forall s, sheet_ok s -> sheet_ok (edits resolve s ops) /\ sid (edits resolve s ops) = sid s /\ owner_rule (edits resolve s ops) = owner_rule s.
Proof.
  induction ops as [|o ops IH]; intros s H; [auto|]. unfold edits. cbn [fold_left]. destruct (edit resolve s o) as [s'|] eqn:E; [|now apply IH].
  apply edit_ok in E; [|exact H]. destruct E as (A & B & C). destruct (IH s' A) as (X & Y & Z). unfold edits in *. rewrite Y, Z. auto.
Qed.

(** ** Feature values *)
Lemma fstep_blank ft s t : blank t = true -> fstep ft s t = s.
Proof. destruct t; try discriminate. intros _. destruct s as [[fs nm] vs]. reflexivity. Qed.
Lemma fold_blank ft l : forall s, fold_left (fstep ft) l s = fold_left (fstep ft) (filter (fun t => negb (blank t)) l) s.
Proof.
  induction l as [|t l IH]; intros s; [reflexivity|]. cbn [fold_left filter]. destruct (blank t) eqn:B; cbn [negb]; [rewrite fstep_blank by exact B; apply IH|]. cbn [fold_left]. apply IH.
Qed.
Lemma fold_ints ft vs : forall fs nm acc, Forall (fun n => (0 <= n)%Z) vs -> fold_left (fstep ft) (map Int vs) (fs, Some nm, Some acc) = (fs, Some nm, Some (acc ++ vs)).
Proof.
  induction vs as [|v vs IH]; intros fs nm acc F; cbn [map fold_left fstep]; [now rewrite app_nil_r|]. apply Forall_cons_iff in F. destruct F as [F1 F2]. apply Z.leb_le in F1. rewrite F1, IH by exact F2. now rewrite <- app_assoc.
Qed.
Lemma fold_spell ft fs d : proper d -> fold_left (fstep ft) (spell d) (fs, None, None) = (store fs ft (fst d) (snd d), None, None).
Proof.
  destruct d as [nm vs]. intros [NE F]. cbn [fst snd] in *. unfold spell. cbn [fst snd fold_left fstep]. replace (text_eqb (lit ":") (lit ":")) with true by reflexivity. rewrite fold_left_app. rewrite (fold_ints ft vs fs nm [] F). cbn [app fold_left fstep].
  replace (text_eqb (lit ";") (lit ":")) with false by reflexivity. replace (text_eqb (lit ";") (lit ";")) with true by reflexivity. destruct vs; [congruence|reflexivity].
Qed.
Lemma fold_spells ft ds : forall fs, Forall proper ds -> fold_left (fstep ft) (flat_map spell ds) (fs, None, None) = (fold_left (fun fs d => store fs ft (fst d) (snd d)) ds fs, None, None).
Proof.
  induction ds as [|d ds IH]; intros fs F; [reflexivity|]. apply Forall_cons_iff in F. destruct F as [F1 F2]. cbn [flat_map]. rewrite fold_left_app, fold_spell by exact F1. cbn [fold_left]. now apply IH.
Qed.
Lemma read_written fs ft content ds : written content ds -> read_features fs ft content = fold_left (fun fs d => store fs ft (fst d) (snd d)) ds fs.
Proof. intros [E F]. unfold read_features. rewrite fold_blank, E, fold_spells by exact F. reflexivity. Qed.
(* the maps and their histories *)
Definition follows (fs : features) (es : list (text * list (text * list Z))) : Prop :=
  forall ft, dget fs ft = if mem ft feature_types then Some (ci_run lower (history_of ft es)) else None.
Lemma follows_start : follows no_features [].
Proof.
  intros ft. unfold no_features, feature_types, mem. cbn [map dget existsb]. unfold dget.
  repeat match goal with |- context [text_eqb ?a ?b] => destruct (text_eqb_spec a b) as [?E|?E]; [try reflexivity|] end; try reflexivity; try (subst; congruence).
Qed.
Lemma dget_store fs k nm v ft : dget (store fs k nm v) ft = if text_eqb k ft then match dget fs ft with Some m => Some (ci_set lower m nm v) | None => None end else dget fs ft.
Proof.
  unfold store. destruct (text_eqb_spec k ft) as [E|E].
  - subst ft. destruct (dget fs k) eqn:D; [|exact D]. rewrite dget_dset. now rewrite text_eqb_refl.
  - destruct (dget fs k) eqn:D; [|reflexivity]. rewrite dget_dset. now destruct (text_eqb_spec k ft).
Qed.
Lemma follows_store ds : forall fs kw ft m, dget fs ft = Some m -> dget (fold_left (fun fs d => store fs kw (fst d) (snd d)) ds fs) ft =
  Some (if text_eqb kw ft then fold_left (ci_step lower) (map (fun d => CSet (fst d) (snd d)) ds) m else m).
Proof.
  induction ds as [|d ds IH]; intros fs kw ft m D; cbn [fold_left map].
  - rewrite D. now destruct (text_eqb kw ft).
  - rewrite (IH _ _ _ (if text_eqb kw ft then ci_set lower m (fst d) (snd d) else m)); [now destruct (text_eqb kw ft)|]. rewrite dget_store, D. now destruct (text_eqb kw ft).
Qed.
Lemma follows_none ds : forall fs kw ft, dget fs ft = None -> dget (fold_left (fun fs d => store fs kw (fst d) (snd d)) ds fs) ft = None.
Proof.
  induction ds as [|d ds IH]; intros fs kw ft D; cbn [fold_left]; [exact D|]. apply IH. rewrite dget_store, D. now destruct (text_eqb kw ft).
Qed.
Lemma follows_step fs es kw content ds : follows fs es -> written content ds -> follows (read_features fs kw content) (es ++ [(kw, ds)]).
Proof.
  intros H W ft. rewrite (read_written _ _ _ _ W). specialize (H ft). destruct (mem ft feature_types); [|now apply follows_none].
  rewrite (follows_store ds fs kw ft _ H). f_equal. unfold history_of. rewrite filter_app, flat_map_app, map_app. cbn [filter fst]. destruct (text_eqb kw ft); cbn [flat_map snd map app].
  - rewrite app_nil_r. unfold ci_run. now rewrite fold_left_app.
  - now rewrite app_nil_r.
Qed.
Lemma features_follow nodes es : Forall2 wrote nodes es -> forall fs es0, follows fs es0 -> exists fs', features_of fs nodes = Ok fs' /\ follows fs' (es0 ++ es).
Proof.
  induction 1 as [|nd e nodes es W Ws IH]; intros fs es0 F.
  - exists fs. split; [reflexivity|]. now rewrite app_nil_r.
  - destruct W as (pre & content & inner & -> & W). destruct e as [kw ds]. cbn [fst snd] in *. cbn [features_of]. destruct (IH _ _ (follows_step fs es0 kw content ds F W)) as (fs' & E & G). exists fs'. split; [exact E|].
    now rewrite <- app_assoc in G.
Qed.
(* whatever the tokens, only non-empty lists of non-negative numbers are kept *)
Definition values_ok (fs : features) : Prop := forall ft m k v, dget fs ft = Some m -> dget (cdata m) k = Some v -> v <> [] /\ Forall (fun n => (0 <= n)%Z) v.
Lemma values_store fs ft nm v : values_ok fs -> v <> [] -> Forall (fun n => (0 <= n)%Z) v -> values_ok (store fs ft nm v).
Proof.
  intros H NE F ft' m k w. rewrite dget_store. destruct (text_eqb ft ft'); [|apply H]. destruct (dget fs ft') as [m0|] eqn:D; [|discriminate]. intros [= <-]. unfold ci_set.
  destruct (dget (ckeys m0) (lower nm)) as [k'|]; cbn [cdata]; rewrite dget_dset; (destruct (text_eqb _ k); [intros [= <-]; auto|apply (H ft' m0 k w D)]).
Qed.
Lemma values_fold ft l : forall fs nm vs, values_ok fs -> match vs with Some v => Forall (fun n => (0 <= n)%Z) v | None => True end -> values_ok (fst (fst (fold_left (fstep ft) l (fs, nm, vs)))).
Proof.
  induction l as [|t l IH]; intros fs nm vs H F; [exact H|]. cbn [fold_left]. destruct t as [v|v|v|v|n|v]; cbn [fstep]; try (now apply IH).
  - destruct (text_eqb v (lit ":")); [apply IH; [exact H|]; destruct nm; [constructor|exact F]|]. destruct (text_eqb v (lit ";")); [|now apply IH]. apply IH; [|exact I].
    destruct nm as [nm|]; [|exact H]. destruct vs as [[|x vs]|]; [exact H| |exact H]. apply values_store; [exact H|discriminate|exact F].
  - apply IH; [exact H|]. destruct vs as [vs|]; [|exact I]. destruct (0 <=? n)%Z eqn:E; [|exact F]. apply Forall_app. split; [exact F|]. constructor; [now apply Z.leb_le|constructor].
Qed.
Lemma values_of nodes : forall fs fs', values_ok fs -> features_of fs nodes = Ok fs' -> values_ok fs'.
Proof.
  induction nodes as [|[kw p b c i|p c|] nodes IH]; intros fs fs' H; cbn [features_of]; [now intros [= <-]| |apply IH; exact H|apply IH; exact H].
  destruct b; [|discriminate]. apply IH. unfold read_features. now apply values_fold.
Qed.
