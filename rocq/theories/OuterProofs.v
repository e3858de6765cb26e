From Coq Require Import QArith ZArith Lia Permutation.
From Verif Require Import PyBase PyText PyList ForestModel ForestSpec ForestProofs ForestProofs2 ForestProofs3 ForestProofs4 ForestProofs5 ForestProofs6 ForestProofs7 OuterModel OuterSpec.
#[local] Open Scope nat_scope.

Lemma enough_all s : enough s = length (all s). Proof. reflexivity. Qed.

(** ** The order of a tree *)
Lemma below_trans s a b c : below s a b -> below s b c -> below s a c.
Proof. intros H K. induction K; [exact H|]. eapply below_child; eauto. Qed.
Lemma below_in s a n : below s a n -> In n (all s).
Proof. destruct 1; [assumption|]. eapply kid_in; eauto. Qed.
Lemma below_self s n : In n (all s) -> below s n n. Proof. intros I. now constructor. Qed.
Lemma row_in s p k o l : Row s p k o l -> In p (all s).
Proof. intros R. rewrite <- facts_keys. exact (in_map key _ _ R). Qed.

(* how many nodes stand under a node *)
Definition load (s : forest) (n : nat) : nat := match seek_in s n with Some t => length (ids t) | None => 0 end.
Lemma sub_ids (t u : tree) : In u (kids_of t) -> length (ids u) < length (ids t).
Proof.
  destruct t as [i k o ks]. cbn [kids_of ids length]. intros I. apply in_split in I. destruct I as (a & b & ->). rewrite flat_map_app. cbn [flat_map]. rewrite !app_length. lia.
Qed.
Lemma load_parent s p k o l c : NoDup (all s) -> Row s p k o l -> In c l -> load s c < load s p.
Proof.
  intros D R I. destruct (read_row s p k o l D R) as (t & E & Et & L). subst l. apply in_map_iff in I. destruct I as (u & <- & I).
  destruct (seek_ctx_in s p t E) as (It & ct & Ft & _). apply in_split in I. destruct I as (a & b & Ks). rewrite Ks in Et.
  assert (F : fill (Deep ct p k o a b) [u] = s) by (cbn [fill app]; rewrite <- Ft, Et; reflexivity).
  assert (V : seek_in s (id_of u) = Some u) by (rewrite <- F; apply seek_at; now rewrite F).
  unfold load. rewrite E, V. apply sub_ids. rewrite Ks. apply in_or_app. right. now left.
Qed.
Lemma load_below s a n : NoDup (all s) -> below s a n -> a = n \/ load s n < load s a.
Proof. intros D H. induction H as [H|q k o l x H IH R I]; [now left|]. right. pose proof (load_parent s q k o l x D R I). destruct IH as [<- |IH]; lia. Qed.
Lemma below_anti s a b : NoDup (all s) -> below s a b -> below s b a -> a = b.
Proof. intros D H K. destruct (load_below s a b D H), (load_below s b a D K); congruence || lia. Qed.

(* the way up *)
Lemma below_up s a n : NoDup (all s) -> In n (all s) -> below s a n <-> a = n \/ exists p, parent_of s n = Some p /\ below s a p.
Proof.
  intros D J. split.
  - intros H. destruct H as [H|q k o l x H R I]; [now left|]. right. exists q. split; [|exact H]. destruct (parent_of s x) as [p|] eqn:E.
    + destruct (parent_row s x p E) as (k' & o' & l' & R' & I'). now rewrite (one_parent s x p k' o' l' q k o l D R' R I' I).
    + destruct (parent_none s x E q k o l R I).
  - intros [-> |(p & E & H)]; [now constructor|]. destruct (parent_row s n p E) as (k & o & l & R & I). eapply below_child; eauto.
Qed.
Lemma parent_in_all s n p : parent_of s n = Some p -> In p (all s) /\ In n (all s).
Proof. intros E. destruct (parent_row s n p E) as (k & o & l & R & I). split; [eapply row_in; eauto|eapply kid_in; eauto]. Qed.
Lemma parent_load s n p : NoDup (all s) -> parent_of s n = Some p -> load s n < load s p.
Proof. intros D E. destruct (parent_row s n p E) as (k & o & l & R & I). eapply load_parent; eauto. Qed.

Lemma load_bound s n : NoDup (all s) -> load s n <= length (all s).
Proof.
  intros D. unfold load. destruct (seek_in s n) as [t|] eqn:E; [|lia]. destruct (seek_ctx_in s n t E) as (I & c & F & _).
  apply NoDup_incl_length.
  - pose proof (Permutation_NoDup (fill_all c [t])) as X. rewrite F in X. specialize (X D). rewrite NoDup_app_iff in X. destruct X as (_ & X & _). cbn [flat_map] in X. now rewrite app_nil_r in X.
  - intros q Q. apply (below_in s n). now apply (below_tree s n c t D F I).
Qed.
Lemma load_pos s n : In n (all s) -> 1 <= load s n.
Proof. intros I. unfold load. destruct (seek_some s n I) as (t & ->). destruct t. cbn. lia. Qed.

(** ** The searches *)
Definition is_of (test : text -> bool) (names : list text) : Prop := forall t, test t = true <-> In t names.
Lemma svg_is : is_of svg_name svg.
Proof. intros t. unfold svg_name, svg. destruct (text_eqb_spec t (lit "svg")); cbn [In]; intuition congruence. Qed.
Lemma viewport_is : is_of viewport_name viewports.
Proof. intros t. unfold viewport_name, viewports. rewrite orb_true_iff. destruct (text_eqb_spec t (lit "svg")), (text_eqb_spec t (lit "symbol")); cbn [In]; intuition congruence. Qed.

Lemma nearest_ok test names w : is_of test names -> NoDup (all (w_tree w)) -> forall fuel n, In n (all (w_tree w)) -> length (all (w_tree w)) < fuel + load (w_tree w) n ->
  match nearest_loop fuel test w (Some n) with
  | Some r => innermost w names n r
  | None => forall q, below (w_tree w) q n -> ~ named w names q
  end.
Proof.
  intros T D. induction fuel as [|f IH]; intros n I F; [pose proof (load_bound (w_tree w) n D); lia|]. cbn [nearest_loop].
  destruct (test (w_name w n)) eqn:E.
  - apply T in E. split; [now constructor|]. split; [exact E|]. intros q H _. exact H.
  - assert (E' : ~ named w names n) by (unfold named; rewrite <- (T _); congruence).
    destruct (parent_of (w_tree w) n) as [p|] eqn:P.
    + destruct (parent_in_all _ _ _ P) as [Ip _]. pose proof (parent_load _ _ _ D P) as PL. specialize (IH p Ip ltac:(lia)).
      destruct (nearest_loop f test w (Some p)) as [r|].
      * destruct IH as (A1 & A2 & A3). split; [apply (below_up _ r n D I); eauto|]. split; [exact A2|]. intros q H N. apply (below_up _ q n D I) in H. destruct H as [-> |(p' & E2 & H)]; [destruct (E' N)|]. assert (p' = p) as -> by congruence. now apply A3.
      * intros q H N. apply (below_up _ q n D I) in H. destruct H as [-> |(p' & E2 & H)]; [destruct (E' N)|]. assert (p' = p) as -> by congruence. exact (IH q H N).
    + assert (X : nearest_loop f test w None = None) by now destruct f. rewrite X. intros q H N. apply (below_up _ q n D I) in H. destruct H as [-> |(p' & E2 & H)]; [destruct (E' N)|congruence].
Qed.
Lemma farthest_ok test names w : is_of test names -> NoDup (all (w_tree w)) -> forall fuel n root, In n (all (w_tree w)) -> length (all (w_tree w)) < fuel + load (w_tree w) n ->
  (exists r, farthest_loop fuel test w root (Some n) = Some r /\ outermost w names n r) \/
  (farthest_loop fuel test w root (Some n) = root /\ forall q, below (w_tree w) q n -> ~ named w names q).
Proof.
  intros T D. induction fuel as [|f IH]; intros n root I F; [pose proof (load_bound (w_tree w) n D); lia|]. cbn [farthest_loop].
  destruct (parent_of (w_tree w) n) as [p|] eqn:P.
  - destruct (parent_in_all _ _ _ P) as [Ip _]. pose proof (parent_load _ _ _ D P) as PL. specialize (IH p (if test (w_name w n) then Some n else root) Ip ltac:(lia)).
    assert (Up : forall q, below (w_tree w) q n -> q = n \/ below (w_tree w) q p).
    { intros q H'. apply (below_up _ q n D I) in H'. destruct H' as [-> |(p' & E2 & H')]; [now left|right]. now assert (p' = p) as <- by congruence. }
    destruct IH as [(r & E & A1 & A2 & A3)|[E A]].
    + left. exists r. split; [exact E|]. assert (B : below (w_tree w) r n) by (apply (below_up _ r n D I); eauto). split; [exact B|]. split; [exact A2|]. intros q Hq N. destruct (Up q Hq) as [-> |U]; [exact B|now apply A3].
    + rewrite E. destruct (test (w_name w n)) eqn:E1.
      * left. exists n. split; [reflexivity|]. apply T in E1. split; [now constructor|]. split; [exact E1|]. intros q Hq N. destruct (Up q Hq) as [-> |U]; [now constructor|]. destruct (A q U N).
      * right. split; [reflexivity|]. intros q Hq N. destruct (Up q Hq) as [-> |U]; [|exact (A q U N)]. apply T in N. congruence.
  - assert (X : forall x, farthest_loop f test w x None = x) by now destruct f. rewrite X.
    assert (Up : forall q, below (w_tree w) q n -> q = n) by (intros q H'; apply (below_up _ q n D I) in H'; destruct H' as [-> |(p' & E2 & H')]; [reflexivity|congruence]).
    destruct (test (w_name w n)) eqn:E1.
    + left. exists n. split; [reflexivity|]. apply T in E1. split; [now constructor|]. split; [exact E1|]. intros q Hq N. rewrite (Up q Hq). now constructor.
    + right. split; [reflexivity|]. intros q Hq N. rewrite (Up q Hq) in N. apply T in N. congruence.
Qed.
Lemma start_fuel s n : In n (all s) -> length (all s) < enough s + load s n.
Proof. intros I. rewrite enough_all. pose proof (load_pos s n I). lia. Qed.

Lemma innermost_one w names n r r' : NoDup (all (w_tree w)) -> innermost w names n r -> innermost w names n r' -> r = r'.
Proof. intros D (A1 & A2 & A3) (B1 & B2 & B3). apply (below_anti (w_tree w)); auto. Qed.
Lemma outermost_one w names n r r' : NoDup (all (w_tree w)) -> outermost w names n r -> outermost w names n r' -> r = r'.
Proof. intros D (A1 & A2 & A3) (B1 & B2 & B3). apply (below_anti (w_tree w)); auto. Qed.

Lemma nearest_iff test names w n : is_of test names -> NoDup (all (w_tree w)) -> In n (all (w_tree w)) ->
  (forall r, nearest_loop (enough (w_tree w)) test w (Some n) = Some r <-> innermost w names n r) /\
  (nearest_loop (enough (w_tree w)) test w (Some n) = None <-> forall q, below (w_tree w) q n -> ~ named w names q).
Proof.
  intros T D I. pose proof (nearest_ok test names w T D (enough (w_tree w)) n I (start_fuel _ _ I)) as H. destruct (nearest_loop _ _ _ _) as [x|].
  - split.
    + intros r. split; [intros [= <-]; exact H|]. intros K. f_equal. exact (innermost_one _ _ _ _ _ D H K).
    + split; [discriminate|]. intros K. destruct H as (A1 & A2 & _). destruct (K x A1 A2).
  - split; [|tauto]. intros r. split; [discriminate|]. intros (A1 & A2 & _). destruct (H r A1 A2).
Qed.
Lemma farthest_iff test names w n : is_of test names -> NoDup (all (w_tree w)) -> In n (all (w_tree w)) ->
  (forall r, farthest_loop (enough (w_tree w)) test w None (Some n) = Some r <-> outermost w names n r) /\
  (farthest_loop (enough (w_tree w)) test w None (Some n) = None <-> forall q, below (w_tree w) q n -> ~ named w names q).
Proof.
  intros T D I. destruct (farthest_ok test names w T D (enough (w_tree w)) n None I (start_fuel _ _ I)) as [(x & -> & H)|[-> H]].
  - split.
    + intros r. split; [intros [= <-]; exact H|]. intros K. f_equal. exact (outermost_one _ _ _ _ _ D H K).
    + split; [discriminate|]. intros K. destruct H as (A1 & A2 & _). destruct (K x A1 A2).
  - split; [|tauto]. intros r. split; [discriminate|]. intros (A1 & A2 & _). destruct (H r A1 A2).
Qed.

(** ** Outermost elements *)
Lemma inner_iff w n : NoDup (all (w_tree w)) -> In n (all (w_tree w)) -> inner w n = false <-> outer w n.
Proof.
  intros D I. unfold inner, get_farthest_svg_element. destruct (farthest_iff svg_name svg w n svg_is D I) as [F1 F2]. destruct (farthest_loop _ _ _ _ _) as [r|].
  - pose proof (proj1 (F1 r) eq_refl) as (A1 & A2 & A3). rewrite negb_false_iff, Nat.eqb_eq. split.
    + intros -> q H N. apply (below_anti (w_tree w)); auto.
    + intros O. exact (O r A1 A2).
  - split; [|reflexivity]. intros _ q H N. destruct (proj1 F2 eq_refl q H N).
Qed.
Lemma is_farthest_iff w n : NoDup (all (w_tree w)) -> In n (all (w_tree w)) -> is_farthest w n = true <-> named w svg n /\ outer w n.
Proof.
  intros D I. unfold is_farthest, get_farthest_svg_element. destruct (farthest_iff svg_name svg w n svg_is D I) as [F1 F2]. destruct (farthest_loop _ _ _ _ _) as [r|].
  - pose proof (proj1 (F1 r) eq_refl) as (A1 & A2 & A3). rewrite Nat.eqb_eq. split.
    + intros ->. split; [exact A2|]. intros q H N. apply (below_anti (w_tree w)); auto.
    + intros [_ O]. exact (O r A1 A2).
  - split; [discriminate|]. intros [N O]. destruct (proj1 F2 eq_refl n (below_self _ _ I) N).
Qed.

(** ** Histories *)
Lemma act_tree w d : w_tree (act w d) = runs (w_tree w) (edits [d]) /\ w_name (act w d) = w_name w.
Proof.
  destruct d as [o|n q|n p|n v|n t]; cbn [act edits runs fold_left]; try (split; reflexivity).
  - unfold set_current_scale. now destruct (inner w n).
  - unfold set_current_translate. now destruct (inner w n).
  - unfold set_zoom_and_pan. now destruct (find _ _).
Qed.
Lemma edits_app a b : edits (a ++ b) = edits a ++ edits b.
Proof. induction a as [|[o|n q|n p|n v|n t] a IH]; cbn [app edits]; try exact IH; [reflexivity|]. now rewrite IH. Qed.
Lemma runs_app s a b : runs s (a ++ b) = runs (runs s a) b. Proof. apply fold_left_app. Qed.
Lemma acts_snoc w ds d : acts w (ds ++ [d]) = act (acts w ds) d. Proof. unfold acts. now rewrite fold_left_app. Qed.
Lemma acts_tree w ds : w_tree (acts w ds) = runs (w_tree w) (edits ds) /\ w_name (acts w ds) = w_name w.
Proof.
  induction ds as [|d ds IH] using rev_ind; [now split|]. rewrite acts_snoc, edits_app, runs_app. destruct (act_tree (acts w ds) d) as [E1 E2], IH as [I1 I2]. rewrite E1, E2, I1, I2. now split.
Qed.
Lemma outer_same w w' n : w_tree w = w_tree w' -> w_name w = w_name w' -> outer w n -> outer w' n.
Proof. intros E1 E2 O q. unfold named. rewrite <- E1, <- E2. apply O. Qed.
Lemma outer_acts w ds n : outer_after w ds n <-> outer (acts w ds) n.
Proof. destruct (acts_tree w ds) as [E1 E2]. unfold outer_after. split; apply outer_same; cbn [w_tree w_name]; congruence. Qed.
Lemma acts_proper w ds : proper (w_tree w) -> proper (w_tree (acts w ds)) /\ forall n, In n (all (w_tree w)) -> In n (all (w_tree (acts w ds))).
Proof. intros P. rewrite (proj1 (acts_tree w ds)). destruct (runs_keeps (edits ds) (w_tree w) P) as [Q R]. split; [exact Q|]. intros n. now apply Permutation_in. Qed.

(* what an assignment leaves *)
Lemma kept_step {A} (make : nat -> A -> deed) (get : world -> nat -> A) w n start ds :
  (forall m x m' x', make m x = make m' x' -> m = m' /\ x = x') ->
  (forall w m x, get (act w (make m x)) n = if Nat.eqb n m then if inner w m then get w n else x else get w n) ->
  (forall w d, (forall m x, d <> make m x) -> get (act w d) n = get w n) ->
  (forall d, (exists m x, d = make m x) \/ forall m x, d <> make m x) ->
  proper (w_tree w) -> In n (all (w_tree w)) -> get w n = start ->
  last_kept make (fun a => outer_after w a n) n start ds (get (acts w ds) n).
Proof.
  intros Inj Set_ Other Dec P I St. induction ds as [|d ds IH] using rev_ind.
  - cbn [acts fold_left]. rewrite St. apply kept_none. intros b1 y b2 E. now destruct b1.
  - rewrite acts_snoc. destruct (acts_proper w ds P) as [[D _] In'].
    assert (Snoc : forall (a : list deed) x b z, ds ++ [z] = a ++ x :: b -> (b = [] /\ a = ds /\ x = z) \/ exists b', b = b' ++ [z] /\ ds = a ++ x :: b').
    { intros a x b z E. destruct (exists_last (l := x :: b) ltac:(discriminate)) as (m & y & M). rewrite M, app_assoc in E. apply app_inj_tail in E. destruct E as [E <-]. destruct m as [|x' m]; [injection M as -> ->; rewrite app_nil_r in E; auto|]. injection M as -> ->. right. exists m. auto. }
    assert (Skip : (forall x, d <> make n x) \/ (~ outer_after w ds n) -> last_kept make (fun a => outer_after w a n) n start (ds ++ [d]) (get (acts w ds) n)).
    { intros No. destruct IH as [a x b E O L|L].
      - apply (kept_one _ _ _ _ _ a x (b ++ [d])); [now rewrite E, <- app_assoc|exact O|]. intros b1 y b2 Eb. destruct b2 as [|z b2] using rev_ind.
        + apply app_inj_tail in Eb. destruct Eb as [-> ->]. destruct No as [No|No]; [now elim (No y)|]. now rewrite <- E.
        + clear IHb2. rewrite app_comm_cons, app_assoc in Eb. apply app_inj_tail in Eb. destruct Eb as [-> ->]. exact (L b1 y b2 eq_refl).
      - apply kept_none. intros b1 y b2 E. destruct (Snoc _ _ _ _ E) as [(-> & -> & <-)|(b' & -> & ->)].
        + destruct No as [No|No]; [now elim (No y)|exact No].
        + exact (L b1 y b' eq_refl). }
    destruct (Dec d) as [(m & x & ->)|No].
    + rewrite Set_. destruct (Nat.eqb_spec n m) as [<- |Ne].
      * destruct (inner (acts w ds) n) eqn:E.
        -- apply Skip. right. rewrite outer_acts. rewrite <- inner_iff by auto. congruence.
        -- apply (kept_one _ _ _ _ _ ds x []); [reflexivity| |].
           ++ apply outer_acts. now apply inner_iff; auto.
           ++ intros b1 y b2 Eb. now destruct b1.
      * apply Skip. left. intros y Ey. apply Inj in Ey. destruct Ey as [-> _]. now elim Ne.
    + rewrite Other by exact No. apply Skip. left. intros y. apply No.
Qed.

(* the attribute a history leaves *)
Lemma zoom_step w d n : w_zoom (act w d) n = match zoom_text n d with Some t => t | None => w_zoom w n end.
Proof.
  destruct d as [o|m q|m p|m v|m t]; cbn [act zoom_text].
  - reflexivity.
  - unfold set_current_scale. now destruct (inner w m).
  - unfold set_current_translate. now destruct (inner w m).
  - unfold set_zoom_and_pan, zoom_types, zoom_word. destruct v as [|[|[|v]]]; cbn [find fst snd Nat.eqb]; [now destruct (Nat.eqb m n)| | |now destruct (Nat.eqb m n)]; cbn [set_zoom_attribute w_zoom]; unfold put; rewrite Nat.eqb_sym; now destruct (Nat.eqb m n).
  - cbn [set_zoom_attribute w_zoom]. unfold put. rewrite Nat.eqb_sym. now destruct (Nat.eqb m n).
Qed.
