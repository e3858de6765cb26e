From Coq Require Import ZArith NArith List Lia Permutation.
From Verif Require Import PyBase PyText PySplit PyDict FeatModel FeatSpec.
#[local] Open Scope N_scope.
Import ListNotations.

Lemma texts_eqb_eq a : forall b, texts_eqb a b = true <-> a = b.
Proof.
  induction a as [|x a IH]; intros [|y b]; cbn [texts_eqb]; try (split; congruence). rewrite andb_true_iff, IH. destruct (text_eqb_spec x y) as [->|N]; split; [intros [_ ->]; reflexivity|intros [= ->]; auto|intros [[=] _]|intros [= Z _]; congruence].
Qed.
Definition thereb (st : fstyle) (p : place) (k : string) : bool :=
  match p with Whole f => is (f st) k | Among f => has k (f st) | Alone f => texts_eqb (f st) [lit k] end.
Lemma thereb_there st p k : thereb st p k = true <-> there st p (lit k).
Proof.
  destruct p as [f|f|f]; cbn [thereb there].
  - unfold is. destruct (text_eqb_spec (f st) (lit k)); split; congruence.
  - apply mem_in.
  - apply texts_eqb_eq.
Qed.
Fixpoint pick_row (st : fstyle) (p : place) (rows : list row) : list (string * N) :=
  match rows with [] => [] | r :: rest => if thereb st p (fst r) then snd r else pick_row st p rest end.
Definition assigns (f : dict N) (l : list (string * N)) : dict N := fold_left (fun f p => put (fst p) (snd p) f) l f.
Definition group_assigns (st : fstyle) (f : dict N) (gs : list group) : dict N := fold_left (fun f g => assigns f (pick_row st (fst g) (snd g))) gs f.
Lemma if_assigns (b : bool) f x y : (if b then assigns f x else assigns f y) = assigns f (if b then x else y). Proof. now destruct b. Qed.

Ltac go := cbn [group_assigns fold_left table firstn skipn fst snd pick_row thereb];
  repeat match goal with |- context [if ?b then _ else _] => let E := fresh "E" in destruct b eqn:E end; try reflexivity.
Lemma kern_table st f : with_kerning st f = group_assigns st f (firstn 1 table).
Proof. unfold with_kerning. go. Qed.
Lemma alt_table st f : with_alternates st f = group_assigns st f (firstn 1 (skipn 1 table)).
Proof.
  unfold with_alternates. go. apply texts_eqb_eq in E. rewrite E in E0. discriminate E0.
Qed.
Lemma caps_table st f : with_caps st f = group_assigns st f (firstn 1 (skipn 2 table)).
Proof. unfold with_caps. go. Qed.
Lemma asian_table st f : with_east_asian st f = group_assigns st f (firstn 3 (skipn 3 table)).
Proof. unfold with_east_asian. go. Qed.
Lemma lig_table st f : with_ligatures st f = group_assigns st f (firstn 5 (skipn 6 table)).
Proof.
  unfold with_ligatures. cbn [group_assigns fold_left table firstn skipn fst snd pick_row thereb]. destruct (texts_eqb (ligatures st) [lit "normal"]) eqn:A; [apply texts_eqb_eq in A; rewrite A; reflexivity|]. destruct (texts_eqb (ligatures st) [lit "none"]) eqn:B; [apply texts_eqb_eq in B; rewrite B; reflexivity|]. go.
Qed.
Lemma num_table st f : with_numeric st f = group_assigns st f (firstn 5 (skipn 11 table)).
Proof.
  unfold with_numeric. cbn [group_assigns fold_left table firstn skipn fst snd pick_row thereb]. destruct (texts_eqb (numeric st) [lit "normal"]) eqn:A; [apply texts_eqb_eq in A; rewrite A; reflexivity|]. go.
Qed.
Lemma pos_table st f : with_position st f = group_assigns st f (firstn 1 (skipn 16 table)).
Proof. unfold with_position. go. Qed.
Lemma features_table st : features st = group_assigns st (settings st) table.
Proof.
  unfold features. rewrite kern_table, alt_table, caps_table, asian_table, lig_table, num_table, pos_table. unfold group_assigns. rewrite <- !fold_left_app. reflexivity.
Qed.
(** ** The table *)
Definition row_tags (r : row) : list text := map (fun p => lit (fst p)) (snd r).
Definition disjoint (a b : list text) : bool := forallb (fun x => negb (mem x b)) a.
Lemma pick_row_counts st g : (exists r, counts st g r /\ pick_row st (fst g) (snd g) = snd r) \/ (pick_row st (fst g) (snd g) = [] /\ forall r, ~ counts st g r).
Proof.
  destruct g as [p rows]. cbn [fst snd]. induction rows as [|r rows IH]; cbn [pick_row].
  - right. split; [reflexivity|]. intros r (b & a & E & _). cbn in E. destruct b; discriminate E.
  - destruct (thereb st p (fst r)) eqn:T.
    + left. exists r. split; [|reflexivity]. exists [], rows. split; [reflexivity|]. split; [now apply thereb_there|]. intros q [].
    + assert (T' : ~ there st p (lit (fst r))) by (rewrite <- thereb_there; congruence). destruct IH as [(r' & (b & a & E & H & K) & P)|[P K]].
      * left. exists r'. split; [|exact P]. cbn [fst snd] in *. exists (r :: b), a. split; [cbn [snd]; now rewrite E|]. split; [exact H|]. intros q [<-|J]; [exact T'|now apply K].
      * right. split; [exact P|]. intros r' (b & a & E & H & J). cbn [fst snd] in *. destruct b as [|x b]; injection E as <- E; [tauto|]. apply (K r'). exists b, a. split; [exact E|]. split; [exact H|]. intros q Jq. apply J. now right.
Qed.
Lemma counts_one st g r r' : counts st g r -> counts st g r' -> r = r'.
Proof.
  intros (b & a & E & H & K) (b' & a' & E' & H' & K'). rewrite E in E'. clear E. revert b' E' K'. induction b as [|x b IH]; intros [|y b'] E' K'.
  - now injection E'.
  - injection E' as -> E'. elim (K' y (or_introl eq_refl) H).
  - injection E' as -> E'. elim (K r' (or_introl eq_refl) H').
  - injection E' as -> E'. apply (IH (fun q J => K q (or_intror J)) b' E'). intros q J. apply K'. now right.
Qed.
Lemma dget_put t v f k : dget (put t v f) k = if text_eqb (lit t) k then Some v else dget f k.
Proof. apply dget_dset. Qed.
Lemma assigns_out l k : forall f, ~ In k (map (fun p => lit (fst p)) l) -> dget (assigns f l) k = dget f k.
Proof.
  induction l as [|[t v] l IH]; intros f N; [reflexivity|]. cbn [assigns fold_left fst snd]. fold (assigns (put t v f) l). rewrite IH by (intros J; apply N; now right). rewrite dget_put. destruct (text_eqb_spec (lit t) k) as [<-|_]; [elim N; now left|reflexivity].
Qed.
Lemma assigns_in l t v : forall f, NoDup (map (fun p => lit (fst p)) l) -> In (t, v) l -> dget (assigns f l) (lit t) = Some v.
Proof.
  induction l as [|[t' v'] l IH]; intros f D J; [destruct J|]. cbn [map fst] in D. apply NoDup_cons_iff in D. destruct D as [N D]. cbn [assigns fold_left fst snd]. fold (assigns (put t' v' f) l). destruct J as [E|J].
  - injection E as -> ->. rewrite assigns_out by exact N. rewrite dget_put, text_eqb_refl. reflexivity.
  - now apply IH.
Qed.
Fixpoint nodupb (l : list text) : bool := match l with [] => true | x :: r => negb (mem x r) && nodupb r end.
Lemma nodupb_ok l : nodupb l = true -> NoDup l.
Proof. induction l as [|x l IH]; [constructor|]. cbn. rewrite andb_true_iff, negb_true_iff. intros [A B]. constructor; [now apply mem_not_in|auto]. Qed.
Lemma rows_nodup g r : In g table -> In r (snd g) -> NoDup (row_tags r).
Proof.
  intros G J. apply nodupb_ok. assert (X : forallb (fun g => forallb (fun r => nodupb (row_tags r)) (snd g)) table = true) by (vm_compute; reflexivity). rewrite forallb_forall in X. specialize (X g G). rewrite forallb_forall in X. exact (X r J).
Qed.
Lemma counts_in st g r : counts st g r -> In r (snd g).
Proof. intros (b & a & -> & _). rewrite in_app_iff. cbn. auto. Qed.
(* [none] alone clashes with the other groups of the ligatures only if it is not alone *)
Definition tags_of (g : group) : list text := flat_map row_tags (snd g).
Definition is_alone (g : group) : bool := match fst g with Alone _ => true | _ => false end.
Lemma none_alone st : ligatures st = [lit "none"] -> forall g r, In g table -> In r (snd g) -> match fst g with Among f => f st = ligatures st | _ => False end -> ~ there st (fst g) (lit (fst r)).
Proof.
  intros E g r G J P T. destruct (fst g) as [f|f|f] eqn:F; try contradiction. cbn [there] in T. rewrite P, E in T. destruct T as [T|[]]. revert T. cbn in G. repeat destruct G as [G|G]; try (destruct G; fail); subst g; try discriminate F; cbn in J; repeat destruct J as [J|J]; try (destruct J; fail); subst r; cbn [fst]; vm_compute; discriminate.
Qed.
Fixpoint apart (gs : list group) : Prop :=
  match gs with [] => True | g :: r => (forall g', In g' r -> disjoint (tags_of g) (tags_of g') = true \/ (fst g = Alone ligatures /\ map fst (snd g) = ["none"%string] /\ fst g' = Among ligatures)) /\ apart r end.
Lemma table_apart : apart table.
Proof.
  cbn [apart table]. repeat split; intros g' G; cbn in G; repeat destruct G as [<-|G]; try (destruct G; fail); (left; vm_compute; reflexivity) || (right; repeat split; reflexivity).
Qed.
Lemma disjoint_out a b x : disjoint a b = true -> In x a -> ~ In x b.
Proof. intros D J. unfold disjoint in D. rewrite forallb_forall in D. specialize (D x J). apply mem_not_in. destruct (mem x b); [discriminate|reflexivity]. Qed.
Definition pick_tags (st : fstyle) (g : group) : list text := map (fun p => lit (fst p)) (pick_row st (fst g) (snd g)).
Lemma pick_tags_in st g x : In x (pick_tags st g) -> In x (tags_of g).
Proof.
  unfold pick_tags. destruct (pick_row_counts st g) as [(r & C & ->)|[-> _]]; [|intros []]. intros J. apply in_flat_map. exists r. split; [exact (counts_in st g r C)|exact J].
Qed.
Lemma groups_out st k gs : forall f, (forall g, In g gs -> ~ In k (pick_tags st g)) -> dget (group_assigns st f gs) k = dget f k.
Proof.
  induction gs as [|g gs IH]; intros f H; [reflexivity|]. cbn [group_assigns fold_left]. fold (group_assigns st (assigns f (pick_row st (fst g) (snd g))) gs). rewrite IH by (intros g' J; apply H; now right). apply assigns_out. apply H. now left.
Qed.
Lemma later_out st g g' k : (disjoint (tags_of g) (tags_of g') = true \/ (fst g = Alone ligatures /\ map fst (snd g) = ["none"%string] /\ fst g' = Among ligatures)) -> In g' table -> In k (pick_tags st g) -> ~ In k (pick_tags st g').
Proof.
  intros [D|(A & Nn & Am)] G' J J'.
  - exact (disjoint_out _ _ k D (pick_tags_in st g k J) (pick_tags_in st g' k J')).
  - unfold pick_tags in J. destruct (pick_row_counts st g) as [(r & C & E)|[E _]]; rewrite E in J; [|destruct J]. pose proof (counts_in st g r C) as R. apply (in_map fst) in R. rewrite Nn in R. destruct R as [R|[]]. destruct C as (_ & _ & _ & T & _). rewrite A, <- R in T. cbn [there] in T.
    unfold pick_tags in J'. destruct (pick_row_counts st g') as [(r' & C' & E')|[E' _]]; rewrite E' in J'; [|destruct J']. pose proof (counts_in st g' r' C') as R'. destruct C' as (_ & _ & _ & T' & _). apply (none_alone st T g' r' G' R'); [now rewrite Am|exact T'].
Qed.
Lemma groups_in st gs : apart gs -> (forall g, In g gs -> In g table) -> forall f g r t v, In g gs -> counts st g r -> In (t, v) (snd r) -> dget (group_assigns st f gs) (lit t) = Some v.
Proof.
  induction gs as [|g0 gs IH]; intros A H f g r t v G C J; [destruct G|]. destruct A as [A1 A2]. cbn [group_assigns fold_left]. fold (group_assigns st (assigns f (pick_row st (fst g0) (snd g0))) gs).
  destruct G as [->|G]; [|apply (IH A2 (fun x Hx => H x (or_intror Hx)) _ g r); auto]. assert (P : pick_row st (fst g) (snd g) = snd r).
  { destruct (pick_row_counts st g) as [(r' & C' & E)|[_ N]]; [|elim (N r C)]. now rewrite (counts_one st g r r' C C'). }
  rewrite groups_out.
  - rewrite P. apply assigns_in; [exact (rows_nodup g r (H g (or_introl eq_refl)) (counts_in st g r C))|exact J].
  - intros g' G'. apply (later_out st g g' (lit t) (A1 g' G') (H g' (or_intror G'))). unfold pick_tags. rewrite P. apply (in_map (fun p => lit (fst p)) (snd r) (t, v) J).
Qed.
Lemma features_turned st tag v : turned st tag v -> dget (features st) tag = Some v.
Proof. intros (g & r & t & G & C & J & ->). rewrite features_table. exact (groups_in st table table_apart (fun g H => H) _ g r t v G C J). Qed.
Lemma features_else st tag : (forall v, ~ turned st tag v) -> dget (features st) tag = dget (settings st) tag.
Proof.
  intros H. rewrite features_table. apply groups_out. intros g G J. unfold pick_tags in J. destruct (pick_row_counts st g) as [(r & C & E)|[E _]]; rewrite E in J; [|destruct J]. apply in_map_iff in J. destruct J as ([t v] & <- & J). apply (H v). exists g, r, t. auto.
Qed.
Lemma turned_dec st tag : (exists v, turned st tag v) \/ forall v, ~ turned st tag v.
Proof.
  assert (X : forall gs, (forall g, In g gs -> In g table) -> (exists v g r t, In g gs /\ counts st g r /\ In (t, v) (snd r) /\ tag = lit t) \/ forall v g r t, In g gs -> counts st g r -> In (t, v) (snd r) -> tag <> lit t).
  { induction gs as [|g gs IH]; intros H; [right; intros v g r t []|]. destruct (IH (fun x Hx => H x (or_intror Hx))) as [(v & g' & r & t & G & Z)|N]; [left; exists v, g', r, t; split; [now right|exact Z]|].
    destruct (pick_row_counts st g) as [(r & C & _)|[_ K]].
    - destruct (in_dec (fun a b : text => match text_eqb_spec a b with ReflectT _ e => left e | ReflectF _ n => right n end) tag (row_tags r)) as [J|J].
      + unfold row_tags in J. apply in_map_iff in J. destruct J as ([t v] & <- & J). left. exists v, g, r, t. split; [now left|auto].
      + right. intros v g' r' t [<-|G] C' J'; [|exact (N v g' r' t G C' J')]. rewrite <- (counts_one st g r r' C C') in J'. intros ->. apply J. exact (in_map (fun p => lit (fst p)) (snd r) (t, v) J').
    - right. intros v g' r' t [<-|G] C' J'; [elim (K r' C')|exact (N v g' r' t G C' J')]. }
  destruct (X table (fun g H => H)) as [(v & g & r & t & Z)|N]; [left; exists v, g, r, t; exact Z|]. right. intros v (g & r & t & G & C & J & E). exact (N v g r t G C J E).
Qed.
Lemma assigns_ok l : forall f, dict_ok f -> dict_ok (assigns f l).
Proof. induction l as [|p l IH]; intros f D; [exact D|]. apply IH. now apply dset_ok. Qed.
Lemma features_ok st : dict_ok (settings st) -> dict_ok (features st).
Proof. rewrite features_table. unfold group_assigns. generalize (settings st) as f. induction table as [|g gs IH]; intros f D; [exact D|]. cbn [fold_left]. apply IH. now apply assigns_ok. Qed.
(** the order of the words does not matter *)
Lemma there_perm st st' g k : In g table -> kerning st = kerning st' -> Permutation (alternates st) (alternates st') -> caps st = caps st' -> Permutation (east_asian st) (east_asian st') -> Permutation (ligatures st) (ligatures st') -> Permutation (numeric st) (numeric st') -> position st = position st' -> thereb st (fst g) k = thereb st' (fst g) k.
Proof.
  intros G E1 P1 E2 P2 P3 P4 E3. assert (M : forall l l' : list text, Permutation l l' -> has k l = has k l').
  { intros l l' P. unfold has. destruct (mem (lit k) l) eqn:A; destruct (mem (lit k) l') eqn:B; try reflexivity.
    - apply mem_in in A. apply (Permutation_in _ P) in A. apply mem_in in A. congruence.
    - apply mem_in in B. apply (Permutation_in _ (Permutation_sym P)) in B. apply mem_in in B. congruence. }
  cbn in G. repeat destruct G as [G|G]; try (destruct G; fail); subst g; cbn [fst thereb]; try (now apply M); try congruence.
  destruct (texts_eqb (ligatures st) [lit k]) eqn:A; destruct (texts_eqb (ligatures st') [lit k]) eqn:B; try reflexivity.
  - apply texts_eqb_eq in A. rewrite A in P3. apply Permutation_length_1_inv in P3. apply texts_eqb_eq in P3. congruence.
  - apply texts_eqb_eq in B. rewrite B in P3. apply Permutation_sym, Permutation_length_1_inv in P3. apply texts_eqb_eq in P3. congruence.
Qed.
Lemma pick_row_ext st st' p rows : (forall k, thereb st p k = thereb st' p k) -> pick_row st p rows = pick_row st' p rows.
Proof. intros H. induction rows as [|r rows IH]; [reflexivity|]. cbn [pick_row]. now rewrite H, IH. Qed.
Lemma groups_ext st st' gs : (forall g k, In g gs -> thereb st (fst g) k = thereb st' (fst g) k) -> forall f, group_assigns st f gs = group_assigns st' f gs.
Proof.
  induction gs as [|g gs IH]; intros H f; [reflexivity|]. cbn [group_assigns fold_left]. rewrite (pick_row_ext st st') by (intros k; apply H; now left). apply IH. intros g' k G. apply H. now right.
Qed.
