(** Proofs about a document's child list. *)
From Verif Require Import PyBase PyList DocumentModel DocumentSpec.

Lemma mem_in n l : mem n l = true <-> In n l.
Proof. unfold mem. rewrite existsb_exists. split; [intros (x & I & E); apply Nat.eqb_eq in E; now subst|intros I; exists n; split; [exact I|apply Nat.eqb_refl]]. Qed.
Lemma mem_nin n l : mem n l = false <-> ~ In n l.
Proof. rewrite <- mem_in. destruct (mem n l); split; congruence. Qed.
Lemma drop_in x n l : In x (drop n l) <-> In x l /\ x <> n.
Proof. unfold drop. rewrite filter_In. destruct (Nat.eqb_spec n x); cbn; intuition congruence. Qed.
Lemma drop_nin n l : ~ In n l -> drop n l = l.
Proof. induction l as [|x l IH]; intros H; [reflexivity|]. cbn. destruct (Nat.eqb_spec n x) as [E|E]; [subst; destruct H; now left|]. cbn. f_equal. apply IH. intros I. apply H. now right. Qed.
Lemma drop_app n a b : drop n (a ++ b) = drop n a ++ drop n b. Proof. apply filter_app. Qed.
(* put_before and put_after *)
Definition putting (put : nat -> nat -> list nat -> list nat) : Prop := forall r n l,
  (forall x, In x (put r n l) <-> In x l \/ (x = n /\ In r l)) /\ (forall p, p n = false -> filter p (put r n l) = filter p l)
  /\ (forall x, ~ In n l -> NoDup l -> count_occ Nat.eq_dec (put r n l) x = (count_occ Nat.eq_dec l x + if Nat.eq_dec n x then (if mem r l then 1 else 0) else 0)%nat).
Lemma putting_before : putting put_before.
Proof.
  intros r n l. induction l as [|y l (A & B & C)]; [split; [cbn; intuition|split; [reflexivity|intros x _ _; cbn; now destruct (Nat.eq_dec n x)]]|]. cbn [put_before]. destruct (Nat.eqb_spec r y) as [->|E].
  - split; [cbn; intuition|]. split; [intros p P; cbn; now rewrite P|]. intros x _ _. cbn [count_occ]. cbn [mem existsb]. rewrite Nat.eqb_refl. cbn [orb]. destruct (Nat.eq_dec n x), (Nat.eq_dec y x); lia.
  - split; [intros x; cbn; rewrite (A x); intuition congruence|]. split; [intros p P; cbn; now rewrite (B p P)|]. intros x N D. inversion D; subst. cbn [count_occ]. rewrite C; [|intros I; apply N; now right|assumption].
    cbn [mem existsb]. destruct (Nat.eqb_spec r y); [congruence|]. cbn [orb]. fold (mem r l). destruct (Nat.eq_dec y x); lia.
Qed.
Lemma putting_after : putting put_after.
Proof.
  intros r n l. induction l as [|y l (A & B & C)]; [split; [cbn; intuition|split; [reflexivity|intros x _ _; cbn; now destruct (Nat.eq_dec n x)]]|]. cbn [put_after]. destruct (Nat.eqb_spec r y) as [->|E].
  - split; [cbn; intuition|]. split; [intros p P; cbn; now rewrite P|]. intros x _ _. cbn [count_occ]. cbn [mem existsb]. rewrite Nat.eqb_refl. cbn [orb]. destruct (Nat.eq_dec n x), (Nat.eq_dec y x); lia.
  - split; [intros x; cbn; rewrite (A x); intuition congruence|]. split; [intros p P; cbn; now rewrite (B p P)|]. intros x N D. inversion D; subst. cbn [count_occ]. rewrite C; [|intros I; apply N; now right|assumption].
    cbn [mem existsb]. destruct (Nat.eqb_spec r y); [congruence|]. cbn [orb]. fold (mem r l). destruct (Nat.eq_dec y x); lia.
Qed.
Definition regroup (put : nat -> nat -> list nat -> list nat) r n (g : list nat) : list nat := if mem r g then put r n (drop n g) else drop n g.
Lemma regroup_in put r n g x : putting put -> r <> n -> In x (regroup put r n g) <-> (In x g /\ x <> n) \/ (x = n /\ In r g).
Proof.
  intros P R. unfold regroup. destruct (mem r g) eqn:M.
  - destruct (P r n (drop n g)) as (A & _). rewrite (A x), !drop_in. apply mem_in in M. tauto.
  - rewrite drop_in. apply mem_nin in M. tauto.
Qed.
Lemma regroup_filter put r n g p : putting put -> p n = false -> filter p (regroup put r n g) = filter p g.
Proof.
  intros P Q. assert (D : filter p (drop n g) = filter p g). { induction g as [|x g IH]; [reflexivity|]. cbn [drop filter]. fold (drop n g). destruct (Nat.eqb_spec n x) as [<-|]; cbn [negb filter]; [now rewrite Q|]. fold (drop n g). now rewrite IH. }
  unfold regroup. destruct (mem r g); [|exact D]. destruct (P r n (drop n g)) as (_ & B & _). now rewrite (B p Q).
Qed.
Lemma count_drop n g x : count_occ Nat.eq_dec (drop n g) x = if Nat.eq_dec n x then 0%nat else count_occ Nat.eq_dec g x.
Proof.
  induction g as [|y g IH]; [cbn; now destruct (Nat.eq_dec n x)|]. cbn [drop filter count_occ]. destruct (Nat.eqb_spec n y) as [<-|E]; cbn [negb].
  - fold (drop n g). rewrite IH. destruct (Nat.eq_dec n x); reflexivity.
  - cbn [count_occ]. fold (drop n g). rewrite IH. destruct (Nat.eq_dec n x), (Nat.eq_dec y x); congruence.
Qed.
Lemma NoDup_filter {A} (p : A -> bool) l : NoDup l -> NoDup (filter p l).
Proof. induction 1 as [|x l N D IH]; cbn; [constructor|]. destruct (p x); [|exact IH]. constructor; [|exact IH]. rewrite filter_In. tauto. Qed.
Lemma NoDup_app_l {A} (a b : list A) : NoDup (a ++ b) -> NoDup a.
Proof. induction a as [|x a IH]; cbn; intros H; constructor; inversion H; subst; [intros I; apply H2; apply in_or_app; now left|now apply IH]. Qed.
Lemma NoDup_app_r {A} (a b : list A) : NoDup (a ++ b) -> NoDup b.
Proof. induction a as [|x a IH]; cbn; [auto|]. intros H. inversion H; subst. now apply IH. Qed.
Lemma regroup_once put r n gs : putting put -> r <> n -> NoDup (concat gs) -> NoDup (concat (map (regroup put r n) gs)).
Proof.
  intros P R D. rewrite (NoDup_count_occ Nat.eq_dec). intros x.
  assert (K : (count_occ Nat.eq_dec (concat (map (regroup put r n) gs)) x <= if Nat.eq_dec n x then count_occ Nat.eq_dec (concat gs) r else count_occ Nat.eq_dec (concat gs) x)%nat).
  { induction gs as [|g gs IH]; [cbn; destruct (Nat.eq_dec n x); lia|]. cbn [map concat]. rewrite !count_occ_app. cbn [concat] in D. specialize (IH (NoDup_app_r _ _ D)). apply NoDup_app_l in D.
    assert (G : (count_occ Nat.eq_dec (regroup put r n g) x <= if Nat.eq_dec n x then count_occ Nat.eq_dec g r else count_occ Nat.eq_dec g x)%nat).
    { unfold regroup. destruct (mem r g) eqn:M.
      - destruct (P r n (drop n g)) as (_ & _ & C). rewrite C; [|rewrite drop_in; tauto|now apply NoDup_filter]. rewrite count_drop.
        apply mem_in in M. apply (count_occ_In Nat.eq_dec) in M. destruct (Nat.eq_dec n x); [destruct (mem r (drop n g)); lia|lia].
      - rewrite count_drop. destruct (Nat.eq_dec n x); lia. }
    destruct (Nat.eq_dec n x); lia. }
  rewrite (NoDup_count_occ Nat.eq_dec) in D. destruct (Nat.eq_dec n x); [specialize (D r)|specialize (D x)]; lia.
Qed.
(* the child list under a change of the groups that keeps the root *)
Lemma group_map F d r o root : (forall g, mem r (F g) = mem r g) -> (exists g, In g (d_groups d) /\ In r g) -> group_of (mkDoc root (map F (d_groups d)) o) r = F (group_of d r).
Proof.
  intros M (g & I & J). unfold group_of. cbn [d_groups]. induction (d_groups d) as [|h gs IH]; [destruct I|]. cbn [map find]. rewrite M. destruct (mem r h) eqn:E; [reflexivity|]. apply IH.
  destruct I as [<-|I]; [|exact I]. apply mem_nin in E. contradiction.
Qed.
Lemma group_of_in d r : (exists g, In g (d_groups d) /\ In r g) -> In (group_of d r) (d_groups d) /\ In r (group_of d r).
Proof.
  intros (g & I & J). unfold group_of. destruct (find (mem r) (d_groups d)) as [h|] eqn:E.
  - apply find_some in E. split; [apply E|apply mem_in, E].
  - assert (N := find_none _ _ E g I). apply mem_nin in N. contradiction.
Qed.
(** ** add_sibling *)
Lemma mem_eq r a b : (In r a <-> In r b) -> mem r a = mem r b.
Proof. intros H. destruct (mem r b) eqn:E; [apply mem_in, H, mem_in, E|]. apply mem_nin. rewrite H. now apply mem_nin. Qed.
Lemma attach_groups d n o : d_groups (attach d n o) = d_groups d /\ d_root (attach d n o) = d_root d. Proof. destruct o; split; reflexivity. Qed.
Lemma sane_attach kd d n o : sane kd d -> sane kd (attach d n o).
Proof. intros [A B C]. destruct (attach_groups d n o) as [G R]. constructor; rewrite ?G, ?R; assumption. Qed.
Lemma children_attach d n o : children (attach d n o) = children d.
Proof. destruct (attach_groups d n o) as [G R]. unfold children, group_of. now rewrite G, R. Qed.
Definition add_doc put d r n : doc := set_groups (attach d n (d_owner d r)) (map (regroup put r n) (d_groups d)).
Lemma add_misc kd put d r n : kd n = KMisc -> r <> n -> add_sibling kd put d r n = (add_doc put d r n, None).
Proof.
  intros K R. unfold add_sibling, add_doc. rewrite K. destruct (Nat.eqb_spec r n); [congruence|]. unfold regroup. destruct (attach_groups d n (d_owner d r)) as [-> _]. reflexivity.
Qed.
Lemma add_cases kd put d r n : (kd n = KMisc /\ r <> n) \/ exists e, add_sibling kd put d r n = (d, e) \/ add_sibling kd put d r n = (attach d n (d_owner d r), e).
Proof.
  destruct (kd n) eqn:K; [right|destruct (Nat.eq_dec r n) as [E|E]; [right|now left]|right].
  - exists (Some LxmlType). right. unfold add_sibling. now rewrite K.
  - exists None. right. unfold add_sibling. rewrite K. subst. now rewrite Nat.eqb_refl.
  - exists (Some Hierarchy). left. unfold add_sibling. now rewrite K.
Qed.
Lemma add_doc_sane kd put d r n : putting put -> sane kd d -> kd n = KMisc -> r <> n -> sane kd (add_doc put d r n).
Proof.
  intros P [A B C] K R. destruct (attach_groups d n (d_owner d r)) as [G Q]. unfold add_doc, set_groups. constructor; cbn [d_groups d_root].
  - now apply regroup_once.
  - apply Forall_map. eapply Forall_impl; [|exact B]. cbn beta. intros g H. rewrite regroup_filter; [exact H|exact P|]. unfold is_element. now rewrite K.
  - rewrite Q. intros x X. destruct (C x X) as (E & g & I & J). split; [exact E|]. exists (regroup put r n g). split; [now apply in_map|]. apply regroup_in; [exact P|exact R|]. left. split; [exact J|congruence].
Qed.
Lemma add_sane kd put d r n : putting put -> sane kd d -> sane kd (fst (add_sibling kd put d r n)).
Proof.
  intros P S. destruct (add_cases kd put d r n) as [[K R]|(e & [E|E])]; [rewrite add_misc by assumption; now apply add_doc_sane|rewrite E; exact S|rewrite E; now apply sane_attach].
Qed.
Lemma add_doc_children kd put d r n root : putting put -> sane kd d -> d_root d = Some root -> kd n = KMisc -> r <> n -> In r (children d) -> children (add_doc put d r n) = put r n (drop n (children d)).
Proof.
  intros P S R K N I. destruct (sane_root _ _ S root R) as [E G]. unfold children in *. unfold add_doc, set_groups. cbn [d_root]. destruct (attach_groups d n (d_owner d r)) as [_ Q]. rewrite Q, R in *.
  rewrite group_map; [|intros g; apply mem_eq; rewrite regroup_in by assumption; split; [intros [H|[H _]]; [tauto|congruence]|intros H; left; split; [exact H|congruence]]|exact G].
  unfold regroup. apply mem_in in I. now rewrite I.
Qed.
Lemma add_root kd put d r n : d_root (fst (add_sibling kd put d r n)) = d_root d.
Proof.
  destruct (add_cases kd put d r n) as [[K R]|(e & [E|E])]; [rewrite add_misc by assumption; cbn; apply attach_groups|now rewrite E|rewrite E; apply attach_groups].
Qed.
(** ** set_root *)
Lemma find_none_nin n gs : find (mem n) gs = None -> ~ In n (concat gs).
Proof. intros F I. apply in_concat in I. destruct I as (g & G & J). assert (N := find_none _ _ F g G). apply mem_nin in N. contradiction. Qed.
Lemma set_root_sane kd d n : sane kd d -> kd n = KElement -> sane kd (set_root d n).
Proof.
  intros [A B C] K. unfold set_root. destruct (find (mem n) (d_groups d)) as [g|] eqn:F; constructor; cbn [d_groups d_root]; try assumption.
  - intros r [= <-]. split; [exact K|]. apply find_some in F. exists g. split; [apply F|apply mem_in, F].
  - cbn [concat app]. constructor; [now apply find_none_nin|exact A].
  - constructor; [cbn; destruct (is_element kd n); cbn; lia|exact B].
  - intros r [= <-]. split; [exact K|]. exists [n]. split; now left.
Qed.
Lemma set_root_children d n : children (set_root d n) = group_of d n.
Proof.
  unfold children, set_root, group_of. cbn [d_root d_groups]. destruct (find (mem n) (d_groups d)) as [g|] eqn:F; [now rewrite F|]. cbn [find]. unfold mem at 1. cbn [existsb]. now rewrite Nat.eqb_refl.
Qed.
(** ** Every operation keeps the document sane *)
Lemma append_sane kd nodes : forall d last, sane kd d -> sane kd (fst (append_go kd d last nodes)).
Proof.
  induction nodes as [|[|n] r IH]; intros d last S; cbn [append_go]; [exact S|exact S|]. destruct (pre_insert kd d n None); [exact S|]. destruct (d_root d) as [root|].
  - destruct (Nat.eqb n root); [now apply IH|]. set (l := match last with Some l => l | None => _ end). assert (A := add_sane kd put_after d l n putting_after S). unfold addnext. destruct (add_sibling kd put_after d l n) as [d' [e|]]; [exact A|]. now apply IH.
  - destruct (kd n) eqn:K; [|exact S|exact S]. apply IH. now apply set_root_sane.
Qed.
Lemma prepend_sane kd nodes : forall d first, sane kd d -> sane kd (fst (prepend_go kd d first nodes)).
Proof.
  induction nodes as [|[|n] r IH]; intros d first S; cbn [prepend_go]; [exact S|exact S|]. destruct (pre_insert kd d n None); [exact S|]. destruct (d_root d) as [root|].
  - destruct (Nat.eqb n root); [now apply IH|]. set (l := match first with Some f => f | None => _ end). assert (A := add_sane kd put_before d l n putting_before S). unfold addprevious. destruct (add_sibling kd put_before d l n) as [d' [e|]]; [exact A|]. now apply IH.
  - unfold append. assert (A := append_sane kd [ANode n] d None S). destruct (append_go kd d None [ANode n]) as [d' [e|]]; [exact A|]. now apply IH.
Qed.
Lemma drop_groups_sane kd d n : sane kd d -> (forall r, d_root d = Some r -> r <> n) -> forall o, sane kd (mkDoc (d_root d) (map (drop n) (d_groups d)) o).
Proof.
  intros [A B C] H o. constructor; cbn [d_groups d_root].
  - assert (E : concat (map (drop n) (d_groups d)) = drop n (concat (d_groups d))). { clear. induction (d_groups d) as [|g gs IH]; [reflexivity|]. cbn [map concat]. rewrite drop_app. f_equal. exact IH. }
    rewrite E. now apply NoDup_filter.
  - apply Forall_map. eapply Forall_impl; [|exact B]. cbn beta. intros g G. assert (L : (length (filter (is_element kd) (drop n g)) <= length (filter (is_element kd) g))%nat); [|lia].
    clear. induction g as [|x g IH]; [reflexivity|]. cbn [drop filter]. fold (drop n g). destruct (Nat.eqb n x); cbn [negb filter]; destruct (is_element kd x); cbn [length]; fold (drop n g); lia.
  - intros r R. destruct (C r R) as (K & g & I & J). split; [exact K|]. exists (drop n g). split; [now apply in_map|]. apply drop_in. split; [exact J|now apply H].
Qed.
Lemma set_groups_eq kd d n o : sane kd d -> (forall r, d_root d = Some r -> r <> n) -> sane kd (set_groups (attach d n o) (map (drop n) (d_groups d))).
Proof. intros S H. unfold set_groups. destruct (attach_groups d n o) as [_ ->]. now apply drop_groups_sane. Qed.
Lemma remove_sane kd d n : sane kd d -> sane kd (fst (remove kd d n)).
Proof.
  intros S. unfold remove. destruct (pre_remove d n); [exact S|]. destruct (d_root d) as [root|] eqn:R; [|exact S]. destruct (Nat.eqb_spec n root) as [E|E].
  - destruct S as [A B C]. constructor; [exact A|exact B|discriminate].
  - cbn [fst]. apply set_groups_eq; [exact S|]. rewrite R. intros r [= <-]. congruence.
Qed.
Lemma step_sane kd d o : sane kd d -> sane kd (fst (dstep kd d o)).
Proof.
  intros S. destruct o as [l|l|i n|n c|n|a b]; cbn [dstep].
  - now apply append_sane.
  - now apply prepend_sane.
  - unfold insert. destruct (d_root d); [|now apply append_sane]. destruct (Nat.eqb n n0); [exact S|]. destruct (list_get (children d) i); [|exact S]. apply add_sane; [apply putting_before|exact S].
  - unfold insert_before. destruct (pre_insert kd d n c); [exact S|]. destruct (match c with Some c => _ | None => None end); [apply add_sane; [apply putting_before|exact S]|now apply append_sane].
  - now apply remove_sane.
  - unfold replace. destruct (pre_insert kd d b (Some a)); [exact S|]. destruct (pre_remove d a); [exact S|]. destruct (d_root d); [|exact S]. destruct (Nat.eqb a n).
    + assert (A := remove_sane kd d a S). destruct (remove kd d a) as [d' [e|]]; [exact A|]. now apply append_sane.
    + assert (A := add_sane kd put_before d a b putting_before S). unfold addprevious. destruct (add_sibling kd put_before d a b) as [d' [e|]]; [exact A|]. now apply remove_sane.
Qed.
Lemma run_sane kd ops : forall d, sane kd d -> sane kd (drun kd d ops).
Proof. induction ops as [|o ops IH]; intros d S; [exact S|]. cbn. apply IH. now apply step_sane. Qed.
(* exactly one element among the children *)
Lemma children_root kd d r : sane kd d -> d_root d = Some r -> In r (children d) /\ In (children d) (d_groups d).
Proof. intros S R. destruct (sane_root _ _ S r R) as [_ G]. unfold children. rewrite R. split; apply group_of_in; exact G. Qed.
Lemma children_one kd d r : sane kd d -> d_root d = Some r -> filter (is_element kd) (children d) = [r].
Proof.
  intros S R. destruct (children_root kd d r S R) as [I G]. assert (O := sane_one _ _ S). rewrite Forall_forall in O. specialize (O _ G).
  assert (J : In r (filter (is_element kd) (children d))) by (apply filter_In; split; [exact I|]; unfold is_element; now rewrite (proj1 (sane_root _ _ S r R))).
  destruct (filter (is_element kd) (children d)) as [|x [|y l]]; [destruct J| |cbn in O; lia]. destruct J as [->|[]]. reflexivity.
Qed.
Lemma in_groups_nodup (g : list nat) gs : NoDup (concat gs) -> In g gs -> NoDup g.
Proof. induction gs as [|h gs IH]; [intros _ []|]. cbn. intros D [->|I]; [now apply NoDup_app_l in D|]. apply IH; [now apply NoDup_app_r in D|exact I]. Qed.
Lemma children_nodup kd d : sane kd d -> NoDup (children d).
Proof.
  intros S. destruct (d_root d) as [r|] eqn:R; [|unfold children; rewrite R; constructor]. destruct (children_root kd d r S R) as [_ G]. eapply in_groups_nodup; [apply S|exact G].
Qed.
(** ** The child list after each operation *)
Lemma put_after_last r n l : ~ In r l -> put_after r n (l ++ [r]) = l ++ [r; n].
Proof. induction l as [|x l IH]; intros H; cbn; [now rewrite Nat.eqb_refl|]. destruct (Nat.eqb_spec r x) as [E|]; [subst; destruct H; now left|]. rewrite IH; [reflexivity|]. intros I. apply H. now right. Qed.
Lemma put_before_mid r n a b : ~ In r a -> put_before r n (a ++ r :: b) = a ++ n :: r :: b.
Proof. induction a as [|x a IH]; intros H; cbn; [now rewrite Nat.eqb_refl|]. destruct (Nat.eqb_spec r x) as [E|]; [subst; destruct H; now left|]. rewrite IH; [reflexivity|]. intros I. apply H. now right. Qed.
Lemma last_split (l : list nat) x : l <> [] -> exists a, l = a ++ [List.last l x].
Proof. intros H. exists (removelast l). now apply app_removelast_last. Qed.
Lemma add_next_last kd d n root l a : sane kd d -> d_root d = Some root -> kd n = KMisc -> children d = a ++ [l] ->
  exists d', addnext kd d l n = (d', None) /\ sane kd d' /\ d_root d' = Some root /\ children d' = drop n (children d) ++ [n].
Proof.
  intros S R K E. assert (D := children_nodup kd d S). rewrite E in D. assert (NL : ~ In l a) by (apply NoDup_remove_2 in D; now rewrite app_nil_r in D).
  destruct (Nat.eq_dec l n) as [->|N].
  - exists (attach d n (d_owner d n)). unfold addnext, add_sibling. rewrite K, Nat.eqb_refl. split; [reflexivity|]. split; [now apply sane_attach|]. split; [rewrite (proj2 (attach_groups _ _ _)); exact R|].
    rewrite children_attach, E, drop_app. cbn [drop filter]. rewrite Nat.eqb_refl. cbn [negb]. rewrite app_nil_r. f_equal. symmetry. now apply drop_nin.
  - exists (add_doc put_after d l n). unfold addnext. rewrite add_misc by assumption. split; [reflexivity|]. split; [apply add_doc_sane; [apply putting_after|assumption..]|]. split; [cbn; rewrite (proj2 (attach_groups _ _ _)); exact R|].
    rewrite (add_doc_children kd put_after d l n root putting_after S R K N); [|rewrite E; apply in_or_app; right; now left]. rewrite E, drop_app. cbn [drop filter]. destruct (Nat.eqb_spec n l); [congruence|]. cbn [negb].
    fold (drop n a). rewrite put_after_last; [now rewrite <- app_assoc|]. rewrite drop_in. tauto.
Qed.
Lemma without_nil l : without [] l = l. Proof. unfold without. cbn. induction l; cbn; congruence. Qed.
Lemma drop_without n ns l : ~ In n ns -> without ns (drop n l ++ [n]) = without (n :: ns) l ++ [n].
Proof.
  intros H. unfold without. rewrite filter_app. cbn [filter]. destruct (existsb (Nat.eqb n) ns) eqn:E; [apply (mem_in n ns) in E; contradiction|]. cbn [negb]. f_equal. induction l as [|x l IH]; [reflexivity|].
  cbn [drop filter existsb]. fold (drop n l). rewrite (Nat.eqb_sym x n). destruct (Nat.eqb n x); cbn [negb orb filter]; fold (drop n l); rewrite IH; reflexivity.
Qed.
Lemma without_cons n ns l : without ns (drop n l) = without (n :: ns) l.
Proof.
  unfold without. induction l as [|x l IH]; [reflexivity|]. cbn [drop filter existsb]. fold (drop n l). rewrite (Nat.eqb_sym x n). destruct (Nat.eqb n x); cbn [negb orb filter]; fold (drop n l); rewrite IH; reflexivity.
Qed.
Lemma append_children kd ns : forall d root last, sane kd d -> d_root d = Some root -> Forall (misc kd) ns -> NoDup ns -> (forall l, last = Some l -> exists a, children d = a ++ [l]) ->
  exists d', append_go kd d last (map ANode ns) = (d', None) /\ d_root d' = Some root /\ children d' = without ns (children d) ++ ns.
Proof.
  induction ns as [|n ns IH]; intros d root last S R M D L; [exists d; cbn; repeat split; [exact R|rewrite without_nil, app_nil_r; reflexivity]|]. inversion M as [|? ? K M']; inversion D as [|? ? N D']; subst. unfold misc in K.
  cbn [map append_go]. unfold pre_insert. rewrite K, R. destruct (Nat.eqb_spec n root) as [E|E]; [assert (Z := proj1 (sane_root _ _ S root R)); congruence|].
  set (l := match last with Some l => l | None => List.last (children d) root end).
  assert (A : exists a, children d = a ++ [l]). { unfold l. destruct last as [x|]; [now apply L|]. destruct (last_split (children d) root) as (a & A); [|eauto]. destruct (children_root kd d root S R) as [I _]. intros Z. rewrite Z in I. destruct I. }
  destruct A as (a & A). destruct (add_next_last kd d n root l a S R K A) as (d1 & E1 & S1 & R1 & C1). rewrite E1. destruct (IH d1 root (Some n) S1 R1 M' D') as (d2 & E2 & R2 & C2); [intros x [= <-]; eauto|].
  exists d2. split; [exact E2|]. split; [exact R2|]. rewrite C2, C1, drop_without by exact N. now rewrite <- app_assoc.
Qed.
Lemma add_previous_mid kd d n root r a b : sane kd d -> d_root d = Some root -> kd n = KMisc -> children d = a ++ r :: b -> n <> r ->
  exists d', addprevious kd d r n = (d', None) /\ sane kd d' /\ d_root d' = Some root /\ children d' = drop n a ++ n :: r :: drop n b.
Proof.
  intros S R K E N. assert (D := children_nodup kd d S). rewrite E in D. assert (NL : ~ In r a) by (apply NoDup_remove_2 in D; intros I; apply D; apply in_or_app; now left).
  exists (add_doc put_before d r n). unfold addprevious. rewrite add_misc by congruence. split; [reflexivity|]. split; [apply add_doc_sane; [apply putting_before|congruence..]|]. split; [cbn; rewrite (proj2 (attach_groups _ _ _)); exact R|].
  rewrite (add_doc_children kd put_before d r n root putting_before S R K); [|congruence|rewrite E; apply in_or_app; right; now left]. rewrite E, drop_app. cbn [drop filter]. destruct (Nat.eqb_spec n r); [congruence|]. cbn [negb].
  fold (drop n a) (drop n b). rewrite put_before_mid; [reflexivity|]. rewrite drop_in. tauto.
Qed.
Lemma prepend_children kd ns : forall d root first f pre post, sane kd d -> d_root d = Some root -> Forall (misc kd) ns -> NoDup ns -> ~ In f ns -> children d = pre ++ f :: post -> (first = Some f \/ (first = None /\ pre = [])) -> (forall n, In n ns -> ~ In n pre) ->
  exists d', prepend_go kd d first (map ANode ns) = (d', None) /\ d_root d' = Some root /\ children d' = pre ++ ns ++ f :: without ns post.
Proof.
  induction ns as [|n ns IH]; intros d root first f pre post S R M D NF C F P; [exists d; cbn; repeat split; [exact R|now rewrite without_nil]|]. inversion M as [|? ? K M']; inversion D as [|? ? N D']; subst. unfold misc in K.
  cbn [map prepend_go]. unfold pre_insert. rewrite K, R. destruct (Nat.eqb_spec n root) as [E|E]; [assert (Z := proj1 (sane_root _ _ S root R)); congruence|].
  set (l := match first with Some l => l | None => hd root (children d) end). assert (LE : l = f) by (unfold l; destruct F as [->|[-> ->]]; [reflexivity|rewrite C; reflexivity]). rewrite LE.
  destruct (add_previous_mid kd d n root f pre post S R K C) as (d1 & E1 & S1 & R1 & C1); [intros ->; apply NF; now left|]. rewrite E1. rewrite (drop_nin n pre) in C1 by (apply P; now left).
  destruct (IH d1 root (Some f) f (pre ++ [n]) (drop n post) S1 R1 M' D') as (d2 & E2 & R2 & C2).
  - intros I. apply NF. now right.
  - rewrite C1. now rewrite <- app_assoc.
  - now left.
  - intros m I J. apply in_app_or in J. destruct J as [J|[->|[]]]; [apply (P m); [now right|exact J]|contradiction].
  - exists d2. split; [exact E2|]. split; [exact R2|]. rewrite C2, without_cons. now rewrite <- !app_assoc.
Qed.
Lemma remove_children kd d n root : sane kd d -> d_root d = Some root -> n <> root -> In n (children d) -> exists d', remove kd d n = (d', None) /\ d_root d' = Some root /\ children d' = drop n (children d).
Proof.
  intros S R N I. unfold remove, pre_remove. apply mem_in in I. rewrite I, R. destruct (Nat.eqb_spec n root); [congruence|]. eexists. split; [reflexivity|]. split; [cbn; rewrite (proj2 (attach_groups _ _ _)); exact R|].
  unfold children, set_groups. cbn [d_root]. rewrite (proj2 (attach_groups _ _ _)), R. rewrite group_map; [reflexivity| |apply (sane_root _ _ S root R)]. intros g. apply mem_eq. rewrite drop_in. intuition.
Qed.
(** ** Owners *)
Lemma add_owner kd put d r n : putting put -> owned d r -> (forall x, In x (children d) -> owned d x) -> sane kd d -> forall root, d_root d = Some root -> In r (children d) ->
  forall x, In x (children (fst (add_sibling kd put d r n))) -> owned (fst (add_sibling kd put d r n)) x.
Proof.
  intros P O A S root R I x. destruct (add_cases kd put d r n) as [[K N]|(e & [E|E])].
  - rewrite add_misc by assumption. cbn [fst]. rewrite (add_doc_children kd put d r n root P S R K N I). intros X. destruct (P r n (drop n (children d))) as (Q & _). apply Q in X.
    unfold owned, add_doc, set_groups. cbn [d_owner]. rewrite O. cbn [attach d_owner]. destruct (Nat.eqb_spec x n) as [->|NE]; [reflexivity|]. destruct X as [X|[X _]]; [|congruence]. apply drop_in in X. now apply A.
  - rewrite E. cbn [fst]. apply A.
  - rewrite E. cbn [fst]. rewrite children_attach. intros X. unfold owned. rewrite O. cbn [attach d_owner]. destruct (Nat.eqb x n); [reflexivity|now apply A].
Qed.
Lemma child_group kd d n root : sane kd d -> d_root d = Some root -> In n (children d) -> group_of d n = children d.
Proof.
  intros S R I.
 destruct (children_root kd d root S R) as [_ G]. unfold group_of. destruct (find (mem n) (d_groups d)) as [g|] eqn:F.
    - apply find_some in F. destruct F as [F1 F2]. apply mem_in in F2. assert (O := sane_once _ _ S). revert O F1 G. generalize (d_groups d) as gs. intros gs. clear - F2 I. induction gs as [|h gs IH]; [intros _ []|]. cbn [concat]. intros O [->|F1] [E|G].
      + exact E.
      + exfalso. rewrite (NoDup_count_occ Nat.eq_dec) in O. specialize (O n). rewrite count_occ_app in O. apply (count_occ_In Nat.eq_dec) in F2. assert (J : In n (concat gs)) by (apply in_concat; eauto). apply (count_occ_In Nat.eq_dec) in J. lia.
      + exfalso. subst h. rewrite (NoDup_count_occ Nat.eq_dec) in O. specialize (O n). rewrite count_occ_app in O. apply (count_occ_In Nat.eq_dec) in I. assert (J : In n (concat gs)) by (apply in_concat; eauto). apply (count_occ_In Nat.eq_dec) in J. lia.
      + apply IH; [now apply NoDup_app_r in O|assumption..].
    - exfalso. assert (N := find_none _ _ F _ G). apply mem_nin in N. contradiction.
Qed.
Lemma after_in n l y : after n l = Some y -> In y l.
Proof. induction l as [|x l IH]; cbn; [discriminate|]. destruct (Nat.eqb n x); [destruct l; [discriminate|]; intros [= ->]; right; now left|]. intros H. right. now apply IH. Qed.
