(** insert_before, remove_child and replace_child. *)
From Verif Require Import PyBase PyText ContentModel ContentSpec ContentProofs.
From Coq Require Import Lia Permutation.

Lemma prepend_kids : forall s l c t K,
  kids s = (c, t) :: K -> wf s -> NoDup (nodes l) -> (forall m, In m (nodes l) -> fresh s m) ->
  content (prepend s l) = args_items (tail_of s) l ++ content s.
Proof.
  intros s l c t K HK Hw Hn Hf. unfold prepend. rewrite HK.
  rewrite (prepend_loop_none l (mkEl [] ((c, t) :: K) (loose s)) c t K [] (etext s)).
  - cbn [kids chars map app].
    assert (E : args_items (tail_of (mkEl [] ((c, t) :: K) (loose s))) l = args_items (tail_of s) l).
    { unfold args_items. apply flat_map_ext. intros [d|n]; [reflexivity|]. cbn [arg_items].
      unfold tail_of. cbn [kids loose]. rewrite HK. reflexivity. }
    rewrite E. unfold content. rewrite HK. reflexivity.
  - reflexivity.
  - reflexivity.
  - unfold wf in *. rewrite HK in Hw. exact Hw.
  - exact Hn.
  - intros m Hm. destruct (Hf m Hm) as [A B]. rewrite HK in A. split; [exact A|exact B].
Qed.
Lemma prepend_empty : forall s l,
  kids s = [] -> (length (nodes l) <= 1)%nat -> (forall m, In m (nodes l) -> fresh s m) ->
  content (prepend s l) = args_items (tail_of s) l ++ content s.
Proof.
  intros s l HK Hn Hf. unfold prepend. rewrite HK.
  rewrite (prepend_one l (mkEl [] [] (loose s)) [] (etext s)); [| reflexivity | reflexivity | exact Hn |].
  - cbn [chars map app].
    assert (E : args_items (tail_of (mkEl [] [] (loose s))) l = args_items (tail_of s) l).
    { unfold args_items. apply flat_map_ext. intros [d|n]; [reflexivity|]. cbn [arg_items].
      unfold tail_of. cbn [kids loose]. rewrite HK. reflexivity. }
    rewrite E. unfold content. rewrite HK. cbn. rewrite app_nil_r. reflexivity.
  - intros m Hm. apply (Hf m Hm).
Qed.

Lemma content_at : forall e a n t b lo,
  content (mkEl e (a ++ (n, t) :: b) lo) = content (mkEl e a lo) ++ (Nd n :: chars t) ++ kids_items b.
Proof. intros. unfold content. cbn [etext kids]. rewrite kids_items_app, <- app_assoc. reflexivity. Qed.

Lemma insert_other : forall s n c, wf s -> is_kid c (kids s) = true -> c <> n ->
  exists a b s', insert_before s n (Some c) = Ok s' /\
    content (mkEl (etext s) (keep [n] (kids s)) (loose s)) = a ++ Nd c :: b /\
    content s' = a ++ (Nd n :: chars (tail_of s n)) ++ Nd c :: b.
Proof.
  intros s n c Hw Hc D.
  assert (HK : keep [n] (kids s) = drop_kid n (kids s)).
  { rewrite <- keep_drop by exact Hw. apply keep_nil. }
  assert (Hc2 : is_kid c (drop_kid n (kids s)) = true).
  { rewrite is_kid_in in *. destruct (is_kid n (kids s)) eqn:E.
    - apply kid_split in E as (a & t & b & E & Ha). rewrite E in *. rewrite drop_at by exact Ha.
      rewrite map_app, in_app_iff in *. cbn in Hc. intuition congruence.
    - apply is_kid_out in E. rewrite drop_out by exact E. exact Hc. }
  apply kid_split in Hc2 as (a & t & b & E & Ha).
  exists (content (mkEl (etext s) a (loose s))), (chars t ++ kids_items b). eexists.
  match goal with |- _ /\ _ => split; [|split] end.
  - unfold insert_before. rewrite Hc. cbn [negb]. destruct (Nat.eqb_spec c n); [congruence|]. reflexivity.
  - rewrite HK, E, content_at. reflexivity.
  - unfold lx_addprevious. destruct (Nat.eqb_spec c n); [congruence|]. rewrite E, insert_at_at by exact Ha.
    rewrite content_at. cbn [kids_items flat_map fst snd]. reflexivity.
Qed.
Lemma insert_same : forall s n, wf s -> is_kid n (kids s) = true ->
  exists s', insert_before s n (Some n) = Ok s' /\ etext s' = etext s /\ kids s' = kids s.
Proof.
  intros s n Hw Hc. destruct (kid_split _ _ Hc) as (a & t & b & E & Ha).
  unfold insert_before. rewrite Hc, Nat.eqb_refl. cbn [negb]. rewrite E, next_at by exact Ha.
  assert (Hw' := Hw). unfold wf in Hw'. rewrite E in Hw'. destruct (nodup_split _ _ _ _ Hw') as (_ & Hb & Hab).
  destruct b as [|[k u] b].
  - eexists. split; [reflexivity|]. unfold append. cbn [append_loop append_data_if lx_append etext kids].
    split; [reflexivity|]. unfold tail_of. rewrite E, drop_at, tail_at by exact Ha. rewrite app_nil_r. reflexivity.
  - eexists. split; [reflexivity|]. unfold lx_addprevious.
    destruct (Nat.eqb_spec k n) as [->|D]; [cbn in Hb; tauto|]. cbn [etext kids]. split; [reflexivity|].
    unfold tail_of. rewrite E, drop_at, tail_at by exact Ha. rewrite insert_at_at; [reflexivity|].
    rewrite map_app in Hab. cbn in Hab. apply NoDup_remove_2 in Hab. rewrite in_app_iff in Hab. tauto.
Qed.
Lemma remove_spec : forall s n, wf s -> is_kid n (kids s) = true ->
  exists a b s', remove_child s n = Ok s' /\
    content s = a ++ (Nd n :: chars (tail_of s n)) ++ b /\ content s' = a ++ b /\
    tail_of s' n = tail_of s n /\ is_kid n (kids s') = false.
Proof.
  intros s n Hw Hc. destruct (kid_split _ _ Hc) as (a & t & b & E & Ha).
  assert (Hw' := Hw). unfold wf in Hw'. rewrite E in Hw'. destruct (nodup_split _ _ _ _ Hw') as (_ & Hb & Hab).
  assert (Ht : tail_of s n = t) by (unfold tail_of; rewrite E, tail_at by exact Ha; reflexivity).
  exists (content (mkEl (etext s) a (loose s))), (kids_items b). unfold remove_child. rewrite Hc. eexists.
  split; [reflexivity|]. rewrite Ht.
  assert (Hk : kids (lx_remove s n) = a ++ b) by (cbn [lx_remove kids]; rewrite E, drop_at by exact Ha; reflexivity).
  assert (Hn : ~ In n (map fst (a ++ b))) by (rewrite map_app, in_app_iff; tauto).
  split; [|split; [|split]].
  - rewrite <- (content_at (etext s) a n t b (loose s)). unfold content. cbn [etext kids]. rewrite E. reflexivity.
  - unfold content. rewrite Hk. cbn [lx_remove etext kids]. rewrite kids_items_app, app_assoc. reflexivity.
  - unfold tail_of. rewrite Hk, tail_out by exact Hn. cbn [lx_remove loose]. rewrite Nat.eqb_refl. exact Ht.
  - rewrite Hk. apply is_kid_out. exact Hn.
Qed.
Lemma remove_insert : forall s n, wf s -> is_kid n (kids s) = true ->
  exists s1 s2, remove_child s n = Ok s1 /\ insert_before s1 n (next_of n (kids s)) = Ok s2 /\
    etext s2 = etext s /\ kids s2 = kids s.
Proof.
  intros s n Hw Hc. destruct (kid_split _ _ Hc) as (a & t & b & E & Ha).
  assert (Hw' := Hw). unfold wf in Hw'. rewrite E in Hw'. destruct (nodup_split _ _ _ _ Hw') as (_ & Hb & Hab).
  unfold remove_child. rewrite Hc. eexists. rewrite E, next_at by exact Ha.
  assert (Hn : ~ In n (map fst (a ++ b))) by (rewrite map_app, in_app_iff; tauto).
  assert (Hk : kids (lx_remove s n) = a ++ b) by (cbn [lx_remove kids]; rewrite E, drop_at by exact Ha; reflexivity).
  assert (Ht : tail_of (lx_remove s n) n = t).
  { unfold tail_of. rewrite Hk, tail_out by exact Hn. cbn [lx_remove loose]. rewrite Nat.eqb_refl.
    unfold tail_of. rewrite E, tail_at by exact Ha. reflexivity. }
  destruct b as [|[k u] b].
  - eexists. split; [reflexivity|]. unfold insert_before. split; [reflexivity|].
    unfold append. cbn [append_loop append_data_if]. cbn [lx_append etext kids].
    split; [reflexivity|]. rewrite Ht, Hk, app_nil_r. rewrite app_nil_r in Hn. rewrite drop_out by exact Hn. reflexivity.
  - eexists. split; [reflexivity|]. unfold insert_before. rewrite Hk.
    assert (Hkk : is_kid k (a ++ (k, u) :: b) = true).
    { apply is_kid_in. rewrite map_app, in_app_iff. cbn. tauto. }
    rewrite Hkk. cbn [negb]. assert (D : k <> n) by (intros ->; cbn in Hb; tauto).
    destruct (Nat.eqb_spec k n); [congruence|]. split; [reflexivity|]. unfold lx_addprevious.
    destruct (Nat.eqb_spec k n); [congruence|]. cbn [etext kids lx_remove]. split; [reflexivity|].
    change (drop_kid n (kids s)) with (kids (lx_remove s n)). rewrite Ht, Hk, drop_out by exact Hn.
    rewrite insert_at_at; [reflexivity|]. rewrite map_app in Hab. cbn in Hab. apply NoDup_remove_2 in Hab.
    rewrite in_app_iff in Hab. tauto.
Qed.
Lemma replace_spec : forall s old new, wf s -> is_kid old (kids s) = true -> old <> new ->
  exists a b s', replace_child s new old = Ok s' /\
    content (mkEl (etext s) (keep [new] (kids s)) (loose s)) = a ++ (Nd old :: chars (tail_of s old)) ++ b /\
    content s' = a ++ (Nd new :: chars (tail_of s new)) ++ b.
Proof.
  intros s old new Hw Hc D.
  assert (HK : keep [new] (kids s) = drop_kid new (kids s)).
  { rewrite <- keep_drop by exact Hw. apply keep_nil. }
  assert (Ht : kid_tail old (drop_kid new (kids s)) = kid_tail old (kids s)) by (apply kid_tail_drop; exact D).
  assert (Hc2 : is_kid old (drop_kid new (kids s)) = true).
  { rewrite is_kid_in in *. destruct (is_kid new (kids s)) eqn:E.
    - apply kid_split in E as (a & t & b & E & Ha). rewrite E in *. rewrite drop_at by exact Ha.
      rewrite map_app, in_app_iff in *. cbn in Hc. intuition congruence.
    - apply is_kid_out in E. rewrite drop_out by exact E. exact Hc. }
  apply kid_split in Hc2 as (a & t & b & E & Ha).
  exists (content (mkEl (etext s) a (loose s))), (kids_items b). unfold replace_child. rewrite Hc. eexists.
  split; [reflexivity|].
  assert (Ho : tail_of s old = t).
  { unfold tail_of. rewrite <- Ht, E, tail_at by exact Ha. reflexivity. }
  split.
  - rewrite HK, E, content_at, Ho. reflexivity.
  - unfold lx_replace. destruct (Nat.eqb_spec old new); [congruence|]. rewrite E, put_at by exact Ha.
    rewrite content_at. reflexivity.
Qed.

(* no operation makes a node a child twice *)
Lemma set_tail_fst : forall n f l, map fst (set_tail n f l) = map fst l.
Proof. induction l as [|[m t] l IH]; cbn; [reflexivity|]. destruct (Nat.eqb m n); cbn; [reflexivity|f_equal; exact IH]. Qed.
Lemma append_data_wf : forall s t d, wf s -> wf (append_data_if s t d).
Proof. intros s t d H. unfold append_data_if, wf, append_data in *. destruct d, t; cbn; auto. rewrite set_tail_fst. exact H. Qed.
Lemma prepend_data_wf : forall s t d, wf s -> wf (prepend_data_if s t d).
Proof. intros s t d H. unfold prepend_data_if, wf, prepend_data in *. destruct d, t; cbn; auto. rewrite set_tail_fst. exact H. Qed.
Lemma lx_append_wf : forall s n, wf s -> wf (lx_append s n).
Proof. intros s n H. unfold wf. cbn. rewrite map_app. apply nodup_snoc; [apply drop_nodup; exact H|apply drop_gone; exact H]. Qed.
Lemma lx_addprevious_wf : forall s c n, wf s -> wf (lx_addprevious s c n).
Proof.
  intros s c n H. unfold lx_addprevious. destruct (Nat.eqb_spec c n) as [|D]; [exact H|]. unfold wf. cbn [kids].
  assert (G := drop_nodup n _ H). assert (G2 := drop_gone n _ H).
  destruct (is_kid c (drop_kid n (kids s))) eqn:E.
  - apply kid_split in E as (a & t & b & E & Ha). rewrite E in *. rewrite insert_at_at by exact Ha.
    rewrite map_app in *. cbn in *.
    apply (Permutation_NoDup (l := n :: map fst a ++ c :: map fst b)); [|constructor; assumption].
    apply Permutation_middle.
  - assert (X : insert_at c (n, tail_of s n) (drop_kid n (kids s)) = drop_kid n (kids s)); [|rewrite X; exact G].
    apply is_kid_out in E. clear -E. induction (drop_kid n (kids s)) as [|[m t] l IH]; cbn in *; [reflexivity|].
    destruct (Nat.eqb_spec m c); [subst; tauto|]. rewrite IH by tauto. reflexivity.
Qed.
Lemma append_wf : forall s l, wf s -> wf (append s l).
Proof.
  intros s l. unfold append. generalize (@None nat), (@nil BinNums.N). revert s.
  induction l as [|[d|m] l IH]; intros s o data H; cbn [append_loop].
  - apply append_data_wf. exact H.
  - apply IH. exact H.
  - apply IH. apply lx_append_wf. apply append_data_wf. exact H.
Qed.
Lemma prepend_loop_wf : forall l s o1 o2 data t0, wf s -> wf (prepend_loop s o1 o2 data t0 l).
Proof.
  induction l as [|[d|m] l IH]; intros s1 o1 o2 data t0 H; cbn [prepend_loop].
  - apply append_data_wf, prepend_data_wf. exact H.
  - apply IH. exact H.
  - destruct o1; apply IH; [apply lx_addprevious_wf|apply lx_append_wf]; apply prepend_data_wf; exact H.
Qed.
Lemma prepend_wf : forall s l, wf s -> wf (prepend s l).
Proof. intros s l H. apply prepend_loop_wf. exact H. Qed.
