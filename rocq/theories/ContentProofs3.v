(** prepend, exactly: nodes with tails, nodes that are already children. *)
From Coq Require Import Lia Permutation.
From Verif Require Import PyBase PyText ContentModel ContentSpec ContentProofs ContentProofs2.

Lemma drop_app : forall m (a b : list (nat * text)), ~ In m (map fst a) -> drop_kid m (a ++ b) = a ++ drop_kid m b.
Proof.
  induction a as [|[x t] a IH]; intros b H; [reflexivity|]. cbn in *.
  destruct (Nat.eqb_spec x m) as [E|E]; [tauto|]. rewrite IH by tauto. reflexivity.
Qed.
Lemma kid_tail_insert : forall x c m t l, x <> m -> kid_tail x (insert_at c (m, t) l) = kid_tail x l.
Proof.
  induction l as [|[y u] l IH]; intros D; [reflexivity|]. cbn.
  destruct (Nat.eqb_spec y c) as [E|E]; cbn.
  - destruct (Nat.eqb_spec m x); [congruence|]. reflexivity.
  - rewrite IH by exact D. reflexivity.
Qed.
Lemma tail_addprevious : forall s c m x, x <> m -> tail_of (lx_addprevious s c m) x = tail_of s x.
Proof.
  intros s c m x D. unfold lx_addprevious. destruct (Nat.eqb c m); [reflexivity|].
  unfold tail_of. cbn [kids loose]. rewrite kid_tail_insert, kid_tail_drop by exact D. reflexivity.
Qed.
Lemma tail_prepend_data : forall s n d x, x <> n -> tail_of (prepend_data_if s (Some n) d) x = tail_of s x.
Proof.
  intros s n d x D. rewrite prepend_data_if_some. unfold tail_of. cbn [kids loose]. rewrite kid_tail_set by exact D. reflexivity.
Qed.

Lemma groups_ext : forall l f g, (forall m, In m (nodes l) -> f m = g m) -> groups f l = groups g l.
Proof.
  induction l as [|[d|m] l IH]; intros f g H; cbn; [reflexivity| |].
  - apply IH. exact H.
  - rewrite (H m) by (left; reflexivity). rewrite (IH f g); [reflexivity|]. intros x Hx. apply H. right. exact Hx.
Qed.

Lemma prepend_loop_on : forall l s P n tn c t K data text0 tl,
  kids s = P ++ (n, tn) :: (c, t) :: K -> NoDup (map fst (kids s)) ->
  NoDup (nodes l) -> ~ In c (nodes l) -> ~ In n (nodes l) -> (forall m, In m (nodes l) -> ~ In m (map fst P)) ->
  (forall m, In m (nodes l) -> tail_of s m = tl m) ->
  content (prepend_loop s (Some c) (Some n) data text0 l) =
  chars (etext s) ++ kids_items P ++ (Nd n :: chars data ++ chars (leading_text l) ++ chars tn) ++
  groups tl l ++ chars text0 ++ kids_items ((c, t) :: keep (nodes l) K).
Proof.
  induction l as [|[d|m] l IH]; intros s P n tn c t K data text0 tl HK Hw Hn Hc Hnn HP Ht.
  - cbn [prepend_loop]. rewrite prepend_data_if_some, append_data_if_some. rewrite HK in *.
    destruct (nodup_split _ _ _ _ Hw) as (Ha & _ & _).
    unfold content. cbn [etext kids]. rewrite set_at, set_at by exact Ha.
    rewrite kids_items_app. cbn [kids_items flat_map groups leading_text nodes fst snd app chars map].
    rewrite keep_nil. rewrite !map_app. unfold chars. rewrite <- !app_assoc. reflexivity.
  - cbn [prepend_loop].
    rewrite (IH s P n tn c t K (data ++ d) text0 tl HK Hw Hn Hc Hnn HP Ht).
    cbn [leading_text groups nodes flat_map app]. rewrite !chars_app, <- !app_assoc. reflexivity.
  - cbn [prepend_loop]. cbv zeta. cbn [nodes flat_map app] in Hn, Hc, Hnn, HP, Ht.
    change (flat_map _ l) with (nodes l) in Hn, Hc, Hnn, HP, Ht.
    inversion Hn as [|? ? Hml Hl]; subst.
    set (s1 := prepend_data_if s (Some n) data).
    assert (Hk1 : kids s1 = P ++ (n, data ++ tn) :: (c, t) :: K).
    { unfold s1. rewrite prepend_data_if_some. cbn [kids]. rewrite HK in *.
      destruct (nodup_split _ _ _ _ Hw) as (Ha & _ & _). rewrite set_at by exact Ha. reflexivity. }
    assert (Hmap : map fst (kids s1) = map fst (kids s)) by (rewrite Hk1, HK, !map_app; reflexivity).
    assert (He1 : etext s1 = etext s) by (unfold s1; rewrite prepend_data_if_some; reflexivity).
    assert (Dm : n <> m) by (intros ->; apply Hnn; left; reflexivity).
    assert (Dc : c <> m) by (intros ->; apply Hc; left; reflexivity).
    assert (HmP : ~ In m (map fst P)) by (apply HP; left; reflexivity).
    assert (Htm : tail_of s1 m = tl m).
    { unfold s1. rewrite tail_prepend_data by congruence. apply Ht. left; reflexivity. }
    assert (Hdrop : drop_kid m (kids s1) = (P ++ [(n, data ++ tn)]) ++ (c, t) :: drop_kid m K).
    { rewrite Hk1, drop_app by exact HmP. cbn. destruct (Nat.eqb_spec n m); [congruence|].
      destruct (Nat.eqb_spec c m); [congruence|]. rewrite <- app_assoc. reflexivity. }
    assert (Hw1 : NoDup (map fst (kids s1))) by (rewrite Hmap; exact Hw).
    assert (Hd1 := drop_nodup m _ Hw1). assert (Hg1 := drop_gone m _ Hw1).
    rewrite Hdrop in Hd1, Hg1. destruct (nodup_split _ _ _ _ Hd1) as (Hcn & _ & _).
    assert (Hk2 : kids (lx_addprevious s1 c m) = (P ++ [(n, data ++ tn)]) ++ (m, tl m) :: (c, t) :: drop_kid m K).
    { unfold lx_addprevious. destruct (Nat.eqb_spec c m); [congruence|]. cbn [kids].
      rewrite Htm, Hdrop, insert_at_at by exact Hcn. reflexivity. }
    assert (He2 : etext (lx_addprevious s1 c m) = etext s).
    { unfold lx_addprevious. destruct (Nat.eqb c m); exact He1. }
    rewrite (IH (lx_addprevious s1 c m) (P ++ [(n, data ++ tn)]) m (tl m) c t (drop_kid m K) [] text0 tl).
    + rewrite He2, kids_items_app.
      cbn [kids_items flat_map fst snd leading_text groups nodes app chars map].
      change (flat_map _ l) with (nodes l).
      rewrite keep_drop.
      2: { rewrite HK in Hw. rewrite map_app in Hw. apply NoDup_remove_1 in Hw. cbn in Hw. apply NoDup_remove_1 in Hw.
           clear -Hw. induction (map fst P); [exact Hw|]. inversion Hw; auto. }
      rewrite !chars_app, <- !app_assoc. cbn [app]. rewrite <- !app_assoc. reflexivity.
    + exact Hk2.
    + rewrite Hk2, map_app. cbn. rewrite map_app in *. cbn in *.
      apply (Permutation_NoDup (l := m :: (map fst P ++ [n]) ++ c :: map fst (drop_kid m K))); [apply Permutation_middle|].
      rewrite map_app in Hd1, Hg1. cbn in Hd1, Hg1. constructor; assumption.
    + exact Hl.
    + intros I. apply Hc. right. exact I.
    + exact Hml.
    + intros x Hx I. rewrite map_app, in_app_iff in I. cbn in I. destruct I as [I|[I|[]]].
      * apply (HP x); [right; exact Hx|exact I].
      * apply Hnn. right. rewrite I. exact Hx.
    + intros x Hx. rewrite tail_addprevious by (intros ->; contradiction).
      unfold s1. rewrite tail_prepend_data; [apply Ht; right; exact Hx|].
      intros ->. apply Hnn. right. exact Hx.
Qed.

Lemma leading_some : forall l, nodes l <> [] -> exists pre m l',
  l = pre ++ ANode m :: l' /\ nodes pre = [] /\ leading_text l = leading_text pre.
Proof.
  induction l as [|[d|m] l IH]; intros H; [destruct (H eq_refl)| |].
  - destruct (IH H) as (pre & m & l' & E & Hp & Hl). exists (AText d :: pre), m, l'.
    rewrite E at 1. split; [reflexivity|]. split; [exact Hp|]. cbn. rewrite Hl. reflexivity.
  - exists [], m, l. repeat split; reflexivity.
Qed.
Lemma nodes_app : forall a b, nodes (a ++ b) = nodes a ++ nodes b.
Proof. intros. apply flat_map_app. Qed.
Lemma loop_texts : forall pre s f g data text0 l, nodes pre = [] ->
  prepend_loop s f g data text0 (pre ++ l) = prepend_loop s f g (data ++ leading_text pre) text0 l.
Proof.
  induction pre as [|[d|m] pre IH]; intros s f g data text0 l H; cbn.
  - rewrite app_nil_r. reflexivity.
  - rewrite IH by exact H. rewrite app_assoc. reflexivity.
  - discriminate H.
Qed.
Lemma groups_texts : forall pre tl l, nodes pre = [] -> groups tl (pre ++ l) = groups tl l.
Proof. induction pre as [|[d|m] pre IH]; intros tl l H; cbn; [reflexivity|apply IH; exact H|discriminate H]. Qed.
Lemma leading_texts : forall pre l, nodes pre = [] -> leading_text (pre ++ l) = leading_text pre ++ leading_text l.
Proof. induction pre as [|[d|m] pre IH]; intros l H; cbn; [reflexivity|rewrite IH by exact H; apply app_assoc|discriminate H]. Qed.

Lemma prepend_before : forall s l c t K,
  kids s = (c, t) :: K -> wf s -> NoDup (nodes l) -> ~ In c (nodes l) ->
  content (prepend s l) =
  chars (leading_text l) ++ groups (tail_of s) l ++ chars (etext s) ++ kids_items (keep (nodes l) (kids s)).
Proof.
  intros s l c t K HK Hw Hn Hc. unfold prepend. rewrite HK.
  destruct (nodes l) as [|n0 ns] eqn:En.
  - rewrite <- (app_nil_r l) at 1. rewrite loop_texts by exact En. cbn [prepend_loop app].
    rewrite prepend_data_if_none, append_data_if_none. unfold content. cbn [etext kids].
    rewrite keep_nil. assert (G : groups (tail_of s) l = []).
    { rewrite <- (app_nil_r l). rewrite groups_texts by exact En. reflexivity. }
    rewrite G, app_nil_r, chars_app, <- app_assoc. reflexivity.
  - rewrite <- En in *. destruct (leading_some l) as (pre & m & l' & E & Hp & _); [rewrite En; discriminate|]. clear En n0 ns.
    subst l. rewrite nodes_app, Hp in Hn, Hc |- *. cbn [app nodes flat_map] in Hn, Hc |- *.
    change (flat_map _ l') with (nodes l') in Hn, Hc |- *.
    inversion Hn as [|? ? Hml Hl]; subst.
    rewrite loop_texts, groups_texts, leading_texts by exact Hp. cbn [prepend_loop app leading_text groups]. cbv zeta.
    rewrite prepend_data_if_none. cbn [etext kids loose]. rewrite !app_nil_r.
    set (s1 := mkEl (leading_text pre) ((c, t) :: K) (loose s)).
    assert (Dc : c <> m) by (intros ->; apply Hc; left; reflexivity).
    assert (T1 : forall x, tail_of s1 x = tail_of s x) by (intros x; unfold tail_of; rewrite HK; reflexivity).
    unfold wf in Hw. rewrite HK in Hw. cbn in Hw. inversion Hw as [|? ? Hc1 Hc2]; subst.
    assert (Hk2 : kids (lx_addprevious s1 c m) = [] ++ (m, tail_of s m) :: (c, t) :: drop_kid m K).
    { unfold lx_addprevious. destruct (Nat.eqb_spec c m); [congruence|]. rewrite T1. cbn.
      destruct (Nat.eqb_spec c m); [congruence|]. cbn. rewrite Nat.eqb_refl. reflexivity. }
    assert (He2 : etext (lx_addprevious s1 c m) = leading_text pre).
    { unfold lx_addprevious. destruct (Nat.eqb c m); reflexivity. }
    rewrite (prepend_loop_on l' (lx_addprevious s1 c m) [] m (tail_of s m) c t (drop_kid m K) [] (etext s) (tail_of s)).
    + rewrite He2. cbn [kids_items flat_map app chars map]. rewrite keep_cons. cbn [fst].
      destruct (existsb (Nat.eqb c) (m :: nodes l')) eqn:X.
      { apply existsb_exists in X as (y & Y1 & Y2). apply Nat.eqb_eq in Y2. subst y. contradiction. }
      rewrite keep_drop by exact Hc2. cbn [kids_items flat_map fst snd app]. repeat (rewrite <- !app_assoc || rewrite <- app_comm_cons). reflexivity.
    + exact Hk2.
    + rewrite Hk2. cbn. constructor; [|constructor].
      * intros [I|I]; [congruence|]. exact (drop_gone m K Hc2 I).
      * intros I. apply Hc1. exact (drop_in _ _ _ I).
      * apply drop_nodup. exact Hc2.
    + exact Hl.
    + intros I. apply Hc. right. exact I.
    + exact Hml.
    + intros x _ [].
    + intros x Hx. rewrite tail_addprevious by (intros ->; contradiction). apply T1.
Qed.

Lemma prepend_into_empty : forall s pre n l, kids s = [] -> nodes pre = [] -> NoDup (n :: nodes l) -> nodes l <> [] ->
  content (prepend s (pre ++ ANode n :: l)) =
  chars (leading_text pre) ++ groups (tail_of s) l ++ chars (etext s) ++ Nd n :: chars (leading_text l) ++ chars (tail_of s n).
Proof.
  intros s pre n l HK Hp Hn Hl0. unfold prepend. rewrite HK. rewrite loop_texts by exact Hp.
  cbn [prepend_loop app]. cbv zeta. rewrite prepend_data_if_none. cbn [etext kids loose]. rewrite app_nil_r.
  inversion Hn as [|? ? Hnl Hl]; subst.
  destruct (leading_some l Hl0) as (q & m & l' & E & Hq & HL). subst l.
  rewrite loop_texts by exact Hq. rewrite HL. rewrite groups_texts by exact Hq. cbn [prepend_loop groups app]. cbv zeta.
  rewrite nodes_app, Hq in Hnl, Hl. cbn [nodes flat_map app] in Hnl, Hl.
  change (flat_map _ l') with (nodes l') in Hnl, Hl. inversion Hl as [|? ? Hml Hl']; subst.
  set (s0 := lx_append (mkEl (leading_text pre) [] (loose s)) n).
  set (s1 := prepend_data_if s0 (Some n) (leading_text q)).
  assert (Hk0 : kids s0 = [(n, tail_of s n)]) by (unfold s0, tail_of; cbn; rewrite HK; reflexivity).
  assert (Hk1 : kids s1 = [(n, leading_text q ++ tail_of s n)]).
  { unfold s1. rewrite prepend_data_if_some. cbn [kids]. rewrite Hk0. cbn. rewrite Nat.eqb_refl. reflexivity. }
  assert (Dn : n <> m) by (intros ->; apply Hnl; left; reflexivity).
  assert (T : forall x, x <> n -> tail_of s1 x = tail_of s x).
  { intros x D. unfold s1. rewrite tail_prepend_data by exact D. unfold tail_of at 1. rewrite Hk0. cbn.
    destruct (Nat.eqb_spec n x); [congruence|]. unfold tail_of. rewrite HK. reflexivity. }
  assert (Hk2 : kids (lx_addprevious s1 n m) = [] ++ [(m, tail_of s m); (n, leading_text q ++ tail_of s n)]).
  { unfold lx_addprevious. destruct (Nat.eqb_spec n m); [congruence|]. cbn [kids]. rewrite Hk1, T by congruence. cbn.
    destruct (Nat.eqb_spec n m); [congruence|]. cbn. rewrite Nat.eqb_refl. reflexivity. }
  assert (He2 : etext (lx_addprevious s1 n m) = leading_text pre).
  { unfold lx_addprevious. destruct (Nat.eqb n m); unfold s1; rewrite prepend_data_if_some; reflexivity. }
  rewrite (prepend_loop_on l' (lx_addprevious s1 n m) [] m (tail_of s m) n (leading_text q ++ tail_of s n) [] [] (etext s) (tail_of s)).
  - rewrite He2. cbn [kids_items flat_map app chars map keep filter fst snd]. rewrite app_nil_r, map_app. fold (chars (leading_text q)).
    fold (chars (tail_of s n)). rewrite <- !app_assoc. reflexivity.
  - exact Hk2.
  - rewrite Hk2. cbn. constructor; [intros [I|[]]; congruence|]. repeat constructor. intros [].
  - exact Hl'.
  - intros I. apply Hnl. right. exact I.
  - exact Hml.
  - intros x _ [].
  - intros x Hx. rewrite tail_addprevious by (intros ->; contradiction).
    apply T. intros ->. apply Hnl. right. exact Hx.
Qed.

Lemma groups_plain : forall tl l,
  (forall a n b, l = a ++ ANode n :: b -> leading_text b = [] \/ tl n = []) ->
  chars (leading_text l) ++ groups tl l = args_items tl l.
Proof.
  induction l as [|[d|m] l IH]; intros H; [reflexivity| |].
  - cbn [leading_text groups args_items flat_map arg_items]. rewrite chars_app, <- app_assoc. rewrite IH; [reflexivity|].
    intros a n b E. apply (H (AText d :: a) n b). rewrite E. reflexivity.
  - cbn [leading_text groups args_items flat_map arg_items chars map app].
    change (flat_map (arg_items tl) l) with (args_items tl l). rewrite <- IH.
    2: { intros a n b E. apply (H (ANode m :: a) n b). rewrite E. reflexivity. }
    destruct (H [] m l eq_refl) as [E|E]; rewrite E; reflexivity.
Qed.
