(** Proofs about the children of an element. *)
From Verif Require Import PyBase PyText ContentModel ContentSpec.
From Coq Require Import Lia Permutation.

Lemma chars_app : forall a b, chars (a ++ b) = chars a ++ chars b.
Proof. intros. apply map_app. Qed.
Lemma kids_items_app : forall a b, kids_items (a ++ b) = kids_items a ++ kids_items b.
Proof. intros. apply flat_map_app. Qed.

Lemma is_kid_in : forall n l, is_kid n l = true <-> In n (map fst l).
Proof.
  induction l as [|[m t] l IH]; cbn; [split; [discriminate|tauto]|].
  rewrite Bool.orb_true_iff, IH, Nat.eqb_eq. reflexivity.
Qed.
Lemma is_kid_out : forall n l, is_kid n l = false <-> ~ In n (map fst l).
Proof. intros. rewrite <- is_kid_in. destruct (is_kid n l); split; intuition congruence. Qed.
Lemma drop_out : forall n l, ~ In n (map fst l) -> drop_kid n l = l.
Proof.
  induction l as [|[m t] l IH]; cbn; intros H; [reflexivity|].
  destruct (Nat.eqb_spec m n); [subst; tauto|]. rewrite IH; tauto.
Qed.
Lemma tail_out : forall n l, ~ In n (map fst l) -> kid_tail n l = None.
Proof.
  induction l as [|[m t] l IH]; cbn; intros H; [reflexivity|].
  destruct (Nat.eqb_spec m n); [subst; tauto|]. apply IH; tauto.
Qed.
Lemma drop_at : forall n a t b, ~ In n (map fst a) -> drop_kid n (a ++ (n, t) :: b) = a ++ b.
Proof.
  induction a as [|[m u] a IH]; cbn; intros t b H; [rewrite Nat.eqb_refl; reflexivity|].
  destruct (Nat.eqb_spec m n); [subst; tauto|]. rewrite IH; tauto.
Qed.
Lemma tail_at : forall n a t b, ~ In n (map fst a) -> kid_tail n (a ++ (n, t) :: b) = Some t.
Proof.
  induction a as [|[m u] a IH]; cbn; intros t b H; [rewrite Nat.eqb_refl; reflexivity|].
  destruct (Nat.eqb_spec m n); [subst; tauto|]. apply IH; tauto.
Qed.
Lemma set_at : forall n f a t b, ~ In n (map fst a) -> set_tail n f (a ++ (n, t) :: b) = a ++ (n, f t) :: b.
Proof.
  induction a as [|[m u] a IH]; cbn; intros t b H; [rewrite Nat.eqb_refl; reflexivity|].
  destruct (Nat.eqb_spec m n); [subst; tauto|]. rewrite IH; tauto.
Qed.
Lemma insert_at_at : forall n x a t b, ~ In n (map fst a) -> insert_at n x (a ++ (n, t) :: b) = a ++ x :: (n, t) :: b.
Proof.
  induction a as [|[m u] a IH]; cbn; intros t b H; [rewrite Nat.eqb_refl; reflexivity|].
  destruct (Nat.eqb_spec m n); [subst; tauto|]. rewrite IH; tauto.
Qed.
Lemma put_at : forall n x a t b, ~ In n (map fst a) -> put_kid n x (a ++ (n, t) :: b) = a ++ x :: b.
Proof.
  induction a as [|[m u] a IH]; cbn; intros t b H; [rewrite Nat.eqb_refl; reflexivity|].
  destruct (Nat.eqb_spec m n); [subst; tauto|]. rewrite IH; tauto.
Qed.
Lemma next_at : forall n a t b, ~ In n (map fst a) ->
  next_of n (a ++ (n, t) :: b) = match b with (k, _) :: _ => Some k | [] => None end.
Proof.
  induction a as [|[m u] a IH]; cbn; intros t b H; [rewrite Nat.eqb_refl; reflexivity|].
  destruct (Nat.eqb_spec m n); [subst; tauto|]. apply IH; tauto.
Qed.
Lemma kid_split : forall n l, is_kid n l = true -> exists a t b, l = a ++ (n, t) :: b /\ ~ In n (map fst a).
Proof.
  induction l as [|[m u] l IH]; cbn; intros H; [discriminate|].
  destruct (Nat.eqb_spec m n); [subst; exists [], u, l; split; [reflexivity|cbn; tauto]|].
  destruct (IH H) as (a & t & b & -> & Ha). exists ((m, u) :: a), t, b. split; [reflexivity|]. cbn. tauto.
Qed.
Lemma nodup_split : forall (n : nat) (t : text) a b, NoDup (map fst (a ++ (n, t) :: b)) ->
  ~ In n (map fst a) /\ ~ In n (map fst b) /\ NoDup (map fst (a ++ b)).
Proof.
  intros n t a b H. rewrite map_app in *. cbn in H. apply NoDup_remove in H as [H1 H2].
  rewrite in_app_iff in H2. tauto.
Qed.

Lemma keep_nil : forall l, keep [] l = l.
Proof. induction l as [|k l IH]; cbn; [reflexivity|]. f_equal. exact IH. Qed.
Lemma keep_app : forall ns a b, keep ns (a ++ b) = keep ns a ++ keep ns b.
Proof. intros. apply filter_app. Qed.
Lemma keep_cons : forall ns k l, keep ns (k :: l) = if existsb (Nat.eqb (fst k)) ns then keep ns l else k :: keep ns l.
Proof. intros. unfold keep. cbn [filter]. destruct (existsb _ ns); reflexivity. Qed.
Lemma keep_out : forall n ns l, ~ In n (map fst l) -> keep (n :: ns) l = keep ns l.
Proof.
  induction l as [|[m t] l IH]; cbn [map fst In]; intros H; [reflexivity|].
  rewrite !keep_cons, IH by tauto. cbn [fst existsb].
  destruct (Nat.eqb_spec m n); [subst; tauto|]. reflexivity.
Qed.
Lemma keep_out_all : forall ns l, (forall n, In n ns -> ~ In n (map fst l)) -> keep ns l = l.
Proof.
  induction ns as [|n ns IH]; intros l H; [apply keep_nil|].
  rewrite keep_out by (apply H; left; reflexivity). apply IH. intros m Hm. apply H. right. exact Hm.
Qed.
Lemma keep_drop : forall n ns l, NoDup (map fst l) -> keep ns (drop_kid n l) = keep (n :: ns) l.
Proof.
  intros n ns l H. destruct (is_kid n l) eqn:E.
  - apply kid_split in E as (a & t & b & -> & Ha). rewrite drop_at by exact Ha.
    destruct (nodup_split _ _ _ _ H) as (_ & Hb & _).
    rewrite !keep_app, keep_out by exact Ha. f_equal.
    rewrite keep_cons. cbn [fst existsb]. rewrite Nat.eqb_refl. cbn [orb]. symmetry. apply keep_out. exact Hb.
  - apply is_kid_out in E. rewrite drop_out by exact E. symmetry. apply keep_out. exact E.
Qed.
Lemma drop_in : forall m n l, In m (map fst (drop_kid n l)) -> In m (map fst l).
Proof.
  induction l as [|[k t] l IH]; cbn; [tauto|].
  destruct (Nat.eqb_spec k n); cbn; tauto.
Qed.
Lemma drop_nodup : forall n l, NoDup (map fst l) -> NoDup (map fst (drop_kid n l)).
Proof.
  intros n l H. destruct (is_kid n l) eqn:E.
  - apply kid_split in E as (a & t & b & -> & Ha). rewrite drop_at by exact Ha.
    apply (nodup_split _ _ _ _ H).
  - apply is_kid_out in E. rewrite drop_out by exact E. exact H.
Qed.
Lemma drop_gone : forall n l, NoDup (map fst l) -> ~ In n (map fst (drop_kid n l)).
Proof.
  intros n l H. destruct (is_kid n l) eqn:E.
  - apply kid_split in E as (a & t & b & -> & Ha). rewrite drop_at by exact Ha.
    destruct (nodup_split _ _ _ _ H) as (_ & Hb & _). rewrite map_app, in_app_iff. tauto.
  - apply is_kid_out in E. rewrite drop_out by exact E. exact E.
Qed.
Lemma kid_tail_drop : forall m n l, m <> n -> kid_tail m (drop_kid n l) = kid_tail m l.
Proof.
  intros m n l D. induction l as [|[k t] l IH]; cbn; [reflexivity|].
  destruct (Nat.eqb_spec k n) as [e|Hk]; cbn; destruct (Nat.eqb_spec k m); try congruence; auto.
Qed.
Lemma kid_tail_app : forall m a b, kid_tail m (a ++ b) = match kid_tail m a with Some t => Some t | None => kid_tail m b end.
Proof. induction a as [|[k t] a IH]; cbn; intros b; [reflexivity|]. destruct (Nat.eqb k m); [reflexivity|apply IH]. Qed.
Lemma kid_tail_set : forall m n f l, m <> n -> kid_tail m (set_tail n f l) = kid_tail m l.
Proof.
  induction l as [|[k t] l IH]; cbn; intros D; [reflexivity|].
  destruct (Nat.eqb_spec k n); cbn; destruct (Nat.eqb_spec k m); try congruence; auto.
Qed.
Lemma set_id : forall n l, set_tail n (fun t => t ++ []) l = l.
Proof. induction l as [|[k t] l IH]; cbn; [reflexivity|]. rewrite IH, app_nil_r. destruct (Nat.eqb k n); reflexivity. Qed.

Lemma append_data_if_some : forall s n d,
  append_data_if s (Some n) d = mkEl (etext s) (set_tail n (fun t => t ++ d) (kids s)) (loose s).
Proof. intros [e k l] n [|c d]; cbn; [rewrite set_id|]; reflexivity. Qed.
Lemma append_data_if_none : forall s d,
  append_data_if s None d = mkEl (etext s ++ d) (kids s) (loose s).
Proof. intros [e k l] [|c d]; cbn; [rewrite app_nil_r|]; reflexivity. Qed.
Lemma set_id2 : forall n l, set_tail n (fun t => [] ++ t) l = l.
Proof. induction l as [|[k t] l IH]; cbn; [reflexivity|]. cbn in IH. rewrite IH. destruct (Nat.eqb k n); reflexivity. Qed.
Lemma prepend_data_if_some : forall s n d,
  prepend_data_if s (Some n) d = mkEl (etext s) (set_tail n (fun t => d ++ t) (kids s)) (loose s).
Proof. intros [e k l] n [|c d]; cbn; [change (fun t : text => t) with (fun t : text => [] ++ t); rewrite set_id2|]; reflexivity. Qed.
Lemma prepend_data_if_none : forall s d,
  prepend_data_if s None d = mkEl (d ++ etext s) (kids s) (loose s).
Proof. intros [e k l] [|c d]; cbn; reflexivity. Qed.

Lemma nodup_snoc : forall n (l : list nat), NoDup l -> ~ In n l -> NoDup (l ++ [n]).
Proof.
  intros n l H1 H2. rewrite <- (rev_involutive (l ++ [n])). apply NoDup_rev. rewrite rev_app_distr. cbn.
  constructor; [rewrite <- in_rev; exact H2|apply NoDup_rev; exact H1].
Qed.

(* append, once a node has been added *)
Lemma append_loop_some : forall l s K n t data tl,
  kids s = K ++ [(n, t)] -> NoDup (map fst (kids s)) -> NoDup (n :: nodes l) ->
  (forall m, In m (nodes l) -> tail_of s m = tl m) ->
  content (append_loop s (Some n) data l) =
  chars (etext s) ++ kids_items (keep (nodes l) K) ++ (Nd n :: chars (t ++ data)) ++ args_items tl l.
Proof.
  induction l as [|a l IH]; intros s K n t data tl HK Hw Hn Ht.
  - cbn [append_loop]. rewrite append_data_if_some. rewrite HK in *.
    destruct (nodup_split _ _ _ _ Hw) as (Ha & _ & _).
    unfold content. cbn [etext kids]. rewrite set_at by exact Ha. rewrite kids_items_app. cbn.
    rewrite keep_nil, !app_nil_r. reflexivity.
  - destruct a as [d|m].
    + cbn [append_loop]. rewrite (IH s K n t (data ++ d) tl HK Hw Hn Ht). cbn.
      rewrite !chars_app, <- !app_assoc. reflexivity.
    + cbn [append_loop]. cbn [nodes flat_map app] in Hn.
      change (flat_map _ l) with (nodes l) in Hn.
      inversion Hn as [|? ? Hnm Hn']; subst. inversion Hn' as [|? ? Hml Hl]; subst.
      assert (Dmn : m <> n) by (intros ->; apply Hnm; left; reflexivity).
      set (s1 := append_data_if s (Some n) data).
      assert (Hk1 : kids s1 = K ++ [(n, t ++ data)]).
      { unfold s1. rewrite append_data_if_some. cbn [kids]. rewrite HK in *.
        destruct (nodup_split _ _ _ _ Hw) as (Ha & _ & _). rewrite set_at by exact Ha. reflexivity. }
      assert (He1 : etext s1 = etext s) by (unfold s1; rewrite append_data_if_some; reflexivity).
      assert (Hw1 : NoDup (map fst (kids s1))).
      { rewrite Hk1. rewrite HK in Hw. rewrite map_app in *. exact Hw. }
      assert (Ht1 : forall x, x <> n -> tail_of s1 x = tail_of s x).
      { intros x Dx. unfold tail_of, s1. rewrite append_data_if_some. cbn [kids loose].
        rewrite kid_tail_set by exact Dx. reflexivity. }
      assert (Hkn : ~ In n (map fst K)).
      { rewrite HK in Hw. apply (nodup_split _ _ _ _ Hw). }
      rewrite (IH (lx_append s1 m) (drop_kid m (kids s1)) m (tail_of s1 m) [] tl).
      * cbn [lx_append etext]. rewrite He1, app_nil_r, keep_drop by exact Hw1.
        rewrite Hk1, keep_app.
        change (nodes (ANode m :: l)) with (m :: nodes l).
        assert (Hkk : keep (m :: nodes l) [(n, t ++ data)] = [(n, t ++ data)]).
        { rewrite keep_out_all; [reflexivity|]. cbn. intros x [ <- |Hx] [Hx2|[]]; subst; [congruence|].
          apply Hnm. right. exact Hx. }
        rewrite Hkk, kids_items_app. cbn [kids_items flat_map fst snd].
        cbn [args_items flat_map arg_items]. rewrite (Ht1 m Dmn), (Ht m) by (left; reflexivity).
        rewrite app_nil_r. rewrite <- !app_assoc. reflexivity.
      * reflexivity.
      * cbn [lx_append kids]. rewrite map_app. cbn.
        apply nodup_snoc; [apply drop_nodup; exact Hw1|apply drop_gone; exact Hw1].
      * exact Hn'.
      * intros x Hx. assert (x <> m) by (intros ->; contradiction).
        assert (x <> n) by (intros ->; apply Hnm; right; exact Hx).
        unfold tail_of. cbn [lx_append kids loose].
        rewrite kid_tail_app, kid_tail_drop by assumption. cbn.
        destruct (Nat.eqb_spec m x); [congruence|].
        transitivity (tail_of s1 x); [unfold tail_of; destruct (kid_tail x (kids s1)); reflexivity|].
        rewrite Ht1 by assumption. apply Ht. right. exact Hx.
Qed.

Lemma nodes_after : forall l, nodes (after_leading l) = nodes l.
Proof. induction l as [|[t|n] l IH]; cbn; [reflexivity|exact IH|reflexivity]. Qed.

(* append in general: where everything goes *)
Lemma append_loop_none : forall l s data,
  wf s -> NoDup (nodes l) ->
  content (append_loop s None data l) =
  chars (etext s ++ data ++ leading_text l) ++ kids_items (keep (nodes l) (kids s)) ++ args_items (tail_of s) (after_leading l).
Proof.
  induction l as [|a l IH]; intros s data Hw Hn.
  - cbn [append_loop]. rewrite append_data_if_none. unfold content. cbn [etext kids leading_text after_leading nodes flat_map args_items].
    rewrite keep_nil, !app_nil_r. reflexivity.
  - destruct a as [d|m]; cbn [append_loop].
    + rewrite IH by assumption. cbn [leading_text after_leading]. rewrite <- !app_assoc. reflexivity.
    + rewrite append_data_if_none. cbn [nodes flat_map app] in Hn. change (flat_map _ l) with (nodes l) in Hn.
      inversion Hn as [|? ? Hml Hl]; subst.
      set (s1 := mkEl (etext s ++ data) (kids s) (loose s)).
      rewrite (append_loop_some l (lx_append s1 m) (drop_kid m (kids s)) m (tail_of s m) [] (tail_of s)).
      * cbn [lx_append etext s1 leading_text after_leading]. rewrite !app_nil_r, keep_drop by exact Hw.
        reflexivity.
      * reflexivity.
      * cbn. rewrite map_app. apply nodup_snoc; [apply drop_nodup; exact Hw|apply drop_gone; exact Hw].
      * exact Hn.
      * intros x Hx. assert (x <> m) by (intros ->; contradiction).
        unfold tail_of. cbn [lx_append kids loose s1].
        rewrite kid_tail_app, kid_tail_drop by assumption. cbn.
        destruct (Nat.eqb_spec m x); [congruence|]. destruct (kid_tail x (kids s)); reflexivity.
Qed.

(* prepend on an element with children *)
Lemma prepend_loop_some : forall l s P n c t K data text0 tl,
  kids s = P ++ (n, []) :: (c, t) :: K -> NoDup (map fst (kids s)) ->
  NoDup (nodes l) -> (forall m, In m (nodes l) -> fresh s m) -> (forall m, In m (nodes l) -> tl m = []) ->
  content (prepend_loop s (Some c) (Some n) data text0 l) =
  chars (etext s) ++ kids_items P ++ (Nd n :: chars data) ++ args_items tl l ++ chars text0 ++ kids_items ((c, t) :: K).
Proof.
  induction l as [|a l IH]; intros s P n c t K data text0 tl HK Hw Hn Hf Ht.
  - cbn [prepend_loop]. rewrite prepend_data_if_some, append_data_if_some. rewrite HK in *.
    destruct (nodup_split _ _ _ _ Hw) as (Ha & _ & _).
    unfold content. cbn [etext kids]. rewrite set_at, set_at by exact Ha.
    rewrite app_nil_r. rewrite kids_items_app. cbn [kids_items flat_map args_items fst snd app].
    rewrite chars_app, <- !app_assoc. reflexivity.
  - destruct a as [d|m].
    + cbn [prepend_loop]. rewrite (IH s P n c t K (data ++ d) text0 tl HK Hw Hn Hf Ht). cbn.
      rewrite chars_app, <- !app_assoc. reflexivity.
    + cbn [prepend_loop]. cbv zeta. cbn [nodes flat_map app] in Hn.
      change (flat_map _ l) with (nodes l) in Hn.
      inversion Hn as [|? ? Hml Hl]; subst.
      destruct (Hf m) as [Hm1 Hm2]; [left; reflexivity|]. apply is_kid_out in Hm1.
      set (s1 := prepend_data_if s (Some n) data).
      assert (Hk1 : kids s1 = P ++ (n, data) :: (c, t) :: K).
      { unfold s1. rewrite prepend_data_if_some. cbn [kids]. rewrite HK in *.
        destruct (nodup_split _ _ _ _ Hw) as (Ha & _ & _). rewrite set_at by exact Ha. rewrite app_nil_r. reflexivity. }
      assert (Hmap : map fst (kids s1) = map fst (kids s)).
      { rewrite Hk1, HK, !map_app. reflexivity. }
      assert (He1 : etext s1 = etext s) by (unfold s1; rewrite prepend_data_if_some; reflexivity).
      assert (Hl1 : loose s1 = loose s) by (unfold s1; rewrite prepend_data_if_some; reflexivity).
      assert (Dc : c <> m).
      { intros ->. apply Hm1. rewrite HK, map_app, in_app_iff. cbn. tauto. }
      assert (Hcn : ~ In c (map fst (P ++ [(n, data)]))).
      { assert (Hw' := Hw). rewrite HK in Hw'.
        replace (P ++ (n, []) :: (c, t) :: K) with ((P ++ [(n, [])]) ++ (c, t) :: K) in Hw' by (rewrite <- app_assoc; reflexivity).
        apply nodup_split in Hw' as (Hc & _). rewrite map_app in *. exact Hc. }
      assert (Hk2 : kids (lx_addprevious s1 c m) = (P ++ [(n, data)]) ++ (m, []) :: (c, t) :: K).
      { unfold lx_addprevious. destruct (Nat.eqb_spec c m); [congruence|]. cbn [kids].
        rewrite drop_out by (rewrite Hmap; exact Hm1).
        unfold tail_of. rewrite tail_out by (rewrite Hmap; exact Hm1). rewrite Hl1, Hm2, Hk1.
        replace (P ++ (n, data) :: (c, t) :: K) with ((P ++ [(n, data)]) ++ (c, t) :: K) by (rewrite <- app_assoc; reflexivity).
        rewrite insert_at_at by exact Hcn. reflexivity. }
      assert (He2 : etext (lx_addprevious s1 c m) = etext s).
      { unfold lx_addprevious. destruct (Nat.eqb c m); exact He1. }
      assert (Hl2 : loose (lx_addprevious s1 c m) = loose s).
      { unfold lx_addprevious. destruct (Nat.eqb c m); exact Hl1. }
      rewrite (IH (lx_addprevious s1 c m) (P ++ [(n, data)]) m c t K [] text0 tl).
      * rewrite He2, kids_items_app. cbn [kids_items flat_map fst snd args_items arg_items].
        rewrite (Ht m) by (left; reflexivity). cbn [chars map]. rewrite app_nil_r, <- !app_assoc. reflexivity.
      * exact Hk2.
      * rewrite Hk2, map_app. cbn.
        assert (G : NoDup (m :: map fst (kids s1))) by (constructor; rewrite Hmap; assumption).
        rewrite Hk1, map_app in G. cbn in G.
        rewrite map_app. cbn. 
        apply (Permutation_NoDup (l := m :: map fst P ++ n :: c :: map fst K)); [|exact G].
        replace (map fst P ++ n :: c :: map fst K) with ((map fst P ++ [n]) ++ c :: map fst K) by (rewrite <- app_assoc; reflexivity).
        apply Permutation_middle.
      * exact Hl.
      * intros x Hx. destruct (Hf x) as [Hx1 Hx2]; [right; exact Hx|].
        split; [|rewrite Hl2; exact Hx2]. apply is_kid_out. apply is_kid_out in Hx1. intros I. apply Hx1.
        rewrite Hk2, map_app, in_app_iff in I. cbn in I.
        rewrite HK, map_app, in_app_iff. cbn. rewrite map_app, in_app_iff in I. cbn in I.
        assert (x <> m) by (intros ->; contradiction).
        destruct I as [[I|[I|[]]]|[I|I]]; subst; try tauto; try congruence.
      * intros x Hx. apply Ht. right. exact Hx.
Qed.

Lemma prepend_loop_none : forall l s c t K data text0,
  etext s = [] -> kids s = (c, t) :: K -> wf s ->
  NoDup (nodes l) -> (forall m, In m (nodes l) -> fresh s m) ->
  content (prepend_loop s (Some c) None data text0 l) =
  chars data ++ args_items (tail_of s) l ++ chars text0 ++ kids_items (kids s).
Proof.
  induction l as [|a l IH]; intros s c t K data text0 He HK Hw Hn Hf.
  - cbn [prepend_loop]. rewrite prepend_data_if_none, append_data_if_none. rewrite He.
    unfold content. cbn [etext kids args_items flat_map]. rewrite !chars_app, <- !app_assoc. reflexivity.
  - destruct a as [d|m].
    + cbn [prepend_loop]. rewrite (IH s c t K (data ++ d) text0 He HK Hw Hn Hf). cbn [args_items flat_map arg_items].
      rewrite chars_app, <- !app_assoc. reflexivity.
    + cbn [prepend_loop]. cbv zeta. rewrite prepend_data_if_none, He.
      cbn [nodes flat_map app] in Hn. change (flat_map _ l) with (nodes l) in Hn.
      inversion Hn as [|? ? Hml Hl]; subst.
      destruct (Hf m) as [Hm1 Hm2]; [left; reflexivity|]. apply is_kid_out in Hm1.
      assert (Dc : c <> m) by (intros ->; apply Hm1; rewrite HK; left; reflexivity).
      set (s1 := mkEl (data ++ []) (kids s) (loose s)).
      assert (Hk2 : kids (lx_addprevious s1 c m) = [] ++ (m, []) :: (c, t) :: K).
      { unfold lx_addprevious. destruct (Nat.eqb_spec c m); [congruence|]. cbn [kids s1].
        rewrite drop_out by exact Hm1. unfold tail_of. cbn [kids s1 loose]. rewrite tail_out by exact Hm1.
        rewrite Hm2, HK. cbn. rewrite Nat.eqb_refl. reflexivity. }
      assert (He2 : etext (lx_addprevious s1 c m) = data).
      { unfold lx_addprevious. destruct (Nat.eqb c m); cbn; apply app_nil_r. }
      assert (Hl2 : loose (lx_addprevious s1 c m) = loose s).
      { unfold lx_addprevious. destruct (Nat.eqb c m); reflexivity. }
      rewrite (prepend_loop_some l (lx_addprevious s1 c m) [] m c t K [] text0 (tail_of s)).
      * rewrite He2, HK. cbn [kids_items flat_map args_items arg_items chars map app].
        assert (Htm : tail_of s m = []) by (unfold tail_of; rewrite tail_out by exact Hm1; exact Hm2).
        rewrite Htm. reflexivity.
      * exact Hk2.
      * rewrite Hk2. cbn. unfold wf in Hw. rewrite HK in Hw, Hm1. constructor; assumption.
      * exact Hl.
      * intros x Hx. destruct (Hf x) as [Hx1 Hx2]; [right; exact Hx|].
        split; [|rewrite Hl2; exact Hx2]. apply is_kid_out. apply is_kid_out in Hx1. intros I. apply Hx1.
        rewrite Hk2 in I. cbn in I. rewrite HK. cbn.
        destruct I as [I|I]; [|exact I]. rewrite <- I in Hx. contradiction.
      * intros x Hx. destruct (Hf x) as [Hx1 Hx2]; [right; exact Hx|].
        apply is_kid_out in Hx1. unfold tail_of. rewrite tail_out by exact Hx1. exact Hx2.
Qed.

(* prepend on an element without children, at most one node *)
Lemma prepend_texts : forall l s first n data text0 t tl,
  nodes l = [] -> kids s = [(n, t)] ->
  content (prepend_loop s first (Some n) data text0 l) =
  chars (etext s) ++ (Nd n :: chars data) ++ args_items tl l ++ chars t ++ chars text0.
Proof.
  induction l as [|[d|m] l IH]; intros s first n data text0 t tl Hn HK; [| |discriminate].
  - cbn [prepend_loop]. rewrite prepend_data_if_some, append_data_if_some. unfold content. cbn [etext kids].
    rewrite HK. cbn. rewrite Nat.eqb_refl. cbn. rewrite Nat.eqb_refl. cbn.
    rewrite app_nil_r, !chars_app, <- !app_assoc. reflexivity.
  - cbn [prepend_loop]. rewrite (IH s first n (data ++ d) text0 t tl Hn HK). cbn [args_items flat_map arg_items].
    rewrite chars_app. cbn. rewrite <- !app_assoc. reflexivity.
Qed.
Lemma prepend_one : forall l s data text0,
  etext s = [] -> kids s = [] -> (length (nodes l) <= 1)%nat -> (forall m, In m (nodes l) -> loose s m = []) ->
  content (prepend_loop s None None data text0 l) = chars data ++ args_items (tail_of s) l ++ chars text0.
Proof.
  induction l as [|[d|m] l IH]; intros s data text0 He HK Hn Hf.
  - cbn [prepend_loop]. rewrite prepend_data_if_none, append_data_if_none, He. unfold content. cbn [etext kids].
    rewrite HK. cbn. rewrite !app_nil_r, chars_app. reflexivity.
  - cbn [prepend_loop]. rewrite (IH s (data ++ d) text0 He HK Hn Hf). cbn [args_items flat_map arg_items].
    rewrite chars_app, <- !app_assoc. reflexivity.
  - cbn [prepend_loop]. cbv zeta. rewrite prepend_data_if_none, He.
    cbn in Hn. change (flat_map _ l) with (nodes l) in Hn.
    assert (Hl : nodes l = []) by (destruct (nodes l); [reflexivity|cbn in Hn; lia]).
    assert (Ht : tail_of s m = []).
    { unfold tail_of. rewrite HK. cbn. apply Hf. left. reflexivity. }
    rewrite (prepend_texts l _ _ m [] text0 [] (tail_of s) Hl).
    + cbn. rewrite Ht, app_nil_r. reflexivity.
    + cbn. rewrite HK. cbn. unfold tail_of in *. rewrite HK in Ht. cbn in *. rewrite Ht. reflexivity.
Qed.
