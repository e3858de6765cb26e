(** Careful programs never read freed memory. *)
From Coq Require Import Lia.
From Verif Require Import PyBase NativeModel NativeSpec NativeProofs NativeProofs2.
#[local] Open Scope nat_scope.

Lemma run_inv : forall os s X s', Inv s X -> counted_run s os -> steps s os = Some s' -> exists Y, Inv s' Y /\ forall n, times n Y = times n (taken s os) + times n X.
Proof.
  induction os as [|o os IH]; intros s X s' V C E; cbn [taken steps counted_run] in *.
  - injection E as <-. exists X. split; [exact V|reflexivity].
  - destruct C as (C1 & C2). assert (F := step_fine s X o V C1). destruct (step s o) as [s1|]; [|discriminate].
    destruct (IH s1 _ s' F C2 E) as (Y & VY & T). exists Y. split; [exact VY|]. intros n. rewrite T, !times_app. lia.
Qed.
Lemma empty_inv : Inv empty [].
Proof.
  constructor; cbn; try (intros; contradiction); try (intros ? ? ? ? H; discriminate H); try (intros ? ? H; discriminate H); [|constructor].
  constructor; cbn; [constructor|reflexivity|discriminate].
Qed.

(** ** Pointers *)
Record Safe (s : state) : Prop := mkSafe {
  s_there : forall n c k p, find (st_heap s) n = Some (c, k) -> In p (points k) -> there s p;
  s_bytes : forall b, In b (st_bytes s) -> b < st_next s;
  s_kept : forall w x b, wrap (st_wraps s) w = Some x -> w_keeps x = Some b -> In b (st_bytes s) /\
    (forall n c k, find (st_heap s) n = Some (c, k) -> In (ToBytes b) (points k) -> n = w_native x) /\
    (forall v y, wrap (st_wraps s) v = Some y -> w_keeps y = Some b -> v = w) }.
Lemma empty_safe : Safe empty.
Proof. constructor; cbn; intros; try discriminate; contradiction. Qed.

Definition evo (s : state) (h' : heap) (bytes' : list nat) : Prop :=
  forall n c k p, find h' n = Some (c, k) -> In p (points k) ->
    (exists c' k', find (st_heap s) n = Some (c', k') /\ In p (points k')) \/
    (match p with ToFT f => exists d e, find (st_heap s) f = Some (d, KFT e) | ToBytes b => In b (st_bytes s) /\ kept s b = false \/ b = st_next s /\ In b bytes' end).
Definition wraps_shape (s : state) (ws' : list (nat * wrapper)) : Prop :=
  ws' = st_wraps s \/ exists v c n, st_next s <= v /\ ws' = (v, mkW c n None) :: st_wraps s.
Lemma evo_same : forall s h b, (forall m c k, find h m = Some (c, k) -> exists c', find (st_heap s) m = Some (c', k)) -> evo s h b.
Proof. intros s h b E n c k p F I. destruct (E _ _ _ F) as (c' & F'). left. eauto. Qed.
Lemma evo_cons : forall s h b n k, evo s h b -> (forall p, In p (points k) ->
    match p with ToFT f => exists d e, find (st_heap s) f = Some (d, KFT e) | ToBytes m => In m (st_bytes s) /\ kept s m = false \/ m = st_next s /\ In m b end) -> forall c, evo s ((n, (c, k)) :: h) b.
Proof.
  intros s h b n k E P c m d l p. cbn [find]. destruct (Nat.eqb n m); [intros [= <- <-] I; right; exact (P _ I)|]. apply E.
Qed.
Lemma retain_same : forall (h h' : heap) n, retain h n = Some h' -> forall m c k, find h' m = Some (c, k) -> exists c', find h m = Some (c', k).
Proof.
  intros h h' n. unfold retain. destruct (find h n) as [[c k]|] eqn:F; [|discriminate]. intros [= <-]. exact (put_same _ _ _ _ _ F).
Qed.
Lemma release_same : forall fuel (h h' : heap) n, NoDup (keys h) -> release fuel h n = Some h' -> forall m c k, find h' m = Some (c, k) -> exists c', find h m = Some (c', k).
Proof.
  induction fuel as [|fuel IH]; intros h h' n N E m c k F; cbn in E; [injection E as <-; eauto|].
  destruct (find h n) as [[[|[|d]] l]|] eqn:Fn; [| | |discriminate].
  - assert (D : forall c0 k0, find (drop h n) m = Some (c0, k0) -> exists c', find h m = Some (c', k0)).
    { intros c0 k0. destruct (Nat.eq_dec n m) as [<-|Q]; [rewrite find_drop_eq by exact N; discriminate|rewrite find_drop_ne by exact Q; eauto]. }
    destruct (owned l); [|injection E as <-; exact (D _ _ F)]. destruct (IH _ _ _ (nodup_drop _ n N) E _ _ _ F) as (c' & Q). exact (D _ _ Q).
  - assert (D : forall c0 k0, find (drop h n) m = Some (c0, k0) -> exists c', find h m = Some (c', k0)).
    { intros c0 k0. destruct (Nat.eq_dec n m) as [<-|Q]; [rewrite find_drop_eq by exact N; discriminate|rewrite find_drop_ne by exact Q; eauto]. }
    destruct (owned l); [|injection E as <-; exact (D _ _ F)]. destruct (IH _ _ _ (nodup_drop _ n N) E _ _ _ F) as (c' & Q). exact (D _ _ Q).
  - injection E as <-. exact (put_same _ _ _ _ _ Fn _ _ _ F).
Qed.

Lemma ft_of : forall s X w x, Inv s X -> wrap (st_wraps s) w = Some x -> In (w_class x) [FTFace] -> exists d e, find (st_heap s) (w_native x) = Some (d, KFT e).
Proof.
  intros s X w x V H [C|[]]. destruct (i_class _ _ V _ _ H) as (d & k & F & O). rewrite <- C in O. destruct k; try contradiction. eauto.
Qed.
(* the operations that neither forget anything nor make kept memory *)
Definition plain (o : op) : Prop := match o with Del _ | DropBytes _ | FTMemNew | NewBytes => False | _ => True end.
Lemma plain_shape : forall s X o s', Inv s X -> plain o -> step s o = Some s' ->
  st_bytes s' = st_bytes s /\ st_next s <= st_next s' /\ wraps_shape s (st_wraps s') /\ evo s (st_heap s') (st_bytes s').
Proof.
  intros s X o s' V P E.
  assert (SELF : forall t, t = s -> st_bytes t = st_bytes s /\ st_next s <= st_next t /\ wraps_shape s (st_wraps t) /\ evo s (st_heap t) (st_bytes t)).
  { intros t ->. split; [reflexivity|]. split; [lia|]. split; [now left|]. apply evo_same. eauto. }
  assert (MK : forall h k c, (forall m d l, find h m = Some (d, l) -> exists c', find (st_heap s) m = Some (c', l)) ->
    (forall p, In p (points k) -> match p with ToFT f => exists d e, find (st_heap s) f = Some (d, KFT e) | ToBytes m => In m (st_bytes s) /\ kept s m = false end) ->
    let t := make (with_heap s h) k c None in st_bytes t = st_bytes s /\ st_next s <= st_next t /\ wraps_shape s (st_wraps t) /\ evo s (st_heap t) (st_bytes t)).
  { intros h k c Q R. cbn. split; [reflexivity|]. split; [lia|]. split; [right; exists (S (st_next s)), c, (st_next s); split; [lia|reflexivity]|].
    apply evo_cons; [apply evo_same; exact Q|]. intros p I. specialize (R p I). destruct p; [left; exact R|exact R]. }
  assert (MK0 : forall k c, (forall p, In p (points k) -> match p with ToFT f => exists d e, find (st_heap s) f = Some (d, KFT e) | ToBytes m => In m (st_bytes s) /\ kept s m = false end) ->
    let t := make s k c None in st_bytes t = st_bytes s /\ st_next s <= st_next t /\ wraps_shape s (st_wraps t) /\ evo s (st_heap t) (st_bytes t)).
  { intros k c R. destruct s as [h bs ws nx]. exact (MK h k c (same_refl _) R). }
  assert (WH : forall h, (forall m d l, find h m = Some (d, l) -> exists c', find (st_heap s) m = Some (c', l)) ->
    let t := with_heap s h in st_bytes t = st_bytes s /\ st_next s <= st_next t /\ wraps_shape s (st_wraps t) /\ evo s (st_heap t) (st_bytes t)).
  { intros h Q. cbn. split; [reflexivity|]. split; [lia|]. split; [now left|]. apply evo_same. exact Q. }
  destruct o as [|b|b mode|w|w|w|w|w|w fw| | | |w|w|w|w]; try contradiction; cbn [step] in E.
  - destruct (_ && _) eqn:A; injection E as <-; [|auto]. apply MK0. apply andb_true_iff in A as (A1 & A2). apply alive_in in A1. apply negb_true_iff in A2.
    destruct (Z.eqb mode 1); [intros p []|]. intros p [<-|[]]. auto.
  - match type of E with on s w ?cs ?f = _ => destruct (on_cases s w cs f) as [(x & H & C & Q)|(Q & _)]; rewrite Q in E; clear Q end; [|injection E as <-; auto].
    destruct (sound s (w_native x)); [|discriminate]. destruct (retain (st_heap s) (w_native x)) as [h|] eqn:R; [|discriminate]. injection E as <-.
    apply MK; [exact (retain_same _ _ _ R)|]. intros p [].
  - match type of E with on s w ?cs ?f = _ => destruct (on_cases s w cs f) as [(x & H & C & Q)|(Q & _)]; rewrite Q in E; clear Q end; [|injection E as <-; auto].
    destruct (sound s (w_native x)); [|discriminate]. injection E as <-. apply MK0. intros p [<-|[]]. exact (ft_of _ _ _ _ V H C).
  - match type of E with on s w ?cs ?f = _ => destruct (on_cases s w cs f) as [(x & H & C & Q)|(Q & _)]; rewrite Q in E; clear Q end; [|injection E as <-; auto].
    destruct (sound s (w_native x)); [|discriminate]. destruct (retain (st_heap s) (w_native x)) as [h|] eqn:R; [|discriminate]. injection E as <-.
    apply MK; [exact (retain_same _ _ _ R)|]. intros p [].
  - match type of E with on s w ?cs ?f = _ => destruct (on_cases s w cs f) as [(x & H & C & Q)|(Q & _)]; rewrite Q in E; clear Q end; [|injection E as <-; auto].
    destruct (sound s (w_native x)); [|discriminate]. injection E as <-. cbn. split; [reflexivity|]. split; [lia|].
    split; [right; eexists _, _, _; split; [|reflexivity]; lia|]. apply evo_cons; [apply evo_cons; [apply evo_same; eauto|]|]; intros p [<-|[]]; exact (ft_of _ _ _ _ V H C).
  - match type of E with on s w ?cs ?f = _ => destruct (on_cases s w cs f) as [(x & H & C & Q)|(Q & _)]; rewrite Q in E; clear Q end; [|injection E as <-; auto].
    destruct (find (st_heap s) (w_native x)) as [[c [| |f t| |]]|]; try discriminate. destruct (class_eqb (w_class x) HBFTFont).
    + destruct t as [t|]; [|injection E as <-; auto]. destruct (retain (st_heap s) t) as [h|] eqn:R; [|discriminate]. injection E as <-. cbn. split; [reflexivity|]. split; [lia|].
      split; [right; eexists _, _, _; split; [|reflexivity]; lia|]. apply evo_same. exact (retain_same _ _ _ R).
    + injection E as <-. cbn. split; [reflexivity|]. split; [lia|]. split; [right; eexists _, _, _; split; [|reflexivity]; lia|]. apply evo_same. eauto.
  - match type of E with on s w ?cs ?f = _ => destruct (on_cases s w cs f) as [(x & H & C & Q)|(Q & _)]; rewrite Q in E; clear Q end; [|injection E as <-; auto].
    match type of E with on s fw ?cs ?f = _ => destruct (on_cases s fw cs f) as [(y & Hy & Cy & Q)|(Q & _)]; rewrite Q in E; clear Q end; [|injection E as <-; auto].
    destruct (find (st_heap s) (w_native x)) as [[c [| |f t| |]]|] eqn:F; try discriminate. destruct (retain (st_heap s) (w_native y)) as [h|] eqn:R; [|discriminate].
    destruct (destroy _ f) as [h'|] eqn:D; [|discriminate]. injection E as <-. cbn. split; [reflexivity|]. split; [lia|]. split; [now left|].
    assert (N : NoDup (keys h)). { unfold retain in R. destruct (find (st_heap s) (w_native y)) as [[d l]|]; [|discriminate]. injection R as <-. rewrite keys_put. exact (g_nodup _ _ (i_good _ _ V)). }
    intros n d l p Fn I. left. assert (N' : NoDup (keys (put h (w_native x) (c, KFont (w_native y) t)))) by (rewrite keys_put; exact N).
    destruct (release_same _ _ _ _ N' D _ _ _ Fn) as (d' & F').
    destruct (Nat.eq_dec (w_native x) n) as [<-|NE].
    + destruct (find h (w_native x)) as [z|] eqn:Fz.
      * rewrite (find_put_eq _ _ _ _ Fz) in F'. injection F' as <- <-. exists c, (KFont f t). split; [exact F|]. destruct t; exact I.
      * exfalso. assert (Q : find (put h (w_native x) (c, KFont (w_native y) t)) (w_native x) = None); [|congruence].
        destruct (find (put h (w_native x) (c, KFont (w_native y) t)) (w_native x)) eqn:Q; [|reflexivity]. assert (K : In (w_native x) (keys h)); [|apply find_key in K; congruence].
        rewrite <- (keys_put h (w_native x) (c, KFont (w_native y) t)). apply find_key. congruence.
    + rewrite find_put_ne in F' by exact NE. destruct (retain_same _ _ _ R _ _ _ F') as (d'' & F''). eauto.
  - injection E as <-. apply MK0. intros p [].
  - injection E as <-. apply MK0. intros p [].
  - match type of E with on s w ?cs ?f = _ => destruct (on_cases s w cs f) as [(x & H & C & Q)|(Q & _)]; rewrite Q in E; clear Q end; [|injection E as <-; auto].
    destruct (retain (st_heap s) (w_native x)) as [h|] eqn:R; [|discriminate]. injection E as <-. apply WH. exact (retain_same _ _ _ R).
  - match type of E with on s w ?cs ?f = _ => destruct (on_cases s w cs f) as [(x & H & C & Q)|(Q & _)]; rewrite Q in E; clear Q end; [|injection E as <-; auto].
    destruct (find (st_heap s) (w_native x)) as [[c [|[b|] t| | |]]|]; try discriminate.
    + destruct (retain (st_heap s) b) as [h|] eqn:R; [|discriminate]. injection E as <-. apply WH. exact (retain_same _ _ _ R).
    + destruct (sound_ft s t); [|discriminate]. injection E as <-. auto.
  - match type of E with on s w ?cs ?f = _ => destruct (on_cases s w cs f) as [(x & H & C & Q)|(Q & _)]; rewrite Q in E; clear Q end; [|injection E as <-; auto].
    destruct (sound s (w_native x)); [|discriminate]. injection E as <-. auto.
Qed.

Lemma ft_owners : forall s X f c b, Inv s X -> find (st_heap s) f = Some (c, KFT b) -> owners (st_heap s) f = 0.
Proof.
  intros s X f c b V F. destruct (Nat.eq_dec (owners (st_heap s) f) 0) as [|N]; [assumption|]. exfalso. destruct (owners_some _ _ N) as (n & d & k & I & O).
  apply in_find in I; [|exact (g_nodup _ _ (i_good _ _ V))]. destruct (i_kids _ _ V _ _ _ _ I O) as (c' & k' & F' & CO). assert (k' = KFT b) by congruence. subst. destruct k; contradiction.
Qed.
Lemma kept_false : forall s b w x, kept s b = false -> wrap (st_wraps s) w = Some x -> w_keeps x = Some b -> False.
Proof.
  intros s b w x K H E. unfold kept in K. assert (Q : existsb (fun v : nat * wrapper => match w_keeps (snd v) with Some m => Nat.eqb m b | None => false end) (st_wraps s) = true); [|congruence].
  apply existsb_exists. exists (w, x). split; [exact (wrap_in _ _ _ H)|]. cbn. rewrite E. apply Nat.eqb_refl.
Qed.
Lemma ft_stays : forall s X s' Y f c b, Inv s X -> Inv s' Y -> wrappers s f <= wrappers s' f -> times f X <= times f Y -> find (st_heap s) f = Some (c, KFT b) -> count (st_heap s') f <> 0.
Proof.
  intros s X s' Y f c b V V' W T F. assert (B := g_bal _ _ (i_good _ _ V) f). assert (B' := g_bal _ _ (i_good _ _ V') f). cbv beta in B, B'.
  rewrite (ft_owners _ _ _ _ _ V F) in B. assert (P := g_pos _ _ (i_good _ _ V) f c (KFT b) F). unfold count in B at 1. rewrite F in B. lia.
Qed.
Lemma plain_safe : forall s X o s', Inv s X -> Safe s -> counted s o -> plain o -> step s o = Some s' -> Safe s'.
Proof.
  intros s X o s' V [S1 S2 S3] CN PL E. assert (V' := step_fine s X o V CN). rewrite E in V'. cbn [fine] in V'.
  destruct (plain_shape _ _ _ _ V PL E) as (EB & EN & EW & EE).
  assert (WM : forall n, wrappers s n <= wrappers s' n).
  { intros n. change (wcount (st_wraps s) n <= wcount (st_wraps s') n). destruct EW as [-> |(v & c & m & _ & ->)]; [lia|rewrite wcount_cons; lia]. }
  assert (WO : forall w x b, wrap (st_wraps s') w = Some x -> w_keeps x = Some b -> wrap (st_wraps s) w = Some x).
  { intros w x b. destruct EW as [-> |(v & c & m & _ & ->)]; [auto|]. cbn. destruct (Nat.eqb v w); [intros [= <-]; discriminate|auto]. }
  assert (TM : forall f, times f X <= times f (takes s o ++ X)) by (intros f; rewrite times_app; lia).
  constructor.
  - intros n c k p F Ip. destruct (EE _ _ _ _ F Ip) as [(c' & k' & F' & Ip')|Q].
    + assert (T := S1 _ _ _ _ F' Ip'). destruct p as [b|f]; cbn in T |- *; [rewrite EB; exact T|]. destruct (count_find _ _ T) as (d & l & Ff).
      destruct (i_ptrs _ _ V _ _ _ _ F' Ip') as (_ & K). destruct (K _ _ Ff) as (b & ->). exact (ft_stays _ _ _ _ _ _ _ V V' (WM f) (TM f) Ff).
    + destruct p as [b|f]; cbn; [destruct Q as [(Q & _)|(_ & Q)]; [rewrite EB|]; exact Q|]. destruct Q as (d & e & Ff). exact (ft_stays _ _ _ _ _ _ _ V V' (WM f) (TM f) Ff).
  - intros b I. rewrite EB in I. specialize (S2 b I). lia.
  - intros w x b H K. assert (H0 := WO _ _ _ H K). destruct (S3 _ _ _ H0 K) as (Z1 & Z2 & Z3). split; [rewrite EB; exact Z1|]. split.
    + intros n c k F I. destruct (EE _ _ _ _ F I) as [(c' & k' & F' & Ip')|[(_ & Q)|(Q & _)]].
      * exact (Z2 _ _ _ F' Ip').
      * exfalso. exact (kept_false _ _ _ _ Q H0 K).
      * exfalso. specialize (S2 b Z1). lia.
    + intros v y Hv Ky. exact (Z3 _ _ (WO _ _ _ Hv Ky) Ky).
Qed.
Lemma step_safe : forall s X o s', Inv s X -> Safe s -> counted s o -> careful s o -> step s o = Some s' -> Safe s'.
Proof.
  intros s X o s' V SF CN CF E. assert (V' := step_fine s X o V CN). rewrite E in V'. cbn [fine] in V'.
  assert (PS := fun p => plain_safe s X o s' V SF CN p E).
  destruct o as [|b|b mode|w|w|w|w|w|w fw| | | |w|w|w|w]; try exact (PS I); clear PS; destruct SF as [S1 S2 S3]; cbn [step] in E.
  - injection E as <-. constructor; cbn.
    + intros n c k p F Ip. assert (T := S1 _ _ _ _ F Ip). destruct p; cbn in *; auto.
    + intros b [<-|I]; [lia|]. specialize (S2 b I). lia.
    + intros w x b H K. destruct (S3 _ _ _ H K) as (Z1 & Z2 & Z3). auto.
  - destruct (kept s b) eqn:KB; injection E as <-; [constructor; assumption|]. constructor; cbn.
    + intros n c k p F Ip. assert (T := S1 _ _ _ _ F Ip). destruct p as [m|]; cbn in *; [|exact T]. apply in_in_remove; [|exact T]. intros ->. exact (CF _ _ _ F Ip).
    + intros m I. apply in_remove in I. apply S2. tauto.
    + intros w x m H K. destruct (S3 _ _ _ H K) as (Z1 & Z2 & Z3). split; [|split; assumption]. apply in_in_remove; [|exact Z1]. intros ->. exact (kept_false _ _ _ _ KB H K).
  - injection E as <-. constructor; cbn [make st_heap st_bytes st_wraps st_next find wrap w_native].
    + intros n c k p. destruct (Nat.eqb_spec (S (st_next s)) n) as [<-|NE].
      * intros [= <- <-] [<-|[]]. cbn. now left.
      * intros F Ip. assert (T := S1 _ _ _ _ F Ip). destruct p as [m|f]; cbn in *; [now right|]. unfold count in *. cbn [find]. destruct (Nat.eqb (S (st_next s)) f); [discriminate|exact T].
    + intros b [<-|I]; [lia|]. specialize (S2 b I). lia.
    + intros w x b H K. destruct (Nat.eqb_spec (S (S (st_next s))) w) as [<-|NE].
      * injection H as <-. injection K as <-. split; [now left|]. split.
        -- intros n c k. destruct (Nat.eqb_spec (S (st_next s)) n) as [<-|NE]; [reflexivity|]. intros F Ip. exfalso. assert (T := S1 _ _ _ _ F Ip). cbn in T. specialize (S2 _ T). lia.
        -- intros v y. destruct (Nat.eqb_spec (S (S (st_next s))) v) as [<-|NE]; [reflexivity|]. intros H K. exfalso. destruct (S3 _ _ _ H K) as (Z & _). specialize (S2 _ Z). lia.
      * destruct (S3 _ _ _ H K) as (Z1 & Z2 & Z3). split; [now right|]. split.
        -- intros n c k. destruct (Nat.eqb_spec (S (st_next s)) n) as [<-|NN]; [|apply Z2]. intros [= <- <-] [[= <-]|[]]. exfalso. specialize (S2 _ Z1). lia.
        -- intros v y. destruct (Nat.eqb_spec (S (S (st_next s))) v) as [<-|NN]; [|apply Z3]. intros [= <-] [= <-]. exfalso. specialize (S2 _ Z1). lia.
  - destruct (wrap (st_wraps s) w) as [x|] eqn:H; [|injection E as <-; constructor; assumption]. destruct (destroy (st_heap s) (w_native x)) as [h|] eqn:D; [|discriminate]. injection E as <-.
    destruct (CF x H) as (C1 & C2). assert (SM := release_same _ _ _ _ (g_nodup _ _ (i_good _ _ V)) D).
    assert (ND := i_wnd _ _ V).
    constructor; cbn.
    + intros n c k p F Ip. destruct (SM _ _ _ F) as (c' & F'). assert (T := S1 _ _ _ _ F' Ip). destruct p as [m|f]; cbn in T |- *.
      * destruct (w_keeps x) as [b|] eqn:K; [|exact T]. apply in_in_remove; [|exact T]. intros ->. destruct (S3 _ _ _ H K) as (Z1 & Z2 & Z3). assert (n = w_native x) by exact (Z2 _ _ _ F' Ip). subst n.
        assert (O : count (st_heap s) (w_native x) = 1) by (apply C2; discriminate). assert (B := g_bal _ _ (i_good _ _ V) (w_native x)). assert (B' := g_bal _ _ (i_good _ _ V') (w_native x)). cbv beta in B, B'. cbn [takes app st_heap] in B'.
        assert (P := g_pos _ _ (i_good _ _ V') _ _ _ F). unfold count in B'. rewrite F in B'. change (wrappers s) with (wcount (st_wraps s)) in B. rewrite (wcount_unwrap _ _ _ _ H), is1_same in B.
        assert (OW : owners (st_heap s) (w_native x) = 0) by lia. assert (OW' : owners h (w_native x) <> 0). { change (wrappers _ (w_native x)) with (wcount (unwrap (st_wraps s) w) (w_native x)) in B'. lia. }
        destruct (owners_some _ _ OW') as (a & d & l & I & Q). apply in_find in I; [|exact (g_nodup _ _ (i_good _ _ V'))]. destruct (SM _ _ _ I) as (d' & I'). exact (owners_in _ _ _ _ _ I' Q OW).
      * destruct (count_find _ _ T) as (d & l & Ff). destruct (i_ptrs _ _ V _ _ _ _ F' Ip) as (_ & KK). destruct (KK _ _ Ff) as (b & ->).
        assert (B := g_bal _ _ (i_good _ _ V) f). assert (B' := g_bal _ _ (i_good _ _ V') f). cbv beta in B, B'. cbn [takes app st_heap] in B'. rewrite (ft_owners _ _ _ _ _ V Ff) in B.
        change (wrappers s) with (wcount (st_wraps s)) in B. rewrite (wcount_unwrap _ _ _ _ H) in B. change (wrappers _ f) with (wcount (unwrap (st_wraps s) w) f) in B'.
        destruct (Nat.eq_dec (w_native x) f) as [<-|NE]; [|rewrite is1_ne in B by exact NE; lia]. rewrite is1_same in B.
        assert (N1 : count (st_heap s) (w_native x) <> 1). { intros Q. exact (C1 Q _ _ _ F' Ip). } lia.
    + intros b I. apply S2. destruct (w_keeps x); [apply in_remove in I as (I & _)|]; exact I.
    + intros v y b Hv K. destruct (wrap_unwrap _ _ _ _ ND Hv) as (Hv0 & NE). destruct (S3 _ _ _ Hv0 K) as (Z1 & Z2 & Z3). split; [|split].
      * destruct (w_keeps x) as [m|] eqn:Kx; [|exact Z1]. apply in_in_remove; [|exact Z1]. intros ->. apply NE. symmetry. exact (Z3 _ _ H Kx).
      * intros n c k F Ip. destruct (SM _ _ _ F) as (c' & F'). exact (Z2 _ _ _ F' Ip).
      * intros u z Hu Ku. destruct (wrap_unwrap _ _ _ _ ND Hu) as (Hu0 & _). exact (Z3 _ _ Hu0 Ku).
Qed.
Lemma safe_fresh : forall s n, Safe s -> ~ stale s n.
Proof. intros s n [S1 _ _] (m & c & k & p & _ & F & I & T). exact (T (S1 _ _ _ _ F I)). Qed.
Lemma careful_steps : forall os s X, Inv s X -> Safe s -> counted_run s os -> careful_run s os -> exists s', steps s os = Some s' /\ Safe s'.
Proof.
  induction os as [|o os IH]; intros s X V SF CN CF; cbn [steps counted_run careful_run] in *; [eauto|]. destruct CN as (N1 & N2). destruct CF as (F1 & F2).
  assert (Q := step_fine s X o V N1). destruct (step s o) as [s1|] eqn:E; cbn [fine] in Q.
  - exact (IH _ _ Q (step_safe _ _ _ _ V SF N1 F1 E) N2 F2).
  - destruct Q as (w & x & _ & _ & T). exfalso. exact (safe_fresh _ _ SF T).
Qed.

(** ** Nothing is left *)
Lemma no_roots : forall s, Inv s [] -> st_wraps s = [] -> st_heap s = [].
Proof.
  intros s V W. assert (B := g_bal _ _ (i_good _ _ V)). cbv beta in B.
  assert (Z : forall n, count (st_heap s) n = owners (st_heap s) n). { intros n. rewrite B. unfold wrappers. rewrite W. cbn. lia. }
  assert (UP : forall n c k, find (st_heap s) n = Some (c, k) -> exists m d l, find (st_heap s) m = Some (d, l) /\ child_ok l k).
  { intros n c k F. assert (P := g_pos _ _ (i_good _ _ V) _ _ _ F). assert (O : owners (st_heap s) n <> 0). { rewrite <- Z. unfold count. rewrite F. lia. }
    destruct (owners_some _ _ O) as (m & d & l & I & Q). apply in_find in I; [|exact (g_nodup _ _ (i_good _ _ V))]. exists m, d, l. split; [exact I|].
    destruct (i_kids _ _ V _ _ _ _ I Q) as (c' & k' & F' & K). congruence. }
  assert (N1 : forall n c f t, find (st_heap s) n <> Some (c, KFont f t)).
  { intros n c f t F. destruct (UP _ _ _ F) as (m & d & l & _ & K). destruct l; contradiction. }
  assert (N2 : forall n c b t, find (st_heap s) n <> Some (c, KFace b t)).
  { intros n c b t F. destruct (UP _ _ _ F) as (m & d & l & G & K). destruct l; try contradiction. exact (N1 _ _ _ _ G). }
  destruct (st_heap s) as [|[n [c k]] h] eqn:E; [reflexivity|]. exfalso.
  destruct (UP n c k) as (m & d & l & G & K); [cbn; now rewrite Nat.eqb_refl|]. destruct l; try contradiction; [exact (N2 _ _ _ _ G)|exact (N1 _ _ _ _ G)].
Qed.

(** ** What a call reads *)
Lemma reads_leaf : forall s n m c k, find (st_heap s) n = Some (c, k) -> owned k = None -> (forall f, ~ In (ToFT f) (points k)) -> reads s n m -> m = n.
Proof.
  intros s n m c k F O P R. destruct R as [n|n c' k' a r F' O' _|n c' k' f r F' P' _]; [reflexivity| |]; assert (k' = k) by congruence; subst k'; [congruence|]. exfalso. exact (P _ P').
Qed.
Definition clean (s : state) (n : nat) : Prop := forall m c k p, reads s n m -> find (st_heap s) m = Some (c, k) -> In p (points k) -> there s p.
Lemma alive_there : forall bs b, alive bs (Some b) = true -> In b bs.
Proof. exact alive_in. Qed.
Lemma ft_clean : forall s f, sound_ft s (Some f) = true -> clean s f /\ count (st_heap s) f <> 0 \/ exists c b, find (st_heap s) f = Some (c, KFT b) /\ clean s f.
Proof.
  intros s f H. cbn in H. destruct (find (st_heap s) f) as [[c [| | |b|]]|] eqn:F; try discriminate. right. exists c, b. split; [reflexivity|].
  intros m d k p R Fm Ip. assert (Q : m = f). { refine (reads_leaf s f m c (KFT b) F eq_refl _ R). intros g I. destruct b; [destruct I as [I|[]]; discriminate|destruct I]. }
  subst m. rewrite F in Fm. injection Fm as <- <-. destruct b as [b|]; [|destruct Ip]. destruct Ip as [<-|[]]. cbn. exact (alive_in _ _ H).
Qed.
Lemma blob_clean : forall s b, sound_blob s (Some b) = true -> clean s b.
Proof.
  intros s f H. cbn in H. destruct (find (st_heap s) f) as [[c [b| | | |]]|] eqn:F; try discriminate.
  intros m d k p R Fm Ip. assert (Q : m = f). { refine (reads_leaf s f m c (KBlob b) F eq_refl _ R). intros g I. destruct b; [destruct I as [I|[]]; discriminate|destruct I]. }
  subst m. rewrite F in Fm. injection Fm as <- <-. destruct b as [b|]; [|destruct Ip]. destruct Ip as [<-|[]]. cbn. exact (alive_in _ _ H).
Qed.
Lemma clean_step : forall s n c k, find (st_heap s) n = Some (c, k) -> (forall m, owned k = Some m -> clean s m) -> (forall p, In p (points k) -> there s p) ->
  (forall f, In (ToFT f) (points k) -> clean s f) -> clean s n.
Proof.
  intros s n c k F O P T m d l p R. destruct R as [n|n c' k' a r F' O' R|n c' k' f r F' P' R]; intros Fm Ip; assert (E : forall c0 k0, find (st_heap s) n = Some (c0, k0) -> k0 = k) by (intros; congruence).
  - rewrite (E _ _ Fm) in Ip. exact (P _ Ip).
  - rewrite (E _ _ F') in O'. exact (O _ O' _ _ _ _ R Fm Ip).
  - rewrite (E _ _ F') in P'. exact (T _ P' _ _ _ _ R Fm Ip).
Qed.
Lemma ft_there : forall s X f c b, Inv s X -> find (st_heap s) f = Some (c, KFT b) -> there s (ToFT f).
Proof. intros s X f c b V F. cbn. unfold count. rewrite F. exact (g_pos _ _ (i_good _ _ V) _ _ _ F). Qed.
Lemma ft_both : forall s X f, Inv s X -> sound_ft s (Some f) = true -> there s (ToFT f) /\ clean s f.
Proof. intros s X f V H. destruct (ft_clean _ _ H) as [(C & T)|(c & b & F & C)]; split; auto. exact (ft_there _ _ _ _ _ V F). Qed.
Lemma face_clean : forall s X f, Inv s X -> sound_face s f = true -> clean s f.
Proof.
  intros s X f V H. unfold sound_face in H. destruct (find (st_heap s) f) as [[c [|b t| | |]]|] eqn:F; try discriminate. apply andb_true_iff in H as (H1 & H2).
  apply (clean_step s f c _ F).
  - cbn. intros m ->. exact (blob_clean _ _ H1).
  - destruct t as [t|]; [|intros p []]. intros p [<-|[]]. exact (proj1 (ft_both _ _ _ V H2)).
  - destruct t as [t|]; [|intros p []]. intros p [[= <-]|[]]. exact (proj2 (ft_both _ _ _ V H2)).
Qed.
Lemma sound_fresh : forall s X w x, Inv s X -> wrap (st_wraps s) w = Some x -> sound s (w_native x) = true -> ~ stale s (w_native x).
Proof.
  intros s X w x V H D (m & c & k & p & R & F & I & T). apply T. revert m c k p R F I T. assert (Q : clean s (w_native x)); [|intros m c k p R F I _; exact (Q _ _ _ _ R F I)].
  unfold sound in D. destruct (find (st_heap s) (w_native x)) as [[c [b|b t|f t|b|]]|] eqn:F; try discriminate.
  - exact (blob_clean _ _ D).
  - exact (face_clean _ _ _ V D).
  - apply andb_true_iff in D as (D1 & D2). apply (clean_step _ _ _ _ F).
    + intros m [= <-]. exact (face_clean _ _ _ V D1).
    + destruct t as [t|]; [|intros p []]. intros p [<-|[]]. exact (proj1 (ft_both _ _ _ V D2)).
    + destruct t as [t|]; [|intros p []]. intros p [[= <-]|[]]. exact (proj2 (ft_both _ _ _ V D2)).
  - exact (proj2 (ft_both _ _ _ V D)).
  - apply (clean_step _ _ _ _ F); [discriminate|intros p []|intros p []].
Qed.

(** ** Programs without pointers *)
Lemma same_points : forall (h h' : heap), (forall m c k, find h' m = Some (c, k) -> exists c', find h m = Some (c', k)) ->
  (forall n c k, find h n = Some (c, k) -> points k = []) -> forall n c k, find h' n = Some (c, k) -> points k = [].
Proof. intros h h' S P n c k F. destruct (S _ _ _ F) as (c' & F'). exact (P _ _ _ F'). Qed.
Lemma cons_points : forall (h : heap) n c k, points k = [] -> (forall n c k, find h n = Some (c, k) -> points k = []) ->
  forall m d l, find ((n, (c, k)) :: h) m = Some (d, l) -> points l = [].
Proof. intros h n c k K P m d l. cbn [find]. destruct (Nat.eqb n m); [intros [= <- <-]; exact K|apply P]. Qed.
Lemma duplicate_points : forall s X o s', Inv s X -> duplicating o -> (forall n c k, find (st_heap s) n = Some (c, k) -> points k = []) -> step s o = Some s' ->
  forall n c k, find (st_heap s') n = Some (c, k) -> points k = [].
Proof.
  intros s X o s' V D P E. destruct o as [|b|b mode|w|w|w|w|w|w fw| | | |w|w|w|w]; try contradiction; cbn [step] in E.
  - injection E as <-. exact P.
  - destruct (kept s b); injection E as <-; exact P.
  - cbn in D. subst mode. destruct (_ && _); injection E as <-; [|exact P]. apply cons_points; [reflexivity|exact P].
  - match type of E with on s w ?cs ?f = _ => destruct (on_cases s w cs f) as [(x & H & C & Q)|(Q & _)]; rewrite Q in E; clear Q end; [|injection E as <-; exact P].
    destruct (sound s (w_native x)); [|discriminate]. destruct (retain (st_heap s) (w_native x)) as [h|] eqn:R; [|discriminate]. injection E as <-.
    apply cons_points; [reflexivity|]. exact (same_points _ _ (retain_same _ _ _ R) P).
  - match type of E with on s w ?cs ?f = _ => destruct (on_cases s w cs f) as [(x & H & C & Q)|(Q & _)]; rewrite Q in E; clear Q end; [|injection E as <-; exact P].
    destruct (sound s (w_native x)); [|discriminate]. destruct (retain (st_heap s) (w_native x)) as [h|] eqn:R; [|discriminate]. injection E as <-.
    apply cons_points; [reflexivity|]. exact (same_points _ _ (retain_same _ _ _ R) P).
  - match type of E with on s w ?cs ?f = _ => destruct (on_cases s w cs f) as [(x & H & C & Q)|(Q & _)]; rewrite Q in E; clear Q end; [|injection E as <-; exact P].
    destruct (find (st_heap s) (w_native x)) as [[c [| |f t| |]]|]; try discriminate. destruct (class_eqb (w_class x) HBFTFont); [|injection E as <-; exact P].
    destruct t as [t|]; [|injection E as <-; exact P]. destruct (retain (st_heap s) t) as [h|] eqn:R; [|discriminate]. injection E as <-. exact (same_points _ _ (retain_same _ _ _ R) P).
  - match type of E with on s w ?cs ?f = _ => destruct (on_cases s w cs f) as [(x & H & C & Q)|(Q & _)]; rewrite Q in E; clear Q end; [|injection E as <-; exact P].
    match type of E with on s fw ?cs ?f = _ => destruct (on_cases s fw cs f) as [(y & Hy & Cy & Q)|(Q & _)]; rewrite Q in E; clear Q end; [|injection E as <-; exact P].
    destruct (plain_shape s X (SetFace w fw) s' V I) as (_ & _ & _ & EE).
    { cbn [step]. unfold on. rewrite H, Hy. destruct C as [<-|[<-|[]]]; destruct Cy as [<-|[]]; exact E. }
    destruct (find (st_heap s) (w_native x)) as [[c [| |f t| |]]|] eqn:F; try discriminate. destruct (retain (st_heap s) (w_native y)) as [h|] eqn:R; [|discriminate].
    destruct (destroy _ f) as [h'|] eqn:Dd; [|discriminate]. injection E as <-. cbn [st_heap with_heap].
    assert (N : NoDup (keys h)). { unfold retain in R. destruct (find (st_heap s) (w_native y)) as [[d l]|]; [|discriminate]. injection R as <-. rewrite keys_put. exact (g_nodup _ _ (i_good _ _ V)). }
    assert (N' : NoDup (keys (put h (w_native x) (c, KFont (w_native y) t)))) by (rewrite keys_put; exact N).
    refine (same_points _ _ (release_same _ _ _ _ N' Dd) _). intros n d l Fn. destruct (Nat.eq_dec (w_native x) n) as [<-|NE].
    + assert (T := P _ _ _ F). apply find_in in Fn. assert (K : In (w_native x) (keys h)).
      { rewrite <- (keys_put h (w_native x) (c, KFont (w_native y) t)). apply (in_map fst) in Fn. exact Fn. }
      apply find_key in K. destruct (find h (w_native x)) as [z|] eqn:Fz; [|congruence]. apply in_find in Fn; [|exact N']. rewrite (find_put_eq _ _ _ _ Fz) in Fn. injection Fn as <- <-. destruct t; [discriminate T|reflexivity].
    + rewrite find_put_ne in Fn by exact NE. exact (same_points _ _ (retain_same _ _ _ R) P _ _ _ Fn).
  - injection E as <-. apply cons_points; [reflexivity|exact P].
  - injection E as <-. apply cons_points; [reflexivity|exact P].
  - match type of E with on s w ?cs ?f = _ => destruct (on_cases s w cs f) as [(x & H & C & Q)|(Q & _)]; rewrite Q in E; clear Q end; [|injection E as <-; exact P].
    destruct (retain (st_heap s) (w_native x)) as [h|] eqn:R; [|discriminate]. injection E as <-. exact (same_points _ _ (retain_same _ _ _ R) P).
  - match type of E with on s w ?cs ?f = _ => destruct (on_cases s w cs f) as [(x & H & C & Q)|(Q & _)]; rewrite Q in E; clear Q end; [|injection E as <-; exact P].
    destruct (find (st_heap s) (w_native x)) as [[c [|[b|] t| | |]]|]; try discriminate.
    + destruct (retain (st_heap s) b) as [h|] eqn:R; [|discriminate]. injection E as <-. exact (same_points _ _ (retain_same _ _ _ R) P).
    + destruct (sound_ft s t); [|discriminate]. injection E as <-. exact P.
  - match type of E with on s w ?cs ?f = _ => destruct (on_cases s w cs f) as [(x & H & C & Q)|(Q & _)]; rewrite Q in E; clear Q end; [|injection E as <-; exact P].
    destruct (sound s (w_native x)); [|discriminate]. injection E as <-. exact P.
  - destruct (wrap (st_wraps s) w) as [x|]; [|injection E as <-; exact P]. destruct (destroy (st_heap s) (w_native x)) as [h|] eqn:Dd; [|discriminate]. injection E as <-.
    exact (same_points _ _ (release_same _ _ _ _ (g_nodup _ _ (i_good _ _ V)) Dd) P).
Qed.

(** ** Being careful, decided *)
Definition ptr_eqb (p q : pointer) : bool := match p, q with ToBytes a, ToBytes b | ToFT a, ToFT b => Nat.eqb a b | _, _ => false end.
Definition unpointed (h : heap) (p : pointer) : bool := forallb (fun x => negb (existsb (ptr_eqb p) (points (snd (snd x))))) h.
Definition careful_b (s : state) (o : op) : bool :=
  match o with
  | DropBytes b => unpointed (st_heap s) (ToBytes b)
  | Del w => match wrap (st_wraps s) w with
             | Some x => (negb (Nat.eqb (count (st_heap s) (w_native x)) 1) || unpointed (st_heap s) (ToFT (w_native x))) &&
                         match w_keeps x with Some _ => Nat.eqb (count (st_heap s) (w_native x)) 1 | None => true end
             | None => true
             end
  | _ => true
  end.
Fixpoint careful_all (s : state) (os : list op) : bool :=
  match os with [] => true | o :: os' => careful_b s o && match step s o with Some s' => careful_all s' os' | None => true end end.
Lemma unpointed_ok : forall h p, unpointed h p = true -> forall n c k, find h n = Some (c, k) -> ~ In p (points k).
Proof.
  intros h p U n c k F I. apply find_in in F. unfold unpointed in U. rewrite forallb_forall in U. specialize (U _ F). cbn in U. apply negb_true_iff in U.
  assert (Q : existsb (ptr_eqb p) (points k) = true); [|congruence]. apply existsb_exists. exists p. split; [exact I|]. destruct p; apply Nat.eqb_refl.
Qed.
Lemma careful_b_ok : forall s o, careful_b s o = true -> careful s o.
Proof.
  intros s o. destruct o; cbn [careful_b careful]; try (intros _; exact I).
  - apply unpointed_ok.
  - intros E x H. rewrite H in E. apply andb_true_iff in E as (E1 & E2). split.
    + intros C. rewrite C in E1. exact (unpointed_ok _ _ E1).
    + destruct (w_keeps x); [intros _; apply Nat.eqb_eq; exact E2|congruence].
Qed.
Lemma careful_all_ok : forall os s, careful_all s os = true -> careful_run s os.
Proof.
  induction os as [|o os IH]; intros s E; [exact I|]. cbn [careful_all careful_run] in *. apply andb_true_iff in E as (E1 & E2). split; [exact (careful_b_ok _ _ E1)|].
  destruct (step s o); [exact (IH _ E2)|exact I].
Qed.
