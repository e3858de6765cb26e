(** Every operation keeps the balance, and reads freed memory only through
    what is not counted. *)
From Coq Require Import Lia.
From Verif Require Import PyBase NativeModel NativeSpec NativeProofs.
#[local] Open Scope nat_scope.

Lemma alive_false : forall bs b, alive bs b = false -> exists m, b = Some m /\ ~ In m bs.
Proof.
  intros bs [b|] H; [|discriminate]. exists b. split; [reflexivity|]. intros I. cbn in H. assert (X : existsb (Nat.eqb b) bs = true).
  { apply existsb_exists. exists b. split; [exact I|apply Nat.eqb_refl]. } congruence.
Qed.
Lemma alive_in : forall bs b, alive bs (Some b) = true -> In b bs.
Proof. intros bs b H. cbn in H. apply existsb_exists in H as (x & I & E). apply Nat.eqb_eq in E. congruence. Qed.
Lemma stale_owned : forall s n c k m, find (st_heap s) n = Some (c, k) -> owned k = Some m -> stale s m -> stale s n.
Proof. intros s n c k m F O (r & c' & k' & p & A & B & C & D). exists r, c', k', p. split; [|auto]. eapply Reads_owned; eauto. Qed.
Lemma stale_self : forall s n c k p, find (st_heap s) n = Some (c, k) -> In p (points k) -> ~ there s p -> stale s n.
Proof. intros s n c k p F I N. exists n, c, k, p. split; [apply Reads_self|auto]. Qed.
Lemma ft_stale : forall s X n c k f, Inv s X -> find (st_heap s) n = Some (c, k) -> In (ToFT f) (points k) -> sound_ft s (Some f) = false -> stale s n.
Proof.
  intros s X n c k f V F I H. cbn [sound_ft] in H. destruct (i_ptrs _ _ V _ _ _ _ F I) as (_ & K). destruct (find (st_heap s) f) as [[c' k']|] eqn:Ff.
  - destruct (K _ _ eq_refl) as (b & ->). apply alive_false in H as (m & -> & N). exists f, c', (KFT (Some m)), (ToBytes m).
    split; [eapply Reads_ft; [exact F|exact I|apply Reads_self]|]. split; [exact Ff|]. split; [now left|exact N].
  - eapply stale_self; [exact F|exact I|]. cbn. unfold count. rewrite Ff. congruence.
Qed.
Lemma face_stale : forall s X f c b t, Inv s X -> find (st_heap s) f = Some (c, KFace b t) -> sound_face s f = false -> stale s f.
Proof.
  intros s X f c b t V F H. unfold sound_face in H. rewrite F in H. apply andb_false_iff in H as [H|H].
  - destruct b as [b|]; [|discriminate]. cbn in H. destruct (i_kids _ _ V _ _ _ b F eq_refl) as (c' & k' & Fb & CO). rewrite Fb in H.
    destruct k' as [m| | | |]; try contradiction. apply alive_false in H as (j & -> & N). eapply stale_owned; [exact F|reflexivity|].
    eapply stale_self; [exact Fb|now left|exact N].
  - destruct t as [t|]; [|discriminate]. eapply ft_stale; eauto. now left.
Qed.
Lemma unsound : forall s X w x, Inv s X -> wrap (st_wraps s) w = Some x -> sound s (w_native x) = false -> stale s (w_native x).
Proof.
  intros s X w x V H S. destruct (i_class _ _ V _ _ H) as (c & k & F & CK). unfold sound in S. rewrite F in S. destruct k as [b|b t|f t|b|].
  - cbn in S. rewrite F in S. apply alive_false in S as (m & -> & N). eapply stale_self; [exact F|now left|exact N].
  - eapply face_stale; eauto.
  - apply andb_false_iff in S as [S|S].
    + destruct (i_kids _ _ V _ _ _ f F eq_refl) as (c' & k' & Ff & CO). destruct k'; try contradiction. eapply stale_owned; [exact F|reflexivity|]. eapply face_stale; eauto.
    + destruct t as [t|]; [|discriminate]. eapply ft_stale; eauto. now left.
  - cbn in S. rewrite F in S. apply alive_false in S as (m & -> & N). eapply stale_self; [exact F|now left|exact N].
  - discriminate.
Qed.
Lemma times_app : forall n a b, times n (a ++ b) = times n a + times n b.
Proof. intros. unfold times. apply count_occ_app. Qed.
Lemma times_one : forall n a, times n [a] = is1 a n.
Proof. intros n a. unfold times, is1. cbn. destruct (Nat.eq_dec a n), (Nat.eqb_spec a n); congruence. Qed.
Lemma good_plain : forall s X k, Inv s X -> owned k = None -> Good (st_heap s) (fun n => wrappers s n + times n X + own1 k n).
Proof. intros s X k V O. eapply good_ext; [|exact (i_good _ _ V)]. intros n. cbv beta. rewrite own1_none by exact O. lia. Qed.

Definition fine (s : state) (X : list nat) (o : op) (r : option state) : Prop :=
  match r with Some s' => Inv s' (takes s o ++ X) | None => exists w x, In w (caller o) /\ wrap (st_wraps s) w = Some x /\ stale s (w_native x) end.
Lemma inv_same : forall s X, Inv s X -> Inv s ([] ++ X). Proof. intros. exact H. Qed.
Lemma class_eqb_spec : forall a b, reflect (a = b) (class_eqb a b).
Proof. intros [] []; constructor; congruence. Qed.
Lemma on_cases : forall s w cs f, (exists x, wrap (st_wraps s) w = Some x /\ In (w_class x) cs /\ on s w cs f = f x) \/
  on s w cs f = Some s /\ (forall x, wrap (st_wraps s) w = Some x -> ~ In (w_class x) cs).
Proof.
  intros s w cs f. unfold on. destruct (wrap (st_wraps s) w) as [x|]; [|right; split; [reflexivity|discriminate]].
  destruct (existsb (class_eqb (w_class x)) cs) eqn:E.
  - left. exists x. split; [reflexivity|]. split; [|reflexivity]. apply existsb_exists in E as (c & I & E). destruct (class_eqb_spec (w_class x) c); [congruence|discriminate].
  - right. split; [reflexivity|]. intros y [= <-] I. assert (Y : existsb (class_eqb (w_class x)) cs = true); [|congruence].
    apply existsb_exists. exists (w_class x). split; [exact I|]. destruct (class_eqb_spec (w_class x) (w_class x)); [reflexivity|congruence].
Qed.

Lemma make_st : forall s X k c keeps, Inv s X -> owned k = None -> class_ok c k ->
  (forall f, In (ToFT f) (points k) -> exists c' b, find (st_heap s) f = Some (c', KFT b)) -> Inv (make s k c keeps) X.
Proof.
  intros s X k c keeps V O CK P. assert (Q := make_inv s X X (st_heap s) k c keeps V (good_plain s X k V O) (same_refl _) CK).
  destruct s as [h bs ws nx]. apply Q; [rewrite O; discriminate|exact P|cbn; lia].
Qed.
(* a face or font that owns what the wrapper [x] has *)
Lemma own_make : forall s X w x c k keeps, Inv s X -> wrap (st_wraps s) w = Some x -> owned k = Some (w_native x) -> class_ok c k ->
  (forall c' k', find (st_heap s) (w_native x) = Some (c', k') -> child_ok k k') -> points k = [] ->
  exists h, retain (st_heap s) (w_native x) = Some h /\ Inv (make (with_heap s h) k c keeps) X.
Proof.
  intros s X w x c k keeps V H O CK CO P. destruct (retain_good _ _ (w_native x) (i_good _ _ V) (live _ _ _ _ V H)) as (d & l & F & E & G).
  exists (put (st_heap s) (w_native x) (S d, l)). split; [exact E|]. unfold with_heap.
  apply (make_inv s X X (put (st_heap s) (w_native x) (S d, l)) k c keeps V); auto.
  - eapply good_ext; [|exact G]. intros n. cbv beta. unfold own1. rewrite O. lia.
  - eapply put_same. exact F.
  - intros m. rewrite O. intros [= <-]. exists (S d), l. split; [eapply find_put_eq; exact F|exact (CO _ _ F)].
  - rewrite P. intros f [].
Qed.
Lemma retain_inv : forall s X n, Inv s X -> count (st_heap s) n <> 0 -> exists h, retain (st_heap s) n = Some h /\ Inv (with_heap s h) ([n] ++ X).
Proof.
  intros s X n V H. destruct (retain_good _ _ n (i_good _ _ V) H) as (d & l & F & E & G). exists (put (st_heap s) n (S d, l)). split; [exact E|].
  eapply heap_inv; [exact V| |eapply put_same; exact F|lia]. eapply good_ext; [|exact G]. intros m. cbv beta. rewrite times_app, times_one. lia.
Qed.
Lemma sk_points : forall f f' t p, In p (points (KFont f t)) <-> In p (points (KFont f' t)).
Proof. intros f f' [t|] p; cbn; tauto. Qed.

Lemma step_fine : forall s X o, Inv s X -> counted s o -> fine s X o (step s o).
Proof.
  intros s X o V CN. destruct o as [|b|b mode|w|w|w|w|w|w fw| | | |w|w|w|w]; cbn [step].
  - (* NewBytes *) cbn. apply (heap_inv s X X (st_heap s) _ (S (st_next s)) V (i_good _ _ V) (same_refl _)). lia.
  - (* DropBytes *) destruct (kept s b); cbn; [exact V|]. apply (heap_inv s X X (st_heap s) _ (st_next s) V (i_good _ _ V) (same_refl _)). lia.
  - (* BlobCreate *) destruct (_ && _); cbn; [|exact V]. apply (make_st s X); auto.
    destruct (Z.eqb mode 1); [intros f []|intros f [Q|[]]; discriminate].
  - (* FaceCreate *) destruct (on_cases s w [HBBlob] (fun x => if sound s (w_native x) then fmap (fun h => make (with_heap s h) (KFace (Some (w_native x)) None) HBFace None) (retain (st_heap s) (w_native x)) else None)) as [(x & H & C & ->)|(-> & _)]; [|cbn; exact V].
    destruct (sound s (w_native x)) eqn:SD.
    + destruct (own_make s X w x HBFace (KFace (Some (w_native x)) None) None V H eq_refl I) as (h & -> & Q); [|reflexivity|exact Q].
      intros c' k' F. destruct (i_class _ _ V _ _ H) as (c2 & k2 & F2 & CK). cbn in C. destruct C as [C|[]]. rewrite <- C in CK. assert (k' = k2) by congruence. subst. destruct k2; try contradiction. exact I.
    + cbn. exists w, x. split; [now left|]. split; [exact H|]. eapply unsound; eauto.
  - (* FTFaceCreate *) destruct (on_cases s w [FTFace] (fun x => if sound s (w_native x) then Some (make s (KFace None (Some (w_native x))) HBFace None) else None)) as [(x & H & C & ->)|(-> & _)]; [|cbn; exact V].
    destruct (sound s (w_native x)) eqn:SD.
    + destruct (i_class _ _ V _ _ H) as (c2 & k2 & F2 & CK). cbn in C. destruct C as [C|[]]. rewrite <- C in CK. destruct k2; try contradiction.
      cbn. apply (make_st s X); auto.
      intros f [Q|[]]. injection Q as <-. eauto.
    + cbn. exists w, x. split; [now left|]. split; [exact H|]. eapply unsound; eauto.
  - (* FontCreate *) destruct (on_cases s w [HBFace] (fun x => if sound s (w_native x) then fmap (fun h => make (with_heap s h) (KFont (w_native x) None) HBFont None) (retain (st_heap s) (w_native x)) else None)) as [(x & H & C & ->)|(-> & _)]; [|cbn; exact V].
    destruct (sound s (w_native x)) eqn:SD.
    + destruct (own_make s X w x HBFont (KFont (w_native x) None) None V H eq_refl I) as (h & -> & Q); [|reflexivity|exact Q].
      intros c' k' F. destruct (i_class _ _ V _ _ H) as (c2 & k2 & F2 & CK). cbn in C. destruct C as [C|[]]. rewrite <- C in CK. assert (k' = k2) by congruence. subst. destruct k2; try contradiction. exact I.
    + cbn. exists w, x. split; [now left|]. split; [exact H|]. eapply unsound; eauto.
  - (* FTFontCreate *) match goal with |- fine _ _ _ (on s w ?cs ?f) => destruct (on_cases s w cs f) as [(x & H & C & ->)|(-> & _)]; [|cbn; exact V] end.
    destruct (sound s (w_native x)) eqn:SD.
    + destruct (i_class _ _ V _ _ H) as (c2 & k2 & F2 & CK). cbn in C. destruct C as [C|[]]. rewrite <- C in CK. destruct k2; try contradiction. clear C.
      cbn [fine takes app]. set (t := w_native x) in *. set (nf := st_next s).
      assert (V1 : Inv (make s (KFace None (Some t)) HBFace None) X).
      { apply make_st; auto. intros f [Q|[]]. injection Q as <-. eauto. }
      assert (V2 := forget_inv _ X (S nf) (mkW HBFace nf None) (st_bytes s) V1). cbn [make st_heap st_wraps st_next wrap unwrap w_native] in V2. fold nf in V2. rewrite Nat.eqb_refl in V2. specialize (V2 eq_refl).
      assert (G2 := i_good _ _ V2). cbn [st_heap] in G2.
      apply (make_inv _ _ X _ (KFont nf (Some t)) HBFTFont None V2); cbn [st_heap st_wraps st_next st_bytes].
      * eapply good_ext; [|exact G2]. intros n. cbv beta. unfold own1. cbn [owned]. change (nf :: X) with ([nf] ++ X). rewrite times_app, times_one. lia.
      * eauto.
      * exact I.
      * intros m [= <-]. exists 1, (KFace None (Some t)). split; [cbn [find]; now rewrite Nat.eqb_refl|exact I].
      * intros f [Q|[]]. injection Q as <-. exists c2, bytes. cbn [find]. destruct (Nat.eqb_spec nf t) as [Q|]; [|exact F2].
        rewrite (fresh_find _ _ t V) in F2 by lia. discriminate.
      * lia.
    + cbn. exists w, x. split; [now left|]. split; [exact H|]. eapply unsound; eauto.
  - (* GetFace *) match goal with |- fine _ _ _ (on s w ?cs ?f) => destruct (on_cases s w cs f) as [(x & H & C & ->)|(-> & _)]; [|cbn; exact V] end.
    destruct (i_class _ _ V _ _ H) as (c & k & F & CK). rewrite F. specialize (CN _ H). cbn in C. destruct C as [C|[C|[]]]; [congruence|]. rewrite <- C in *.
    destruct k as [| |f [t|]| |]; try contradiction. cbn [class_eqb]. destruct (Nat.eq_dec (count (st_heap s) t) 0) as [Z|Z].
    + assert (Q : retain (st_heap s) t = None). { unfold retain. unfold count in Z. destruct (find (st_heap s) t) as [[d l]|] eqn:Ft; [|reflexivity]. destruct (g_pos _ _ (i_good _ _ V) _ _ _ Ft Z). }
      rewrite Q. cbn. exists w, x. split; [now left|]. split; [exact H|]. eapply stale_self; [exact F|now left|]. cbn. auto.
    + destruct (retain_inv _ _ _ V Z) as (h & E & V1). rewrite E. cbn. destruct (count_find _ _ Z) as (d & l & Ft).
      destruct (i_ptrs _ _ V _ _ _ t F) as (_ & K); [now left|]. destruct (K _ _ Ft) as (b & ->).
      unfold retain in E. rewrite Ft in E. injection E as <-.
      apply (remember_inv (with_heap s (put (st_heap s) t (S d, KFT b))) X t FTFace (S d) (KFT b) V1); [|exact I]. cbn. eapply find_put_eq. exact Ft.
  - (* SetFace *) match goal with |- fine _ _ _ (on s w ?cs ?f) => destruct (on_cases s w cs f) as [(x & H & C & ->)|(-> & _)]; [|cbn; exact V] end.
    match goal with |- fine _ _ _ (on s fw ?cs ?f) => destruct (on_cases s fw cs f) as [(y & Hy & Cy & ->)|(-> & _)]; [|cbn; exact V] end.
    destruct (i_class _ _ V _ _ H) as (c & k & F & CK). rewrite F. assert (KF : exists f t, k = KFont f t).
    { cbn in C. destruct C as [C|[C|[]]]; rewrite <- C in CK; destruct k; try contradiction; eauto. }
    destruct KF as (f & t & ->). destruct (i_class _ _ V _ _ Hy) as (d & l & Fy & CKy). cbn in Cy. destruct Cy as [Cy|[]]. rewrite <- Cy in CKy. destruct l as [|yb yt| | |]; try contradiction.
    destruct (retain_good _ _ (w_native y) (i_good _ _ V) (live _ _ _ _ V Hy)) as (d' & l' & F' & -> & G). assert (d' = d) by congruence. assert (l' = KFace yb yt) by congruence. subst d' l'. clear F'.
    set (h1 := put (st_heap s) (w_native y) (S d, KFace yb yt)) in *.
    assert (NE : w_native y <> w_native x) by congruence.
    assert (F1 : find h1 (w_native x) = Some (c, KFont f t)) by (unfold h1; rewrite find_put_ne by exact NE; exact F).
    set (h2 := put h1 (w_native x) (c, KFont (w_native y) t)) in *.
    assert (S2 : forall m e l, find h2 m = Some (e, l) -> exists e' l', find (st_heap s) m = Some (e', l') /\ (l = l' \/ m = w_native x /\ l = KFont (w_native y) t /\ l' = KFont f t)).
    { intros m e l. unfold h2. destruct (Nat.eq_dec (w_native x) m) as [<-|N1].
      - rewrite (find_put_eq _ _ _ _ F1). intros [= <- <-]. exists c, (KFont f t). auto.
      - rewrite find_put_ne by exact N1. intros Q. destruct (put_same _ _ _ _ _ Fy _ _ _ Q) as (e' & Q'). eauto. }
    assert (G2 : Good h2 (fun n => wrappers s n + times n X + is1 f n)).
    { destruct G as [A B P]. constructor.
      - unfold h2. rewrite keys_put. exact A.
      - intros n. assert (Bn := B n). cbv beta in Bn. assert (O := owners_put h1 (w_native x) c (KFont f t) c (KFont (w_native y) t) n F1). unfold own1 in O. cbn [owned] in O.
        fold h2 in O. assert (CE : count h2 n = count h1 n).
        { unfold count, h2. destruct (Nat.eq_dec (w_native x) n) as [<-|N1]; [rewrite (find_put_eq _ _ _ _ F1), F1; reflexivity|rewrite find_put_ne by exact N1; reflexivity]. }
        lia.
      - intros n e l Q. unfold h2 in Q. destruct (Nat.eq_dec (w_native x) n) as [<-|N1].
        + rewrite (find_put_eq _ _ _ _ F1) in Q. injection Q as <- <-. exact (P _ _ _ F1).
        + rewrite find_put_ne in Q by exact N1. exact (P _ _ _ Q). }
    destruct (release_good (S (length h2)) h2 (fun n => wrappers s n + times n X) f) as (h3 & E3 & G3 & S3); [lia|exact G2|].
    unfold destroy. rewrite E3. cbn.
    assert (S4 : forall m e l, find h3 m = Some (e, l) -> exists e' l', find (st_heap s) m = Some (e', l') /\ (l = l' \/ m = w_native x /\ l = KFont (w_native y) t /\ l' = KFont f t)).
    { intros m e l Q. destruct (S3 _ _ _ Q) as (e1 & Q1). exact (S2 _ _ _ Q1). }
    constructor; cbn [with_heap st_heap st_wraps st_next].
    + exact G3.
    + intros n I1. apply find_key in I1. destruct (find h3 n) as [[e l]|] eqn:Q; [|congruence]. destruct (S4 _ _ _ Q) as (e' & l' & Q' & _). apply (i_keys _ _ V). apply find_key. congruence.
    + exact (i_wids _ _ V).
    + exact (i_wnd _ _ V).
    + intros n e l m Q O. assert (P := owners_in _ _ _ _ _ Q O). assert (B := g_bal _ _ G3 m). cbv beta in B. destruct (count_find h3 m) as (e2 & l2 & Q2); [rewrite B; lia|].
      exists e2, l2. split; [exact Q2|]. destruct (S4 _ _ _ Q2) as (e3 & l3 & Q3 & R3). destruct (S4 _ _ _ Q) as (e4 & l4 & Q4 & R4).
      destruct R4 as [<-|(-> & -> & ->)].
      * destruct (i_kids _ _ V _ _ _ _ Q4 O) as (e5 & l5 & Q5 & CO). assert (l5 = l3) by congruence. subst. destruct R3 as [->|(_ & -> & ->)]; [exact CO|]. destruct l; contradiction.
      * cbn in O. injection O as <-. assert (l3 = KFace yb yt) by congruence. subst. destruct R3 as [->|(_ & _ & R)]; [exact I|discriminate].
    + intros v z Hz. assert (WZ : wcount (st_wraps s) (w_native z) <> 0) by (rewrite (wcount_unwrap _ _ _ _ Hz), is1_same; lia). destruct (i_class _ _ V _ _ Hz) as (e & l & Q & CO). assert (B := g_bal _ _ G3 (w_native z)). cbv beta in B.
      change (wrappers s (w_native z)) with (wcount (st_wraps s) (w_native z)) in B.
      destruct (count_find h3 (w_native z)) as (e2 & l2 & Q2); [lia|]. exists e2, l2. split; [exact Q2|]. destruct (S4 _ _ _ Q2) as (e3 & l3 & Q3 & R3). assert (l3 = l) by congruence. subst.
      destruct R3 as [->|(_ & -> & ->)]; [exact CO|]. destruct (w_class z), t; exact CO.
    + intros n e l g Q Ig. destruct (S4 _ _ _ Q) as (e4 & l4 & Q4 & R4).
      assert (Ig' : In (ToFT g) (points l4)). { destruct R4 as [<-|(_ & -> & ->)]; [exact Ig|]. destruct t; exact Ig. }
      destruct (i_ptrs _ _ V _ _ _ _ Q4 Ig') as (L & K). split; [exact L|]. intros c' k' Q'. destruct (S4 _ _ _ Q') as (e5 & l5 & Q5 & R5).
      destruct (K _ _ Q5) as (b & ->). destruct R5 as [->|(_ & _ & R)]; [eauto|discriminate].
  - (* FTNew *) cbn. apply make_st; auto. intros f [].
  - (* FTMemNew *) cbn. apply (make_st (mkS _ _ _ _)); auto; [|intros f [Q|[]]; discriminate].
    apply (heap_inv s X X (st_heap s) _ (S (st_next s)) V (i_good _ _ V) (same_refl _)). lia.
  - (* BufCreate *) cbn. apply make_st; auto. intros f [].
  - (* Reference *) match goal with |- fine _ _ _ (on s w ?cs ?f) => destruct (on_cases s w cs f) as [(x & H & C & ->)|(-> & NC)] end.
    + destruct (retain_inv s X (w_native x) V (live _ _ _ _ V H)) as (h & -> & V1). cbn [fmap fine takes]. rewrite H. exact V1.
    + cbn. destruct (wrap (st_wraps s) w) as [x|]; [|exact V]. exfalso. apply (NC x eq_refl). destruct (w_class x); cbn; tauto.
  - (* ReferenceBlob *) match goal with |- fine _ _ _ (on s w ?cs ?f) => destruct (on_cases s w cs f) as [(x & H & C & ->)|(-> & NC)] end.
    + destruct (i_class _ _ V _ _ H) as (c & k & F & CK). cbn in C. destruct C as [C|[]]. rewrite <- C in CK. destruct k as [|b t| | |]; try contradiction. rewrite F.
      assert (T : takes s (ReferenceBlob w) = match b with Some b => [b] | None => [] end). { cbn. rewrite H. destruct x as [xc xn xk]. cbn in C, F |- *. subst xc. rewrite F. destruct b; reflexivity. }
      destruct b as [b|].
      * destruct (i_kids _ _ V _ _ _ b F eq_refl) as (d & l & Fb & _). destruct (retain_inv s X b V) as (h & -> & V1).
        { unfold count. rewrite Fb. exact (g_pos _ _ (i_good _ _ V) _ _ _ Fb). }
        cbn [fmap fine]. rewrite T. exact V1.
      * destruct (sound_ft s t) eqn:SD; cbn [fine]; [rewrite T; exact V|]. destruct t as [t|]; [|discriminate]. exists w, x. split; [now left|]. split; [exact H|]. eapply ft_stale; eauto. now left.
    + assert (T : takes s (ReferenceBlob w) = []). { cbn. destruct (wrap (st_wraps s) w) as [x|]; [|reflexivity]. specialize (NC x eq_refl). destruct x as [[] xn xk]; try reflexivity. cbn in NC. tauto. }
      cbn [fine]. rewrite T. exact V.
  - (* Use *) match goal with |- fine _ _ _ (on s w ?cs ?f) => destruct (on_cases s w cs f) as [(x & H & C & ->)|(-> & NC)]; [|cbn; exact V] end.
    destruct (sound s (w_native x)) eqn:SD; cbn; [exact V|]. exists w, x. split; [now left|]. split; [exact H|]. eapply unsound; eauto.
  - (* Del *) destruct (wrap (st_wraps s) w) as [x|] eqn:H; [|cbn; exact V].
    assert (V1 := forget_inv s X w x (match w_keeps x with Some b => List.remove Nat.eq_dec b (st_bytes s) | None => st_bytes s end) V H).
    destruct (release_good (S (length (st_heap s))) (st_heap s) (fun n => wcount (unwrap (st_wraps s) w) n + times n X) (w_native x)) as (h & E & G & SS); [lia| |].
    { eapply good_ext; [|exact (i_good _ _ V1)]. intros n. cbv beta. cbn [st_heap]. change (wrappers _ n) with (wcount (unwrap (st_wraps s) w) n). change (w_native x :: X) with ([w_native x] ++ X). rewrite times_app, times_one. lia. }
    unfold destroy. rewrite E. cbn [fmap fine takes app].
    exact (heap_inv _ _ X h _ (st_next s) V1 G SS (le_n _)).
Qed.
