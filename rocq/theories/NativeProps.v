(** C84: native objects are freed exactly when nothing needs them any more. *)
From Coq Require Import Lia.
From Verif Require Import PyBase NativeModel NativeSpec NativeProofs NativeProofs2 NativeProofs3.
#[local] Open Scope nat_scope.

(** A face is made from a blob, a font from the face; blob, face and font are
    forgotten in this order. *)
Definition usual : list op := [NewBytes; BlobCreate 0 1; FaceCreate 2; FontCreate 4; Del 2; Use 6; Del 4; Use 6; Del 6].

(** In every program that does not call HBFont.get_face on an HBFont, the count
    of every native object is the number of its wrappers, of the native objects
    that hold it and of the references taken by hand. *)
Theorem c84_counts : forall os s n, counted_run empty os -> steps empty os = Some s ->
  count (st_heap s) n = wrappers s n + owners (st_heap s) n + times n (taken empty os).
Proof.
  intros os s n C E. destruct (run_inv os empty [] s empty_inv C E) as (Y & V & T). assert (B := g_bal _ _ (i_good _ _ V) n). cbv beta in B.
  rewrite B, T. unfold times at 2. cbn. lia.
Qed.
Print Assumptions c84_counts.
Example c84_counts_case :
  counted_run empty (firstn 5 usual ++ [Reference 4]) /\
  exists s, steps empty (firstn 5 usual ++ [Reference 4]) = Some s /\ map (fun n => (count (st_heap s) n, (wrappers s n, owners (st_heap s) n, times n (taken empty (firstn 5 usual ++ [Reference 4]))))) [1; 3; 5]
    = [(1, (0, 1, 0)); (3, (1, 1, 1)); (1, (1, 0, 0))].
Proof. split; [cbn; tauto|]. eexists. split; reflexivity. Qed.

(** So an object lives exactly as long as a wrapper, a living object that holds
    it or a reference taken by hand. *)
Theorem c84_alive : forall os s n, counted_run empty os -> steps empty os = Some s ->
  (count (st_heap s) n <> 0 <->
   (exists w x, In (w, x) (st_wraps s) /\ w_native x = n) \/
   (exists m c k, In (m, (c, k)) (st_heap s) /\ owned k = Some n) \/
   In n (taken empty os)).
Proof.
  intros os s n C E. rewrite (c84_counts _ _ _ C E).
  assert (W : wrappers s n <> 0 <-> exists w x, In (w, x) (st_wraps s) /\ w_native x = n).
  { unfold wrappers. split.
    - intros N. destruct (filter _ (st_wraps s)) as [|[w x] l] eqn:F; [contradiction N; reflexivity|]. exists w, x.
      assert (I : In (w, x) (filter (fun w => Nat.eqb (w_native (snd w)) n) (st_wraps s))) by (rewrite F; now left). apply filter_In in I as (I & Q). apply Nat.eqb_eq in Q. auto.
    - intros (w & x & I & Q) N. assert (J : In (w, x) (filter (fun w => Nat.eqb (w_native (snd w)) n) (st_wraps s))) by (apply filter_In; split; [exact I|apply Nat.eqb_eq; exact Q]).
      destruct (filter _ (st_wraps s)); [contradiction|discriminate]. }
  assert (O : owners (st_heap s) n <> 0 <-> exists m c k, In (m, (c, k)) (st_heap s) /\ owned k = Some n).
  { split; [apply owners_some|]. unfold owners. intros (m & c & k & I & Q) N. assert (J : In (m, (c, k)) (filter (owns n) (st_heap s))) by (apply filter_In; split; [exact I|unfold owns; cbn; rewrite Q; apply Nat.eqb_refl]).
    destruct (filter _ (st_heap s)); [contradiction|discriminate]. }
  assert (T : times n (taken empty os) <> 0 <-> In n (taken empty os)) by (unfold times; rewrite (count_occ_In Nat.eq_dec); lia).
  rewrite <- W, <- O, <- T. lia.
Qed.
Print Assumptions c84_alive.
Example c84_alive_case : exists s, steps empty (firstn 7 usual) = Some s /\ map (count (st_heap s)) [1; 3; 5] = [1; 1; 1] /\ map (wrappers s) [1; 3; 5] = [0; 0; 1].
Proof. eexists. repeat split. Qed.

(** Freed memory is touched only by a call of a wrapper whose object leads to
    something it merely points to and which is gone; to forget a wrapper, to set
    a face or to take a reference is always safe. *)
Theorem c84_dangling : forall os s o, counted_run empty os -> steps empty os = Some s -> counted s o -> step s o = None ->
  exists w x, In w (caller o) /\ wrap (st_wraps s) w = Some x /\ stale s (w_native x).
Proof.
  intros os s o C E CO N. destruct (run_inv os empty [] s empty_inv C E) as (Y & V & _). assert (F := step_fine s Y o V CO). rewrite N in F. exact F.
Qed.
Print Assumptions c84_dangling.
Theorem c84_forgetting : forall os s w f, counted_run empty os -> steps empty os = Some s -> step s (Del w) <> None /\ step s (SetFace w f) <> None /\ step s (Reference w) <> None.
Proof. intros os s w f C E. split; [|split]; intros N; [destruct (c84_dangling os s (Del w) C E I N) as (? & ? & [] & _)|destruct (c84_dangling os s (SetFace w f) C E I N) as (? & ? & [] & _)|destruct (c84_dangling os s (Reference w) C E I N) as (? & ? & [] & _)]. Qed.
Print Assumptions c84_forgetting.

(** And a call of such a wrapper always touches it. *)
Theorem c84_use : forall os s w x, counted_run empty os -> steps empty os = Some s -> wrap (st_wraps s) w = Some x ->
  (step s (Use w) = None <-> stale s (w_native x)).
Proof.
  intros os s w x C E H. destruct (run_inv os empty [] s empty_inv C E) as (Y & V & _).
  assert (Q : step s (Use w) = if sound s (w_native x) then Some s else None).
  { cbn [step]. unfold on. rewrite H. destruct (w_class x); reflexivity. }
  rewrite Q. destruct (sound s (w_native x)) eqn:D.
  - split; [discriminate|]. intros T. exfalso. exact (sound_fresh _ _ _ _ V H D T).
  - split; [intros _; exact (unsound _ _ _ _ V H D)|reflexivity].
Qed.
Print Assumptions c84_use.
(** The font of an FTFace that is forgotten. *)
Definition ft_gone : list op := [FTNew; FTFontCreate 1; Del 1].
Example c84_use_case : counted_run empty ft_gone /\ exists s, steps empty ft_gone = Some s /\ step s (Use 5) = None /\ step s (Del 5) <> None.
Proof. split; [cbn; tauto|]. eexists. repeat split. discriminate. Qed.

(** A program never touches freed memory if it keeps bytes as long as a blob
    points to them, the last wrapper of an FT_Face as long as something points
    to it, and the FTFace that holds the memory longer than other wrappers. *)
Theorem c84_careful : forall os, counted_run empty os -> careful_run empty os -> steps empty os <> None.
Proof. intros os C F. destruct (careful_steps os empty [] empty_inv empty_safe C F) as (s & E & _). congruence. Qed.
Print Assumptions c84_careful.
(** Font, HBFTFont and FTFace are forgotten in this order. *)
Definition careful_program : list op := [FTMemNew; FTFontCreate 2; GetFace 6; Use 7; Use 6; Del 7; Del 6; Del 2].
Example c84_careful_case : counted_run empty careful_program /\ careful_run empty careful_program /\ exists s, steps empty careful_program = Some s /\ st_heap s = [] /\ st_bytes s = [].
Proof.
  split; [cbn; repeat split; intros x [= <-]; discriminate|]. split; [apply careful_all_ok; reflexivity|eexists; repeat split].
Qed.

(** When no wrapper is left, no object is left, if no reference was taken by
    hand. *)
Theorem c84_no_leak : forall os s, counted_run empty os -> forallb (fun o => negb (manual o)) os = true -> steps empty os = Some s -> st_wraps s = [] -> st_heap s = [].
Proof.
  intros os s C M E W. destruct (run_inv os empty [] s empty_inv C E) as (Y & V & T).
  assert (K : forall os s, forallb (fun o => negb (manual o)) os = true -> taken s os = []).
  { clear. induction os as [|o os IH]; intros s M; [reflexivity|]. cbn [forallb taken] in *. apply andb_true_iff in M as (M1 & M2).
    assert (Q : takes s o = []) by (destruct o; try reflexivity; discriminate). rewrite Q. cbn. destruct (step s o); [exact (IH _ M2)|reflexivity]. }
  rewrite (K _ _ M) in T. assert (Q : Y = []). { destruct Y as [|y Y]; [reflexivity|]. exfalso. specialize (T y). unfold times in T. cbn in T. destruct (Nat.eq_dec y y); [discriminate|congruence]. }
  subst Y. exact (no_roots s V W).
Qed.
Print Assumptions c84_no_leak.
Example c84_no_leak_case : exists s, steps empty usual = Some s /\ st_wraps s = [] /\ st_heap s = [].
Proof. eexists. repeat split. Qed.

(** References taken by hand are never given back. *)
Theorem c84_reference_refuted : ~ forall os s, counted_run empty os -> steps empty os = Some s -> st_wraps s = [] -> st_heap s = [].
Proof.
  intros Q. specialize (Q [NewBytes; BlobCreate 0 1; Reference 2; Del 2]). cbn in Q. specialize (Q _ ltac:(tauto) eq_refl eq_refl). discriminate.
Qed.
Print Assumptions c84_reference_refuted.
Theorem c84_reference : forall os s s' w x, counted_run empty os -> steps empty os = Some s -> wrap (st_wraps s) w = Some x -> step s (Reference w) = Some s' ->
  forall os' t, counted_run s' os' -> steps s' os' = Some t -> count (st_heap t) (w_native x) <> 0.
Proof.
  intros os s s' w x C E H R os' t C' E'. destruct (run_inv os empty [] s empty_inv C E) as (Y & V & T).
  assert (F := step_fine s Y (Reference w) V I). rewrite R in F. cbn [fine takes] in F. rewrite H in F.
  destruct (run_inv os' s' _ t F C' E') as (Z & VZ & TZ). assert (B := g_bal _ _ (i_good _ _ VZ) (w_native x)). cbv beta in B. rewrite TZ, times_app, times_one, is1_same in B. lia.
Qed.
Print Assumptions c84_reference.

(** HBFont.get_face wraps the font's face without taking a reference: when the
    wrapper is forgotten the face may be freed under its owner. *)
Definition face_gone : list op := [NewBytes; BlobCreate 0 1; FaceCreate 2; FontCreate 4; GetFace 6; Del 7; Del 4].
Theorem c84_get_face_refuted : ~ (forall os, careful_run empty os -> steps empty os <> None) /\
  (exists s, steps empty face_gone = Some s /\ wrap (st_wraps s) 6 <> None /\ step s (Use 6) = None /\ step s (Del 6) = None).
Proof.
  split.
  - intros Q. apply (Q (face_gone ++ [Del 6])); [|reflexivity].
    apply careful_all_ok. reflexivity.
  - eexists. repeat split; discriminate.
Qed.
Print Assumptions c84_get_face_refuted.

(** HBFTFace and HBFTFont do not keep the FTFace they are made from. *)
Theorem c84_ft_refuted : ~ forall os, counted_run empty os -> forallb (fun o => negb (manual o)) os = true -> (forall b, ~ In (DropBytes b) os) -> ~ In FTMemNew os -> steps empty os <> None.
Proof.
  intros Q. apply (Q (ft_gone ++ [Use 5])); [cbn; tauto|reflexivity| | |reflexivity].
  - intros b H. cbn in H. intuition discriminate.
  - cbn. intuition discriminate.
Qed.
Print Assumptions c84_ft_refuted.

(** The memory of FTFace.new_memory_face goes with the first wrapper, though
    HBFTFont.get_face made another that keeps the face alive. *)
Definition memory_gone : list op := [FTMemNew; FTFontCreate 2; GetFace 6; Del 2].
Theorem c84_memory_refuted : exists s x, counted_run empty memory_gone /\ steps empty memory_gone = Some s /\
  wrap (st_wraps s) 7 = Some x /\ count (st_heap s) (w_native x) = 1 /\ step s (Use 7) = None.
Proof. eexists _, _. split; [cbn; repeat split; intros x [= <-]; discriminate|]. repeat split. Qed.
Print Assumptions c84_memory_refuted.

(** A blob that does not duplicate its bytes does not keep them; one that does
    never needs them. *)
Theorem c84_bytes_refuted : steps empty [NewBytes; BlobCreate 0 0; DropBytes 0; Use 2] = None.
Proof. reflexivity. Qed.
Print Assumptions c84_bytes_refuted.
Theorem c84_duplicate : forall os, counted_run empty os -> Forall duplicating os -> steps empty os <> None.
Proof.
  intros os C D.
  assert (K : forall os s Y, Inv s Y -> (forall n c k, find (st_heap s) n = Some (c, k) -> points k = []) -> counted_run s os -> Forall duplicating os -> steps s os <> None).
  { clear. induction os as [|o os IH]; intros s Y V P C D; [discriminate|]. cbn [steps counted_run] in *. destruct C as (C1 & C2). inversion D as [|? ? D1 D2]; subst.
    assert (F := step_fine s Y o V C1). destruct (step s o) as [s'|] eqn:E.
    - apply (IH s' _ F); [|exact C2|exact D2]. intros n c k Fn. exact (duplicate_points _ _ _ _ V D1 P E _ _ _ Fn).
    - exfalso. destruct F as (w & x & _ & _ & (m & c & k & p & _ & Fm & Ip & _)). rewrite (P _ _ _ Fm) in Ip. exact Ip. }
  apply (K os empty [] empty_inv); [intros n c k [=]|exact C|exact D].
Qed.
Print Assumptions c84_duplicate.
Example c84_duplicate_case : counted_run empty [NewBytes; BlobCreate 0 1; DropBytes 0; FaceCreate 2; Use 4] /\ Forall duplicating [NewBytes; BlobCreate 0 1; DropBytes 0; FaceCreate 2; Use 4].
Proof. split; [cbn; tauto|]. repeat constructor. Qed.
