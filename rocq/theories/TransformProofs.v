(** Proofs for C10: transform lists as products. *)
From Verif Require Import PyBase PyText MatrixModel MatrixSpec MatrixProofs MatrixProofs2
  TransformModel TransformSpec.
Local Open Scope Q_scope.

Lemma id_act p : veq (act mat_id p) p. Proof. rewrite act_mat_vec. apply id_vec. Qed.
Lemma truthful_id : truthful identity.
Proof. intros _. apply two_d_matrix2d. Qed.

Lemma g_translate_proper x y z p q : veq p q -> veq (g_translate x y z p) (g_translate x y z q).
Proof. intros (A & B & C & D). unfold g_translate; repeat split; cbn; rewrite ?A, ?B, ?C, ?D; reflexivity. Qed.
Lemma g_rot2_proper c s p q : veq p q -> veq (g_rot2 c s p) (g_rot2 c s q).
Proof. intros (A & B & C & D). unfold g_rot2; repeat split; cbn; rewrite ?A, ?B, ?C, ?D; reflexivity. Qed.
Lemma g_translate_0 x y z p : x == 0 -> y == 0 -> z == 0 -> veq (g_translate x y z p) p.
Proof. intros A B C. unfold g_translate; destruct p; repeat split; cbn; rewrite ?A, ?B, ?C; ring. Qed.

Lemma rotate_z_meaning o m a p : oracle_basic o ->
  veq (act (arr (rotate_self o m 0 0 a)) p) (act (arr m) (g_rot2 (ocos o a) (osin o a) p)).
Proof.
  intros Ho. eapply veq_trans; [apply rotate_meaning; exact Ho|].
  apply act_proper. eapply veq_trans; [|apply g_rot_z_2d]. apply g_rot_proper.
  destruct Ho as [_ H0]. destruct (H0 0 (Qeq_refl 0)) as [Hc Hs].
  eapply veq_trans; [apply g_rot_id; assumption|]. apply g_rot_id; assumption.
Qed.

Lemma is2d_translate m x y : is2d m = true -> is2d (translate_self m x y 0) = true.
Proof. intros H. unfold translate_self. destruct (_ && _); [exact H|]. cbn. now rewrite H. Qed.
Lemma is2d_rotate o m a : sqrt_ok o -> is2d m = true -> is2d (rotate_self o m 0 0 a) = true.
Proof.
  intros Ho H. unfold rotate_self. cbn [Qeq_bool]. change (0 =?q 0) with true. cbv iota.
  destruct (a =?q 0); [exact H|]. unfold rotate_axis_angle_self.
  assert (E : osqrt o (0 * 0 + 0 * 0 + 1 * 1) == 1) by (apply Ho; [lra|reflexivity]).
  destruct (Qeqb_spec (osqrt o (0 * 0 + 0 * 0 + 1 * 1)) 0) as [E0|E0]; [lra|].
  destruct (Qeqb_spec (osqrt o (0 * 0 + 0 * 0 + 1 * 1)) 1) as [E1|E1]; [|contradiction].
  cbn. now rewrite H.
Qed.

Lemma item_meaning o t m : oracle_basic o -> transform_matrix o t = Some m ->
  is2d m = true /\ truthful m /\ forall p, veq (act (arr m) p) (g_transform o t p).
Proof.
  intros Ho. pose proof Ho as [Hs _]. destruct t; cbn [transform_matrix]; intros [= <-].
  - split; [reflexivity|]. split; [intros _; apply two_d_matrix2d|].
    intros [x y z w]. cbn [g_transform]. unfold act; repeat split; mexp; ring.
  - split; [now apply is2d_translate|]. split; [apply truthful_translate, truthful_id|].
    intros p. eapply veq_trans; [apply translate_meaning|apply id_act].
  - split. { unfold scale_self. destruct (_ && _); reflexivity. }
    split; [apply truthful_scale, truthful_id|].
    intros p. eapply veq_trans; [apply scale_meaning|apply id_act].
  - set (moved := negb (cx =?q 0) || negb (cy =?q 0)).
    set (m1 := if moved then translate_self identity cx cy 0 else identity).
    assert (A1 : is2d m1 = true) by (unfold m1; destruct moved; [now apply is2d_translate|reflexivity]).
    assert (A2 : truthful m1) by (unfold m1; destruct moved; [apply truthful_translate|]; apply truthful_id).
    assert (A3 : forall p, veq (act (arr m1) p) (g_translate cx cy 0 p)).
    { intros p. unfold m1. destruct moved eqn:E.
      - eapply veq_trans; [apply translate_meaning|apply id_act].
      - unfold moved in E. apply orb_false_elim in E as [E1 E2]. apply negb_false_iff in E1, E2.
        apply Qeq_bool_iff in E1, E2. eapply veq_trans; [apply id_act|].
        apply veq_sym, g_translate_0; [assumption..|reflexivity]. }
    set (m2 := rotate_self o m1 0 0 angle).
    assert (B1 : is2d m2 = true) by (apply is2d_rotate; assumption).
    assert (B2 : truthful m2) by (apply truthful_rotate; assumption).
    split; [destruct moved; [now apply is2d_translate|exact B1]|].
    split; [destruct moved; [now apply truthful_translate|exact B2]|].
    intros p. cbn [g_transform].
    assert (B3 : forall p, veq (act (arr m2) p) (g_translate cx cy 0 (g_rot2 (ocos o angle) (osin o angle) p))).
    { intros q. eapply veq_trans; [apply rotate_z_meaning; exact Ho|apply A3]. }
    destruct moved eqn:E.
    + eapply veq_trans; [apply translate_meaning|]. apply B3.
    + unfold moved in E. apply orb_false_elim in E as [E1 E2]. apply negb_false_iff in E1, E2.
      apply Qeq_bool_iff in E1, E2. eapply veq_trans; [apply B3|].
      apply g_translate_proper, g_rot2_proper, veq_sym, g_translate_0; [rewrite E1; reflexivity|rewrite E2; reflexivity|reflexivity].
  - split; [reflexivity|]. split. { intros _. apply two_d_mul; apply two_d_matrix2d. }
    intros p. eapply veq_trans; [apply skew_x_meaning|apply id_act].
  - split; [reflexivity|]. split. { intros _. apply two_d_mul; apply two_d_matrix2d. }
    intros p. eapply veq_trans; [apply skew_y_meaning|apply id_act].
Qed.

Lemma known_matrix o t : known t = true <-> exists m, transform_matrix o t = Some m.
Proof.
  split; [|intros [m H]; destruct t; [discriminate|reflexivity..]].
  destruct t; [discriminate|intros _; eexists; reflexivity..].
Qed.

Lemma product_meaning o l : oracle_basic o -> forallb known l = true -> forall m,
  exists r, product o m l = Ok r /\ (is2d m = true -> is2d r = true) /\ (truthful m -> truthful r) /\
    forall p, veq (act (arr r) p) (act (arr m) (g_list o l p)).
Proof.
  intros Ho. induction l as [|t l IH]; cbn [forallb product g_list fold_right]; intros H m.
  - exists m. split; [reflexivity|]. split; [exact (fun h => h)|]. split; [exact (fun h => h)|].
    intros p. apply veq_refl.
  - apply andb_prop in H as [H1 H2]. apply (known_matrix o) in H1 as [x Hx]. rewrite Hx.
    destruct (item_meaning o t x Ho Hx) as (X1 & X2 & X3).
    destruct (IH H2 (multiply_self m x)) as (r & R1 & R2 & R3 & R4).
    exists r. split; [exact R1|]. split.
    { intros Hm. apply R2. cbn. now rewrite Hm, X1. }
    split.
    { intros Hm. apply R3. intros F. cbn in F. apply andb_prop in F as [F1 F2].
      apply two_d_mul; auto. }
    intros p. eapply veq_trans; [apply R4|]. cbn [multiply_self arr].
    eapply veq_trans; [rewrite act_mat_vec; apply mul_vec|]. rewrite <- !act_mat_vec.
    apply act_proper. apply X3.
Qed.

Lemma list_meaning o l : oracle_basic o -> l <> [] -> forallb known l = true ->
  exists m, list_matrix o l = Ok (Some m) /\ is2d m = true /\ truthful m /\
    forall p, veq (act (arr m) p) (g_list o l p).
Proof.
  intros Ho Hl Hk. destruct (product_meaning o l Ho Hk identity) as (r & R1 & R2 & R3 & R4).
  exists r. unfold list_matrix. destruct l as [|t l]; [congruence|]. rewrite R1. cbn [bind].
  split; [reflexivity|]. split; [now apply R2|]. split; [apply R3, truthful_id|].
  intros p. eapply veq_trans; [apply R4|apply id_act].
Qed.

Lemma product_unknown o l : forallb known l = false -> forall m, product o m l = Err TypeError.
Proof.
  induction l as [|t l IH]; cbn [forallb product]; [discriminate|]. intros H m.
  destruct (transform_matrix o t) as [x|] eqn:E; [|reflexivity]. apply IH.
  assert (K : known t = true) by (apply (known_matrix o); eauto). rewrite K in H. exact H.
Qed.
Lemma list_unknown o l : forallb known l = false -> list_matrix o l = Err TypeError.
Proof.
  intros H. unfold list_matrix. destruct l as [|t l]; [discriminate|].
  rewrite product_unknown by exact H. reflexivity.
Qed.

Lemma list_concat o l1 l2 m1 m2 : oracle_basic o ->
  list_matrix o l1 = Ok (Some m1) -> list_matrix o l2 = Ok (Some m2) ->
  exists m, list_matrix o (l1 ++ l2) = Ok (Some m) /\ deq m (multiply_self m1 m2).
Proof.
  intros Ho H1 H2.
  assert (K1 : forallb known l1 = true).
  { destruct (forallb known l1) eqn:E; [reflexivity|]. rewrite (list_unknown o l1 E) in H1. discriminate. }
  assert (K2 : forallb known l2 = true).
  { destruct (forallb known l2) eqn:E; [reflexivity|]. rewrite (list_unknown o l2 E) in H2. discriminate. }
  assert (N1 : l1 <> []) by (intros ->; discriminate).
  assert (N2 : l2 <> []) by (intros ->; discriminate).
  destruct (list_meaning o l1 Ho N1 K1) as (a & A1 & A2 & _ & A3). rewrite A1 in H1; injection H1 as <-.
  destruct (list_meaning o l2 Ho N2 K2) as (b & B1 & B2 & _ & B3). rewrite B1 in H2; injection H2 as <-.
  destruct (list_meaning o (l1 ++ l2) Ho) as (m & M1 & M2 & _ & M3).
  { destruct l1; [congruence|discriminate]. }
  { rewrite forallb_app, K1, K2; reflexivity. }
  exists m. split; [exact M1|]. split; [|cbn; now rewrite M2, A2, B2].
  apply act_ext. intros p. eapply veq_trans; [apply M3|]. unfold g_list. rewrite fold_right_app.
  fold (g_list o l2 p). fold (g_list o l1 (g_list o l2 p)).
  apply veq_sym. cbn [multiply_self arr]. eapply veq_trans; [rewrite act_mat_vec; apply mul_vec|].
  rewrite <- !act_mat_vec. eapply veq_trans; [apply act_proper, B3|]. apply A3.
Qed.

Lemma consolidate_some o l : oracle_basic o -> l <> [] -> forallb known l = true ->
  exists t, consolidate o l = Ok ([t], Some t) /\ type_of t = MATRIX /\
    exists m m', list_matrix o l = Ok (Some m) /\ list_matrix o [t] = Ok (Some m') /\ deq m' m.
Proof.
  intros Ho Hl Hk. destruct (list_meaning o l Ho Hl Hk) as (m & M1 & M2 & M3 & _).
  unfold consolidate, list_transform. rewrite M1. cbn [bind]. unfold from_matrix, tolist. rewrite M2. cbn [bind].
  eexists. split; [reflexivity|]. split; [reflexivity|]. exists m. eexists. split; [reflexivity|].
  split; [reflexivity|]. split; [|cbn; now rewrite M2]. cbn [multiply_self arr identity].
  eapply meq_trans; [apply mul_id_l|]. apply two_d_drop, M3, M2.
Qed.
