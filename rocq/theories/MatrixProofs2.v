(** More proofs about the matrix model: rotations and whole histories. *)
From Verif Require Import PyBase MatrixModel MatrixSpec MatrixProofs.
From Coq Require Import Setoid Morphisms.
Local Open Scope Q_scope.

Lemma g_rot_id x y z c s p : c == 1 -> s == 0 -> veq (g_rot x y z c s p) p.
Proof. intros Hc Hs; unfold g_rot; destruct p; repeat split; cbn; rewrite ?Hc, ?Hs; ring. Qed.

(** any axis whose length the oracle computes: the rotation is Rodrigues'
    rotation about the normalised axis *)
Lemma rot_axis_meaning o m x y z a l p :
  osqrt o (x * x + y * y + z * z) == l -> l * l == x * x + y * y + z * z -> ~ l == 0 ->
  veq (act (arr (rotate_axis_angle_self o m x y z a)) p)
      (act (arr m) (g_rot (x / l) (y / l) (z / l) (ocos o a) (osin o a) p)).
Proof.
  intros E Hl Hn. unfold rotate_axis_angle_self.
  set (q := osqrt o (x * x + y * y + z * z)) in *.
  destruct (Qeqb_spec q 0) as [H|H]; [exfalso; apply Hn; rewrite <- E; exact H|].
  destruct (Qeqb_spec q 1) as [H1|H1]; cbn [arr];
    rewrite (act_mat_vec (mat_mul _ _)), mul_vec, <- (act_mat_vec (rot_matrix _ _ _ _ _));
    rewrite <- act_mat_vec; apply act_proper.
  - assert (L1 : l == 1) by (rewrite <- E; exact H1).
    rewrite rot_matrix_meaning by (rewrite <- Hl, L1; ring).
    unfold g_rot; repeat split; cbn [v1 v2 v3 v4]; try reflexivity; rewrite L1; field.
  - rewrite rot_matrix_meaning.
    + unfold g_rot; repeat split; cbn [v1 v2 v3 v4]; try reflexivity; rewrite E; reflexivity.
    + rewrite E. setoid_replace (x / l * (x / l) + y / l * (y / l) + z / l * (z / l))
        with ((x * x + y * y + z * z) / (l * l)) by (field; exact Hn).
      rewrite <- Hl. field; exact Hn.
Qed.

Lemma rot_unit_meaning o m x y z a p : sqrt_ok o -> x * x + y * y + z * z == 1 ->
  veq (act (arr (rotate_axis_angle_self o m x y z a)) p)
      (act (arr m) (g_rot x y z (ocos o a) (osin o a) p)).
Proof.
  intros Ho Hu. rewrite (rot_axis_meaning o m x y z a 1 p).
  - apply act_proper. unfold g_rot; repeat split; cbn [v1 v2 v3 v4]; try reflexivity; field.
  - apply Ho; [lra|rewrite Hu; ring].
  - rewrite Hu; ring.
  - lra.
Qed.

Lemma zero_axis o m x y z a : sqrt_ok o -> x == 0 -> y == 0 -> z == 0 ->
  rotate_axis_angle_self o m x y z a = m.
Proof.
  intros Ho Hx Hy Hz. unfold rotate_axis_angle_self.
  destruct (Qeqb_spec (osqrt o (x * x + y * y + z * z)) 0) as [H|H]; [reflexivity|].
  exfalso; apply H. apply Ho; [lra|rewrite Hx, Hy, Hz; ring].
Qed.

Lemma g_rot_proper x y z c s p q : veq p q -> veq (g_rot x y z c s p) (g_rot x y z c s q).
Proof.
  intros (A & B & C & D). unfold g_rot; repeat split; cbn; rewrite ?A, ?B, ?C, ?D; reflexivity.
Qed.

Global Instance g_rot_prop x y z c s : Proper (veq ==> veq) (g_rot x y z c s).
Proof. intros p q H; now apply g_rot_proper. Qed.

Lemma rotate_meaning o m rx ry rz p : oracle_basic o ->
  veq (act (arr (rotate_self o m rx ry rz)) p)
      (act (arr m) (g_rot 0 0 1 (ocos o rz) (osin o rz)
                    (g_rot 0 1 0 (ocos o ry) (osin o ry)
                    (g_rot 1 0 0 (ocos o rx) (osin o rx) p)))).
Proof.
  intros [Ho H0]. unfold rotate_self.
  set (m1 := if rz =?q 0 then m else _).
  set (m2 := if ry =?q 0 then m1 else _).
  assert (E1 : forall p, veq (act (arr m1) p) (act (arr m) (g_rot 0 0 1 (ocos o rz) (osin o rz) p))).
  { intros q. unfold m1. destruct (Qeqb_spec rz 0) as [H|H].
    - apply act_proper. symmetry. destruct (H0 _ H). now apply g_rot_id.
    - apply rot_unit_meaning; [exact Ho|ring]. }
  assert (E2 : forall p, veq (act (arr m2) p) (act (arr m1) (g_rot 0 1 0 (ocos o ry) (osin o ry) p))).
  { intros q. unfold m2. destruct (Qeqb_spec ry 0) as [H|H].
    - apply act_proper. symmetry. destruct (H0 _ H). now apply g_rot_id.
    - unfold flag2d; cbn [arr]. apply rot_unit_meaning; [exact Ho|ring]. }
  destruct (Qeqb_spec rx 0) as [H|H].
  - rewrite E2, E1. apply act_proper, g_rot_proper, g_rot_proper. symmetry.
    destruct (H0 _ H). now apply g_rot_id.
  - unfold flag2d; cbn [arr]. rewrite rot_unit_meaning by (try exact Ho; ring).
    rewrite E2, E1. reflexivity.
Qed.

(** rotations preserve lengths, and fix their axis *)
Definition norm2 (p : vec4) : Q := v1 p * v1 p + v2 p * v2 p + v3 p * v3 p.

Lemma g_rot_norm x y z c s p : x * x + y * y + z * z == 1 -> c * c + s * s == 1 ->
  norm2 (g_rot x y z c s p) == norm2 p.
Proof.
  intros Hu Ht. unfold norm2, g_rot. destruct p as [a b d w]. cbn [v1 v2 v3 v4].
  assert (S2 : s * s == 1 - c * c) by lra.
  assert (Z2 : z * z == 1 - x * x - y * y) by lra.
  (* the difference is a combination of the two constraints *)
  set (D := x * a + y * b + z * d).
  setoid_replace ((c * a + s * (y * d - z * b) + (1 - c) * D * x) *
   (c * a + s * (y * d - z * b) + (1 - c) * D * x) +
   (c * b + s * (z * a - x * d) + (1 - c) * D * y) *
   (c * b + s * (z * a - x * d) + (1 - c) * D * y) +
   (c * d + s * (x * b - y * a) + (1 - c) * D * z) *
   (c * d + s * (x * b - y * a) + (1 - c) * D * z))
  with (c * c * (a * a + b * b + d * d)
        + s * s * ((x * x + y * y + z * z) * (a * a + b * b + d * d) - D * D)
        + (1 - c) * (1 - c) * D * D * (x * x + y * y + z * z)
        + 2 * c * (1 - c) * D * D)
  by (unfold D; ring).
  rewrite Hu, S2. ring.
Qed.

Lemma g_rot_axis x y z c s w : x * x + y * y + z * z == 1 ->
  veq (g_rot x y z c s (V4 x y z w)) (V4 x y z w).
Proof.
  intros Hu. unfold g_rot; repeat split; cbn [v1 v2 v3 v4]; try reflexivity; rewrite Hu; ring.
Qed.

Lemma g_rot_add x y z c s c' s' p : x * x + y * y + z * z == 1 ->
  veq (g_rot x y z c s (g_rot x y z c' s' p)) (g_rot x y z (c * c' - s * s') (s * c' + c * s') p).
Proof.
  intros Hu. assert (Z2 : z * z == 1 - x * x - y * y) by lra.
  destruct p as [a b d w]. unfold g_rot. cbn [v1 v2 v3 v4].
  set (D := x * a + y * b + z * d).
  set (X := x * (c' * a + s' * (y * d - z * b) + (1 - c') * D * x) +
            y * (c' * b + s' * (z * a - x * d) + (1 - c') * D * y) +
            z * (c' * d + s' * (x * b - y * a) + (1 - c') * D * z)).
  assert (HX : X == D).
  { unfold X. setoid_replace (x * (c' * a + s' * (y * d - z * b) + (1 - c') * D * x) +
      y * (c' * b + s' * (z * a - x * d) + (1 - c') * D * y) +
      z * (c' * d + s' * (x * b - y * a) + (1 - c') * D * z))
      with (c' * D + (1 - c') * D * (x * x + y * y + z * z)) by (unfold D; ring).
    rewrite Hu; ring. }
  repeat split; cbn [v1 v2 v3 v4]; try reflexivity; rewrite HX.
  - setoid_replace (y * (c' * d + s' * (x * b - y * a) + (1 - c') * D * z) -
      z * (c' * b + s' * (z * a - x * d) + (1 - c') * D * y))
    with (c' * (y * d - z * b) + s' * (x * D - (x * x + y * y + z * z) * a)) by (unfold D; ring).
    rewrite Hu; ring.
  - setoid_replace (z * (c' * a + s' * (y * d - z * b) + (1 - c') * D * x) -
      x * (c' * d + s' * (x * b - y * a) + (1 - c') * D * z))
    with (c' * (z * a - x * d) + s' * (y * D - (x * x + y * y + z * z) * b)) by (unfold D; ring).
    rewrite Hu; ring.
  - setoid_replace (x * (c' * b + s' * (z * a - x * d) + (1 - c') * D * y) -
      y * (c' * a + s' * (y * d - z * b) + (1 - c') * D * x))
    with (c' * (x * b - y * a) + s' * (z * D - (x * x + y * y + z * z) * d)) by (unfold D; ring).
    rewrite Hu; ring.
Qed.

Lemma g_rot_z_2d c s p : veq (g_rot 0 0 1 c s p) (g_rot2 c s p).
Proof. unfold g_rot, g_rot2; destruct p; repeat split; cbn; ring. Qed.

(** addition of two consecutive rotations about the same unit axis *)
Definition adds (o : oracle) (a b : Q) : Prop :=
  ocos o (a + b) == ocos o a * ocos o b - osin o a * osin o b /\
  osin o (a + b) == osin o a * ocos o b + ocos o a * osin o b.

Lemma rot_rot o m x y z a b : sqrt_ok o -> x * x + y * y + z * z == 1 -> adds o a b ->
  meq (arr (rotate_axis_angle_self o (rotate_axis_angle_self o m x y z a) x y z b))
      (arr (rotate_axis_angle_self o m x y z (a + b))).
Proof.
  intros Ho Hu [Hc Hs]. apply act_ext. intros p.
  rewrite !rot_unit_meaning by assumption. apply act_proper.
  rewrite g_rot_add by exact Hu.
  unfold g_rot; repeat split; cbn [v1 v2 v3 v4]; try reflexivity; rewrite Hc, Hs; reflexivity.
Qed.

Lemma rotate_rotate o m a b : oracle_basic o -> adds o a b ->
  meq (arr (rotate_self o (rotate_self o m 0 0 a) 0 0 b)) (arr (rotate_self o m 0 0 (a + b))).
Proof.
  intros Hb [Hc Hs]. pose proof Hb as [_ H0].
  destruct (H0 0 ltac:(reflexivity)) as [C0 S0].
  apply act_ext. intros p. rewrite !rotate_meaning by exact Hb. apply act_proper.
  rewrite !(g_rot_id 1 0 0 _ _ _ C0 S0), !(g_rot_id 0 1 0 _ _ _ C0 S0).
  rewrite g_rot_add by ring.
  unfold g_rot; repeat split; cbn [v1 v2 v3 v4]; try reflexivity; rewrite Hc, Hs; reflexivity.
Qed.

(** every history of post-multiplying operations *)
Lemma step_meaning o op f m p : oracle_basic o -> g_op o op = Some f ->
  veq (act (arr (mat_step o m op)) p) (act (arr m) (f p)).
Proof.
  intros Hb Hf. destruct op; cbn in Hf; try discriminate; injection Hf as <-; cbn [mat_step].
  - unfold multiply_self; cbn [arr]. rewrite !act_mat_vec. apply mul_vec.
  - apply translate_meaning.
  - apply scale_meaning.
  - apply (scale_meaning m s (Some s)).
  - apply skew_x_meaning.
  - apply skew_y_meaning.
  - now apply rotate_meaning.
Qed.

Lemma history_meaning o ops : oracle_basic o -> forall m p q,
  g_ops o ops p = Some q -> veq (act (arr (runs (mat_step o) ops m)) p) (act (arr m) q).
Proof.
  intros Hb. induction ops as [|op ops IH]; intros m p q Hq; cbn in *.
  - injection Hq as ->. reflexivity.
  - destruct (g_op o op) as [f|] eqn:F; [|discriminate].
    destruct (g_ops o ops p) as [r|] eqn:R; [|discriminate]. injection Hq as <-.
    unfold runs in IH. rewrite (IH _ _ _ R). now apply step_meaning.
Qed.

(** transform_point *)
Lemma transform_point_2d m x y : truthful m -> is2d m = true ->
  exists a b, transform_point m x y 0 1 = [a; b] /\
    veq (V4 a b 0 1) (act (arr m) (V4 x y 0 1)).
Proof.
  intros Ht Hf. unfold transform_point. rewrite Hf. cbn [andb Qeq_bool].
  change (0 =?q 0) with true. change (1 =?q 1) with true. cbn [andb].
  do 2 eexists; split; [reflexivity|].
  destruct (Ht Hf) as (A1&A2&A3&A4&A5&A6&A7&A8&A9&A10).
  repeat split; cbn [v1 v2 v3 v4]; try reflexivity;
  unfold act; cbn [v3 v4 v1 v2]; rewrite ?A1, ?A2, ?A3, ?A4, ?A7, ?A8, ?A9, ?A10; ring.
Qed.
Lemma transform_point_4 m x y z w : is2d m = false \/ ~ z == 0 \/ ~ w == 1 ->
  exists p, transform_point m x y z w = [v1 p; v2 p; v3 p; v4 p] /\ p = act (arr m) (V4 x y z w).
Proof.
  intros H. unfold transform_point. rewrite <- act_mat_vec.
  assert (is2d m && (z =?q 0) && (w =?q 1) = false) as ->.
  { destruct H as [-> | [H | H]]; [reflexivity| |].
    - destruct (Qeqb_spec z 0); [contradiction|]. now rewrite andb_false_r.
    - destruct (Qeqb_spec w 1); [contradiction|]. now rewrite andb_false_r. }
  eexists; split; reflexivity.
Qed.

Lemma flip_involution m : truthful m ->
  (exists a b, flip_x m = Ok a /\ flip_x a = Ok b /\ deq b m) /\
  (exists a b, flip_y m = Ok a /\ flip_y a = Ok b /\ deq b m).
Proof.
  intros H.
  assert (G : forall F, truthful F -> is2d F = true -> meq (mat_mul (arr F) (arr F)) mat_id ->
    exists a b, multiply m F = Ok a /\ multiply a F = Ok b /\ deq b m).
  { intros F HF HF2 HFF.
    destruct (multiply_copy m F H) as (a & Ea & Da & Fa).
    assert (Ta : truthful a).
    { unfold multiply in Ea. destruct (init_from_array (tolist m)) as [c|] eqn:Ec; [|discriminate].
      cbn in Ea; injection Ea as <-. intros Hf; cbn in *. apply andb_prop in Hf as [H1 H2].
      apply two_d_mul; [apply (truthful_array _ _ Ec); exact H1|now apply HF]. }
    destruct (multiply_copy a F Ta) as (b & Eb & Db & Fb).
    exists a, b. split; [exact Ea|]. split; [exact Eb|]. split.
    - rewrite Db. cbn [multiply_self arr]. rewrite Da. cbn [multiply_self arr].
      rewrite mul_assoc, HFF. apply mul_id_r.
    - rewrite Fb; cbn. rewrite Fa; cbn. rewrite HF2, !andb_true_r. reflexivity. }
  split; apply G; try reflexivity; try (intros _; apply two_d_matrix2d);
    repeat split; reflexivity.
Qed.

Lemma inverse_points m i p : np_inv m = Ok i -> veq (act i (act m p)) p /\ veq (act m (act i p)) p.
Proof.
  intros H. apply np_inv_spec in H as [H1 H2]. rewrite !act_mat_vec, <- !mul_vec, H1, H2.
  split; apply id_vec.
Qed.

Lemma inverse_inverse m i : np_inv m = Ok i -> exists m', np_inv i = Ok m' /\ meq m' m.
Proof.
  intros H. apply np_inv_spec in H as [H1 H2].
  destruct (np_inv i) as [m'|e] eqn:E.
  - exists m'; split; [reflexivity|]. apply np_inv_spec in E as [E1 E2].
    exact (inverse_unique i m' m E1 H1).
  - exfalso. assert (X : exists e, np_inv i = Err e) by eauto. apply np_inv_error in X.
    apply X. exists m. exact H2.
Qed.

Lemma inverse_product a b i j : np_inv a = Ok i -> np_inv b = Ok j ->
  exists k, np_inv (mat_mul a b) = Ok k /\ meq k (mat_mul j i).
Proof.
  intros Ha Hb. apply np_inv_spec in Ha as [A1 A2], Hb as [B1 B2].
  assert (R : meq (mat_mul (mat_mul a b) (mat_mul j i)) mat_id).
  { rewrite mul_assoc, <- (mul_assoc b), B1, mul_id_l. exact A1. }
  destruct (np_inv (mat_mul a b)) as [k|e] eqn:E.
  - exists k; split; [reflexivity|]. apply np_inv_spec in E as [E1 E2]. symmetry.
    exact (inverse_unique _ _ _ R E2).
  - exfalso. assert (X : exists e, np_inv (mat_mul a b) = Err e) by eauto.
    apply np_inv_error in X. apply X. eauto.
Qed.

Lemma isidentity_spec m : isidentity m = true <-> meq (arr m) mat_id.
Proof.
  unfold isidentity. rewrite !andb_true_iff, !Qeq_bool_iff.
  destruct m as [[[][][][]] f]; unfold meq, veq; cbn. tauto.
Qed.

(** an oracle meeting the assumptions: exact square roots of rational
    squares, quarter turns *)
Definition qsqrt (q : Q) : Q := (Z.sqrt (Qnum q * QDen q) # Qden q).
Lemma qsqrt_ok q z : 0 <= z -> q == z * z -> qsqrt q == z.
Proof.
  destruct q as [p d], z as [a b]. unfold qsqrt, Qeq, Qle, Qmult; cbn [Qnum Qden].
  intros Hz H.
  rewrite Pos2Z.inj_mul in H.
  set (D := Zpos d) in *. set (B := Zpos b) in *.
  assert (HD : (0 < D)%Z) by (unfold D; lia). assert (HB : (0 < B)%Z) by (unfold B; lia).
  assert (Ha : (0 <= a)%Z) by lia.
  (* (p*D) * B^2 = (a*D)^2 *)
  assert (E : (p * D * (B * B) = (a * D) * (a * D))%Z) by nia.
  (* B divides a*D *)
  assert (Hdiv : (B | a * D)%Z).
  { assert (E2 : ((B * B) | (a * D) * (a * D))%Z) by (exists (p * D)%Z; lia).
    destruct (Z.gcd_divide_l (a*D) B) as [u Hu].
    destruct (Z.gcd_divide_r (a*D) B) as [v Hv].
    set (g := Z.gcd (a * D) B) in *.
    assert (Hg : (0 < g)%Z).
    { pose proof (Z.gcd_nonneg (a*D) B) as X. fold g in X.
      destruct (Z.eq_dec g 0) as [Z0|]; [rewrite Z0 in Hv; lia|lia]. }
    assert (Hcop : Z.gcd u v = 1%Z).
    { assert (X : Z.gcd (u * g) (v * g) = (Z.gcd u v * g)%Z).
      { rewrite Z.gcd_mul_mono_r_nonneg by lia. reflexivity. }
      rewrite <- Hu, <- Hv in X. fold g in X. nia. }
    assert (Hvu : (v | u * u)%Z).
    { rewrite Hu, Hv in E2. destruct E2 as [k Hk]. exists (k * v)%Z. nia. }
    assert (Hv1 : (v | u)%Z).
    { apply Z.gauss with (n := v) (m := u) in Hvu; [exact Hvu|rewrite Z.gcd_comm; exact Hcop]. }
    rewrite Hu, Hv. apply Z.mul_divide_mono_r. exact Hv1. }
  destruct Hdiv as [k Hk]. rewrite Hk in E.
  assert (Hkk : (p * D = k * k)%Z) by nia.
  assert (0 <= k)%Z by nia.
  rewrite Hkk. rewrite Z.sqrt_square by lia. lia.
Qed.

Definition quarter (q : Q) : Z := ((Qnum q / QDen q) / 90 mod 4)%Z.
Definition qcos (q : Q) : Q := match quarter q with 0%Z => 1 | 2%Z => -1 | _ => 0 end.
Definition qsin (q : Q) : Q := match quarter q with 1%Z => 1 | 3%Z => -1 | _ => 0 end.
Definition quarter_oracle : oracle := Orc qcos qsin (fun _ => 1) qsqrt.
Lemma quarter_basic : oracle_basic quarter_oracle.
Proof.
  split.
  - intros q z Hz H. cbn. now apply qsqrt_ok.
  - intros [p d] H. unfold Qeq in H; cbn in H. assert (p = 0%Z) as -> by lia.
    unfold quarter_oracle, qcos, qsin, quarter; cbn. split; reflexivity.
Qed.
