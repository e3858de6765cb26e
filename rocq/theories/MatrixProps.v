(** Property theorems C05-C09: matrices. *)
From Verif Require Import PyBase MatrixModel MatrixSpec MatrixProofs MatrixProofs2.
Local Open Scope Q_scope.

(** C05 *)
Theorem c05_is2d_history : forall o ops m,
  sqrt_ok o -> Forall op_truthful ops -> truthful m -> truthful (runs (mat_step o) ops m).
Proof. exact truthful_history. Qed.
Print Assumptions c05_is2d_history.

Theorem c05_constructor_array : forall l m, init_from_array l = Ok m -> truthful m.
Proof. exact truthful_array. Qed.
Print Assumptions c05_constructor_array.

Theorem c05_constructor_kwargs : forall k m, init_from_matrix k = Ok m -> truthful m.
Proof. exact truthful_kwargs. Qed.
Print Assumptions c05_constructor_kwargs.

Example c05_ex :
  let ops := [MTranslate 3 4 0; MRotateAxis 0 0 2 90; MScale 2 None 1 5 5 0; MInv; MSet E43 0;
              MMul (DM (matrix2d 1 2 3 4 5 6) true)] in
  Forall op_truthful ops /\ sqrt_ok quarter_oracle /\ truthful (DM mat_id true) /\
  is2d (runs (mat_step quarter_oracle) ops (DM mat_id true)) = true.
Proof.
  split; [|split; [exact (proj1 quarter_basic)|split; [intros _; apply two_d_matrix2d|reflexivity]]].
  repeat (apply Forall_cons; [first [exact I|intros _; apply two_d_matrix2d]|]). constructor.
Qed.

(** Dropping the 3D entries of a matrix that says it is 2D loses nothing. *)
Theorem c05_transform_point_2d : forall m x y, truthful m -> is2d m = true ->
  exists a b, transform_point m x y 0 1 = [a; b] /\ veq (V4 a b 0 1) (act (arr m) (V4 x y 0 1)).
Proof. exact transform_point_2d. Qed.
Print Assumptions c05_transform_point_2d.

Theorem c05_transform_point_3d : forall m x y z w, is2d m = false \/ ~ z == 0 \/ ~ w == 1 ->
  exists p, transform_point m x y z w = [v1 p; v2 p; v3 p; v4 p] /\ p = act (arr m) (V4 x y z w).
Proof. exact transform_point_4. Qed.
Print Assumptions c05_transform_point_3d.

Example c05_tp_ex : transform_point (DM (matrix2d 2 0 0 2 1 1) true) 1 1 0 1 = [3; 3] /\
  (List.length (transform_point (DM (matrix2d 2 0 0 2 1 1) false) 1 1 0 1) = 4)%nat.
Proof. split; reflexivity. Qed.

(** C06 *)
Theorem c06_multiply_composes : forall m o p, truthful m ->
  exists r, multiply m o = Ok r /\ is2d r = is2d m && is2d o /\
    veq (act (arr r) p) (act (arr m) (act (arr o) p)).
Proof.
  intros m o p H. destruct (multiply_copy m o H) as (r & E & D & F).
  exists r; split; [exact E|]. split; [exact F|].
  rewrite !act_mat_vec, D. apply mul_vec.
Qed.
Print Assumptions c06_multiply_composes.

Theorem c06_multiply_assoc : forall a b c,
  meq (arr (multiply_self (multiply_self a b) c)) (arr (multiply_self a (multiply_self b c))).
Proof. intros a b c. exact (mul_assoc (arr a) (arr b) (arr c)). Qed.
Print Assumptions c06_multiply_assoc.

Theorem c06_identity_unit : forall m,
  deq (multiply_self m (DM mat_id true)) m /\ deq (multiply_self (DM mat_id true) m) m.
Proof.
  intros m; split.
  - split; [exact (mul_id_r (arr m)) | apply andb_true_r].
  - split; [exact (mul_id_l (arr m)) | reflexivity].
Qed.
Print Assumptions c06_identity_unit.

(** A matrix is determined by what it does to points. *)
Theorem c06_action_determines : forall a b, (forall p, veq (act a p) (act b p)) -> meq a b.
Proof. exact act_ext. Qed.
Print Assumptions c06_action_determines.

Theorem c06_isidentity : forall m, isidentity m = true <-> (forall p, veq (act (arr m) p) p).
Proof.
  intros m. rewrite isidentity_spec. split.
  - intros H p. rewrite act_mat_vec, H. apply id_vec.
  - intros H. apply act_ext. intros p. rewrite H. symmetry. apply id_vec.
Qed.
Print Assumptions c06_isidentity.

Example c06_ex : let m := DM (matrix2d 1 2 3 4 5 6) true in truthful m /\
  match multiply m (DM (matrix2d 0 1 (-1) 0 0 0) true) with
  | Ok r => meq (arr r) (matrix2d 3 4 (-1) (-2) 5 6) | Err _ => False end.
Proof. split; [intros _; apply two_d_matrix2d|]. cbn. repeat split; reflexivity. Qed.

(** C07 *)
Theorem c07_inverse : forall m, truthful m ->
  match inverse m with
  | Ok r => meq (mat_mul (arr m) (arr r)) mat_id /\ meq (mat_mul (arr r) (arr m)) mat_id
            /\ is2d r = is2d m /\ truthful r
  | Err e => e = LinAlgError /\ forall i, ~ meq (mat_mul (arr m) i) mat_id
  end.
Proof. exact inverse_copy. Qed.
Print Assumptions c07_inverse.

Theorem c07_inverse_points : forall m i p,
  np_inv m = Ok i -> veq (act i (act m p)) p /\ veq (act m (act i p)) p.
Proof. exact inverse_points. Qed.
Print Assumptions c07_inverse_points.

Theorem c07_inverse_twice : forall m i, np_inv m = Ok i -> exists m', np_inv i = Ok m' /\ meq m' m.
Proof. exact inverse_inverse. Qed.
Print Assumptions c07_inverse_twice.

Theorem c07_inverse_of_product : forall a b i j, np_inv a = Ok i -> np_inv b = Ok j ->
  exists k, np_inv (mat_mul a b) = Ok k /\ meq k (mat_mul j i).
Proof. exact inverse_product. Qed.
Print Assumptions c07_inverse_of_product.

Example c07_ex : (exists r, inverse (DM (matrix2d 2 0 0 4 6 8) true) = Ok r /\
    meq (arr r) (matrix2d (1#2) 0 0 (1#4) (-3) (-2))) /\
  inverse (DM (matrix2d 1 2 2 4 0 0) true) = Err LinAlgError.
Proof. split; [eexists; split; [reflexivity|repeat split; reflexivity]|reflexivity]. Qed.

(** C08: each operation acts on points as its name says, before the
    transformation already in the matrix. *)
Theorem c08_translate : forall m tx ty tz p,
  veq (act (arr (translate_self m tx ty tz)) p) (act (arr m) (g_translate tx ty tz p)).
Proof. exact translate_meaning. Qed.
Print Assumptions c08_translate.

Theorem c08_scale : forall m sx sy sz ox oy oz p,
  veq (act (arr (scale_self m sx sy sz ox oy oz)) p)
      (act (arr m) (g_scale sx (match sy with Some v => v | None => sx end) sz ox oy oz p)).
Proof. exact scale_meaning. Qed.
Print Assumptions c08_scale.

(** The origin of a scale is a fixed point of it. *)
Theorem c08_scale_fixes_origin : forall m sx sy sz ox oy oz,
  veq (act (arr (scale_self m sx sy sz ox oy oz)) (V4 ox oy oz 1)) (act (arr m) (V4 ox oy oz 1)).
Proof.
  intros. rewrite scale_meaning. apply act_proper.
  unfold g_scale; repeat split; cbn [v1 v2 v3 v4]; ring.
Qed.
Print Assumptions c08_scale_fixes_origin.

Theorem c08_skew_x : forall o m a p,
  veq (act (arr (skew_x_self o m a)) p) (act (arr m) (g_skew_x (otan o a) p)).
Proof. exact skew_x_meaning. Qed.
Print Assumptions c08_skew_x.

Theorem c08_skew_y : forall o m a p,
  veq (act (arr (skew_y_self o m a)) p) (act (arr m) (g_skew_y (otan o a) p)).
Proof. exact skew_y_meaning. Qed.
Print Assumptions c08_skew_y.

Theorem c08_rotate_axis : forall o m x y z a l p,
  osqrt o (x * x + y * y + z * z) == l -> l * l == x * x + y * y + z * z -> ~ l == 0 ->
  veq (act (arr (rotate_axis_angle_self o m x y z a)) p)
      (act (arr m) (g_rot (x / l) (y / l) (z / l) (ocos o a) (osin o a) p)).
Proof. exact rot_axis_meaning. Qed.
Print Assumptions c08_rotate_axis.

Example c08_rotate_axis_ex : let l := 9 in
  osqrt quarter_oracle (6 * 6 + 6 * 6 + 3 * 3) == l /\ l * l == 6 * 6 + 6 * 6 + 3 * 3 /\ ~ l == 0.
Proof. cbn zeta. repeat split; try reflexivity. lra. Qed.

Theorem c08_rotate_zero_axis : forall o m x y z a, sqrt_ok o -> x == 0 -> y == 0 -> z == 0 ->
  rotate_axis_angle_self o m x y z a = m.
Proof. exact zero_axis. Qed.
Print Assumptions c08_rotate_zero_axis.

(** A rotation keeps distances to the origin and fixes its axis. *)
Theorem c08_rotation_is_rigid : forall x y z c s p,
  x * x + y * y + z * z == 1 -> c * c + s * s == 1 ->
  norm2 (g_rot x y z c s p) == norm2 p /\
  forall w, veq (g_rot x y z c s (V4 x y z w)) (V4 x y z w).
Proof.
  intros x y z c s p Hu Ht. split; [now apply g_rot_norm|]. intros w; now apply g_rot_axis.
Qed.
Print Assumptions c08_rotation_is_rigid.

Example c08_rigid_ex : (2#3) * (2#3) + (2#3) * (2#3) + (1#3) * (1#3) == 1 /\
  (3#5) * (3#5) + (4#5) * (4#5) == 1.
Proof. split; reflexivity. Qed.

Theorem c08_rotations_add : forall o m a b, oracle_basic o -> adds o a b ->
  meq (arr (rotate_self o (rotate_self o m 0 0 a) 0 0 b)) (arr (rotate_self o m 0 0 (a + b))).
Proof. exact rotate_rotate. Qed.
Print Assumptions c08_rotations_add.

Theorem c08_axis_rotations_add : forall o m x y z a b,
  sqrt_ok o -> x * x + y * y + z * z == 1 -> adds o a b ->
  meq (arr (rotate_axis_angle_self o (rotate_axis_angle_self o m x y z a) x y z b))
      (arr (rotate_axis_angle_self o m x y z (a + b))).
Proof. exact rot_rot. Qed.
Print Assumptions c08_axis_rotations_add.

Example c08_adds_ex : oracle_basic quarter_oracle /\ adds quarter_oracle 90 180 /\
  adds quarter_oracle (-90) 270.
Proof. split; [exact quarter_basic|]. repeat split. Qed.

(** Any history of post-multiplying operations is the composition of the
    meanings of its operations. *)
Theorem c08_history : forall o ops, oracle_basic o -> forall m p q,
  g_ops o ops p = Some q -> veq (act (arr (runs (mat_step o) ops m)) p) (act (arr m) q).
Proof. exact history_meaning. Qed.
Print Assumptions c08_history.

Example c08_history_ex :
  g_ops quarter_oracle [MTranslate 10 0 0; MRotate 0 0 90; MScale 2 None 1 0 0 0] (V4 1 2 0 1)
  <> None.
Proof. discriminate. Qed.

Theorem c08_flips : forall m, truthful m ->
  (exists a b, flip_x m = Ok a /\ flip_x a = Ok b /\ deq b m) /\
  (exists a b, flip_y m = Ok a /\ flip_y a = Ok b /\ deq b m).
Proof. exact flip_involution. Qed.
Print Assumptions c08_flips.

(** C09 *)
Theorem c09_tolist : forall m, truthful m ->
  exists m', init_from_array (tolist m) = Ok m' /\ deq m' m.
Proof. exact tolist_roundtrip. Qed.
Print Assumptions c09_tolist.

Theorem c09_json : forall m, truthful m ->
  exists m', init_from_matrix (tojson m) = Ok m' /\ deq m' m.
Proof. exact json_roundtrip. Qed.
Print Assumptions c09_json.

(** to_float_array keeps the entries but not the 2D flag. *)
Theorem c09_float_array_partial : forall m,
  exists m', init_from_array (to_float_array m) = Ok m' /\ meq (arr m') (arr m) /\ is2d m' = false.
Proof. exact float_array_roundtrip. Qed.
Print Assumptions c09_float_array_partial.

Theorem c09_float_array_flag_refuted : exists m m', truthful m /\
  init_from_array (to_float_array m) = Ok m' /\ is2d m' <> is2d m.
Proof.
  exists (DM mat_id true). eexists. split; [intros _; apply two_d_matrix2d|].
  split; [reflexivity|discriminate].
Qed.
Print Assumptions c09_float_array_flag_refuted.

Theorem c09_array_length : forall l,
  (exists m, init_from_array l = Ok m) <-> (length l = 6 \/ length l = 16)%nat.
Proof. exact array_length. Qed.
Print Assumptions c09_array_length.

(** Every keyword given to the constructor is the entry of the matrix built,
    the two spellings of an entry agree, and the rest is the identity. *)
Theorem c09_kwargs_entries : forall k m, init_from_matrix k = Ok m -> let a := arr m in
  kw_alias (k11 k) (ka k) 1 (m11 a) /\ kw_alias (k12 k) (kb k) 0 (m12 a) /\
  kw_alias (k21 k) (kc k) 0 (m21 a) /\ kw_alias (k22 k) (kd k) 1 (m22 a) /\
  kw_alias (k41 k) (ke k) 0 (m41 a) /\ kw_alias (k42 k) (kf k) 0 (m42 a) /\
  kw_entry (k13 k) 0 (m13 a) /\ kw_entry (k14 k) 0 (m14 a) /\
  kw_entry (k23 k) 0 (m23 a) /\ kw_entry (k24 k) 0 (m24 a) /\
  kw_entry (k31 k) 0 (m31 a) /\ kw_entry (k32 k) 0 (m32 a) /\
  kw_entry (k33 k) 1 (m33 a) /\ kw_entry (k34 k) 0 (m34 a) /\
  kw_entry (k43 k) 0 (m43 a) /\ kw_entry (k44 k) 1 (m44 a) /\
  (match kis2d k with Some b => is2d m = b | None => True end).
Proof. exact kwargs_entries. Qed.
Print Assumptions c09_kwargs_entries.

Example c09_ex : let m := DM (matrix3d 1 2 3 4 5 6 7 8 9 10 11 12 13 14 15 16) false in
  truthful m /\ tolist m = [1; 2; 3; 4; 5; 6; 7; 8; 9; 10; 11; 12; 13; 14; 15; 16] /\
  exists m', init_from_matrix (tojson m) = Ok m'.
Proof. split; [discriminate|]. split; [reflexivity|]. eexists; reflexivity. Qed.
