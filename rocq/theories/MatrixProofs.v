(** Proofs about the matrix model. *)
From Verif Require Import PyBase MatrixModel MatrixSpec.
From Coq Require Import Setoid Morphisms.
Local Open Scope Q_scope.

Ltac mdestr := repeat match goal with
  | m : dmat |- _ => let x := fresh "M" in let f := fresh "fl" in destruct m as [x f]
  | m : mat |- _ => let x := fresh "p" in let y := fresh "p" in let z := fresh "p" in
      let w := fresh "p" in destruct m as [x y z w]
  | m : vec4 |- _ => let x := fresh "q" in let y := fresh "q" in let z := fresh "q" in
      let w := fresh "q" in destruct m as [x y z w] end.
Ltac mcbn := cbn [arr is2d col1 col2 col3 col4 v1 v2 v3 v4 m11 m12 m13 m14 m21 m22 m23 m24
  m31 m32 m33 m34 m41 m42 m43 m44 mat_vec mat_mul matrix3d matrix2d mat_id act vec_scale mat_scale
  flag2d] in *.
Ltac msplit := repeat match goal with |- _ /\ _ => split end.

Lemma veq_refl p : veq p p. Proof. repeat split; reflexivity. Qed.
Lemma meq_refl a : meq a a. Proof. repeat split; reflexivity. Qed.
Lemma veq_sym p q : veq p q -> veq q p.
Proof. intros (A & B & C & D); repeat split; symmetry; assumption. Qed.
Lemma veq_trans p q r : veq p q -> veq q r -> veq p r.
Proof. intros (A & B & C & D) (A' & B' & C' & D'); repeat split; etransitivity; eassumption. Qed.
Lemma meq_sym p q : meq p q -> meq q p.
Proof. intros (A & B & C & D); split; [|split; [|split]]; apply veq_sym; assumption. Qed.
Lemma meq_trans p q r : meq p q -> meq q r -> meq p r.
Proof. intros (A & B & C & D) (A' & B' & C' & D'); split; [|split; [|split]]; eapply veq_trans; eassumption. Qed.

Global Instance veq_equiv : Equivalence veq.
Proof. split; [exact veq_refl|exact veq_sym|exact veq_trans]. Qed.
Global Instance meq_equiv : Equivalence meq.
Proof. split; [exact meq_refl|exact meq_sym|exact meq_trans]. Qed.

Global Instance mat_vec_proper : Proper (meq ==> veq ==> veq) mat_vec.
Proof.
  intros a b (A & B & C & D) p q (E & F & G & H).
  destruct A as (A1 & A2 & A3 & A4), B as (B1 & B2 & B3 & B4),
    C as (C1 & C2 & C3 & C4), D as (D1 & D2 & D3 & D4).
  repeat split; mcbn; unfold m11, m12, m13, m14, m21, m22, m23, m24, m31, m32, m33, m34,
    m41, m42, m43, m44;
    rewrite ?A1, ?A2, ?A3, ?A4, ?B1, ?B2, ?B3, ?B4, ?C1, ?C2, ?C3, ?C4, ?D1, ?D2, ?D3, ?D4,
      ?E, ?F, ?G, ?H; reflexivity.
Qed.
Global Instance mat_mul_proper : Proper (meq ==> meq ==> meq) mat_mul.
Proof.
  intros a b Hab p q (A & B & C & D).
  split; [|split; [|split]]; cbn [col1 col2 col3 col4 mat_mul]; apply mat_vec_proper; assumption.
Qed.

Lemma act_mat_vec m p : act m p = mat_vec m p. Proof. reflexivity. Qed.

Lemma mul_vec a b p : veq (mat_vec (mat_mul a b) p) (mat_vec a (mat_vec b p)).
Proof.
  mdestr; repeat split;
  cbv [mat_vec mat_mul v1 v2 v3 v4 col1 col2 col3 col4
    m11 m12 m13 m14 m21 m22 m23 m24 m31 m32 m33 m34 m41 m42 m43 m44]; ring.
Qed.

Lemma mul_assoc a b c : meq (mat_mul (mat_mul a b) c) (mat_mul a (mat_mul b c)).
Proof. split; [|split; [|split]]; apply mul_vec. Qed.

Ltac mexp := cbv [mat_vec mat_mul v1 v2 v3 v4 col1 col2 col3 col4 mat_id matrix2d matrix3d
    m11 m12 m13 m14 m21 m22 m23 m24 m31 m32 m33 m34 m41 m42 m43 m44
    adj det s0 s1 s2 s3 s4 s5 t0 t1 t2 t3 t4 t5 minor mat_scale vec_scale act arr is2d] in *.

Lemma id_vec p : veq (mat_vec mat_id p) p.
Proof. mdestr; repeat split; mexp; ring. Qed.
Lemma mul_id_l a : meq (mat_mul mat_id a) a.
Proof. split; [|split; [|split]]; apply id_vec. Qed.
Lemma mul_id_r a : meq (mat_mul a mat_id) a.
Proof. mdestr; repeat split; mexp; ring. Qed.

(** two matrices with the same action on points are equal *)
Lemma act_ext a b : (forall p, veq (act a p) (act b p)) -> meq a b.
Proof.
  intros H.
  pose proof (H (V4 1 0 0 0)) as (A1 & A2 & A3 & A4).
  pose proof (H (V4 0 1 0 0)) as (B1 & B2 & B3 & B4).
  pose proof (H (V4 0 0 1 0)) as (C1 & C2 & C3 & C4).
  pose proof (H (V4 0 0 0 1)) as (D1 & D2 & D3 & D4).
  clear H. mdestr. mexp. repeat split; cbn; lra.
Qed.

Lemma mul_adj_r m : meq (mat_mul m (adj m)) (mat_scale (det m) mat_id).
Proof. mdestr; repeat split; mexp; ring. Qed.
Lemma mul_adj_l m : meq (mat_mul (adj m) m) (mat_scale (det m) mat_id).
Proof. mdestr; repeat split; mexp; ring. Qed.

Lemma mul_scale_r k a b : meq (mat_mul a (mat_scale k b)) (mat_scale k (mat_mul a b)).
Proof. mdestr; repeat split; mexp; ring. Qed.
Lemma mul_scale_l k a b : meq (mat_mul (mat_scale k a) b) (mat_scale k (mat_mul a b)).
Proof. mdestr; repeat split; mexp; ring. Qed.
Lemma scale_inv k : ~ k == 0 -> meq (mat_scale (/ k) (mat_scale k mat_id)) mat_id.
Proof. intros H; repeat split; mexp; field; exact H. Qed.
Global Instance mat_scale_proper : Proper (Qeq ==> meq ==> meq) mat_scale.
Proof.
  intros k k' Hk a b (A & B & C & D).
  destruct A as (A1 & A2 & A3 & A4), B as (B1 & B2 & B3 & B4),
    C as (C1 & C2 & C3 & C4), D as (D1 & D2 & D3 & D4).
  repeat split; cbn; rewrite Hk, ?A1, ?A2, ?A3, ?A4, ?B1, ?B2, ?B3, ?B4, ?C1, ?C2, ?C3, ?C4,
    ?D1, ?D2, ?D3, ?D4; reflexivity.
Qed.

Lemma np_inv_spec m i : np_inv m = Ok i ->
  meq (mat_mul m i) mat_id /\ meq (mat_mul i m) mat_id.
Proof.
  unfold np_inv. destruct (Qeqb_spec (det m) 0) as [H|H]; [discriminate|].
  intros E; injection E as <-. split.
  - rewrite mul_scale_r, mul_adj_r. now apply scale_inv.
  - rewrite mul_scale_l, mul_adj_l. now apply scale_inv.
Qed.

Lemma det_mul a b : det (mat_mul a b) == det a * det b.
Proof. mdestr; mexp; ring. Qed.
Lemma det_id : det mat_id == 1.
Proof. reflexivity. Qed.
Global Instance det_proper : Proper (meq ==> Qeq) det.
Proof.
  intros a b (A & B & C & D).
  destruct A as (A1 & A2 & A3 & A4), B as (B1 & B2 & B3 & B4),
    C as (C1 & C2 & C3 & C4), D as (D1 & D2 & D3 & D4).
  mdestr; cbn in *. mexp. rewrite A1, A2, A3, A4, B1, B2, B3, B4, C1, C2, C3, C4, D1, D2, D3, D4.
  reflexivity.
Qed.

Lemma singular_no_inverse m : det m == 0 -> forall i, ~ meq (mat_mul m i) mat_id.
Proof.
  intros H i E. apply det_proper in E. rewrite det_mul, H, det_id in E. lra.
Qed.

Lemma np_inv_error m : (exists e, np_inv m = Err e) <-> ~ exists i, meq (mat_mul m i) mat_id.
Proof.
  unfold np_inv. destruct (Qeqb_spec (det m) 0) as [H|H].
  - split; [|eauto]. intros _ (i & Hi). eapply singular_no_inverse; eauto.
  - split; [intros (e & He); discriminate|]. intros Hn; exfalso; apply Hn.
    exists (mat_scale (/ det m) (adj m)). rewrite mul_scale_r, mul_adj_r. now apply scale_inv.
Qed.

Lemma inverse_unique m i j : meq (mat_mul m i) mat_id -> meq (mat_mul j m) mat_id -> meq i j.
Proof.
  intros H1 H2. rewrite <- (mul_id_l i), <- H2, mul_assoc, H1. apply mul_id_r.
Qed.

(** *** the 2D flag *)
Lemma two_d_mul a b : two_d a -> two_d b -> two_d (mat_mul a b).
Proof.
  intros (A1&A2&A3&A4&A5&A6&A7&A8&A9&A10) (B1&B2&B3&B4&B5&B6&B7&B8&B9&B10).
  mdestr; mexp. unfold two_d; cbn.
  rewrite A1, A2, A3, A4, A5, A6, A7, A8, A9, A10.
  mexp. rewrite B1, B2, B3, B4, B5, B6, B7, B8, B9, B10.
  repeat split; ring.
Qed.
Lemma two_d_matrix2d a b c d e f : two_d (matrix2d a b c d e f).
Proof. repeat split. Qed.

Lemma two_d_adj m : two_d m -> let a := adj m in
  m13 a == 0 /\ m14 a == 0 /\ m23 a == 0 /\ m24 a == 0 /\ m31 a == 0 /\ m32 a == 0 /\
  m33 a == det m /\ m34 a == 0 /\ m43 a == 0 /\ m44 a == det m.
Proof.
  intros (A1&A2&A3&A4&A5&A6&A7&A8&A9&A10). mdestr; mexp.
  rewrite A1, A2, A3, A4, A5, A6, A7, A8, A9, A10. repeat split; ring.
Qed.

Lemma two_d_inv m i : two_d m -> np_inv m = Ok i -> two_d i.
Proof.
  intros Hm. apply two_d_adj in Hm. cbn zeta in Hm. revert Hm.
  unfold np_inv. destruct (Qeqb_spec (det m) 0) as [H|H]; [discriminate|].
  intros (A1&A2&A3&A4&A5&A6&A7&A8&A9&A10) E; injection E as <-.
  unfold two_d.
  change (m13 (mat_scale (/ det m) (adj m))) with (/ det m * m13 (adj m)).
  change (m14 (mat_scale (/ det m) (adj m))) with (/ det m * m14 (adj m)).
  change (m23 (mat_scale (/ det m) (adj m))) with (/ det m * m23 (adj m)).
  change (m24 (mat_scale (/ det m) (adj m))) with (/ det m * m24 (adj m)).
  change (m31 (mat_scale (/ det m) (adj m))) with (/ det m * m31 (adj m)).
  change (m32 (mat_scale (/ det m) (adj m))) with (/ det m * m32 (adj m)).
  change (m33 (mat_scale (/ det m) (adj m))) with (/ det m * m33 (adj m)).
  change (m34 (mat_scale (/ det m) (adj m))) with (/ det m * m34 (adj m)).
  change (m43 (mat_scale (/ det m) (adj m))) with (/ det m * m43 (adj m)).
  change (m44 (mat_scale (/ det m) (adj m))) with (/ det m * m44 (adj m)).
  rewrite A1, A2, A3, A4, A5, A6, A7, A8, A9, A10.
  repeat split; field; exact H.
Qed.

Lemma truthful_intro (m : dmat) : (is2d m = true -> two_d (arr m)) -> truthful m.
Proof. exact (fun H => H). Qed.

Lemma truthful_set m e v : truthful m -> truthful (set_elem m e v).
Proof.
  intros H. unfold truthful in *. destruct m as [[c1 c2 c3 c4] f]; cbn in *.
  destruct e; cbn; intros Hf; try (apply andb_prop in Hf as [Hf Hv]; apply Qeq_bool_iff in Hv);
    specialize (H Hf); unfold two_d in *; mexp; cbn in *; tauto.
Qed.

Lemma truthful_translate m x y z : truthful m -> truthful (translate_self m x y z).
Proof.
  intros H. unfold translate_self. destruct (_ && _ && _); [exact H|].
  intros Hf; cbn in *. apply andb_prop in Hf as [Hf Hz]. apply Qeq_bool_iff in Hz.
  apply two_d_mul; [now apply H|]. repeat split; mexp; first [reflexivity|exact Hz].
Qed.

Lemma truthful_scale m sx sy sz x y z : truthful m -> truthful (scale_self m sx sy sz x y z).
Proof.
  intros H. unfold scale_self. set (sy' := match sy with Some v => v | None => sx end).
  destruct (_ && _ && _); [exact H|].
  set (mv := negb _). set (m1 := if mv then _ else m).
  assert (H1 : truthful m1) by (unfold m1; destruct mv; [now apply truthful_translate|exact H]).
  assert (H2 : truthful (DM (mat_mul (arr m1) (matrix3d sx 0 0 0 0 sy' 0 0 0 0 sz 0 0 0 0 1))
              (is2d m1 && (sz =?q 1) && (z =?q 0)))).
  { intros Hf; cbn in *. apply andb_prop in Hf as [Hf Hz]. apply andb_prop in Hf as [Hf Hs].
    apply Qeq_bool_iff in Hs.
    apply two_d_mul; [now apply H1|]. repeat split; mexp; first [reflexivity|exact Hs]. }
  destruct mv; [now apply truthful_translate|exact H2].
Qed.

Lemma sqrt_ok_len o x y z : sqrt_ok o -> x == 0 -> y == 0 ->
  let l := osqrt o (x * x + y * y + z * z) in l * l == z * z.
Proof.
  intros Ho Hx Hy; cbn zeta. destruct (Qlt_le_dec z 0) as [Hz|Hz].
  - rewrite (Ho _ (- z)); [ring|lra|rewrite Hx, Hy; ring].
  - rewrite (Ho _ z); [ring|lra|rewrite Hx, Hy; ring].
Qed.

Lemma two_d_rot x y z c s : x == 0 -> y == 0 -> z * z == 1 -> two_d (rot_matrix x y z c s).
Proof.
  intros Hx Hy Hz. unfold rot_matrix.
  destruct (Qeqb_spec x 0) as [_|]; [|contradiction].
  destruct (Qeqb_spec y 0) as [_|]; [|contradiction].
  destruct (Qeqb_spec x 1) as [H1|_]; [exfalso; lra|].
  destruct (Qeqb_spec y 1) as [H1|_]; [exfalso; lra|]. cbn [andb].
  destruct (Qeqb_spec z 1); [repeat split|].
  repeat split; mexp; rewrite ?Hx, ?Hy, ?Hz; ring.
Qed.

Lemma truthful_rot_axis o m x y z a : sqrt_ok o -> truthful m ->
  truthful (rotate_axis_angle_self o m x y z a).
Proof.
  intros Ho H. unfold rotate_axis_angle_self.
  set (l := osqrt o (x * x + y * y + z * z)).
  destruct (Qeqb_spec l 0) as [|Hl]; [exact H|].
  assert (Hsq : x == 0 -> y == 0 -> l * l == z * z) by (intros; now apply sqrt_ok_len).
  destruct (Qeqb_spec l 1) as [H1|H1]; intros Hf; cbn in Hf |- *;
    apply andb_prop in Hf as [Hf Hy]; apply andb_prop in Hf as [Hf Hx];
    apply Qeq_bool_iff in Hx; apply Qeq_bool_iff in Hy;
    (apply two_d_mul; [now apply H|apply two_d_rot; try assumption]).
  - rewrite <- Hsq by assumption. rewrite H1; ring.
  - assert (Ex : x == 0). { setoid_replace x with (x / l * l) by (field; exact Hl). rewrite Hx; ring. }
    assert (Ey : y == 0). { setoid_replace y with (y / l * l) by (field; exact Hl). rewrite Hy; ring. }
    setoid_replace (z / l * (z / l)) with (z * z / (l * l)) by (field; exact Hl).
    rewrite <- (Hsq Ex Ey). field; exact Hl.
Qed.

Lemma truthful_flag m : truthful (flag2d m false).
Proof. unfold truthful, flag2d; cbn. rewrite andb_false_r; discriminate. Qed.

Lemma truthful_rotate o m x y z : sqrt_ok o -> truthful m -> truthful (rotate_self o m x y z).
Proof.
  intros Ho H. unfold rotate_self.
  destruct (z =?q 0), (y =?q 0), (x =?q 0); try apply truthful_flag; try exact H;
    now apply truthful_rot_axis.
Qed.

(** operands of multiply_self are matrix objects themselves *)
Definition op_truthful (op : mat_op) : Prop :=
  match op with MMul x => truthful x | _ => True end.

Lemma truthful_step o m op : sqrt_ok o -> op_truthful op -> truthful m -> truthful (mat_step o m op).
Proof.
  intros Ho Hop H. destruct op; cbn in *.
  - now apply truthful_set.
  - intros _. apply two_d_matrix2d.
  - intros Hf; cbn in *. apply andb_prop in Hf as [H1 H2]. apply two_d_mul; auto.
  - unfold invert_self. destruct (np_inv (arr m)) eqn:E; cbn; [|exact H].
    intros Hf; cbn in *. eapply two_d_inv; eauto.
  - now apply truthful_translate.
  - now apply truthful_scale.
  - now apply truthful_scale.
  - intros Hf; cbn in *. apply two_d_mul; [auto|repeat split].
  - intros Hf; cbn in *. apply two_d_mul; [auto|repeat split].
  - now apply truthful_rotate.
  - now apply truthful_rot_axis.
Qed.

Lemma truthful_history o ops m : sqrt_ok o -> Forall op_truthful ops -> truthful m ->
  truthful (runs (mat_step o) ops m).
Proof.
  intros Ho Hops. revert m. induction Hops as [|op ops Hop Hops IH]; intros m Hm; cbn; [exact Hm|].
  apply IH. now apply truthful_step.
Qed.

Lemma truthful_array l m : init_from_array l = Ok m -> truthful m.
Proof.
  unfold init_from_array. intros H.
  do 17 (destruct l as [|? l];
    [try discriminate H; injection H as <-; intros Hf; try discriminate Hf; apply two_d_matrix2d|]).
  discriminate H.
Qed.

Lemma nondefault_false x d : nondefault x d = false -> pick x None d == d.
Proof.
  destruct x as [v|]; cbn; [|reflexivity]. intros H.
  apply negb_false_iff in H. now apply Qeq_bool_iff in H.
Qed.

Lemma truthful_kwargs k m : init_from_matrix k = Ok m -> truthful m.
Proof.
  unfold init_from_matrix. destruct (_ || _); [discriminate|]. destruct (kextra k); [discriminate|].
  destruct (_ || nondefault (k44 k) 1); destruct (kis2d k) as [[]|]; intros H; try discriminate;
    injection H as <-; intros Hf; try discriminate; apply two_d_matrix2d.
Qed.

(** *** export and import *)
Lemma two_d_drop a : two_d a -> meq (matrix2d (m11 a) (m12 a) (m21 a) (m22 a) (m41 a) (m42 a)) a.
Proof.
  intros (A1&A2&A3&A4&A5&A6&A7&A8&A9&A10). mdestr; mexp.
  repeat split; cbn; try reflexivity; symmetry; assumption.
Qed.

Lemma tolist_roundtrip m : truthful m ->
  exists m', init_from_array (tolist m) = Ok m' /\ deq m' m.
Proof.
  intros H. destruct m as [a f]; unfold tolist; cbn. destruct f; cbn.
  - eexists; split; [reflexivity|]. split; [|reflexivity]. apply two_d_drop. now apply H.
  - eexists; split; [reflexivity|]. split; [|reflexivity]. destruct a as [[] [] [] []]; apply meq_refl.
Qed.

Lemma float_array_roundtrip m :
  exists m', init_from_array (to_float_array m) = Ok m' /\ meq (arr m') (arr m) /\ is2d m' = false.
Proof.
  destruct m as [a f]; cbn. eexists; split; [reflexivity|]. split; [|reflexivity].
  destruct a as [[] [] [] []]; apply meq_refl.
Qed.

Lemma json_roundtrip m : truthful m ->
  exists m', init_from_matrix (tojson m) = Ok m' /\ deq m' m.
Proof.
  intros H. destruct m as [a f]; unfold tojson; cbn. destruct f; unfold init_from_matrix; cbn.
  - eexists; split; [reflexivity|]. split; [|reflexivity]. apply two_d_drop. now apply H.
  - eexists; split; [reflexivity|]. split; [|reflexivity]. destruct a as [[] [] [] []]; apply meq_refl.
Qed.

Lemma array_length l : (exists m, init_from_array l = Ok m) <-> (length l = 6 \/ length l = 16)%nat.
Proof.
  split.
  - intros (m & H). unfold init_from_array in H.
    do 17 (destruct l as [|? l]; [first [discriminate H|cbn; auto]|]). discriminate H.
  - intros H. do 17 (destruct l as [|? l]; [first [eexists; reflexivity|cbn in H; lia]|]).
    cbn in H; lia.
Qed.

(** keyword constructor: entries given are the entries got, aliases agree *)
Definition kw_entry (x : option Q) (d v : Q) : Prop :=
  match x with Some q => v == q | None => v == d end.
Definition kw_alias (x y : option Q) (d v : Q) : Prop :=
  match x, y with
  | Some p, Some q => p == q /\ v == p
  | Some p, None | None, Some p => v == p
  | None, None => v == d
  end.

Lemma conflict_false_alias x y d : conflict y x = false -> kw_alias x y d (pick x y d).
Proof.
  destruct x, y; cbn; intros H; try reflexivity.
  apply negb_false_iff in H. apply Qeq_bool_iff in H. split; [symmetry; exact H|reflexivity].
Qed.
Lemma kw_entry_pick x d : kw_entry x d (pick x None d).
Proof. destruct x; cbn; reflexivity. Qed.
Lemma kw_entry_default x d : nondefault x d = false -> kw_entry x d d.
Proof.
  destruct x; cbn; [|reflexivity]. intros H.
  apply negb_false_iff in H. apply Qeq_bool_iff in H. symmetry; exact H.
Qed.

Lemma kwargs_entries k m : init_from_matrix k = Ok m -> let a := arr m in
  kw_alias (k11 k) (ka k) 1 (m11 a) /\ kw_alias (k12 k) (kb k) 0 (m12 a) /\
  kw_alias (k21 k) (kc k) 0 (m21 a) /\ kw_alias (k22 k) (kd k) 1 (m22 a) /\
  kw_alias (k41 k) (ke k) 0 (m41 a) /\ kw_alias (k42 k) (kf k) 0 (m42 a) /\
  kw_entry (k13 k) 0 (m13 a) /\ kw_entry (k14 k) 0 (m14 a) /\
  kw_entry (k23 k) 0 (m23 a) /\ kw_entry (k24 k) 0 (m24 a) /\
  kw_entry (k31 k) 0 (m31 a) /\ kw_entry (k32 k) 0 (m32 a) /\
  kw_entry (k33 k) 1 (m33 a) /\ kw_entry (k34 k) 0 (m34 a) /\
  kw_entry (k43 k) 0 (m43 a) /\ kw_entry (k44 k) 1 (m44 a) /\
  (match kis2d k with Some b => is2d m = b | None => True end).
Proof.
  unfold init_from_matrix.
  destruct (conflict (ka k) (k11 k)) eqn:C1; [discriminate|].
  destruct (conflict (kb k) (k12 k)) eqn:C2; [discriminate|].
  destruct (conflict (kc k) (k21 k)) eqn:C3; [discriminate|].
  destruct (conflict (kd k) (k22 k)) eqn:C4; [discriminate|].
  destruct (conflict (ke k) (k41 k)) eqn:C5; [discriminate|].
  destruct (conflict (kf k) (k42 k)) eqn:C6; [discriminate|]. cbn [orb].
  destruct (kextra k); [discriminate|].
  destruct (_ || nondefault (k44 k) 1) eqn:N.
  - intros H. assert (Hm : exists m', m' = m) by eauto.
    destruct (kis2d k) as [[]|] eqn:K; try discriminate; injection H as <-; cbn;
    repeat split; try (now apply conflict_false_alias); apply kw_entry_pick.
  - repeat (apply orb_false_elim in N; destruct N as [N ?]).
    intros Hm. destruct (kis2d k) as [[]|] eqn:K; injection Hm as <-; cbn;
    repeat split; try (now apply conflict_false_alias);
      first [apply kw_entry_pick | now apply kw_entry_default].
Qed.

Lemma multiply_copy m o : truthful m ->
  exists r, multiply m o = Ok r /\ deq r (multiply_self m o).
Proof.
  intros H. destruct (tolist_roundtrip m H) as (m' & E & Em & Ef).
  unfold multiply. rewrite E; cbn. eexists; split; [reflexivity|].
  split; cbn; [now rewrite Em|now rewrite Ef].
Qed.

Lemma inverse_copy m : truthful m ->
  match inverse m with
  | Ok r => meq (mat_mul (arr m) (arr r)) mat_id /\ meq (mat_mul (arr r) (arr m)) mat_id
            /\ is2d r = is2d m /\ truthful r
  | Err e => e = LinAlgError /\ forall i, ~ meq (mat_mul (arr m) i) mat_id
  end.
Proof.
  intros H. destruct (tolist_roundtrip m H) as (m' & E & Em & Ef).
  unfold inverse. rewrite E; cbn. unfold invert_self.
  destruct (np_inv (arr m')) as [i|e] eqn:I; cbn.
  - pose proof (np_inv_spec _ _ I) as [H1 H2]. rewrite Em in H1, H2.
    split; [exact H1|]. split; [exact H2|]. split; [exact Ef|].
    intros Hf. cbn in *. apply two_d_inv with (m := arr m'); [|exact I].
    apply truthful_array in E. now apply E.
  - assert (e = LinAlgError) as -> by (unfold np_inv in I; destruct (_ =?q _); congruence).
    split; [reflexivity|]. intros i Hi.
    assert (X : exists e, np_inv (arr m') = Err e) by eauto.
    apply np_inv_error in X. apply X. exists i. now rewrite Em.
Qed.

(** *** meaning of the operations *)
Lemma act_translate tx ty tz p :
  veq (act (matrix3d 1 0 0 0 0 1 0 0 0 0 1 0 tx ty tz 1) p) (g_translate tx ty tz p).
Proof. mdestr; unfold g_translate; repeat split; mexp; ring. Qed.

Lemma translate_meaning m tx ty tz p :
  veq (act (arr (translate_self m tx ty tz)) p) (act (arr m) (g_translate tx ty tz p)).
Proof.
  unfold translate_self. destruct (Qeqb_spec tx 0) as [Hx|]; destruct (Qeqb_spec ty 0) as [Hy|];
  destruct (Qeqb_spec tz 0) as [Hz|]; cbn [andb arr];
  try (rewrite !act_mat_vec, mul_vec, <- act_mat_vec, act_translate; reflexivity).
  rewrite !act_mat_vec. apply mat_vec_proper; [reflexivity|].
  unfold g_translate; repeat split; cbn; rewrite ?Hx, ?Hy, ?Hz; ring.
Qed.

Lemma act_proper m p q : veq p q -> veq (act m p) (act m q).
Proof. intros H; rewrite !act_mat_vec; apply mat_vec_proper; [reflexivity|exact H]. Qed.

Lemma scale_meaning m sx sy sz ox oy oz p :
  veq (act (arr (scale_self m sx sy sz ox oy oz)) p)
      (act (arr m) (g_scale sx (match sy with Some v => v | None => sx end) sz ox oy oz p)).
Proof.
  unfold scale_self. set (sy' := match sy with Some v => v | None => sx end).
  destruct (Qeqb_spec sx 1) as [H1|H1]; destruct (Qeqb_spec sy' 1) as [H2|H2];
  destruct (Qeqb_spec sz 1) as [H3|H3]; cbn [andb].
  1: { apply act_proper. unfold g_scale; repeat split; cbn; rewrite ?H1, ?H2, ?H3; ring. }
  all: set (f := is2d _ && _ && _); clearbody f.
  all: destruct (Qeqb_spec ox 0) as [G1|G1]; destruct (Qeqb_spec oy 0) as [G2|G2];
       destruct (Qeqb_spec oz 0) as [G3|G3]; cbn [andb negb].
  all: try (cbn [arr]; rewrite (act_mat_vec (mat_mul _ _)), mul_vec; rewrite <- (act_mat_vec (arr m));
            apply act_proper; unfold g_scale; destruct p; repeat split; mexp; rewrite ?G1, ?G2, ?G3; ring).
  all: rewrite translate_meaning; cbn [arr];
       rewrite (act_mat_vec (mat_mul _ _)), mul_vec, <- (act_mat_vec (arr _)), translate_meaning;
       apply act_proper; unfold g_scale, g_translate; destruct p; repeat split; mexp; ring.
Qed.

Lemma skew_x_meaning o m a p :
  veq (act (arr (skew_x_self o m a)) p) (act (arr m) (g_skew_x (otan o a) p)).
Proof.
  unfold skew_x_self; cbn [arr]. rewrite (act_mat_vec (mat_mul _ _)), mul_vec, <- (act_mat_vec (arr m)).
  apply act_proper; unfold g_skew_x; destruct p; repeat split; mexp; ring.
Qed.
Lemma skew_y_meaning o m a p :
  veq (act (arr (skew_y_self o m a)) p) (act (arr m) (g_skew_y (otan o a) p)).
Proof.
  unfold skew_y_self; cbn [arr]. rewrite (act_mat_vec (mat_mul _ _)), mul_vec, <- (act_mat_vec (arr m)).
  apply act_proper; unfold g_skew_y; destruct p; repeat split; mexp; ring.
Qed.

Lemma rot_matrix_meaning x y z c s p : x * x + y * y + z * z == 1 ->
  veq (act (rot_matrix x y z c s) p) (g_rot x y z c s p).
Proof.
  intros Hu. unfold rot_matrix, g_rot.
  destruct (Qeqb_spec x 0) as [Hx|Hx]; destruct (Qeqb_spec y 0) as [Hy|Hy];
  destruct (Qeqb_spec z 1) as [Hz|Hz]; cbn [andb].
  1: { destruct p; repeat split; mexp; rewrite ?Hx, ?Hy, ?Hz; ring. }
  all: destruct (Qeqb_spec y 1) as [Hy'|Hy']; destruct (Qeqb_spec z 0) as [Hz'|Hz'];
       destruct (Qeqb_spec x 1) as [Hx'|Hx']; cbn [andb];
    try (exfalso; lra);
    try (destruct p; repeat split; mexp; rewrite ?Hx, ?Hy, ?Hz, ?Hx', ?Hy', ?Hz'; ring; fail);
    destruct p; repeat split; mexp; ring.
Qed.
