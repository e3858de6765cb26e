(** C88: matrices with the rounded numbers of Python's floats.  A plan says how
    numpy adds up the four products of an entry; everything below holds for
    every plan that uses each product once, so it does not depend on the order
    or the fused operations of the numpy at hand. *)
From Coq Require Import Qabs Qpower ZArith Lqa Lia Bool List Permutation.
From Verif Require Import PyBase RectModel MatrixModel MatrixSpec MatrixProofs MatrixProofs2 FloatModel FloatSpec FloatProofs FloatProofs2 FloatProofs3 MatFloatModel MatFloatSpec MatFloatProofs MatFloatProofs2.
Import ListNotations.
#[local] Open Scope Q_scope.

(* from left to right; by pairs; with fused additions from the right, starting at zero *)
Definition in_order : plan := PSum (PSum (PSum (PTerm 1) (PTerm 2)) (PTerm 3)) (PTerm 4).
Definition by_pairs : plan := PSum (PSum (PTerm 1) (PTerm 3)) (PSum (PTerm 2) (PTerm 4)).
Definition fused : plan := PFma 1 (PFma 2 (PFma 3 (PFma 4 PZero))).
Example plans_complete : complete in_order /\ complete by_pairs /\ complete fused /\ ~ complete (PSum (PTerm 1) (PTerm 2)).
Proof.
  split; [apply Permutation_refl|]. split; [apply perm_skip, perm_swap|]. split; [apply Permutation_refl|]. intros H. apply Permutation_length in H. discriminate.
Qed.

(** With a rounding that changes nothing these are the methods C05 to C08 are
    about. *)
Theorem c88_exact (pl : nat -> nat -> plan) (pv : nat -> plan) o : (forall c r, complete (pl c r)) -> (forall r, complete (pv r)) -> sqrt_ok o -> let e := fun q : Q => q in
  (forall m x, deq (fmultiply_self e pl m x) (multiply_self m x)) /\ (forall m x y z, deq (ftranslate_self e pl m x y z) (translate_self m x y z))
  /\ (forall m sx sy sz x y z, deq (fscale_self e pl m sx sy sz x y z) (scale_self m sx sy sz x y z))
  /\ (forall m a, deq (fskew_x_self e pl o m a) (skew_x_self o m a) /\ deq (fskew_y_self e pl o m a) (skew_y_self o m a))
  /\ (forall m x y z, deq (frotate_self e pl o m x y z) (rotate_self o m x y z))
  /\ (forall m x y z w, Forall2 Qeq (ftransform_point e pv m x y z w) (transform_point m x y z w)).
Proof.
  intros C D SQ e.
  assert (MUL : forall a b, meq (fmat_mul e pl a b) (mat_mul a b)) by (intros; apply exact_mul; exact C).
  assert (FL : forall m, mfloat e m = m) by apply mfloat_id.
  assert (TR : forall m n x y z, deq m n -> deq (ftranslate_self e pl m x y z) (translate_self n x y z)).
  { intros m n x y z [A F]. unfold ftranslate_self, translate_self. destruct (_ && _ && _); [now split|]. rewrite FL. split; cbn [arr is2d]; [|now rewrite F]. rewrite MUL, A. reflexivity. }
  assert (RF : forall m, deq m m) by (intros m; split; [apply meq_refl|reflexivity]).
  split; [|split; [|split; [|split; [|split]]]].
  - intros m x. split; [apply MUL|reflexivity].
  - intros m x y z. apply TR, RF.
  - intros m sx sy sz x y z. unfold fscale_self, scale_self. set (sy' := match sy with Some v => v | None => sx end). destruct (_ && _ && _); [apply RF|]. set (mv := negb _).
    assert (E1 : deq (if mv then ftranslate_self e pl m x y z else m) (if mv then translate_self m x y z else m)) by (destruct mv; [apply TR|]; apply RF).
    revert E1. generalize (if mv then ftranslate_self e pl m x y z else m) (if mv then translate_self m x y z else m). intros m1 n1 [A F].
    destruct mv; [apply TR|]; rewrite FL; (split; cbn [arr is2d]; [rewrite MUL, A; reflexivity|now rewrite F]).
  - intros m a. unfold fskew_x_self, fskew_y_self. rewrite !FL. split; (split; [apply MUL|reflexivity]).
  - assert (ROT : forall m n x a, deq m n -> deq (frotate_axis e pl o m x a) (match x with AxZ => rotate_axis_angle_self o n 0 0 1 a | AxY => flag2d (rotate_axis_angle_self o n 0 1 0 a) false | AxX => flag2d (rotate_axis_angle_self o n 1 0 0 a) false end)).
    { intros m n x a [A F].
      assert (ONE : forall q, q == 1 -> (osqrt o q =?q 0) = false /\ (osqrt o q =?q 1) = true).
      { intros q Hq. assert (W : osqrt o q == 1) by (apply SQ; lra). destruct (Qeqb_spec (osqrt o q) 0), (Qeqb_spec (osqrt o q) 1); split; try reflexivity; lra. }
      destruct x; unfold rotate_axis_angle_self, frotate_axis.
      - destruct (ONE (1 * 1 + 0 * 0 + 0 * 0) ltac:(ring)) as [-> ->]. rewrite FL. split; cbn [arr is2d flag2d]; [rewrite MUL, A; reflexivity|now rewrite !andb_false_r].
      - destruct (ONE (0 * 0 + 1 * 1 + 0 * 0) ltac:(ring)) as [-> ->]. rewrite FL. split; cbn [arr is2d flag2d]; [rewrite MUL, A; reflexivity|now rewrite !andb_false_r].
      - destruct (ONE (0 * 0 + 0 * 0 + 1 * 1) ltac:(ring)) as [-> ->]. rewrite FL. split; cbn [arr is2d flag2d]; [rewrite MUL, A; reflexivity|]. rewrite F. cbn. now rewrite !andb_true_r. }
    intros m x y z. unfold frotate_self, rotate_self.
    assert (E1 : deq (if z =?q 0 then m else frotate_axis e pl o m AxZ z) (if z =?q 0 then m else rotate_axis_angle_self o m 0 0 1 z)) by (destruct (z =?q 0); [apply RF|apply (ROT m m AxZ z), RF]).
    revert E1. generalize (if z =?q 0 then m else frotate_axis e pl o m AxZ z) (if z =?q 0 then m else rotate_axis_angle_self o m 0 0 1 z). intros m1 n1 E1.
    assert (E2 : deq (if y =?q 0 then m1 else frotate_axis e pl o m1 AxY y) (if y =?q 0 then n1 else flag2d (rotate_axis_angle_self o n1 0 1 0 y) false)) by (destruct (y =?q 0); [exact E1|apply (ROT m1 n1 AxY y), E1]).
    revert E2. generalize (if y =?q 0 then m1 else frotate_axis e pl o m1 AxY y) (if y =?q 0 then n1 else flag2d (rotate_axis_angle_self o n1 0 1 0 y) false). intros m2 n2 E2.
    destruct (x =?q 0); [exact E2|apply (ROT m2 n2 AxX x), E2].
  - intros m x y z w. unfold ftransform_point, transform_point. change (vfloat e (V4 x y z w)) with (V4 x y z w). destruct (exact_vec pv (arr m) (V4 x y z w) D) as (V1 & V2 & V3 & V4').
    destruct (is2d m && (z =?q 0) && (w =?q 1)); repeat constructor; assumption.
Qed.
Print Assumptions c88_exact.
Example c88_exact_case : sqrt_ok quarter_oracle /\ Forall2 Qeq (ftransform_point (fun q => q) (fun _ => fused) (fmat_step (fun q => q) (fun _ _ => by_pairs) quarter_oracle (DM mat_id true) (FRotate 0 0 90)) 3 4 0 1) [-(4); 3].
Proof. split; [exact (proj1 quarter_basic)|]. repeat constructor. Qed.

(** ** Errors *)
(** An entry of a product is off by at most (1+u)^4 - 1 of the sum of the sizes
    of its products, and so is a coordinate of a transformed point; for floats
    that is less than five units in the 53rd digit. *)
Theorem c88_error f u pl pv a b p : rounding f u -> 0 <= u -> (forall c r, complete (pl c r)) -> (forall r, complete (pv r)) ->
  mnear ((1 + u) ^ 4 - 1) (fmat_mul f pl a b) (mat_mul a b) (mat_mul (msize a) (msize b))
  /\ vnear ((1 + u) ^ 4 - 1) (fmat_vec f pv a p) (mat_vec a p) (mat_vec (msize a) (vsize p))
  /\ (1 + (1#2) ^ 53) ^ 4 - 1 <= 5 * (1#2) ^ 53.
Proof.
  intros R U C D. assert (G := grow_pow u 4 U). cbn [Z.of_nat] in G. split; [|split].
  - intros r c. rewrite <- G. now apply product_error.
  - intros r. rewrite <- G. now apply point_error.
  - vm_compute. discriminate.
Qed.
Print Assumptions c88_error.
(* thirds of seven: neither an error nothing, nor over the bound *)
Example c88_error_case : let a := mfloat fl (matrix2d (1#3) 0 0 1 (1#7) 0) in
  (0 <?q Qabs (entry (fmat_mul fl (fun _ _ => in_order) a a) 1 4 - entry (mat_mul a a) 1 4)) = true
  /\ (Qabs (entry (fmat_mul fl (fun _ _ => in_order) a a) 1 4 - entry (mat_mul a a) 1 4) <=?q 5 * (1#2) ^ 53 * entry (mat_mul (msize a) (msize a)) 1 4) = true.
Proof. split; [vm_compute; reflexivity|vm_compute; reflexivity]. Qed.

(** Any number of products one after another: the parts multiply up. *)
Theorem c88_history f u pl rs m : rounding f u -> 0 <= u -> (forall c r, complete (pl c r)) ->
  mnear ((1 + u) ^ Z.of_nat (4 * length rs) - 1) (arr (fold_left (fmultiply_self f pl) rs m))
    (fold_left (fun a r => mat_mul a (arr r)) rs (arr m)) (fold_left (fun a r => mat_mul a (msize (arr r))) rs (msize (arr m))).
Proof.
  intros R U C r c. assert (G := grow_pow u (4 * length rs) U). rewrite <- G.
  assert (W := history_error f u pl rs R U C m (arr m) (msize (arr m)) 1 (Qle_refl 1)). setoid_replace (grow u (4 * length rs) - 1) with (1 * grow u (4 * length rs) - 1) by ring. apply W.
  - intros r' c'. rewrite entry_size. apply Qle_refl.
  - intros r' c'. setoid_replace (entry (arr m) r' c' - entry (arr m) r' c') with 0 by ring. setoid_replace ((1 - 1) * entry (msize (arr m)) r' c') with 0 by ring. apply Qle_refl.
Qed.
Print Assumptions c88_history.
(* three products of floats are good to 14 digits, relative to the sizes *)
Example c88_history_case : ((1 + (1#2) ^ 53) ^ Z.of_nat (4 * 3) - 1 <=?q 1 # 200000000000000) = true.
Proof. vm_compute. reflexivity. Qed.

(** Multiplying first or transforming twice: both ways are within
    (1+u)^8 - 1 of the exact point. *)
Theorem c88_compose f u pl pv a b p : rounding f u -> 0 <= u -> (forall c r, complete (pl c r)) -> (forall r, complete (pv r)) ->
  let s := mat_vec (mat_mul (msize a) (msize b)) (vsize p) in
  vnear ((1 + u) ^ 8 - 1) (fmat_vec f pv (fmat_mul f pl a b) p) (mat_vec a (mat_vec b p)) s
  /\ vnear ((1 + u) ^ 8 - 1) (fmat_vec f pv a (fmat_vec f pv b p)) (mat_vec a (mat_vec b p)) s.
Proof.
  intros R U C D s. assert (G := grow_pow u 8 U). cbn [Z.of_nat] in G. change (Z.of_nat 8) with 8%Z in G. assert (G4 := grow_ge u 4 U).
  assert (G8 : (1 + u) ^ 8 == grow u 4 * grow u 4) by (rewrite <- G, <- grow_add; reflexivity).
  assert (E := mul_vec a b p). rewrite veq_get in E.
  split; intros r; rewrite G8.
  - rewrite <- (E r). destruct (vget_fvec f pv (fmat_mul f pl a b) p r) as (k & ->). unfold s. rewrite !vget_vec.
    rewrite (dot_ext (entry (mat_mul (msize a) (msize b)) r) (vget (vsize p)) (entry (mat_mul (msize a) (msize b)) r) (fun i => Qabs (vget p i))) by (intros; rewrite ?vget_size; reflexivity).
    apply (dot_error2 f u); auto.
    + intros i. rewrite !entry_mul. eapply Qle_trans; [apply dot_abs|].
      rewrite (dot_ext (entry (msize a) r) (fun j => entry (msize b) j i) (fun j => Qabs (entry a r j)) (fun j => Qabs (entry b j i))) by (intros; rewrite entry_size; reflexivity). apply Qle_refl.
    + intros i. apply (product_error f u pl a b R U C r i).
  - assert (SV := mul_vec (msize a) (msize b) (vsize p)). rewrite veq_get in SV. unfold s. rewrite (SV r).
    destruct (vget_fvec f pv a (fmat_vec f pv b p) r) as (k & ->). rewrite !vget_vec.
    (* swap the roles of row and column *)
    assert (SW : forall x y q, eval f x y q == eval f y x q). { intros x y q. induction q as [|i|q1 IH1 q2 IH2|i q IH]; cbn; [reflexivity|..]; apply (r_proper f u R); [ring|rewrite IH1, IH2; reflexivity|rewrite IH; ring]. }
    assert (DS : forall x y, dot x y == dot y x) by (intros; unfold dot; ring).
    rewrite SW, (DS (entry a r)), (DS (entry (msize a) r)).
    rewrite (dot_ext (vget (mat_vec (msize b) (vsize p))) (entry (msize a) r) (vget (mat_vec (msize b) (vsize p))) (fun i => Qabs (entry a r i))) by (intros; rewrite ?entry_size; reflexivity).
    apply (dot_error2 f u); auto.
    + intros i. rewrite !vget_vec. eapply Qle_trans; [apply dot_abs|].
      rewrite (dot_ext (entry (msize b) i) (vget (vsize p)) (fun j => Qabs (entry b i j)) (fun j => Qabs (vget p j))) by (intros; rewrite ?entry_size, ?vget_size; reflexivity). apply Qle_refl.
    + intros i. apply (point_error f u pv b p R U D i).
Qed.
Print Assumptions c88_compose.
(* the two ways do differ *)
Example c88_compose_case : let a := mfloat fl (matrix2d (11#10) 0 0 1 (3#10) 0) in let p := V4 (fl (7#10)) 0 0 1 in
  (vget (fmat_vec fl (fun _ => in_order) (fmat_mul fl (fun _ _ => in_order) a a) p) 1 =?q vget (fmat_vec fl (fun _ => in_order) a (fmat_vec fl (fun _ => in_order) a p)) 1) = false.
Proof. vm_compute. reflexivity. Qed.

(** ** What rounding leaves exact *)
(** Results are numbers the rounding keeps, and such arrays times the identity,
    on either side, are unchanged. *)
Theorem c88_identity f u pl pv a b x y z w : rounding f u -> f 1 == 1 -> (forall c r, complete (pl c r)) -> (forall r, complete (pv r)) ->
  mkept f (fmat_mul f pl a b) /\ (mkept f a -> meq (fmat_mul f pl a mat_id) a /\ meq (fmat_mul f pl mat_id a) a)
  /\ (forall g, f x == x -> f y == y -> f z == z -> f w == w -> Forall2 Qeq (ftransform_point f pv (DM mat_id g) x y z w) (if g && (z =?q 0) && (w =?q 1) then [x; y] else [x; y; z; w])).
Proof.
  intros R F1 C D. split; [now apply (fmul_kept f u)|]. split; [intros K; split; [now apply (identity_right f u)|now apply (identity_left f u)]|].
  intros g X Y Z W. unfold ftransform_point. cbn [arr is2d]. set (v := vfloat f (V4 x y z w)).
  assert (V : veq v (V4 x y z w)) by (repeat split; assumption).
  assert (E : forall r, vget (fmat_vec f pv mat_id v) r == vget v r).
  { intros r. rewrite vget_entry. change mat_id with (diag 1 1 1 1). rewrite (diag_left f u _ (M4 v v v v) 1 1 1 1 r 1 R) by (intros; apply D).
    rewrite (r_proper f u R _ (vget v r)); [unfold v; destruct r as [|[|[|[|r]]]]; cbn; apply (r_idem f u R)|]. unfold entry. destruct r as [|[|[|[|r]]]]; cbn; ring. }
  assert (E1 := E 1%nat). assert (E2 := E 2%nat). assert (E3 := E 3%nat). assert (E4 := E 4%nat). destruct V as (V1 & V2 & V3 & V4').
  cbn [vget v1 v2 v3 v4] in E1, E2, E3, E4, V1, V2, V3, V4'. destruct (g && (z =?q 0) && (w =?q 1)); repeat constructor; (etransitivity; [eassumption|assumption]).
Qed.
Print Assumptions c88_identity.
Example c88_identity_case : fl 1 == 1 /\ fl (1#4) == 1#4 /\ mkept fl (mfloat fl (matrix2d (1#3) 2 3 4 5 6)) /\ ~ mkept fl (matrix2d (1#3) 2 3 4 5 6).
Proof. split; [reflexivity|]. split; [reflexivity|]. split; [apply (mfloat_kept fl _ _ fl_rounding)|]. intros H. assert (W := H 1%nat 1%nat). vm_compute in W. discriminate. Qed.

(** Translating leaves the first three columns alone; after translations
    alone, an edge is the rounded sum; there and back from the identity is the
    identity. *)
Theorem c88_translate f u pl m tx ty tz : rounding f u -> f 1 == 1 -> (forall c r, complete (pl c r)) -> mkept f (arr m) ->
  let n := arr (ftranslate_self f pl m tx ty tz) in
  veq (col1 n) (col1 (arr m)) /\ veq (col2 n) (col2 (arr m)) /\ veq (col3 n) (col3 (arr m))
  /\ (forall x y z g, meq (arr m) (matrix3d 1 0 0 0 0 1 0 0 0 0 1 0 x y z 1) -> veq (col4 n) (V4 (f (x + f tx)) (f (y + f ty)) (f (z + f tz)) 1)
      /\ isidentity (ftranslate_self f pl (ftranslate_self f pl (DM mat_id g) tx ty tz) (- tx) (- ty) (- tz)) = true).
Proof.
  intros R F1 C K n.
  assert (F0 := r_zero f u R).
  assert (COL : forall (k : dmat) sx sy sz, mkept f (arr k) -> forall r c, (c = 1 \/ c = 2 \/ c = 3)%nat -> entry (arr (ftranslate_self f pl k sx sy sz)) r c == entry (arr k) r c).
  { intros k sx sy sz Kk r c Hc. unfold ftranslate_self. destruct (_ && _ && _); [reflexivity|]. cbn [arr].
    rewrite (entry_one f u pl _ _ r c c R C) by (first [intuition; fail | four; destruct Hc as [-> |[-> | ->]]; unfold entry; cbn; intros; try congruence; rewrite F0; ring]).
    rewrite (r_proper f u R _ (entry (arr k) r c)); [apply Kk|]. destruct Hc as [-> |[-> | ->]]; unfold entry; cbn; rewrite F1; ring. }
  assert (ADD : forall (k : dmat) sx sy sz x y z, mkept f (arr k) -> meq (arr k) (matrix3d 1 0 0 0 0 1 0 0 0 0 1 0 x y z 1) -> veq (col4 (arr (ftranslate_self f pl k sx sy sz))) (V4 (f (x + f sx)) (f (y + f sy)) (f (z + f sz)) 1)).
  { intros k sx sy sz x y z Kk E. rewrite meq_entry in E.
    assert (E' : forall i j v, entry (matrix3d 1 0 0 0 0 1 0 0 0 0 1 0 x y z 1) i j = v -> entry (arr k) i j == v) by (intros i j v <-; apply E).
    assert (KP : forall i j v, entry (arr k) i j == v -> f v == v) by (intros i j v H; rewrite <- (r_proper f u R _ _ H), <- H; apply Kk).
    assert (X : f x == x) by exact (KP 1%nat 4%nat x (E' 1%nat 4%nat x eq_refl)).
    assert (Y : f y == y) by exact (KP 2%nat 4%nat y (E' 2%nat 4%nat y eq_refl)).
    assert (Z : f z == z) by exact (KP 3%nat 4%nat z (E' 3%nat 4%nat z eq_refl)).
    unfold ftranslate_self. destruct ((sx =?q 0) && (sy =?q 0) && (sz =?q 0)) eqn:Z0.
    - apply andb_prop in Z0 as [Z0 Zz]. apply andb_prop in Z0 as [Zx Zy]. apply Qeq_bool_iff in Zx, Zy, Zz.
      assert (P : forall s t, s == 0 -> f (t + f s) == f t) by (intros s t S0; apply (r_proper f u R); rewrite (r_proper f u R _ _ S0), F0; ring).
      split; [|split; [|split]].
      + etransitivity; [exact (E' 1%nat 4%nat x eq_refl)|]. cbn. now rewrite (P sx x Zx), X.
      + etransitivity; [exact (E' 2%nat 4%nat y eq_refl)|]. cbn. now rewrite (P sy y Zy), Y.
      + etransitivity; [exact (E' 3%nat 4%nat z eq_refl)|]. cbn. now rewrite (P sz z Zz), Z.
      + exact (E' 4%nat 4%nat 1 eq_refl).
    - cbn [arr]. set (t := mfloat f (matrix3d 1 0 0 0 0 1 0 0 0 0 1 0 sx sy sz 1)). split; [|split; [|split]].
      + change (v1 (col4 (fmat_mul f pl (arr k) t))) with (entry (fmat_mul f pl (arr k) t) 1 4). rewrite (entry_two f u pl (arr k) t 1 4 1 4 R C); auto.
        * apply (r_proper f u R). rewrite (E' 1%nat 1%nat 1 eq_refl), (E' 1%nat 4%nat x eq_refl). unfold t, entry. cbn. rewrite F1. ring.
        * four; intros; try congruence; [rewrite (E' 1%nat 2%nat 0 eq_refl)|rewrite (E' 1%nat 3%nat 0 eq_refl)]; ring.
        * assert (W : entry (arr k) 1 1 * entry t 1 4 == f sx) by (rewrite (E' 1%nat 1%nat 1 eq_refl); unfold t, entry; cbn; ring). rewrite (r_proper f u R _ _ W), W. apply (r_idem f u R).
        * assert (W : entry (arr k) 1 4 * entry t 4 4 == x) by (rewrite (E' 1%nat 4%nat x eq_refl); unfold t, entry; cbn; rewrite F1; ring). rewrite (r_proper f u R _ _ W), W. exact X.
      + change (v2 (col4 (fmat_mul f pl (arr k) t))) with (entry (fmat_mul f pl (arr k) t) 2 4). rewrite (entry_two f u pl (arr k) t 2 4 2 4 R C); auto.
        * apply (r_proper f u R). rewrite (E' 2%nat 2%nat 1 eq_refl), (E' 2%nat 4%nat y eq_refl). unfold t, entry. cbn. rewrite F1. ring.
        * four; intros; try congruence; [rewrite (E' 2%nat 1%nat 0 eq_refl)|rewrite (E' 2%nat 3%nat 0 eq_refl)]; ring.
        * assert (W : entry (arr k) 2 2 * entry t 2 4 == f sy) by (rewrite (E' 2%nat 2%nat 1 eq_refl); unfold t, entry; cbn; ring). rewrite (r_proper f u R _ _ W), W. apply (r_idem f u R).
        * assert (W : entry (arr k) 2 4 * entry t 4 4 == y) by (rewrite (E' 2%nat 4%nat y eq_refl); unfold t, entry; cbn; rewrite F1; ring). rewrite (r_proper f u R _ _ W), W. exact Y.
      + change (v3 (col4 (fmat_mul f pl (arr k) t))) with (entry (fmat_mul f pl (arr k) t) 3 4). rewrite (entry_two f u pl (arr k) t 3 4 3 4 R C); auto.
        * apply (r_proper f u R). rewrite (E' 3%nat 3%nat 1 eq_refl), (E' 3%nat 4%nat z eq_refl). unfold t, entry. cbn. rewrite F1. ring.
        * four; intros; try congruence; [rewrite (E' 3%nat 1%nat 0 eq_refl)|rewrite (E' 3%nat 2%nat 0 eq_refl)]; ring.
        * assert (W : entry (arr k) 3 3 * entry t 3 4 == f sz) by (rewrite (E' 3%nat 3%nat 1 eq_refl); unfold t, entry; cbn; ring). rewrite (r_proper f u R _ _ W), W. apply (r_idem f u R).
        * assert (W : entry (arr k) 3 4 * entry t 4 4 == z) by (rewrite (E' 3%nat 4%nat z eq_refl); unfold t, entry; cbn; rewrite F1; ring). rewrite (r_proper f u R _ _ W), W. exact Z.
      + change (v4 (col4 (fmat_mul f pl (arr k) t))) with (entry (fmat_mul f pl (arr k) t) 4 4). rewrite (entry_one f u pl (arr k) t 4 4 4 R C); auto.
        * rewrite (r_proper f u R _ 1); [exact F1|]. rewrite (E' 4%nat 4%nat 1 eq_refl). unfold t, entry. cbn. rewrite F1. ring.
        * four; intros; try congruence; [rewrite (E' 4%nat 1%nat 0 eq_refl)|rewrite (E' 4%nat 2%nat 0 eq_refl)|rewrite (E' 4%nat 3%nat 0 eq_refl)]; ring. }
  assert (KI : mkept f mat_id) by (intros r c; unfold entry; destruct c as [|[|[|[|c]]]]; destruct r as [|[|[|[|r]]]]; assumption).
  split; [|split; [|split]].
  - apply veq_get. intros r. exact (COL m tx ty tz K r 1%nat ltac:(auto)).
  - apply veq_get. intros r. exact (COL m tx ty tz K r 2%nat ltac:(auto)).
  - apply veq_get. intros r. exact (COL m tx ty tz K r 3%nat ltac:(auto)).
  - intros x y z g E. split; [now apply ADD|]. apply isidentity_spec.
    set (k1 := ftranslate_self f pl (DM mat_id g) tx ty tz).
    assert (K1 : mkept f (arr k1)) by (unfold k1, ftranslate_self; destruct (_ && _ && _); [exact KI|apply (fmul_kept f u _ _ _ R)]).
    assert (A1 := ADD (DM mat_id g) tx ty tz 0 0 0 KI (meq_refl _)). fold k1 in A1.
    assert (S : forall t, f (0 + f t) == f t) by (intros t; rewrite (r_proper f u R (0 + f t) (f t)) by ring; apply (r_idem f u R)).
    assert (E1 : meq (arr k1) (matrix3d 1 0 0 0 0 1 0 0 0 0 1 0 (f tx) (f ty) (f tz) 1)).
    { split; [|split; [|split]]; [apply veq_get; intros r; etransitivity; [first [exact (COL (DM mat_id g) tx ty tz KI r 1%nat ltac:(auto))|exact (COL (DM mat_id g) tx ty tz KI r 2%nat ltac:(auto))|exact (COL (DM mat_id g) tx ty tz KI r 3%nat ltac:(auto))]|destruct r as [|[|[|[|r]]]]; reflexivity]..|].
      destruct A1 as (P1 & P2 & P3 & P4). cbn [v1 v2 v3 v4] in *. rewrite S in P1, P2, P3. repeat split; assumption. }
    assert (A2 := ADD k1 (- tx) (- ty) (- tz) (f tx) (f ty) (f tz) K1 E1).
    assert (S2 : forall t, f (f t + f (- t)) == 0) by (intros t; rewrite (r_proper f u R _ 0); [exact F0|rewrite (r_opp f u R); ring]).
    split; [|split; [|split]].
    + apply veq_get; intros r. etransitivity; [exact (COL k1 (- tx) (- ty) (- tz) K1 r 1%nat ltac:(auto))|]. destruct E1 as (Q1 & _). rewrite veq_get in Q1. etransitivity; [exact (Q1 r)|destruct r as [|[|[|[|r]]]]; reflexivity].
    + apply veq_get; intros r. etransitivity; [exact (COL k1 (- tx) (- ty) (- tz) K1 r 2%nat ltac:(auto))|]. destruct E1 as (_ & Q1 & _). rewrite veq_get in Q1. etransitivity; [exact (Q1 r)|destruct r as [|[|[|[|r]]]]; reflexivity].
    + apply veq_get; intros r. etransitivity; [exact (COL k1 (- tx) (- ty) (- tz) K1 r 3%nat ltac:(auto))|]. destruct E1 as (_ & _ & Q1 & _). rewrite veq_get in Q1. etransitivity; [exact (Q1 r)|destruct r as [|[|[|[|r]]]]; reflexivity].
    + destruct A2 as (P1 & P2 & P3 & P4). cbn [v1 v2 v3 v4] in *. rewrite S2 in P1, P2, P3. repeat split; assumption.
Qed.
Print Assumptions c88_translate.
Example c88_translate_case : let m := ftranslate_self fl (fun _ _ => in_order) (DM mat_id true) (1#10) 0 0 in
  m41 (arr (ftranslate_self fl (fun _ _ => in_order) m (2#10) 0 0)) == fl (fl (1#10) + fl (2#10)) /\ (fl (fl (1#10) + fl (2#10)) =?q fl (3#10)) = false.
Proof. split; [vm_compute; reflexivity|vm_compute; reflexivity]. Qed.

(** Flips are exact: they change signs. *)
Theorem c88_flips f u pl m : rounding f u -> f 1 == 1 -> (forall c r, complete (pl c r)) -> truthful m -> mkept f (arr m) ->
  (exists a b, fflip_x f pl m = Ok a /\ flip_x m = Ok b /\ deq a b) /\ (exists a b, fflip_y f pl m = Ok a /\ flip_y m = Ok b /\ deq a b).
Proof.
  intros R F1 C T K. destruct (tolist_roundtrip m T) as (c & L & (E & G)).
  assert (F0 := r_zero f u R). assert (FM : f (-1) == -1) by (change (-1) with (- (1)); rewrite (r_opp f u R), F1; reflexivity).
  assert (DG : forall x y, f x == x -> f y == y -> meq (mfloat f (matrix2d x 0 0 y 0 0)) (diag x y 1 1)) by (intros x y X Y; repeat split; assumption).
  assert (Kc : mkept f (arr c)) by (intros r j; rewrite meq_entry in E; rewrite (r_proper f u R _ _ (E r j)), (E r j); apply K).
  assert (ONE : forall x y, (x == 1 \/ x == -1) -> (y == 1 \/ y == -1) -> meq (fmat_mul f pl (arr c) (mfloat f (matrix2d x 0 0 y 0 0))) (mat_mul (arr c) (matrix2d x 0 0 y 0 0))).
  { intros x y X Y. assert (Fx : f x == x) by (destruct X as [X|X]; rewrite (r_proper f u R _ _ X), X; assumption). assert (Fy : f y == y) by (destruct Y as [Y|Y]; rewrite (r_proper f u R _ _ Y), Y; assumption).
    rewrite (fmul_proper f u pl _ _ _ _ R (meq_refl (arr c)) (DG x y Fx Fy)). apply meq_entry. intros r j. rewrite (diag_right f u pl _ x y 1 1 r j R C), entry_mul.
    assert (SG : forall q s, (s == 1 \/ s == -1) -> f q == q -> f (q * s) == q * s).
    { intros q s [S|S] Q0; [rewrite (r_proper f u R _ q), Q0 by (rewrite S; ring); rewrite S; ring|]. rewrite (r_proper f u R _ (- q)) by (rewrite S; ring). rewrite (r_opp f u R), Q0, S. ring. }
    assert (W : f (entry (arr c) r j * entry (diag x y 1 1) j j) == entry (arr c) r j * entry (diag x y 1 1) j j).
    { apply SG; [|apply Kc]. unfold entry. destruct j as [|[|[|[|j]]]]; cbn; auto; left; reflexivity. }
    rewrite W. unfold dot, entry. destruct j as [|[|[|[|j]]]]; cbn; ring. }
  assert (P : -1 == 1 \/ -1 == -1) by (right; reflexivity). assert (P' : 1 == 1 \/ 1 == -1) by (left; reflexivity).
  unfold fflip_x, fflip_y, flip_x, flip_y, multiply. rewrite L. cbn [bind]. split; eexists; eexists; (split; [reflexivity|]; split; [reflexivity|]); (split; cbn [arr is2d fmultiply_self multiply_self]; [now apply ONE|reflexivity]).
Qed.
Print Assumptions c88_flips.
Example c88_flips_case : let m := DM (mfloat fl (matrix2d (1#10) (2#10) (3#10) (4#10) 5 6)) true in
  truthful m /\ mkept fl (arr m) /\ match fflip_x fl (fun _ _ => fused) m with Ok n => m11 (arr n) == - fl (1#10) /\ m22 (arr n) == fl (4#10) | Err _ => False end.
Proof. split; [intros _; apply two_d_float with (u := (1#2) ^ 53); [exact fl_rounding|reflexivity|apply two_d_matrix2d]|]. split; [apply (mfloat_kept fl _ _ fl_rounding)|]. vm_compute. split; reflexivity. Qed.

(** Scaling by powers of two is exact for floats, so scaling back restores. *)
Theorem c88_powers pl m j k : (forall c r, complete (pl c r)) -> mkept fl (arr m) ->
  let s := fscale_self fl pl m (2 ^ j) (Some (2 ^ k)) 1 0 0 0 in
  deq s (scale_self m (2 ^ j) (Some (2 ^ k)) 1 0 0 0) /\ deq (fscale_self fl pl s (2 ^ (- j)) (Some (2 ^ (- k))) 1 0 0 0) m.
Proof.
  intros C K.
  assert (R := fl_rounding).
  assert (FP : forall i, fl (2 ^ i) == 2 ^ i) by (intros i; apply fl_exact; exists 1%Z, i; split; [cbn; lia|unfold pow2; ring]).
  assert (SC : forall q i, fl q == q -> fl (q * 2 ^ i) == q * 2 ^ i).
  { intros q i H. apply digits_fl in H. destruct H as (z & e & Z & E). apply fl_exact. exists z, (e + i)%Z. split; [exact Z|]. rewrite pow2_plus, E. unfold pow2. ring. }
  assert (X : forall n i l, mkept fl (arr n) -> deq (fscale_self fl pl n (2 ^ i) (Some (2 ^ l)) 1 0 0 0) (scale_self n (2 ^ i) (Some (2 ^ l)) 1 0 0 0)).
  { intros n i l Kn. unfold fscale_self, scale_self. destruct (_ && _ && _); [split; [apply meq_refl|reflexivity]|]. cbn [negb andb Qeq_bool Zeq_bool]. change ((0 =?q 0) && (0 =?q 0) && (0 =?q 0)) with true. cbn [negb]. split; cbn [arr is2d]; [|reflexivity].
    assert (DG : meq (mfloat fl (matrix3d (2 ^ i) 0 0 0 0 (2 ^ l) 0 0 0 0 1 0 0 0 0 1)) (diag (2 ^ i) (2 ^ l) 1 1)) by (repeat split; try reflexivity; apply FP).
    rewrite (fmul_proper fl _ pl _ _ _ _ R (meq_refl (arr n)) DG). apply meq_entry. intros r c. rewrite (diag_right fl _ pl _ _ _ _ _ r c R C), entry_mul.
    assert (W : fl (entry (arr n) r c * entry (diag (2 ^ i) (2 ^ l) 1 1) c c) == entry (arr n) r c * entry (diag (2 ^ i) (2 ^ l) 1 1) c c).
    { assert (Kr := Kn r c). unfold entry in *. destruct c as [|[|[|[|c]]]]; cbn [mcol diag matrix3d col1 col2 col3 col4] in *; destruct r as [|[|[|[|r]]]]; cbn [vget v1 v2 v3 v4] in *; try (apply SC; exact Kr); (rewrite (fl_proper _ _ (Qmult_1_r _)), Qmult_1_r; exact Kr). }
    rewrite W. unfold dot, entry. destruct c as [|[|[|[|c]]]]; cbn; ring. }
  assert (KS : forall n i l, mkept fl (arr n) -> mkept fl (arr (fscale_self fl pl n (2 ^ i) (Some (2 ^ l)) 1 0 0 0))).
  { intros n i l Kn. unfold fscale_self. destruct (_ && _ && _); [exact Kn|]. change ((0 =?q 0) && (0 =?q 0) && (0 =?q 0)) with true. cbn [negb arr]. apply (fmul_kept fl _ _ _ _ R). }
  intros s. split; [now apply X|].
  assert (DI : forall n i l, meq (arr (scale_self n (2 ^ i) (Some (2 ^ l)) 1 0 0 0)) (mat_mul (arr n) (diag (2 ^ i) (2 ^ l) 1 1)) /\ is2d (scale_self n (2 ^ i) (Some (2 ^ l)) 1 0 0 0) = is2d n).
  { intros n i l. unfold scale_self. destruct ((2 ^ i =?q 1) && (2 ^ l =?q 1) && (1 =?q 1)) eqn:B.
    - apply andb_prop in B as [B _]. apply andb_prop in B as [B1 B2]. apply Qeq_bool_iff in B1, B2. split; [|reflexivity]. transitivity (mat_mul (arr n) mat_id); [symmetry; apply mul_id_r|].
      assert (DD : meq mat_id (diag (2 ^ i) (2 ^ l) 1 1)) by (repeat split; cbn; try reflexivity; symmetry; assumption). rewrite DD. reflexivity.
    - change ((0 =?q 0) && (0 =?q 0) && (0 =?q 0)) with true. cbn [negb arr is2d]. split; [reflexivity|]. change (1 =?q 1) with true. change (0 =?q 0) with true. now rewrite !andb_true_r. }
  destruct (X s (- j)%Z (- k)%Z (KS m j k K)) as [E1 G1]. destruct (X m j k K) as [E2 G2]. fold s in E2, G2.
  destruct (DI s (- j)%Z (- k)%Z) as [D1 H1]. destruct (DI m j k) as [D2 H2]. split; [|congruence].
  rewrite E1, D1, E2, D2, mul_assoc. assert (I0 : meq (mat_mul (diag (2 ^ j) (2 ^ k) 1 1) (diag (2 ^ (- j)) (2 ^ (- k)) 1 1)) mat_id).
  { assert (V : forall i, 2 ^ i * 2 ^ (- i) == 1) by (intros i; rewrite <- Qpower_plus by discriminate; rewrite Z.add_opp_diag_r; reflexivity).
    apply meq_entry. intros r c. rewrite entry_mul. assert (Vj := V j). assert (Vk := V k). unfold dot, entry. destruct r as [|[|[|[|r]]]]; destruct c as [|[|[|[|c]]]]; cbn [mcol diag matrix3d mat_id matrix2d col1 col2 col3 col4 vget v1 v2 v3 v4]; rewrite ?Vj, ?Vk; ring. }
  rewrite I0. apply mul_id_r.
Qed.
Print Assumptions c88_powers.
Example c88_powers_case : let m := DM (mfloat fl (matrix2d (1#10) 0 0 (1#3) 5 6)) true in
  mkept fl (arr m) /\ m11 (arr (fscale_self fl (fun _ _ => in_order) m (2 ^ 3) (Some (2 ^ (-1))) 1 0 0 0)) == 8 * fl (1#10).
Proof. split; [apply (mfloat_kept fl _ _ fl_rounding)|vm_compute; reflexivity]. Qed.

(** Whole numbers, halves, quarters ...: multiples of one power of two, up to
    2^25 times it, give exact products. *)
Theorem c88_grid k l pl pv a b p : (forall c r, complete (pl c r)) -> (forall r, complete (pv r)) ->
  (forall r c, on_grid k (2 ^ 25) (entry a r c)) -> (forall r c, on_grid l (2 ^ 25) (entry b r c)) -> (forall r, on_grid l (2 ^ 25) (vget p r)) ->
  meq (fmat_mul fl pl a b) (mat_mul a b) /\ veq (fmat_vec fl pv a p) (mat_vec a p).
Proof.
  intros C D A B P. split.
  - apply meq_entry. intros r c. destruct (entry_fmul fl pl a b r c) as (i & j & ->). destruct (eval_grid k l (entry a r) (fun x => entry b x c) (pl i j)) as [E _]; auto; [rewrite (Permutation_length (C i j)); cbn; lia|].
    rewrite E, (lsum_dot _ _ _ (C i j)), entry_mul. reflexivity.
  - apply veq_get. intros r. destruct (vget_fvec fl pv a p r) as (i & ->). destruct (eval_grid k l (entry a r) (vget p) (pv i)) as [E _]; auto; [rewrite (Permutation_length (D i)); cbn; lia|].
    rewrite E, (lsum_dot _ _ _ (D i)), vget_vec. reflexivity.
Qed.
Print Assumptions c88_grid.
Example c88_grid_case : (forall r c, on_grid (-2) (2 ^ 25) (entry (matrix2d (5#2) (-1#4) 3 1000000 (7#4) 0) r c)).
Proof.
  intros r c. unfold entry. destruct c as [|[|[|[|c]]]]; destruct r as [|[|[|[|r]]]]; cbn;
  first [exists 10%Z; split; [cbn; lia|reflexivity] | exists (-1)%Z; split; [cbn; lia|reflexivity] | exists 12%Z; split; [cbn; lia|reflexivity] | exists 4000000%Z; split; [cbn; lia|reflexivity] | exists 7%Z; split; [cbn; lia|reflexivity] | exists 0%Z; split; [cbn; lia|reflexivity] | exists 4%Z; split; [cbn; lia|reflexivity]].
Qed.

(** ** Flags, last rows and order *)
(** A matrix that says it is 2D has exactly the entries of a 2D matrix, after
    any history; and nothing becomes a projection. *)
Theorem c88_two_d f u pl o ops m : rounding f u -> f 1 == 1 -> (forall c r, complete (pl c r)) ->
  (Forall (fun op => match op with FMul x => truthful x | _ => True end) ops -> truthful m -> truthful (runs (fmat_step f pl o) ops m))
  /\ (Forall (fun op => match op with FMul x => affine (arr x) | _ => True end) ops -> affine (arr m) -> affine (arr (runs (fmat_step f pl o) ops m))).
Proof.
  intros R F1 C. split.
  - intros H. revert m. induction H as [|op ops O _ IH]; intros m T; [exact T|]. cbn. apply IH. now apply (truthful_fstep f u).
  - intros H. revert m. induction H as [|op ops O _ IH]; intros m T; [exact T|]. cbn. apply IH. now apply (affine_fstep f u).
Qed.
Print Assumptions c88_two_d.
Example c88_two_d_case : let m := runs (fmat_step fl (fun _ _ => by_pairs) quarter_oracle) [FTranslate (1#10) (1#3) 0; FScale (1#7) None 1 (1#9) 2 0; FRotate 0 0 90; FMul (DM (mfloat fl (matrix2d 1 2 3 4 (1#5) 6)) true)] (DM mat_id true) in
  is2d m = true /\ two_d (arr m) /\ affine (arr m) /\ (m41 (arr m) =?q fl (m41 (arr m))) = true /\ (m41 (arr m) =?q 0) = false.
Proof. vm_compute. repeat split; reflexivity. Qed.

(** A row of numbers that are not negative keeps the order of points, however
    it is rounded: what lies between two points stays between them. *)
Theorem c88_order f u pv m p q r : rounding f u -> (forall i, 0 <= entry m r i) -> (forall i, vget p i <= vget q i) ->
  vget (fmat_vec f pv m p) r <= vget (fmat_vec f pv m q) r.
Proof.
  intros R N L. assert (X : forall i, entry m r i * vget p i <= entry m r i * vget q i) by (intros i; rewrite !(Qmult_comm (entry m r i)); apply Qmult_le_compat_r; [apply L|apply N]).
  revert X. unfold vget at 3 4. destruct r as [|[|[|[|r]]]]; cbn [fmat_vec v1 v2 v3 v4]; intros X; apply (eval_mono f u _ _ _ _ R); intros i _; apply X.
Qed.
Print Assumptions c88_order.
Example c88_order_case : let m := mfloat fl (matrix2d (11#10) 0 0 (2#3) (-7#10) 3) in
  vget (fmat_vec fl (fun _ => in_order) m (V4 1 2 0 1)) 1 <= vget (fmat_vec fl (fun _ => in_order) m (V4 (1 + (1#2) ^ 52) 2 0 1)) 1.
Proof. vm_compute. discriminate. Qed.

(** ** What does not survive rounding *)
(** The result depends on how numpy adds: the same two float arrays under two
    plans. *)
Theorem c88_plans_refuted : exists a b, mkept fl a /\ mkept fl b /\ complete in_order /\ complete fused /\ ~ meq (fmat_mul fl (fun _ _ => in_order) a b) (fmat_mul fl (fun _ _ => fused) a b).
Proof.
  exists (mfloat fl (matrix2d (1#10) 0 (1#10) 1 0 0)), (mfloat fl (matrix2d (1#10) (6#10) 0 1 0 0)). split; [apply (mfloat_kept fl _ _ fl_rounding)|]. split; [apply (mfloat_kept fl _ _ fl_rounding)|].
  split; [apply plans_complete|]. split; [apply plans_complete|]. intros ((H & _) & _). vm_compute in H. discriminate.
Qed.
Print Assumptions c88_plans_refuted.

(** Products are not associative. *)
Theorem c88_associative_refuted : exists a b c, mkept fl a /\ mkept fl b /\ mkept fl c
  /\ let pl := fun _ _ => in_order in ~ meq (fmat_mul fl pl (fmat_mul fl pl a b) c) (fmat_mul fl pl a (fmat_mul fl pl b c)).
Proof.
  exists (mfloat fl (matrix2d 1 0 0 1 (1#10) 0)), (mfloat fl (matrix2d 1 0 0 1 (2#10) 0)), (mfloat fl (matrix2d 1 0 0 1 (3#10) 0)).
  split; [apply (mfloat_kept fl _ _ fl_rounding)|]. split; [apply (mfloat_kept fl _ _ fl_rounding)|]. split; [apply (mfloat_kept fl _ _ fl_rounding)|].
  intros pl (_ & _ & _ & (H & _)). vm_compute in H. discriminate.
Qed.
Print Assumptions c88_associative_refuted.

(** There and back is not where one started, unless one started at the
    identity. *)
Theorem c88_back_refuted : exists m tx, mkept fl (arr m) /\ fl tx == tx
  /\ let pl := fun _ _ => in_order in ~ meq (arr (ftranslate_self fl pl (ftranslate_self fl pl m tx 0 0) (- tx) 0 0)) (arr m).
Proof.
  exists (DM (mfloat fl (matrix2d 1 0 0 1 (1#10) 0)) true), (fl (2#10)). split; [apply (mfloat_kept fl _ _ fl_rounding)|]. split; [apply fl_idem|]. intros pl (_ & _ & _ & (H & _)). vm_compute in H. discriminate.
Qed.
Print Assumptions c88_back_refuted.

(** Scaling by s and by 1/s need not restore. *)
Theorem c88_rescale_refuted : exists s, fl s == s /\ let pl := fun _ _ => in_order in
  isidentity (fscale_self fl pl (fscale_self fl pl (DM mat_id true) s None 1 0 0 0) (fl (1 / s)) None 1 0 0 0) = false.
Proof. exists 49. split; [reflexivity|]. vm_compute. reflexivity. Qed.
Print Assumptions c88_rescale_refuted.
