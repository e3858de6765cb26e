(** Proofs for C88: rounded matrices. *)
From Coq Require Import Qabs Qpower ZArith Lqa Lia Bool List Permutation.
From Verif Require Import PyBase RectModel MatrixModel MatrixSpec MatrixProofs MatrixProofs2 FloatModel FloatSpec FloatProofs FloatProofs2 FloatProofs3 MatFloatModel MatFloatSpec MatFloatProofs.
Import ListNotations.
#[local] Open Scope Q_scope.

(** ** Errors of products *)
Lemma dot_ext a b a' b' : (forall i, a i == a' i) -> (forall i, b i == b' i) -> dot a b == dot a' b'.
Proof. intros A B. unfold dot. rewrite !A, !B. reflexivity. Qed.
Lemma dot_abs a b : Qabs (dot a b) <= dot (fun i => Qabs (a i)) (fun i => Qabs (b i)).
Proof.
  unfold dot. rewrite <- !Qabs_Qmult. eapply Qle_trans; [apply Qabs_triangle|]. apply Qplus_le_compat; [|apply Qle_refl].
  eapply Qle_trans; [apply Qabs_triangle|]. apply Qplus_le_compat; [|apply Qle_refl]. apply Qabs_triangle.
Qed.
Lemma dot_le a b a' : (forall i, a i <= a' i) -> (forall i, 0 <= b i) -> dot a b <= dot a' b.
Proof. intros A B. unfold dot. repeat apply Qplus_le_compat; apply Qmult_le_compat_r; auto. Qed.
Lemma dot_error f u a b p : rounding f u -> 0 <= u -> complete p ->
  Qabs (eval f a b p - dot a b) <= (grow u 4 - 1) * dot (fun i => Qabs (a i)) (fun i => Qabs (b i)).
Proof.
  intros R U C. assert (E := eval_error f u a b p R U). rewrite (lsum_dot a b p C), (lsum_dot_abs a b p C), (Permutation_length C) in E. exact E.
Qed.
(* a sum of rounded numbers: the error already there and the new one *)
Lemma dot_error2 f u a b p x s g : rounding f u -> 0 <= u -> complete p -> 1 <= g ->
  (forall i, Qabs (x i) <= s i) -> (forall i, Qabs (a i - x i) <= (g - 1) * s i) ->
  Qabs (eval f a b p - dot x b) <= (g * grow u 4 - 1) * dot s (fun i => Qabs (b i)).
Proof.
  intros R U C G X A. set (n := fun i => Qabs (b i)).
  assert (N0 : forall i, 0 <= n i) by (intros; apply Qabs_nonneg).
  assert (S0 : forall i, 0 <= s i) by (intros i; assert (W := X i); assert (W' := Qabs_nonneg (x i)); lra).
  eapply Qle_trans; [apply (tri _ (dot a b))|]. assert (E := dot_error f u a b p R U C). fold n in E.
  assert (D : Qabs (dot a b - dot x b) <= (g - 1) * dot s n).
  { setoid_replace (dot a b - dot x b) with (dot (fun i => a i - x i) b) by (unfold dot; ring). eapply Qle_trans; [apply dot_abs|]. fold n.
    eapply Qle_trans; [apply (dot_le _ n (fun i => (g - 1) * s i)); [exact A|exact N0]|]. unfold dot. assert (forall y z : Q, y == z -> y <= z) as LE by (intros; lra). apply LE. ring. }
  assert (A2 : dot (fun i => Qabs (a i)) n <= g * dot s n).
  { eapply Qle_trans; [apply (dot_le _ n (fun i => g * s i)); [|exact N0]|]. 2: { unfold dot. assert (forall y z : Q, y == z -> y <= z) as LE by (intros; lra). apply LE. ring. }
    intros i. assert (W := abs_le (a i) (x i)). assert (W1 := X i). assert (W2 := A i). lra. }
  assert (G4 := grow_ge u 4 U).
  assert (M : (grow u 4 - 1) * dot (fun i => Qabs (a i)) n <= (grow u 4 - 1) * (g * dot s n)). { rewrite (Qmult_comm _ (dot (fun i => Qabs (a i)) n)), (Qmult_comm _ (g * dot s n)). apply Qmult_le_compat_r; [exact A2|lra]. }
  setoid_replace ((g * grow u 4 - 1) * dot s n) with ((grow u 4 - 1) * (g * dot s n) + (g - 1) * dot s n) by ring. lra.
Qed.

Lemma product_error f u pl a b : rounding f u -> 0 <= u -> (forall c r, complete (pl c r)) ->
  mnear (grow u 4 - 1) (fmat_mul f pl a b) (mat_mul a b) (mat_mul (msize a) (msize b)).
Proof.
  intros R U C r c. destruct (entry_fmul f pl a b r c) as (k & l & ->). rewrite !entry_mul.
  rewrite (dot_ext (entry (msize a) r) (fun i => entry (msize b) i c) (fun i => Qabs (entry a r i)) (fun i => Qabs (entry b i c))) by (intros; rewrite entry_size; reflexivity).
  apply dot_error; auto.
Qed.
Lemma point_error f u pl a p : rounding f u -> 0 <= u -> (forall r, complete (pl r)) ->
  vnear (grow u 4 - 1) (fmat_vec f pl a p) (mat_vec a p) (mat_vec (msize a) (vsize p)).
Proof.
  intros R U C r. destruct (vget_fvec f pl a p r) as (k & ->). rewrite !vget_vec.
  rewrite (dot_ext (entry (msize a) r) (vget (vsize p)) (fun i => Qabs (entry a r i)) (fun i => Qabs (vget p i))) by (intros; rewrite ?entry_size, ?vget_size; reflexivity).
  apply dot_error; auto.
Qed.

Lemma fold_size rs : forall x s, (forall r c, Qabs (entry x r c) <= entry s r c) ->
  forall r c, Qabs (entry (fold_left (fun a r => mat_mul a (arr r)) rs x) r c) <= entry (fold_left (fun a r => mat_mul a (msize (arr r))) rs s) r c.
Proof.
  induction rs as [|m rs IH]; cbn [fold_left]; intros x s X; [exact X|]. apply IH. intros r c. rewrite !entry_mul. eapply Qle_trans; [apply dot_abs|].
  eapply Qle_trans; [apply (dot_le _ _ (entry s r)); [intros i; apply X|intros; apply Qabs_nonneg]|].
  rewrite (dot_ext (entry s r) (fun i => entry (msize (arr m)) i c) (entry s r) (fun i => Qabs (entry (arr m) i c))) by (intros; rewrite ?entry_size; reflexivity). apply Qle_refl.
Qed.
Lemma history_error f u pl rs : rounding f u -> 0 <= u -> (forall c r, complete (pl c r)) -> forall m x s g, 1 <= g ->
  (forall r c, Qabs (entry x r c) <= entry s r c) -> mnear (g - 1) (arr m) x s ->
  mnear (g * grow u (4 * length rs) - 1) (arr (fold_left (fmultiply_self f pl) rs m)) (fold_left (fun a r => mat_mul a (arr r)) rs x) (fold_left (fun a r => mat_mul a (msize (arr r))) rs s).
Proof.
  intros R U C. induction rs as [|o rs IH]; intros m x s g G X N.
  - cbn [fold_left length]. intros r c. assert (W := N r c). cbn [Nat.mul grow]. setoid_replace (g * 1 - 1) with (g - 1) by ring. exact W.
  - cbn [fold_left]. assert (G4 := grow_ge u 4 U).
    assert (GG : 1 <= g * grow u 4). { assert (0 <= (g - 1) * (grow u 4)) by (apply Qmult_le_0_compat; lra). lra. }
    assert (W := IH (fmultiply_self f pl m o) (mat_mul x (arr o)) (mat_mul s (msize (arr o))) (g * grow u 4) GG).
    intros r c. replace (4 * length (o :: rs))%nat with (4 + 4 * length rs)%nat by (cbn [length]; lia). rewrite grow_add, Qmult_assoc. apply W; clear W IH.
    + intros r' c'. rewrite !entry_mul. eapply Qle_trans; [apply dot_abs|]. eapply Qle_trans; [apply (dot_le _ _ (entry s r')); [intros i; apply X|intros; apply Qabs_nonneg]|].
      rewrite (dot_ext (entry s r') (fun i => entry (msize (arr o)) i c') (entry s r') (fun i => Qabs (entry (arr o) i c'))) by (intros; rewrite ?entry_size; reflexivity). apply Qle_refl.
    + intros r' c'. cbn [arr fmultiply_self]. destruct (entry_fmul f pl (arr m) (arr o) r' c') as (k & l & ->). rewrite !entry_mul.
      rewrite (dot_ext (entry s r') (fun i => entry (msize (arr o)) i c') (entry s r') (fun i => Qabs (entry (arr o) i c'))) by (intros; rewrite ?entry_size; reflexivity).
      apply dot_error2; auto; intros i; apply N.
Qed.

(** ** No rounding *)
Lemma id_rounding : rounding (fun q => q) 0.
Proof. constructor; intros; try reflexivity; [assumption|]. setoid_replace (x - x) with 0 by ring. rewrite Qmult_0_l. apply Qle_refl. Qed.
Lemma grow_zero n : grow 0 n == 1. Proof. induction n; cbn; [reflexivity|]. rewrite IHn. reflexivity. Qed.
Lemma near_zero x y s : Qabs (x - y) <= (grow 0 4 - 1) * s -> x == y.
Proof. intros H. rewrite grow_zero in H. setoid_replace ((1 - 1) * s) with 0 in H by ring. assert (N := Qabs_nonneg (x - y)). destruct (Qabs_Qle_condition (x - y) 0) as [W _]. assert (V := W H). lra. Qed.
Lemma exact_mul pl a b : (forall c r, complete (pl c r)) -> meq (fmat_mul (fun q => q) pl a b) (mat_mul a b).
Proof. intros C. apply meq_entry. intros r c. eapply near_zero. apply (product_error _ 0 pl a b id_rounding (Qle_refl 0) C r c). Qed.
Lemma exact_vec pl a p : (forall r, complete (pl r)) -> veq (fmat_vec (fun q => q) pl a p) (mat_vec a p).
Proof. intros C. apply veq_get. intros r. eapply near_zero. apply (point_error _ 0 pl a p id_rounding (Qle_refl 0) C r). Qed.
Lemma mfloat_id m : mfloat (fun q => q) m = m. Proof. destruct m as [[] [] [] []]. reflexivity. Qed.

(** ** Exact products *)
(* the position of a column *)
Definition pos (c : nat) : nat := match c with 1%nat => 1%nat | 2%nat => 2%nat | 3%nat => 3%nat | _ => 4%nat end.
Lemma pos_in c : (pos c = 1 \/ pos c = 2 \/ pos c = 3 \/ pos c = 4)%nat.
Proof. destruct c as [|[|[|[|c]]]]; cbn; auto. Qed.
Lemma entry_pos m r c : entry m (pos r) (pos c) = entry m r c.
Proof. unfold entry. destruct c as [|[|[|[|c]]]]; destruct r as [|[|[|[|r]]]]; reflexivity. Qed.
Lemma entry_posr m r c : entry m r (pos c) = entry m r c. Proof. unfold entry. destruct c as [|[|[|[|c]]]]; reflexivity. Qed.
Lemma entry_posl m r c : entry m (pos r) c = entry m r c. Proof. unfold entry. destruct r as [|[|[|[|r]]]]; destruct c as [|[|[|[|c]]]]; reflexivity. Qed.
(* a diagonal array *)
Definition diag (x y z w : Q) : mat := matrix3d x 0 0 0 0 y 0 0 0 0 z 0 0 0 0 w.
(* the four products of an entry are the only ones read *)
Lemma eval_in f a b a' b' p : (forall i, In i (terms p) -> a i = a' i /\ b i = b' i) -> eval f a b p = eval f a' b' p.
Proof.
  induction p as [|i|p IH q IH'|i p IH]; cbn; intros E; [reflexivity|..].
  - destruct (E i) as [-> ->]; [now left|reflexivity].
  - rewrite IH, IH'; [reflexivity|..]; intros; apply E, in_or_app; auto.
  - rewrite IH by (intros; apply E; auto). destruct (E i) as [-> ->]; [now left|reflexivity].
Qed.
(* entry (r, c) of a product when at most one product is not zero *)
Lemma entry_one f u pl a b r c j : rounding f u -> (forall c r, complete (pl c r)) -> (j = 1 \/ j = 2 \/ j = 3 \/ j = 4)%nat ->
  (forall i, (i = 1 \/ i = 2 \/ i = 3 \/ i = 4)%nat -> i <> j -> entry a r i * entry b i c == 0) -> entry (fmat_mul f pl a b) r c == f (entry a r j * entry b j c).
Proof.
  intros R C J Z0. destruct (entry_fmul f pl a b r c) as (k & l & ->).
  set (w := fun i => if existsb (Nat.eqb i) [1;2;3;4]%nat then entry b i c else 0).
  assert (IN : forall i, In i (terms (pl k l)) -> (i = 1 \/ i = 2 \/ i = 3 \/ i = 4)%nat) by (intros i W; apply (Permutation_in _ (C k l)) in W; cbn in W; intuition).
  rewrite (eval_in f (entry a r) (fun i => entry b i c) (entry a r) w) by (intros i W; split; [reflexivity|]; unfold w; destruct (IN i W) as [-> |[-> |[-> | ->]]]; reflexivity).
  rewrite (eval_one f u _ w j _ R); [|intros i I0|apply complete_nodup; auto|apply complete_in; auto].
  - apply (r_proper f u R). unfold w. destruct J as [-> |[-> |[-> | ->]]]; reflexivity.
  - unfold w. destruct (existsb (Nat.eqb i) [1;2;3;4]%nat) eqn:Ex; [|ring]. apply Z0; [|exact I0]. apply existsb_exists in Ex. destruct Ex as (x & X & E). apply Nat.eqb_eq in E. subst x. cbn in X. intuition.
Qed.
Lemma entry_two f u pl a b r c j k : rounding f u -> (forall c r, complete (pl c r)) -> (j = 1 \/ j = 2 \/ j = 3 \/ j = 4)%nat -> (k = 1 \/ k = 2 \/ k = 3 \/ k = 4)%nat -> j <> k ->
  (forall i, (i = 1 \/ i = 2 \/ i = 3 \/ i = 4)%nat -> i <> j -> i <> k -> entry a r i * entry b i c == 0) -> f (entry a r j * entry b j c) == entry a r j * entry b j c -> f (entry a r k * entry b k c) == entry a r k * entry b k c ->
  entry (fmat_mul f pl a b) r c == f (entry a r j * entry b j c + entry a r k * entry b k c).
Proof.
  intros R C J K JK Z0 F1 F2. destruct (entry_fmul f pl a b r c) as (q & l & ->).
  set (w := fun i => if existsb (Nat.eqb i) [1;2;3;4]%nat then entry b i c else 0).
  assert (IN : forall i, In i (terms (pl q l)) -> (i = 1 \/ i = 2 \/ i = 3 \/ i = 4)%nat) by (intros i W; apply (Permutation_in _ (C q l)) in W; cbn in W; intuition).
  assert (WW : forall i, (i = 1 \/ i = 2 \/ i = 3 \/ i = 4)%nat -> w i = entry b i c) by (intros i [-> |[-> |[-> | ->]]]; reflexivity).
  rewrite (eval_in f (entry a r) (fun i => entry b i c) (entry a r) w) by (intros i W; split; [reflexivity|]; symmetry; apply WW, IN, W).
  rewrite <- (WW j J), <- (WW k K) in *.
  apply (eval_two f u _ w j k _ R JK); [|exact F1|exact F2|apply complete_nodup; auto|apply complete_in; auto|apply complete_in; auto].
  intros i I0 I1. unfold w. destruct (existsb (Nat.eqb i) [1;2;3;4]%nat) eqn:Ex; [|ring]. apply Z0; [|exact I0|exact I1]. apply existsb_exists in Ex. destruct Ex as (x & X & E). apply Nat.eqb_eq in E. subst x. cbn in X. intuition.
Qed.

Ltac four := intros ? [-> |[-> |[-> | ->]]].

(* times a diagonal array: one rounding per entry *)
Lemma diag_right f u pl a x y z w r c : rounding f u -> (forall c r, complete (pl c r)) ->
  entry (fmat_mul f pl a (diag x y z w)) r c == f (entry a r c * entry (diag x y z w) c c).
Proof.
  intros R C. rewrite (entry_one f u pl a (diag x y z w) r c (pos c) R C (pos_in c)).
  - apply (r_proper f u R). rewrite entry_posr. unfold entry. destruct c as [|[|[|[|c]]]]; cbn; reflexivity.
  - four; unfold entry; destruct c as [|[|[|[|c]]]]; cbn; intros; try ring; congruence.
Qed.
Lemma diag_left f u pl a x y z w r c : rounding f u -> (forall c r, complete (pl c r)) ->
  entry (fmat_mul f pl (diag x y z w) a) r c == f (entry (diag x y z w) r r * entry a r c).
Proof.
  intros R C. rewrite (entry_one f u pl (diag x y z w) a r c (pos r) R C (pos_in r)).
  - apply (r_proper f u R). rewrite entry_posl. unfold entry. destruct r as [|[|[|[|r]]]]; cbn; reflexivity.
  - four; unfold entry; destruct r as [|[|[|[|r]]]]; destruct c as [|[|[|[|c]]]]; cbn; intros; try ring; congruence.
Qed.
Lemma identity_right f u pl a : rounding f u -> (forall c r, complete (pl c r)) -> mkept f a -> meq (fmat_mul f pl a mat_id) a.
Proof.
  intros R C K. apply meq_entry. intros r c. change mat_id with (diag 1 1 1 1). rewrite (diag_right f u pl a 1 1 1 1 r c R C).
  rewrite (r_proper f u R _ (entry a r c)); [apply K|]. unfold entry. destruct c as [|[|[|[|c]]]]; cbn; ring.
Qed.
Lemma identity_left f u pl a : rounding f u -> (forall c r, complete (pl c r)) -> mkept f a -> meq (fmat_mul f pl mat_id a) a.
Proof.
  intros R C K. apply meq_entry. intros r c. change mat_id with (diag 1 1 1 1). rewrite (diag_left f u pl a 1 1 1 1 r c R C).
  rewrite (r_proper f u R _ (entry a r c)); [apply K|]. unfold entry. destruct r as [|[|[|[|r]]]]; cbn; ring.
Qed.
Lemma fmul_proper f u pl a b a' b' : rounding f u -> meq a a' -> meq b b' -> meq (fmat_mul f pl a b) (fmat_mul f pl a' b').
Proof.
  intros R A B. rewrite meq_entry in A, B. apply meq_entry. intros r c. unfold entry at 1 2. destruct c as [|[|[|[|c]]]]; destruct r as [|[|[|[|r]]]]; cbn [fmat_mul fmat_vec mcol vget col1 col2 col3 col4 v1 v2 v3 v4];
    apply (eval_proper f u _ _ _ _ _ R); intros i; try apply A; first [exact (B i 1%nat)|exact (B i 2%nat)|exact (B i 3%nat)|exact (B i 4%nat)].
Qed.
Lemma fmul_kept f u pl a b : rounding f u -> mkept f (fmat_mul f pl a b).
Proof. intros R r c. destruct (entry_fmul f pl a b r c) as (k & l & ->). apply (eval_kept f u _ _ _ R). Qed.
Lemma mfloat_kept f u m : rounding f u -> mkept f (mfloat f m).
Proof. intros R r c. unfold entry. destruct c as [|[|[|[|c]]]]; destruct r as [|[|[|[|r]]]]; cbn; apply (r_idem f u R). Qed.

(** ** Points *)
Lemma vget_entry f pl a p r : vget (fmat_vec f pl a p) r = entry (fmat_mul f (fun _ => pl) a (M4 p p p p)) r 1.
Proof. reflexivity. Qed.
Lemma fvec_proper f u pl a p a' p' : rounding f u -> meq a a' -> veq p p' -> veq (fmat_vec f pl a p) (fmat_vec f pl a' p').
Proof.
  intros R A B. apply veq_get. intros r. rewrite !vget_entry. revert r. apply (proj1 (veq_get _ _)). apply (fmul_proper f u (fun _ => pl) a (M4 p p p p) a' (M4 p' p' p' p') R A). repeat split; apply B.
Qed.

(** ** Flags *)
Ltac ent := unfold entry, m11, m12, m13, m14, m21, m22, m23, m24, m31, m32, m33, m34, m41, m42, m43, m44 in *; cbn [mcol vget] in *.
Lemma two_d_fmul f u pl a b : rounding f u -> f 1 == 1 -> (forall c r, complete (pl c r)) -> two_d a -> two_d b -> two_d (fmat_mul f pl a b).
Proof.
  intros R F1 C A B. unfold two_d in A, B.
  change (m13 a) with (entry a 3 1) in A. change (m14 a) with (entry a 4 1) in A. change (m23 a) with (entry a 3 2) in A. change (m24 a) with (entry a 4 2) in A.
  change (m31 a) with (entry a 1 3) in A. change (m32 a) with (entry a 2 3) in A. change (m33 a) with (entry a 3 3) in A. change (m34 a) with (entry a 4 3) in A. change (m43 a) with (entry a 3 4) in A. change (m44 a) with (entry a 4 4) in A.
  change (m13 b) with (entry b 3 1) in B. change (m14 b) with (entry b 4 1) in B. change (m23 b) with (entry b 3 2) in B. change (m24 b) with (entry b 4 2) in B.
  change (m31 b) with (entry b 1 3) in B. change (m32 b) with (entry b 2 3) in B. change (m33 b) with (entry b 3 3) in B. change (m34 b) with (entry b 4 3) in B. change (m43 b) with (entry b 3 4) in B. change (m44 b) with (entry b 4 4) in B.
  destruct A as (A31 & A41 & A32 & A42 & A13 & A23 & A33 & A43 & A34 & A44), B as (B31 & B41 & B32 & B42 & B13 & B23 & B33 & B43 & B34 & B44).
  assert (Z := r_zero f u R).
  assert (R3 : forall c, entry (fmat_mul f pl a b) 3 c == f (entry b 3 c)).
  { intros c. rewrite (entry_one f u pl a b 3 c 3 R C) by (auto; four; intros; try congruence; rewrite ?A31, ?A32, ?A34; ring). apply (r_proper f u R). rewrite A33. ring. }
  assert (R4 : forall c, entry (fmat_mul f pl a b) 4 c == f (entry b 4 c)).
  { intros c. rewrite (entry_one f u pl a b 4 c 4 R C) by (auto; four; intros; try congruence; rewrite ?A41, ?A42, ?A43; ring). apply (r_proper f u R). rewrite A44. ring. }
  assert (C3 : forall r, entry (fmat_mul f pl a b) r 3 == f (entry a r 3)).
  { intros r. rewrite (entry_one f u pl a b r 3 3 R C) by (auto; four; intros; try congruence; rewrite ?B13, ?B23, ?B43; ring). apply (r_proper f u R). rewrite B33. ring. }
  unfold two_d. repeat split.
  - change (entry (fmat_mul f pl a b) 3 1 == 0). rewrite R3, (r_proper f u R _ 0 B31). exact Z.
  - change (entry (fmat_mul f pl a b) 4 1 == 0). rewrite R4, (r_proper f u R _ 0 B41). exact Z.
  - change (entry (fmat_mul f pl a b) 3 2 == 0). rewrite R3, (r_proper f u R _ 0 B32). exact Z.
  - change (entry (fmat_mul f pl a b) 4 2 == 0). rewrite R4, (r_proper f u R _ 0 B42). exact Z.
  - change (entry (fmat_mul f pl a b) 1 3 == 0). rewrite C3, (r_proper f u R _ 0 A13). exact Z.
  - change (entry (fmat_mul f pl a b) 2 3 == 0). rewrite C3, (r_proper f u R _ 0 A23). exact Z.
  - change (entry (fmat_mul f pl a b) 3 3 == 1). rewrite C3, (r_proper f u R _ 1 A33). exact F1.
  - change (entry (fmat_mul f pl a b) 4 3 == 0). rewrite C3, (r_proper f u R _ 0 A43). exact Z.
  - change (entry (fmat_mul f pl a b) 3 4 == 0). rewrite R3, (r_proper f u R _ 0 B34). exact Z.
  - change (entry (fmat_mul f pl a b) 4 4 == 1). rewrite R4, (r_proper f u R _ 1 B44). exact F1.
Qed.
Lemma two_d_float f u m : rounding f u -> f 1 == 1 -> two_d m -> two_d (mfloat f m).
Proof.
  intros R F1 (A31 & A41 & A32 & A42 & A13 & A23 & A33 & A43 & A34 & A44). assert (Z := r_zero f u R).
  unfold two_d, m11, m12, m13, m14, m21, m22, m23, m24, m31, m32, m33, m34, m41, m42, m43, m44 in *. cbn [mfloat vfloat col1 col2 col3 col4 v1 v2 v3 v4].
  repeat split; (etransitivity; [apply (r_proper f u R); eassumption|assumption]).
Qed.
Lemma truthful_ftranslate f u pl m x y z : rounding f u -> f 1 == 1 -> (forall c r, complete (pl c r)) -> truthful m -> truthful (ftranslate_self f pl m x y z).
Proof.
  intros R F1 C T. unfold ftranslate_self. destruct (_ && _ && _); [exact T|]. intros Hf. cbn in Hf. apply andb_prop in Hf as [Hf Hz]. apply Qeq_bool_iff in Hz. cbn [arr].
  apply (two_d_fmul f u); auto. apply (two_d_float f u); auto. repeat split; try reflexivity. exact Hz.
Qed.
Lemma truthful_fstep f u pl o m op : rounding f u -> f 1 == 1 -> (forall c r, complete (pl c r)) -> match op with FMul x => truthful x | _ => True end -> truthful m -> truthful (fmat_step f pl o m op).
Proof.
  intros R F1 C O T.
  assert (MUL : forall (n : dmat) b (g : bool), truthful n -> (g = true -> two_d b) -> truthful (DM (fmat_mul f pl (arr n) (mfloat f b)) (is2d n && g))).
  { intros n b g Tn B Hf. cbn in Hf |- *. apply andb_prop in Hf as [Hf Hg]. apply (two_d_fmul f u); auto. apply (two_d_float f u); auto. }
  destruct op as [x|tx ty tz|sx sy sz ox oy oz|a|a|rx ry rz]; cbn [fmat_step].
  - intros Hf. cbn in Hf |- *. apply andb_prop in Hf as [Hf Hg]. apply (two_d_fmul f u); auto.
  - now apply (truthful_ftranslate f u).
  - unfold fscale_self. set (sy' := match sy with Some v => v | None => sx end). destruct (_ && _ && _); [exact T|]. set (mv := negb _). set (m1 := if mv then _ else m).
    assert (T1 : truthful m1) by (unfold m1; destruct mv; [now apply (truthful_ftranslate f u)|exact T]).
    assert (T2 : truthful (DM (fmat_mul f pl (arr m1) (mfloat f (matrix3d sx 0 0 0 0 sy' 0 0 0 0 sz 0 0 0 0 1))) (is2d m1 && (sz =?q 1) && (oz =?q 0)))).
    { rewrite <- andb_assoc. apply MUL; [exact T1|]. intros G. apply andb_prop in G as [G _]. apply Qeq_bool_iff in G. repeat split; try reflexivity. exact G. }
    destruct mv; [now apply (truthful_ftranslate f u)|exact T2].
  - unfold fskew_x_self. rewrite <- (andb_true_r (is2d m)). apply MUL; [exact T|]. intros _. apply two_d_matrix2d.
  - unfold fskew_y_self. rewrite <- (andb_true_r (is2d m)). apply MUL; [exact T|]. intros _. apply two_d_matrix2d.
  - assert (ROT : forall n x a, truthful n -> truthful (frotate_axis f pl o n x a)).
    { intros n x a Tn. unfold frotate_axis. apply MUL; [exact Tn|]. destruct x; try discriminate. intros _. repeat split; reflexivity. }
    unfold frotate_self. destruct (rz =?q 0), (ry =?q 0), (rx =?q 0); auto.
Qed.
(* the last row *)
Lemma affine_fmul f u pl a b : rounding f u -> f 1 == 1 -> (forall c r, complete (pl c r)) -> affine a -> affine b -> affine (fmat_mul f pl a b).
Proof.
  intros R F1 C A B. unfold affine in A, B.
  change (m14 a) with (entry a 4 1) in A. change (m24 a) with (entry a 4 2) in A. change (m34 a) with (entry a 4 3) in A. change (m44 a) with (entry a 4 4) in A.
  change (m14 b) with (entry b 4 1) in B. change (m24 b) with (entry b 4 2) in B. change (m34 b) with (entry b 4 3) in B. change (m44 b) with (entry b 4 4) in B.
  destruct A as (A41 & A42 & A43 & A44), B as (B41 & B42 & B43 & B44). assert (Z := r_zero f u R).
  assert (R4 : forall c, entry (fmat_mul f pl a b) 4 c == f (entry b 4 c)).
  { intros c. rewrite (entry_one f u pl a b 4 c 4 R C) by (auto; four; intros; try congruence; rewrite ?A41, ?A42, ?A43; ring). apply (r_proper f u R). rewrite A44. ring. }
  unfold affine. repeat split.
  - change (entry (fmat_mul f pl a b) 4 1 == 0). rewrite R4, (r_proper f u R _ 0 B41). exact Z.
  - change (entry (fmat_mul f pl a b) 4 2 == 0). rewrite R4, (r_proper f u R _ 0 B42). exact Z.
  - change (entry (fmat_mul f pl a b) 4 3 == 0). rewrite R4, (r_proper f u R _ 0 B43). exact Z.
  - change (entry (fmat_mul f pl a b) 4 4 == 1). rewrite R4, (r_proper f u R _ 1 B44). exact F1.
Qed.
Lemma affine_float f u m : rounding f u -> f 1 == 1 -> affine m -> affine (mfloat f m).
Proof.
  intros R F1 (A & B & C & D). assert (Z := r_zero f u R). unfold affine, m14, m24, m34, m44 in *. cbn [mfloat vfloat col1 col2 col3 col4 v1 v2 v3 v4].
  repeat split; (etransitivity; [apply (r_proper f u R); eassumption|assumption]).
Qed.
Lemma affine_fstep f u pl o m op : rounding f u -> f 1 == 1 -> (forall c r, complete (pl c r)) -> match op with FMul x => affine (arr x) | _ => True end -> affine (arr m) -> affine (arr (fmat_step f pl o m op)).
Proof.
  intros R F1 C O T.
  assert (MUL : forall n b, affine n -> affine b -> affine (fmat_mul f pl n (mfloat f b))) by (intros n b N B; apply (affine_fmul f u); auto; apply (affine_float f u); auto).
  assert (TR : forall n x y z, affine (arr n) -> affine (arr (ftranslate_self f pl n x y z))).
  { intros n x y z N. unfold ftranslate_self. destruct (_ && _ && _); [exact N|]. cbn [arr]. apply MUL; [exact N|]. repeat split; reflexivity. }
  destruct op as [x|tx ty tz|sx sy sz ox oy oz|a|a|rx ry rz]; cbn [fmat_step].
  - cbn [arr fmultiply_self]. now apply (affine_fmul f u).
  - now apply TR.
  - unfold fscale_self. set (sy' := match sy with Some v => v | None => sx end). destruct (_ && _ && _); [exact T|]. set (mv := negb _). set (m1 := if mv then _ else m).
    assert (T1 : affine (arr m1)) by (unfold m1; destruct mv; [now apply TR|exact T]).
    destruct mv; [apply TR|]; cbn [arr]; (apply MUL; [exact T1|repeat split; reflexivity]).
  - cbn [arr fskew_x_self]. apply MUL; [exact T|]. repeat split; reflexivity.
  - cbn [arr fskew_y_self]. apply MUL; [exact T|]. repeat split; reflexivity.
  - assert (ROT : forall n x a, affine (arr n) -> affine (arr (frotate_axis f pl o n x a))).
    { intros n x a Tn. cbn [arr frotate_axis]. apply MUL; [exact Tn|]. destruct x; repeat split; reflexivity. }
    unfold frotate_self. destruct (rz =?q 0), (ry =?q 0), (rx =?q 0); auto.
Qed.
