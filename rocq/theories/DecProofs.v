(** The rounding to digits of any base: exponents, order, digits, error. *)
From Coq Require Import Qround Qabs Qpower Qminmax ZArith Lia Lqa Qfield.
From Verif Require Import PyBase FloatModel FloatSpec FloatProofs FloatProofs2 DecModel DecSpec.
#[local] Open Scope Q_scope.

(** ** Powers *)
Lemma base_pos b : (2 <= b)%Z -> 0 < inject_Z b. Proof. intros H. change 0 with (inject_Z 0). rewrite <- Zlt_Qlt. lia. Qed.
Lemma bpow_pos b k : (2 <= b)%Z -> 0 < bpow b k. Proof. intros H. apply Qpower_0_lt, base_pos, H. Qed.
Lemma bpow_plus b x y : (2 <= b)%Z -> bpow b (x + y) == bpow b x * bpow b y. Proof. intros H. apply Qpower_plus. assert (P := base_pos b H). lra. Qed.
Lemma bpow_minus b x y : (2 <= b)%Z -> bpow b (x - y) == bpow b x / bpow b y. Proof. intros H. apply Qpower_minus. assert (P := base_pos b H). lra. Qed.
Lemma bpow_lt b x y : (2 <= b)%Z -> (x < y)%Z -> bpow b x < bpow b y.
Proof. intros B H. apply Qpower_lt_compat_l; [exact H|]. change 1 with (inject_Z 1). rewrite <- Zlt_Qlt. lia. Qed.
Lemma bpow_le b x y : (2 <= b)%Z -> (x <= y)%Z -> bpow b x <= bpow b y.
Proof. intros B H. apply Qpower_le_compat_l; [exact H|]. change 1 with (inject_Z 1). rewrite <- Zle_Qle. lia. Qed.
Lemma bpow_lt_inv b x y : (2 <= b)%Z -> bpow b x < bpow b y -> (x < y)%Z.
Proof. intros B H. destruct (Z.lt_ge_cases x y) as [L|L]; [exact L|]. apply (bpow_le b) in L; [|exact B]. exfalso. lra. Qed.
Lemma bpow_Z b k : (0 <= k)%Z -> bpow b k == inject_Z (b ^ k). Proof. intros H. symmetry. apply Zpower_Qpower, H. Qed.
Lemma bpow_1 b : bpow b 1 == inject_Z b. Proof. rewrite bpow_Z by lia. now rewrite Z.pow_1_r. Qed.

(** ** Exponents *)
Lemma find_spec b n k q : (2 <= b)%Z -> bpow b k <= q -> q < bpow b (k + Z.of_nat n + 1) -> let r := find_exp b n k q in bpow b r <= q < bpow b (r + 1).
Proof.
  intros B. revert k. induction n as [|n J]; intros k L U; cbn [find_exp].
  - cbn in U. rewrite Z.add_0_r in U. auto.
  - destruct (Qltb_spec q (bpow b (k + 1))) as [H|H]; [auto|]. apply J; [lra|]. replace (k + 1 + Z.of_nat n + 1)%Z with (k + Z.of_nat (S n) + 1)%Z by lia. exact U.
Qed.
Lemma expo_spec b q : (2 <= b)%Z -> 0 < q -> bpow b (expo b q) <= q < bpow b (expo b q + 1).
Proof.
  intros B P. unfold expo. destruct q as [n d]. cbn [Qnum Qden]. set (x := Z.log2 n). set (y := Z.log2 (Zpos d)).
  assert (Pn : (0 < n)%Z) by (unfold Qlt in P; cbn [Qnum Qden] in P; lia). assert (Lx := Z.log2_spec n Pn). assert (Ly := Z.log2_spec (Zpos d) ltac:(lia)). fold x in Lx. fold y in Ly.
  assert (Nx := Z.log2_nonneg n). assert (Ny := Z.log2_nonneg (Zpos d)). fold x in Nx. fold y in Ny.
  assert (E : (n # d) * inject_Z (Zpos d) == inject_Z n) by (rewrite Qmake_Qdiv; field; discriminate).
  assert (DP : 1 <= inject_Z (Zpos d)) by (change 1 with (inject_Z 1); rewrite <- Zle_Qle; lia).
  assert (NP : 1 <= inject_Z n) by (change 1 with (inject_Z 1); rewrite <- Zle_Qle; lia).
  apply find_spec; [exact B| |].
  - assert (M : inject_Z (Zpos d) <= bpow b (y + 1)).
    { rewrite bpow_Z by lia. rewrite <- Zle_Qle. apply Z.le_trans with (2 ^ (y + 1))%Z; [unfold Z.succ in Ly; lia|]. apply Z.pow_le_mono_l. lia. }
    assert (Z : bpow b (- (y + 1)) * bpow b (y + 1) == 1) by (rewrite <- bpow_plus by exact B; replace (- (y + 1) + (y + 1))%Z with 0%Z by lia; reflexivity).
    assert (Q := bpow_pos b (- (y + 1)) B). apply Qmult_le_r with (inject_Z (Zpos d)); [lra|]. rewrite E.
    apply Qle_trans with (bpow b (- (y + 1)) * bpow b (y + 1)); [apply Qmult_le_l; assumption|]. lra.
  - replace (- (y + 1) + Z.of_nat (Z.to_nat (x + y + 1)) + 1)%Z with (x + 1)%Z by lia. apply Qle_lt_trans with (inject_Z n).
    + apply Qmult_le_r with (inject_Z (Zpos d)); [lra|]. rewrite E. rewrite <- (Qmult_1_r (inject_Z n)) at 1. apply Qmult_le_l; lra.
    + rewrite bpow_Z by lia. rewrite <- Zlt_Qlt. apply Z.lt_le_trans with (2 ^ (x + 1))%Z; [unfold Z.succ in Lx; lia|]. apply Z.pow_le_mono_l. lia.
Qed.
Lemma expo_mono b p q : (2 <= b)%Z -> 0 < p -> p <= q -> (expo b p <= expo b q)%Z.
Proof.
  intros B P L. destruct (expo_spec b p B P) as [X _]. destruct (expo_spec b q B ltac:(lra)) as [_ Y]. assert (E : (expo b p < expo b q + 1)%Z) by (apply (bpow_lt_inv b); [exact B|lra]). lia.
Qed.

(** ** Rounding *)
Lemma bscaled b p q : (2 <= b)%Z -> 0 < q -> bpow b (p - 1) <= q / bpow b (expo b q - (p - 1)) < bpow b p.
Proof.
  intros B P. destruct (expo_spec b q B P) as [X Y]. assert (Q := bpow_pos b (expo b q - (p - 1)) B).
  assert (E1 : bpow b (expo b q) == bpow b (p - 1) * bpow b (expo b q - (p - 1))) by (rewrite <- bpow_plus by exact B; apply Qpower_comp; [reflexivity|lia]).
  assert (E2 : bpow b (expo b q + 1) == bpow b p * bpow b (expo b q - (p - 1))) by (rewrite <- bpow_plus by exact B; apply Qpower_comp; [reflexivity|lia]).
  rewrite E1 in X. rewrite E2 in Y. split; [apply Qle_shift_div_l|apply Qlt_shift_div_r]; assumption.
Qed.
Lemma rnd_pos_bounds b p q : (2 <= b)%Z -> (1 <= p)%Z -> 0 < q -> bpow b (expo b q) <= rnd_pos b p q <= bpow b (expo b q + 1).
Proof.
  intros B H P. destruct (bscaled b p q B P) as [X Y]. unfold rnd_pos. assert (Q := bpow_pos b (expo b q - (p - 1)) B).
  assert (E1 : bpow b (expo b q) == inject_Z (b ^ (p - 1)) * bpow b (expo b q - (p - 1))) by (rewrite <- (bpow_Z b (p - 1)) by lia; rewrite <- bpow_plus by exact B; apply Qpower_comp; [reflexivity|lia]).
  assert (E2 : bpow b (expo b q + 1) == inject_Z (b ^ p) * bpow b (expo b q - (p - 1))) by (rewrite <- (bpow_Z b p) by lia; rewrite <- bpow_plus by exact B; apply Qpower_comp; [reflexivity|lia]).
  rewrite E1, E2. rewrite (bpow_Z b (p - 1)) in X by lia. rewrite (bpow_Z b p) in Y by lia. split; (apply Qmult_le_r; [exact Q|]); rewrite <- Zle_Qle.
  - rewrite <- (nearest_Z (b ^ (p - 1))). apply nearest_mono, X.
  - rewrite <- (nearest_Z (b ^ p)). apply nearest_mono. lra.
Qed.
Lemma rnd_pos_mono b p x y : (2 <= b)%Z -> (1 <= p)%Z -> 0 < x -> x <= y -> rnd_pos b p x <= rnd_pos b p y.
Proof.
  intros B H P L. assert (M := expo_mono b x y B P L). destruct (Z.eq_dec (expo b x) (expo b y)) as [E|E].
  - unfold rnd_pos. rewrite E. assert (Q := bpow_pos b (expo b y - (p - 1)) B). apply Qmult_le_r; [exact Q|]. rewrite <- Zle_Qle. apply nearest_mono.
    apply Qle_shift_div_l; [exact Q|]. rewrite Qmult_comm, Qmult_div_r by lra. exact L.
  - destruct (rnd_pos_bounds b p x B H P) as [_ X]. destruct (rnd_pos_bounds b p y B H ltac:(lra)) as [Y _]. assert (C := bpow_le b (expo b x + 1) (expo b y) B ltac:(lia)). lra.
Qed.
Lemma rnd_pos_positive b p q : (2 <= b)%Z -> (1 <= p)%Z -> 0 < q -> 0 < rnd_pos b p q.
Proof. intros B H P. destruct (rnd_pos_bounds b p q B H P) as [X _]. assert (Y := bpow_pos b (expo b q) B). lra. Qed.
Lemma rnd_mono b p x y : (2 <= b)%Z -> (1 <= p)%Z -> x <= y -> rnd b p x <= rnd b p y.
Proof.
  intros B H L. unfold rnd. destruct (Qeqb_spec x 0) as [X|X], (Qeqb_spec y 0) as [Y|Y], (Qltb_spec x 0) as [X'|X'], (Qltb_spec y 0) as [Y'|Y']; try lra.
  - assert (Z := rnd_pos_positive b p y B H ltac:(lra)). lra.
  - assert (Z := rnd_pos_positive b p (- x) B H ltac:(lra)). lra.
  - assert (Z := rnd_pos_mono b p (- y) (- x) B H ltac:(lra) ltac:(lra)). lra.
  - assert (Z := rnd_pos_positive b p y B H ltac:(lra)). assert (W := rnd_pos_positive b p (- x) B H ltac:(lra)). lra.
  - apply rnd_pos_mono; auto; lra.
Qed.
Lemma rnd_opp b p x : (2 <= b)%Z -> (1 <= p)%Z -> rnd b p (- x) == - rnd b p x.
Proof.
  intros B H. assert (D : forall q q', 0 < q -> q == q' -> rnd_pos b p q == rnd_pos b p q') by (intros q q' P E; apply Qle_antisym; apply rnd_pos_mono; auto; lra).
  unfold rnd. destruct (Qeqb_spec (- x) 0), (Qeqb_spec x 0), (Qltb_spec (- x) 0), (Qltb_spec x 0); try lra; try reflexivity; rewrite (D (- - x) x) by lra; reflexivity.
Qed.

(** ** Numbers of p digits *)
Lemma rnd_pos_exact b p m e q : (2 <= b)%Z -> (1 <= p)%Z -> (0 < m <= b ^ p)%Z -> q == inject_Z m * bpow b e -> rnd_pos b p q == q.
Proof.
  intros B H M E. assert (Pm : 0 < inject_Z m) by (change 0 with (inject_Z 0); rewrite <- Zlt_Qlt; lia). assert (Pe := bpow_pos b e B).
  assert (P : 0 < q) by (rewrite E; apply Qmult_lt_0_compat; assumption). destruct (expo_spec b q B P) as [X Y]. set (k := expo b q) in *.
  assert (W : exists n, q / bpow b (k - (p - 1)) == inject_Z n).
  { destruct (Z.le_gt_cases (k - (p - 1)) e) as [G|G].
    - exists (m * b ^ (e - (k - (p - 1))))%Z. rewrite inject_Z_mult, <- bpow_Z by lia. rewrite E, (bpow_minus b e (k - (p - 1)) B). assert (Z := bpow_pos b (k - (p - 1)) B). field. lra.
    - exists (b ^ (p - 1))%Z. rewrite <- bpow_Z by lia. assert (Hi : q <= bpow b (e + p)).
      { rewrite E, Z.add_comm, bpow_plus by exact B. apply Qmult_le_r; [exact Pe|]. rewrite bpow_Z by lia. rewrite <- Zle_Qle. lia. }
      assert (Ek : (k <= e + p)%Z) by (apply Z.lt_succ_r, (bpow_lt_inv b); [exact B|]; apply Qle_lt_trans with (bpow b (e + p)); [lra|apply bpow_lt; [exact B|lia]]).
      assert (K : k = (e + p)%Z) by lia. rewrite K in *. assert (Q : q == bpow b (e + p)) by lra. rewrite Q. rewrite <- bpow_minus by exact B. apply Qpower_comp; [reflexivity|lia]. }
  destruct W as (n & W). unfold rnd_pos. fold k. rewrite (nearest_proper _ _ W), nearest_Z, <- W. assert (Z := bpow_pos b (k - (p - 1)) B). field. lra.
Qed.
Lemma rnd_exact b p x : (2 <= b)%Z -> (1 <= p)%Z -> digits b p x -> rnd b p x == x.
Proof.
  intros B H (m & e & M & E). fold (bpow b e) in E. assert (Pe := bpow_pos b e B). unfold rnd. destruct (Qeqb_spec x 0) as [X|X]; [lra|]. destruct (Qltb_spec x 0) as [L|L].
  - assert (S : (m < 0)%Z). { destruct (Z.lt_ge_cases m 0) as [S|S]; [exact S|exfalso]. rewrite Zle_Qle in S. change (inject_Z 0) with 0 in S. assert (0 <= inject_Z m * bpow b e) by (apply Qmult_le_0_compat; lra). lra. }
    rewrite (rnd_pos_exact b p (- m) e (- x) B H); [ring|lia|]. rewrite E, inject_Z_opp. ring.
  - assert (S : (0 < m)%Z). { destruct (Z.lt_ge_cases 0 m) as [S|S]; [exact S|exfalso]. rewrite Zle_Qle in S. change (inject_Z 0) with 0 in S. assert (0 <= - inject_Z m * bpow b e) by (apply Qmult_le_0_compat; lra). lra. }
    apply (rnd_pos_exact b p m e); [exact B|exact H|lia|exact E].
Qed.
Lemma rnd_pos_digits b p q : (2 <= b)%Z -> (1 <= p)%Z -> 0 < q -> digits b p (rnd_pos b p q).
Proof.
  intros B H P. destruct (bscaled b p q B P) as [X Y]. exists (nearest_even (q / bpow b (expo b q - (p - 1)))), (expo b q - (p - 1))%Z. split; [|reflexivity].
  rewrite (bpow_Z b (p - 1)) in X by lia. rewrite (bpow_Z b p) in Y by lia. assert (L := nearest_mono _ _ X). assert (U := nearest_mono _ _ (Qlt_le_weak _ _ Y)). rewrite nearest_Z in L, U. assert (Z.pow b (p - 1) > 0)%Z by (apply Z.lt_gt, Z.pow_pos_nonneg; lia). lia.
Qed.
Lemma bdigits_opp b p x : digits b p x -> digits b p (- x).
Proof. intros (m & e & M & E). exists (- m)%Z, e. split; [lia|]. rewrite E, inject_Z_opp. ring. Qed.
Lemma rnd_digits b p x : (2 <= b)%Z -> (1 <= p)%Z -> digits b p (rnd b p x).
Proof.
  intros B H. unfold rnd. destruct (Qeqb_spec x 0) as [X|X]; [exists 0%Z, 0%Z; split; [cbn [Z.abs]; apply Z.pow_nonneg; lia|reflexivity]|]. destruct (Qltb_spec x 0); [apply bdigits_opp|]; apply rnd_pos_digits; auto; lra.
Qed.

(** ** Error *)
Lemma rnd_pos_error b p q : (2 <= b)%Z -> 0 < q -> Qabs (rnd_pos b p q - q) <= (1#2) * bpow b (1 - p) * q.
Proof.
  intros B P. assert (N := nearest_error (q / bpow b (expo b q - (p - 1)))). unfold rnd_pos. set (e := (expo b q - (p - 1))%Z) in *. assert (Pe := bpow_pos b e B). set (n := inject_Z (nearest_even (q / bpow b e))) in *.
  assert (F : n * bpow b e - q == (n - q / bpow b e) * bpow b e) by (field; lra). rewrite F, Qabs_Qmult, (Qabs_pos (bpow b e)) by lra.
  destruct (expo_spec b q B P) as [X _]. assert (Pp := bpow_pos b (1 - p) B).
  assert (Z : bpow b e == bpow b (1 - p) * bpow b (expo b q)) by (rewrite <- bpow_plus by exact B; apply Qpower_comp; [reflexivity|unfold e; lia]).
  apply Qle_trans with ((1#2) * bpow b e); [apply Qmult_le_r; [exact Pe|exact N]|]. rewrite Z, Qmult_assoc. apply Qmult_le_l; [lra|exact X].
Qed.
Lemma rnd_error b p x : (2 <= b)%Z -> Qabs (rnd b p x - x) <= (1#2) * bpow b (1 - p) * Qabs x.
Proof.
  intros B. unfold rnd. destruct (Qeqb_spec x 0) as [X|X]; [rewrite X; change (Qabs 0) with 0; change (Qabs (0 - 0)) with 0; lra|]. destruct (Qltb_spec x 0) as [L|L].
  - assert (F := rnd_pos_error b p (- x) B ltac:(lra)). rewrite (Qabs_neg x) by lra. rewrite <- (Qabs_opp (- rnd_pos b p (- x) - x)). assert (Z : - (- rnd_pos b p (- x) - x) == rnd_pos b p (- x) - - x) by ring. now rewrite Z.
  - rewrite (Qabs_pos x) by lra. apply rnd_pos_error; [exact B|lra].
Qed.
Lemma rnd_rounding b p : (2 <= b)%Z -> (1 <= p)%Z -> rounding (rnd b p) ((1#2) * bpow b (1 - p)).
Proof.
  intros B H. constructor; intros.
  - apply rnd_mono; assumption.
  - apply rnd_exact; auto. apply rnd_digits; auto.
  - apply rnd_opp; assumption.
  - apply rnd_error; assumption.
Qed.
Lemma rounding_weak f u v : u == v -> rounding f u -> rounding f v.
Proof. intros E [A B C D]. constructor; auto. intros x. rewrite <- E. apply D. Qed.
Lemma dl_rounding : rounding dl u10.
Proof. apply rounding_weak with ((1#2) * bpow 10 (1 - 28)); [reflexivity|]. apply rnd_rounding; lia. Qed.
