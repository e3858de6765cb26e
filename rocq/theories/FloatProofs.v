(** The rounding to 53 digits: exponents, order, digits, error. *)
From Coq Require Import Qround Qabs Qpower Qminmax ZArith Lia Lqa Qfield.
From Verif Require Import PyBase RectModel FloatModel.
#[local] Open Scope Q_scope.

(** ** Powers of two *)
Lemma pow2_pos k : 0 < pow2 k. Proof. apply Qpower_0_lt. reflexivity. Qed.
Lemma pow2_plus a b : pow2 (a + b) == pow2 a * pow2 b. Proof. apply Qpower_plus. discriminate. Qed.
Lemma pow2_S a : pow2 (a + 1) == 2 * pow2 a. Proof. rewrite pow2_plus. unfold pow2 at 2. cbn. ring. Qed.
Lemma pow2_minus a b : pow2 (a - b) == pow2 a / pow2 b. Proof. apply Qpower_minus. discriminate. Qed.
Lemma pow2_le a b : (a <= b)%Z -> pow2 a <= pow2 b. Proof. intros H. apply Qpower_le_compat_l; [exact H|discriminate]. Qed.
Lemma pow2_lt a b : (a < b)%Z -> pow2 a < pow2 b. Proof. intros H. apply Qpower_lt_compat_l; [exact H|reflexivity]. Qed.
Lemma pow2_lt_inv a b : pow2 a < pow2 b -> (a < b)%Z.
Proof. intros H. destruct (Z.lt_ge_cases a b) as [L|L]; [exact L|]. apply pow2_le in L. exfalso. lra. Qed.
Lemma pow2_Z k : (0 <= k)%Z -> pow2 k == inject_Z (2 ^ k). Proof. intros H. symmetry. apply Zpower_Qpower, H. Qed.

(** ** Exponents *)
Lemma exponent_spec q : 0 < q -> pow2 (exponent q) <= q < pow2 (exponent q + 1).
Proof.
  intros P. unfold exponent. destruct q as [n d]. cbn [Qnum Qden]. set (a := Z.log2 n). set (b := Z.log2 (Zpos d)).
  assert (Pn : (0 < n)%Z) by (unfold Qlt in P; cbn [Qnum Qden] in P; lia). assert (La := Z.log2_spec n Pn). assert (Lb := Z.log2_spec (Zpos d) ltac:(lia)). fold a in La. fold b in Lb.
  assert (Na := Z.log2_nonneg n). assert (Nb := Z.log2_nonneg (Zpos d)). fold a in Na. fold b in Nb.
  assert (E : (n # d) * inject_Z (Zpos d) == inject_Z n) by (rewrite Qmake_Qdiv; field; discriminate).
  destruct La as [La1 La2], Lb as [Lb1 Lb2]. rewrite Zle_Qle in La1, Lb1. rewrite Zlt_Qlt in La2, Lb2.
  unfold Z.succ in *. rewrite <- pow2_Z in La1, La2, Lb1, Lb2 by lia. set (D := inject_Z (Zpos d)) in *. set (N := inject_Z n) in *. set (q := n # d) in *.
  assert (DP : 0 < D) by (unfold D, Qlt; cbn [inject_Z Qnum Qden]; lia). clearbody D N q.
  assert (X : pow2 a == pow2 (a - b - 1) * pow2 (b + 1)) by (rewrite <- pow2_plus; apply Qpower_comp; [reflexivity|lia]).
  assert (Y : pow2 (a + 1) == pow2 (a - b + 1) * pow2 b) by (rewrite <- pow2_plus; apply Qpower_comp; [reflexivity|lia]).
  assert (P1 := pow2_pos (a - b - 1)). assert (P2 := pow2_pos (a - b + 1)).
  assert (Lo : pow2 (a - b - 1) <= q).
  { apply Qmult_le_r with D; [exact DP|]. rewrite E. apply Qle_trans with (pow2 a); [|exact La1]. rewrite X. apply Qmult_le_l; [exact P1|]. lra. }
  assert (Hi : q < pow2 (a - b + 1)).
  { apply Qmult_lt_r with D; [exact DP|]. rewrite E. apply Qlt_le_trans with (pow2 (a + 1)); [exact La2|]. rewrite Y. apply Qmult_le_l; [exact P2|]. exact Lb1. }
  destruct (Qleb_spec (pow2 (a - b)) q) as [L|L]; [split; assumption|]. split; [exact Lo|]. replace (a - b - 1 + 1)%Z with (a - b)%Z by lia. lra.
Qed.
Lemma exponent_unique q k : 0 < q -> pow2 k <= q < pow2 (k + 1) -> exponent q = k.
Proof.
  intros P [A B]. destruct (exponent_spec q P) as [C D]. assert (E1 : (k < exponent q + 1)%Z) by (apply pow2_lt_inv; lra).
  assert (E2 : (exponent q < k + 1)%Z) by (apply pow2_lt_inv; lra). lia.
Qed.
Lemma exponent_mono p q : 0 < p -> p <= q -> (exponent p <= exponent q)%Z.
Proof.
  intros P L. destruct (exponent_spec p P) as [A _]. destruct (exponent_spec q ltac:(lra)) as [_ B]. assert (E : (exponent p < exponent q + 1)%Z) by (apply pow2_lt_inv; lra). lia.
Qed.

(** ** The nearest whole number *)
Lemma nearest_mono x y : x <= y -> (nearest_even x <= nearest_even y)%Z.
Proof.
  intros L. assert (F := Qfloor_resp_le x y L). unfold nearest_even. destruct (Z.eq_dec (Qfloor x) (Qfloor y)) as [E|E].
  - rewrite E. set (n := inject_Z (Qfloor y)).
    destruct (Qltb_spec (x - n) (1#2)), (Qltb_spec (y - n) (1#2)), (Qltb_spec (1#2) (x - n)), (Qltb_spec (1#2) (y - n)), (Z.even (Qfloor y)); try lia; exfalso; lra.
  - assert (G : (Qfloor x + 1 <= Qfloor y)%Z) by lia.
    destruct (x - inject_Z (Qfloor x) <?q 1#2), (1#2 <?q x - inject_Z (Qfloor x)), (Z.even (Qfloor x)), (y - inject_Z (Qfloor y) <?q 1#2), (1#2 <?q y - inject_Z (Qfloor y)), (Z.even (Qfloor y)); lia.
Qed.
Lemma nearest_Z n : nearest_even (inject_Z n) = n.
Proof. unfold nearest_even. rewrite Qfloor_Z. destruct (Qltb_spec (inject_Z n - inject_Z n) (1#2)) as [_|H]; [reflexivity|]. exfalso. lra. Qed.
Lemma nearest_proper x y : x == y -> nearest_even x = nearest_even y.
Proof. intros E. apply Z.le_antisymm; apply nearest_mono; rewrite E; apply Qle_refl. Qed.
Lemma nearest_error x : Qabs (inject_Z (nearest_even x) - x) <= 1#2.
Proof.
  assert (A := Qfloor_le x). assert (B := Qlt_floor x). rewrite inject_Z_plus in B. change (inject_Z 1) with 1 in B. apply Qabs_Qle_condition. unfold nearest_even.
  destruct (Qltb_spec (x - inject_Z (Qfloor x)) (1#2)), (Qltb_spec (1#2) (x - inject_Z (Qfloor x))), (Z.even (Qfloor x)); rewrite ?inject_Z_plus; change (inject_Z 1) with 1; split; lra.
Qed.

(** ** Rounding *)
Lemma scaled q : 0 < q -> pow2 52 <= q / pow2 (exponent q - 52) < pow2 53.
Proof.
  intros P. destruct (exponent_spec q P) as [A B]. assert (Q := pow2_pos (exponent q - 52)).
  assert (E1 : pow2 (exponent q) == pow2 52 * pow2 (exponent q - 52)) by (rewrite <- pow2_plus; apply Qpower_comp; [reflexivity|lia]).
  assert (E2 : pow2 (exponent q + 1) == pow2 53 * pow2 (exponent q - 52)) by (rewrite <- pow2_plus; apply Qpower_comp; [reflexivity|lia]).
  rewrite E1 in A. rewrite E2 in B. split; [apply Qle_shift_div_l|apply Qlt_shift_div_r]; assumption.
Qed.
Lemma fl_pos_bounds q : 0 < q -> pow2 (exponent q) <= fl_pos q <= pow2 (exponent q + 1).
Proof.
  intros P. destruct (scaled q P) as [A B]. unfold fl_pos. assert (Q := pow2_pos (exponent q - 52)).
  assert (E1 : pow2 (exponent q) == inject_Z (2 ^ 52) * pow2 (exponent q - 52)) by (rewrite <- (pow2_Z 52) by lia; rewrite <- pow2_plus; apply Qpower_comp; [reflexivity|lia]).
  assert (E2 : pow2 (exponent q + 1) == inject_Z (2 ^ 53) * pow2 (exponent q - 52)) by (rewrite <- (pow2_Z 53) by lia; rewrite <- pow2_plus; apply Qpower_comp; [reflexivity|lia]).
  rewrite E1, E2. rewrite (pow2_Z 52) in A by lia. rewrite (pow2_Z 53) in B by lia. split; (apply Qmult_le_r; [exact Q|]); rewrite <- Zle_Qle.
  - rewrite <- (nearest_Z (2 ^ 52)). apply nearest_mono, A.
  - rewrite <- (nearest_Z (2 ^ 53)). apply nearest_mono. lra.
Qed.
Lemma fl_pos_mono p q : 0 < p -> p <= q -> fl_pos p <= fl_pos q.
Proof.
  intros P L. assert (M := exponent_mono p q P L). destruct (Z.eq_dec (exponent p) (exponent q)) as [E|E].
  - unfold fl_pos. rewrite E. assert (Q := pow2_pos (exponent q - 52)). apply Qmult_le_r; [exact Q|]. rewrite <- Zle_Qle. apply nearest_mono.
    apply Qle_shift_div_l; [exact Q|]. rewrite Qmult_comm, Qmult_div_r by lra. exact L.
  - destruct (fl_pos_bounds p P) as [_ A]. destruct (fl_pos_bounds q ltac:(lra)) as [B _]. assert (C := pow2_le (exponent p + 1) (exponent q) ltac:(lia)). lra.
Qed.
Lemma fl_pos_positive q : 0 < q -> 0 < fl_pos q.
Proof. intros P. destruct (fl_pos_bounds q P) as [A _]. assert (B := pow2_pos (exponent q)). lra. Qed.
Lemma fl_mono x y : x <= y -> fl x <= fl y.
Proof.
  intros L. unfold fl. destruct (Qeqb_spec x 0) as [X|X], (Qeqb_spec y 0) as [Y|Y], (Qltb_spec x 0) as [X'|X'], (Qltb_spec y 0) as [Y'|Y']; try lra.
  - assert (A := fl_pos_positive y ltac:(lra)). lra.
  - assert (A := fl_pos_positive (- x) ltac:(lra)). lra.
  - assert (A := fl_pos_mono (- y) (- x) ltac:(lra) ltac:(lra)). lra.
  - assert (A := fl_pos_positive y ltac:(lra)). assert (B := fl_pos_positive (- x) ltac:(lra)). lra.
  - apply fl_pos_mono; lra.
Qed.
Lemma fl_proper x y : x == y -> fl x == fl y.
Proof. intros E. apply Qle_antisym; apply fl_mono; rewrite E; apply Qle_refl. Qed.
Lemma fl_zero : fl 0 == 0. Proof. reflexivity. Qed.
Lemma fl_opp x : fl (- x) == - fl x.
Proof.
  assert (D : forall p q, 0 < p -> p == q -> fl_pos p == fl_pos q) by (intros p q P E; apply Qle_antisym; apply fl_pos_mono; lra).
  unfold fl. destruct (Qeqb_spec (- x) 0), (Qeqb_spec x 0), (Qltb_spec (- x) 0), (Qltb_spec x 0); try lra; try reflexivity; rewrite (D (- - x) x) by lra; reflexivity.
Qed.

(** ** Numbers of 53 digits *)
Definition digits53 (x : Q) : Prop := exists m e, (Z.abs m <= 2 ^ 53)%Z /\ x == inject_Z m * pow2 e.
Lemma fl_pos_exact m e q : (0 < m <= 2 ^ 53)%Z -> q == inject_Z m * pow2 e -> fl_pos q == q.
Proof.
  intros M E. assert (Pm : 0 < inject_Z m) by (change 0 with (inject_Z 0); rewrite <- Zlt_Qlt; lia). assert (Pe := pow2_pos e).
  assert (P : 0 < q) by (rewrite E; apply Qmult_lt_0_compat; assumption). destruct (exponent_spec q P) as [A B]. set (k := exponent q) in *.
  assert (W : exists n, q / pow2 (k - 52) == inject_Z n).
  { destruct (Z.le_gt_cases (k - 52) e) as [G|G].
    - exists (m * 2 ^ (e - (k - 52)))%Z. rewrite inject_Z_mult, <- pow2_Z by lia. rewrite E, (pow2_minus e (k - 52)). assert (Z := pow2_pos (k - 52)). field. lra.
    - exists (2 ^ 52)%Z. rewrite <- pow2_Z by lia. assert (Hi : q <= pow2 (e + 53)).
      { rewrite E, Z.add_comm, pow2_plus. apply Qmult_le_r; [exact Pe|]. rewrite pow2_Z by lia. rewrite <- Zle_Qle. lia. }
      assert (Ek : (k <= e + 53)%Z) by (apply Z.lt_succ_r, pow2_lt_inv; apply Qle_lt_trans with (pow2 (e + 53)); [lra|apply pow2_lt; lia]).
      assert (K : k = (e + 53)%Z) by lia. rewrite K in *. assert (Q : q == pow2 (e + 53)) by lra. rewrite Q. rewrite <- pow2_minus. apply Qpower_comp; [reflexivity|lia]. }
  destruct W as (n & W). unfold fl_pos. fold k. rewrite (nearest_proper _ _ W), nearest_Z, <- W. assert (Z := pow2_pos (k - 52)). field. lra.
Qed.
Lemma fl_exact x : digits53 x -> fl x == x.
Proof.
  intros (m & e & M & E). assert (Pe := pow2_pos e). unfold fl. destruct (Qeqb_spec x 0) as [X|X]; [lra|]. destruct (Qltb_spec x 0) as [L|L].
  - assert (S : (m < 0)%Z). { destruct (Z.lt_ge_cases m 0) as [S|S]; [exact S|exfalso]. rewrite Zle_Qle in S. change (inject_Z 0) with 0 in S. assert (0 <= inject_Z m * pow2 e) by (apply Qmult_le_0_compat; lra). lra. }
    rewrite (fl_pos_exact (- m) e (- x)); [ring|lia|]. rewrite E, inject_Z_opp. ring.
  - assert (S : (0 < m)%Z). { destruct (Z.lt_ge_cases 0 m) as [S|S]; [exact S|exfalso]. rewrite Zle_Qle in S. change (inject_Z 0) with 0 in S. assert (0 <= - inject_Z m * pow2 e) by (apply Qmult_le_0_compat; lra). lra. }
    apply (fl_pos_exact m e); [lia|exact E].
Qed.
Lemma fl_pos_digits q : 0 < q -> digits53 (fl_pos q).
Proof.
  intros P. destruct (scaled q P) as [A B]. exists (nearest_even (q / pow2 (exponent q - 52))), (exponent q - 52)%Z. split; [|reflexivity].
  rewrite (pow2_Z 52) in A by lia. rewrite (pow2_Z 53) in B by lia. assert (L := nearest_mono _ _ A). assert (U := nearest_mono _ _ (Qlt_le_weak _ _ B)). rewrite nearest_Z in L, U. lia.
Qed.
Lemma digits_opp x : digits53 x -> digits53 (- x).
Proof. intros (m & e & M & E). exists (- m)%Z, e. split; [lia|]. rewrite E, inject_Z_opp. ring. Qed.
Lemma fl_digits x : digits53 (fl x).
Proof.
  unfold fl. destruct (Qeqb_spec x 0) as [X|X]; [exists 0%Z, 0%Z; split; [cbn; lia|reflexivity]|]. destruct (Qltb_spec x 0); [apply digits_opp|]; apply fl_pos_digits; lra.
Qed.
Lemma fl_idem x : fl (fl x) == fl x. Proof. apply fl_exact, fl_digits. Qed.
Lemma digits_fl x : digits53 x <-> fl x == x.
Proof. split; [apply fl_exact|]. intros E. destruct (fl_digits x) as (m & e & M & F). exists m, e. split; [exact M|]. now rewrite <- E. Qed.

(** ** Error: relative, and no other number of 53 digits is nearer *)
Lemma fl_pos_error q : 0 < q -> Qabs (fl_pos q - q) <= pow2 (-53) * q.
Proof.
  intros P. assert (N := nearest_error (q / pow2 (exponent q - 52))). unfold fl_pos. set (e := (exponent q - 52)%Z) in *. assert (Pe := pow2_pos e). set (n := inject_Z (nearest_even (q / pow2 e))) in *.
  assert (F : n * pow2 e - q == (n - q / pow2 e) * pow2 e) by (field; lra). rewrite F, Qabs_Qmult, (Qabs_pos (pow2 e)) by lra.
  destruct (exponent_spec q P) as [A _]. assert (H : pow2 (-53) * q >= (1#2) * pow2 e).
  { assert (X : (1#2) * pow2 e == pow2 (-53) * pow2 (exponent q)). { change (1#2) with (pow2 (-1)). rewrite <- !pow2_plus. apply Qpower_comp; [reflexivity|unfold e; lia]. }
    rewrite X. apply Qmult_le_l; [apply pow2_pos|exact A]. }
  apply Qle_trans with ((1#2) * pow2 e); [|exact H]. apply Qmult_le_r; [exact Pe|exact N].
Qed.
Lemma fl_error x : Qabs (fl x - x) <= pow2 (-53) * Qabs x.
Proof.
  unfold fl. destruct (Qeqb_spec x 0) as [X|X]; [rewrite X; change (Qabs 0) with 0; change (Qabs (0 - 0)) with 0; lra|]. destruct (Qltb_spec x 0) as [L|L].
  - assert (F := fl_pos_error (- x) ltac:(lra)). rewrite (Qabs_neg x) by lra. rewrite <- (Qabs_opp (- fl_pos (- x) - x)). assert (Z : - (- fl_pos (- x) - x) == fl_pos (- x) - - x) by ring. now rewrite Z.
  - rewrite (Qabs_pos x) by lra. apply fl_pos_error. lra.
Qed.
Lemma fl_nearest x y : digits53 y -> Qabs (fl x - x) <= Qabs (y - x).
Proof.
  intros D. assert (E := fl_exact y D).
  (* reduce to positive x *)
  assert (W : forall x y, 0 < x -> digits53 y -> Qabs (fl_pos x - x) <= Qabs (y - x)).
  { clear. intros x y P D. destruct (scaled x P) as [A B]. unfold fl_pos. set (e := (exponent x - 52)%Z) in *. assert (Pe := pow2_pos e).
    set (s := x / pow2 e) in *. set (n := nearest_even s).
    assert (F : inject_Z n * pow2 e - x == (inject_Z n - s) * pow2 e) by (unfold s; field; lra).
    assert (Nn := nearest_error s). fold n in Nn.
    (* a nearer y would be strictly between two neighbours on the grid of e *)
    destruct (Qlt_le_dec (Qabs (y - x)) (Qabs (inject_Z n * pow2 e - x))) as [C|C]; [exfalso|exact C].
    rewrite F, Qabs_Qmult, (Qabs_pos (pow2 e)) in C by lra.
    assert (Cl : Qabs (y - x) < (1#2) * pow2 e) by (apply Qlt_le_trans with (1 := C); apply Qmult_le_r; assumption).
    assert (Lx : pow2 52 * pow2 e <= x) by (assert (Z : x == s * pow2 e) by (unfold s; field; lra); rewrite Z; apply Qmult_le_r; assumption).
    assert (Yb : (pow2 52 - (1#2)) * pow2 e < y) by (apply Qabs_Qlt_condition in Cl; lra).
    destruct D as (m & k & M & Ey).
    assert (Yp : 0 < y). { apply Qlt_trans with ((pow2 52 - (1#2)) * pow2 e); [|exact Yb]. apply Qmult_lt_0_compat; [|exact Pe]. vm_compute. reflexivity. }
    (* y is on the grid of e, or at least of half of it *)
    destruct (Z.le_gt_cases e k) as [G|G].
    - assert (Wy : y == inject_Z (m * 2 ^ (k - e)) * pow2 e). { rewrite inject_Z_mult, <- pow2_Z by lia. rewrite Ey, (pow2_minus k e). field. lra. }
      set (j := (m * 2 ^ (k - e))%Z) in *. assert (Zj : y - x == (inject_Z j - s) * pow2 e) by (rewrite Wy; unfold s; field; lra).
      rewrite Zj, Qabs_Qmult, (Qabs_pos (pow2 e)) in C, Cl by lra. apply Qmult_lt_r in C; [|exact Pe]. apply Qmult_lt_r in Cl; [|exact Pe].
      assert (J : j = n).
      { apply Qabs_Qlt_condition in Cl. apply Qabs_Qle_condition in Nn. destruct (Z.lt_trichotomy j n) as [T|[T|T]]; [exfalso|exact T|exfalso].
        - assert (T' : (j + 1 <= n)%Z) by lia. rewrite Zle_Qle, inject_Z_plus in T'. change (inject_Z 1) with 1 in T'. lra.
        - assert (T' : (n + 1 <= j)%Z) by lia. rewrite Zle_Qle, inject_Z_plus in T'. change (inject_Z 1) with 1 in T'. lra. }
      rewrite J in C. lra.
    - (* k < e: y <= 2^53 2^k <= 2^52 2^e <= x, so 2^52 2^e is as near, and it is rounded to something nearer *)
      assert (Yu : y <= pow2 52 * pow2 e).
      { rewrite Ey. apply Qle_trans with (pow2 53 * pow2 k); [apply Qmult_le_r; [apply pow2_pos|]; rewrite pow2_Z by lia; rewrite <- Zle_Qle; lia|].
        rewrite <- !pow2_plus. apply pow2_le. lia. }
      assert (N52 : (2 ^ 52 <= n)%Z) by (rewrite <- (nearest_Z (2 ^ 52)); apply nearest_mono; rewrite <- pow2_Z by lia; exact A). rewrite Zle_Qle, <- pow2_Z in N52 by lia.
      rewrite (Qabs_neg (y - x)) in C, Cl by lra. assert (Sx : x == s * pow2 e) by (unfold s; field; lra).
      assert (C1 : (s - pow2 52) * pow2 e < Qabs (inject_Z n - s) * pow2 e) by (apply Qle_lt_trans with (2 := C); rewrite Sx at 1 || idtac; lra).
      apply Qmult_lt_r in C1; [|exact Pe].
      assert (Sm : s < pow2 52 + (1#2)). { apply Qmult_lt_r with (pow2 e); [exact Pe|]. rewrite <- Sx. lra. }
      assert (Fs : Qfloor s = (2 ^ 52)%Z).
      { assert (L1 := Qfloor_resp_le _ _ A). rewrite (Qfloor_comp _ _ (pow2_Z 52 ltac:(lia))), Qfloor_Z in L1. assert (L2 := Qfloor_le s).
        destruct (Z.eq_dec (Qfloor s) (2 ^ 52)) as [T|T]; [exact T|exfalso]. assert (T' : (2 ^ 52 + 1 <= Qfloor s)%Z) by lia. rewrite Zle_Qle, inject_Z_plus, <- pow2_Z in T' by lia. change (inject_Z 1) with 1 in T'. lra. }
      assert (En : n = (2 ^ 52)%Z). { unfold n, nearest_even. rewrite Fs. destruct (Qltb_spec (s - inject_Z (2 ^ 52)) (1#2)) as [_|T]; [reflexivity|exfalso]. rewrite <- pow2_Z in T by lia. lra. }
      rewrite En, <- pow2_Z in C1 by lia. rewrite Qabs_neg in C1 by lra. lra. }
  unfold fl. destruct (Qeqb_spec x 0) as [X|X]; [rewrite X; cbn; apply Qabs_nonneg|]. destruct (Qltb_spec x 0) as [L|L].
  - specialize (W (- x) (- y) ltac:(lra) (digits_opp y D)). assert (Z1 : - fl_pos (- x) - x == - (fl_pos (- x) - - x)) by ring. assert (Z2 : y - x == - (- y - - x)) by ring. rewrite Z1, Z2, !Qabs_opp. exact W.
  - apply W; [lra|exact D].
Qed.
