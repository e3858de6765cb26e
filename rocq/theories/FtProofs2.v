From Coq Require Import NArith ZArith QArith Qabs Qfield Lia Lqa List.
From Verif Require Import PyBase MatrixModel PathModel LayoutModel MatrixSpec FtModel FtSpec FtProofs.
Import ListNotations.
#[local] Open Scope Q_scope.

Lemma trunc_fixed z : trunc (inject_Z z / 65536 * 65536) = z.
Proof.
  unfold trunc, Qdiv, Qmult, inject_Z. cbn [Qnum Qden Qinv]. change (Zpos (1 * 65536 * 1)) with 65536%Z. change (Qnum (/ 65536)) with 1%Z. rewrite ?Z.mul_1_r. apply Z.quot_mul. lia.
Qed.
Lemma trunc_near q : Qabs (inject_Z (trunc q) - q) < 1 /\ Qabs (inject_Z (trunc q)) <= Qabs q.
Proof.
  destruct q as [n d]. unfold trunc. cbn [Qnum Qden]. assert (D := Z.quot_rem n (Zpos d) ltac:(lia)). assert (R := Z.rem_bound_abs n (Zpos d) ltac:(lia)).
  assert (A : (Z.abs (Z.quot n (Zpos d)) * Zpos d <= Z.abs n)%Z).
  { rewrite <- (Z.abs_eq (Zpos d)) at 2 by lia. rewrite <- Z.quot_abs by lia. cbn [Z.abs]. rewrite Z.mul_comm. apply Z.mul_quot_le; lia. }
  split.
  - unfold Qlt, Qabs, Qminus, Qplus, Qopp, inject_Z. cbn [Qnum Qden]. rewrite Pos.mul_1_l. rewrite !Z.mul_1_r, Z.mul_1_l.
    replace (Z.quot n (Zpos d) * Zpos d + - n)%Z with (- Z.rem n (Zpos d))%Z by lia. rewrite Z.abs_opp. cbn [Z.abs] in R. exact R.
  - unfold Qle, Qabs, inject_Z. cbn [Qnum Qden]. rewrite Z.mul_1_r. exact A.
Qed.
(** an entry of 16.16 is within 1/65536 of the number, and no larger *)
Lemma fixed_near q : Qabs (inject_Z (trunc (q * 65536)) / 65536 - q) < 1 / 65536 /\ Qabs (inject_Z (trunc (q * 65536)) / 65536) <= Qabs q.
Proof.
  destruct (trunc_near (q * 65536)) as [A B]. set (z := inject_Z (trunc (q * 65536))) in *. split.
  - setoid_replace (z / 65536 - q) with ((z - q * 65536) * (1 # 65536)) by (unfold Qdiv; change (/ 65536) with (1 # 65536); ring).
    rewrite Qabs_Qmult. change (Qabs (1 # 65536)) with (1 # 65536). change (1 / 65536) with (1 * (1 # 65536)). apply Qmult_lt_r; [reflexivity|exact A].
  - rewrite Qabs_Qmult in B. change (Qabs 65536) with 65536 in B. unfold Qdiv. rewrite Qabs_Qmult. change (Qabs (/ 65536)) with (1 # 65536).
    apply (Qmult_le_r _ _ (1 # 65536)) in B; [|reflexivity]. rewrite <- Qmult_assoc in B. change (65536 * (1 # 65536)) with (65536 # 65536) in B. setoid_replace (65536 # 65536) with 1 in B by reflexivity.
    rewrite Qmult_1_r in B. exact B.
Qed.
Lemma part_near a b x y : Qabs a < 1 / 65536 -> Qabs b < 1 / 65536 -> Qabs (a * x + b * y) <= (Qabs x + Qabs y) / 65536.
Proof.
  intros A B. eapply Qle_trans; [apply Qabs_triangle|]. rewrite !Qabs_Qmult. assert (X := Qabs_nonneg x). assert (Y := Qabs_nonneg y).
  unfold Qdiv in *. change (/ 65536) with (1 # 65536) in *. rewrite Qmult_1_l in A, B.
  assert (P1 : Qabs a * Qabs x <= (1 # 65536) * Qabs x) by (apply Qmult_le_compat_r; [now apply Qlt_le_weak|exact X]).
  assert (P2 : Qabs b * Qabs y <= (1 # 65536) * Qabs y) by (apply Qmult_le_compat_r; [now apply Qlt_le_weak|exact Y]). lra.
Qed.

(** ** Tags *)
#[local] Open Scope N_scope.
Lemma bits_over b n k : b < 2 ^ n -> n <= k -> N.testbit b k = false.
Proof.
  intros H L. destruct (N.eq_dec b 0) as [->|Z]; [apply N.bits_0|]. apply N.bits_above_log2. apply N.log2_lt_pow2; [lia|].
  apply N.lt_le_trans with (2 ^ n); [exact H|]. apply N.pow_le_mono_r; lia.
Qed.
Lemma lor_add a b n : b < 2 ^ n -> N.lor (N.shiftl a n) b = a * 2 ^ n + b.
Proof.
  intros H. rewrite N.shiftl_mul_pow2.
  assert (L : N.land (a * 2 ^ n) b = 0).
  { apply N.bits_inj_0. intros k. rewrite N.land_spec. destruct (N.ltb_spec k n); [now rewrite N.mul_pow2_bits_low|]. rewrite (bits_over b n k H) by assumption. apply andb_false_r. }
  now rewrite <- N.lxor_lor, <- N.add_nocarry_lxor.
Qed.
Lemma tag_value c1 c2 c3 c4 : c2 < 256 -> c3 < 256 -> c4 < 256 -> ft_tag c1 c2 c3 c4 = ((c1 * 256 + c2) * 256 + c3) * 256 + c4.
Proof.
  intros B C D. unfold ft_tag.
  replace (N.lor (N.lor (N.lor (N.shiftl c1 24) (N.shiftl c2 16)) (N.shiftl c3 8)) c4) with
    (N.lor (N.shiftl (N.lor (N.shiftl (N.lor (N.shiftl c1 8) c2) 8) c3) 8) c4).
  - rewrite !(lor_add _ _ 8) by assumption. reflexivity.
  - f_equal. rewrite N.shiftl_lor. f_equal. rewrite N.shiftl_shiftl. rewrite N.shiftl_lor, N.shiftl_shiftl. reflexivity.
Qed.
Lemma tag_string t : t < 256 * 256 * 256 * 1114112 -> ft_tag_to_string t = Ok [t / 16777216; (t / 65536) mod 256; (t / 256) mod 256; t mod 256].
Proof.
  intros H. unfold ft_tag_to_string. rewrite !N.shiftr_div_pow2. change 255 with (N.ones 8). rewrite !N.land_ones. change (2 ^ 24) with 16777216. change (2 ^ 16) with 65536. change (2 ^ 8) with 256.
  destruct (N.leb_spec (t / 16777216) 1114111); [reflexivity|]. assert (t / 16777216 < 1114112); [|lia]. apply N.div_lt_upper_bound; lia.
Qed.
