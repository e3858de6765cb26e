(** Proofs about number formatting. *)
From Verif Require Import PyBase PyText FormatModel FormatSpec.
From Coq Require Import Qabs Qfield.
Local Open Scope N_scope.

Lemma pow10_pos k : 0 < 10 ^ k.
Proof. pose proof (N.pow_nonzero 10 k). lia. Qed.

Lemma rhe_spec a b : 0 < b -> let r := rhe a b in
  2 * (r * b) <= 2 * a + b /\ 2 * a <= 2 * (r * b) + b /\
  (2 * (r * b) = 2 * a + b \/ 2 * a = 2 * (r * b) + b -> N.even r = true).
Proof.
  intros Hb; cbn zeta. unfold rhe.
  pose proof (N.div_mod a b ltac:(lia)) as D. pose proof (N.mod_lt a b ltac:(lia)) as M.
  set (q := a / b) in *. set (m := a mod b) in *. clearbody q m.
  destruct (N.compare_spec (2 * m) b) as [E|E|E].
  - destruct (N.even q) eqn:Ev.
    + repeat split; try nia. intros _; exact Ev.
    + repeat split; try nia. intros _. rewrite N.add_1_r, N.even_succ, <- N.negb_even, Ev. reflexivity.
  - repeat split; try nia.
  - repeat split; try nia.
Qed.

Lemma even_succ_contra r : N.even r = true -> N.even (r + 1) = true -> False.
Proof. intros A B. rewrite N.add_1_r, N.even_succ, <- N.negb_even, A in B. discriminate. Qed.

Lemma rhe_unique a b a' b' : 0 < b -> 0 < b' -> a * b' = a' * b -> rhe a b = rhe a' b'.
Proof.
  intros Hb Hb' E.
  pose proof (rhe_spec a b Hb) as (L1 & U1 & T1). pose proof (rhe_spec a' b' Hb') as (L2 & U2 & T2).
  cbn zeta in *. set (r := rhe a b) in *. set (s := rhe a' b') in *. clearbody r s.
  destruct (N.lt_trichotomy r s) as [H|[H|H]]; [|exact H|].
  - exfalso.
    assert (X1 : 2 * (s * b' * b) <= 2 * (a' * b) + b' * b) by nia.
    assert (X2 : 2 * (a * b') <= 2 * (r * b * b') + b * b') by nia.
    rewrite E in X2.
    assert (s = r + 1) as -> by nia.
    assert (Y : 2 * (a' * b) = 2 * (r * b * b') + b * b') by nia.
    apply (even_succ_contra r); [apply T1|apply T2]; [right|left]; nia.
  - exfalso.
    assert (X1 : 2 * (r * b * b') <= 2 * (a * b') + b' * b) by nia.
    assert (X2 : 2 * (a' * b) <= 2 * (s * b' * b) + b * b') by nia.
    rewrite E in X1.
    assert (r = s + 1) as -> by nia.
    apply (even_succ_contra s); [apply T2|apply T1]; [right|left]; nia.
Qed.

Lemma rhe_exact k b : 0 < b -> rhe (k * b) b = k.
Proof.
  intros Hb. unfold rhe. rewrite N.div_mul, N.mod_mul by lia.
  destruct (N.compare_spec (2 * 0) b); try lia; reflexivity.
Qed.

(** respects equality of rationals *)
Lemma scaled_Qeq p x y : (x == y)%Q -> scaled p x = scaled p y.
Proof.
  unfold Qeq, scaled. intros H. apply rhe_unique; try lia.
  set (P := 10 ^ N.of_nat p). clearbody P.
  assert (E : (Z.abs (Qnum x) * QDen y = Z.abs (Qnum y) * QDen x)%Z).
  { rewrite <- (Z.abs_eq (QDen y)), <- (Z.abs_eq (QDen x)) by lia.
    rewrite <- !Z.abs_mul. now rewrite H. }
  apply N2Z.inj. rewrite !N2Z.inj_mul, !Z2N.id by lia. cbn [Z.of_N]. nia.
Qed.
Lemma negative_Qeq x y : (x == y)%Q -> negative x = negative y.
Proof.
  unfold Qeq, negative. intros H.
  destruct (Z.ltb_spec (Qnum x) 0), (Z.ltb_spec (Qnum y) 0); try reflexivity; nia.
Qed.
Lemma format_number_Qeq p x y : (x == y)%Q -> format_number p x = format_number p y.
Proof.
  intros H. unfold format_number, fixed. now rewrite (scaled_Qeq p x y H), (negative_Qeq x y H).
Qed.

Lemma scaled_exact p x k : (Qabs x == Qof k / Qof (10 ^ N.of_nat p))%Q -> scaled p x = k.
Proof.
  unfold scaled, Qof. pose proof (pow10_pos (N.of_nat p)) as HP.
  set (P := 10 ^ N.of_nat p) in *. clearbody P. intros H.
  rewrite <- (rhe_exact k (Npos (Qden x))) by lia.
  assert (HQ : (Qabs x * inject_Z (Z.of_N P) == inject_Z (Z.of_N k))%Q).
  { rewrite H. field. unfold Qeq; cbn. lia. }
  destruct x as [n d]; cbn [Qnum Qden] in *.
  apply rhe_unique; try lia.
  unfold Qeq, Qabs, inject_Z, Qmult in HQ; cbn [Qnum Qden] in HQ.
  apply N2Z.inj. rewrite !N2Z.inj_mul, !Z2N.id by lia. cbn [Z.of_N]. nia.
Qed.

(** distance *)
Lemma scaled_near p x :
  (Qabs (Qof (scaled p x) / Qof (10 ^ N.of_nat p) - Qabs x) <= (1 # 2) / Qof (10 ^ N.of_nat p))%Q.
Proof.
  unfold scaled. pose proof (pow10_pos (N.of_nat p)) as HP.
  set (P := 10 ^ N.of_nat p) in *. clearbody P.
  destruct x as [n d]; cbn [Qnum Qden].
  pose proof (rhe_spec (Z.to_N (Z.abs n) * P) (Npos d) ltac:(lia)) as (L & U & _). cbn zeta in *.
  set (r := rhe _ _) in *. clearbody r.
  assert (HPq : (0 < Qof P)%Q) by (unfold Qof, Qlt; cbn; lia).
  assert (A : (Qabs (n # d) == inject_Z (Z.abs n) / inject_Z (Zpos d))%Q).
  { unfold Qabs, Qeq, Qdiv, Qmult, Qinv, inject_Z; cbn. lia. }
  set (R := Qof r). set (Pq := Qof P) in *. set (m := inject_Z (Z.abs n)) in *.
  set (dq := inject_Z (Zpos d)) in *.
  assert (Hd : (0 < dq)%Q) by (unfold dq, Qlt; cbn; lia).
  assert (L' : (2 * (R * dq) <= 2 * (m * Pq) + dq)%Q).
  { unfold R, dq, m, Pq, Qof. assert (X : (2 * (Z.of_N r * Zpos d) <= 2 * (Z.abs n * Z.of_N P) + Zpos d)%Z) by lia.
    rewrite Zle_Qle in X. rewrite !inject_Z_plus, !inject_Z_mult in X. exact X. }
  assert (U' : (2 * (m * Pq) <= 2 * (R * dq) + dq)%Q).
  { unfold R, dq, m, Pq, Qof. assert (X : (2 * (Z.abs n * Z.of_N P) <= 2 * (Z.of_N r * Zpos d) + Zpos d)%Z) by lia.
    rewrite Zle_Qle in X. rewrite !inject_Z_plus, !inject_Z_mult in X. exact X. }
  rewrite A. apply Qabs_Qle_condition.
  assert (E : (R / Pq - m / dq == (2 * (R * dq) - 2 * (m * Pq)) / (2 * (Pq * dq)))%Q).
  { field. split; intro H; rewrite H in *; lra. }
  assert (E2 : ((1 # 2) / Pq == dq / (2 * (Pq * dq)))%Q).
  { field. split; intro H; rewrite H in *; lra. }
  rewrite E, E2.
  assert (HD : (0 < 2 * (Pq * dq))%Q) by nra.
  split.
  - apply Qle_shift_div_l; [exact HD|].
    setoid_replace (- (dq / (2 * (Pq * dq))) * (2 * (Pq * dq)))%Q with (- dq)%Q
      by (field; split; intro H; rewrite H in *; lra). lra.
  - apply Qle_shift_div_r; [exact HD|].
    setoid_replace (dq / (2 * (Pq * dq)) * (2 * (Pq * dq)))%Q with dq
      by (field; split; intro H; rewrite H in *; lra). lra.
Qed.

(** the fraction digits *)
Lemma frac_length p : forall k, length (frac p k) = p.
Proof. induction p as [|p IH]; intros k; cbn; [reflexivity|]. rewrite app_length, IH; cbn; lia. Qed.
Lemma frac_digits p : forall k, forallb is_digit (frac p k) = true.
Proof.
  induction p as [|p IH]; intros k; cbn [frac]; [reflexivity|].
  rewrite forallb_app, IH. cbn [forallb]. rewrite is_digit_48; [reflexivity|].
  apply N.mod_lt; lia.
Qed.
Lemma frac_val p : forall k, k < 10 ^ N.of_nat p -> digits_val (frac p k) = k.
Proof.
  induction p as [|p IH]; intros k Hk; cbn [frac].
  - cbn in *. change (10 ^ 0) with 1 in Hk. unfold digits_val; cbn. lia.
  - rewrite digits_val_snoc, dval_48, IH.
    + pose proof (N.div_mod k 10). lia.
    + rewrite Nat2N.inj_succ, N.pow_succ_r' in Hk. apply N.div_lt_upper_bound; lia.
Qed.

Definition strip0 (f : text) : text := rdropwhile (N.eqb 48) f.
Lemma zeros_val z : forallb (N.eqb 48) z = true -> digits_val z = 0.
Proof.
  induction z as [|c z IH] using rev_ind; [reflexivity|].
  rewrite forallb_app; cbn [forallb]. rewrite andb_true_r. intros H; apply andb_prop in H as [H1 H2].
  rewrite digits_val_snoc, IH by exact H1. apply N.eqb_eq in H2; subst c. reflexivity.
Qed.

Lemma Qof_mul a b : (Qof (a * b) == Qof a * Qof b)%Q.
Proof. unfold Qof. rewrite N2Z.inj_mul, inject_Z_mult. reflexivity. Qed.
Lemma Qof_add a b : (Qof (a + b) == Qof a + Qof b)%Q.
Proof. unfold Qof. rewrite N2Z.inj_add, inject_Z_plus. reflexivity. Qed.
Lemma Qof_pos a : 0 < a -> (0 < Qof a)%Q.
Proof. intros H. unfold Qof, Qlt; cbn. lia. Qed.

Lemma dec_value_zeros i f z : forallb (N.eqb 48) z = true ->
  (dec_value i (f ++ z) == dec_value i f)%Q.
Proof.
  intros Hz. unfold dec_value. rewrite digits_val_app_len, (zeros_val z Hz), N.add_0_r, app_length.
  rewrite Nat2N.inj_add, N.pow_add_r, !Qof_mul.
  pose proof (Qof_pos _ (pow10_pos (N.of_nat (length f)))).
  pose proof (Qof_pos _ (pow10_pos (N.of_nat (length z)))).
  field. split; intro E; rewrite E in *; lra.
Qed.

Lemma rev_head_last (f : N -> bool) a x : f x = false -> head_not f (rev (a ++ [x])) = true.
Proof. intros H. rewrite rev_app_distr. cbn. now rewrite H. Qed.
Lemma rev_head_app (f : N -> bool) a b : b <> [] -> head_not f (rev b) = true -> head_not f (rev (a ++ b)) = true.
Proof.
  intros Hb H. rewrite rev_app_distr. destruct (rev b) as [|c r] eqn:E; [|exact H].
  exfalso; apply Hb. rewrite <- (rev_involutive b), E. reflexivity.
Qed.

(** shape of a formatted number *)
Definition shape (s i f : text) : text := s ++ i ++ match f with [] => [] | _ => 46 :: f end.

Lemma digit_not_46 c : is_digit c = true -> (46 =? c) = false.
Proof. unfold is_digit. intros H; apply andb_prop in H as [H1 H2]. apply N.leb_le in H1. apply N.eqb_neq; lia. Qed.

Lemma strip_fixed s i f : i <> [] -> forallb is_digit i = true -> forallb is_digit f = true ->
  rstrip 46 (rstrip 48 (s ++ i ++ [46] ++ f)) = shape s i (strip0 f).
Proof.
  intros Hi Di Df. unfold rstrip.
  destruct (rdropwhile_split (N.eqb 48) f) as (z & Ef & Hz). fold (strip0 f) in Ef.
  rewrite Ef at 1. rewrite !app_assoc, rdropwhile_app by exact Hz.
  destruct (strip0 f) as [|c0 f0] eqn:S.
  - rewrite app_nil_r. rewrite (rdropwhile_id (N.eqb 48)); [|now apply rev_head_last].
    rewrite rdropwhile_app by reflexivity.
    rewrite rdropwhile_id; [unfold shape; now rewrite app_nil_r|].
    apply rev_head_app; [exact Hi|].
    destruct (rev i) as [|c r] eqn:E; [reflexivity|]. cbn [head_not]. rewrite digit_not_46; [reflexivity|].
    rewrite forallb_forall in Di. apply Di. rewrite in_rev, E. now left.
  - assert (Hne : c0 :: f0 <> []) by discriminate.
    destruct (exists_last Hne) as (a & x & Ea).
    assert (Hx : (48 =? x) = false).
    { apply (rdropwhile_last (N.eqb 48) f a x). fold (strip0 f). now rewrite S. }
    assert (Dx : is_digit x = true).
    { rewrite forallb_forall in Df. apply Df. rewrite Ef, Ea. apply in_or_app; left. apply in_or_app; right; now left. }
    rewrite Ea.
    rewrite (rdropwhile_id (N.eqb 48)); [|rewrite app_assoc; now apply rev_head_last].
    rewrite rdropwhile_id.
    + rewrite <- Ea. unfold shape. rewrite <- !app_assoc. reflexivity.
    + rewrite app_assoc. apply rev_head_last. now apply digit_not_46.
Qed.

Lemma strip0_digits f : forallb is_digit f = true -> forallb is_digit (strip0 f) = true.
Proof.
  intros H. destruct (rdropwhile_split (N.eqb 48) f) as (z & E & _). fold (strip0 f) in E.
  rewrite E, forallb_app in H. now apply andb_prop in H.
Qed.
Lemma strip0_end f a : strip0 f <> a ++ [48].
Proof. intros H. apply rdropwhile_last in H. discriminate. Qed.
Lemma strip0_value i f : (dec_value i (strip0 f) == dec_value i f)%Q.
Proof.
  destruct (rdropwhile_split (N.eqb 48) f) as (z & E & Hz). fold (strip0 f) in E.
  rewrite E at 2. symmetry. now apply dec_value_zeros.
Qed.

(** numeral of a shape *)
Lemma head_digit_pt f : forallb is_digit f = true ->
  head_not is_digit (match f with [] => [] | _ => 46 :: f end) = true.
Proof. destruct f; reflexivity. Qed.

Lemma unsigned_shape i f : i <> [] -> forallb is_digit i = true -> forallb is_digit f = true ->
  unsigned_value (shape [] i f) = Some (dec_value i f).
Proof.
  intros Hi Di Df. unfold unsigned_value, shape; cbn [app].
  rewrite takewhile_app, dropwhile_app_stop by (try assumption; now apply head_digit_pt).
  destruct i as [|c i]; [congruence|].
  destruct f as [|d f]; [reflexivity|]. rewrite Df. reflexivity.
Qed.
Lemma numeral_shape_pos i f : i <> [] -> forallb is_digit i = true -> forallb is_digit f = true ->
  numeral (shape [] i f) = Some (dec_value i f).
Proof.
  intros Hi Di Df. rewrite <- (unsigned_shape i f) by assumption.
  destruct i as [|c i]; [congruence|]. cbn in Di; apply andb_prop in Di as [Dc _].
  unfold numeral, shape; cbn [app].
  assert (c <> 45). { intros ->. discriminate. }
  destruct c as [|p]; [reflexivity|].
  do 7 (destruct p as [p|p|]; try reflexivity; try congruence).
Qed.
Lemma numeral_shape_neg i f : i <> [] -> forallb is_digit i = true -> forallb is_digit f = true ->
  numeral (shape [45] i f) = Some (- dec_value i f)%Q.
Proof.
  intros Hi Di Df. pose proof (unsigned_shape i f Hi Di Df) as H. unfold shape in *; cbn [app numeral] in *.
  now rewrite H.
Qed.

(** what format_number returns *)
Definition fparts (p : nat) (n : N) : text * text :=
  (digits (n / 10 ^ N.of_nat p), strip0 (frac p (n mod 10 ^ N.of_nat p))).
Definition fmt (p : nat) (sgn : bool) (n : N) : text :=
  shape (if sgn && negb (n =? 0) then [45] else []) (fst (fparts p n)) (snd (fparts p n)).

Lemma strip0_frac_0 p : strip0 (frac p 0) = [].
Proof.
  assert (H : forallb (N.eqb 48) (frac p 0) = true).
  { induction p as [|p IH]; cbn [frac]; [reflexivity|].
    change (0 / 10) with 0. rewrite forallb_app, IH. reflexivity. }
  unfold strip0. rewrite <- (app_nil_l (frac p 0)), rdropwhile_app by exact H. reflexivity.
Qed.

Lemma shape_neg0 sgn i f : shape sgn i f = lit "-0" -> forallb is_digit i = true ->
  (sgn = [] \/ sgn = [45]) -> i <> [] -> sgn = [45] /\ i = [48] /\ f = [].
Proof.
  unfold shape, lit; cbn. intros E Di [->| ->] Hi; cbn in E.
  - destruct i as [|c i]; [congruence|]. injection E as -> E. cbn in Di. discriminate.
  - injection E as E. split; [reflexivity|].
    destruct i as [|c i]; [congruence|]. injection E as -> E.
    apply app_eq_nil in E as [-> E]. split; [reflexivity|]. now destruct f.
Qed.

Lemma fixed_shape p x : (0 < p)%nat -> format_number p x = fmt p (negative x) (scaled p x).
Proof.
  intros Hp. unfold format_number, fixed. set (n := scaled p x).
  replace (match p with O => [] | _ => [46] end) with ([46] : text) by (destruct p; [lia|reflexivity]).
  clear Hp.
  rewrite strip_fixed by (try apply digits_nonempty; try apply digits_digits; apply frac_digits).
  set (i := digits (n / 10 ^ N.of_nat p)). set (f := strip0 (frac p (n mod 10 ^ N.of_nat p))).
  match goal with |- context [text_eqb ?a ?b] => destruct (text_eqb_spec a b) as [E|E] end.
  - apply shape_neg0 in E as (E1 & E2 & E3); [|apply digits_digits|destruct (negative x); auto|apply digits_nonempty].
    assert (Hn : n = 0).
    { assert (H1 : n / 10 ^ N.of_nat p = 0) by (apply digits_inj; exact E2).
      assert (H2 : n mod 10 ^ N.of_nat p = 0).
      { pose proof (strip0_value [48] (frac p (n mod 10 ^ N.of_nat p))) as V. fold f in V.
        rewrite E3 in V. unfold dec_value in V. rewrite frac_val in V by (apply N.mod_lt; pose proof (pow10_pos (N.of_nat p)); lia).
        rewrite frac_length in V. cbn [length] in V.
        pose proof (Qof_pos _ (pow10_pos (N.of_nat p))) as HP.
        assert (V2 : (Qof (n mod 10 ^ N.of_nat p) / Qof (10 ^ N.of_nat p) == 0)%Q).
        { unfold digits_val in V; cbn [fold_left] in V. change (Qof (10 ^ N.of_nat 0)) with (1%Q) in V.
          change (Qof 0) with 0%Q in V. setoid_replace (0 / 1)%Q with 0%Q in V by reflexivity. lra. }
        assert (V3 : (Qof (n mod 10 ^ N.of_nat p) == 0)%Q).
        { setoid_replace (Qof (n mod 10 ^ N.of_nat p)) with (Qof (n mod 10 ^ N.of_nat p) / Qof (10 ^ N.of_nat p) * Qof (10 ^ N.of_nat p))%Q by (field; intro Z; rewrite Z in *; lra).
          rewrite V2. ring. }
        unfold Qof, Qeq in V3; cbn in V3. lia. }
      rewrite (N.div_mod n (10 ^ N.of_nat p)), H1, H2 by (pose proof (pow10_pos (N.of_nat p)); lia). lia. }
    unfold fmt, fparts. rewrite Hn; cbn [fst snd]. rewrite N.eqb_refl, andb_false_r.
    rewrite N.div_0_l, N.mod_0_l by (pose proof (pow10_pos (N.of_nat p)); lia).
    rewrite strip0_frac_0. reflexivity.
  - unfold fmt, fparts; cbn [fst snd]. fold i f. f_equal.
    destruct (negative x); [|reflexivity]. cbn [andb].
    destruct (N.eqb_spec n 0) as [Hn|Hn]; [|reflexivity].
    exfalso; apply E. unfold i, f. rewrite Hn.
    rewrite N.div_0_l, N.mod_0_l by (pose proof (pow10_pos (N.of_nat p)); lia).
    rewrite strip0_frac_0. reflexivity.
Qed.

Definition fvalue (p : nat) (sgn : bool) (n : N) : Q :=
  let v := (Qof n / Qof (10 ^ N.of_nat p))%Q in if sgn then (- v)%Q else v.

Lemma fparts_value p n :
  (dec_value (fst (fparts p n)) (snd (fparts p n)) == Qof n / Qof (10 ^ N.of_nat p))%Q.
Proof.
  unfold fparts; cbn [fst snd]. rewrite strip0_value. unfold dec_value.
  pose proof (pow10_pos (N.of_nat p)) as HP.
  rewrite digits_val_digits, frac_val, frac_length by (apply N.mod_lt; lia).
  pose proof (Qof_pos _ HP) as HQ.
  assert (E : (Qof n == Qof (10 ^ N.of_nat p) * Qof (n / 10 ^ N.of_nat p) + Qof (n mod 10 ^ N.of_nat p))%Q).
  { rewrite (N.div_mod n (10 ^ N.of_nat p)) at 1 by lia. now rewrite Qof_add, Qof_mul. }
  rewrite E. field. intro Z; rewrite Z in *; lra.
Qed.

Lemma numeral_fmt p sgn n : exists v, numeral (fmt p sgn n) = Some v /\ (v == fvalue p sgn n)%Q.
Proof.
  unfold fmt, fvalue.
  assert (Hi : fst (fparts p n) <> []) by apply digits_nonempty.
  assert (Di : forallb is_digit (fst (fparts p n)) = true) by apply digits_digits.
  assert (Df : forallb is_digit (snd (fparts p n)) = true) by apply strip0_digits, frac_digits.
  destruct sgn; cbn [andb].
  - destruct (N.eqb_spec n 0) as [Hn|Hn]; cbn [negb].
    + eexists; split; [now apply numeral_shape_pos|]. rewrite fparts_value.
      assert (Z : (Qof n == 0)%Q) by (rewrite Hn; reflexivity).
      rewrite Z. field. pose proof (Qof_pos _ (pow10_pos (N.of_nat p))); intro E; rewrite E in *; lra.
    + eexists; split; [now apply numeral_shape_neg|]. now rewrite fparts_value.
  - eexists; split; [now apply numeral_shape_pos|]. apply fparts_value.
Qed.

Lemma canonical_fmt p sgn n : canonical (fmt p sgn n).
Proof.
  unfold fmt. exists (if sgn && negb (n =? 0) then [45] else []), (fst (fparts p n)), (snd (fparts p n)).
  split; [reflexivity|]. split; [destruct (sgn && _); auto|].
  split; [apply digits_nonempty|]. split; [apply digits_digits|].
  split; [apply strip0_digits, frac_digits|]. split; [apply strip0_end|]. split.
  - intros a Ha. unfold fparts in Ha; cbn [fst] in Ha. set (k := n / 10 ^ N.of_nat p) in *.
    destruct (N.eq_dec k 0) as [->|Hk]; [cbn in Ha; congruence|].
    destruct (digits_head k) as (c & t & E & Hc); [lia|]. rewrite E in Ha. injection Ha as -> ->. lia.
  - destruct sgn; cbn [andb]; [|discriminate]. destruct (N.eqb_spec n 0) as [Hn|Hn]; cbn [negb]; [discriminate|].
    intros _ Hi Hf. apply Hn. pose proof (fparts_value p n) as V. rewrite Hi, Hf in V.
    unfold dec_value in V. cbn in V. change (Qof (10 ^ 0)) with 1%Q in V.
    pose proof (Qof_pos _ (pow10_pos (N.of_nat p))) as HP.
    assert (V2 : (Qof n / Qof (10 ^ N.of_nat p) == 0)%Q) by (rewrite <- V; reflexivity).
    assert (V3 : (Qof n == 0)%Q).
    { setoid_replace (Qof n) with (Qof n / Qof (10 ^ N.of_nat p) * Qof (10 ^ N.of_nat p))%Q
        by (field; intro Z; rewrite Z in *; lra). rewrite V2. ring. }
    unfold Qof, Qeq in V3; cbn in V3. lia.
Qed.

(** the rounded value *)
Definition rounded (p : nat) (x : Q) : Q := fvalue p (negative x) (scaled p x).

Lemma abs_sign x : (x == if negative x then - Qabs x else Qabs x)%Q.
Proof.
  unfold negative. destruct (Z.ltb_spec (Qnum x) 0).
  - rewrite Qabs_neg; [ring|]. unfold Qle; cbn. lia.
  - rewrite Qabs_pos; [reflexivity|]. unfold Qle; cbn. lia.
Qed.

Lemma rounded_nearest p x : nearest p x (rounded p x).
Proof.
  unfold rounded, fvalue. split.
  - exists (if negative x then (- Z.of_N (scaled p x)) else Z.of_N (scaled p x))%Z.
    destruct (negative x); [|reflexivity]. rewrite inject_Z_opp. unfold Qof.
    field. pose proof (Qof_pos _ (pow10_pos (N.of_nat p))) as H; unfold Qof in H. intro E; rewrite E in *; lra.
  - pose proof (scaled_near p x) as H. set (v := (Qof (scaled p x) / Qof (10 ^ N.of_nat p))%Q) in *.
    pose proof (abs_sign x) as A. destruct (negative x).
    + setoid_replace (- v - x)%Q with (- (v - Qabs x))%Q.
      * now rewrite Qabs_opp.
      * rewrite A at 1. ring.
    + setoid_replace (v - x)%Q with (v - Qabs x)%Q; [exact H|]. rewrite A at 1. reflexivity.
Qed.

Lemma format_read p x : (0 < p)%nat ->
  exists v, numeral (format_number p x) = Some v /\ (v == rounded p x)%Q.
Proof. intros Hp. rewrite fixed_shape by exact Hp. apply numeral_fmt. Qed.

Lemma rounded_exact p x (k : Z) : (x == inject_Z k / Qof (10 ^ N.of_nat p))%Q -> (rounded p x == x)%Q.
Proof.
  intros H. pose proof (Qof_pos _ (pow10_pos (N.of_nat p))) as HP. unfold rounded, fvalue.
  assert (A : (Qabs x == Qof (Z.to_N (Z.abs k)) / Qof (10 ^ N.of_nat p))%Q).
  { rewrite H. unfold Qdiv. rewrite Qabs_Qmult. apply Qmult_comp.
    - unfold Qof. rewrite Z2N.id by lia. unfold Qabs, inject_Z. reflexivity.
    - apply Qabs_pos. apply Qinv_le_0_compat. apply Qlt_le_weak, HP. }
  rewrite (scaled_exact p x _ A). pose proof (abs_sign x) as S.
  destruct (negative x); rewrite <- A; symmetry; exact S.
Qed.

Lemma format_stable p x v : (0 < p)%nat ->
  numeral (format_number p x) = Some v -> format_number p v = format_number p x.
Proof.
  intros Hp H. destruct (format_read p x Hp) as (w & Hw & E). rewrite Hw in H; injection H as <-.
  rewrite (format_number_Qeq p w _ E), !fixed_shape by exact Hp.
  pose proof (Qof_pos _ (pow10_pos (N.of_nat p))) as HP.
  set (n := scaled p x).
  assert (S : scaled p (rounded p x) = n).
  { apply scaled_exact. unfold rounded, fvalue. fold n.
    assert (P : (0 <= Qof n / Qof (10 ^ N.of_nat p))%Q).
    { apply Qle_shift_div_l; [exact HP|]. rewrite Qmult_0_l. unfold Qof, Qle; cbn. lia. }
    destruct (negative x); [rewrite Qabs_opp|]; now apply Qabs_pos. }
  rewrite S. unfold fmt. f_equal.
  destruct (N.eqb_spec n 0) as [Hn|Hn]; [now rewrite !andb_false_r|]. rewrite !andb_true_r. f_equal.
  assert (NN : negative (rounded p x) = negative x); [|now rewrite NN].
  unfold rounded, fvalue. fold n.
  assert (P : (0 < Qof n / Qof (10 ^ N.of_nat p))%Q).
  { apply Qlt_shift_div_l; [exact HP|]. rewrite Qmult_0_l. apply Qof_pos. lia. }
  set (q := (Qof n / Qof (10 ^ N.of_nat p))%Q) in *. clearbody q.
  destruct (negative x); unfold negative.
  - apply Z.ltb_lt. unfold Qlt in P; unfold Qopp; cbn in *. lia.
  - apply Z.ltb_ge. unfold Qlt in P; cbn in *. lia.
Qed.

(** equal texts exactly for equal roundings *)
Lemma format_eq_iff p x y : (0 < p)%nat -> format_number p x = format_number p y <-> (rounded p x == rounded p y)%Q.
Proof.
  intros Hp. split.
  - intros H. destruct (format_read p x Hp) as (v & Hv & Ev), (format_read p y Hp) as (w & Hw & Ew).
    rewrite H in Hv. rewrite Hv in Hw; injection Hw as <-. rewrite <- Ev, <- Ew. reflexivity.
  - intros H. destruct (format_read p x Hp) as (v & Hv & Ev), (format_read p y Hp) as (w & Hw & Ew).
    rewrite <- (format_stable p x v Hp Hv), <- (format_stable p y w Hp Hw).
    apply format_number_Qeq. rewrite Ev, Ew. exact H.
Qed.

Lemma format_zero_iff p x : (0 < p)%nat -> format_number p x = lit "0" <-> (rounded p x == 0)%Q.
Proof.
  intros Hp.
  assert (Z : format_number p 0 = lit "0").
  { rewrite fixed_shape by exact Hp. unfold fmt, fparts.
    assert (E : scaled p 0 = 0). { apply scaled_exact. change (Qof 0) with 0%Q. 
      unfold Qdiv. rewrite Qmult_0_l. reflexivity. }
    rewrite E. cbn [fst snd]. rewrite N.eqb_refl, andb_false_r, N.div_0_l, N.mod_0_l by (pose proof (pow10_pos (N.of_nat p)); lia).
    rewrite strip0_frac_0. reflexivity. }
  rewrite <- Z, format_eq_iff by exact Hp.
  assert (E : (rounded p 0 == 0)%Q). { apply (rounded_exact p 0 0). unfold Qdiv. rewrite Qmult_0_l. reflexivity. }
  rewrite E. reflexivity.
Qed.

(** pairs *)
Lemma to_pairs_flat {A} (l : list (A * A)) : to_pairs (flat_pairs l) = l.
Proof. induction l as [|[a b] l IH]; cbn; [reflexivity|]. unfold flat_pairs in IH. now rewrite IH. Qed.
Lemma flat_to_pairs {A} (l : list A) : exists r, l = flat_pairs (to_pairs l) ++ r /\ (length r <= 1)%nat.
Proof.
  cut (forall n (l : list A), (length l <= n)%nat -> exists r, l = flat_pairs (to_pairs l) ++ r /\ (length r <= 1)%nat).
  { intros H. apply (H (length l)). lia. }
  induction n as [|n IH]; intros [|a [|b l']] H; cbn in *; try lia.
  - exists []; auto.
  - exists []; auto.
  - exists [a]; auto.
  - destruct (IH l') as (r & E & Hr); [lia|]. exists r. split; [|exact Hr].
    rewrite E at 1. reflexivity.
Qed.
Lemma to_pairs_map {A B} (f : A -> B) l :
  to_pairs (map f l) = map (fun xy => (f (fst xy), f (snd xy))) (to_pairs l).
Proof.
  cut (forall n (l : list A), (length l <= n)%nat ->
    to_pairs (map f l) = map (fun xy => (f (fst xy), f (snd xy))) (to_pairs l)).
  { intros H. apply (H (length l)). lia. }
  induction n as [|n IH]; intros [|a [|b l']] H; cbn in *; try lia; try reflexivity.
  f_equal. apply IH. lia.
Qed.
Lemma format_pairs_spec p l : format_pairs p l =
  join [32] (map (fun xy => format_number p (fst xy) ++ [44] ++ format_number p (snd xy)) l).
Proof.
  unfold format_pairs, format_number_sequence. rewrite to_pairs_map, to_pairs_flat, map_map. reflexivity.
Qed.
