(** Proofs for C88: sums of four products under every plan. *)
From Coq Require Import Qabs Qpower ZArith Lqa Lia Bool List Permutation.
From Verif Require Import PyBase RectModel MatrixModel MatrixSpec FloatModel FloatSpec FloatProofs FloatProofs2 FloatProofs3 MatFloatModel MatFloatSpec.
Import ListNotations.
#[local] Open Scope Q_scope.

(** ** Sums over the products of a plan *)
Fixpoint lsum (g : nat -> Q) (l : list nat) : Q := match l with [] => 0 | i :: l => g i + lsum g l end.
Lemma lsum_app g l k : lsum g (l ++ k) == lsum g l + lsum g k.
Proof. induction l as [|i l IH]; cbn; [ring|rewrite IH; ring]. Qed.
Lemma lsum_perm g l k : Permutation l k -> lsum g l == lsum g k.
Proof. induction 1; cbn; try lra. Qed.
Lemma lsum_ext g h l : (forall i, In i l -> g i == h i) -> lsum g l == lsum h l.
Proof. induction l as [|i l IH]; cbn; intros E; [reflexivity|]. rewrite (E i), IH by (auto; intros; apply E; auto). reflexivity. Qed.
Lemma lsum_abs g l : Qabs (lsum g l) <= lsum (fun i => Qabs (g i)) l.
Proof. induction l as [|i l IH]; cbn; [apply Qle_refl|]. eapply Qle_trans; [apply Qabs_triangle|]. lra. Qed.
Lemma lsum_nonneg g l : (forall i, 0 <= g i) -> 0 <= lsum g l.
Proof. intros P. induction l as [|i l IH]; cbn; [apply Qle_refl|]. assert (W := P i). lra. Qed.
Lemma lsum_dot a b p : complete p -> lsum (fun i => a i * b i) (terms p) == dot a b.
Proof. intros C. rewrite (lsum_perm _ _ _ C). cbn. unfold dot. ring. Qed.
Lemma lsum_dot_abs a b p : complete p -> lsum (fun i => Qabs (a i * b i)) (terms p) == dot (fun i => Qabs (a i)) (fun i => Qabs (b i)).
Proof. intros C. rewrite (lsum_perm _ _ _ C). cbn. unfold dot. rewrite !Qabs_Qmult. ring. Qed.

(** ** Growth of errors *)
Fixpoint grow (u : Q) (n : nat) : Q := match n with O => 1 | S n => (1 + u) * grow u n end.
Lemma grow_ge u n : 0 <= u -> 1 <= grow u n.
Proof. intros U. induction n as [|n IH]; cbn; [apply Qle_refl|]. assert (0 <= u * grow u n) by (apply Qmult_le_0_compat; lra). lra. Qed.
Lemma grow_mono u n m : 0 <= u -> (n <= m)%nat -> grow u n <= grow u m.
Proof. intros U. induction 1 as [|m L IH]; [apply Qle_refl|]. cbn. assert (W := grow_ge u m U). assert (0 <= u * grow u m) by (apply Qmult_le_0_compat; lra). lra. Qed.
Lemma grow_add u n m : grow u (n + m) == grow u n * grow u m.
Proof. induction n as [|n IH]; cbn; [ring|rewrite IH; ring]. Qed.
Lemma grow_pow u n : 0 <= u -> grow u n == (1 + u) ^ Z.of_nat n.
Proof.
  intros U. induction n as [|n IH]; [reflexivity|]. rewrite Nat2Z.inj_succ, <- Z.add_1_r, Qpower_plus by lra. cbn [grow]. rewrite IH. cbn. ring.
Qed.

Lemma tri x y z : Qabs (x - z) <= Qabs (x - y) + Qabs (y - z).
Proof. setoid_replace (x - z) with ((x - y) + (y - z)) by ring. apply Qabs_triangle. Qed.
Lemma abs_le x y : Qabs x <= Qabs (x - y) + Qabs y.
Proof. setoid_replace x with ((x - y) + y) at 1 by ring. apply Qabs_triangle. Qed.
(* one more rounding *)
Lemma step f u (R : rounding f u) s x g n : 0 <= u -> 1 <= g -> 0 <= n -> Qabs x <= n -> Qabs (s - x) <= (g - 1) * n -> Qabs (f s - x) <= ((1 + u) * g - 1) * n.
Proof.
  intros U G N X D. eapply Qle_trans; [apply (tri _ s)|]. assert (A := r_error f u R s). assert (B := abs_le s x).
  assert (C : u * Qabs s <= u * (g * n)). { rewrite (Qmult_comm u (Qabs s)), (Qmult_comm u (g * n)). apply Qmult_le_compat_r; [|exact U]. lra. }
  setoid_replace (((1 + u) * g - 1) * n) with (u * (g * n) + (g - 1) * n) by ring. lra.
Qed.

Lemma eval_kept f u a b p : rounding f u -> f (eval f a b p) == eval f a b p.
Proof. intros R. destruct p; cbn; try apply (r_idem f u R). apply (r_zero f u R). Qed.
Lemma eval_none f u a b p : rounding f u -> terms p = [] -> eval f a b p == 0.
Proof.
  intros R. induction p as [|i|p IH q IH'|i p IH]; cbn; intros T; try discriminate; [reflexivity|]. destruct (app_eq_nil _ _ T) as [T1 T2].
  rewrite (r_proper f u R _ 0); [apply (r_zero f u R)|]. rewrite IH, IH' by assumption. ring.
Qed.
Lemma eval_error f u a b p : rounding f u -> 0 <= u -> Qabs (eval f a b p - lsum (fun i => a i * b i) (terms p)) <= (grow u (length (terms p)) - 1) * lsum (fun i => Qabs (a i * b i)) (terms p).
Proof.
  intros R U. set (g := fun i => a i * b i). set (s := fun i => Qabs (a i * b i)).
  assert (SS : forall l, 0 <= lsum s l) by (intros l; apply lsum_nonneg; intros; apply Qabs_nonneg).
  assert (B : forall l, Qabs (lsum g l) <= lsum s l) by (intros l; apply lsum_abs).
  induction p as [|i|p IH q IH'|i p IH].
  - cbn. apply Qle_refl.
  - cbn [eval terms length]. apply (step f u R); [exact U|apply Qle_refl|apply SS|apply B|]. cbn. fold (g i). setoid_replace (g i - (g i + 0)) with 0 by ring. cbn. rewrite Qmult_0_l. apply Qle_refl.
  - cbn [eval terms].
    assert (SP : lsum s (terms p ++ terms q) == lsum s (terms p) + lsum s (terms q)) by apply lsum_app.
    assert (GP : lsum g (terms p ++ terms q) == lsum g (terms p) + lsum g (terms q)) by apply lsum_app.
    destruct (terms p) as [|i0 l0] eqn:Tp.
    { cbn [app]. rewrite (r_proper f u R _ (eval f a b q)) by (rewrite (eval_none f u a b p R Tp); ring). rewrite (eval_kept f u a b q R). exact IH'. }
    destruct (terms q) as [|i1 l1] eqn:Tq.
    { rewrite app_nil_r. rewrite (r_proper f u R _ (eval f a b p)) by (rewrite (eval_none f u a b q R Tq); ring). rewrite (eval_kept f u a b p R). exact IH. }
    rewrite <- Tp, <- Tq in *. set (N := (length (terms p) + length (terms q) - 1)%nat).
    assert (LN : length (terms p ++ terms q) = S N) by (unfold N; rewrite app_length, Tp, Tq; cbn; lia). rewrite LN. cbn [grow].
    apply (step f u R); [exact U|now apply grow_ge|apply SS|apply B|].
    assert (G1 : grow u (length (terms p)) <= grow u N) by (apply grow_mono; [exact U|unfold N; rewrite Tq; cbn; lia]).
    assert (G2 : grow u (length (terms q)) <= grow u N) by (apply grow_mono; [exact U|unfold N; rewrite Tp; cbn; lia]).
    assert (E1 : (grow u (length (terms p)) - 1) * lsum s (terms p) <= (grow u N - 1) * lsum s (terms p)) by (apply Qmult_le_compat_r; [lra|apply SS]).
    assert (E2 : (grow u (length (terms q)) - 1) * lsum s (terms q) <= (grow u N - 1) * lsum s (terms q)) by (apply Qmult_le_compat_r; [lra|apply SS]).
    rewrite SP, GP. setoid_replace (eval f a b p + eval f a b q - (lsum g (terms p) + lsum g (terms q))) with ((eval f a b p - lsum g (terms p)) + (eval f a b q - lsum g (terms q))) by ring.
    eapply Qle_trans; [apply Qabs_triangle|]. rewrite Qmult_plus_distr_r. lra.
  - cbn [eval terms length grow]. apply (step f u R); [exact U|now apply grow_ge|apply SS|apply B|]. cbn [lsum]. fold (g i).
    setoid_replace (g i + eval f a b p - (g i + lsum g (terms p))) with (eval f a b p - lsum g (terms p)) by ring.
    assert (W := grow_ge u (length (terms p)) U). assert (0 <= (grow u (length (terms p)) - 1) * s i) by (apply Qmult_le_0_compat; [lra|apply Qabs_nonneg]).
    rewrite Qmult_plus_distr_r. lra.
Qed.

(** ** Rows with few terms *)
Lemma eval_proper f u a b a' b' p : rounding f u -> (forall i, a i == a' i) -> (forall i, b i == b' i) -> eval f a b p == eval f a' b' p.
Proof. intros R A B. induction p as [|i|p IH q IH'|i p IH]; cbn; [reflexivity|..]; apply (r_proper f u R); [rewrite A, B|rewrite IH, IH'|rewrite A, B, IH]; reflexivity. Qed.
Lemma eval_zero f u a b p : rounding f u -> (forall i, In i (terms p) -> a i * b i == 0) -> eval f a b p == 0.
Proof.
  intros R. induction p as [|i|p IH q IH'|i p IH]; cbn; intros Z0; [reflexivity|..]; rewrite (r_proper f u R _ 0); try apply (r_zero f u R).
  - apply Z0. now left.
  - rewrite IH, IH' by (intros; apply Z0, in_or_app; auto). ring.
  - rewrite IH by (intros; apply Z0; auto). rewrite Z0 by auto. ring.
Qed.
(* one product other than zero, which the rounding keeps *)
Lemma eval_one f u a b j p : rounding f u -> (forall i, i <> j -> a i * b i == 0) -> NoDup (terms p) -> In j (terms p) -> eval f a b p == f (a j * b j).
Proof.
  intros R Z0. induction p as [|i|p IH q IH'|i p IH]; cbn; intros D J.
  - destruct J.
  - destruct J as [-> |[]]. reflexivity.
  - assert (Dp : NoDup (terms p) /\ NoDup (terms q) /\ (forall i, In i (terms p) -> ~ In i (terms q))).
    { clear -D. induction (terms p) as [|i l IHl]; cbn in D; [repeat split; [constructor|exact D|intros ? []]|]. inversion D as [|? ? N D']; subst. destruct (IHl D') as (A & B & C).
      repeat split; [constructor; [intros W; apply N, in_or_app; auto|exact A]|exact B|]. intros k [<- |K] W; [apply N, in_or_app; auto|exact (C k K W)]. }
    destruct Dp as (A & B & C). apply in_app_or in J. destruct J as [J|J].
    + rewrite (r_proper f u R _ (eval f a b p)); [rewrite (eval_kept f u a b p R); auto|]. rewrite (eval_zero f u a b q R); [ring|]. intros i W. apply Z0. intros ->. exact (C j J W).
    + rewrite (r_proper f u R _ (eval f a b q)); [rewrite (eval_kept f u a b q R); auto|]. rewrite (eval_zero f u a b p R); [ring|]. intros i W. apply Z0. intros ->. exact (C j W J).
  - inversion D as [|? ? N D']; subst. destruct J as [-> |J].
    + apply (r_proper f u R). rewrite (eval_zero f u a b p R); [ring|]. intros i W. apply Z0. intros ->. exact (N W).
    + rewrite (r_proper f u R _ (eval f a b p)); [rewrite (eval_kept f u a b p R); auto|]. rewrite (Z0 i); [ring|]. intros ->. exact (N J).
Qed.
Lemma dup_app (l k : list nat) : NoDup (l ++ k) -> NoDup l /\ NoDup k /\ (forall i, In i l -> ~ In i k).
Proof.
  intros D. induction l as [|i l IHl]; cbn in D; [repeat split; [constructor|exact D|intros ? []]|]. inversion D as [|? ? N D']; subst. destruct (IHl D') as (A & B & C).
  repeat split; [constructor; [intros W; apply N, in_or_app; auto|exact A]|exact B|]. intros j [<- |K] W; [apply N, in_or_app; auto|exact (C j K W)].
Qed.
(* two products other than zero, both kept: one rounding *)
Lemma eval_two f u a b j k p : rounding f u -> j <> k -> (forall i, i <> j -> i <> k -> a i * b i == 0) -> f (a j * b j) == a j * b j -> f (a k * b k) == a k * b k ->
  NoDup (terms p) -> In j (terms p) -> In k (terms p) -> eval f a b p == f (a j * b j + a k * b k).
Proof.
  intros R JK Z0 KJ KK.
  assert (one : forall x y q, x = j /\ y = k \/ x = k /\ y = j -> NoDup (terms q) -> In x (terms q) -> ~ In y (terms q) -> eval f a b q == a x * b x).
  { intros x y q XY D X Y. assert (KX : f (a x * b x) == a x * b x) by (destruct XY as [[-> _]|[-> _]]; assumption).
    set (b' := fun i => if Nat.eqb i y then 0 else b i).
    assert (E : eval f a b q == eval f a b' q).
    { clear -R Y. revert Y. induction q as [|i|q IH r IH'|i q IH]; cbn; intros Y; [reflexivity|..]; apply (r_proper f u R); unfold b' in *.
      - destruct (Nat.eqb_spec i y); [exfalso; apply Y; now left|reflexivity].
      - rewrite IH, IH'; [reflexivity|..]; intros W; apply Y, in_or_app; auto.
      - rewrite IH by (intros W; apply Y; auto). destruct (Nat.eqb_spec i y); [exfalso; apply Y; now left|reflexivity]. }
    rewrite E, (eval_one f u a b' x q R); [|intros i I0|exact D|exact X].
    - unfold b'. destruct (Nat.eqb_spec x y) as [->|_]; [contradiction|exact KX].
    - unfold b'. destruct (Nat.eqb_spec i y) as [_|I1]; [ring|]. apply Z0; destruct XY as [[-> ->]|[-> ->]]; assumption. }
  induction p as [|i|p IH q IH'|i p IH]; cbn; intros D J K.
  - destruct J.
  - destruct J as [<- |[]]. destruct K as [K|[]]. contradiction.
  - destruct (dup_app _ _ D) as (A & B & C). apply in_app_or in J, K. destruct J as [J|J], K as [K|K].
    + rewrite (r_proper f u R _ (eval f a b p)); [rewrite (eval_kept f u a b p R); auto|]. rewrite (eval_zero f u a b q R); [ring|]. intros i W. apply Z0; intros ->; [exact (C j J W)|exact (C k K W)].
    + apply (r_proper f u R). rewrite (one j k p), (one k j q); auto; try reflexivity; intros W; first [exact (C j J W)|exact (C k W K)].
    + apply (r_proper f u R). rewrite (one k j p), (one j k q); auto; try ring; intros W; first [exact (C k K W)|exact (C j W J)].
    + rewrite (r_proper f u R _ (eval f a b q)); [rewrite (eval_kept f u a b q R); auto|]. rewrite (eval_zero f u a b p R); [ring|]. intros i W. apply Z0; intros ->; [exact (C j W J)|exact (C k W K)].
  - inversion D as [|? ? N D']; subst. destruct J as [-> |J], K as [E|K]; [congruence| | |].
    + apply (r_proper f u R). rewrite (one k j p); auto. reflexivity.
    + subst i. apply (r_proper f u R). rewrite (one j k p); auto. ring.
    + rewrite (r_proper f u R _ (eval f a b p)); [rewrite (eval_kept f u a b p R); auto|]. rewrite (Z0 i); [ring|..]; intros ->; auto.
Qed.

Lemma complete_nodup p : complete p -> NoDup (terms p).
Proof. intros C. apply (Permutation_NoDup (Permutation_sym C)). repeat constructor; cbn; intuition congruence. Qed.
Lemma complete_in p i : complete p -> (i = 1 \/ i = 2 \/ i = 3 \/ i = 4)%nat -> In i (terms p).
Proof. intros C W. apply (Permutation_in _ (Permutation_sym C)). cbn. intuition. Qed.

(** ** Order *)
Lemma eval_mono f u a b b' p : rounding f u -> (forall i, In i (terms p) -> a i * b i <= a i * b' i) -> eval f a b p <= eval f a b' p.
Proof.
  intros R. induction p as [|i|p IH q IH'|i p IH]; cbn; intros L; [apply Qle_refl|..]; apply (r_mono f u R).
  - apply L. now left.
  - apply Qplus_le_compat; [apply IH|apply IH']; intros; apply L, in_or_app; auto.
  - apply Qplus_le_compat; [apply L; now left|apply IH; intros; apply L; auto].
Qed.

(** ** Grids *)
Lemma grid_mult k l n m x y : (0 <= n)%Z -> (0 <= m)%Z -> on_grid k n x -> on_grid l m y -> on_grid (k + l) (n * m) (x * y).
Proof.
  intros N M (z & A & E) (w & B & F). exists (z * w)%Z. split; [rewrite Z.abs_mul; apply Z.mul_le_mono_nonneg; lia|]. rewrite E, F, inject_Z_mult, Qpower_plus by discriminate. ring.
Qed.
Lemma eval_grid k l a b p : (forall i, on_grid k (2 ^ 25) (a i)) -> (forall i, on_grid l (2 ^ 25) (b i)) -> (length (terms p) <= 8)%nat ->
  eval fl a b p == lsum (fun i => a i * b i) (terms p) /\ on_grid (k + l) (Z.of_nat (length (terms p)) * 2 ^ 50) (eval fl a b p).
Proof.
  intros A B. assert (T : forall i, on_grid (k + l) (2 ^ 50) (a i * b i)) by (intros i; apply (grid_mult k l (2 ^ 25) (2 ^ 25)); [lia|lia|apply A|apply B]).
  induction p as [|i|p IH q IH'|i p IH]; cbn [eval terms length lsum]; intros L.
  - split; [reflexivity|]. exists 0%Z. split; [cbn; lia|]. ring.
  - assert (E : fl (a i * b i) == a i * b i) by (apply (grid_digits (k + l) (2 ^ 50)); [lia|apply T]). split; [rewrite E; ring|]. apply (grid_proper _ _ (a i * b i)); [now rewrite E|]. apply (grid_weak _ (2 ^ 50)); [lia|apply T].
  - rewrite app_length in L. destruct (IH ltac:(lia)) as [E1 G1], (IH' ltac:(lia)) as [E2 G2]. assert (G := grid_plus _ _ _ _ _ G1 G2).
    assert (E : fl (eval fl a b p + eval fl a b q) == eval fl a b p + eval fl a b q) by (eapply (grid_digits (k + l)); [|exact G]; lia).
    split; [rewrite E, E1, E2, lsum_app; reflexivity|]. apply (grid_proper _ _ (eval fl a b p + eval fl a b q)); [now rewrite E|]. rewrite app_length. eapply grid_weak; [|exact G]. lia.
  - cbn [length] in L. destruct (IH ltac:(lia)) as [E1 G1]. assert (G := grid_plus _ _ _ _ _ (T i) G1).
    assert (E : fl (a i * b i + eval fl a b p) == a i * b i + eval fl a b p) by (eapply (grid_digits (k + l)); [|exact G]; lia).
    split; [rewrite E, E1; reflexivity|]. apply (grid_proper _ _ (a i * b i + eval fl a b p)); [now rewrite E|]. eapply grid_weak; [|exact G]. lia.
Qed.

(** ** Entries of products *)
Lemma entry_mul a b r c : entry (mat_mul a b) r c == dot (entry a r) (fun i => entry b i c).
Proof. unfold entry, dot. destruct c as [|[|[|[|c]]]]; destruct r as [|[|[|[|r]]]]; cbn; unfold m11, m12, m13, m14, m21, m22, m23, m24, m31, m32, m33, m34, m41, m42, m43, m44; ring. Qed.
Lemma vget_vec a p r : vget (mat_vec a p) r == dot (entry a r) (vget p).
Proof. unfold entry, dot. destruct r as [|[|[|[|r]]]]; cbn; unfold m11, m12, m13, m14, m21, m22, m23, m24, m31, m32, m33, m34, m41, m42, m43, m44; ring. Qed.
Lemma vget_fvec f pl a p r : exists k, vget (fmat_vec f pl a p) r = eval f (entry a r) (vget p) (pl k).
Proof. destruct r as [|[|[|[|r]]]]; cbn [fmat_vec vget v1 v2 v3 v4]; eexists; reflexivity. Qed.
Lemma entry_fmul f pl a b r c : exists k l, entry (fmat_mul f pl a b) r c = eval f (entry a r) (fun i => entry b i c) (pl k l).
Proof. destruct c as [|[|[|[|c]]]]; destruct r as [|[|[|[|r]]]]; eexists; eexists; reflexivity. Qed.
Lemma entry_size m r c : entry (msize m) r c = Qabs (entry m r c).
Proof. unfold entry. destruct c as [|[|[|[|c]]]]; destruct r as [|[|[|[|r]]]]; reflexivity. Qed.
Lemma vget_size v r : vget (vsize v) r = Qabs (vget v r).
Proof. destruct r as [|[|[|[|r]]]]; reflexivity. Qed.
Lemma meq_entry a b : meq a b <-> forall r c, entry a r c == entry b r c.
Proof.
  split.
  - intros ((A1 & A2 & A3 & A4) & (B1 & B2 & B3 & B4) & (C1 & C2 & C3 & C4) & (D1 & D2 & D3 & D4)) r c. unfold entry. destruct c as [|[|[|[|c]]]]; destruct r as [|[|[|[|r]]]]; assumption.
  - intros E. repeat split; [exact (E 1 1)%nat|exact (E 2 1)%nat|exact (E 3 1)%nat|exact (E 4 1)%nat|exact (E 1 2)%nat|exact (E 2 2)%nat|exact (E 3 2)%nat|exact (E 4 2)%nat|exact (E 1 3)%nat|exact (E 2 3)%nat|exact (E 3 3)%nat|exact (E 4 3)%nat|exact (E 1 4)%nat|exact (E 2 4)%nat|exact (E 3 4)%nat|exact (E 4 4)%nat].
Qed.
Lemma veq_get a b : veq a b <-> forall r, vget a r == vget b r.
Proof.
  split.
  - intros (A1 & A2 & A3 & A4) r. destruct r as [|[|[|[|r]]]]; assumption.
  - intros E. repeat split; [exact (E 1)%nat|exact (E 2)%nat|exact (E 3)%nat|exact (E 4)%nat].
Qed.
