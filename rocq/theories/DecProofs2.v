(** Relative errors, and what conversions add to them. *)
From Coq Require Import Qround Qabs Qpower Qminmax ZArith Lia Lqa Qfield.
From Verif Require Import PyBase PyText PySplit CssUnitModel LengthModel LengthSpec LengthProofs FloatModel FloatSpec FloatProofs FloatProofs2 DecModel DecSpec DecProofs.
#[local] Open Scope Q_scope.

(** ** Relative errors *)
Lemma near_intro e x y d : 0 <= e -> Qabs d <= e -> x == y * (1 + d) -> near e x y.
Proof. intros P D E. unfold near. assert (F : x - y == y * d) by (rewrite E; ring). rewrite F, Qabs_Qmult, (Qmult_comm e). apply Qmult_le_compat_nonneg; split; try apply Qabs_nonneg; try apply Qle_refl; assumption. Qed.
Lemma near_elim e x y : 0 <= e -> near e x y -> exists d, Qabs d <= e /\ x == y * (1 + d).
Proof.
  unfold near. intros P H. destruct (Qeq_dec y 0) as [Z|Z].
  - exists 0. change (Qabs 0) with 0. split; [exact P|]. assert (A : Qabs (x - y) <= 0) by (rewrite Z in H at 2; change (Qabs 0) with 0 in H; lra).
    apply Qabs_Qle_condition in A. lra.
  - exists ((x - y) / y). split; [|field; exact Z]. unfold Qdiv. rewrite Qabs_Qmult, Qabs_Qinv.
    assert (Y : 0 < Qabs y). { destruct (Qlt_le_dec y 0) as [L|L]; [rewrite Qabs_neg by lra; lra|rewrite Qabs_pos by lra]. destruct (Qlt_le_dec 0 y); lra. }
    apply Qle_shift_div_r; [exact Y|exact H].
Qed.
Lemma near_refl e x : 0 <= e -> near e x x.
Proof. intros P. apply (near_intro e x x 0 P); [exact P|ring]. Qed.
Lemma near_weak e e' x y : e <= e' -> near e x y -> near e' x y.
Proof. unfold near. intros L H. apply Qle_trans with (1 := H). apply Qmult_le_compat_r; [exact L|apply Qabs_nonneg]. Qed.
Lemma near_comp e x x' y y' : x == x' -> y == y' -> near e x y -> near e x' y'.
Proof. unfold near. intros A B H. now rewrite <- A, <- B. Qed.
Lemma Qabs_bounds d e : Qabs d <= e -> - e <= d <= e. Proof. apply Qabs_Qle_condition. Qed.
Lemma prod_bound a b x y : 0 <= a -> 0 <= b -> Qabs x <= a -> Qabs y <= b -> Qabs ((1 + x) * (1 + y) - 1) <= a + b + a * b.
Proof.
  intros A B X Y. assert (E : (1 + x) * (1 + y) - 1 == x + (y + x * y)) by ring. rewrite E.
  assert (T := Qabs_triangle x (y + x * y)). assert (U := Qabs_triangle y (x * y)). rewrite Qabs_Qmult in U.
  assert (P : Qabs x * Qabs y <= a * b) by (apply Qmult_le_compat_nonneg; split; try apply Qabs_nonneg; assumption). lra.
Qed.
Lemma near_trans a b x y z : 0 <= a -> 0 <= b -> near a x y -> near b y z -> near (a + b + a * b) x z.
Proof.
  intros A B H K. destruct (near_elim _ _ _ A H) as (d & D & E). destruct (near_elim _ _ _ B K) as (d' & D' & E').
  assert (0 <= a * b) by (apply Qmult_le_0_compat; assumption).
  apply near_intro with ((1 + d) * (1 + d') - 1); [lra|apply prod_bound; assumption|]. rewrite E, E'. ring.
Qed.
Lemma near_mult a b x y z w : 0 <= a -> 0 <= b -> near a x y -> near b z w -> near (a + b + a * b) (x * z) (y * w).
Proof.
  intros A B H K. destruct (near_elim _ _ _ A H) as (d & D & E). destruct (near_elim _ _ _ B K) as (d' & D' & E').
  assert (0 <= a * b) by (apply Qmult_le_0_compat; assumption).
  apply near_intro with ((1 + d) * (1 + d') - 1); [lra|apply prod_bound; assumption|]. rewrite E, E'. ring.
Qed.
Lemma near_mult_r a x y z : 0 <= a -> near a x y -> near a (x * z) (y * z).
Proof. intros A H. destruct (near_elim _ _ _ A H) as (d & D & E). apply near_intro with d; auto. rewrite E. ring. Qed.
Lemma near_div a b x y z w : 0 <= a -> 0 <= b -> b <= 1#2 -> near a x y -> near b z w -> near (2 * (a + b)) (x / z) (y / w).
Proof.
  intros A B S H K. destruct (near_elim _ _ _ A H) as (d & D & E). destruct (near_elim _ _ _ B K) as (d' & D' & E').
  assert (D2 := Qabs_bounds _ _ D'). assert (P : 0 < 1 + d') by lra. destruct (Qeq_dec w 0) as [Z|Z].
  - apply near_intro with 0; [lra|change (Qabs 0) with 0; lra|]. assert (Z' : z == 0) by (rewrite E', Z; ring). unfold Qdiv. rewrite Z, Z'. change (/ 0) with 0. ring.
  - apply near_intro with ((d - d') / (1 + d')); [lra| |rewrite E, E'; field; split; [lra|exact Z]].
    unfold Qdiv. rewrite Qabs_Qmult, Qabs_Qinv, (Qabs_pos (1 + d')) by lra. apply Qle_shift_div_r; [exact P|].
    assert (T := Qabs_triangle d (- d')). rewrite Qabs_opp in T. apply Qle_trans with (a + b); [unfold Qminus; lra|].
    apply Qle_trans with (2 * (a + b) * (1#2)); [lra|]. rewrite !(Qmult_comm (2 * (a + b))). apply Qmult_le_compat_r; lra.
Qed.
Lemma near_nonzero e x y : e < 1 -> near e x y -> ~ y == 0 -> ~ x == 0.
Proof.
  unfold near. intros L H N Z. apply N. assert (A : Qabs y <= e * Qabs y). { assert (F : x - y == - y) by (rewrite Z; ring). rewrite F, Qabs_opp in H. exact H. }
  assert (B := Qabs_nonneg y). assert (C : Qabs y == 0) by nra. assert (D : Qabs y <= 0) by lra. apply Qabs_Qle_condition in D. lra.
Qed.
Lemma near_round g u x : rounding g u -> near u (g x) x.
Proof. intros R. apply (r_error _ _ R). Qed.
(* one more rounding *)
Lemma near_step g u a x y : rounding g u -> 0 <= u -> 0 <= a -> near a x y -> near (u + a + u * a) (g x) y.
Proof. intros R U A H. apply near_trans with x; auto. apply near_round, R. Qed.

(** ** Sizes of units *)
Lemma u10_pos : 0 <= u10. Proof. discriminate. Qed.
Lemma u2_pos : 0 <= u2. Proof. discriminate. Qed.
Ltac num := vm_compute; discriminate.
Lemma step g a b x y : rounding g u10 -> 0 <= a -> u10 + a + u10 * a <= b -> near a x y -> near b (g x) y.
Proof. intros R A L H. apply near_weak with (1 := L). apply near_step; auto. apply u10_pos. Qed.
Lemma step0 g x y : rounding g u10 -> x == y -> near u10 (g x) y.
Proof. intros R E. apply near_comp with (g x) x; [reflexivity|exact E|]. apply near_round, R. Qed.
Lemma pixel_near g t k : rounding g u10 -> pixel_size t = Some k -> exists k', rpixel_size g t = Some k' /\ near (11#10000000000000000000000000000) k' k.
Proof.
  intros R. unfold pixel_size, rpixel_size. repeat match goal with |- context [if ?c then _ else _] => destruct c end; intros H; try discriminate; injection H as <-; eexists; (split; [reflexivity|]);
    try (apply near_refl; num); try (apply near_weak with u10; [num|]; apply near_round, R).
  apply step with (a := u10); [exact R|num|num|]. unfold Qdiv at 1 3. apply near_mult_r; [num|]. apply near_round, R.
Qed.
Lemma pixel_none g t : pixel_size t = None <-> rpixel_size g t = None.
Proof. unfold pixel_size, rpixel_size. repeat match goal with |- context [if ?c then _ else _] => destruct c end; split; congruence. Qed.

(** ** Conversions *)
Definition e_to : Q := 2#1000000000000000000000000000.
Definition e_from : Q := 3#1000000000000000000000000000.
Definition e_both : Q := 6#1000000000000000000000000000.
Lemma one g n w s : rounding g u10 -> w == s -> near e_to (g (n * w)) (n * s).
Proof. intros R E. apply near_weak with u10; [num|]. apply step0; [exact R|]. now rewrite E. Qed.
Lemma two g n w r s : rounding g u10 -> w / r == s -> near e_to (g (g (n * w) / r)) (n * s).
Proof.
  intros R E. apply near_comp with (g (g (n * w) / r)) (n * w / r); [reflexivity|rewrite <- E; unfold Qdiv; ring|]. apply step with (a := u10); [exact R|num|num|].
  unfold Qdiv. apply near_mult_r; [num|]. apply near_round, R.
Qed.
Lemma sized_to g n k k' s : rounding g u10 -> near (11#10000000000000000000000000000) k' k -> k == s -> near e_to (g (n * k')) (n * s).
Proof.
  intros R N E. apply near_comp with (g (n * k')) (k * n); [reflexivity|rewrite E; ring|]. apply step with (a := 11#10000000000000000000000000000); [exact R|num|num|].
  apply near_comp with (k' * n) (k * n); [ring|reflexivity|]. apply near_mult_r; [num|exact N].
Qed.
Lemma rto_near g c d u k s n : rounding g u10 -> sized c d u k s -> exists q, rto_pixels g c d n u = Ok q /\ near e_to q (n * s).
Proof.
  intros R S.
  assert (PX : forall q, q == n * 1 -> near e_to q (n * 1)) by (intros q E; apply near_comp with (n * 1) (n * 1); [now rewrite E|reflexivity|apply near_refl; num]).
  assert (AB : forall t ks, pixel_size t = Some ks -> exists k', rpixel_size g t = Some k' /\ near e_to (g (n * k')) (n * ks)).
  { intros t ks E. destruct (pixel_near g t ks R E) as (k' & E' & N). exists k'. split; [exact E'|]. apply sized_to with ks; auto. reflexivity. }
  destruct S; subst;
    try (exists n; split; [reflexivity|apply PX; ring]);
    try (eexists; split; [reflexivity|]; first [apply one; [exact R|reflexivity] | apply two; [exact R|reflexivity]]; fail).
  - destruct (AB (lit "cm") (96 / d254) eq_refl) as (k' & E & N). exists (g (n * k')). split; [|exact N]. injection E as <-. reflexivity.
  - destruct (AB (lit "mm") (96 / d25_4) eq_refl) as (k' & E & N). exists (g (n * k')). split; [|exact N]. injection E as <-. reflexivity.
  - destruct (AB (lit "q") (96 / d254 / 40) eq_refl) as (k' & E & N). exists (g (n * k')). split; [|exact N]. injection E as <-. reflexivity.
  - destruct (AB (lit "pt") (96 / 72) eq_refl) as (k' & E & N). exists (g (n * k')). split; [|exact N]. injection E as <-. reflexivity.
  - destruct (AB (lit "pc") (96 / 6) eq_refl) as (k' & E & N). exists (g (n * k')). split; [|exact N]. injection E as <-. reflexivity.
  - exists (g (g (n * pymin (cvw c) (cvh c)) / 100)). split; [reflexivity|]. apply two; [exact R|]. now rewrite pymin_Qmin.
  - exists (g (g (n * pymax (cvw c) (cvh c)) / 100)). split; [reflexivity|]. apply two; [exact R|]. now rewrite pymax_Qmax.
  - destruct (metric_in u H) as (A1 & A2 & A3 & A4 & A5 & A6). unfold rto_pixels. rewrite A1, A2, A3, A4, A5, H0.
    eexists; split; [reflexivity|]. destruct (Qeqb_spec (m u) 0); [contradiction|]. apply one; [exact R|reflexivity].
  - destruct (metric_in u H) as (A1 & A2 & A3 & A4 & A5 & A6). unfold rto_pixels. rewrite A1, A2, A3, A4, A5, H0.
    eexists; split; [reflexivity|]. destruct (Qeqb_spec (m u) 0); [|contradiction]. apply one; [exact R|reflexivity].
  - destruct (metric_in u H) as (A1 & A2 & A3 & A4 & A5 & A6). unfold rto_pixels. rewrite A1, A2, A3, A4, A5, H0.
    eexists; split; [reflexivity|]. apply two; [exact R|reflexivity].
  - exists (g (g (n / 96) * d254)). split; [reflexivity|]. apply near_comp with (g (g (n / 96) * d254)) (n / 96 * d254); [reflexivity|field|].
    apply step with (a := u10); [exact R|num|num|]. apply near_mult_r; [num|]. apply near_round, R.
Qed.
Lemma rdiv_near g p w s : rounding g u10 -> ~ s == 0 -> w == s -> exists q, rdiv g p w = Ok q /\ near e_from q (p / s).
Proof.
  intros R N E. unfold rdiv. destruct (Qeqb_spec w 0) as [Z|Z]; [exfalso; apply N; now rewrite <- E|]. eexists. split; [reflexivity|].
  apply near_weak with u10; [num|]. apply step0; [exact R|]. now rewrite E.
Qed.
Lemma rdiv_sized g p k k' s : rounding g u10 -> ~ s == 0 -> near (11#10000000000000000000000000000) k' k -> k == s -> exists q, rdiv g p k' = Ok q /\ near e_from q (p / s).
Proof.
  intros R N H E. assert (Nk : ~ k == 0) by now rewrite E. assert (Z : ~ k' == 0) by (apply (near_nonzero (11#10000000000000000000000000000) k' k); [reflexivity|exact H|exact Nk]). unfold rdiv. destruct (Qeqb_spec k' 0) as [Z'|Z']; [contradiction|].
  eexists. split; [reflexivity|]. apply step with (a := 2 * (0 + (11#10000000000000000000000000000))); [exact R|num|num|].
  apply near_comp with (p / k') (p / k); [reflexivity|now rewrite E|]. apply near_div; [num|num|num|apply near_refl; num|exact H].
Qed.
Lemma rdiv_100 g p w s : rounding g u10 -> ~ s == 0 -> w / 100 == s -> exists q, (do q <- rdiv g p w; Ok (g (q * 100))) = Ok q /\ near e_from q (p / s).
Proof.
  intros R N E. unfold rdiv. destruct (Qeqb_spec w 0) as [Z|Z]; [exfalso; apply N; rewrite <- E, Z; reflexivity|]. eexists. split; [reflexivity|].
  apply near_comp with (g (g (p / w) * 100)) (p / w * 100); [reflexivity|rewrite <- E; field; exact Z|].
  apply step with (a := u10); [exact R|num|num|]. apply near_mult_r; [num|]. apply near_round, R.
Qed.
Lemma rfrom_near g c d u k s p : rounding g u10 -> sized c d u k s -> ~ s == 0 -> steady c u -> exists q, rfrom_pixels g c d p u = Ok q /\ near e_from q (p / s).
Proof.
  intros R S N ST.
  assert (PX : near e_from p (p / 1)) by (apply near_comp with p p; [reflexivity|field|apply near_refl; num]).
  assert (AB : forall t ks, pixel_size t = Some ks -> ~ ks == 0 -> exists k', rpixel_size g t = Some k' /\ exists q, rdiv g p k' = Ok q /\ near e_from q (p / ks)).
  { intros t ks E Z. destruct (pixel_near g t ks R E) as (k' & E' & H). exists k'. split; [exact E'|]. apply rdiv_sized with ks; auto. reflexivity. }
  destruct S; subst;
    try (exists p; split; [reflexivity|exact PX]);
    try (apply rdiv_near; [exact R|exact N|reflexivity]); try (apply rdiv_100; [exact R|exact N|reflexivity]).
  - destruct (AB (lit "cm") (96 / d254) eq_refl N) as (k' & E & q & A & B). exists q. split; [|exact B]. injection E as <-. exact A.
  - destruct (AB (lit "mm") (96 / d25_4) eq_refl N) as (k' & E & q & A & B). exists q. split; [|exact B]. injection E as <-. exact A.
  - destruct (AB (lit "q") (96 / d254 / 40) eq_refl N) as (k' & E & q & A & B). exists q. split; [|exact B]. injection E as <-. exact A.
  - destruct (AB (lit "pt") (96 / 72) eq_refl N) as (k' & E & q & A & B). exists q. split; [|exact B]. injection E as <-. exact A.
  - destruct (AB (lit "pc") (96 / 6) eq_refl N) as (k' & E & q & A & B). exists q. split; [|exact B]. injection E as <-. exact A.
  - apply (rdiv_100 g p (pymin (cvw c) (cvh c))); [exact R|exact N|now rewrite pymin_Qmin].
  - apply (rdiv_100 g p (pymax (cvw c) (cvh c))); [exact R|exact N|now rewrite pymax_Qmax].
  - destruct (metric_in u H) as (A1 & A2 & A3 & A4 & A5 & A6). unfold rfrom_pixels. rewrite A1, A2, A3, A4, A5, H0.
    assert (E := ST u m p eq_refl H H0). destruct (Qeqb_spec (metric_at c p u) 0) as [Z|Z]; [exfalso; apply H1; now rewrite <- E|]. apply rdiv_near; auto.
  - destruct (metric_in u H) as (A1 & A2 & A3 & A4 & A5 & A6). unfold rfrom_pixels. rewrite A1, A2, A3, A4, A5, H0.
    assert (E := ST u m p eq_refl H H0). destruct (Qeqb_spec (metric_at c p u) 0) as [Z|Z]; [|exfalso; apply Z; now rewrite E]. apply rdiv_near; auto. reflexivity.
  - destruct (metric_in u H) as (A1 & A2 & A3 & A4 & A5 & A6). unfold rfrom_pixels. rewrite A1, A2, A3, A4, A5, H0.
    apply rdiv_sized with (parent_size c / 2); auto; [|reflexivity]. apply near_weak with u10; [num|]. apply near_round, R.
  - exists (g (p * 96)). split; [reflexivity|]. apply near_weak with u10; [num|]. apply step0; [exact R|]. field.
  - exists (g (p * g (96 / d254))). split; [reflexivity|]. apply near_comp with (g (p * g (96 / d254))) (96 / d254 * p); [reflexivity|field; discriminate|].
    apply step with (a := u10); [exact R|num|num|]. apply near_comp with (g (96 / d254) * p) (96 / d254 * p); [ring|reflexivity|]. apply near_mult_r; [num|]. apply near_round, R.
Qed.
Lemma e_value_pos : 0 <= e_value. Proof. num. Qed.
Lemma rvalue_near f g x u k s su : rounding f u2 -> rounding g u10 -> measures x k s -> sized (ctx x) (ldir x) u k su -> ~ su == 0 -> steady (ctx x) u ->
  exists w, rvalue f g x u None = Ok w /\ near e_value w (num x * s / su).
Proof.
  intros F R M S N ST. unfold rvalue. destruct (unit_eqb_spec u (lunit x)) as [->|D].
  - destruct (sized_fun _ _ _ _ _ _ _ M S) as (_ & E). exists (f (num x)). split; [reflexivity|]. apply near_comp with (f (num x)) (num x); [reflexivity|rewrite E; field; exact N|].
    apply near_weak with u2; [num|]. apply near_round, F.
  - rewrite (sized_kind _ _ _ _ _ M), (sized_kind _ _ _ _ _ S), Bool.eqb_reflx. cbn [negb].
    destruct (rto_near g _ _ _ _ _ (num x) R M) as (p & E & H). rewrite E. cbn [bind].
    destruct (rfrom_near g _ _ _ _ _ p R S N ST) as (q & E' & H'). rewrite E'. cbn [bind]. exists (f q). split; [reflexivity|].
    assert (H2 : near e_to (p / su) (num x * s / su)) by (unfold Qdiv; apply near_mult_r; [num|exact H]).
    assert (H3 := near_trans e_from e_to _ _ _ ltac:(num) ltac:(num) H' H2). apply (near_weak _ e_both) in H3; [|num].
    apply near_weak with (u2 + e_both + u2 * e_both); [num|]. apply near_step; [exact F|num|num|exact H3].
Qed.
