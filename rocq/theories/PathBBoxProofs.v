(** Bounding boxes. *)
From Verif Require Import PyBase RectModel RectSpec RectProofs MatrixModel MatrixSpec PathModel PathSpec
  PathBBoxModel PathBBoxSpec PathProofs.
Local Open Scope Q_scope.

Lemma sq_nonneg x : 0 <= x * x.
Proof. nra. Qed.
(** *** one coordinate of a cubic curve *)
Lemma simpson p0 p1 p2 p3 u v :
  let d s := 3 * coef_a p0 p1 p2 p3 * (s * s) + 2 * coef_b p0 p1 p2 p3 * s + coef_c p0 p1 p2 p3 in
  6 * (curve_at p0 p1 p2 p3 v - curve_at p0 p1 p2 p3 u)
  == (v - u) * (d u + 4 * d ((u + v) * (1#2)) + d v).
Proof. unfold curve_at. cbn zeta. ring. Qed.
(* the derivative *)
Definition deriv (p0 p1 p2 p3 s : Q) : Q :=
  3 * coef_a p0 p1 p2 p3 * (s * s) + 2 * coef_b p0 p1 p2 p3 * s + coef_c p0 p1 p2 p3.
Lemma rise p0 p1 p2 p3 u v : u <= v -> (forall s, u <= s <= v -> 0 <= deriv p0 p1 p2 p3 s) ->
  curve_at p0 p1 p2 p3 u <= curve_at p0 p1 p2 p3 v.
Proof.
  intros L H. pose proof (simpson p0 p1 p2 p3 u v) as S. cbn zeta in S.
  assert (A : 0 <= deriv p0 p1 p2 p3 u) by (apply H; lra).
  assert (B : 0 <= deriv p0 p1 p2 p3 ((u + v) * (1#2))) by (apply H; lra).
  assert (C : 0 <= deriv p0 p1 p2 p3 v) by (apply H; lra).
  unfold deriv in A, B, C.
  set (x := 3 * coef_a p0 p1 p2 p3 * (u * u) + 2 * coef_b p0 p1 p2 p3 * u + coef_c p0 p1 p2 p3) in *.
  set (y := 3 * coef_a p0 p1 p2 p3 * ((u + v) * (1#2) * ((u + v) * (1#2))) + 2 * coef_b p0 p1 p2 p3 * ((u + v) * (1#2)) + coef_c p0 p1 p2 p3) in *.
  set (z := 3 * coef_a p0 p1 p2 p3 * (v * v) + 2 * coef_b p0 p1 p2 p3 * v + coef_c p0 p1 p2 p3) in *.
  assert (0 <= (v - u) * (x + 4 * y + z)) by (apply Qmult_le_0_compat; lra). lra.
Qed.
Lemma fall p0 p1 p2 p3 u v : u <= v -> (forall s, u <= s <= v -> deriv p0 p1 p2 p3 s <= 0) ->
  curve_at p0 p1 p2 p3 v <= curve_at p0 p1 p2 p3 u.
Proof.
  intros L H. pose proof (simpson p0 p1 p2 p3 u v) as S. cbn zeta in S.
  assert (A : deriv p0 p1 p2 p3 u <= 0) by (apply H; lra).
  assert (B : deriv p0 p1 p2 p3 ((u + v) * (1#2)) <= 0) by (apply H; lra).
  assert (C : deriv p0 p1 p2 p3 v <= 0) by (apply H; lra).
  unfold deriv in A, B, C.
  set (x := 3 * coef_a p0 p1 p2 p3 * (u * u) + 2 * coef_b p0 p1 p2 p3 * u + coef_c p0 p1 p2 p3) in *.
  set (y := 3 * coef_a p0 p1 p2 p3 * ((u + v) * (1#2) * ((u + v) * (1#2))) + 2 * coef_b p0 p1 p2 p3 * ((u + v) * (1#2)) + coef_c p0 p1 p2 p3) in *.
  set (z := 3 * coef_a p0 p1 p2 p3 * (v * v) + 2 * coef_b p0 p1 p2 p3 * v + coef_c p0 p1 p2 p3) in *.
  assert (0 <= (v - u) * (- (x + 4 * y + z))) by (apply Qmult_le_0_compat; lra).
  setoid_replace ((v - u) * - (x + 4 * y + z)) with (- ((v - u) * (x + 4 * y + z))) in H0 by ring. lra.
Qed.
(** on an interval where the derivative keeps its sign the curve stays between
    the values at its ends *)
Definition one_sign (p0 p1 p2 p3 u v : Q) : Prop :=
  (forall s, u <= s <= v -> 0 <= deriv p0 p1 p2 p3 s) \/ (forall s, u <= s <= v -> deriv p0 p1 p2 p3 s <= 0).
Definition betw (a x b : Q) : Prop := a <= x <= b \/ b <= x <= a.
Lemma sign_between p0 p1 p2 p3 u v t : u <= t <= v -> one_sign p0 p1 p2 p3 u v ->
  betw (curve_at p0 p1 p2 p3 u) (curve_at p0 p1 p2 p3 t) (curve_at p0 p1 p2 p3 v).
Proof.
  intros T [H|H]; [left|right]; split.
  - apply rise; [lra|]. intros s Hs. apply H. lra.
  - apply rise; [lra|]. intros s Hs. apply H. lra.
  - apply fall; [lra|]. intros s Hs. apply H. lra.
  - apply fall; [lra|]. intros s Hs. apply H. lra.
Qed.

(** the stops: 0, 1 and the roots inside the unit interval *)
Definition stop (o : oracle) (p0 p1 p2 p3 u : Q) : Prop :=
  u == 0 \/ u == 1 \/ exists r, In r (filter in_unit (axis_roots o p0 p1 p2 p3)) /\ r == u.
Lemma in_unit_iff t : in_unit t = true <-> 0 <= t <= 1.
Proof. unfold in_unit. rewrite andb_true_iff, !Qle_bool_iff. reflexivity. Qed.
Lemma stop_root o p0 p1 p2 p3 r : In r (axis_roots o p0 p1 p2 p3) -> 0 <= r <= 1 -> stop o p0 p1 p2 p3 r.
Proof. intros H U. right; right. exists r. split; [|reflexivity]. apply filter_In. split; [exact H|]. now apply in_unit_iff. Qed.

(** two sorted roots *)
Lemma stops_two o p0 p1 p2 p3 r1 r2 k t : r1 <= r2 -> 0 <= t <= 1 ->
  In r1 (axis_roots o p0 p1 p2 p3) -> In r2 (axis_roots o p0 p1 p2 p3) ->
  (forall s, deriv p0 p1 p2 p3 s == k * ((s - r1) * (s - r2))) ->
  exists u v, stop o p0 p1 p2 p3 u /\ stop o p0 p1 p2 p3 v /\ 0 <= u <= 1 /\ 0 <= v <= 1 /\ u <= t <= v /\ one_sign p0 p1 p2 p3 u v.
Proof.
  intros L T I1 I2 D.
  assert (S0 : stop o p0 p1 p2 p3 0) by (left; reflexivity).
  assert (S1 : stop o p0 p1 p2 p3 1) by (right; left; reflexivity).
  assert (POS : forall u v, (forall s, u <= s <= v -> 0 <= (s - r1) * (s - r2)) -> one_sign p0 p1 p2 p3 u v).
  { intros u v H. destruct (Qlt_le_dec k 0) as [K|K]; [right|left]; intros s Hs; rewrite D; specialize (H s Hs).
    - assert (0 <= (- k) * ((s - r1) * (s - r2))) by (apply Qmult_le_0_compat; lra). lra.
    - apply Qmult_le_0_compat; lra. }
  assert (NEG : forall u v, (forall s, u <= s <= v -> (s - r1) * (s - r2) <= 0) -> one_sign p0 p1 p2 p3 u v).
  { intros u v H. destruct (Qlt_le_dec k 0) as [K|K]; [left|right]; intros s Hs; rewrite D; specialize (H s Hs).
    - assert (0 <= (- k) * - ((s - r1) * (s - r2))) by (apply Qmult_le_0_compat; lra). lra.
    - assert (0 <= k * - ((s - r1) * (s - r2))) by (apply Qmult_le_0_compat; lra). lra. }
  destruct (Qlt_le_dec t r1) as [C|C].
  - (* before r1 *)
    destruct (Qlt_le_dec 1 r1) as [E|E].
    + exists 0, 1. repeat split; auto; try lra. apply POS. intros s Hs. nra.
    + exists 0, r1. repeat split; auto; try lra; [apply stop_root; [exact I1|lra]|]. apply POS. intros s Hs. nra.
  - destruct (Qlt_le_dec t r2) as [C2|C2].
    + (* between *)
      destruct (Qlt_le_dec r1 0) as [E|E], (Qlt_le_dec 1 r2) as [F|F].
      * exists 0, 1. repeat split; auto; try lra. apply NEG. intros s Hs. nra.
      * exists 0, r2. repeat split; auto; try lra; [apply stop_root; [exact I2|lra]|]. apply NEG. intros s Hs. nra.
      * exists r1, 1. repeat split; auto; try lra; [apply stop_root; [exact I1|lra]|]. apply NEG. intros s Hs. nra.
      * exists r1, r2. repeat split; auto; try lra; [apply stop_root; [exact I1|lra]|apply stop_root; [exact I2|lra]|].
        apply NEG. intros s Hs. nra.
    + destruct (Qlt_le_dec r2 0) as [E|E].
      * exists 0, 1. repeat split; auto; try lra. apply POS. intros s Hs. nra.
      * exists r2, 1. repeat split; auto; try lra; [apply stop_root; [exact I2|lra]|]. apply POS. intros s Hs. nra.
Qed.

Lemma turning_disc p0 p1 p2 p3 : turning p0 p1 p2 p3 ==
  2 * coef_b p0 p1 p2 p3 * (2 * coef_b p0 p1 p2 p3) - 4 * (3 * coef_a p0 p1 p2 p3) * coef_c p0 p1 p2 p3.
Proof. unfold turning, coef_a, coef_b, coef_c. cbn zeta. ring. Qed.

Lemma axis_stops o p0 p1 p2 p3 t : oracle_basic o -> has_root (turning p0 p1 p2 p3) -> 0 <= t <= 1 ->
  exists u v, stop o p0 p1 p2 p3 u /\ stop o p0 p1 p2 p3 v /\ 0 <= u <= 1 /\ 0 <= v <= 1 /\ u <= t <= v /\ one_sign p0 p1 p2 p3 u v.
Proof.
  intros [SQ _] R0 T. pose proof (turning_disc p0 p1 p2 p3) as TD. unfold has_root in R0.
  assert (R : 0 <= 2 * coef_b p0 p1 p2 p3 * (2 * coef_b p0 p1 p2 p3)
                   - 4 * (3 * coef_a p0 p1 p2 p3) * coef_c p0 p1 p2 p3 ->
              exists q, 0 <= q /\ q * q == 2 * coef_b p0 p1 p2 p3 * (2 * coef_b p0 p1 p2 p3)
                   - 4 * (3 * coef_a p0 p1 p2 p3) * coef_c p0 p1 p2 p3).
  { intros H. destruct R0 as (q & Q0 & Qd); [rewrite TD; exact H|]. exists q. split; [exact Q0|].
    rewrite Qd. exact TD. }
  clear R0 TD.
  assert (S0 : stop o p0 p1 p2 p3 0) by (left; reflexivity).
  assert (S1 : stop o p0 p1 p2 p3 1) by (right; left; reflexivity).
  assert (D : forall s, deriv p0 p1 p2 p3 s ==
    3 * coef_a p0 p1 p2 p3 * (s * s) + 2 * coef_b p0 p1 p2 p3 * s + coef_c p0 p1 p2 p3) by reflexivity.
  assert (I : forall r, In r (axis_roots o p0 p1 p2 p3) <-> In r (axis_roots o p0 p1 p2 p3)) by reflexivity.
  unfold axis_roots at 2 in I.
  set (a := 3 * coef_a p0 p1 p2 p3) in *. set (b := 2 * coef_b p0 p1 p2 p3) in *. set (c := coef_c p0 p1 p2 p3) in *.
  cbn zeta in I. clearbody a b c.
  set (d := b * b - 4 * a * c) in *.
  destruct (Qltb_spec d 0) as [DN|DN].
  { (* no real root *)
    exists 0, 1. repeat split; auto; try lra.
    assert (NA : ~ a == 0). { intros Z. assert (E : d == b * b) by (unfold d; rewrite Z; ring).
      assert (0 <= b * b) by apply sq_nonneg. lra. }
    assert (E : forall s, 4 * a * deriv p0 p1 p2 p3 s == (2 * a * s + b) * (2 * a * s + b) - d).
    { intros s. rewrite D. unfold d. ring. }
    destruct (Qlt_le_dec a 0) as [A|A]; [right|left]; intros s _; specialize (E s).
    - pose proof (sq_nonneg (2 * a * s + b)). nra.
    - assert (0 < a) by lra. pose proof (sq_nonneg (2 * a * s + b)). nra. }
  destruct (Qeqb_spec a 0) as [A|A]; cbn [andb negb] in I.
  - destruct (Qeqb_spec b 0) as [B|B]; cbn [negb] in I.
    + exists 0, 1. repeat split; auto; try lra.
      destruct (Qlt_le_dec c 0) as [C|C]; [right|left]; intros s _; rewrite D, A, B; lra.
    + assert (I1 : In (- c / b) (axis_roots o p0 p1 p2 p3)) by (apply I; left; reflexivity).
      set (r := - c / b) in *.
      assert (E : forall s, deriv p0 p1 p2 p3 s == b * (s - r)).
      { intros s. rewrite D, A. unfold r. field. exact B. }
      destruct (Qlt_le_dec r 0) as [R0|R0]; [|destruct (Qlt_le_dec 1 r) as [R1|R1]].
      * exists 0, 1. repeat split; auto; try lra.
        destruct (Qlt_le_dec b 0) as [C|C]; [right|left]; intros s Hs; rewrite E; nra.
      * exists 0, 1. repeat split; auto; try lra.
        destruct (Qlt_le_dec b 0) as [C|C]; [left|right]; intros s Hs; rewrite E; nra.
      * destruct (Qlt_le_dec t r) as [TR|TR].
        -- exists 0, r. repeat split; auto; try lra; [apply stop_root; [exact I1|lra]|].
           destruct (Qlt_le_dec b 0) as [C|C]; [left|right]; intros s Hs; rewrite E; nra.
        -- exists r, 1. repeat split; auto; try lra; [apply stop_root; [exact I1|lra]|].
           destruct (Qlt_le_dec b 0) as [C|C]; [right|left]; intros s Hs; rewrite E; nra.
  - destruct R as (q & Q0 & Qd); [lra|].
    assert (QS : osqrt o d == q) by (apply (SQ d q); [exact Q0|symmetry; exact Qd]).
    set (r1 := (- b + q) / (2 * a)). set (r2 := (- b - q) / (2 * a)).
    assert (V1 : solve o a b c 1 == r1) by (unfold solve, r1; fold d; rewrite QS; field; exact A).
    assert (V2 : solve o a b c (-1) == r2) by (unfold solve, r2; fold d; rewrite QS; field; exact A).
    assert (E : forall s, deriv p0 p1 p2 p3 s == a * ((s - r1) * (s - r2))).
    { intros s. rewrite D.
      setoid_replace (a * ((s - r1) * (s - r2))) with (a * (s * s) + b * s + (b * b - q * q) / (4 * a))
        by (unfold r1, r2; field; exact A).
      rewrite Qd. unfold d. field. exact A. }
    destruct (Qeqb_spec d 0) as [DZ|DZ]; cbn [andb] in I.
    + assert (q == 0) by nra.
      assert (r1 == r2) by (unfold r1, r2; rewrite H; field; exact A).
      assert (I1 : In (solve o a b c 1) (axis_roots o p0 p1 p2 p3)) by (apply I; left; reflexivity).
      apply (stops_two o p0 p1 p2 p3 (solve o a b c 1) (solve o a b c 1) a t); auto; [lra|].
      intros s. rewrite E, V1, <- H0. reflexivity.
    + assert (I1 : In (solve o a b c 1) (axis_roots o p0 p1 p2 p3)) by (apply I; left; reflexivity).
      assert (I2 : In (solve o a b c (-1)) (axis_roots o p0 p1 p2 p3)) by (apply I; right; left; reflexivity).
      destruct (Qlt_le_dec (solve o a b c 1) (solve o a b c (-1))) as [W|W].
      * apply (stops_two o p0 p1 p2 p3 (solve o a b c 1) (solve o a b c (-1)) a t); auto; [lra|].
        intros s. rewrite E, V1, V2. reflexivity.
      * apply (stops_two o p0 p1 p2 p3 (solve o a b c (-1)) (solve o a b c 1) a t); auto.
        intros s. rewrite E, V1, V2. ring.
Qed.

(** *** the box of a curve *)
Lemma minl_spec l : forall x, minl x l <= x /\ (forall y, In y l -> minl x l <= y) /\
  (minl x l == x \/ exists y, In y l /\ minl x l == y).
Proof.
  induction l as [|z l IH]; intros x; cbn.
  - split; [lra|]. split; [tauto|]. left; reflexivity.
  - destruct (pymin_spec x z) as (A & B & C). destruct (IH (pymin x z)) as (D & E & F). unfold minl in *.
    split; [lra|]. split.
    + intros y [<-|Hy]; [lra|auto].
    + destruct F as [F|(y & Hy & F)].
      * destruct C as [C|C]; [left; lra|]. right. exists z. split; [auto|lra].
      * right. exists y. auto.
Qed.
Lemma maxl_spec l : forall x, x <= maxl x l /\ (forall y, In y l -> y <= maxl x l) /\
  (maxl x l == x \/ exists y, In y l /\ maxl x l == y).
Proof.
  induction l as [|z l IH]; intros x; cbn.
  - split; [lra|]. split; [tauto|]. left; reflexivity.
  - destruct (pymax_spec x z) as (A & B & C). destruct (IH (pymax x z)) as (D & E & F). unfold maxl in *.
    split; [lra|]. split.
    + intros y [<-|Hy]; [lra|auto].
    + destruct F as [F|(y & Hy & F)].
      * destruct C as [C|C]; [left; lra|]. right. exists z. split; [auto|lra].
      * right. exists y. auto.
Qed.
Lemma curve_at_proper p0 p1 p2 p3 u v : u == v -> curve_at p0 p1 p2 p3 u == curve_at p0 p1 p2 p3 v.
Proof. intros E. unfold curve_at. rewrite E. reflexivity. Qed.
Lemma curve_range o p0 p1 p2 p3 rs : oracle_basic o -> has_root (turning p0 p1 p2 p3) ->
  (forall r, In r (filter in_unit (axis_roots o p0 p1 p2 p3)) -> In r rs) ->
  (forall r, In r rs -> 0 <= r <= 1) ->
  let l := p3 :: map (curve_at p0 p1 p2 p3) rs in
  (forall t, 0 <= t <= 1 -> minl p0 l <= curve_at p0 p1 p2 p3 t <= maxl p0 l) /\
  (exists t, 0 <= t <= 1 /\ curve_at p0 p1 p2 p3 t == minl p0 l) /\
  (exists t, 0 <= t <= 1 /\ curve_at p0 p1 p2 p3 t == maxl p0 l).
Proof.
  intros O R Sub U l.
  destruct (minl_spec l p0) as (A1 & A2 & A3). destruct (maxl_spec l p0) as (B1 & B2 & B3).
  assert (E0 : curve_at p0 p1 p2 p3 0 == p0) by (unfold curve_at; ring).
  assert (E1 : curve_at p0 p1 p2 p3 1 == p3) by (unfold curve_at, coef_a, coef_b, coef_c; ring).
  assert (M3 : In p3 l) by (left; reflexivity).
  assert (ST : forall u, stop o p0 p1 p2 p3 u -> minl p0 l <= curve_at p0 p1 p2 p3 u <= maxl p0 l).
  { intros u [H|[H|(r & Hr & H)]].
    - rewrite (curve_at_proper p0 p1 p2 p3 _ _ H), E0. lra.
    - rewrite (curve_at_proper p0 p1 p2 p3 _ _ H), E1. split; [apply A2|apply B2]; exact M3.
    - rewrite <- (curve_at_proper p0 p1 p2 p3 _ _ H).
      assert (In (curve_at p0 p1 p2 p3 r) l) by (right; apply in_map; auto).
      split; [apply A2|apply B2]; assumption. }
  assert (AT : forall y, y == p0 \/ (exists z, In z l /\ y == z) -> exists t, 0 <= t <= 1 /\ curve_at p0 p1 p2 p3 t == y).
  { intros y [H|(z & Hz & H)].
    - exists 0. split; [lra|]. rewrite E0. symmetry. exact H.
    - destruct Hz as [<-|Hz].
      + exists 1. split; [lra|]. rewrite E1. symmetry. exact H.
      + apply in_map_iff in Hz as (r & <- & Hr). exists r. split; [auto|]. symmetry. exact H. }
  split; [|split].
  - intros t T. destruct (axis_stops o p0 p1 p2 p3 t O R T) as (u & v & Su & Sv & _ & _ & L & W).
    destruct (sign_between p0 p1 p2 p3 u v t L W) as [B|B];
      destruct (ST u Su); destruct (ST v Sv); lra.
  - apply AT. exact A3.
  - apply AT. exact B3.
Qed.

(** r is the smallest box around the stroke d *)
Definition tight (d : stroke) (r : rect) : Prop :=
  exists x y w h, r = rect4 x y w h /\
    (forall p, on_stroke d p -> x <= ptx p <= x + w /\ y <= pty p <= y + h) /\
    (exists p, on_stroke d p /\ ptx p == x) /\ (exists p, on_stroke d p /\ ptx p == x + w) /\
    (exists p, on_stroke d p /\ pty p == y) /\ (exists p, on_stroke d p /\ pty p == y + h).
Lemma in_roots o p0 p1 p2 p3 r : In r (curve_roots o p0 p1 p2 p3) -> 0 <= r <= 1.
Proof. unfold curve_roots. intros H. apply filter_In in H as [_ H]. now apply in_unit_iff. Qed.
Lemma curve_tight o a c e b : oracle_basic o -> exact_turns (Cubic a c e b) ->
  tight (Cubic a c e b) (curve_bbox o a c e b).
Proof.
  intros O [Rx Ry].
  destruct (curve_range o _ _ _ _ (curve_roots o a c e b) O Rx) as (X1 & (tx1 & Tx1 & Ex1) & (tx2 & Tx2 & Ex2)).
  { intros r H. unfold curve_roots. rewrite filter_app. apply in_or_app. now left. }
  { apply in_roots. }
  destruct (curve_range o _ _ _ _ (curve_roots o a c e b) O Ry) as (Y1 & (ty1 & Ty1 & Ey1) & (ty2 & Ty2 & Ey2)).
  { intros r H. unfold curve_roots. rewrite filter_app. apply in_or_app. now right. }
  { apply in_roots. }
  unfold curve_bbox. cbn zeta. do 4 eexists. split; [reflexivity|].
  assert (PX : forall t p, at_time t (Cubic a c e b) = Some p ->
    ptx p == curve_at (ptx a) (ptx c) (ptx e) (ptx b) t /\ pty p == curve_at (pty a) (pty c) (pty e) (pty b) t).
  { intros t p H. cbn in H. injection H as <-. cbn [ptx pty]. unfold curve_at, coef_a, coef_b, coef_c, mix. split; ring. }
  assert (ON : forall t, 0 <= t <= 1 -> exists p, on_stroke (Cubic a c e b) p /\
    ptx p == curve_at (ptx a) (ptx c) (ptx e) (ptx b) t /\ pty p == curve_at (pty a) (pty c) (pty e) (pty b) t).
  { intros t T. eexists. split; [exists t; split; [exact T|reflexivity]|]. now apply PX. }
  split; [|repeat match goal with |- _ /\ _ => split end].
  - intros p (t & T & H). destruct (PX t p H) as [-> ->]. destruct (X1 t T), (Y1 t T). split; lra.
  - destruct (ON tx1 Tx1) as (p & Hp & H & _). exists p. split; [exact Hp|]. lra.
  - destruct (ON tx2 Tx2) as (p & Hp & H & _). exists p. split; [exact Hp|]. lra.
  - destruct (ON ty1 Ty1) as (p & Hp & _ & H). exists p. split; [exact Hp|]. lra.
  - destruct (ON ty2 Ty2) as (p & Hp & _ & H). exists p. split; [exact Hp|]. lra.
Qed.

Lemma line_box_form a b : exists x1 y1 w h, line_bbox a b = rect4 x1 y1 w h /\
  x1 == Qmin (ptx a) (ptx b) /\ x1 + w == Qmax (ptx a) (ptx b) /\
  y1 == Qmin (pty a) (pty b) /\ y1 + h == Qmax (pty a) (pty b).
Proof.
  unfold line_bbox, RectModel.normalize, rect4. cbn [RectModel.rx RectModel.ry RectModel.rw RectModel.rh].
  destruct (Qltb_spec (ptx b - ptx a) 0); destruct (Qltb_spec (pty b - pty a) 0); cbn [bind];
    do 4 eexists; (split; [reflexivity|]);
    rewrite ?(Q.min_r (ptx a) (ptx b)), ?(Q.max_l (ptx a) (ptx b)),
      ?(Q.min_r (pty a) (pty b)), ?(Q.max_l (pty a) (pty b)) by lra;
    rewrite ?(Q.min_l (ptx a) (ptx b)), ?(Q.max_r (ptx a) (ptx b)),
      ?(Q.min_l (pty a) (pty b)), ?(Q.max_r (pty a) (pty b)) by lra;
    repeat split; ring.
Qed.

Lemma mix_between t a b : 0 <= t <= 1 -> Qmin a b <= mix t a b <= Qmax a b.
Proof.
  intros T. unfold mix. destruct (Qlt_le_dec a b) as [H|H].
  - rewrite Q.min_l, Q.max_r by lra. nra.
  - rewrite Q.min_r, Q.max_l by lra. nra.
Qed.
Lemma line_tight a b d : (d = Line a b \/ d = Close a b) -> tight d (line_bbox a b).
Proof.
  intros D. destruct (line_box_form a b) as (x & y & w & h & E & X1 & X2 & Y1 & Y2).
  exists x, y, w, h. split; [exact E|].
  assert (AT : forall t, at_time t d = Some (P (mix t (ptx a) (ptx b)) (mix t (pty a) (pty b))))
    by (destruct D as [-> | ->]; reflexivity).
  assert (A : exists p, on_stroke d p /\ peq p a).
  { eexists. split; [exists 0; split; [lra|apply AT]|]. unfold mix. split; cbn; ring. }
  assert (B : exists p, on_stroke d p /\ peq p b).
  { eexists. split; [exists 1; split; [lra|apply AT]|]. unfold mix. split; cbn; ring. }
  destruct A as (pa & Ha & Pa), B as (pb & Hb & Pb). destruct Pa as [Pa1 Pa2], Pb as [Pb1 Pb2].
  split; [|repeat match goal with |- _ /\ _ => split end].
  - intros p (t & T & H). rewrite AT in H. injection H as <-. cbn [ptx pty].
    destruct (mix_between t (ptx a) (ptx b) T), (mix_between t (pty a) (pty b) T). lra.
  - destruct (Q.min_spec (ptx a) (ptx b)) as [[_ H]|[_ H]]; [exists pa|exists pb]; (split; [assumption|lra]).
  - destruct (Q.max_spec (ptx a) (ptx b)) as [[_ H]|[_ H]]; [exists pb|exists pa]; (split; [assumption|lra]).
  - destruct (Q.min_spec (pty a) (pty b)) as [[_ H]|[_ H]]; [exists pa|exists pb]; (split; [assumption|lra]).
  - destruct (Q.max_spec (pty a) (pty b)) as [[_ H]|[_ H]]; [exists pb|exists pa]; (split; [assumption|lra]).
Qed.

(** *** what a stroke contributes *)
Lemma tight_corner d x y w h : tight d (rect4 x y w h) -> corner d (P x y) /\
  forall q, corner d q -> peq q (P x y).
Proof.
  intros (x' & y' & w' & h' & E & B & A1 & _ & A3 & _). injection E as <- <- <- <-. split.
  - split; [|split; assumption]. intros p Hp. cbn. destruct (B p Hp). lra.
  - intros q (C & (p & Hp & Ep) & (p' & Hp' & Ep')).
    destruct A1 as (u & Hu & Eu), A3 as (v & Hv & Ev).
    destruct (C u Hu), (C v Hv), (B p Hp), (B p' Hp'). split; cbn; lra.
Qed.
Lemma tight_size d x y w h : tight d (rect4 x y w h) -> 0 <= w /\ 0 <= h /\
  (0 < w <-> varies ptx d) /\ (0 < h <-> varies pty d).
Proof.
  intros (x' & y' & w' & h' & E & B & A1 & A2 & A3 & A4). injection E as <- <- <- <-.
  destruct A1 as (p1 & H1 & E1), A2 as (p2 & H2 & E2), A3 as (p3 & H3 & E3), A4 as (p4 & H4 & E4).
  destruct (B p1 H1), (B p2 H2), (B p3 H3), (B p4 H4).
  split; [lra|]. split; [lra|]. split; split.
  - intros W. exists p1, p2. split; [assumption|]. split; [assumption|]. lra.
  - intros (p & q & Hp & Hq & N). destruct (B p Hp), (B q Hq).
    destruct (Qlt_le_dec 0 w); [assumption|]. exfalso. apply N. lra.
  - intros W. exists p3, p4. split; [assumption|]. split; [assumption|]. lra.
  - intros (p & q & Hp & Hq & N). destruct (B p Hp), (B q Hq).
    destruct (Qlt_le_dec 0 h); [assumption|]. exfalso. apply N. lra.
Qed.
Lemma inside_proper r p q : peq p q -> inside r p -> inside r q.
Proof.
  intros [E F]. unfold inside, region. destruct (RectModel.rx r), (RectModel.ry r); auto. intros. lra.
Qed.
(** a box holding points with the extreme coordinates holds the rectangle *)
Lemma proper_hull b x y w h p1 p2 p3 p4 :
  inside b p1 -> inside b p2 -> inside b p3 -> inside b p4 ->
  ptx p1 == x -> ptx p2 == x + w -> pty p3 == y -> pty p4 == y + h -> included (rect4 x y w h) b.
Proof.
  unfold inside, region, included, region. cbn [RectModel.rx RectModel.ry RectModel.rw RectModel.rh rect4].
  destruct (RectModel.rx b), (RectModel.ry b); try tauto. intros. cbn in *. lra.
Qed.

(** the box united into the path's box *)
Lemma unset_tight d r : tight d r ->
  let u := unite rect_unset r in
  full u /\ (forall q, anchor d q -> inside u q) /\
  (forall b, proper b -> (forall q, anchor d q -> inside b q) -> included u b).
Proof.
  intros T. pose proof T as (x & y & w & h & -> & B & A1 & A2 & A3 & A4). cbn zeta.
  destruct (tight_corner d x y w h T) as [C1 C2]. destruct (tight_size d x y w h T) as (W & H & VX & VY).
  destruct (Qlt_le_dec 0 w) as [w0|w0]; [destruct (Qlt_le_dec 0 h) as [h0|h0]|].
  1:{ (* both sizes *)
    assert (F : full (rect4 x y w h)).
    { split; [right; repeat split; try discriminate; assumption|]. cbn. tauto. }
    assert (SP : spread d) by (unfold spread; tauto).
    destruct (unite_upper rect_unset (rect4 x y w h) proper_unset F) as (P1 & _ & P3 & P4).
    assert (UE : unite rect_unset (rect4 x y w h) = set_coords x y (x + w) (y + h)).
    { unfold unite, unite_self, contains. cbn. destruct (Qltb_spec 0 w); [|lra]. destruct (Qltb_spec 0 h); [|lra]. reflexivity. }
    split; [|split].
    - split; [exact P1|]. rewrite UE. cbn. split; intros; lra.
    - intros q [Hq|[_ Hq]].
      + apply (inside_proper _ (P x y)); [apply peq_sym; auto|]. apply P3. cbn. lra.
      + apply P3. destruct (B q Hq). unfold region. cbn. lra.
    - intros b Pb Hb. apply P4; [exact Pb| |].
      + intros px py []. 
      + destruct A1 as (p1 & H1 & E1), A2 as (p2 & H2 & E2), A3 as (p3 & H3 & E3), A4 as (p4 & H4 & E4).
        apply (proper_hull b x y w h p1 p2 p3 p4); auto; apply Hb; right; auto. }
  all: (* flat *)
    assert (UE : exists w' h', unite rect_unset (rect4 x y w h) = rect4 x y w' h' /\ w' == 0 /\ h' == 0)
    by (unfold unite, unite_self, contains; cbn;
        destruct (Qltb_spec 0 w); destruct (Qltb_spec 0 h); try lra; cbn; do 2 eexists; (split; [reflexivity|]); split; reflexivity);
    destruct UE as (w' & h' & -> & W' & H');
    assert (NS : spread d -> w == 0 /\ h == 0) by (unfold spread; intros S; assert (0 < w <-> 0 < h) by tauto; split; apply Qle_antisym; auto;
        apply Qnot_lt_le; intros ?; assert (0 < w /\ 0 < h) by tauto; lra);
    (split; [split; [right; repeat split; try discriminate; cbn; lra|cbn; lra]|]); split.
  1,3: intros q [Hq|[S Hq]];
    [apply (inside_proper _ (P x y)); [apply peq_sym; auto|]; unfold inside, region; cbn; lra|
     destruct (NS S); destruct (B q Hq); unfold inside, region; cbn; lra].
  all: intros b Pb Hb; assert (G : inside b (P x y)) by (apply Hb; left; exact C1);
    apply (proper_hull b x y w' h' (P x y) (P x y) (P x y) (P x y)); auto; cbn; try reflexivity; lra.
Qed.

(** *** the run *)
Definition binv (st : bstate) (s : pen) : Prop :=
  b_cp st = some_pt (cur s) /\ b_start st = some_pt (sub s) /\ b_last st <> None /\
  is_moveto (b_last st) = after_move s /\ proper (b_box st).
Lemma inside_included a b p : included a b -> inside a p -> inside b p.
Proof. intros I H. exact (I _ _ H). Qed.
Lemma known_some p : known_cp (some_pt p) = p. Proof. destruct p; reflexivity. Qed.

Lemma bbox_step_ok o at2 st s g : oracle_basic o -> base g = true -> binv st s ->
  Forall exact_turns (snd (draw o s g)) ->
  exists st', bbox_step o at2 st g = Ok st' /\ binv st' (fst (draw o s g)) /\
    included (b_box st) (b_box st') /\
    (forall d, In d (snd (draw o s g)) -> drawn_stroke d -> forall q, anchor d q -> inside (b_box st') q) /\
    (forall c, proper c -> included (b_box st) c ->
      (forall d, In d (snd (draw o s g)) -> drawn_stroke d -> forall q, anchor d q -> inside c q) ->
      included (b_box st') c).
Proof.
  intros O B (C1 & C2 & C3 & C4 & C5) X.
  assert (G : forall d r, tight d r -> let u := unite (b_box st) (unite rect_unset r) in
    proper u /\ included (b_box st) u /\ (forall q, anchor d q -> inside u q) /\
    (forall c, proper c -> included (b_box st) c -> (forall q, anchor d q -> inside c q) -> included u c)).
  { intros d r T. cbn zeta. destruct (unset_tight d r T) as (F & A & L).
    destruct (unite_upper _ _ C5 F) as (P1 & P2 & P3 & P4).
    split; [exact P1|]. split; [exact P2|]. split.
    - intros q Hq. apply (inside_included _ _ _ P3). auto.
    - intros c Pc Ic Hc. apply P4; auto. }
  destruct st as [box start cp last]. cbn [b_box b_start b_cp b_last] in *. subst cp start.
  destruct g as [[|] p|[|] p| | |[|] p1 p2 p| | | | | |[|]| |]; try discriminate B; cbn [bbox_step].
  - (* M *)
    unfold seg_bbox. cbn [seg_normalize isrelative bind segs_bbox]. unfold some_pt at 1.
    cbn [b_cp b_last b_start b_box fst snd some_pt].
    cbn [draw place fst snd] in *. rewrite C4. destruct last as [k|]; [|congruence].
    replace (P (ptx (cur s)) (pty (cur s))) with (cur s) by (destruct s as [[]]; reflexivity).
    destruct (after_move s); cbn [fst snd].
    + eexists. split; [reflexivity|].
      destruct (G (Line (cur s) p) _ (line_tight (cur s) p _ (or_introl eq_refl))) as (P1 & P2 & P3 & P4).
      split; [repeat split; cbn; auto; discriminate|]. split; [exact P2|]. split.
      * intros d [<-|[]] _ q. apply P3.
      * intros c Pc Ic Hc. apply P4; auto. intros q Hq. apply (Hc (Line (cur s) p)); cbn; auto.
    + eexists. split; [reflexivity|]. split; [repeat split; cbn; auto; discriminate|].
      cbn. split; [intros ? ?; auto|]. split; [|intros c Pc Ic _; exact Ic].
      intros d [<-|[]] [].
  - (* L *)
    unfold seg_bbox. cbn [seg_normalize isrelative bind segs_bbox b_cp].
    rewrite known_some. cbn [b_box b_start]. cbn [draw place goto fst snd] in *.
    eexists. split; [reflexivity|].
    destruct (G (Line (cur s) p) _ (line_tight (cur s) p _ (or_introl eq_refl))) as (P1 & P2 & P3 & P4).
    split; [repeat split; cbn; auto; discriminate|]. split; [exact P2|]. split.
    + intros d [<-|[]] _ q. apply P3.
    + intros c Pc Ic Hc. apply P4; auto. intros q Hq. apply (Hc (Line (cur s) p)); cbn; auto.
  - (* C *)
    unfold seg_bbox. cbn [seg_normalize isrelative bind segs_bbox b_cp].
    rewrite known_some. cbn [b_box b_start]. cbn [draw place goto fst snd] in *.
    eexists. split; [reflexivity|]. apply Forall_inv in X.
    destruct (G (Cubic (cur s) p1 p2 p) _ (curve_tight o _ _ _ _ O X)) as (P1 & P2 & P3 & P4).
    split; [repeat split; cbn; auto; discriminate|]. split; [exact P2|]. split.
    + intros d [<-|[]] _ q. apply P3.
    + intros c Pc Ic Hc. apply P4; auto. intros q Hq. apply (Hc (Cubic (cur s) p1 p2 p)); cbn; auto.
  - (* Z *)
    cbn [b_start b_cp b_box]. unfold some_pt. unfold seg_bbox. cbn [seg_normalize isrelative bind segs_bbox].
    replace (known_cp (Some (ptx (cur s)), Some (pty (cur s)))) with (cur s) by (destruct s as [[]]; reflexivity).
    replace (P (ptx (sub s)) (pty (sub s))) with (sub s) by (destruct s as [? []]; reflexivity).
    cbn [draw fst snd] in *. eexists. split; [reflexivity|].
    destruct (G (Close (cur s) (sub s)) _ (line_tight (cur s) (sub s) _ (or_intror eq_refl))) as (P1 & P2 & P3 & P4).
    split; [repeat split; cbn; auto; discriminate|]. split; [exact P2|]. split.
    + intros d [<-|[]] _ q. apply P3.
    + intros c Pc Ic Hc. apply P4; auto. intros q Hq. apply (Hc (Close (cur s) (sub s))); cbn; auto.
Qed.

Lemma bbox_run o at2 l : oracle_basic o -> forallb base l = true -> forall st s, binv st s ->
  Forall exact_turns (strokes o s l) ->
  exists b, bbox_from o at2 st l = Ok b /\ proper b /\ included (b_box st) b /\
    (forall d, In d (strokes o s l) -> drawn_stroke d -> forall q, anchor d q -> inside b q) /\
    (forall c, proper c -> included (b_box st) c ->
      (forall d, In d (strokes o s l) -> drawn_stroke d -> forall q, anchor d q -> inside c q) ->
      included b c).
Proof.
  intros O. induction l as [|g l IH]; intros B st s I X.
  - exists (b_box st). split; [reflexivity|]. split; [apply I|]. split; [intros ? ?; auto|].
    split; [intros d []|auto].
  - cbn [forallb] in B. apply andb_true_iff in B. destruct B as [B1 B2].
    cbn [strokes bbox_from] in *. destruct (draw o s g) as [s' ds] eqn:E.
    apply Forall_app in X. destruct X as [X1 X2].
    destruct (bbox_step_ok o at2 st s g O B1 I) as (st' & H1 & H2 & H3 & H4 & H5); [rewrite E; exact X1|].
    rewrite E in *. cbn [fst snd] in *. rewrite H1. cbn [bind].
    destruct (IH B2 st' s' H2 X2) as (b & K1 & K2 & K3 & K4 & K5).
    exists b. split; [exact K1|]. split; [exact K2|]. split; [intros ? ? ?; auto|]. split.
    + intros d Hd D q Hq. apply in_app_or in Hd. destruct Hd as [Hd|Hd]; [|eauto].
      apply (inside_included _ _ _ K3). eauto.
    + intros c Pc Ic Hc. apply K5; auto.
      * apply H5; auto. intros d Hd. apply Hc, in_or_app. auto.
      * intros d Hd. apply Hc, in_or_app. auto.
Qed.

Lemma path_bbox_least o at2 l : oracle_basic o -> forallb base l = true -> begins_moveto l = true ->
  Forall exact_turns (drawing o l) ->
  exists b, path_bbox o at2 l = Ok b /\ least_box (marks o l) b.
Proof.
  intros O B M X. destruct l as [|g l].
  - exists rect_unset. split; [reflexivity|]. split; [exact proper_unset|]. split.
    + intros q [(p & l' & H & _)|(d & [] & _)]. discriminate H.
    + intros c _ _ px py [].
  - destruct g as [[|] p| | | | | | | | | | | |]; try discriminate.
    cbn [forallb] in B. apply andb_true_iff in B. destruct B as [_ B].
    unfold drawing in X. cbn in X. inversion X as [|? ? _ X']; subst.
    set (st := BS (rect4 (ptx p) (pty p) 0 0) (some_pt p) (some_pt p) (Some KM)).
    set (s := Pen p p NoCtrl true 0).
    assert (I : binv st s).
    { repeat split; try discriminate. right. repeat split; try discriminate; cbn; lra. }
    destruct (bbox_run o at2 l O B st s I X') as (b & K1 & K2 & K3 & K4 & K5).
    exists b. split; [exact K1|]. split; [exact K2|]. split.
    + intros q [(p' & l' & H & E)|(d & Hd & D & Hq)].
      * injection H as <- <-. apply (inside_proper _ p); [apply peq_sym; exact E|].
        apply (inside_included _ _ _ K3). unfold inside, region. cbn. lra.
      * destruct Hd as [<-|Hd]; [destruct D|]. exact (K4 d Hd D q Hq).
    + intros c Pc Hc. apply K5; auto.
      * cbn [b_box st]. assert (Hp : inside c p) by (apply Hc; left; exists p, l; split; [reflexivity|apply peq_refl]).
        apply (proper_hull c _ _ 0 0 p p p p); auto; try reflexivity; lra.
      * intros d Hd D q Hq. apply Hc. right. exists d. split; [right; exact Hd|auto].
Qed.

Lemma bbox_step_total o at2 st g : base g = true -> exists st', bbox_step o at2 st g = Ok st'.
Proof.
  destruct g as [[|] p|[|] p| | |[|] p1 p2 p| | | | | |[|]| |]; intros B; try discriminate B; cbn; eauto.
  - destruct (b_cp st) as [[?|] [?|]], (is_moveto (b_last st)), (b_last st); cbn; eauto.
  - destruct (b_start st) as [[?|] [?|]], (b_cp st) as [[?|] [?|]]; cbn; eauto.
Qed.
Lemma bbox_other_commands o at2 l1 g l2 : forallb base l1 = true ->
  base g = false -> g <> SInvalid -> (forall p q, g <> SCNone p q) ->
  path_bbox o at2 (l1 ++ g :: l2) = Err ValueError.
Proof.
  unfold path_bbox. intros B Bg N1 N2. revert B. generalize bstate0 as st.
  induction l1 as [|h l1 IH]; intros st B; cbn [app bbox_from].
  - destruct g as [[|] p|[|] p| | |[|] p1 p2 p| | | | | |[|]| |]; try discriminate Bg; try reflexivity; try congruence.
  - cbn [forallb] in B. apply andb_true_iff in B. destruct B as [B1 B2].
    destruct (bbox_step_total o at2 st h B1) as [st' ->]. cbn [bind]. auto.
Qed.
