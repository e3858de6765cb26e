(** C14, arcs: extent and number of the curves, where the first one starts,
    and how near they run to the ellipse. *)
From Coq Require Import Qabs Qround Lia Lqa Qfield.
From Verif Require Import PyBase MatrixModel MatrixSpec PathModel PathSpec MatrixProofs2 PathArcProofs PathArcSpec PathProps.
#[local] Open Scope Q_scope.

Lemma get_angle_range at2 y x : atan_like at2 -> 0 <= get_angle at2 y x <= 360.
Proof.
  intros T. destruct (T y x) as (A & B & C & D & E). unfold get_angle. destruct (Qltb_spec 0 y) as [L|L]; [specialize (C L); lra|].
  destruct (Qltb_spec y 0) as [M|M]; [specialize (D M); lra|]. assert (Z : y == 0) by lra. specialize (E Z). lra.
Qed.
Lemma extent_range (fa fs : Q) a b : Qabs (b - a) <= 360 -> let x := arc_extent (negb (fa =?q 0)) (negb (fs =?q 0)) a b in
  (fa == 0 -> Qabs x <= 180) /\ (~ fa == 0 -> 180 <= Qabs x) /\ Qabs x <= 360 /\ (fs == 0 -> 0 <= x) /\ (~ fs == 0 -> x <= 0).
Proof.
  intros D. cbv zeta. unfold arc_extent. assert (D0 := Qabs_nonneg (b - a)). set (d := Qabs (b - a)) in *. clearbody d.
  assert (P : forall s e, 0 <= e -> Qabs (if s : bool then - e else e) == e) by (intros [|] e H; [rewrite Qabs_opp|]; apply Qabs_pos, H).
  set (e := if negb (fa =?q 0) then _ else _).
  assert (E : 0 <= e /\ e <= 360 /\ (fa == 0 -> e <= 180) /\ (~ fa == 0 -> 180 <= e)).
  { unfold e. destruct (Qeqb_spec fa 0); cbn [negb]; destruct (Qltb_spec d 180), (Qltb_spec 180 d); repeat split; intros; try lra; contradiction. }
  clearbody e. destruct E as (E1 & E2 & E3 & E4). assert (Q := P (negb (fs =?q 0)) e E1).
  repeat split; intros; try (rewrite Q; auto); destruct (Qeqb_spec fs 0); cbn [negb]; try lra; contradiction.
Qed.
(** The extent is at most half a turn for small arcs and at least that for
    large ones; positive without the sweep flag, negative with it. *)
Theorem c14_arc_extent : forall o at2 rx ry rot fa fs cp ep c rx' ry' d1 ext, atan_like at2 ->
  get_center_of_arc o at2 rx ry rot fa fs cp ep = Centre c rx' ry' d1 ext ->
  (fa == 0 -> Qabs ext <= 180) /\ (~ fa == 0 -> 180 <= Qabs ext) /\ Qabs ext <= 360 /\ (fs == 0 -> 0 <= ext) /\ (~ fs == 0 -> ext <= 0).
Proof.
  intros o at2 rx ry rot fa fs cp ep c rx' ry' d1 ext T. unfold get_center_of_arc. destruct (_ || _); [discriminate|]. destruct (_ && _); [discriminate|].
  intros E. injection E as _ _ _ _ <-. apply extent_range.
  set (a := get_angle _ (pty cp - _) _). set (b := get_angle _ (pty ep - _) _).
  assert (A : 0 <= a <= 360) by (apply get_angle_range, T). assert (B : 0 <= b <= 360) by (apply get_angle_range, T). clearbody a b.
  apply Qabs_Qle_condition. destruct (rot =?q 0); lra.
Qed.
Print Assumptions c14_arc_extent.
(** So a normalised arc has at most four curves, two if it is small, each of at
    most a quarter turn. *)
Theorem c14_arc_count : forall o at2 rx ry rot fa fs cp ep c rx' ry' d1 ext l, atan_like at2 ->
  get_center_of_arc o at2 rx ry rot fa fs cp ep = Centre c rx' ry' d1 ext -> normalize_arc o at2 rx ry rot fa fs cp ep = Ok l ->
  (1 <= length l <= 4)%nat /\ (fa == 0 -> (length l <= 2)%nat) /\ (~ fa == 0 -> (2 <= length l)%nat) /\ Qabs ext <= 90 * inject_Z (Z.of_nat (length l)) /\ 90 * (inject_Z (Z.of_nat (length l)) - 1) < Qabs ext.
Proof.
  intros o at2 rx ry rot fa fs cp ep c rx' ry' d1 ext l T C N. destruct (c14_arc_extent _ _ _ _ _ _ _ _ _ _ _ _ _ _ T C) as (A & B & D & _).
  unfold normalize_arc in N. rewrite C in N. set (e := Qabs ext) in *. destruct (Nat.eqb_spec (Z.to_nat (Qceiling (e / 90))) 0) as [Z0|Z0]; [discriminate|]. injection N as <-.
  rewrite map_length, seq_length. set (k := Qceiling (e / 90)) in *. assert (P : (0 < k)%Z) by lia. rewrite Z2Nat.id by lia.
  assert (U := Qle_ceiling (e / 90)). fold k in U. assert (L := Qceiling_lt (e / 90)). fold k in L.
  assert (E : e == e / 90 * 90) by field. assert (E1 : inject_Z (k - 1) == inject_Z k - 1) by (unfold Z.sub; rewrite inject_Z_plus; reflexivity). rewrite E1 in L.
  assert (U' : e <= 90 * inject_Z k) by lra. assert (L' : 90 * (inject_Z k - 1) < e) by lra.
  assert (UP : forall z : Z, e <= 90 * inject_Z z -> (k <= z)%Z).
  { intros z H. assert (G : inject_Z k - 1 < inject_Z z) by lra. rewrite <- E1, <- Zlt_Qlt in G. lia. }
  assert (LO : forall z : Z, 90 * inject_Z z <= e -> (z <= k)%Z).
  { intros z H. assert (G : inject_Z z <= inject_Z k) by lra. rewrite <- Zle_Qle in G. exact G. }
  split; [|split; [|split; [|split; assumption]]].
  - assert (H := UP 4%Z ltac:(change (90 * inject_Z 4) with 360; exact D)). lia.
  - intros F. specialize (A F). assert (H := UP 2%Z ltac:(change (90 * inject_Z 2) with 180; exact A)). lia.
  - intros F. specialize (B F). assert (H := LO 2%Z ltac:(change (90 * inject_Z 2) with 180; exact B)). lia.
Qed.
Print Assumptions c14_arc_count.

(** half a circle and three quarters of one *)
Lemma axis_atan : atan_like axis_at2.
Proof.
  intros y x. unfold axis_at2. destruct (Qeqb_spec y 0); [destruct (x <?q 0); repeat split; intros; lra|]. destruct (Qltb_spec 0 y); repeat split; intros; try lra; contradiction.
Qed.
Example c14_arc_count_case : atan_like axis_at2 /\
  (exists c rx ry d e l, get_center_of_arc quarter_oracle axis_at2 5 5 0 0 0 (P 10 0) (P (-10) 0) = Centre c rx ry d e /\
    normalize_arc quarter_oracle axis_at2 5 5 0 0 0 (P 10 0) (P (-10) 0) = Ok l /\ length l = 2%nat) /\
  (exists c rx ry d e l, get_center_of_arc quarter_oracle axis_at2 5 5 0 1 0 (P 5 0) (P 0 5) = Centre c rx ry d e /\
    normalize_arc quarter_oracle axis_at2 5 5 0 1 0 (P 5 0) (P 0 5) = Ok l /\ length l = 3%nat).
Proof. split; [exact axis_atan|]. split; do 6 eexists; (split; [vm_compute; reflexivity|split; [vm_compute; reflexivity|reflexivity]]). Qed.

(** For circles, turned or not, the start angle is that of the start point. *)
Theorem c14_circle_start_turned : forall o at2 rx ry rot fa fs cp ep c r d1 ext, oracle_basic o -> unit_angle o rot -> ~ rot == 0 ->
  ocos o (- rot) == ocos o rot -> osin o (- rot) == - osin o rot ->
  get_center_of_arc o at2 rx ry rot fa fs cp ep = Centre c r r d1 ext ->
  let a := get_angle at2 (pty cp - pty c) (ptx cp - ptx c) in
  r * ocos o a == ptx cp - ptx c -> r * osin o a == - (pty cp - pty c) ->
  sums o a rot ->
  peq (ellipse_at c r r (ocos o rot) (osin o rot) (ocos o d1) (osin o d1)) cp.
Proof.
  intros o at2 rx ry rot fa fs cp ep c r d1 ext O U R EC ES G a HC HS (SC & SS & _). unfold get_center_of_arc in G. destruct (_ || _); [discriminate|]. destruct (_ && _); [discriminate|].
  set (cc := arc_center _ _ _ _ _ _ _ _) in G. clearbody cc. injection G as G1 _ _ G4 _. rewrite G1 in G4. destruct (Qeqb_spec rot 0) as [Z|_]; [contradiction|]. fold a in G4. rewrite <- G4. unfold unit_angle in U.
  unfold ellipse_at, peq. cbn [ptx pty]. rewrite SC, SS. split.
  - transitivity (ptx c + (ocos o rot * ocos o rot + osin o rot * osin o rot) * (r * ocos o a)); [ring|]. rewrite U, HC. ring.
  - transitivity (pty c - (ocos o rot * ocos o rot + osin o rot * osin o rot) * (r * osin o a)); [ring|]. rewrite U, HS. ring.
Qed.
Print Assumptions c14_circle_start_turned.

(** A made-up cosine and sine: an eighth of a turn is the angle of 3, 4, 5 *)
Definition turn (z : Q * Q) : Q * Q := (Qred ((3#5) * fst z - (4#5) * snd z), Qred ((4#5) * fst z + (3#5) * snd z)).
Definition eighths (t : Q) : Q * Q := let k := (Qfloor t / 45)%Z in
  let z := Nat.iter (Z.to_nat (Z.abs k)) turn (1, 0) in if (k <? 0)%Z then (fst z, - snd z) else z.
Definition eighth_oracle : oracle := Orc (fun t => fst (eighths t)) (fun t => snd (eighths t)) (fun _ => 1) qsqrt.
Lemma eighth_good : oracle_basic eighth_oracle /\ (forall h k, h == k -> ocos eighth_oracle h == ocos eighth_oracle k /\ osin eighth_oracle h == osin eighth_oracle k).
Proof.
  split.
  - split; [intros q z Hz H; cbn; now apply qsqrt_ok|]. intros a E. cbn [ocos osin eighth_oracle]. unfold eighths. rewrite (Qfloor_comp _ _ E). split; reflexivity.
  - intros h k E. cbn [ocos osin eighth_oracle]. unfold eighths. rewrite (Qfloor_comp _ _ E). split; reflexivity.
Qed.
Example c14_circle_start_case : unit_angle eighth_oracle 45 /\ ocos eighth_oracle (- (45)) == ocos eighth_oracle 45 /\ osin eighth_oracle (- (45)) == - osin eighth_oracle 45 /\
  exists c r d ext, get_center_of_arc eighth_oracle axis_at2 5 5 45 0 0 (P 5 0) (P (-5) 0) = Centre c r r d ext /\ sums eighth_oracle 0 45 /\
    (let a := get_angle axis_at2 (0 - pty c) (5 - ptx c) in a == 0 /\ r * ocos eighth_oracle a == 5 - ptx c /\ r * osin eighth_oracle a == - (0 - pty c)).
Proof.
  split; [vm_compute; reflexivity|]. split; [vm_compute; reflexivity|]. split; [vm_compute; reflexivity|]. do 4 eexists. split; [vm_compute; reflexivity|].
  split; [repeat split; vm_compute; reflexivity|]. cbv zeta. split; [vm_compute; reflexivity|]. split; vm_compute; reflexivity.
Qed.

(** Each curve leaves the ellipse where the last one came in, and its middle is
    exactly on the ellipse, at the middle angle; the last one ends where the
    arc does. *)
Theorem c14_arc_middle : forall o at2 rx ry rot fa fs cp ep c rx' ry' d1 ext l, oracle_basic o ->
  ocos o (- rot) == ocos o rot -> osin o (- rot) == - osin o rot ->
  get_center_of_arc o at2 rx ry rot fa fs cp ep = Centre c rx' ry' d1 ext -> normalize_arc o at2 rx ry rot fa fs cp ep = Ok l ->
  let inc := ext / inject_Z (Z.of_nat (length l)) in
  let on t := ellipse_at c rx' ry' (ocos o rot) (osin o rot) (ocos o t) (osin o t) in
  forall i, (i < length l)%nat -> let t := d1 + inject_Z (Z.of_nat i) * inc in
    unit_angle o (inc / 2) -> ~ 1 + ocos o (inc / 2) == 0 -> (forall h k, h == k -> ocos o h == ocos o k /\ osin o h == osin o k) -> sums o (t + inc / 2) (inc / 2) ->
    exists q1 q2 q3, nth_error l i = Some (SC false q1 q2 q3) /\ ((S i < length l)%nat -> peq q3 (on (t + inc))) /\ (S i = length l -> q3 = ep) /\
      peq (middle (on t) q1 q2 (on (t + inc))) (on (t + inc / 2)).
Proof.
  intros o at2 rx ry rot fa fs cp ep c rx' ry' d1 ext l O EC ES C N inc on i.
  unfold normalize_arc in N. rewrite C in N. set (n := Z.to_nat _) in N. destruct (Nat.eqb_spec n 0) as [Z0|Z0]; [discriminate|]. injection N as N.
  assert (LN : length l = n) by (rewrite <- N, map_length, seq_length; reflexivity). subst inc. rewrite LN. set (inc := ext / inject_Z (Z.of_nat n)) in *. intros I t U NZ PR (S1 & S2 & S3 & S4).
  assert (E : nth_error l i = Some (arc_curve o (arc_matrix o c rx' ry' rot) ep d1 inc n i)).
  { rewrite <- N. rewrite nth_error_map. rewrite (nth_error_nth' (seq 0 n) 0%nat) by (rewrite seq_length; exact I). rewrite seq_nth by exact I. reflexivity. }
  rewrite E. unfold arc_curve. fold t. do 3 eexists. split; [reflexivity|].
  assert (M : forall x y, peq (arc_point (arc_matrix o c rx' ry' rot) x y) (ellipse_at c rx' ry' (ocos o rot) (osin o rot) x y)).
  { intros x y. destruct (arc_matrix_point o c rx' ry' rot x y O EC ES) as [X Y]. split; [exact X|exact Y]. }
  split; [|split].
  - intros H. destruct (Nat.eqb_spec (S i) n) as [Q|Q]; [lia|]. apply M.
  - intros H. destruct (Nat.eqb_spec (S i) n) as [Q|Q]; [reflexivity|lia].
  - set (q1 := arc_point _ _ _). set (q2 := arc_point _ (_ + _) _).
    destruct (M (ocos o t - arc_control o inc * osin o t) (osin o t + arc_control o inc * ocos o t)) as [A1 A2]. fold q1 in A1, A2.
    destruct (M (ocos o (t + inc) + arc_control o inc * osin o (t + inc)) (osin o (t + inc) - arc_control o inc * ocos o (t + inc))) as [B1 B2]. fold q2 in B1, B2.
    destruct (PR (t + inc / 2 + inc / 2) (t + inc) ltac:(field)) as [P1 P2]. destruct (PR (t + inc / 2 - inc / 2) t ltac:(field)) as [P3 P4].
    rewrite P1 in S1. rewrite P2 in S2. rewrite P3 in S3. rewrite P4 in S4. unfold unit_angle in U. unfold arc_control in *.
    set (h := ocos o (inc / 2)) in *. set (s := osin o (inc / 2)) in *. set (cm := ocos o (t + inc / 2)) in *. set (sm := osin o (t + inc / 2)) in *.
    set (k := (4#3) * s / (1 + h)) in *.
    assert (K : k * s == (4#3) * (1 - h)). { unfold k. assert (SS : s * s == (1 - h) * (1 + h)) by (transitivity (1 - h * h); [rewrite <- U; ring|ring]). transitivity ((4#3) * (s * s) / (1 + h)); [field; exact NZ|]. rewrite SS. field. exact NZ. }
    (* on the unit circle *)
    assert (UX : ocos o t + 3 * (ocos o t - k * osin o t) + 3 * (ocos o (t + inc) + k * osin o (t + inc)) + ocos o (t + inc) == 8 * cm).
    { rewrite S1, S2, S3, S4. transitivity (8 * cm * h + 6 * cm * (k * s)); [ring|]. rewrite K. ring. }
    assert (UY : osin o t + 3 * (osin o t + k * ocos o t) + 3 * (osin o (t + inc) - k * ocos o (t + inc)) + osin o (t + inc) == 8 * sm).
    { rewrite S1, S2, S3, S4. transitivity (8 * sm * h + 6 * sm * (k * s)); [ring|]. rewrite K. ring. }
    unfold middle, on, ellipse_at, peq in *. cbn [ptx pty] in *. rewrite A1, A2, B1, B2. fold cm sm. split.
    + transitivity ((8 * ptx c + ocos o rot * rx' * (ocos o t + 3 * (ocos o t - k * osin o t) + 3 * (ocos o (t + inc) + k * osin o (t + inc)) + ocos o (t + inc)) +
        osin o rot * ry' * (osin o t + 3 * (osin o t + k * ocos o t) + 3 * (osin o (t + inc) - k * ocos o (t + inc)) + osin o (t + inc))) / 8); [field|]. rewrite UX, UY. field.
    + transitivity ((8 * pty c + osin o rot * rx' * (ocos o t + 3 * (ocos o t - k * osin o t) + 3 * (ocos o (t + inc) + k * osin o (t + inc)) + ocos o (t + inc)) -
        ocos o rot * ry' * (osin o t + 3 * (osin o t + k * ocos o t) + 3 * (osin o (t + inc) - k * ocos o (t + inc)) + osin o (t + inc))) / 8); [field|]. rewrite UX, UY. field.
Qed.
Print Assumptions c14_arc_middle.
Example c14_arc_middle_case : unit_angle eighth_oracle 45 /\ ~ 1 + ocos eighth_oracle 45 == 0 /\ sums eighth_oracle 45 45 /\ sums eighth_oracle 135 45 /\
  exists c rx ry d ext l, get_center_of_arc eighth_oracle axis_at2 5 5 0 0 0 (P 5 0) (P (-5) 0) = Centre c rx ry d ext /\
    normalize_arc eighth_oracle axis_at2 5 5 0 0 0 (P 5 0) (P (-5) 0) = Ok l /\ length l = 2%nat /\ ext / 2 / 2 == 45 /\ d == 0.
Proof.
  split; [vm_compute; reflexivity|]. split; [vm_compute; discriminate|]. split; [repeat split; vm_compute; reflexivity|]. split; [repeat split; vm_compute; reflexivity|].
  do 6 eexists. split; [vm_compute; reflexivity|]. split; [vm_compute; reflexivity|]. split; [reflexivity|]. split; vm_compute; reflexivity.
Qed.

(** Between its ends each curve runs on the ellipse or outside, and not further
    out than by the factor sqrt(1 + 1/1700) (0.03 %) for curves of a quarter
    turn or less. *)
Lemma circle_error c s k u : c * c + s * s == 1 -> ~ 1 + c == 0 -> k == (4#3) * s / (1 + c) ->
  let x := bernstein c (c + k * s) (c + k * s) c u in let y := bernstein (- s) (- s + k * c) (s - k * c) s u in
  let q := (1 - c) / (1 + c) in let w := u * (1 - u) * (1 - 2 * u) in x * x + y * y == 1 + 4 * (s * s) * (q * q) * (w * w).
Proof.
  intros U N K. cbv zeta. set (q := (1 - c) / (1 + c)). set (w := u * (1 - u)).
  assert (SS : s * s == (1 - c) * (1 + c)) by (transitivity (1 - c * c); [rewrite <- U; ring|ring]).
  assert (KS : k * s == (4#3) * (1 - c)) by (rewrite K; transitivity ((4#3) * (s * s) / (1 + c)); [field; exact N|]; rewrite SS; field; exact N).
  assert (KC : k * c == (2#3) * s * (1 - q)) by (rewrite K; unfold q; field; exact N).
  assert (X : bernstein c (c + k * s) (c + k * s) c u == c + 4 * w * (1 - c)) by (unfold bernstein, w; rewrite KS; ring).
  assert (Y : bernstein (- s) (- s + k * c) (s - k * c) s u == (2 * u - 1) * s * (1 + 2 * w * q)) by (unfold bernstein, w; rewrite KC; ring).
  rewrite X, Y. assert (QS : s * s * q == (1 - c) * (1 - c)) by (rewrite SS; unfold q; field; exact N).
  transitivity ((c + 4 * w * (1 - c)) * (c + 4 * w * (1 - c)) + (1 - 4 * w) * (s * s + 4 * w * (s * s * q) + 4 * w * w * q * (s * s * q))); [unfold w; ring|].
  transitivity (1 + 4 * q * (s * s * q) * (w * w * (1 - 4 * w))); [rewrite QS, SS; ring|]. unfold w. ring.
Qed.
Lemma bernstein_lin a b c d a' b' c' d' u m n z : bernstein (z + m * a + n * a') (z + m * b + n * b') (z + m * c + n * c') (z + m * d + n * d') u == z + m * bernstein a b c d u + n * bernstein a' b' c' d' u.
Proof. unfold bernstein. ring. Qed.
Lemma bernstein_eq a b c d a' b' c' d' u : a == a' -> b == b' -> c == c' -> d == d' -> bernstein a b c d u == bernstein a' b' c' d' u.
Proof. intros A B C D. unfold bernstein. rewrite A, B, C, D. reflexivity. Qed.
Lemma wave u : 0 <= u <= 1 -> let w := u * (1 - u) * (1 - 2 * u) in 108 * (w * w) <= 1.
Proof.
  intros R. cbv zeta. set (w := u * (1 - u)).
  apply (Qle_trans _ (108 * (w * w * (1 - 4 * w)))); [apply Qle_lteq; right; unfold w; ring|].
  assert (W0 : 0 <= w) by (unfold w; apply Qmult_le_0_compat; lra).
  (* 1 - 108 w^2 (1 - 4 w) = (6 w - 1)^2 (12 w + 1) *)
  assert (E : 1 - 108 * (w * w * (1 - 4 * w)) == (6 * w - 1) * (6 * w - 1) * (12 * w + 1)) by ring.
  assert (P : 0 <= (6 * w - 1) * (6 * w - 1) * (12 * w + 1)).
  { apply Qmult_le_0_compat; [|lra]. destruct (Qlt_le_dec (6 * w - 1) 0) as [L|L]; [setoid_replace ((6 * w - 1) * (6 * w - 1)) with ((1 - 6 * w) * (1 - 6 * w)) by ring|]; apply Qmult_le_0_compat; lra. }
  lra.
Qed.
Theorem c14_arc_close : forall o at2 rx ry rot fa fs cp ep c rx' ry' d1 ext l, oracle_basic o ->
  ocos o (- rot) == ocos o rot -> osin o (- rot) == - osin o rot ->
  get_center_of_arc o at2 rx ry rot fa fs cp ep = Centre c rx' ry' d1 ext -> normalize_arc o at2 rx ry rot fa fs cp ep = Ok l ->
  let inc := ext / inject_Z (Z.of_nat (length l)) in
  let on x y := ellipse_at c rx' ry' (ocos o rot) (osin o rot) x y in
  forall i, (i < length l)%nat -> let t := d1 + inject_Z (Z.of_nat i) * inc in
    unit_angle o (inc / 2) -> 7#10 <= ocos o (inc / 2) -> ocos o (inc / 2) <= 1 -> unit_angle o (t + inc / 2) ->
    (forall h k, h == k -> ocos o h == ocos o k /\ osin o h == osin o k) -> sums o (t + inc / 2) (inc / 2) ->
    exists q1 q2 q3, nth_error l i = Some (SC false q1 q2 q3) /\
      forall u, 0 <= u <= 1 -> exists x y, peq (cubic_at (on (ocos o t) (osin o t)) q1 q2 (on (ocos o (t + inc)) (osin o (t + inc))) u) (on x y) /\ 1 <= x * x + y * y <= 1 + (1#1700).
Proof.
  intros o at2 rx ry rot fa fs cp ep c rx' ry' d1 ext l O EC ES C N inc on i.
  unfold normalize_arc in N. rewrite C in N. set (n := Z.to_nat _) in N. destruct (Nat.eqb_spec n 0) as [Z0|Z0]; [discriminate|]. injection N as N.
  assert (LN : length l = n) by (rewrite <- N, map_length, seq_length; reflexivity). subst inc. rewrite LN. set (inc := ext / inject_Z (Z.of_nat n)) in *. intros I t U H7 H1 UM PR (S1 & S2 & S3 & S4).
  assert (E : nth_error l i = Some (arc_curve o (arc_matrix o c rx' ry' rot) ep d1 inc n i)).
  { rewrite <- N. rewrite nth_error_map. rewrite (nth_error_nth' (seq 0 n) 0%nat) by (rewrite seq_length; exact I). rewrite seq_nth by exact I. reflexivity. }
  rewrite E. unfold arc_curve. fold t. do 3 eexists. split; [reflexivity|]. intros u Ru.
  assert (M : forall x y, peq (arc_point (arc_matrix o c rx' ry' rot) x y) (on x y)).
  { intros x y. destruct (arc_matrix_point o c rx' ry' rot x y O EC ES) as [X Y]. split; [exact X|exact Y]. }
  set (q1 := arc_point _ _ _). set (q2 := arc_point _ (_ + _) _).
  destruct (M (ocos o t - arc_control o inc * osin o t) (osin o t + arc_control o inc * ocos o t)) as [A1 A2]. fold q1 in A1, A2.
  destruct (M (ocos o (t + inc) + arc_control o inc * osin o (t + inc)) (osin o (t + inc) - arc_control o inc * ocos o (t + inc))) as [B1 B2]. fold q2 in B1, B2.
  destruct (PR (t + inc / 2 + inc / 2) (t + inc) ltac:(field)) as [P1 P2]. destruct (PR (t + inc / 2 - inc / 2) t ltac:(field)) as [P3 P4].
  rewrite P1 in S1. rewrite P2 in S2. rewrite P3 in S3. rewrite P4 in S4. unfold unit_angle in U, UM. unfold arc_control in *. clear P1 P2 P3 P4 PR.
  set (h := ocos o (inc / 2)) in *. set (s := osin o (inc / 2)) in *. set (cm := ocos o (t + inc / 2)) in *. set (sm := osin o (t + inc / 2)) in *.
  assert (NZ : ~ 1 + h == 0) by lra. assert (K := circle_error h s ((4#3) * s / (1 + h)) u U NZ (Qeq_refl _)). cbv zeta in K. set (k := (4#3) * s / (1 + h)) in *.
  set (ct := ocos o t) in *. set (st := osin o t) in *. set (ce := ocos o (t + inc)) in *. set (se := osin o (t + inc)) in *.
  set (X := bernstein h (h + k * s) (h + k * s) h u) in *. set (Y := bernstein (- s) (- s + k * h) (s - k * h) s u) in *.
  assert (BX : bernstein ct (ct - k * st) (ce + k * se) ce u == cm * X - sm * Y).
  { transitivity (0 + cm * X + (- sm) * Y); [|ring]. unfold X, Y. rewrite <- bernstein_lin. apply bernstein_eq; rewrite ?S1, ?S2, ?S3, ?S4; ring. }
  assert (BY : bernstein st (st + k * ct) (se - k * ce) se u == sm * X + cm * Y).
  { transitivity (0 + sm * X + cm * Y); [|ring]. unfold X, Y. rewrite <- bernstein_lin. apply bernstein_eq; rewrite ?S1, ?S2, ?S3, ?S4; ring. }
  exists (cm * X - sm * Y), (sm * X + cm * Y). split.
  - unfold cubic_at, peq, on, ellipse_at in *. cbn [ptx pty] in *. rewrite <- BX, <- BY. split.
    + transitivity (ptx c + (ocos o rot * rx') * bernstein ct (ct - k * st) (ce + k * se) ce u + (osin o rot * ry') * bernstein st (st + k * ct) (se - k * ce) se u); [|ring].
      rewrite <- bernstein_lin. apply bernstein_eq; rewrite ?A1, ?B1; ring.
    + transitivity (pty c + (osin o rot * rx') * bernstein ct (ct - k * st) (ce + k * se) ce u + (- (ocos o rot * ry')) * bernstein st (st + k * ct) (se - k * ce) se u); [|ring].
      rewrite <- bernstein_lin. apply bernstein_eq; rewrite ?A2, ?B2; ring.
  - assert (R : (cm * X - sm * Y) * (cm * X - sm * Y) + (sm * X + cm * Y) * (sm * X + cm * Y) == X * X + Y * Y).
    { transitivity ((cm * cm + sm * sm) * (X * X + Y * Y)); [ring|]. rewrite UM. ring. }
    rewrite R, K. clear R K BX BY A1 A2 B1 B2 S1 S2 S3 S4 M E. set (q := (1 - h) / (1 + h)). assert (W := wave u Ru). cbv zeta in W. set (w := u * (1 - u) * (1 - 2 * u)) in *.
    assert (Q0 : 0 <= q) by (unfold q; apply Qle_shift_div_l; lra). assert (Q1 : q <= 3#17) by (unfold q; apply Qle_shift_div_r; lra).
    assert (sq : forall z : Q, 0 <= z * z) by (intros z; destruct (Qlt_le_dec z 0); [setoid_replace (z * z) with ((- z) * (- z)) by ring|]; apply Qmult_le_0_compat; lra).
    assert (SQ : s * s <= 51#100). { assert (G : (49#100) <= h * h) by (apply (Qle_trans _ ((7#10) * h)); [lra|]; apply Qmult_le_compat_r; lra). lra. }
    assert (QQ : q * q <= 9#289) by (apply (Qle_trans _ ((3#17) * q)); [apply Qmult_le_compat_r; assumption|lra]).
    assert (W1 : w * w <= 1#108) by lra. assert (G1 := sq s). assert (G2 := sq q). assert (G3 := sq w). set (a := s * s) in *. set (b := q * q) in *. set (e := w * w) in *. clearbody a b e.
    assert (AB : a * b <= (51#100) * (9#289)) by (apply (Qle_trans _ ((51#100) * b)); [apply Qmult_le_compat_r; assumption|]; rewrite !(Qmult_comm (51#100)); apply Qmult_le_compat_r; [assumption|lra]).
    assert (AB0 : 0 <= a * b) by (apply Qmult_le_0_compat; assumption).
    assert (ABE : a * b * e <= (51#100) * (9#289) * (1#108)) by (apply (Qle_trans _ ((51#100) * (9#289) * e)); [apply Qmult_le_compat_r; assumption|]; rewrite !(Qmult_comm ((51#100) * (9#289))); apply Qmult_le_compat_r; [assumption|lra]).
    assert (ABE0 : 0 <= a * b * e) by (apply Qmult_le_0_compat; assumption). split; lra.
Qed.
Print Assumptions c14_arc_close.
(** the angle of 4, 3, 5 as an eighth of a turn *)
Definition turn2 (z : Q * Q) : Q * Q := (Qred ((4#5) * fst z - (3#5) * snd z), Qred ((3#5) * fst z + (4#5) * snd z)).
Definition eighths2 (t : Q) : Q * Q := let k := (Qfloor t / 45)%Z in
  let z := Nat.iter (Z.to_nat (Z.abs k)) turn2 (1, 0) in if (k <? 0)%Z then (fst z, - snd z) else z.
Definition eighth2_oracle : oracle := Orc (fun t => fst (eighths2 t)) (fun t => snd (eighths2 t)) (fun _ => 1) qsqrt.
Example c14_arc_close_case : oracle_basic eighth2_oracle /\ (forall h k, h == k -> ocos eighth2_oracle h == ocos eighth2_oracle k /\ osin eighth2_oracle h == osin eighth2_oracle k) /\
  unit_angle eighth2_oracle 45 /\ 7#10 <= ocos eighth2_oracle 45 /\ ocos eighth2_oracle 45 <= 1 /\ unit_angle eighth2_oracle 135 /\ sums eighth2_oracle 135 45 /\
  exists c rx ry d ext l, get_center_of_arc eighth2_oracle axis_at2 5 5 0 0 0 (P 5 0) (P (-5) 0) = Centre c rx ry d ext /\
    normalize_arc eighth2_oracle axis_at2 5 5 0 0 0 (P 5 0) (P (-5) 0) = Ok l /\ length l = 2%nat /\ ext / 2 / 2 == 45 /\ d == 0.
Proof.
  split; [split; [intros q z Hz H; cbn; now apply qsqrt_ok|]; intros a E; cbn [ocos osin eighth2_oracle]; unfold eighths2; rewrite (Qfloor_comp _ _ E); split; reflexivity|].
  split; [intros h k E; cbn [ocos osin eighth2_oracle]; unfold eighths2; rewrite (Qfloor_comp _ _ E); split; reflexivity|].
  split; [vm_compute; reflexivity|]. split; [vm_compute; discriminate|]. split; [vm_compute; discriminate|]. split; [vm_compute; reflexivity|]. split; [repeat split; vm_compute; reflexivity|].
  do 6 eexists. split; [vm_compute; reflexivity|]. split; [vm_compute; reflexivity|]. split; [reflexivity|]. split; vm_compute; reflexivity.
Qed.
