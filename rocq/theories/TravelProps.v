(** C70: the total length of a path. *)
From Coq Require Import Lia Lqa Qround Qabs.
From Verif Require Import PyBase MatrixModel MatrixSpec MatrixProofs MatrixProofs2 PathModel PathSpec PathProofs PathNormProofs
  PathTransProofs TravelModel TravelSpec TravelProofs TravelProofs2 TravelProofs3.
Local Open Scope Q_scope.

(** Full claim: the total length of a path that begins with a moveto is the
    sum of the lengths of the strokes it draws.  Proved where the code has the
    right control points for smooth curves and, for arcs, less than a full
    turn. *)
Theorem c70_total_partial : forall o at2 ms l, oracle_basic o -> lawful ms -> begins_moveto l = true ->
  smooth_len NoSmooth l = true ->
  exists v vs, total_length o at2 ms l = Ok v /\ Forall2 (measures o at2 ms) (drawing o l) vs /\ v == sum vs.
Proof. exact total_measures. Qed.
Print Assumptions c70_total_partial.
(** without arcs *)
Theorem c70_no_arcs_partial : forall o at2 ms l, oracle_basic o -> lawful ms -> begins_moveto l = true ->
  smooth_len NoSmooth l = true -> forallb no_arc l = true ->
  exists v, total_length o at2 ms l = Ok v /\ v == sum (map (length_of ms) (drawing o l)).
Proof. exact total_plain. Qed.
Print Assumptions c70_no_arcs_partial.

Definition axes (y x : Q) : Q := if 0 <?q y then 90 else if y <?q 0 then -90 else if x <?q 0 then 180 else 0.
Definition travel : list seg :=
  [SInvalid; SB false 90; SM true (P 0 3); SB false 0; SL true (P 3 4); SH true 2; SV true (-1); SM false (P 1 1); SM true (P 3 4);
   SC true (P 1 0) (P 2 0) (P 3 0); SS true (P 1 0) (P 2 0); SQ true (P 1 0) (P 4 0); ST true (P (-11) 0);
   SA true 1 1 0 0 1 (P 2 0); SZ true].
Example ex_total : oracle_basic quarter_oracle /\ lawful exact_ms /\ begins_moveto travel = true /\
  smooth_len NoSmooth travel = true /\
  match total_length quarter_oracle axes exact_ms travel with Ok v => v == 5 + 2 + 1 + 5 + 3 + (3 # 2) + 4 + 11 + 180 + 5 | Err _ => False end.
Proof.
  split; [apply quarter_basic|]. split; [apply exact_lawful|]. split; [reflexivity|]. split; [reflexivity|].
  vm_compute. reflexivity.
Qed.

(** The length of a curve integrates the speed of its point: the square root
    of the squares of the derivatives. *)
Theorem c70_speed : forall d t h p q, (match d with Arc _ _ _ _ _ _ _ => false | _ => true end) = true ->
  at_time t d = Some p -> at_time (t + h) d = Some q ->
  exists r s r' s', ptx q == ptx p + h * velocity t ptx d + h * h * (r + h * s) /\
                    pty q == pty p + h * velocity t pty d + h * h * (r' + h * s').
Proof. exact velocity_derivative. Qed.
Print Assumptions c70_speed.
Theorem c70_curve : forall ms a c d b, lawful ms -> curve_length ms a c d b == root_integral ms (speed2 (Cubic a c d b)).
Proof. exact curve_speed. Qed.
Print Assumptions c70_curve.
Example ex_curve : curve_length exact_ms (P 0 0) (P 1 1) (P 3 1) (P 2 3) == 15 # 4.
Proof. vm_compute. reflexivity. Qed.

(** ** Ellipses
    Full claim: for every start and every difference of angles the length is
    that of the part of the ellipse between them.  Proved below a full turn. *)
Theorem c70_ellipse_partial : forall ms rx ry f start delta, lawful ms -> along ms rx ry f -> ~ rx == 0 -> ~ ry == 0 ->
  Qabs delta < 360 ->
  ellipse_length ms rx ry start delta == (if delta <?q 0 then f start - f (start + delta) else f (start + delta) - f start).
Proof. exact ellipse_along. Qed.
Print Assumptions c70_ellipse_partial.
(** the angle of an arc of a path stays within a full turn *)
Theorem c70_extent : forall at2 o rx ry rot fa fs cp ep c rx' ry' d1 ext, atan2_range at2 ->
  get_center_of_arc o at2 rx ry rot fa fs cp ep = Centre c rx' ry' d1 ext -> Qabs ext <= 360.
Proof. exact arc_extent_bound. Qed.
Print Assumptions c70_extent.
Example ex_ellipse : lawful exact_ms /\ along exact_ms 2 2 (fun a => 2 * a) /\ atan2_range axes /\
  ellipse_length exact_ms 2 2 (-700) 300 == 600 /\ ellipse_length exact_ms 2 2 10 (-50) == 100 /\
  ellipse_length exact_ms 2 2 1000 (-359) == 718.
Proof.
  split; [apply exact_lawful|]. split; [apply circle_along|]. split.
  - intros y x. unfold axes. destruct (Qltb_spec 0 y); [repeat split; intros; lra|].
    destruct (Qltb_spec y 0); [repeat split; intros; lra|]. destruct (x <?q 0); repeat split; intros; lra.
  - repeat split; vm_compute; reflexivity.
Qed.
(** a full turn has no length, unless it begins at 0 *)
Theorem c70_full_turn_refuted : exists ms rx ry f start, lawful ms /\ along ms rx ry f /\ ~ rx == 0 /\ ~ ry == 0 /\
  ~ ellipse_length ms rx ry start 360 == f (start + 360) - f start.
Proof.
  exists exact_ms, 1, 1, (fun a => 1 * a), 90. split; [apply exact_lawful|]. split; [apply circle_along|].
  split; [discriminate|]. split; [discriminate|]. vm_compute. discriminate.
Qed.
Print Assumptions c70_full_turn_refuted.

(** ** Paths that draw the same are as long: normalised, *)
Theorem c70_normalize_partial : forall o at2 ms l out, oracle_basic o -> lawful ms -> begins_moveto l = true ->
  smooth_ok NoSmooth l = true -> forallb no_arc l = true -> normalize o at2 l = Ok out ->
  exists v w, total_length o at2 ms l = Ok v /\ total_length o at2 ms out = Ok w /\ v == w.
Proof. exact normalize_length. Qed.
Print Assumptions c70_normalize_partial.
(** and made absolute. *)
Theorem c70_absolute_partial : forall o at2 ms l, oracle_basic o -> lawful ms -> begins_moveto l = true ->
  smooth_len NoSmooth l = true -> forallb no_arc l = true ->
  exists v w, total_length o at2 ms l = Ok v /\ total_length o at2 ms (absolute_path o pen0 l) = Ok w /\ v == w.
Proof. exact absolute_length. Qed.
Print Assumptions c70_absolute_partial.
(** A map that multiplies distances by k multiplies the length by k. *)
Theorem c70_transform_partial : forall o at2 ms m k l, oracle_basic o -> lawful ms -> homogeneous ms ->
  is2d m = true -> similarity k (arr m) ->
  begins_moveto l = true -> smooth_len NoSmooth l = true -> forallb no_arc l = true ->
  remembers true true l = true -> bearing_ok None false l = true -> forallb drawn l = true ->
  exists out v w, path_transform o m l = Ok out /\ total_length o at2 ms l = Ok v /\
    total_length o at2 ms out = Ok w /\ w == k * v.
Proof. exact transform_length. Qed.
Print Assumptions c70_transform_partial.
Definition plain_travel : list seg :=
  [SM false (P 0 0); SL true (P 3 4); SC true (P 1 0) (P 2 0) (P 3 0); SS true (P 1 0) (P 2 0); SQ true (P 1 0) (P 4 0);
   ST true (P (-9) 0); SZ true].
Definition twice_turned : dmat := scale_self (rotate_self quarter_oracle (DM mat_id true) 0 0 90) 2 (Some 2) 1 0 0 0.
Example ex_laws : homogeneous exact_ms /\ is2d twice_turned = true /\ similarity 2 (arr twice_turned) /\
  begins_moveto plain_travel = true /\ smooth_ok NoSmooth plain_travel = true /\ forallb no_arc plain_travel = true /\
  remembers true true plain_travel = true /\ bearing_ok None false plain_travel = true /\ forallb drawn plain_travel = true /\
  (exists out, normalize quarter_oracle axes plain_travel = Ok out) /\
  match total_length quarter_oracle axes exact_ms plain_travel with Ok v => v == 5 + 3 + (3 # 2) + 4 + 9 + 5 | Err _ => False end.
Proof.
  split; [apply exact_homogeneous|]. split; [reflexivity|]. split.
  - split; [lra|]. intros p q. unfold dist2, img, act. vm_compute arr. cbn [v1 v2 ptx pty].
    unfold twice_turned. vm_compute arr. cbn. ring.
  - do 6 (split; [reflexivity|]). split; [eexists; vm_compute; reflexivity|]. vm_compute. reflexivity.
Qed.
(** Subpaths add up. *)
Theorem c70_join : forall o at2 ms l1 p l2 v1, total_length o at2 ms l1 = Ok v1 -> drawn_last l1 = true ->
  forallb no_bearing l1 = true ->
  forall e, (exists w, total_length o at2 ms (l1 ++ SM false p :: l2) = Ok w /\ w == v1 + e) <->
            (exists v2, total_length o at2 ms (SM false p :: l2) = Ok v2 /\ v2 == e).
Proof. exact join_length. Qed.
Print Assumptions c70_join.
Example ex_join : drawn_last plain_travel = true /\ forallb no_bearing plain_travel = true /\
  exists v w, total_length quarter_oracle axes exact_ms plain_travel = Ok v /\
    total_length quarter_oracle axes exact_ms (plain_travel ++ SM false (P 7 7) :: [SH true 2]) = Ok w /\ w == v + 2.
Proof. split; [reflexivity|]. split; [reflexivity|]. do 2 eexists. split; [vm_compute; reflexivity|]. split; vm_compute; reflexivity. Qed.
(** No length is negative. *)
Theorem c70_positive_partial : forall o at2 ms l v, oracle_basic o -> lawful ms -> positive ms -> begins_moveto l = true ->
  smooth_len NoSmooth l = true -> forallb no_arc l = true -> total_length o at2 ms l = Ok v -> 0 <= v.
Proof.
  intros o at2 ms l v O La Po B G N H. destruct (total_plain o at2 ms l O La B G N) as (w & W & E).
  assert (v = w) by congruence. subst w. rewrite E. apply lengths_positive. exact Po.
Qed.
Print Assumptions c70_positive_partial.
Example ex_positive : positive exact_ms.
Proof. exact exact_positive. Qed.

(** ** What does not hold *)
(** An S after a Q is measured with a control point it does not have. *)
Theorem c70_smooth_refuted : exists o at2 ms l v, oracle_basic o /\ lawful ms /\ begins_moveto l = true /\ forallb no_arc l = true /\
  total_length o at2 ms l = Ok v /\ ~ v == sum (map (length_of ms) (drawing o l)).
Proof.
  exists quarter_oracle, axes, exact_ms, [SM false (P 0 0); SQ false (P (-2) 0) (P 2 0); SS false (P 4 3) (P 4 0)]. eexists.
  split; [apply quarter_basic|]. split; [apply exact_lawful|]. split; [reflexivity|]. split; [reflexivity|].
  split; [vm_compute; reflexivity|]. vm_compute. discriminate.
Qed.
Print Assumptions c70_smooth_refuted.
(** A smooth curve right after a closepath has the control point of before
    the closepath. *)
Theorem c70_after_close_refuted : exists o at2 ms l v, oracle_basic o /\ lawful ms /\ begins_moveto l = true /\ forallb no_arc l = true /\
  total_length o at2 ms l = Ok v /\ ~ v == sum (map (length_of ms) (drawing o l)).
Proof.
  exists quarter_oracle, axes, exact_ms, [SM false (P 0 0); SL false (P 3 4); SZ false; SS false (P 0 0) (P 4 0)]. eexists.
  split; [apply quarter_basic|]. split; [apply exact_lawful|]. split; [reflexivity|]. split; [reflexivity|].
  split; [vm_compute; reflexivity|]. vm_compute. discriminate.
Qed.
Print Assumptions c70_after_close_refuted.
