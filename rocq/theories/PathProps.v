(** C13, C14, C15: absolute, normalised and transformed paths. *)
From Coq Require Import Qabs.
From Verif Require Import PyBase MatrixModel MatrixSpec MatrixProofs2 PathModel PathSpec PathProofs PathNormProofs PathArcProofs PathTransProofs.
Local Open Scope Q_scope.

(** C13: making every segment absolute draws the same strokes, *)
Theorem c13_same_drawing : forall o l, oracle_basic o ->
  Forall2 stroke_eq (drawing o l) (drawing o (absolute_path o pen0 l)).
Proof. intros o l O. exact (absolute_drawing o l O pen0 pen0 (pen_eq_refl pen0)). Qed.
Print Assumptions c13_same_drawing.
(** also from the middle of a path, *)
Theorem c13_same_drawing_anywhere : forall o s l, oracle_basic o ->
  Forall2 stroke_eq (strokes o s l) (strokes o s (absolute_path o s l)).
Proof. intros o s l O. exact (absolute_drawing o l O s s (pen_eq_refl s)). Qed.
Print Assumptions c13_same_drawing_anywhere.
(** leaves absolute commands only, *)
Theorem c13_absolute : forall o s l, forallb absolute (absolute_path o s l) = true.
Proof. intros. apply absolute_path_absolute. Qed.
Print Assumptions c13_absolute.
(** changes nothing when done again, wherever the pen is then said to be, *)
Theorem c13_idempotent : forall o s s' l,
  absolute_path o s' (absolute_path o s l) = absolute_path o s l.
Proof. intros. apply absolute_path_id, absolute_path_absolute. Qed.
Print Assumptions c13_idempotent.
Theorem c13_segment_idempotent : forall o g cp b cp' b',
  toabsolute o (toabsolute o g cp b) cp' b' = toabsolute o g cp b.
Proof. intros. apply toabsolute_idem, toabsolute_absolute. Qed.
Print Assumptions c13_segment_idempotent.
(** and keeps the commands, but for relative h and v, which become L. *)
Theorem c13_commands : forall o s l, Forall2 (fun g h => kind h = kind g \/
  ((kind g = Some KH \/ kind g = Some KV) /\ kind h = Some KL)) l (absolute_path o s l).
Proof. intros. apply absolute_path_kinds. Qed.
Print Assumptions c13_commands.

Definition relative_path : list seg :=
  [SM true (P 1 2); SL true (P 3 0); SH true 2; SB true 90; SL true (P 3 0); SV true (-1);
   SC true (P 0 1) (P 1 1) (P 1 0); SS true (P 2 1) (P 2 0); SB false 0; SA true 2 3 0 1 0 (P 1 1); SZ true;
   ST true (P 4 4)].
Example c13_ex : oracle_basic quarter_oracle /\
  absolute_path quarter_oracle pen0 relative_path =
  [SM false (P 1 2); SL false (P 4 2); SL false (P 6 2); SB false 90; SL false (P 6 5); SL false (P 7 5);
   SC false (P 6 5) (P 6 6) (P 7 6); SS false (P 6 8) (P 7 8); SB false 0; SA false 2 3 0 1 0 (P 8 9); SZ false;
   ST false (P 5 6)].
Proof. split; [exact quarter_basic|vm_compute; reflexivity]. Qed.

(** C14, full claim: [normalize o at2 l = Ok out -> all_render (drawing o l)
    (drawing o out)] for every path that begins with a moveto.  Proved where
    no smooth curve comes after a command [smooth_ok] excludes; the theorems
    named _refuted below show that each exclusion is needed. *)
Theorem c14_renders_partial : forall o at2 l out, oracle_basic o -> begins_moveto l = true ->
  smooth_ok NoSmooth l = true -> normalize o at2 l = Ok out ->
  all_render (drawing o l) (drawing o out) /\ forallb base out = true.
Proof. exact normalize_renders. Qed.
Print Assumptions c14_renders_partial.

(** without arcs it always succeeds there *)
Theorem c14_total_no_arcs : forall o at2 l, oracle_basic o -> begins_moveto l = true ->
  smooth_ok NoSmooth l = true -> forallb no_arc l = true ->
  exists out, normalize o at2 l = Ok out.
Proof. exact normalize_total. Qed.
Print Assumptions c14_total_no_arcs.

(** normalising a normalised path changes nothing (every path) *)
Theorem c14_idempotent : forall o at2 l out, normalize o at2 l = Ok out -> normalize o at2 out = Ok out.
Proof.
  intros o at2 l out H. apply normalize_basic. exact (normalize_from_form o at2 l nstate0 out H).
Qed.
Print Assumptions c14_idempotent.

Definition smooth_path : list seg :=
  [SM false (P 0 0); SC true (P 0 1) (P 1 1) (P 1 0); SS true (P 1 1) (P 1 0); SL true (P 1 0);
   SQ true (P 1 1) (P 2 0); ST true (P 2 0); ST false (P 9 0); SH false 3; ST true (P 3 3); SZ true; SV true 3].
Example c14_ex : begins_moveto smooth_path = true /\ smooth_ok NoSmooth smooth_path = true /\
  forallb no_arc smooth_path = true /\
  normalize quarter_oracle (fun _ _ => 0) (firstn 3 smooth_path) =
    Ok [SM false (P 0 0); SC false (P 0 1) (P 1 1) (P 1 0); SC false (P 1 (-1)) (P 2 1) (P 2 0)].
Proof. repeat split. Qed.

(** Arcs: the centre found is the centre of an ellipse with the given axis,
    through both ends, whose radii are the given ones or both enlarged by the
    same factor.  Hypotheses: cos and sin of the rotation lie on the unit
    circle and the two square roots taken are exact. *)
Theorem c14_arc_centre : forall o at2 rx ry rot fa fs cp ep c rx' ry' d1 ext,
  unit_angle o rot ->
  (let h := arc_half o rot cp ep in
   let k := arc_factor o (Qabs rx) (Qabs ry) h in
   let a := ptx h * ptx h / (Qabs rx * Qabs rx) + pty h * pty h / (Qabs ry * Qabs ry) in
   (1 < a -> root_at o a) /\
   root_at o (pymax (arc_fp (Qabs rx * k) (Qabs ry * k) h) 0)) ->
  get_center_of_arc o at2 rx ry rot fa fs cp ep = Centre c rx' ry' d1 ext ->
  on_ellipse c rx' ry' (ocos o rot) (osin o rot) cp /\
  on_ellipse c rx' ry' (ocos o rot) (osin o rot) ep /\
  exists k, 1 <= k * k /\ rx' == Qabs rx * k /\ ry' == Qabs ry * k.
Proof. exact centre_correct. Qed.
Print Assumptions c14_arc_centre.

(** Every curve of a normalised arc ends on that ellipse. *)
Theorem c14_arc_curves : forall o at2 rx ry rot fa fs cp ep l c rx' ry' d1 ext,
  oracle_basic o -> (forall t, unit_angle o t) ->
  ocos o (- rot) == ocos o rot -> osin o (- rot) == - osin o rot ->
  (let h := arc_half o rot cp ep in
   let k := arc_factor o (Qabs rx) (Qabs ry) h in
   let a := ptx h * ptx h / (Qabs rx * Qabs rx) + pty h * pty h / (Qabs ry * Qabs ry) in
   (1 < a -> root_at o a) /\
   root_at o (pymax (arc_fp (Qabs rx * k) (Qabs ry * k) h) 0)) ->
  get_center_of_arc o at2 rx ry rot fa fs cp ep = Centre c rx' ry' d1 ext ->
  normalize_arc o at2 rx ry rot fa fs cp ep = Ok l ->
  Forall (fun g => exists p1 p2 p, g = SC false p1 p2 p /\
     on_ellipse c rx' ry' (ocos o rot) (osin o rot) p) l.
Proof. exact arc_curves_on. Qed.
Print Assumptions c14_arc_curves.

(** degrees(atan2(y, x)) on the axes *)
Definition axis_at2 (y x : Q) : Q :=
  if y =?q 0 then (if x <?q 0 then 180 else 0) else if 0 <?q y then 90 else - (90).
Example c14_arc_ex : (forall t, unit_angle quarter_oracle t) /\
  root_at quarter_oracle (pymax (arc_fp 5 5 (arc_half quarter_oracle 0 (P 5 0) (P 0 5))) 0) /\
  (exists c rx ry d e, get_center_of_arc quarter_oracle axis_at2 5 (-5) 0 0 1 (P 5 0) (P 0 5) = Centre c rx ry d e
     /\ peq c (P 0 0) /\ rx == 5 /\ ry == 5 /\ d == 0 /\ e == -90) /\
  (exists c rx ry d e, get_center_of_arc quarter_oracle axis_at2 5 5 0 0 0 (P 10 0) (P (-10) 0) = Centre c rx ry d e
     /\ peq c (P 0 0) /\ rx == 10 /\ ry == 10 /\ d == 0 /\ e == 180).
Proof.
  split.
  { intros t. unfold unit_angle. cbn. unfold qcos, qsin, quarter.
    assert (H := Z.mod_pos_bound ((Qnum t / QDen t) / 90) 4 eq_refl).
    destruct (((Qnum t / QDen t) / 90) mod 4)%Z as [|[p|p|]|p]; try reflexivity; try lia.
    - destruct p; try reflexivity; lia.
    - destruct p; try reflexivity; lia. }
  split; [vm_compute; reflexivity|].
  split; do 5 eexists; (split; [vm_compute; reflexivity|]); repeat split; reflexivity.
Qed.

(** For circles the approximation also starts at the start of the arc: the
    point of the unit circle at the start angle goes there. *)
Theorem c14_circle_start : forall o at2 r c x y, oracle_basic o ->
  let d := at2 (y - pty c) (x - ptx c) in
  r * ocos o d == x - ptx c -> r * osin o d == y - pty c ->
  ocos o (360 - d) == ocos o d -> osin o (360 - d) == - osin o d ->
  ocos o (- d) == ocos o d -> osin o (- d) == - osin o d ->
  ocos o (- 0) == 1 -> osin o (- 0) == 0 ->
  let d1 := get_angle at2 (y - pty c) (x - ptx c) in
  peq (arc_point (arc_matrix o c r r 0) (ocos o d1) (osin o d1)) (P x y).
Proof. exact circle_start. Qed.
Print Assumptions c14_circle_start.
Example c14_circle_ex : let o := quarter_oracle in let d := axis_at2 (5 - 0) (0 - 0) in
  5 * ocos o d == 0 - 0 /\ 5 * osin o d == 5 - 0 /\ ocos o (360 - d) == ocos o d /\
  osin o (360 - d) == - osin o d /\ ocos o (- d) == ocos o d /\ osin o (- d) == - osin o d /\
  ocos o (- 0) == 1 /\ osin o (- 0) == 0.
Proof. vm_compute. repeat split; reflexivity. Qed.

(** Findings.  For a true ellipse the start angle is measured in the plane,
    not on the auxiliary circle, so the first curve does not leave in the
    direction of the ellipse: (1, 12/5) lies on the ellipse with radii 5/3
    and 3, the direction of that point is (5/13, 12/13). *)
Definition slant_at2 (y x : Q) : Q := if 0 <?q y then 67 else - (113).
Definition slant_cos (a : Q) : Q := if (a =?q 67) || (a =?q 293) then 5 # 13
  else if (a =?q 113) || (a =?q (-113)) then - (5 # 13) else if a =?q 0 then 1 else 0.
Definition slant_sin (a : Q) : Q := if (a =?q 67) || (a =?q 113) then 12 # 13
  else if (a =?q 293) || (a =?q (-113)) then - (12 # 13) else if a =?q 0 then 0 else 1.
Theorem c14_ellipse_start_refuted : exists o at2 rx ry cp ep c d1 ext rx' ry',
  oracle_basic o /\ (forall t, unit_angle o t) /\
  get_center_of_arc o at2 rx ry 0 0 1 cp ep = Centre c rx' ry' d1 ext /\
  (exists h, h * ocos o (at2 (pty cp - pty c) (ptx cp - ptx c)) == ptx cp - ptx c /\
             h * osin o (at2 (pty cp - pty c) (ptx cp - ptx c)) == pty cp - pty c) /\
  on_ellipse c rx' ry' (ocos o 0) (osin o 0) cp /\
  ~ peq (arc_point (arc_matrix o c rx' ry' 0) (ocos o d1) (osin o d1)) cp.
Proof.
  exists (Orc slant_cos slant_sin (fun _ => 1) qsqrt), slant_at2, (5 # 3), 3, (P 1 (12 # 5)), (P (-1) (-12 # 5)).
  do 5 eexists. split; [|split; [|split; [|split; [|split]]]].
  - split; [intros q z Hz H; cbn; now apply qsqrt_ok|]. intros a Ha. cbn. unfold slant_cos, slant_sin.
    destruct (Qeqb_spec a 67); [lra|]. destruct (Qeqb_spec a 293); [lra|].
    destruct (Qeqb_spec a 113); [lra|]. destruct (Qeqb_spec a (-113)); [lra|].
    destruct (Qeqb_spec a 0); [split; reflexivity|contradiction].
  - intros t. unfold unit_angle. cbn. unfold slant_cos, slant_sin.
    destruct (Qeqb_spec t 67); [vm_compute; reflexivity|].
    destruct (Qeqb_spec t 293); [destruct (Qeqb_spec t 113); [lra|vm_compute; reflexivity]|].
    destruct (Qeqb_spec t 113); [vm_compute; reflexivity|].
    destruct (Qeqb_spec t (-113)); [vm_compute; reflexivity|].
    destruct (Qeqb_spec t 0); vm_compute; reflexivity.
  - vm_compute. reflexivity.
  - exists (13 # 5). split; vm_compute; reflexivity.
  - vm_compute. reflexivity.
  - intros [H _]. vm_compute in H. discriminate.
Qed.
Print Assumptions c14_ellipse_start_refuted.

(** A smooth curve after a smooth curve that did not follow a curve gets the
    wrong control point, *)
Theorem c14_chained_smooth_refuted : exists at2 l out,
  begins_moveto l = true /\ normalize quarter_oracle at2 l = Ok out /\
  ~ all_render (drawing quarter_oracle l) (drawing quarter_oracle out).
Proof.
  exists (fun _ _ => 0),
    [SM false (P 0 0); SL false (P 1 1); SS false (P 2 2) (P 3 3); SS false (P 5 5) (P 6 6)].
  eexists. split; [reflexivity|]. split; [vm_compute; reflexivity|].
  intros H. apply all_render_plain in H; [|reflexivity]. vm_compute in H.
  do 3 (inversion H as [|? ? ? ? _ H']; subst; clear H; rename H' into H).
  inversion H as [|? ? ? ? H' _]; subst. destruct H' as (_ & [H' _] & _). discriminate.
Qed.
Print Assumptions c14_chained_smooth_refuted.
(** one after a closepath a control point (None, None), and the result is not
    a path of the base command set, *)
Theorem c14_smooth_after_close_refuted : exists at2 l out,
  begins_moveto l = true /\ normalize quarter_oracle at2 l = Ok out /\ forallb base out = false.
Proof.
  exists (fun _ _ => 0),
    [SM false (P 0 0); SL false (P 1 1); SZ false; SS false (P 2 2) (P 3 3)].
  eexists. split; [reflexivity|]. split; vm_compute; reflexivity.
Qed.
Print Assumptions c14_smooth_after_close_refuted.
(** T after a closepath fails, *)
Theorem c14_quad_after_close_refuted : exists at2 l e,
  begins_moveto l = true /\ forallb no_arc l = true /\ normalize quarter_oracle at2 l = Err e.
Proof.
  exists (fun _ _ => 0), [SM false (P 0 0); SL false (P 1 1); SZ false; ST false (P 3 3)], TypeError.
  repeat split.
Qed.
Print Assumptions c14_quad_after_close_refuted.
(** an S after a Q (or a T after a C) mirrors a control point of the wrong
    degree, *)
Theorem c14_mixed_smooth_refuted : exists at2 l out,
  begins_moveto l = true /\ normalize quarter_oracle at2 l = Ok out /\
  ~ Forall2 (fun d e => renders d [e]) (drawing quarter_oracle l) (drawing quarter_oracle out).
Proof.
  exists (fun _ _ => 0), [SM false (P 0 0); SQ false (P 1 1) (P 2 0); SS false (P 3 1) (P 4 0)].
  eexists. split; [reflexivity|]. split; [vm_compute; reflexivity|]. vm_compute. intros H.
  do 2 (inversion H as [|? ? ? ? _ H']; subst; clear H; rename H' into H).
  inversion H as [|? ? ? ? H' _]; subst. inversion H' as [? ? _ E| | |]; subst.
  destruct E as (_ & [E _] & _). discriminate.
Qed.
Print Assumptions c14_mixed_smooth_refuted.
(** an arc between identical points fails (SVG: it draws nothing). *)
Theorem c14_empty_arc_refuted : exists at2 l e,
  begins_moveto l = true /\ smooth_ok NoSmooth l = true /\ normalize quarter_oracle at2 l = Err e.
Proof.
  exists (fun _ _ => 0), [SM false (P 1 1); SA false 5 5 0 0 0 (P 1 1); SL false (P 2 2)], IndexError.
  repeat split.
Qed.
Print Assumptions c14_empty_arc_refuted.

(** C15, full claim: the drawing of [path_transform o m l] is the image of the
    drawing of l.  Proved for 2D matrices, paths without arcs (with arcs: for
    translations), on which the code has not forgotten a coordinate
    ([remembers]) and no dropped bearing glues two commands ([bearing_ok]). *)
Definition translation (a : mat) : Prop :=
  forall p, peq (img a p) (P (ptx p + m41 a) (pty p + m42 a)).
Theorem c15_transform_partial : forall o m l, oracle_basic o -> is2d m = true -> begins_moveto l = true ->
  remembers true true l = true -> bearing_ok None false l = true -> forallb drawn l = true ->
  forallb no_arc l = true \/ translation (arr m) ->
  exists out, path_transform o m l = Ok out /\
    Forall2 stroke_eq (map (stroke_img (arr m)) (drawing o l)) (drawing o out).
Proof. intros o m l O D B R G W _. exact (transform_draws o m l O D B R G W). Qed.
Print Assumptions c15_transform_partial.
(** the image of a stroke is the set of the images of its points *)
Theorem c15_points : forall a d t p q,
  at_time t d = Some p -> at_time t (stroke_img a d) = Some q -> peq (img a p) q.
Proof. intros a d t p q Hp Hq. generalize (stroke_img_time a d t). rewrite Hp, Hq. auto. Qed.
Print Assumptions c15_points.
(** A matrix that is not 2D is refused by every drawing segment. *)
Theorem c15_3d_refused : forall o m s cp b, is2d m = false ->
  match s with SZ _ | SInvalid => seg_transform o s cp b m = Ok s
  | _ => exists e, seg_transform o s cp b m = Err e end.
Proof. exact seg_transform_3d. Qed.
Print Assumptions c15_3d_refused.

Example c15_ex : let m := translate_self (scale_self (DM mat_id true) 2 (Some 3) 1 0 0 0) 1 1 0 in
  let l := firstn 7 smooth_path ++ [SZ true; SB true 90; SL true (P 2 2)] in
  is2d m = true /\ begins_moveto l = true /\
  remembers true true l = true /\ bearing_ok None false l = true /\
  forallb drawn l = true /\
  exists p, path_transform quarter_oracle m [SM false (P 1 1); SB true 90; SL true (P 4 0)] = Ok p /\
    Forall2 stroke_eq (drawing quarter_oracle p) [Move (P 4 6); Line (P 4 6) (P 4 18)].
Proof.
  do 5 (split; [reflexivity|]). eexists. split; [vm_compute; reflexivity|].
  repeat constructor; vm_compute; reflexivity.
Qed.

(** Findings: after an absolute H, a relative command starts from y = 0, *)
Theorem c15_relative_after_h_refuted : exists m l out, is2d m = true /\ begins_moveto l = true /\
  forallb no_arc l = true /\ path_transform quarter_oracle m l = Ok out /\
  ~ Forall2 stroke_eq (map (stroke_img (arr m)) (drawing quarter_oracle l)) (drawing quarter_oracle out).
Proof.
  exists (DM mat_id true), [SM false (P 1 1); SH false 5; SL true (P 1 1)]. eexists.
  do 3 (split; [reflexivity|]). split; [vm_compute; reflexivity|]. vm_compute. intros H.
  inversion H as [|? ? ? ? _ H1]; subst. inversion H1 as [|? ? ? ? _ H2]; subst.
  inversion H2 as [|? ? ? ? H3 _]; subst. destruct H3 as [_ [_ H3]]. discriminate.
Qed.
Print Assumptions c15_relative_after_h_refuted.
(** two absolute H in a row fail, *)
Theorem c15_two_h_refuted : exists m l e, is2d m = true /\ begins_moveto l = true /\
  forallb no_arc l = true /\ path_transform quarter_oracle m l = Err e.
Proof.
  exists (DM mat_id true), [SM false (P 1 1); SH false 5; SH false 7], TypeError. repeat split.
Qed.
Print Assumptions c15_two_h_refuted.
(** a bearing between two movetos joins them, *)
Theorem c15_bearing_moveto_refuted : exists m l out, is2d m = true /\ begins_moveto l = true /\
  forallb no_arc l = true /\ remembers true true l = true /\ path_transform quarter_oracle m l = Ok out /\
  ~ Forall2 stroke_eq (map (stroke_img (arr m)) (drawing quarter_oracle l)) (drawing quarter_oracle out).
Proof.
  exists (DM mat_id true), [SM false (P 1 1); SB true 90; SM false (P 5 5)]. eexists.
  do 4 (split; [reflexivity|]). split; [vm_compute; reflexivity|]. vm_compute. intros H.
  inversion H as [|? ? ? ? _ H1]; subst. inversion H1 as [|? ? ? ? H2 _]; subst. contradiction.
Qed.
Print Assumptions c15_bearing_moveto_refuted.
(** and an arc keeps its radii under a scaling: the transformed arc's own
    ellipse does not have the image of the original's radii. *)
Theorem c15_arc_radii_refuted : exists m l out a rx ry rot fa fs b, is2d m = true /\
  (forall p, peq (img (arr m) p) (P (2 * ptx p) (2 * pty p))) /\
  path_transform quarter_oracle m l = Ok out /\
  In (Arc a rx ry rot fa fs b) (drawing quarter_oracle l) /\
  forall a' rx' ry' rot' fa' fs' b', In (Arc a' rx' ry' rot' fa' fs' b') (drawing quarter_oracle out) ->
    ~ (rx' == 2 * rx) /\ ~ (ry' == 2 * ry).
Proof.
  exists (scale_self (DM mat_id true) 2 (Some 2) 1 0 0 0), [SM false (P 0 0); SA false 5 5 0 0 1 (P 5 5)].
  eexists. exists (P 0 0), 5, 5, 0, 0, 1, (P 5 5). split; [reflexivity|]. split; [|split; [vm_compute; reflexivity|split]].
  - intros p. split; cbn; ring.
  - vm_compute. auto.
  - vm_compute. intros a' rx' ry' rot' fa' fs' b' [H|[H|[]]]; [discriminate|].
    injection H. intros. subst. split; discriminate.
Qed.
Print Assumptions c15_arc_radii_refuted.
