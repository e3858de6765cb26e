(** C16: bounding boxes of paths. *)
From Verif Require Import PyBase RectModel RectSpec MatrixModel MatrixSpec MatrixProofs2 PathModel PathSpec PathBBoxModel PathBBoxSpec PathProofs PathBBoxProofs.
Local Open Scope Q_scope.

(** The box of a cubic curve holds every point of the curve, and each of its
    four sides touches the curve. *)
Theorem c16_curve_box : forall o a c e b, oracle_basic o -> exact_turns (Cubic a c e b) ->
  exists x y w h, curve_bbox o a c e b = rect4 x y w h /\
    (forall p, on_stroke (Cubic a c e b) p -> x <= ptx p <= x + w /\ y <= pty p <= y + h) /\
    (exists p, on_stroke (Cubic a c e b) p /\ ptx p == x) /\
    (exists p, on_stroke (Cubic a c e b) p /\ ptx p == x + w) /\
    (exists p, on_stroke (Cubic a c e b) p /\ pty p == y) /\
    (exists p, on_stroke (Cubic a c e b) p /\ pty p == y + h).
Proof. exact curve_tight. Qed.
Print Assumptions c16_curve_box.

(** The box of a path is the smallest one around its first point, the upper
    left corners of all its lines and curves, and every point of those lines
    and curves that have extent in both directions (or none). *)
Theorem c16_box_of_marks : forall o at2 l, oracle_basic o -> forallb base l = true ->
  begins_moveto l = true -> Forall exact_turns (drawing o l) ->
  exists b, path_bbox o at2 l = Ok b /\ least_box (marks o l) b.
Proof. exact path_bbox_least. Qed.
Print Assumptions c16_box_of_marks.

(** Full claim: the box is the smallest one around everything painted.
    Missing: lines and curves that are exactly horizontal or vertical; see
    the refutation below. *)
Theorem c16_box_partial : forall o at2 l, oracle_basic o -> forallb base l = true ->
  begins_moveto l = true -> Forall exact_turns (drawing o l) ->
  (forall d, In d (drawing o l) -> drawn_stroke d -> spread d) ->
  exists b, path_bbox o at2 l = Ok b /\
    least_box (fun q => (exists p l', l = SM false p :: l' /\ peq q p) \/ painted o l q) b.
Proof.
  intros o at2 l O B M X S. destruct (path_bbox_least o at2 l O B M X) as (b & E & P & I & L).
  exists b. split; [exact E|]. split; [exact P|]. split.
  - intros q [H|(d & Hd & D & Hq)]; apply I; [left; exact H|].
    right. exists d. split; [exact Hd|]. split; [exact D|]. right. auto.
  - intros c Pc Hc. apply L; [exact Pc|]. intros q [H|(d & Hd & D & A)]; [apply Hc; left; exact H|].
    destruct A as [C|[_ Hq]].
    + destruct C as (_ & (p & Hp & Ep) & (p' & Hp' & Ep')).
      assert (K1 : inside c p) by (apply Hc; right; exists d; auto).
      assert (K2 : inside c p') by (apply Hc; right; exists d; auto).
      unfold inside, region in *. destruct (RectModel.rx c), (RectModel.ry c); try tauto. rewrite <- Ep, <- Ep'. tauto.
    + apply Hc. right. exists d. auto.
Qed.
Print Assumptions c16_box_partial.

(** It is enough that what the horizontal and vertical strokes reach is
    reached by other strokes too, as in a closed rectangle. *)
Theorem c16_contains_partial : forall o at2 l, oracle_basic o -> forallb base l = true ->
  begins_moveto l = true -> Forall exact_turns (drawing o l) ->
  (forall q, painted o l q -> exists m1 m2 m3 m4, marks o l m1 /\ marks o l m2 /\ marks o l m3 /\ marks o l m4 /\
     ptx m1 <= ptx q <= ptx m2 /\ pty m3 <= pty q <= pty m4) ->
  exists b, path_bbox o at2 l = Ok b /\ (forall q, painted o l q -> inside b q).
Proof.
  intros o at2 l O B M X S. destruct (path_bbox_least o at2 l O B M X) as (b & E & P & I & L).
  exists b. split; [exact E|]. intros q Hq. destruct (S q Hq) as (m1 & m2 & m3 & m4 & H1 & H2 & H3 & H4 & K).
  apply I in H1. apply I in H2. apply I in H3. apply I in H4. unfold inside, region in *.
  destruct (RectModel.rx b), (RectModel.ry b); try tauto. lra.
Qed.
Print Assumptions c16_contains_partial.

(** A path with a single horizontal line has a box of width 0. *)
Theorem c16_horizontal_refuted : exists l b q, forallb base l = true /\ begins_moveto l = true /\
  (forall o at2, path_bbox o at2 l = Ok b) /\
  (forall o, painted o l q) /\ peq q (P 5 0) /\ ~ inside b q.
Proof.
  exists [SM false (P 0 0); SL false (P 10 0)]. eexists. eexists. split; [reflexivity|]. split; [reflexivity|].
  split; [intros; vm_compute; reflexivity|]. split.
  - intros o. exists (Line (P 0 0) (P 10 0)). split; [cbn; auto|]. split; [exact I|].
    exists (1#2). split; [lra|]. reflexivity.
  - split; [split; reflexivity|]. intros H. vm_compute in H. destruct H as [[_ H] _]. apply H. reflexivity.
Qed.
Print Assumptions c16_horizontal_refuted.

(** The path has to be normalised first: the first command outside the base
    set is an error. *)
Theorem c16_other_commands : forall o at2 l1 g l2, forallb base l1 = true ->
  base g = false -> g <> SInvalid -> (forall p q, g <> SCNone p q) ->
  path_bbox o at2 (l1 ++ g :: l2) = Err ValueError.
Proof. exact bbox_other_commands. Qed.
Print Assumptions c16_other_commands.

Definition hill : list seg :=
  [SM false (P 0 0); SC false (P 1 3) (P 2 3) (P 3 0); SL false (P 5 (-1)); SZ false].
Example c16_ex : oracle_basic quarter_oracle /\ forallb base hill = true /\ begins_moveto hill = true /\
  Forall exact_turns (drawing quarter_oracle hill) /\
  (forall d, In d (drawing quarter_oracle hill) -> drawn_stroke d -> spread d) /\
  exists b, path_bbox quarter_oracle (fun _ _ => 0) hill = Ok b /\
    rect_eqb b (rect4 0 (-1) 5 (13#4)) = true.
Proof.
  split; [exact quarter_basic|]. split; [reflexivity|]. split; [reflexivity|]. split; [|split].
  - repeat constructor; cbn; unfold has_root, turning.
    + intros _. exists 0. split; [lra|reflexivity].
    + intros _. exists 18. split; [lra|reflexivity].
  - assert (SV : forall d p q, on_stroke d p -> on_stroke d q -> ~ ptx p == ptx q -> ~ pty p == pty q -> spread d).
    { intros d p q Hp Hq N1 N2. split; intros _; exists p, q; auto. }
    assert (TM : forall d t p, at_time t d = Some p -> 0 <= t <= 1 -> on_stroke d p) by (intros d t p H T; exists t; auto).
    intros d [<-|[<-|[<-|[<-|[]]]]] D; [destruct D| | |].
    + eapply SV; [eapply (TM _ 0); [reflexivity|lra]|eapply (TM _ (1#2)); [reflexivity|lra]|vm_compute; discriminate|vm_compute; discriminate].
    + eapply SV; [eapply (TM _ 0); [reflexivity|lra]|eapply (TM _ (1#2)); [reflexivity|lra]|vm_compute; discriminate|vm_compute; discriminate].
    + eapply SV; [eapply (TM _ 0); [reflexivity|lra]|eapply (TM _ (1#2)); [reflexivity|lra]|vm_compute; discriminate|vm_compute; discriminate].
  - eexists. split; [vm_compute; reflexivity|vm_compute; reflexivity].
Qed.
(** a closed rectangle: every stroke is horizontal or vertical *)
Definition frame : list seg :=
  [SM false (P 1 2); SL false (P 4 2); SL false (P 4 7); SL false (P 1 7); SZ false].
Example c16_frame : exists b, path_bbox quarter_oracle (fun _ _ => 0) frame = Ok b /\
  rect_eqb b (rect4 1 2 3 5) = true.
Proof. eexists. split; vm_compute; reflexivity. Qed.
