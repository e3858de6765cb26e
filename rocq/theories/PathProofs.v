(** Proofs about path data: absolute coordinates and normalisation. *)
From Coq Require Import Qround Qabs.
From Verif Require Import PyBase MatrixModel MatrixSpec MatrixProofs PathModel PathSpec.
Local Open Scope Q_scope.

Lemma peq_refl p : peq p p. Proof. split; reflexivity. Qed.
Lemma peq_sym p q : peq p q -> peq q p.
Proof. intros [H K]; split; [now rewrite H|now rewrite K]. Qed.
Lemma peq_trans p q r : peq p q -> peq q r -> peq p r.
Proof. intros [A B] [C D]; split; [now rewrite A|now rewrite B]. Qed.
#[global] Hint Resolve peq_refl : core.

(** the rotation by the bearing *)
Lemma turn_spec o b p : oracle_basic o ->
  ptx (turn o b p) == ocos o b * ptx p - osin o b * pty p /\
  pty (turn o b p) == osin o b * ptx p + ocos o b * pty p.
Proof.
  intros [Hs Hz]. unfold turn. destruct (Qeqb_spec b 0) as [E|E].
  - destruct (Hz b E) as [-> ->]. split; ring.
  - unfold rotate_self. destruct (Qeqb_spec b 0) as [F|_]; [contradiction|].
    assert (Z : (0 =?q 0) = true) by reflexivity. rewrite Z.
    unfold rotate_axis_angle_self.
    assert (L : osqrt o (0 * 0 + 0 * 0 + 1 * 1) == 1) by (apply Hs; lra).
    destruct (Qeqb_spec (osqrt o (0 * 0 + 0 * 0 + 1 * 1)) 0) as [K|_]; [lra|].
    destruct (Qeqb_spec (osqrt o (0 * 0 + 0 * 0 + 1 * 1)) 1) as [_|K]; [|contradiction].
    unfold transform_point. cbn. split; ring.
Qed.

Lemma place_shift o s p : oracle_basic o ->
  peq (place o s true p) (shift (ptx (cur s)) (pty (cur s)) (turn o (brg s) p)).
Proof.
  intros H. destruct (turn_spec o (brg s) p H) as [A B].
  unfold place, shift. split; cbn [ptx pty]; [rewrite A|rewrite B]; ring.
Qed.

Definition ctl_eq (x y : ctrl) : Prop :=
  match x, y with
  | NoCtrl, NoCtrl => True
  | CtrlC p, CtrlC q | CtrlQ p, CtrlQ q => peq p q
  | _, _ => False
  end.
Definition pen_eq (s t : pen) : Prop :=
  peq (cur s) (cur t) /\ peq (sub s) (sub t) /\ ctl_eq (ctl s) (ctl t) /\
  after_move s = after_move t /\ brg s = brg t.
Lemma pen_eq_refl s : pen_eq s s.
Proof.
  split; [auto|]. split; [auto|]. split; [destruct (ctl s); cbn; auto|]. split; reflexivity.
Qed.

Lemma place_proper o s t r p q : pen_eq s t -> peq p q -> peq (place o s r p) (place o t r q).
Proof.
  intros ((A & B) & _ & _ & _ & E) (C & D). unfold place. rewrite E.
  destruct r; split; cbn [ptx pty]; try assumption.
  - rewrite A, C, D. reflexivity.
  - rewrite B, C, D. reflexivity.
Qed.
Lemma mirror_proper p q c d : peq p q -> peq c d -> peq (mirror p c) (mirror q d).
Proof. intros (A & B) (C & D). split; cbn [mirror ptx pty]; [rewrite A, C|rewrite B, D]; reflexivity. Qed.
Lemma cubic_ctl_proper s t : pen_eq s t ->
  peq (match ctl s with CtrlC c => mirror (cur s) c | _ => cur s end)
      (match ctl t with CtrlC c => mirror (cur t) c | _ => cur t end).
Proof.
  intros (A & _ & C & _). destruct (ctl s), (ctl t); cbn in C; try contradiction; auto.
  now apply mirror_proper.
Qed.
Lemma quad_ctl_proper s t : pen_eq s t ->
  peq (match ctl s with CtrlQ c => mirror (cur s) c | _ => cur s end)
      (match ctl t with CtrlQ c => mirror (cur t) c | _ => cur t end).
Proof.
  intros (A & _ & C & _). destruct (ctl s), (ctl t); cbn in C; try contradiction; auto.
  now apply mirror_proper.
Qed.

Ltac pens :=
  unfold goto; cbn [fst snd cur sub ctl after_move brg];
  repeat match goal with
  | |- pen_eq _ _ /\ _ => split
  | |- pen_eq (Pen _ _ _ _ _) (Pen _ _ _ _ _) =>
      split; [|split; [|split; [|split]]]; cbn [cur sub ctl after_move brg ctl_eq]; auto
  | |- Forall2 _ [_] [_] => constructor; [cbn [stroke_eq]|constructor]
  | |- Forall2 _ [] [] => constructor
  | |- peq _ _ /\ _ => split; auto
  end; auto.

Lemma draw_abs o s t g : oracle_basic o -> pen_eq s t ->
  pen_eq (fst (draw o s g)) (fst (draw o t (toabsolute o g (some_pt (cur s)) (brg s)))) /\
  Forall2 stroke_eq (snd (draw o s g)) (snd (draw o t (toabsolute o g (some_pt (cur s)) (brg s)))).
Proof.
  intros O E. pose proof E as (Ec & Es & El & Em & Eb).
  pose proof (fun p => place_shift o s p O) as PS.
  pose proof (cubic_ctl_proper s t E) as CC. pose proof (quad_ctl_proper s t E) as QQ.
  destruct g as [r p|r p|r x|r y|r p1 p2 p|r p2 p|r p1 p|r p|r rx ry rot fa fs p|r a|r|p2 p|];
    try destruct r; unfold toabsolute; cbn [some_pt fst snd or0]; unfold draw; rewrite <- ?Em;
    try match goal with |- context [if after_move s then _ else _] => destruct (after_move s) end;
    pens; try apply PS;
    try (split; cbn [ptx pty]; first [reflexivity | apply Ec]);
    try (split; [reflexivity|]; split; [reflexivity|]; split;
         [try reflexivity; destruct (Qeqb_spec (brg s) 0) as [B|B]; [rewrite B; ring|reflexivity]
         |split; [reflexivity|]; split; [reflexivity|]; first [apply PS | auto]]).
  split; [reflexivity|]. split; [reflexivity|]. split; [reflexivity|]. split; [reflexivity|]. split; [reflexivity|]. apply peq_refl.
Qed.

Lemma absolute_drawing o l : oracle_basic o -> forall s t, pen_eq s t ->
  Forall2 stroke_eq (strokes o s l) (strokes o t (absolute_path o s l)).
Proof.
  intros O; induction l as [|g l IH]; intros s t E; cbn [absolute_path strokes]; [constructor|].
  destruct (draw_abs o s t g O E) as [A B].
  destruct (draw o s g) as [s' d]. destruct (draw o t _) as [t' d']. cbn [fst snd] in *.
  apply Forall2_app; auto.
Qed.
Lemma toabsolute_absolute o g cp b : absolute (toabsolute o g cp b) = true.
Proof. destruct g; try destruct rel; reflexivity. Qed.
Lemma toabsolute_idem o g cp' b' : absolute g = true -> toabsolute o g cp' b' = g.
Proof. destruct g; try destruct rel; try reflexivity; discriminate. Qed.
Lemma absolute_path_absolute o l : forall s, forallb absolute (absolute_path o s l) = true.
Proof.
  induction l as [|g l IH]; intros s; cbn [absolute_path forallb]; [reflexivity|].
  now rewrite toabsolute_absolute, IH.
Qed.
Lemma absolute_path_id o l : forallb absolute l = true -> forall s, absolute_path o s l = l.
Proof.
  induction l as [|g l IH]; intros H s; cbn [absolute_path]; [reflexivity|].
  cbn [forallb] in H. apply andb_prop in H as [A B].
  rewrite (toabsolute_idem o g _ _ A), IH; auto.
Qed.
Lemma absolute_path_kinds o l : forall s, Forall2 (fun g h => kind h = kind g \/
  ((kind g = Some KH \/ kind g = Some KV) /\ kind h = Some KL)) l (absolute_path o s l).
Proof.
  induction l as [|g l IH]; intros s; cbn [absolute_path]; constructor; auto.
  destruct g; try destruct rel; cbn; auto.
Qed.
