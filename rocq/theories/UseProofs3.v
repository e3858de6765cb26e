(** Proofs about the size of a used 'svg', transformed path data, cycles. *)
From Coq Require Import Lia Lqa Relations.
From Verif Require Import PyBase PyText MatrixModel MatrixSpec MatrixProofs RectModel RectSpec TransformModel TransformSpec TransformProofs
  PathModel PathSpec PathProofs PathNormProofs PathTransProofs PathBBoxModel PathBBoxSpec PathBBoxProofs
  CtmProofs UseModel UseSpec UseProofs UseProofs2.
Local Open Scope Q_scope.

(** ** Scaling and moving keep boxes *)
Definition axis (sx sy x y : Q) (p : pt) : pt := P (sx * ptx p + x) (sy * pty p + y).
Definition no_arc_stroke (d : stroke) : Prop := match d with Arc _ _ _ _ _ _ _ => False | _ => True end.
Lemma axis_time sx sy x y d d' t : stroke_eq (smap (axis sx sy x y) d) d' -> no_arc_stroke d ->
  exists p q, at_time t d = Some p /\ at_time t d' = Some q /\ peq (axis sx sy x y p) q.
Proof.
  destruct d; cbn [smap no_arc_stroke]; intros H N; try contradiction; destruct d'; cbn [stroke_eq] in H; try contradiction;
    cbn [at_time]; eexists; eexists; (split; [reflexivity|]); (split; [reflexivity|]);
    unfold axis, mix, peq in *; cbn [ptx pty] in *.
  - exact H.
  - destruct H as ([A1 A2] & B1 & B2). split; cbn [ptx pty]; rewrite <- ?A1, <- ?A2, <- ?B1, <- ?B2; ring.
  - destruct H as ([A1 A2] & B1 & B2). split; cbn [ptx pty]; rewrite <- ?A1, <- ?A2, <- ?B1, <- ?B2; ring.
  - destruct H as ([A1 A2] & [B1 B2] & [C1 C2] & D1 & D2). split; cbn [ptx pty];
      rewrite <- ?A1, <- ?A2, <- ?B1, <- ?B2, <- ?C1, <- ?C2, <- ?D1, <- ?D2; ring.
  - destruct H as ([A1 A2] & [B1 B2] & C1 & C2). split; cbn [ptx pty];
      rewrite <- ?A1, <- ?A2, <- ?B1, <- ?B2, <- ?C1, <- ?C2; ring.
Qed.
Lemma axis_on sx sy x y d d' q : stroke_eq (smap (axis sx sy x y) d) d' -> no_arc_stroke d ->
  on_stroke d' q -> exists p, on_stroke d p /\ peq (axis sx sy x y p) q.
Proof.
  intros H N (t & T & E). destruct (axis_time _ _ _ _ _ _ t H N) as (p & q' & E1 & E2 & K).
  rewrite E in E2. injection E2 as <-. exists p. split; [exists t; auto|exact K].
Qed.
Lemma axis_on' sx sy x y d d' p : stroke_eq (smap (axis sx sy x y) d) d' -> no_arc_stroke d ->
  on_stroke d p -> exists q, on_stroke d' q /\ peq (axis sx sy x y p) q.
Proof.
  intros H N (t & T & E). destruct (axis_time _ _ _ _ _ _ t H N) as (p' & q & E1 & E2 & K).
  rewrite E in E1. injection E1 as <-. exists q. split; [exists t; auto|exact K].
Qed.
Lemma scale_inj s x a b : 0 < s -> s * a + x == s * b + x -> a == b.
Proof. intros H E. assert (K : s * (a - b) == 0) by lra. apply Qmult_integral in K. destruct K; lra. Qed.
Lemma scale_le s x a b : 0 < s -> s * a + x <= s * b + x -> a <= b.
Proof. intros H E. assert (K : s * a <= s * b) by lra. now apply Qmult_le_l in K. Qed.
Lemma le_scale s x a b : 0 < s -> a <= b -> s * a + x <= s * b + x.
Proof. intros H E. assert (K : s * a <= s * b) by (now apply Qmult_le_l). lra. Qed.
Lemma axis_varies sx sy x y d d' : 0 < sx -> 0 < sy -> stroke_eq (smap (axis sx sy x y) d) d' -> no_arc_stroke d ->
  (varies ptx d <-> varies ptx d') /\ (varies pty d <-> varies pty d').
Proof.
  intros S1 S2 H N. split; split; intros (p & q & Hp & Hq & V).
  - destruct (axis_on' _ _ _ _ _ _ _ H N Hp) as (p' & P1 & [P2 P3]).
    destruct (axis_on' _ _ _ _ _ _ _ H N Hq) as (q' & Q1 & [Q2 Q3]).
    exists p', q'. split; [auto|]. split; [auto|]. intros K. apply V. rewrite <- P2, <- Q2 in K. eapply scale_inj; [exact S1|exact K].
  - destruct (axis_on _ _ _ _ _ _ _ H N Hp) as (p' & P1 & [P2 P3]).
    destruct (axis_on _ _ _ _ _ _ _ H N Hq) as (q' & Q1 & [Q2 Q3]).
    exists p', q'. split; [auto|]. split; [auto|]. intros K. apply V. rewrite <- P2, <- Q2. cbn [axis ptx]. now rewrite K.
  - destruct (axis_on' _ _ _ _ _ _ _ H N Hp) as (p' & P1 & [P2 P3]).
    destruct (axis_on' _ _ _ _ _ _ _ H N Hq) as (q' & Q1 & [Q2 Q3]).
    exists p', q'. split; [auto|]. split; [auto|]. intros K. apply V. rewrite <- P3, <- Q3 in K. eapply scale_inj; [exact S2|exact K].
  - destruct (axis_on _ _ _ _ _ _ _ H N Hp) as (p' & P1 & [P2 P3]).
    destruct (axis_on _ _ _ _ _ _ _ H N Hq) as (q' & Q1 & [Q2 Q3]).
    exists p', q'. split; [auto|]. split; [auto|]. intros K. apply V. rewrite <- P3, <- Q3. cbn [axis pty]. now rewrite K.
Qed.
(** the inverse map *)
Lemma axis_inv sx sy x y p : 0 < sx -> 0 < sy ->
  peq (axis sx sy x y (axis (/ sx) (/ sy) (- x / sx) (- y / sy) p)) p.
Proof. intros S1 S2. split; cbn [axis ptx pty]; field; lra. Qed.
Lemma axis_inv' sx sy x y p : 0 < sx -> 0 < sy ->
  peq (axis (/ sx) (/ sy) (- x / sx) (- y / sy) (axis sx sy x y p)) p.
Proof. intros S1 S2. split; cbn [axis ptx pty]; field; lra. Qed.
Lemma axis_pmap sx sy x y : pmap (axis sx sy x y).
Proof. intros p q [E1 E2]. split; cbn [axis ptx pty]; [now rewrite E1|now rewrite E2]. Qed.
Lemma stroke_sym a b : stroke_eq a b -> stroke_eq b a.
Proof.
  assert (T : forall x y : Q, x == y -> y == x) by (intros x y ->; reflexivity).
  destruct a, b; cbn; try contradiction; intuition eauto using peq_sym.
Qed.
Lemma smap_smap f g d : smap f (smap g d) = smap (fun p => f (g p)) d.
Proof. destruct d; reflexivity. Qed.
Lemma smap_id1 f d : (forall p, peq (f p) p) -> stroke_eq (smap f d) d.
Proof. intros F. destruct d; cbn; repeat split; try apply F; reflexivity. Qed.
Lemma stroke_back sx sy x y d d' : 0 < sx -> 0 < sy -> stroke_eq (smap (axis sx sy x y) d) d' ->
  stroke_eq (smap (axis (/ sx) (/ sy) (- x / sx) (- y / sy)) d') d.
Proof.
  intros S1 S2 H. apply (stroke_trans _ (smap (axis (/ sx) (/ sy) (- x / sx) (- y / sy)) (smap (axis sx sy x y) d))).
  - apply smap_proper; [apply axis_pmap|]. now apply stroke_sym.
  - rewrite smap_smap. apply smap_id1. intros p. now apply axis_inv'.
Qed.
Lemma axis_corner sx sy x y d d' q : 0 < sx -> 0 < sy -> stroke_eq (smap (axis sx sy x y) d) d' -> no_arc_stroke d ->
  corner d' q -> exists p, corner d p /\ peq (axis sx sy x y p) q.
Proof.
  intros S1 S2 H N (C1 & (p1 & P1 & E1) & (p2 & P2 & E2)).
  exists (axis (/ sx) (/ sy) (- x / sx) (- y / sy) q). split; [|now apply axis_inv].
  set (p := axis (/ sx) (/ sy) (- x / sx) (- y / sy) q).
  assert (K : peq (axis sx sy x y p) q) by now apply axis_inv. destruct K as [K1 K2].
  split; [|split].
  - intros r Hr. destruct (axis_on' _ _ _ _ _ _ _ H N Hr) as (r' & R1 & [R2 R3]).
    destruct (C1 r' R1) as [L1 L2]. rewrite <- K1, <- R2 in L1. rewrite <- K2, <- R3 in L2.
    split; [eapply scale_le; [exact S1|exact L1]|eapply scale_le; [exact S2|exact L2]].
  - destruct (axis_on _ _ _ _ _ _ _ H N P1) as (r & R1 & [R2 R3]). exists r. split; [exact R1|].
    rewrite <- R2, <- K1 in E1. eapply scale_inj; [exact S1|exact E1].
  - destruct (axis_on _ _ _ _ _ _ _ H N P2) as (r & R1 & [R2 R3]). exists r. split; [exact R1|].
    rewrite <- R3, <- K2 in E2. eapply scale_inj; [exact S2|exact E2].
Qed.
Lemma axis_anchor sx sy x y d d' q : 0 < sx -> 0 < sy -> stroke_eq (smap (axis sx sy x y) d) d' -> no_arc_stroke d ->
  anchor d' q -> exists p, anchor d p /\ peq (axis sx sy x y p) q.
Proof.
  intros S1 S2 H N [C|[V C]].
  - destruct (axis_corner _ _ _ _ _ _ _ S1 S2 H N C) as (p & C1 & K). exists p. split; [now left|exact K].
  - destruct (axis_on _ _ _ _ _ _ _ H N C) as (p & C1 & K). exists p. split; [|exact K]. right. split; [|exact C1].
    destruct (axis_varies _ _ _ _ _ _ S1 S2 H N). unfold spread in *. tauto.
Qed.
Lemma forall2_in_r {A B} (R : A -> B -> Prop) l l' b : Forall2 R l l' -> In b l' -> exists a, In a l /\ R a b.
Proof.
  induction 1 as [|x y l l' Hxy H IH]; intros i; [destruct i|]. destruct i as [->|i]; [exists x; split; [now left|exact Hxy]|].
  destruct (IH i) as (a & A1 & A2). exists a. split; [now right|exact A2].
Qed.
Lemma forall2_map_l {A B C} (f : A -> B) (R : B -> C -> Prop) l l' :
  Forall2 R (map f l) l' -> Forall2 (fun a c => R (f a) c) l l'.
Proof.
  revert l'. induction l as [|a l IH]; intros l' H; inversion H; subst; constructor; auto.
Qed.
Lemma axis_marks o sx sy x y p r p' r' q : 0 < sx -> 0 < sy ->
  Forall2 (fun d d' => stroke_eq (smap (axis sx sy x y) d) d') (drawing o (SM false p :: r)) (drawing o (SM false p' :: r')) ->
  Forall no_arc_stroke (drawing o (SM false p :: r)) ->
  marks o (SM false p' :: r') q -> exists z, marks o (SM false p :: r) z /\ peq (axis sx sy x y z) q.
Proof.
  intros S1 S2 F NA [(p1 & l1 & E & K)|(d' & D1 & D2 & D3)].
  - injection E as <- <-. unfold drawing in F. cbn [strokes draw place pen0 after_move app] in F.
    inversion F as [|? ? ? ? F1 F2]; subst. cbn [smap stroke_eq] in F1. exists p. split.
    + left. exists p, r. split; [reflexivity|apply peq_refl].
    + eapply peq_trans; [exact F1|]. now apply peq_sym.
  - destruct (forall2_in_r _ _ _ _ F D1) as (d & I1 & H). rewrite Forall_forall in NA. assert (N := NA d I1).
    destruct (axis_anchor _ _ _ _ _ _ _ S1 S2 H N D3) as (z & A1 & A2). exists z. split; [|exact A2].
    right. exists d. split; [exact I1|]. split; [|exact A1].
    destruct d; cbn [smap] in H; destruct d'; cbn in H; try contradiction; cbn in *; auto.
Qed.
(** the image of a box *)
Definition axis_box (sx sy x y : Q) (b : rect) : rect :=
  match rx b, ry b with
  | Some l, Some t => rect4 (sx * l + x) (sy * t + y) (sx * rw b) (sy * rh b)
  | _, _ => b
  end.
Lemma axis_box_proper sx sy x y b : 0 < sx -> 0 < sy -> proper b -> proper (axis_box sx sy x y b).
Proof.
  intros S1 S2 [(A1 & A2 & A3 & A4)|(A1 & A2 & A3 & A4)]; unfold axis_box.
  - rewrite A1. left. auto.
  - destruct (rx b), (ry b); try congruence. right. cbn. split; [discriminate|]. split; [discriminate|].
    split; apply Qmult_le_0_compat; lra.
Qed.
Lemma axis_box_inside sx sy x y b p q : 0 < sx -> 0 < sy -> peq (axis sx sy x y p) q -> inside b p ->
  inside (axis_box sx sy x y b) q.
Proof.
  intros S1 S2 [K1 K2]. unfold inside, region, axis_box. destruct (rx b) as [l|], (ry b) as [t|]; try contradiction.
  cbn [rect4 rx ry rw rh]. intros ((A1 & A2) & (B1 & B2)). cbn [axis ptx pty] in K1, K2. rewrite <- K1, <- K2.
  apply (le_scale sx x) in A1; [|exact S1]. apply (le_scale sx x) in A2; [|exact S1].
  apply (le_scale sy y) in B1; [|exact S2]. apply (le_scale sy y) in B2; [|exact S2]. lra.
Qed.
Lemma axis_least o sx sy x y p r p' r' b b' : 0 < sx -> 0 < sy ->
  Forall2 (fun d d' => stroke_eq (smap (axis sx sy x y) d) d') (drawing o (SM false p :: r)) (drawing o (SM false p' :: r')) ->
  Forall no_arc_stroke (drawing o (SM false p :: r)) ->
  least_box (marks o (SM false p :: r)) b -> least_box (marks o (SM false p' :: r')) b' ->
  included b' (axis_box sx sy x y b).
Proof.
  intros S1 S2 F NA (P1 & I1 & L1) (P2 & I2 & L2). apply L2; [now apply axis_box_proper|].
  intros q M. destruct (axis_marks o sx sy x y p r p' r' q S1 S2 F NA M) as (z & M1 & K).
  eapply axis_box_inside; eauto.
Qed.
Lemma included_coords a b x y w h : included a b -> proper a -> rx a = Some x -> ry a = Some y -> rw a = w -> rh a = h ->
  exists x' y', rx b = Some x' /\ ry b = Some y' /\ x' <= x /\ x + w <= x' + rw b /\ y' <= y /\ y + h <= y' + rh b.
Proof.
  intros Hi Pa E1 E2 E3 E4. assert (0 <= w /\ 0 <= h) as [W1 W2].
  { destruct Pa as [(A & _)|(_ & _ & A & B)]; [congruence|]. rewrite <- E3, <- E4. auto. }
  assert (K1 := Hi x y). assert (K2 := Hi (x + w) (y + h)). unfold region in K1, K2. rewrite E1, E2, E3, E4 in K1, K2.
  destruct (rx b) as [x'|]; [|destruct K1; lra]. destruct (ry b) as [y'|]; [|destruct K1; lra].
  exists x', y'. split; [reflexivity|]. split; [reflexivity|].
  assert (L1 := K1 ltac:(lra)). assert (L2 := K2 ltac:(lra)). lra.
Qed.
Lemma no_arc_back f l l' : Forall2 (fun d d' => stroke_eq (smap f d) d') l l' -> Forall no_arc_stroke l -> Forall no_arc_stroke l'.
Proof.
  induction 1 as [|d d' l l' Hd F IH]; intros N; constructor; inversion N; subst; auto.
  destruct d, d'; cbn in *; auto.
Qed.
Lemma forall2_back sx sy x y l l' : 0 < sx -> 0 < sy -> Forall2 (fun d d' => stroke_eq (smap (axis sx sy x y) d) d') l l' ->
  Forall2 (fun d d' => stroke_eq (smap (axis (/ sx) (/ sy) (- x / sx) (- y / sy)) d) d') l' l.
Proof. intros S1 S2 H. induction H; constructor; auto. now apply stroke_back. Qed.
Lemma axis_box_equal o sx sy x y p r p' r' b b' : 0 < sx -> 0 < sy ->
  Forall2 (fun d d' => stroke_eq (smap (axis sx sy x y) d) d') (drawing o (SM false p :: r)) (drawing o (SM false p' :: r')) ->
  Forall no_arc_stroke (drawing o (SM false p :: r)) ->
  least_box (marks o (SM false p :: r)) b -> least_box (marks o (SM false p' :: r')) b' ->
  exists l t l' t', rx b = Some l /\ ry b = Some t /\ rx b' = Some l' /\ ry b' = Some t' /\
    l' == sx * l + x /\ t' == sy * t + y /\ rw b' == sx * rw b /\ rh b' == sy * rh b.
Proof.
  intros S1 S2 F NA B B'.
  assert (I1 := axis_least o sx sy x y p r p' r' b b' S1 S2 F NA B B').
  assert (T1 : 0 < / sx) by now apply Qinv_lt_0_compat. assert (T2 : 0 < / sy) by now apply Qinv_lt_0_compat.
  assert (I2 := axis_least o (/ sx) (/ sy) (- x / sx) (- y / sy) p' r' p r b' b T1 T2
    (forall2_back _ _ _ _ _ _ S1 S2 F) (no_arc_back _ _ _ F NA) B' B).
  destruct B as (Pb & Ib & _). destruct B' as (Pb' & Ib' & _).
  assert (M : inside b p) by (apply Ib; left; exists p, r; split; [reflexivity|apply peq_refl]).
  assert (M' : inside b' p') by (apply Ib'; left; exists p', r'; split; [reflexivity|apply peq_refl]).
  unfold inside, region in M, M'.
  destruct (rx b) as [l|] eqn:E1; [|contradiction]. destruct (ry b) as [t|] eqn:E2; [|contradiction].
  destruct (rx b') as [l'|] eqn:E3; [|contradiction]. destruct (ry b') as [t'|] eqn:E4; [|contradiction].
  exists l, t, l', t'. do 4 (split; [reflexivity|]).
  destruct (included_coords _ _ l' t' _ _ I1 Pb' E3 E4 eq_refl eq_refl) as (u & v & U1 & U2 & U3 & U4 & U5 & U6).
  destruct (included_coords _ _ l t _ _ I2 Pb E1 E2 eq_refl eq_refl) as (u' & v' & V1 & V2 & V3 & V4 & V5 & V6).
  unfold axis_box in *. rewrite E1, E2 in *. rewrite E3, E4 in *. cbn [rect4 rx ry rw rh] in *.
  injection U1 as <-. injection U2 as <-. injection V1 as <-. injection V2 as <-.
  assert (C1 : forall s a z, 0 < s -> / s * a + - z / s == (a - z) / s) by (intros; field; lra).
  assert (C2 : forall s a, 0 < s -> / s * a == a / s) by (intros; field; lra).
  rewrite C1 in V3, V4, V5, V6 by assumption. rewrite C2 in V4, V6 by assumption.
  assert (X1 : l' - x <= sx * l).
  { assert (K := V3). apply (Qmult_le_l _ _ sx) in K; [|exact S1]. setoid_replace (sx * ((l' - x) / sx)) with (l' - x) in K by (field; lra). exact K. }
  assert (X2 : sx * (l + rw b) <= l' - x + rw b').
  { assert (K := V4). apply (Qmult_le_l _ _ sx) in K; [|exact S1].
    setoid_replace (sx * ((l' - x) / sx + rw b' / sx)) with (l' - x + rw b') in K by (field; lra). exact K. }
  assert (Y1 : t' - y <= sy * t).
  { assert (K := V5). apply (Qmult_le_l _ _ sy) in K; [|exact S2]. setoid_replace (sy * ((t' - y) / sy)) with (t' - y) in K by (field; lra). exact K. }
  assert (Y2 : sy * (t + rh b) <= t' - y + rh b').
  { assert (K := V6). apply (Qmult_le_l _ _ sy) in K; [|exact S2].
    setoid_replace (sy * ((t' - y) / sy + rh b' / sy)) with (t' - y + rh b') in K by (field; lra). exact K. }
  repeat split; lra.
Qed.

(** ** Path data of the base commands *)
Lemma strokes_no_arc o l : forall s, forallb base l = true -> Forall no_arc_stroke (strokes o s l).
Proof.
  induction l as [|g l IH]; intros s H; cbn [strokes]; [constructor|]. cbn [forallb] in H. apply andb_prop in H as [H1 H2].
  destruct g; try discriminate; destruct rel; try discriminate; cbn [draw]; try destruct (after_move s); cbn [app];
    constructor; cbn; auto.
Qed.
Lemma transform_step_base o m st g st' out : base g = true -> transform_step o m st g = Ok (st', out) ->
  forallb base out = true.
Proof.
  destruct g; try discriminate; destruct rel; try discriminate; intros _; unfold transform_step; cbn [kind];
    try (intros [= _ <-]; reflexivity);
    unfold seg_transform; cbn [isrelative toabsolute bind]; repeat tp; try discriminate; intros [= _ <-]; reflexivity.
Qed.
Lemma transform_from_base o m l : forall st out, forallb base l = true -> transform_from o m st l = Ok out ->
  forallb base out = true.
Proof.
  induction l as [|g l IH]; intros st out H; cbn [transform_from]; [intros [= <-]; reflexivity|].
  cbn [forallb] in H. apply andb_prop in H as [H1 H2].
  destruct (transform_step o m st g) as [[st' d]|] eqn:E; cbn [bind]; [|discriminate].
  destruct (transform_from o m st' l) as [r|] eqn:F; cbn [bind]; [|discriminate]. intros [= <-].
  rewrite forallb_app, (transform_step_base _ _ _ _ _ _ H1 E). cbn [andb]. eauto.
Qed.
Lemma turning_axis s x a b c d a' b' c' d' : 0 < s -> s * a + x == a' -> s * b + x == b' -> s * c + x == c' -> s * d + x == d' ->
  has_root (turning a b c d) -> has_root (turning a' b' c' d').
Proof.
  intros H E1 E2 E3 E4 R. assert (K : turning a' b' c' d' == s * s * turning a b c d).
  { unfold turning. rewrite <- E1, <- E2, <- E3, <- E4. ring. }
  intros Z. rewrite K in Z. destruct R as (q & Q1 & Q2).
  - destruct (Qlt_le_dec (turning a b c d) 0) as [L|L]; [|exact L].
    assert (N : s * s * turning a b c d < 0); [|lra]. assert (SS0 : 0 < s * s) by (apply Qmult_lt_0_compat; exact H).
    setoid_replace (s * s * turning a b c d) with (- (s * s * - turning a b c d)) by ring.
    assert (0 < s * s * - turning a b c d) by (apply Qmult_lt_0_compat; lra). lra.
  - exists (s * q). split; [apply Qmult_le_0_compat; lra|]. rewrite K, <- Q2. ring.
Qed.
Lemma exact_axis sx sy x y l l' : 0 < sx -> 0 < sy -> Forall2 (fun d d' => stroke_eq (smap (axis sx sy x y) d) d') l l' ->
  Forall exact_turns l -> Forall exact_turns l'.
Proof.
  intros S1 S2. induction 1 as [|d d' l l' Hd F IH]; intros E; constructor; inversion E as [|? ? X1 X2]; subst; auto.
  destruct d; cbn [smap] in Hd; destruct d'; cbn in Hd; try contradiction; cbn [exact_turns]; auto.
  destruct Hd as ([A1 A2] & [B1 B2] & [C1 C2] & D1 & D2). destruct X1 as [T1 T2]. cbn [axis ptx pty] in *.
  split; [eapply turning_axis; [exact S1|exact A1|exact B1|exact C1|exact D1|exact T1]
         |eapply turning_axis; [exact S2|exact A2|exact B2|exact C2|exact D2|exact T2]].
Qed.

(** ** The size of a used 'svg' *)
Lemma fit_size o at2 e l x y w h b : oracle_basic o -> transforms e [] -> el_geom e = Ok (x, y, w, h) ->
  0 < w -> 0 < h -> tidy l -> forallb base l = true -> Forall exact_turns (drawing o l) ->
  path_bbox o at2 l = Ok b -> 0 < rw b -> 0 < rh b ->
  exists out b', place_use o at2 e (lit "svg") l = Ok out /\ path_bbox o at2 out = Ok b' /\ rw b' == w /\ rh b' == h /\
    Forall2 stroke_eq (map (smap (axis (w / rw b) (h / rh b) x y)) (drawing o l)) (drawing o out).
Proof.
  intros O T G Hw Hh TD BA ET EB Bw Bh.
  assert (S1 : 0 < w / rw b) by (apply Qlt_shift_div_l; lra). assert (S2 : 0 < h / rh b) by (apply Qlt_shift_div_l; lra).
  set (shift := if negb (x =?q 0) || negb (y =?q 0) then [TTranslate x y] else []).
  assert (U : use_transforms o at2 e (lit "svg") l = Ok ([] ++ shift ++ [TScale (w / rw b) (h / rh b)])).
  { assert (F : fit o at2 w h l = Ok [TScale (w / rw b) (h / rh b)]).
    { unfold fit. destruct (Qltb_spec 0 w); [|lra]. cbn [orb]. rewrite EB. cbn [bind].
      destruct (Qeqb_spec (rw b) 0); [lra|]. destruct (Qeqb_spec (rh b) 0); [lra|]. unfold or_one.
      destruct (Qeqb_spec (w / rw b) 0); [lra|]. destruct (Qeqb_spec (h / rh b) 0); [lra|]. reflexivity. }
    unfold use_transforms. destruct (proj1 (transforms_of e [] T)) as [E1|[E1 _]]; rewrite E1; cbn [bind]; rewrite G; cbn [bind];
      replace (is_in (lit "svg") [lit "svg"; lit "symbol"]) with true by reflexivity; rewrite F; reflexivity. }
  unfold place_use. rewrite U. cbn [bind app]. destruct TD as [-> |TD].
  { cbn in EB. injection EB as <-. cbn in Bw. lra. }
  assert (TD' : tidy l) by now right. destruct TD as (p & l0 & g & El & M & PL & RM).
  destruct (place_list o (shift ++ [TScale (w / rw b) (h / rh b)]) l O) as (out & E & T' & D); [|exact TD'|].
  { unfold shift. destruct (negb _ || negb _); reflexivity. }
  rewrite E. assert (D2 : Forall2 stroke_eq (map (smap (axis (w / rw b) (h / rh b) x y)) (drawing o l)) (drawing o out)).
  { refine (strokes_trans _ _ _ _ D). apply strokes_smap_ext. intros q. unfold listed. rewrite g_list_app.
    unfold shift. destruct (Qeqb_spec x 0) as [E1|E1], (Qeqb_spec y 0) as [E2|E2];
      cbn [negb orb g_list fold_right g_transform]; unfold g_translate, g_scale, axis; split; cbn [v1 v2 v3 v4 ptx pty];
      rewrite ?E1, ?E2; ring. }
  assert (Bo : forallb base out = true).
  { revert E. destruct (list_matrix o _) as [[m|]|]; cbn [bind]; [|intros [= <-]; exact BA|discriminate].
    unfold path_transform. now apply transform_from_base. }
  destruct T' as [-> |(p' & l0' & g' & Eo & M' & PL' & RM')].
  { rewrite El in D2. unfold drawing in D2. cbn [strokes draw place pen0 after_move app map] in D2. inversion D2. }
  apply forall2_map_l in D2. assert (ET' : Forall exact_turns (drawing o out)) by exact (exact_axis _ _ _ _ _ _ S1 S2 D2 ET).
  destruct (path_bbox_least o at2 out O Bo ltac:(rewrite Eo; reflexivity) ET') as (b' & EB' & LB').
  destruct (path_bbox_least o at2 l O BA ltac:(rewrite El; reflexivity) ET) as (b0 & EB0 & LB).
  rewrite EB in EB0. injection EB0 as <-. exists out, b'. split; [reflexivity|]. split; [exact EB'|].
  assert (NA : Forall no_arc_stroke (drawing o l)) by now apply strokes_no_arc.
  assert (D3 := D2). rewrite El, Eo in D2. rewrite El in LB, NA. rewrite Eo in LB'.
  destruct (axis_box_equal o _ _ _ _ _ _ _ _ _ _ S1 S2 D2 NA LB LB') as (u & v & u' & v' & _ & _ & _ & _ & _ & _ & W & H).
  split; [rewrite W; field; lra|]. split; [rewrite H; field; lra|].
  clear -D3. induction D3; constructor; auto.
Qed.

(** ** Settings *)
Lemma transform_step_basic o m st g st' out : basic g = true -> transform_step o m st g = Ok (st', out) ->
  forallb basic out = true.
Proof.
  destruct g; try discriminate; try (destruct rel; try discriminate); intros _; unfold transform_step; cbn [kind];
    try (intros [= _ <-]; reflexivity);
    unfold seg_transform; cbn [isrelative toabsolute bind]; repeat tp; try discriminate; intros [= _ <-]; reflexivity.
Qed.
Lemma transform_from_basic o m l : forall st out, forallb basic l = true -> transform_from o m st l = Ok out ->
  forallb basic out = true.
Proof.
  induction l as [|g l IH]; intros st out H; cbn [transform_from]; [intros [= <-]; reflexivity|].
  cbn [forallb] in H. apply andb_prop in H as [H1 H2].
  destruct (transform_step o m st g) as [[st' d]|] eqn:E; cbn [bind]; [|discriminate].
  destruct (transform_from o m st' l) as [r|] eqn:F; cbn [bind]; [|discriminate]. intros [= <-].
  rewrite forallb_app, (transform_step_basic _ _ _ _ _ _ H1 E). cbn [andb]. eauto.
Qed.
Lemma descendants_basic p cs : (forall c l, p c = Some (Ok l) -> forallb basic l = true) ->
  forall acc l, forallb basic acc = true -> descendants p cs acc = Some (Ok l) -> forallb basic l = true.
Proof.
  intros H. induction cs as [|c cs IH]; intros acc l A; cbn [descendants]; [intros [= <-]; exact A|].
  destruct (graphics c); [|now apply IH]. destruct (p c) as [[lc|]|] eqn:E; try discriminate.
  apply IH. rewrite forallb_app, A. cbn [andb]. eauto.
Qed.
Lemma normal_form o at2 root f : forall n l, path_data f o at2 true root n = Some (Ok l) -> forallb basic l = true.
Proof.
  induction f as [|f IH]; [discriminate|]. intros n l. rewrite path_data_step. unfold step.
  destruct (class_of_node n); try discriminate.
  - intros [= E]. destruct (el_own (self n)) as [raw|]; cbn [bind] in E; [|discriminate].
    eapply normalize_from_form. exact E.
  - apply descendants_basic; [exact IH|reflexivity].
  - intros [= <-]. reflexivity.
  - destruct (instance_root root (self n)) as [[t|]|]; try discriminate; [|intros [= <-]; reflexivity].
    destruct (graphics t); [|intros [= <-]; reflexivity].
    destruct (path_data f o at2 true root t) as [[lt|]|] eqn:E; try discriminate. cbn [bind]. intros [= P1].
    unfold place_use in P1. destruct (use_transforms _ _ _ _ _) as [tr|]; cbn [bind] in P1; [|discriminate].
    destruct (list_matrix o tr) as [[m|]|]; cbn [bind] in P1; [| |discriminate].
    + eapply transform_from_basic; [eapply IH; exact E|exact P1].
    + injection P1 as <-. eapply IH; exact E.
Qed.

(** ** Transformed path data *)
Lemma transformed_image f o at2 norm root n l tr : oracle_basic o -> path_data f o at2 norm root n = Some (Ok l) -> tidy l ->
  ~ reusing n -> transforms (self n) tr -> (tr <> [] \/ transform_of (self n) = Ok None) ->
  exists out, transformed f o at2 norm root n = Some (Ok out) /\
    Forall2 stroke_eq (map (smap (placed o tr 0 0 1 1)) (drawing o l)) (drawing o out).
Proof.
  intros O E TD NU T K. unfold transformed. rewrite E.
  assert (X : forall q, peq (placed o tr 0 0 1 1 q) (listed o tr q)).
  { intros q. unfold placed, listed. assert (H := g_list_proper o tr (V4 (1 * ptx q + 0) (1 * pty q + 0) 0 1) (V4 (ptx q) (pty q) 0 1)).
    destruct H as (H1 & H2 & _); [|split; assumption].
    split; [cbn; ring|]. split; [cbn; ring|]. split; reflexivity. }
  destruct l as [|g l].
  { exists []. split; [reflexivity|constructor]. }
  destruct (text_eqb_spec (el_name (self n)) (lit "use")) as [U|U]; [contradiction|]. cbn [bind]. unfold apply_own.
  destruct (transforms_of _ _ T) as [[E1|[E1 ->]] KN]; rewrite E1; cbn [bind].
  - destruct K as [K|K]; [|congruence].
    destruct (place_list o tr (g :: l) O KN TD) as (out & P1 & _ & D). exists out. split.
    + f_equal. unfold apply_list. destruct (list_matrix o tr) as [[m|]|] eqn:L; cbn [bind] in P1 |- *; [exact P1| |discriminate].
      exfalso. destruct (list_meaning o tr O K KN) as (m & L' & _). congruence.
    + refine (strokes_trans _ _ _ _ D). apply strokes_smap_ext. exact X.
  - exists (g :: l). split; [reflexivity|]. apply smap_id. intros q. eapply peq_trans; [apply X|]. split; reflexivity.
Qed.

(** ** Cycles *)
Lemma waits_trans o at2 norm root n m : clos_trans _ (waits o at2 norm root) n m ->
  forall f, path_data f o at2 norm root m = None -> path_data (S f) o at2 norm root n = None.
Proof.
  induction 1 as [n m W|n k m H1 IH1 H2 IH2]; intros f E; [now apply waits_step with m|].
  apply IH2 in E. destruct (path_data (S f) o at2 norm root n) as [r|] eqn:K; [|reflexivity].
  apply (path_data_le (S f) (S (S f))) in K; [|lia]. rewrite (IH1 _ E) in K. discriminate.
Qed.
Lemma cycle_never o at2 norm root n : clos_trans _ (waits o at2 norm root) n n ->
  forall f, path_data f o at2 norm root n = None.
Proof. intros W. induction f as [|f IH]; [reflexivity|]. now apply (waits_trans _ _ _ _ _ _ W). Qed.

(** ** Failures *)
Lemma symbol_size f o at2 norm root n t x y w h tr : reusing n -> name root = lit "svg" -> refers root (self n) t ->
  name t = lit "symbol" -> transforms (self n) tr -> el_geom (self n) = Ok (x, y, w, h) -> (0 < w \/ 0 < h) ->
  path_data (S (S f)) o at2 norm root n = Some (Err ZeroDivisionError).
Proof.
  intros U R F Sy T G W. rewrite path_data_step. unfold step. rewrite (class_use n U), (instance_some _ _ _ R F).
  assert (Gt : graphical t) by (right; right; left; unfold never_shown; auto). apply graphics_iff in Gt. rewrite Gt.
  rewrite path_data_step. unfold step. rewrite (class_never t) by (unfold never_shown; auto). cbn [bind].
  unfold place_use, use_transforms. unfold name in Sy. rewrite Sy.
  replace (is_in (lit "symbol") [lit "svg"; lit "symbol"]) with true by reflexivity.
  assert (E : fit o at2 w h [] = Err ZeroDivisionError).
  { unfold fit. destruct (Qltb_spec 0 w), (Qltb_spec 0 h); try reflexivity. destruct W; lra. }
  destruct (proj1 (transforms_of _ _ T)) as [E1|[E1 ->]]; rewrite E1; cbn [bind]; rewrite G; cbn [bind]; rewrite E; reflexivity.
Qed.
Lemma unfinished_child f o at2 norm root n before c after : grouping n -> children n = before ++ c :: after -> unfinished c ->
  (forall b, In b before -> graphical b -> exists l, path_data (S f) o at2 norm root b = Some (Ok l)) ->
  path_data (S (S f)) o at2 norm root n = Some (Err NotImplementedError_).
Proof.
  intros Gr Ec U Hb. rewrite path_data_step. unfold step. rewrite (class_group n Gr), Ec.
  generalize (@nil seg). revert Hb. clear Ec. induction before as [|b before IH]; intros Hb acc; cbn [app descendants].
  - assert (G : graphics c = true) by (apply graphics_iff; right; right; right; left; exact U). rewrite G.
    rewrite path_data_step. unfold step. rewrite (class_unfinished c U). reflexivity.
  - destruct (graphics b) eqn:G.
    + destruct (Hb b (or_introl eq_refl)) as [l E]; [now apply graphics_iff|]. rewrite E.
      apply IH. intros b' i. apply Hb. now right.
    + apply IH. intros b' i. apply Hb. now right.
Qed.
Lemma external_use f o at2 norm root n c u : reusing n -> points_to (self n) (c :: u) -> c <> 35%N ->
  path_data (S f) o at2 norm root n = Some (Err NotImplementedError_).
Proof.
  intros U P1 N. rewrite path_data_step. unfold step. rewrite (class_use n U). unfold instance_root.
  rewrite (points_href _ _ P1). destruct (N.eqb_spec c 35); [contradiction|]. reflexivity.
Qed.
