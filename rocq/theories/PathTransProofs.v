(** Proofs about PathParser.transform. *)
From Verif Require Import PyBase MatrixModel MatrixSpec MatrixProofs MatrixProofs2 PathModel PathSpec PathProofs PathNormProofs.
Local Open Scope Q_scope.

Lemma tpoint_img m p : is2d m = true -> tpoint m p = Ok (img (arr m) p).
Proof. intros H. unfold tpoint, transform_point. rewrite H. reflexivity. Qed.
Lemma tpoint_3d m p : is2d m = false -> tpoint m p = Err ValueError.
Proof. intros H. unfold tpoint, transform_point. rewrite H. reflexivity. Qed.

Lemma img_proper a p q : peq p q -> peq (img a p) (img a q).
Proof. intros [A B]. split; unfold img, act; cbn [ptx pty v1 v2 v3 v4]; rewrite A, B; reflexivity. Qed.
Lemma img_mirror a p c : peq (img a (mirror p c)) (mirror (img a p) (img a c)).
Proof. split; unfold img, act, mirror; cbn [ptx pty v1 v2 v3 v4]; ring. Qed.
(** the image of a stroke passes through the images of its points *)
Lemma stroke_img_time a d t : 
  match at_time t d, at_time t (stroke_img a d) with
  | Some p, Some q => peq (img a p) q
  | None, None => True
  | _, _ => False
  end.
Proof.
  destruct d; cbn [at_time stroke_img]; auto;
    split; unfold img, act, mix; cbn [ptx pty v1 v2 v3 v4]; ring.
Qed.

Definition ctl_img (a : mat) (x y : ctrl) : Prop :=
  match x, y with
  | NoCtrl, NoCtrl => True
  | CtrlC p, CtrlC q | CtrlQ p, CtrlQ q => peq (img a p) q
  | _, _ => False
  end.
(** what the output pen may remember after dropped bearings *)
Definition stale (prev : option cmd) (q : pen) : Prop :=
  (after_move q = true -> prev = Some KM) /\
  match ctl q with
  | NoCtrl => True
  | CtrlC _ => prev = Some KC \/ prev = Some KS
  | CtrlQ _ => prev = Some KQ \/ prev = Some KT
  end.
Definition TInv (a : mat) (kx ky : bool) (prev : option cmd) (after : bool) (st : tstate) (s q : pen) : Prop :=
  (kx = true -> exists x, fst (t_cp st) = Some x /\ x == ptx (cur s)) /\
  (ky = true -> exists y, snd (t_cp st) = Some y /\ y == pty (cur s)) /\
  (exists b, t_start st = some_pt b /\ peq b (sub s)) /\
  t_bearing st = brg s /\ is_moveto (t_last st) = after_move s /\
  peq (img a (cur s)) (cur q) /\ peq (img a (sub s)) (sub q) /\
  stale prev q /\
  (if after then ctl s = NoCtrl /\ after_move s = false
   else ctl_img a (ctl s) (ctl q) /\ after_move q = after_move s).

Ltac t_inv G :=
  split; [intros _; eexists; split; [reflexivity|apply (proj1 (peq_sym _ _ G))]|];
  split; [intros _; eexists; split; [reflexivity|apply (proj2 (peq_sym _ _ G))]|].
Ltac t_line := unfold goto; cbn [fst snd map stroke_img app cur sub ctl after_move brg pen_after strokes draw place];
  constructor; [cbn [stroke_eq]|constructor].
Ltac t_fin := unfold stale; cbn [pen_after draw place]; unfold goto;
  cbn [t_start t_cp t_bearing t_last fst snd is_moveto after_move ctl ctl_img stale cur sub brg known_after kind];
  repeat first [assumption | apply peq_refl | reflexivity | apply peq_sym; assumption
    | apply img_proper; assumption
    | match goal with |- _ /\ _ => split | |- exists _, _ => eexists | |- _ -> _ => intros
      | |- _ \/ _ => first [left; reflexivity | right; reflexivity] | |- True => exact I end | discriminate].

Lemma trans_step o m kx ky prev after st s q g : oracle_basic o -> is2d m = true ->
  TInv (arr m) kx ky prev after st s q -> knows kx ky g = true ->
  after && glued prev g = false -> (g <> SInvalid) -> (forall r v, g <> SB r v) ->
  (forall p2 p, g <> SCNone p2 p) ->
  exists st' out, transform_step o m st g = Ok (st', out) /\
    Forall2 stroke_eq (map (stroke_img (arr m)) (snd (draw o s g))) (strokes o q out) /\
    TInv (arr m) (fst (known_after kx ky g)) (snd (known_after kx ky g)) (kind g) false
         st' (fst (draw o s g)) (pen_after o q out).
Proof.
  intros O H2 (Kx & Ky & (b0 & Est & Pb) & Eb & El & Pc & Ps & (St1 & St2) & Af) Kn Gl NI NB NC.
  destruct st as [start [cpx cpy] b last]. cbn [t_start t_cp t_bearing t_last fst snd] in *. subst start.
  assert (MS : forall k l e, set_start k (some_pt b0) l e
             = if is_moveto k && negb (is_moveto l) then e else some_pt b0).
  { intros k l e. unfold set_start, missing. cbn [some_pt fst snd is_some negb orb].
    now rewrite orb_false_r. }
  assert (Rel : kx = true -> ky = true -> forall p, 
    peq (place o s true p) (shift (or0 cpx) (or0 cpy) (turn o b p))).
  { intros Hx Hy p. destruct (Kx Hx) as (x & -> & Ex). destruct (Ky Hy) as (y & -> & Ey). cbn [or0].
    apply (place_shift' o s (P x y) b p O); [split; assumption|exact Eb]. }
  destruct g as [r p|r p|r x|r y|r p1 p2 p|r p2 p|r p1 p|r p|r rx ry rot fa fs p|r a|r|p2 p|];
    try (exfalso; now apply NI); try (exfalso; eapply NB; reflexivity); try (exfalso; eapply NC; reflexivity).
  - (* M *)
    set (e := if r then shift (or0 cpx) (or0 cpy) (turn o b p) else p).
    exists (TS (if negb (after_move s) then some_pt e else some_pt b0) (some_pt e) b (Some KM)), [SM false (img (arr m) e)].
    split.
    { unfold transform_step. cbn [kind t_cp t_bearing t_start t_last].
      destruct r; cbn [seg_transform isrelative toabsolute fst snd]; rewrite (tpoint_img m _ H2); cbn [bind seg_end];
        rewrite MS; cbn [is_moveto andb]; rewrite El; reflexivity. }
    assert (G : peq (place o s r p) e).
    { unfold e. destruct r; [|apply peq_refl]. cbn [knows] in Kn. apply andb_prop in Kn as [A B]. auto. }
    assert (AQ : after_move q = after_move s).
    { destruct after; [|apply Af]. destruct Af as [_ ->]. destruct (after_move q); [|reflexivity].
      rewrite (St1 eq_refl) in Gl. discriminate Gl. }
    cbn [strokes draw pen_after place]. rewrite AQ. destruct (after_move s) eqn:AM; cbn [negb].
    + split; [t_line; auto using img_proper|].
      t_inv G. t_fin.
    + split; [t_line; auto using img_proper|].
      t_inv G. t_fin.
  - (* L *)
    set (e := if r then shift (or0 cpx) (or0 cpy) (turn o b p) else p).
    exists (TS (some_pt b0) (some_pt e) b (Some KL)), [SL false (img (arr m) e)].
    split.
    { unfold transform_step. cbn [kind t_cp t_bearing t_start t_last].
      destruct r; cbn [seg_transform isrelative toabsolute fst snd]; rewrite (tpoint_img m _ H2); cbn [bind seg_end];
        rewrite MS; reflexivity. }
    assert (G : peq (place o s r p) e).
    { unfold e. destruct r; [|apply peq_refl]. cbn [knows] in Kn. apply andb_prop in Kn as [A B]. auto. }
    split; [t_line; auto using img_proper|]. t_inv G. t_fin.
  - (* H *)
    destruct r.
    + set (e := shift (or0 cpx) (or0 cpy) (turn o b (P x 0))).
      exists (TS (some_pt b0) (some_pt e) b (Some KH)), [SL false (img (arr m) e)].
      split.
      { unfold transform_step. cbn [kind t_cp t_bearing t_start t_last].
        cbn [seg_transform isrelative toabsolute fst snd]; rewrite (tpoint_img m _ H2); cbn [bind seg_end];
          rewrite MS; reflexivity. }
      assert (G : peq (place o s true (P x 0)) e).
      { unfold e. cbn [knows] in Kn. apply andb_prop in Kn as [A B]. auto. }
      split; [t_line; auto using img_proper|]. t_inv G. t_fin.
    + cbn [knows] in Kn. destruct (Ky Kn) as (y & -> & Ey).
      exists (TS (some_pt b0) (Some x, None) b (Some KH)), [SL false (img (arr m) (P x y))].
      split.
      { unfold transform_step. cbn [kind t_cp t_bearing t_start t_last].
        cbn [seg_transform isrelative toabsolute fst snd cp_pt bind]; rewrite (tpoint_img m _ H2); cbn [bind seg_end];
          rewrite MS; reflexivity. }
      assert (G : peq (P x (pty (cur s))) (P x y)) by (split; cbn; [reflexivity|symmetry; exact Ey]).
      split; [t_line; auto using img_proper|].
      split; [intros _; eexists; split; reflexivity|]. split; [discriminate|]. t_fin.
  - (* V *)
    destruct r.
    + set (e := shift (or0 cpx) (or0 cpy) (turn o b (P 0 y))).
      exists (TS (some_pt b0) (some_pt e) b (Some KV)), [SL false (img (arr m) e)].
      split.
      { unfold transform_step. cbn [kind t_cp t_bearing t_start t_last].
        cbn [seg_transform isrelative toabsolute fst snd]; rewrite (tpoint_img m _ H2); cbn [bind seg_end];
          rewrite MS; reflexivity. }
      assert (G : peq (place o s true (P 0 y)) e).
      { unfold e. cbn [knows] in Kn. apply andb_prop in Kn as [A B]. auto. }
      split; [t_line; auto using img_proper|]. t_inv G. t_fin.
    + cbn [knows] in Kn. destruct (Kx Kn) as (x & -> & Ex).
      exists (TS (some_pt b0) (None, Some y) b (Some KV)), [SL false (img (arr m) (P x y))].
      split.
      { unfold transform_step. cbn [kind t_cp t_bearing t_start t_last].
        cbn [seg_transform isrelative toabsolute fst snd cp_pt bind]; rewrite (tpoint_img m _ H2); cbn [bind seg_end];
          rewrite MS; reflexivity. }
      assert (G : peq (P (ptx (cur s)) y) (P x y)) by (split; cbn; [symmetry; exact Ex|reflexivity]).
      split; [t_line; auto using img_proper|].
      split; [discriminate|]. split; [intros _; eexists; split; reflexivity|]. t_fin.
  - (* C *)
    set (f := fun p => if r then shift (or0 cpx) (or0 cpy) (turn o b p) else p).
    exists (TS (some_pt b0) (some_pt (f p)) b (Some KC)), [SC false (img (arr m) (f p1)) (img (arr m) (f p2)) (img (arr m) (f p))].
    split.
    { unfold transform_step. cbn [kind t_cp t_bearing t_start t_last].
      destruct r; cbn [seg_transform isrelative toabsolute fst snd]; rewrite !(tpoint_img m _ H2); cbn [bind seg_end];
        rewrite MS; reflexivity. }
    assert (G : forall p, peq (place o s r p) (f p)).
    { intros u. unfold f. destruct r; [|apply peq_refl]. cbn [knows] in Kn. apply andb_prop in Kn as [A B]. auto. }
    pose proof (G p) as G0. pose proof (G p1) as G1. pose proof (G p2) as G2. clear G.
    split; [t_line; auto using img_proper|]. t_inv G0. t_fin.
  - (* S *)
    set (f := fun p => if r then shift (or0 cpx) (or0 cpy) (turn o b p) else p).
    exists (TS (some_pt b0) (some_pt (f p)) b (Some KS)), [SS false (img (arr m) (f p2)) (img (arr m) (f p))].
    split.
    { unfold transform_step. cbn [kind t_cp t_bearing t_start t_last].
      destruct r; cbn [seg_transform isrelative toabsolute fst snd]; rewrite !(tpoint_img m _ H2); cbn [bind seg_end];
        rewrite MS; reflexivity. }
    assert (G : forall p, peq (place o s r p) (f p)).
    { intros u. unfold f. destruct r; [|apply peq_refl]. cbn [knows] in Kn. apply andb_prop in Kn as [A B]. auto. }
    pose proof (G p) as G0. pose proof (G p2) as G2. clear G.
    assert (CC : peq (img (arr m) (match ctl s with CtrlC c => mirror (cur s) c | _ => cur s end))
                     (match ctl q with CtrlC c => mirror (cur q) c | _ => cur q end)).
    { destruct after.
      - destruct Af as [-> _]. destruct (ctl q); auto.
        exfalso. destruct St2 as [-> | ->]; discriminate Gl.
      - destruct Af as [Af _]. destruct (ctl s), (ctl q); cbn [ctl_img] in Af; try contradiction; auto.
        eapply peq_trans; [apply img_mirror|]. apply mirror_proper; assumption. }
    split; [t_line; auto using img_proper|]. t_inv G0. t_fin.
  - (* Q *)
    set (f := fun p => if r then shift (or0 cpx) (or0 cpy) (turn o b p) else p).
    exists (TS (some_pt b0) (some_pt (f p)) b (Some KQ)), [SQ false (img (arr m) (f p1)) (img (arr m) (f p))].
    split.
    { unfold transform_step. cbn [kind t_cp t_bearing t_start t_last].
      destruct r; cbn [seg_transform isrelative toabsolute fst snd]; rewrite !(tpoint_img m _ H2); cbn [bind seg_end];
        rewrite MS; reflexivity. }
    assert (G : forall p, peq (place o s r p) (f p)).
    { intros u. unfold f. destruct r; [|apply peq_refl]. cbn [knows] in Kn. apply andb_prop in Kn as [A B]. auto. }
    pose proof (G p) as G0. pose proof (G p1) as G1. clear G.
    split; [t_line; auto using img_proper|]. t_inv G0. t_fin.
  - (* T *)
    set (f := fun p => if r then shift (or0 cpx) (or0 cpy) (turn o b p) else p).
    exists (TS (some_pt b0) (some_pt (f p)) b (Some KT)), [ST false (img (arr m) (f p))].
    split.
    { unfold transform_step. cbn [kind t_cp t_bearing t_start t_last].
      destruct r; cbn [seg_transform isrelative toabsolute fst snd]; rewrite !(tpoint_img m _ H2); cbn [bind seg_end];
        rewrite MS; reflexivity. }
    assert (G0 : peq (place o s r p) (f p)).
    { unfold f. destruct r; [|apply peq_refl]. cbn [knows] in Kn. apply andb_prop in Kn as [A B]. auto. }
    assert (CC : peq (img (arr m) (match ctl s with CtrlQ c => mirror (cur s) c | _ => cur s end))
                     (match ctl q with CtrlQ c => mirror (cur q) c | _ => cur q end)).
    { destruct after.
      - destruct Af as [-> _]. destruct (ctl q); auto.
        exfalso. destruct St2 as [-> | ->]; discriminate Gl.
      - destruct Af as [Af _]. destruct (ctl s), (ctl q); cbn [ctl_img] in Af; try contradiction; auto.
        eapply peq_trans; [apply img_mirror|]. apply mirror_proper; assumption. }
    split; [t_line; auto using img_proper|]. t_inv G0. t_fin.
  - (* A *)
    set (f := fun p => if r then shift (or0 cpx) (or0 cpy) (turn o b p) else p).
    set (rot' := if r then (if b =?q 0 then rot else rot + b) else rot).
    exists (TS (some_pt b0) (some_pt (f p)) b (Some KA)), [SA false rx ry rot' fa fs (img (arr m) (f p))].
    split.
    { unfold transform_step. cbn [kind t_cp t_bearing t_start t_last].
      destruct r; cbn [seg_transform isrelative toabsolute fst snd]; rewrite !(tpoint_img m _ H2); cbn [bind seg_end];
        rewrite MS; reflexivity. }
    assert (G0 : peq (place o s r p) (f p)).
    { unfold f. destruct r; [|apply peq_refl]. cbn [knows] in Kn. apply andb_prop in Kn as [A B]. auto. }
    split; [|t_inv G0; t_fin].
    t_line. split; [exact Pc|]. split; [reflexivity|]. split; [reflexivity|]. split.
    { unfold rot'. destruct r; [|reflexivity]. rewrite Eb.
      destruct (Qeqb_spec (brg s) 0) as [E|E]; [rewrite E; ring|reflexivity]. }
    split; [reflexivity|]. split; [reflexivity|]. auto using img_proper.
  - (* Z *)
    exists (TS (some_pt b0) (some_pt b0) b (Some KZ)), [SZ false].
    split; [reflexivity|].
    split; [t_line; auto using img_proper|]. t_inv (peq_sym _ _ Pb). t_fin.
Qed.

Definition drawn (g : seg) : bool :=
  match g with SCNone _ _ => false | _ => true end.
Lemma trans_run o m l : oracle_basic o -> is2d m = true -> forall kx ky prev after st s q,
  TInv (arr m) kx ky prev after st s q -> remembers kx ky l = true ->
  bearing_ok prev after l = true -> forallb drawn l = true ->
  exists out, transform_from o m st l = Ok out /\
    Forall2 stroke_eq (map (stroke_img (arr m)) (strokes o s l)) (strokes o q out).
Proof.
  intros O H2; induction l as [|g l IH]; intros kx ky prev after st s q I Rm Bo Dr; cbn [transform_from strokes].
  - exists []. split; [reflexivity|constructor].
  - cbn [forallb] in Dr. apply andb_prop in Dr as [Dg Dr].
    cbn [remembers] in Rm. apply andb_prop in Rm as [Kn Rm].
    destruct (known_after kx ky g) as [kx' ky'] eqn:KA.
    assert (Gen : (g <> SInvalid) -> (forall r v, g <> SB r v) -> 
      negb (after && glued prev g) && bearing_ok (kind g) false l = true ->
      exists out, (do (st', o1) <- transform_step o m st g; do rest <- transform_from o m st' l; Ok (o1 ++ rest)) = Ok out /\
        Forall2 stroke_eq (map (stroke_img (arr m)) (let '(s', d) := draw o s g in d ++ strokes o s' l)) (strokes o q out)).
    { intros NI NB B. apply andb_prop in B as [B1 B2]. apply negb_true_iff in B1.
      assert (NC : forall p2 p, g <> SCNone p2 p) by (intros p2 p ->; discriminate Dg).
      destruct (trans_step o m kx ky prev after st s q g O H2 I Kn B1 NI NB NC) as (st' & o1 & E & F & I').
      rewrite E. cbn [bind]. rewrite KA in I'. cbn [fst snd] in I'.
      destruct (IH _ _ _ _ _ _ _ I' Rm B2 Dr) as (o2 & E2 & F2). rewrite E2. cbn [bind].
      exists (o1 ++ o2). split; [reflexivity|]. rewrite strokes_app.
      destruct (draw o s g) as [s' d]. cbn [fst snd] in *. rewrite map_app. apply Forall2_app; assumption. }
    destruct g; try (apply Gen; [discriminate|discriminate|exact Bo]).
    + (* B *) cbn [known_after] in KA. injection KA as <- <-.
      cbn [transform_step kind bind draw].
      destruct I as (Kx & Ky & Sx & Eb & El & Pc & Ps & Sl & Af).
      edestruct (IH kx ky prev true) as (o2 & E2 & F2); [|exact Rm|exact Bo|exact Dr|].
      2:{ rewrite E2. cbn [bind]. exists o2. split; [reflexivity|exact F2]. }
      split; [exact Kx|]. split; [exact Ky|]. split; [exact Sx|].
      split; [cbn [t_bearing get_bearing brg]; rewrite Eb; reflexivity|].
      split; [reflexivity|]. split; [exact Pc|]. split; [exact Ps|]. split; [exact Sl|].
      split; reflexivity.
    + (* invalid *) cbn [known_after] in KA. injection KA as <- <-.
      cbn [transform_step kind bind draw].
      destruct (IH _ _ _ _ _ _ _ I Rm Bo Dr) as (o2 & E2 & F2). rewrite E2. cbn [bind].
      exists o2. split; [reflexivity|exact F2].
Qed.

Lemma trans_prefix o m l : oracle_basic o -> is2d m = true -> forall after st s q,
  t_cp st = (None, None) -> t_start st = (None, None) -> t_bearing st = brg s ->
  is_moveto (t_last st) = false -> cur s = P 0 0 -> after_move s = false -> after_move q = false ->
  begins_moveto l = true -> remembers true true l = true ->
  bearing_ok None after l = true -> forallb drawn l = true ->
  exists out, transform_from o m st l = Ok out /\
    Forall2 stroke_eq (map (stroke_img (arr m)) (strokes o s l)) (strokes o q out).
Proof.
  intros O H2; induction l as [|g l IH]; intros after st s q Ecp Est Eb El Ec Am Aq BM Rm Bo Dr;
    cbn [transform_from strokes].
  - exists []. split; [reflexivity|constructor].
  - destruct g as [r p|r p|r x|r y|r p1 p2 p|r p2 p|r p1 p|r p|r rx ry rot fa fs p|r a|r|p2 p|];
      cbn [begins_moveto] in BM; try discriminate BM.
    + destruct st as [start cp b last]. cbn [t_start t_cp t_bearing t_last] in *. subst start cp.
      set (e := if r then shift 0 0 (turn o b p) else p).
      assert (E1 : transform_step o m (TS (None, None) (None, None) b last) (SM r p)
        = Ok (TS (some_pt e) (some_pt e) b (Some KM), [SM false (img (arr m) e)])).
      { unfold transform_step. cbn [kind t_cp t_bearing t_start t_last].
        destruct r; cbn [seg_transform isrelative toabsolute fst snd or0]; rewrite (tpoint_img m _ H2);
          cbn [bind seg_end]; unfold set_start; cbn [is_moveto andb]; rewrite El; reflexivity. }
      rewrite E1. cbn [bind]. clear E1.
      assert (G : peq (place o s r p) e).
      { unfold e. destruct r; [|apply peq_refl].
        apply (place_shift' o s (P 0 0) b p O); [rewrite Ec; apply peq_refl|exact Eb]. }
      cbn [draw]. rewrite Am.
      cbn [remembers known_after bearing_ok forallb drawn andb] in *.
      apply andb_prop in Rm as [_ Rm]. apply andb_prop in Bo as [_ Bo].
      edestruct (trans_run o m l O H2 true true (kind (SM r p)) false) as (o2 & E2 & F2);
        [|exact Rm|exact Bo|exact Dr|].
      2:{ rewrite E2. cbn [bind]. exists ([SM false (img (arr m) e)] ++ o2). split; [reflexivity|].
          rewrite strokes_app, map_app. cbn [strokes draw pen_after fst snd]. rewrite Aq. cbn [fst snd].
          apply Forall2_app; [|exact F2]. cbn [map stroke_img app]. constructor; [|constructor].
          cbn [stroke_eq place]. apply img_proper. exact G. }
      t_inv G. t_fin.
    + cbn [transform_step kind bind draw app].
      cbn [remembers knows known_after bearing_ok forallb drawn andb] in *.
      edestruct (IH true) as (o2 & E2 & F2);
        [| | | | | | | |exact Rm|exact Bo|exact Dr|]; cycle -1.
      { rewrite E2. cbn [bind]. exists o2. split; [reflexivity|exact F2]. }
      all: cbn [t_cp t_start t_bearing t_last get_bearing brg cur after_move]; auto.
      rewrite Eb. reflexivity.
    + cbn [transform_step kind bind draw app].
      cbn [remembers knows known_after bearing_ok forallb drawn andb] in *.
      destruct (IH after st s q Ecp Est Eb El Ec Am Aq BM Rm Bo Dr) as (o2 & E2 & F2).
      rewrite E2. cbn [bind]. exists o2. split; [reflexivity|exact F2].
Qed.

Lemma transform_draws o m l : oracle_basic o -> is2d m = true -> begins_moveto l = true ->
  remembers true true l = true -> bearing_ok None false l = true -> forallb drawn l = true ->
  exists out, path_transform o m l = Ok out /\
    Forall2 stroke_eq (map (stroke_img (arr m)) (drawing o l)) (drawing o out).
Proof. intros. apply (trans_prefix o m l H H0 false); auto. Qed.

(** a matrix that is not 2D is refused as soon as something is drawn *)
Lemma seg_transform_3d o m s cp b : is2d m = false ->
  match s with SZ _ | SInvalid => seg_transform o s cp b m = Ok s
  | _ => exists e, seg_transform o s cp b m = Err e end.
Proof.
  intros H. destruct s; try reflexivity; unfold seg_transform; try destruct rel;
    cbn [isrelative toabsolute]; rewrite ?(tpoint_3d m _ H);
    try (destruct (cp_pt _ _); cbn [bind]; rewrite ?(tpoint_3d m _ H)); cbn [bind]; eauto.
Qed.

(** ** Normalisation does not fail without arcs *)
Lemma norm_step_ok o at2 m st s q g : Inv m st s q -> allowed m g = true -> no_arc g = true ->
  exists r, normalize_step o at2 st g = Ok r.
Proof.
  intros I A N. destruct I as (p0 & a0 & Ecp & Est & _ & _ & _ & _ & _ & X & _).
  destruct st as [start cp ext b last]. cbn [n_cp n_start n_bearing n_last n_ext] in *. subst cp start.
  assert (K : (exists e, ext = Some e) \/ (forall r p2 p, g <> SS r p2 p) /\ (forall r p, g <> ST r p)).
  { destruct m; cbn [ext_ok n_ext n_last] in X; try (left; destruct X as ((e & X & _) & _); eauto; fail);
      try (left; destruct X as (e & c & X & _); eauto; fail).
    right. split; intros; intros ->; cbn in A; discriminate A. }
  destruct g as [r p|r p|r x|r y|r p1 p2 p|r p2 p|r p1 p|r p|r rx ry rot fa fs p|r a|r|p2 p|];
    try discriminate N; try (destruct r; eexists; reflexivity); try (eexists; reflexivity).
  - destruct K as [(e & ->)|[K _]]; [|exfalso; eapply K; reflexivity].
    destruct r, last as [[]|]; eexists; reflexivity.
  - destruct K as [(e & ->)|[_ K]]; [|exfalso; eapply K; reflexivity].
    destruct r, last as [[]|]; eexists; reflexivity.
Qed.
Lemma norm_run_ok o at2 l : oracle_basic o -> forall m st s q, Inv m st s q ->
  smooth_ok m l = true -> forallb no_arc l = true -> exists out, normalize_from o at2 st l = Ok out.
Proof.
  intros O; induction l as [|g l IH]; intros m st s q I G N; cbn [normalize_from]; [eauto|].
  cbn [smooth_ok] in G. apply andb_prop in G as [A G]. cbn [forallb] in N. apply andb_prop in N as [Ng N].
  destruct (norm_step_ok o at2 m st s q g I A Ng) as ([st' o1] & E). rewrite E. cbn [bind].
  destruct (norm_step o at2 m st s q g st' o1 O I A E) as (_ & I' & _).
  destruct (IH _ _ _ _ I' G N) as (o2 & ->). cbn [bind]. eauto.
Qed.

Lemma normalize_total o at2 l : oracle_basic o -> begins_moveto l = true -> smooth_ok NoSmooth l = true ->
  forallb no_arc l = true -> exists out, normalize o at2 l = Ok out.
Proof.
  intros O. unfold normalize.
  assert (W : forall l st s, n_cp st = (None, None) -> n_start st = (None, None) -> n_bearing st = brg s ->
    is_moveto (n_last st) = false -> cur s = P 0 0 -> begins_moveto l = true ->
    smooth_ok NoSmooth l = true -> forallb no_arc l = true -> exists out, normalize_from o at2 st l = Ok out).
  { clear l. induction l as [|g l IH]; intros st s Ecp Est Eb El Ec BM G N; cbn [normalize_from]; [eauto|].
    cbn [smooth_ok forallb] in *. apply andb_prop in G as [A G]. apply andb_prop in N as [Ng N].
    destruct g as [r p|r p|r x|r y|r p1 p2 p|r p2 p|r p1 p|r p|r rx ry rot fa fs p|r a|r|p2 p|];
      cbn [begins_moveto] in BM; try discriminate BM.
    - destruct st as [start cp ext b last]. cbn [n_cp n_start n_bearing n_last n_ext] in *. subst cp start.
      assert (E1 : normalize_step o at2 (NS (None, None) (None, None) ext b last) (SM r p)
        = let e := if r then shift 0 0 (turn o b p) else p in
          Ok (NS (some_pt e) (some_pt e) (Some (P (ptx e) (pty e))) b (Some KM), [SM false e])).
      { destruct r; unfold normalize_step; cbn [kind seg_normalize isrelative toabsolute bind is_cubic is_quad orb
          rev app n_cp n_start n_bearing n_last n_ext seg_end]; unfold set_start; cbn [is_moveto andb missing];
          rewrite El; reflexivity. }
      rewrite E1. cbn [bind]. set (e := if r then _ else p).
      destruct (norm_run_ok o at2 l O AfterMove (NS (some_pt e) (some_pt e) (Some (P (ptx e) (pty e))) b (Some KM))
        (Pen e e NoCtrl true b) (Pen e e NoCtrl true b)) as (o2 & ->); [|exact G|exact N|cbn [bind]; eauto].
      exists e, e. cbn [n_cp n_start n_bearing n_last n_ext].
      cbn [cur sub ctl brg after_move ext_ok moved moved1 is_moveto n_ext n_last is_cubic is_quad]. fin.
    - cbn [normalize_step kind bind].
      destruct (IH (NS (n_start st) (n_cp st) (n_ext st) (get_bearing (SB r a) (n_bearing st)) (Some KB))
                   (Pen (cur s) (cur s) NoCtrl false (get_bearing (SB r a) (n_bearing st)))) as (o2 & ->); auto.
      cbn [bind]. eauto.
    - cbn [normalize_step kind bind]. destruct (IH st s) as (o2 & ->); auto. cbn [bind]. eauto. }
  intros. eapply (W l nstate0 pen0); auto.
Qed.
