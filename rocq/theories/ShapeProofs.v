From Coq Require Import Qabs Qminmax.
From Verif Require Import PyBase PyText FormatModel FormatSpec FormatProofs NumScan NumScanProofs RectModel RectSpec RectProofs MatrixModel MatrixSpec MatrixProofs2 PathModel PathSpec PathProofs PathNormProofs PathArcProofs PathTextModel TransformTextProofs PathTextProofs PathBBoxModel PathBBoxSpec PathBBoxProofs ShapeModel ShapeSpec.
Local Open Scope Q_scope.

Ltac stk := repeat match goal with
  | |- strokes_eq _ _ => unfold strokes_eq
  | |- Forall2 _ [] [] => constructor
  | |- Forall2 _ (_ :: _) (_ :: _) => constructor
  | |- stroke_eq _ _ => cbn [stroke_eq quarter_arc]
  | |- _ /\ _ => split
  | |- peq _ _ => unfold peq, east, south, west, north; cbn [ptx pty]
  end; try ring; try reflexivity.

Lemma ellipse_draws o cx cy rx ry : 0 < rx -> 0 < ry ->
  drawing o (ellipse_path cx cy rx ry) = ellipse_outline cx cy rx ry.
Proof.
  intros X Y. unfold ellipse_path.
  destruct (Qleb_spec rx 0); [lra|]. destruct (Qleb_spec ry 0); [lra|]. reflexivity.
Qed.
Lemma ellipse_empty cx cy rx ry : ellipse_path cx cy rx ry = [] <-> rx <= 0 \/ ry <= 0.
Proof.
  unfold ellipse_path. destruct (Qleb_spec rx 0); [tauto|]. destruct (Qleb_spec ry 0); [tauto|].
  cbn [orb]. split; [discriminate|tauto].
Qed.
Lemma circle_is_ellipse cx cy r : circle_path cx cy r = ellipse_path cx cy r r.
Proof. unfold circle_path, ellipse_path. destruct (Qleb_spec r 0); reflexivity. Qed.

Lemma polyline_draws o p l : drawing o (polyline_path (p :: l)) = Move p :: legs p l.
Proof.
  unfold drawing. cbn [polyline_path strokes draw place pen0 after_move app]. f_equal.
  assert (G : forall l a s b, cur s = a -> after_move s = b -> strokes o s (map (SL false) l) = legs a l).
  { clear. induction l as [|q l IH]; intros a s b E F; [reflexivity|].
    cbn [map strokes draw place legs app]. rewrite E. f_equal. eapply IH; reflexivity. }
  eapply G; reflexivity.
Qed.
Lemma legs_strokes o l : forall s, strokes o s (map (SL false) l) = legs (cur s) l /\
  cur (pen_after o s (map (SL false) l)) = last l (cur s) /\ sub (pen_after o s (map (SL false) l)) = sub s.
Proof.
  induction l as [|q l IH]; intros s; [repeat split; reflexivity|].
  cbn [map strokes draw place legs app pen_after fst]. destruct (IH (goto s q NoCtrl)) as (E1 & E2 & E3).
  rewrite E1, E2, E3. cbn [goto cur sub]. split; [reflexivity|]. split; [|reflexivity].
  destruct l as [|r l]; [reflexivity|]. change (last (q :: r :: l) (cur s)) with (last (r :: l) (cur s)).
  clear. revert r. induction l as [|t l IH]; intros r; [reflexivity|]. exact (IH t).
Qed.
Lemma polygon_draws o p q l : drawing o (polygon_path (p :: q :: l)) =
  Move p :: legs p (q :: l) ++ [Close (last (q :: l) p) p].
Proof.
  unfold drawing. cbn [polygon_path]. set (l' := q :: l).
  cbn [strokes draw place pen0 after_move app]. f_equal. rewrite strokes_app.
  destruct (legs_strokes o l' (Pen p p NoCtrl true 0)) as (E1 & E2 & E3).
  cbn [brg pen0] in *. rewrite E1. f_equal. cbn [strokes draw]. rewrite E2, E3. reflexivity.
Qed.

Lemma rect_draws o x y w h rx ry : 0 < w -> 0 < h -> rx <= 0 \/ ry <= 0 ->
  strokes_eq (drawing o (rect_path x y w h rx ry)) (rect_outline x y w h).
Proof.
  intros W H R. unfold rect_path. destruct (Qleb_spec w 0); [lra|]. destruct (Qleb_spec h 0); [lra|].
  cbn [orb]. assert (S : (rx <=?q 0) || (ry <=?q 0) = true).
  { destruct (Qleb_spec rx 0); [reflexivity|]. destruct (Qleb_spec ry 0); [reflexivity|]. tauto. }
  rewrite S. cbn [app]. unfold drawing. cbn [strokes draw place pen0 after_move app goto cur sub ptx pty].
  unfold rect_outline. stk.
Qed.
Lemma round_draws o x y w h rx ry : 0 < w -> 0 < h -> 0 < rx -> 0 < ry ->
  strokes_eq (drawing o (rect_path x y w h rx ry)) (round_outline x y w h rx ry).
Proof.
  intros W H X Y. unfold rect_path. destruct (Qleb_spec w 0); [lra|]. destruct (Qleb_spec h 0); [lra|].
  destruct (Qleb_spec rx 0); [lra|]. destruct (Qleb_spec ry 0); [lra|].
  cbn [orb app]. unfold drawing. cbn [strokes draw place pen0 after_move app goto cur sub ptx pty].
  unfold round_outline. stk.
Qed.
Lemma rect_empty x y w h rx ry : rect_path x y w h rx ry = [] <-> w <= 0 \/ h <= 0.
Proof.
  unfold rect_path. destruct (Qleb_spec w 0); [tauto|]. destruct (Qleb_spec h 0); [tauto|].
  cbn [orb app]. split; [discriminate|tauto].
Qed.
Lemma rect_radii_half w h rx ry : fst (rect_radii w h rx ry) <= w / 2 \/ (rx = None /\ ry = None).
Proof.
  unfold rect_radii. destruct rx as [[]|], ry as [[]|]; cbn [fst]; auto; left;
  match goal with |- context [?a <?q ?b] => destruct (Qltb_spec a b) end; cbn; try apply Qle_refl; lra.
Qed.

(** *** the centre of a quarter arc *)
Lemma isclose_0 r : isclose r 0 = true <-> Qabs r <= tol.
Proof.
  unfold isclose. destruct (Qleb_spec (Qabs (r - 0)) (Qmax (tol * Qmax (Qabs r) (Qabs 0)) tol)) as [H|H].
  - split; [intros _|reflexivity].
    assert (E : Qabs (r - 0) == Qabs r) by (apply Qabs_wd; ring). rewrite E in H.
    assert (Z : Qmax (Qabs r) (Qabs 0) == Qabs r) by (apply Q.max_l; apply Qabs_nonneg).
    destruct (Q.max_spec (tol * Qmax (Qabs r) (Qabs 0)) tol) as [[_ M]|[_ M]]; rewrite M in H; [exact H|].
    rewrite Z in H. pose proof (Qabs_nonneg r). unfold tol in *.
    destruct (Qlt_le_dec 0 (Qabs r)); lra.
  - split; [discriminate|]. intros K. exfalso. apply H.
    assert (E : Qabs (r - 0) == Qabs r) by (apply Qabs_wd; ring). rewrite E.
    eapply Qle_trans; [exact K|]. apply Q.le_max_r.
Qed.

Lemma quarter_centre o rx ry u v cp ep c : oracle_basic o -> 0 < rx -> 0 < ry -> u * u + v * v == 1 ->
  ptx cp == ptx c + rx * u -> pty cp == pty c + ry * v ->
  ptx ep == ptx c - rx * v -> pty ep == pty c + ry * u ->
  arc_factor o rx ry (arc_half o 0 cp ep) = 1 /\ peq (arc_center o rx ry 0 false true cp ep) c.
Proof.
  intros O X Y U C1 C2 E1 E2. destruct O as (SQ & CO). destruct (CO 0 (Qeq_refl 0)) as [CZ SN0].
  assert (H1 : ptx (arc_half o 0 cp ep) == rx * (u + v) / 2).
  { unfold arc_half. cbn [ptx]. rewrite CZ, SN0, C1, C2, E1, E2. field. }
  assert (H2 : pty (arc_half o 0 cp ep) == ry * (v - u) / 2).
  { unfold arc_half. cbn [pty]. rewrite CZ, SN0, C1, C2, E1, E2. field. }
  set (h := arc_half o 0 cp ep) in *.
  assert (Nx : ~ rx == 0) by lra. assert (Ny : ~ ry == 0) by lra.
  split.
  - unfold arc_factor.
    assert (A : ptx h * ptx h / (rx * rx) + pty h * pty h / (ry * ry) == 1 # 2).
    { rewrite H1, H2. setoid_replace (rx * (u + v) / 2 * (rx * (u + v) / 2) / (rx * rx) +
        ry * (v - u) / 2 * (ry * (v - u) / 2) / (ry * ry)) with ((u * u + v * v) / 2) by (field; auto).
      rewrite U. reflexivity. }
    match goal with |- context [?a <?q ?b] => destruct (Qltb_spec a b) as [L|L] end; [|reflexivity].
    rewrite A in L. lra.
  - assert (F : arc_fp rx ry h == 1).
    { unfold arc_fp. rewrite H1, H2.
      assert (D : rx * rx * (ry * (v - u) / 2 * (ry * (v - u) / 2)) + ry * ry * (rx * (u + v) / 2 * (rx * (u + v) / 2))
                  == rx * rx * (ry * ry) * ((u * u + v * v) / 2)) by field.
      assert (N : rx * rx * (ry * ry) - rx * rx * (ry * (v - u) / 2 * (ry * (v - u) / 2))
                  - ry * ry * (rx * (u + v) / 2 * (rx * (u + v) / 2))
                  == rx * rx * (ry * ry) * (1 - (u * u + v * v) / 2)) by field.
      rewrite D, N, U. field. split; assumption. }
    assert (R : osqrt o (pymax (arc_fp rx ry h) 0) == 1).
    { apply SQ; [lra|]. unfold pymax. destruct (Qltb_spec (arc_fp rx ry h) 0); [lra|]. rewrite F. reflexivity. }
    unfold arc_center. fold h. cbn [Bool.eqb]. split; cbn [ptx pty]; rewrite R, CZ, SN0, H1, H2.
    + rewrite C1, E1. field. split; assumption.
    + rewrite C2, E2. field. split; assumption.
Qed.

(** for the four arcs of an ellipse *)
Lemma quarter_arc_centre o at2 rx ry u v cp ep c : oracle_basic o -> tol < rx -> tol < ry ->
  u * u + v * v == 1 ->
  ptx cp == ptx c + rx * u -> pty cp == pty c + ry * v ->
  ptx ep == ptx c - rx * v -> pty ep == pty c + ry * u ->
  isclose (ptx cp) (ptx ep) && isclose (pty cp) (pty ep) = false ->
  exists c' rx' ry' d e, get_center_of_arc o at2 rx ry 0 0 1 cp ep = Centre c' rx' ry' d e /\
    peq c' c /\ rx' == rx /\ ry' == ry.
Proof.
  intros O X Y U C1 C2 E1 E2 N. unfold get_center_of_arc.
  assert (T : 0 < tol) by reflexivity.
  assert (AX : Qabs rx == rx) by (apply Qabs_pos; lra). assert (AY : Qabs ry == ry) by (apply Qabs_pos; lra).
  assert (RX : arc_radius rx = Qabs rx).
  { unfold arc_radius. destruct (isclose (Qabs rx) 0) eqn:E; [|reflexivity]. apply isclose_0 in E.
    rewrite Qabs_pos in E by apply Qabs_nonneg. lra. }
  assert (RY : arc_radius ry = Qabs ry).
  { unfold arc_radius. destruct (isclose (Qabs ry) 0) eqn:E; [|reflexivity]. apply isclose_0 in E.
    rewrite Qabs_pos in E by apply Qabs_nonneg. lra. }
  rewrite RX, RY. destruct (Qeqb_spec (Qabs rx) 0) as [Z|Z]; [lra|]. destruct (Qeqb_spec (Qabs ry) 0) as [Z'|Z']; [lra|].
  cbn [orb]. rewrite N. cbn zeta.
  destruct (quarter_centre o (Qabs rx) (Qabs ry) u v cp ep c O) as [K C]; try lra; try exact U.
  - rewrite C1, AX. reflexivity.
  - rewrite C2, AY. reflexivity.
  - rewrite E1, AX. reflexivity.
  - rewrite E2, AY. reflexivity.
  - rewrite K.
    assert (G : peq (arc_center o (Qabs rx * 1) (Qabs ry * 1) 0 false true cp ep) c).
    { destruct (quarter_centre o (Qabs rx * 1) (Qabs ry * 1) u v cp ep c O) as [_ G]; try lra; try exact U; try exact G.
      - rewrite C1, AX. ring.
      - rewrite C2, AY. ring.
      - rewrite E1, AX. ring.
      - rewrite E2, AY. ring. }
    do 5 eexists. split; [reflexivity|]. split; [exact G|]. split; lra.
Qed.

Lemma ellipse_centred o at2 cx cy rx ry : oracle_basic o -> tol < rx -> tol < ry ->
  Forall (centred o at2 (P cx cy)) (ellipse_outline cx cy rx ry).
Proof.
  intros O X Y. unfold ellipse_outline. cbn zeta.
  repeat (apply Forall_cons || apply Forall_nil); cbn [centred quarter_arc]; auto; intros N.
  - apply (quarter_arc_centre o at2 rx ry 1 0); auto; unfold east, south; cbn [ptx pty]; ring.
  - apply (quarter_arc_centre o at2 rx ry 0 1); auto; unfold west, south; cbn [ptx pty]; ring.
  - apply (quarter_arc_centre o at2 rx ry (-1) 0); auto; unfold west, north; cbn [ptx pty]; ring.
  - apply (quarter_arc_centre o at2 rx ry 0 (-1)); auto; unfold east, north; cbn [ptx pty]; ring.
Qed.
Lemma round_centred o at2 x y w h rx ry : oracle_basic o -> 0 < w -> 0 < h -> tol < rx -> tol < ry ->
  Forall2 (centred o at2) (corner_centres x y w h rx ry) (drawing o (rect_path x y w h rx ry)).
Proof.
  intros O W H X Y. assert (T : 0 < tol) by reflexivity. unfold rect_path. destruct (Qleb_spec w 0); [lra|]. destruct (Qleb_spec h 0); [lra|].
  destruct (Qleb_spec rx 0); [lra|]. destruct (Qleb_spec ry 0); [lra|].
  cbn [orb app]. unfold drawing. cbn [strokes draw place pen0 after_move app goto cur sub ptx pty].
  unfold corner_centres. repeat (apply Forall2_cons || apply Forall2_nil); cbn [centred]; auto; intros N.
  - apply (quarter_arc_centre o at2 rx ry 0 (-1)); auto; cbn [ptx pty]; ring.
  - apply (quarter_arc_centre o at2 rx ry 1 0); auto; cbn [ptx pty]; ring.
  - apply (quarter_arc_centre o at2 rx ry 0 1); auto; cbn [ptx pty]; ring.
  - apply (quarter_arc_centre o at2 rx ry (-1) 0); auto; cbn [ptx pty]; ring.
Qed.

(** *** the box of a rect *)
Lemma line_corner a b d : (d = Line a b \/ d = Close a b) ->
  corner d (P (Qmin (ptx a) (ptx b)) (Qmin (pty a) (pty b))).
Proof.
  intros D. pose proof (line_tight a b d D) as T.
  destruct (line_box_form a b) as (x & y & w & h & E & X1 & X2 & Y1 & Y2). rewrite E in T.
  destruct (tight_corner _ _ _ _ _ T) as [(C1 & (p & Hp & Ep) & (q & Hq & Eq)) _]. cbn [ptx pty] in *.
  split; [|split; [exists p|exists q]; cbn [ptx pty]; split; auto; lra].
  intros r Hr. cbn [ptx pty]. destruct (C1 r Hr). lra.
Qed.
Lemma line_inside a b d r q : (d = Line a b \/ d = Close a b) -> inside r a -> inside r b -> anchor d q -> inside r q.
Proof.
  intros D A B. pose proof (line_tight a b d D) as T.
  destruct (line_box_form a b) as (x & y & w & h & E & X1 & X2 & Y1 & Y2). rewrite E in T.
  pose proof T as (x' & y' & w' & h' & E' & I & _). injection E' as <- <- <- <-.
  destruct (tight_corner _ _ _ _ _ T) as [_ C]. unfold inside, region in *.
  destruct (RectModel.rx r), (RectModel.ry r); try tauto.
  assert (M1 := Q.min_spec (ptx a) (ptx b)). assert (M2 := Q.max_spec (ptx a) (ptx b)).
  assert (M3 := Q.min_spec (pty a) (pty b)). assert (M4 := Q.max_spec (pty a) (pty b)).
  intros [Hc|[_ Hq]].
  - destruct (C q Hc) as [C1 C2]. cbn [ptx pty] in *. destruct M1 as [[]|[]], M3 as [[]|[]]; lra.
  - destruct (I q Hq). destruct M1 as [[]|[]], M3 as [[]|[]], M2 as [[]|[]], M4 as [[]|[]]; lra.
Qed.

Lemma rect_normalized o at2 x y w h rx ry : 0 < w -> 0 < h -> rx <= 0 \/ ry <= 0 ->
  normalize o at2 (rect_path x y w h rx ry) =
  Ok [SM false (P (x + 0) y); SL false (P (x + w - 0) y); SL false (P (x + w - 0) (y + h - 0));
      SL false (P (x + 0) (y + h - 0)); SL false (P (x + 0) (y + 0)); SZ false].
Proof.
  intros W H R. unfold rect_path. destruct (Qleb_spec w 0); [lra|]. destruct (Qleb_spec h 0); [lra|].
  cbn [orb]. assert (S : (rx <=?q 0) || (ry <=?q 0) = true).
  { destruct (Qleb_spec rx 0); [reflexivity|]. destruct (Qleb_spec ry 0); [reflexivity|]. tauto. }
  rewrite S. reflexivity.
Qed.
Lemma rect_box o at2 x y w h rx ry : oracle_basic o -> 0 < w -> 0 < h -> rx <= 0 \/ ry <= 0 ->
  exists out b, normalize o at2 (rect_path x y w h rx ry) = Ok out /\ path_bbox o at2 out = Ok b /\
    same_region b (rect4 x y w h).
Proof.
  intros O W H R. rewrite (rect_normalized o at2 x y w h rx ry W H R).
  set (out := [_; _; _; _; _; _]).
  assert (B : forallb base out = true) by reflexivity.
  assert (X : Forall exact_turns (drawing o out)) by (repeat constructor).
  destruct (path_bbox_least o at2 out O B eq_refl X) as (b & E & P1 & P2 & P3).
  exists out, b. split; [reflexivity|]. split; [exact E|].
  intros px py. split.
  - apply P3; [right; cbn; repeat split; try discriminate; lra|].
    intros q [(p & l' & EQ & PQ)|(d & Hd & D & A)].
    + injection EQ as <- _. destruct PQ as [Q1 Q2]. cbn [ptx pty] in *. unfold inside, region. cbn [RectModel.rx RectModel.ry RectModel.rw RectModel.rh rect4]. lra.
    + destruct Hd as [<-|[<-|[<-|[<-|[<-|[<-|[]]]]]]]; [destruct D| | | | |];
      (eapply line_inside; [..|exact A]; [solve [eauto]| |]); unfold inside, region; cbn [RectModel.rx RectModel.ry RectModel.rw RectModel.rh rect4 ptx pty place draw fst snd cur sub goto pen0]; lra.
  - assert (C1 : inside b (P (x + 0) y)) by (apply P2; left; eexists _, _; split; [reflexivity|apply peq_refl]).
    assert (G : forall d p1 p2, d = Line p1 p2 \/ d = Close p1 p2 -> In d (drawing o out) ->
       inside b (P (Qmin (ptx p1) (ptx p2)) (Qmin (pty p1) (pty p2)))).
    { intros d p1 p2 D I. apply P2. right. exists d. split; [exact I|].
      split; [destruct D as [-> | ->]; exact Logic.I|]. left. now apply line_corner. }
    assert (C2 := G (Line (P (x + w - 0) y) (P (x + w - 0) (y + h - 0))) _ _ (or_introl eq_refl)
                    (or_intror (or_intror (or_introl eq_refl)))).
    assert (C3 := G (Line (P (x + w - 0) (y + h - 0)) (P (x + 0) (y + h - 0))) _ _ (or_introl eq_refl)
                    (or_intror (or_intror (or_intror (or_introl eq_refl))))).
    apply (proper_hull b x y w h _ _ _ _ C1 C2 C1 C3); cbn [ptx pty].
    + ring.
    + rewrite Q.min_l by lra. ring.
    + ring.
    + rewrite Q.min_l by lra. ring.
Qed.

(** *** the points attribute *)
Lemma pairs_numtext l : l <> [] ->
  numtext (flat_pairs l) (join [32%N] (map (fun xy => fmt6 (fst xy) ++ [44%N] ++ fmt6 (snd xy)) l)).
Proof.
  induction l as [|[x y] l IH]; [congruence|]. intros _.
  assert (G : numtext [x; y] (fmt6 x ++ [44%N] ++ fmt6 y)) by (apply nt_cons; [reflexivity|constructor]).
  destruct l as [|q l]; [exact G|]. cbn [map join]. rewrite <- app_assoc. cbn [fst snd app].
  change (flat_pairs ((x, y) :: q :: l)) with ([x; y] ++ flat_pairs (q :: l)).
  match goal with |- numtext _ (?a ++ 44%N :: (?b ++ ?c)) => 
    replace (a ++ 44%N :: (b ++ c)) with ((a ++ [44%N] ++ b) ++ c) by (cbn [app]; now rewrite <- app_assoc) end.
  apply numtext_app; [exact G|]. apply IH. discriminate.
Qed.

Lemma even_flat {A} (l : list (A * A)) : Nat.even (length (flat_pairs l)) = true.
Proof. induction l as [|[] l IH]; [reflexivity|exact IH]. Qed.
Lemma nearest_proper p x r r' : r == r' -> nearest p x r -> nearest p x r'.
Proof. intros E [[k K] A]. split; [exists k; rewrite <- E; exact K|]. now rewrite <- E. Qed.
Lemma to_pairs_forall2 (l : list (Q * Q)) : forall m, Forall2 Qeq m (map R6 (flat_pairs l)) ->
  Forall2 near6_pair l (to_pairs m).
Proof.
  induction l as [|[x y] l IH]; intros m H; cbn [flat_pairs flat_map app map] in H; inversion H; subst; cbn [to_pairs]; [constructor|].
  match goal with H : Forall2 _ _ (_ :: _) |- _ => inversion H; subst end. cbn [to_pairs]. constructor.
  - split; cbn [fst snd]; unfold near6; pose proof (rounded_nearest 6 x) as N1; pose proof (rounded_nearest 6 y) as N2;
    (eapply nearest_proper; [symmetry; eassumption|assumption]).
  - apply IH. assumption.
Qed.

Lemma points_roundtrip l : Forall2 near6_pair l (get_points (set_points l)).
Proof.
  unfold set_points, get_points. rewrite format_pairs_spec.
  destruct l as [|q l]; [vm_compute; constructor|]. set (l' := q :: l).
  assert (T := pairs_numtext l' ltac:(discriminate)).
  unfold fmt6 in T. rewrite (numtext_strip _ _ T). pose proof (numtext_scan _ _ T) as S.
  assert (L : length (scan_numbers (join [32%N] (map (fun xy => format_number precision (fst xy) ++ [44%N] ++ format_number precision (snd xy)) l'))) = length (flat_pairs l')).
  { apply Forall2_len in S. rewrite map_length in S. exact S. }
  rewrite L, even_flat. now apply to_pairs_forall2.
Qed.
