(** Proofs about lines against the direction of their element. *)
From Coq Require Import Lia Lqa Qabs.
From Verif Require Import PyBase MatrixModel MatrixSpec MatrixProofs MatrixProofs2 RectModel RectSpec RectProofs.
From Verif Require Import PathModel PathSpec PathTransProofs UseSpec LayoutModel LayoutSpec LayoutProofs LayoutProofs2.
Local Open Scope Q_scope.

(** glyphs of a free line, one after the other *)
Fixpoint stand (s : setup) (rtl : bool) (x y : Q) (gs : list glyph) (ps : list placed) : Prop :=
  match gs, ps with
  | [], [] => True
  | g :: gs', p :: ps' =>
      pl_id p = g_id g /\ pl_rot p = 0 /\ pl_y p == y /\ pl_x p == (if rtl then x - g_xadv g else x) /\
      pl_box p = rect4 (pl_x p) (pl_y p - s_height s - s_descender s) (g_xadv g) (s_height s) /\
      stand s rtl (if rtl then x - g_xadv g else x + g_xadv g) y gs' ps'
  | _, _ => False
  end.
Lemma stand_proper s rtl gs : forall x y x' y' ps, x == x' -> y == y' -> stand s rtl x y gs ps -> stand s rtl x' y' gs ps.
Proof.
  induction gs as [|g gs IH]; intros x y x' y' [|p ps] Ex Ey; cbn [stand]; try tauto.
  intros (A & B & C & D & E & F). split; [exact A|]. split; [exact B|]. split; [lra|]. split; [destruct rtl; lra|].
  split; [exact E|]. eapply IH; [| |exact F]; [destruct rtl; lra|exact Ey].
Qed.
Lemma puts_stand o s rtl gs : s_horizontal s = true -> Forall no_offset gs -> forall pn pn' ps, free pn ->
  puts o s rtl pn gs = (pn', ps) -> stand s rtl (p_x pn) (p_y pn) gs ps /\ free pn' /\ p_y pn' == p_y pn /\
    p_x pn' == (if rtl then p_x pn - width_of gs else p_x pn + width_of gs).
Proof.
  intros Hh. induction gs as [|g gs IH]; intros F pn pn' ps [L R]; cbn [puts].
  - intros [= <- <-]. cbn [stand width_of]. split; [exact I|]. split; [split; assumption|]. split; [reflexivity|]. destruct rtl; ring.
  - inversion F as [|? ? [Ox Oy] F']; subst. destruct (put o s rtl pn g) as [pn1 p] eqn:E.
    destruct (puts o s rtl pn1 gs) as [pn2 ps'] eqn:E2. intros [= <- <-].
    unfold put in E. rewrite L, R, Hh in E. cbn [xs ys dxs dys rots take take_rotate andb] in E.
    replace (0 =?q 0) with true in E by reflexivity.
    injection E as <- <-. specialize (fun Hf => IH F' _ _ _ Hf E2) as IH'. specialize (IH' ltac:(split; reflexivity)). clear IH. rename IH' into IH. cbn [p_x p_y] in IH.
    destruct IH as (I1 & I2 & I3 & I4). cbn [stand pl_id pl_rot pl_x pl_y pl_box width_of].
    split; [|split; [exact I2|]].
    + split; [reflexivity|]. split; [reflexivity|]. split; [rewrite Oy; ring|]. split; [destruct rtl; rewrite Ox; ring|].
      split; [reflexivity|]. eapply stand_proper; [| |exact I1]; [destruct rtl; rewrite Ox; ring|rewrite Oy; ring].
    + split; [rewrite I3, Oy; ring|]. rewrite I4. destruct rtl; rewrite Ox; ring.
Qed.

(** the box around them *)
Lemma stand_length s rtl gs : forall x y ps, stand s rtl x y gs ps -> length ps = length gs.
Proof. induction gs as [|g gs IH]; intros x y [|p ps]; cbn [stand length]; try tauto; try lia. intros (_ & _ & _ & _ & _ & F). f_equal. eauto. Qed.
Lemma width_nonneg gs : Forall (fun g => 0 < g_xadv g) gs -> 0 <= width_of gs.
Proof. intros F. induction F; cbn [width_of]; lra. Qed.
Lemma stand_inside s rtl gs : 0 < s_height s -> Forall (fun g => 0 < g_xadv g) gs -> forall x y ps, stand s rtl x y gs ps ->
  forall p, In p ps -> isvalid (pl_box p) = true /\
    included (pl_box p) (rect4 (if rtl then x - width_of gs else x) (y - s_height s - s_descender s) (width_of gs) (s_height s)).
Proof.
  intros Hh F. induction F as [|g gs Hg F IH]; intros x y [|p0 ps] H p i; try (destruct i; fail); try (destruct H; fail).
  cbn [stand] in H. destruct H as (_ & _ & Y & X & B & H). assert (W := width_nonneg gs F). destruct i as [<-|i].
  - rewrite B. split; [now apply isvalid_rect4|]. intros px py K. rewrite region_rect4 in *. cbn [width_of]. destruct rtl; lra.
  - destruct (IH _ _ _ H p i) as [V K]. split; [exact V|]. intros px py K2. apply K in K2. rewrite region_rect4 in *.
    cbn [width_of]. destruct rtl; lra.
Qed.
Lemma stand_corner s rtl gs : 0 < s_height s -> Forall (fun g => 0 < g_xadv g) gs -> gs <> [] -> forall x y ps, stand s rtl x y gs ps ->
  exists p, In p ps /\ region (pl_box p) (if rtl then x - width_of gs else x + width_of gs) (y - s_height s - s_descender s).
Proof.
  intros Hh F. induction F as [|g gs Hg F IH]; intros N x y [|p0 ps] H; try congruence; try (destruct H; fail).
  cbn [stand] in H. destruct H as (_ & _ & Y & X & B & H). destruct gs as [|g1 gs].
  - exists p0. split; [now left|]. rewrite B, region_rect4. cbn [width_of]. destruct rtl; lra.
  - destruct (IH ltac:(discriminate) _ _ _ H) as (p & i & K). exists p. split; [now right|].
    eapply region_compat; [| |exact K]; [|reflexivity]. cbn [width_of]. destruct rtl; ring.
Qed.
Lemma stand_first s rtl gs : 0 < s_height s -> Forall (fun g => 0 < g_xadv g) gs -> gs <> [] -> forall x y ps, stand s rtl x y gs ps ->
  exists p, In p ps /\ region (pl_box p) x (y - s_descender s).
Proof.
  intros Hh F N x y ps H. destruct gs as [|g gs]; [congruence|]. inversion F as [|? ? Hg F']; subst.
  destruct ps as [|p ps]; [destruct H|]. cbn [stand] in H. destruct H as (_ & _ & Y & X & B & _).
  exists p. split; [now left|]. rewrite B, region_rect4. destruct rtl; lra.
Qed.
Lemma same_rect b x y w h : isvalid b = true -> 0 < w -> 0 < h -> same_region b (rect4 x y w h) ->
  exists x' y', rx b = Some x' /\ ry b = Some y' /\ x' == x /\ y' == y /\ rw b == w /\ rh b == h.
Proof.
  intros V W Hh S0. valid V. assert (A := proj1 (S0 x0 y0)). assert (B := proj1 (S0 (x0 + rw b) (y0 + rh b))).
  assert (C := proj2 (S0 x y)). assert (D := proj2 (S0 (x + w) (y + h))).
  rewrite region_rect4 in A, B, C, D. unfold region in A, B, C, D. rewrite Ex, Ey in A, B, C, D.
  specialize (A ltac:(lra)). specialize (B ltac:(lra)). specialize (C ltac:(lra)). specialize (D ltac:(lra)).
  exists x0, y0. repeat split; try assumption; lra.
Qed.
Lemma stand_box s rtl gs x y ps : 0 < s_height s -> Forall (fun g => 0 < g_xadv g) gs -> gs <> [] -> stand s rtl x y gs ps ->
  exists x' y', let b := unite_all (map pl_box ps) in rx b = Some x' /\ ry b = Some y' /\
    x' == (if rtl then x - width_of gs else x) /\ y' == y - s_height s - s_descender s /\ rw b == width_of gs /\ rh b == s_height s.
Proof.
  intros Hh F N H.
  assert (W : 0 < width_of gs).
  { destruct gs as [|g gs]; [congruence|]. inversion F as [|? ? Hg F']; subst. assert (K := width_nonneg gs F'). cbn [width_of]. lra. }
  assert (Fs : Forall solid (map pl_box ps)).
  { apply Forall_forall. intros b i. apply in_map_iff in i. destruct i as (p & <- & i). right.
    apply (stand_inside s rtl gs Hh F x y ps H p i). }
  destruct (unite_all_bounds _ Fs) as (P1 & I1 & L1).
  destruct (stand_corner s rtl gs Hh F N x y ps H) as (p1 & i1 & K1).
  destruct (stand_first s rtl gs Hh F N x y ps H) as (p2 & i2 & K2).
  apply (I1 _ (in_map pl_box _ _ i1)) in K1. apply (I1 _ (in_map pl_box _ _ i2)) in K2.
  assert (V : isvalid (unite_all (map pl_box ps)) = true).
  { apply (valid_above (pl_box p1)); [apply (stand_inside s rtl gs Hh F x y ps H p1 i1)|apply I1, in_map, i1]. }
  assert (L2 : included (unite_all (map pl_box ps)) (rect4 (if rtl then x - width_of gs else x) (y - s_height s - s_descender s) (width_of gs) (s_height s))).
  { apply L1.
    - right. cbn. repeat split; try congruence; lra.
    - intros b i. apply in_map_iff in i. destruct i as (p & <- & i). apply (stand_inside s rtl gs Hh F x y ps H p i). }
  set (u := unite_all (map pl_box ps)) in *. clearbody u. cbn zeta.
  apply same_rect; [exact V|exact W|exact Hh|]. intros px py. split; [apply L2|]. rewrite region_rect4. intros [A B].
  unfold region in K1, K2 |- *. destruct (rx u); [|contradiction]. destruct (ry u); [|contradiction].
  split; destruct rtl; lra.
Qed.

(** ** Moving path data *)
Lemma outlines_moved o m l : is2d m = true -> Forall outlines l -> forall st,
  transform_from o m st l = Ok (map (seg_map (img (arr m))) l).
Proof.
  intros H2 F. induction F as [|g l G F IH]; intros st; cbn [transform_from map]; [reflexivity|].
  destruct g; try (destruct G; fail); destruct rel; try (destruct G; fail);
    unfold transform_step; cbn [kind seg_transform isrelative]; rewrite ?tpoint_img by exact H2; cbn [bind];
    rewrite IH; reflexivity.
Qed.
Lemma image_outlines f e g h : image f e g h -> outlines h.
Proof. intros H. destruct H; exact I. Qed.
Lemma img_translate k p : peq (img (arr (MatrixModel.translate_self (DM mat_id true) k 0 0)) p) (P (ptx p + k) (pty p)).
Proof.
  unfold img. set (m := arr _).
  assert (H : forall q, veq (act m q) (g_translate k 0 0 q)).
  { intros q. unfold m. rewrite translate_meaning. cbn [arr]. apply act_id. }
  destruct (H (V4 (ptx p) (pty p) 0 1)) as (A & B & _). unfold g_translate in A, B. cbn [v1 v2 v3 v4] in A, B.
  split; cbn [ptx pty]; [rewrite A; ring|rewrite B; ring].
Qed.
Lemma translate_2d k : is2d (MatrixModel.translate_self (DM mat_id true) k 0 0) = true.
Proof. unfold MatrixModel.translate_self. destruct (_ && _); reflexivity. Qed.
(** the images of the glyphs of a line, moved by k *)
Lemma image_moved k x x' y y' c s c' s' e e' g h : image (set_down x y c s) e g h -> x' == x + k -> y' == y -> c' == c -> s' == s -> e <= e' ->
  image (set_down x' y' c' s') e' g (seg_map (img (arr (MatrixModel.translate_self (DM mat_id true) k 0 0))) h).
Proof.
  intros H X Y C S0 E.
  assert (Z : forall q q', close_to e q' (set_down x y c s q) ->
    close_to e' (img (arr (MatrixModel.translate_self (DM mat_id true) k 0 0)) q') (set_down x' y' c' s' q)).
  { intros q q' [[H1 H2] [H3 H4]]. destruct (img_translate k q') as [I1 I2]. cbn [ptx pty] in I1, I2.
    unfold close_to, set_down in *. cbn [ptx pty] in *. rewrite I1, I2, X, Y, C, S0. repeat split; lra. }
  destruct H; cbn [seg_map]; constructor; apply Z; assumption.
Qed.
Lemma images_at x x' y c s e l l' : x' == x -> Forall2 (image (set_down x y c s) e) l l' ->
  Forall2 (image (set_down x' y c s) e) l l'.
Proof.
  intros X H. induction H as [|g h l l' Hu H IH]; constructor; [|exact IH].
  assert (Z : forall q q', close_to e q' (set_down x y c s q) -> close_to e q' (set_down x' y c s q)).
  { intros q q' [[H1 H2] [H3 H4]]. unfold close_to, set_down in *. cbn [ptx pty] in *. rewrite X. repeat split; lra. }
  destruct Hu; constructor; apply Z; assumption.
Qed.
Lemma stand_drawn o s rtl gs k : oracle_basic o -> (forall g, In g gs -> Forall outlines (s_outline s (g_id g))) ->
  forall x y ps, stand s rtl x y gs ps ->
  Forall outlines (flat_map (glyph_path o s) ps) /\
  exists ls, map (seg_map (img (arr (MatrixModel.translate_self (DM mat_id true) k 0 0)))) (flat_map (glyph_path o s) ps) = concat ls /\
    length ls = length gs /\
    forall i g l, nth_error gs i = Some g -> nth_error ls i = Some l ->
      Forall2 (image (set_down ((if rtl then x - width_of (firstn (S i) gs) else x + width_of (firstn i gs)) + k) y 1 0) (1 # 64)) (s_outline s (g_id g)) l.
Proof.
  intros O. induction gs as [|g gs IH]; intros Ho x y [|p ps] H; try (destruct H; fail).
  - split; [constructor|]. exists []. split; [reflexivity|]. split; [reflexivity|]. intros [|i] g l; discriminate.
  - cbn [stand] in H. destruct H as (Id & R & Y & X & _ & H).
    destruct (IH (fun g' i => Ho g' (or_intror i)) _ _ _ H) as (F & ls & E1 & E2 & E3).
    destruct (proj2 O 0 ltac:(reflexivity)) as [C0 S0].
    assert (U : unit_angle o (pl_rot p)) by (unfold unit_angle; rewrite R, C0, S0; ring).
    assert (K := path_shows o (mkI [] s rtl g) p O U). cbn [i_setup] in K. rewrite Id in K.
    specialize (K (Ho g (or_introl eq_refl))). unfold shows_glyph in K. cbn zeta in K. cbn [i_setup] in K. rewrite Id, R in K.
    assert (Fp : Forall outlines (glyph_path o s p)).
    { clear - K. revert K. generalize (glyph_path o s p). generalize (s_outline s (g_id g)). intros a b K.
      induction K; constructor; [eapply image_outlines; eassumption|assumption]. }
    cbn [flat_map]. split; [apply Forall_app; auto|].
    exists (map (seg_map (img (arr (MatrixModel.translate_self (DM mat_id true) k 0 0)))) (glyph_path o s p) :: ls).
    cbn [concat length]. rewrite map_app, E1, E2. split; [reflexivity|]. split; [reflexivity|].
    intros [|i] g' l; cbn [nth_error].
    + intros [= <-] [= <-]. cbn [firstn width_of].
      clear - K C0 S0 X Y. revert K. generalize (glyph_path o s p). generalize (s_outline s (g_id g)). intros a b K.
      induction K as [|u v a b Hu K IH]; cbn [map]; constructor; [|exact IH].
      eapply image_moved; [exact Hu| | | | |].
      * rewrite X. destruct rtl; ring.
      * now rewrite Y.
      * now rewrite C0.
      * now rewrite S0.
      * rewrite C0, S0. apply Qle_refl.
    + intros Ng Nl. specialize (E3 i g' l Ng Nl). clear - E3.
      eapply images_at; [|exact E3]. cbn [firstn width_of]. destruct rtl; [destruct gs as [|g1 gs]|]; cbn [width_of]; ring.
Qed.
Lemma width_split i gs : width_of gs == width_of (firstn i gs) + width_of (skipn i gs).
Proof. revert gs. induction i as [|i IH]; intros [|g gs]; cbn [firstn skipn width_of]; try ring. rewrite (IH gs). ring. Qed.
Lemma line_against o s start rtl pn l d : oracle_basic o -> lay_line o s start rtl pn l = Ok d -> against s rtl = true ->
  let gs := ordered (l_glyphs l) in
  length (l_glyphs l) = l_chars l -> free pn -> Forall no_offset gs -> Forall (fun g => 0 < g_xadv g) gs -> 0 < s_height s ->
  (forall g, In g gs -> Forall outlines (s_outline s (g_id g))) ->
  (exists ls, d_path d = concat ls /\ length ls = length gs /\
     forall i g p, nth_error gs i = Some g -> nth_error ls i = Some p ->
       Forall2 (image (set_down (if rtl then p_x pn + width_of (skipn (S i) gs) else p_x pn - width_of (skipn i gs)) (p_y pn) 1 0) (1 # 64))
         (s_outline s (g_id g)) p) /\
  (exists x y, rx (d_box d) = Some x /\ ry (d_box d) = Some y /\ x == (if rtl then p_x pn else p_x pn - width_of gs) /\
     y == p_y pn - s_height s - s_descender s /\ rw (d_box d) == width_of gs /\ rh (d_box d) == s_height s) /\
  p_x (d_pen d) == (if rtl then p_x pn + width_of gs else p_x pn - width_of gs) /\ p_y (d_pen d) == p_y pn /\ free (d_pen d).
Proof.
  intros O E AG gs Len Fr No Ad Hh Ho. unfold lay_line in E.
  destruct (in_cluster_order (l_glyphs l)) as [gs'|] eqn:Ec; cbn [bind] in E; [|discriminate].
  assert (Ne : gs <> []).
  { unfold gs. destruct (l_glyphs l) as [|g0 r]; [discriminate|]. unfold ordered. destruct (_ <? _)%Z; [|discriminate].
    cbn [rev]. destruct (rev r); discriminate. }
  apply ordered_ok in Ec. subst gs'. rewrite ordered_length, Len, Nat.eqb_refl, AG in E. fold gs in E.
  unfold against in AG. apply andb_true_iff in AG. destruct AG as [Hz Dr]. apply Bool.eqb_prop in Dr.
  destruct (puts o s rtl _ gs) as [pn' ps] eqn:Ep.
  assert (Fr' : free (mkPen (p_lists pn) (p_rot pn) (p_x pn) (p_y pn))) by exact Fr.
  destruct (puts_stand o s rtl gs Hz No _ _ _ Fr' Ep) as (St & Fr2 & Y2 & _). cbn [p_x p_y] in St, Y2.
  destruct (stand_box s rtl gs _ _ ps Hh Ad Ne St) as (bx & by_ & B1 & B2 & B3 & B4 & B5 & B6).
  change (fold_left unite (map pl_box ps) rect_unset) with (unite_all (map pl_box ps)) in E.
  set (b := unite_all (map pl_box ps)) in *. clearbody b.
  unfold RectModel.translate_self in E. rewrite B1, B2 in E.
  set (k := (if s_ltr s then 1 else -1) * rw b) in *.
  assert (Ek : k == if rtl then width_of gs else - width_of gs).
  { unfold k. rewrite B5, Dr. destruct rtl; ring. }
  destruct (stand_drawn o s rtl gs k O Ho _ _ ps St) as (F & ls & E1 & E2 & E3).
  unfold path_transform in E. rewrite (outlines_moved o _ _ (translate_2d k) F) in E. cbn [bind] in E. rewrite E1 in E.
  assert (Pos : forall i, (if rtl then p_x pn + width_of (skipn (S i) gs) else p_x pn - width_of (skipn i gs)) ==
    (if rtl then p_x pn - width_of (firstn (S i) gs) else p_x pn + width_of (firstn i gs)) + k).
  { intros i. rewrite Ek. destruct rtl; [rewrite (width_split (S i) gs)|rewrite (width_split i gs)]; ring. }
  unfold right in E. cbn [rx] in E. rewrite Dr in E.
  assert (R : exists xx, (if rtl then Some (bx + k + rw b) else Some (bx + k)) = Some xx /\
     xx == (if rtl then p_x pn + width_of gs else p_x pn - width_of gs)).
  { destruct rtl; eexists; (split; [reflexivity|]); rewrite Ek, B3, ?B5; ring. }
  destruct R as (xx & R1 & R2).
  replace (if rtl then _ else _) with (Some xx) in E by (rewrite <- R1; destruct rtl; reflexivity).
  injection E as <-. cbn [d_path d_box d_pen rx ry rw rh p_x p_y p_lists p_rot]. split; [|split; [|split; [exact R2|split; [exact Y2|exact Fr2]]]].
  - exists ls. split; [reflexivity|]. split; [exact E2|]. intros i g p Ng Np. eapply images_at; [apply Pos|]. eapply E3; eassumption.
  - exists (bx + k), (by_ + 0). split; [reflexivity|]. split; [reflexivity|]. split; [rewrite B3, Ek; destruct rtl; ring|].
    split; [rewrite B4; ring|]. split; assumption.
Qed.

(** ** Advances *)
Lemma puts_advances o s rtl ks gs : forall pn pn' ps, puts o s rtl pn gs = (pn', ps) ->
  map pl_adv ps = map advance (map (mkI ks s rtl) gs).
Proof.
  induction gs as [|g gs IH]; intros pn pn' ps; cbn [puts map]; [intros [= <- <-]; reflexivity|].
  destruct (put o s rtl pn g) as [pn1 p] eqn:E1. destruct (puts o s rtl pn1 gs) as [pn2 ps2] eqn:E2. intros [= <- <-].
  cbn [map]. rewrite (IH _ _ _ E2). f_equal. unfold put in E1.
  destruct (take _ _), (take _ _), (take _ _), (take _ _), (take_rotate _ _). injection E1 as _ <-. reflexivity.
Qed.
Lemma line_advances o s start rtl ks pn l d : lay_line o s start rtl pn l = Ok d ->
  map pl_adv (d_placed d) = map advance (map (mkI ks s rtl) (ordered (l_glyphs l))).
Proof.
  unfold lay_line. destruct (in_cluster_order (l_glyphs l)) as [gs|] eqn:Ec; cbn [bind]; [|discriminate].
  apply ordered_ok in Ec. subst gs. destruct (puts o s rtl _ _) as [pn' ps] eqn:E. apply (puts_advances o s rtl ks) in E.
  destruct (against s rtl); [|intros [= <-]; exact E].
  destruct (RectModel.translate_self _ _ _) as [b [e|]]; [discriminate|].
  destruct (path_transform _ _ _) as [q|]; cbn [bind]; [|discriminate].
  destruct (if s_ltr s then right b else rx b); [|discriminate]. intros [= <-]. exact E.
Qed.
Lemma lines_advances o s start rtl ks ls : forall pn pn' ds, lay_lines o s start rtl pn ls = Ok (pn', ds) ->
  piece_advances ds = map advance (flat_map (fun l => map (mkI ks s rtl) (ordered (l_glyphs l))) ls).
Proof.
  induction ls as [|l ls IH]; intros pn pn' ds; cbn [lay_lines]; [intros [= <- <-]; reflexivity|].
  destruct (lay_line _ _ _ _ _ _) as [d|] eqn:E1; cbn [bind]; [|discriminate].
  destruct (lay_lines _ _ _ _ _ _) as [[pn2 ds2]|] eqn:E2; cbn [bind]; [|discriminate]. intros [= <- <-].
  unfold piece_advances in *. cbn [flat_map]. rewrite map_app, (line_advances _ _ _ _ ks _ _ _ E1), (IH _ _ _ E2). reflexivity.
Qed.
Lemma runs_advances o p rs : forall pn pn' ds, lay_runs o (pc_setup p) pn rs = Ok (pn', ds) ->
  piece_advances ds = map advance (flat_map (run_items p) rs).
Proof.
  induction rs as [|r rs IH]; intros pn pn' ds; cbn [lay_runs]; [intros [= <- <-]; reflexivity|].
  destruct (lay_lines _ _ _ _ _ _) as [[pn1 ds1]|] eqn:E1; cbn [bind]; [|discriminate].
  destruct (lay_runs _ _ _ _) as [[pn2 ds2]|] eqn:E2; cbn [bind]; [|discriminate]. intros [= <- <-].
  cbn [flat_map]. rewrite map_app, <- (IH _ _ _ E2). unfold run_items at 1. rewrite <- (lines_advances _ _ _ _ _ _ _ _ _ E1).
  unfold piece_advances. apply flat_map_app.
Qed.
Lemma pieces_advances o ps : forall st x y dss, lay_pieces o st x y ps = Ok dss ->
  map piece_advances dss = map (fun p => map advance (piece_items p)) ps.
Proof.
  induction ps as [|p ps IH]; intros st x y dss; cbn [lay_pieces]; [intros [= <-]; reflexivity|].
  unfold lay_piece. destruct (lay_runs _ _ _ _) as [[pn ds]|] eqn:E1; cbn [bind]; [|discriminate].
  destruct (lay_pieces _ _ _ _ _) as [dss'|] eqn:E2; cbn [bind]; [|discriminate]. intros [= <-].
  cbn [map]. rewrite (IH _ _ _ _ E2), (runs_advances _ _ _ _ _ _ E1). reflexivity.
Qed.
