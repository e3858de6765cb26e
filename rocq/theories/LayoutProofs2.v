(** Proofs about the drawing of glyphs and the boxes around them. *)
From Coq Require Import Lia Lqa Qabs.
From Verif Require Import PyBase MatrixModel MatrixSpec MatrixProofs MatrixProofs2 RectModel RectSpec RectProofs.
From Verif Require Import PathModel PathSpec PathTransProofs UseSpec LayoutModel LayoutSpec LayoutProofs.
Local Open Scope Q_scope.

(** ** The matrices *)
Lemma act_e1 m : veq (act m (V4 1 0 0 0)) (V4 (m11 m) (m12 m) (m13 m) (m14 m)).
Proof. unfold act; repeat split; cbn [v1 v2 v3 v4]; ring. Qed.
Lemma act_e2 m : veq (act m (V4 0 1 0 0)) (V4 (m21 m) (m22 m) (m23 m) (m24 m)).
Proof. unfold act; repeat split; cbn [v1 v2 v3 v4]; ring. Qed.
Lemma act_e4 m : veq (act m (V4 0 0 0 1)) (V4 (m41 m) (m42 m) (m43 m) (m44 m)).
Proof. unfold act; repeat split; cbn [v1 v2 v3 v4]; ring. Qed.
Lemma act_id p : veq (act mat_id p) p.
Proof. destruct p. unfold act; repeat split; cbn; ring. Qed.
(** six numbers of a matrix *)
Definition is_affine (m : dmat) (a b c d e f : Q) : Prop :=
  m11 (arr m) == a /\ m12 (arr m) == b /\ m21 (arr m) == c /\ m22 (arr m) == d /\ m41 (arr m) == e /\ m42 (arr m) == f.
Lemma affine_from m f : (forall p, veq (act (arr m) p) (f p)) ->
  is_affine m (v1 (f (V4 1 0 0 0))) (v2 (f (V4 1 0 0 0))) (v1 (f (V4 0 1 0 0))) (v2 (f (V4 0 1 0 0)))
    (v1 (f (V4 0 0 0 1))) (v2 (f (V4 0 0 0 1))).
Proof.
  intros H. destruct (H (V4 1 0 0 0)) as (A1 & A2 & _). destruct (H (V4 0 1 0 0)) as (B1 & B2 & _).
  destruct (H (V4 0 0 0 1)) as (C1 & C2 & _).
  destruct (act_e1 (arr m)) as (D1 & D2 & _). destruct (act_e2 (arr m)) as (E1 & E2 & _).
  destruct (act_e4 (arr m)) as (F1 & F2 & _). cbn [v1 v2] in D1, D2, E1, E2, F1, F2.
  unfold is_affine. rewrite <- A1, <- A2, <- B1, <- B2, <- C1, <- C2, D1, D2, E1, E2, F1, F2. repeat split; reflexivity.
Qed.
Definition g_plane (c s : Q) (p : vec4) : vec4 := V4 (c * v1 p - s * v2 p) (s * v1 p + c * v2 p) (v3 p) (v4 p).
Lemma rotate_plane o m r p : oracle_basic o ->
  veq (act (arr (MatrixModel.rotate_self o m 0 0 r)) p) (act (arr m) (g_plane (ocos o r) (osin o r) p)).
Proof.
  intros O. rewrite rotate_meaning by exact O. apply act_proper. destruct O as [_ O].
  destruct (O 0 ltac:(reflexivity)) as [C0 S0]. rewrite !(g_rot_id 1 0 0 _ _ _ C0 S0), !(g_rot_id 0 1 0 _ _ _ C0 S0).
  unfold g_rot, g_plane; repeat split; cbn [v1 v2 v3 v4]; ring.
Qed.
Lemma glyph_matrix_is o r x y : oracle_basic o ->
  let c := ocos o r in let s := osin o r in
  is_affine (glyph_matrix o r x y) c s (- s) c (c * x + s * y) (s * x - c * y).
Proof.
  intros O c s.
  assert (H : forall p, veq (act (arr (glyph_matrix o r x y)) p) (g_plane c s (g_translate x (- y) 0 p))).
  { intros p. unfold glyph_matrix. rewrite translate_meaning. destruct (Qeqb_spec r 0) as [E|E].
    - cbn [arr]. rewrite act_id. destruct O as [_ O]. destruct (O r E) as [C0 S0]. fold c in C0. fold s in S0.
      unfold g_plane; repeat split; cbn [v1 v2 v3 v4]; try reflexivity; rewrite C0, S0; ring.
    - rewrite rotate_plane by exact O. cbn [arr]. rewrite act_id. reflexivity. }
  apply affine_from in H. unfold g_plane, g_translate in H. cbn [v1 v2 v3 v4] in H.
  destruct H as (H1 & H2 & H3 & H4 & H5 & H6). unfold is_affine.
  rewrite H1, H2, H3, H4, H5, H6. repeat split; ring.
Qed.
Lemma box_matrix_is o r x y : oracle_basic o ->
  let c := ocos o r in let s := osin o r in
  is_affine (box_matrix o r x y) c s (- s) c (x + (c * - x - s * - y)) (y + (s * - x + c * - y)).
Proof.
  intros O c s.
  assert (H : forall p, veq (act (arr (box_matrix o r x y)) p) (g_translate x y 0 (g_plane c s (g_translate (- x) (- y) 0 p)))).
  { intros p. unfold box_matrix. rewrite translate_meaning, rotate_plane, translate_meaning by exact O. cbn [arr].
    rewrite act_id. reflexivity. }
  apply affine_from in H. unfold g_plane, g_translate in H. cbn [v1 v2 v3 v4] in H.
  destruct H as (H1 & H2 & H3 & H4 & H5 & H6). unfold is_affine.
  rewrite H1, H2, H3, H4, H5, H6. repeat split; ring.
Qed.

(** ** int() *)
Lemma grid_close v : - (1 # 64) <= grid v - v <= 1 # 64.
Proof.
  unfold grid. set (q := v * 64). assert (V : v == q / 64) by (unfold q; field). clearbody q. rewrite V. clear V.
  assert (T : - (1) <= inject_Z (trunc q) - q <= 1).
  { unfold trunc. destruct q as [n d]. cbn [Qnum Qden].
    assert (E := Z.quot_rem' n (Zpos d)). assert (R := Z.rem_bound_abs n (Zpos d) ltac:(lia)).
    set (k := Z.quot n (Zpos d)) in *. set (r := Z.rem n (Zpos d)) in *. clearbody k r.
    unfold Qle, Qminus, Qplus, Qopp, inject_Z. cbn [Qnum Qden]. nia. }
  set (t := inject_Z (trunc q)) in *. clearbody t. split.
  - setoid_replace (t / 64 - q / 64) with ((t - q) / 64) by field. apply Qle_shift_div_l; [reflexivity|]. lra.
  - setoid_replace (t / 64 - q / 64) with ((t - q) / 64) by field. apply Qle_shift_div_r; [reflexivity|]. lra.
Qed.
Lemma product_bound a e : - (1 # 64) <= e <= 1 # 64 -> - (Qabs a / 64) <= a * e <= Qabs a / 64.
Proof.
  intros H. setoid_replace (Qabs a / 64) with (Qabs a * (1 # 64)) by field.
  assert (A := Qle_Qabs a). assert (B := Qabs_nonneg a). assert (C : - a <= Qabs a) by (rewrite <- Qabs_opp; apply Qle_Qabs).
  split; nra.
Qed.
Lemma near_two c s e f r : - (1 # 64) <= e <= 1 # 64 -> - (1 # 64) <= f <= 1 # 64 -> r == c * e + s * f ->
  - ((Qabs c + Qabs s) / 64) <= r <= (Qabs c + Qabs s) / 64.
Proof.
  intros E F ->. assert (A := product_bound c e E). assert (B := product_bound s f F).
  setoid_replace ((Qabs c + Qabs s) / 64) with (Qabs c / 64 + Qabs s / 64) by field. split; lra.
Qed.

(** ** One glyph *)
Lemma point_set_down o r x y p : oracle_basic o -> unit_angle o r ->
  close_to ((Qabs (ocos o r) + Qabs (osin o r)) / 64) (from_glyph_point (glyph_matrix o r x y) p)
    (set_down x y (ocos o r) (osin o r) p).
Proof.
  intros O U. destruct (glyph_matrix_is o r x y O) as (A & B & C & D & E & F).
  unfold unit_angle in U. set (c := ocos o r) in *. set (s := osin o r) in *. clearbody c s.
  unfold from_glyph_point, ft_flip_y, ft_dot, ft_of, ft_apply, set_down, close_to. cbn [f00 f01 f10 f11 ptx pty].
  assert (G1 := grid_close (m41 (arr (glyph_matrix o r x y)))). assert (G2 := grid_close (m42 (arr (glyph_matrix o r x y)))).
  set (g1 := grid (m41 (arr (glyph_matrix o r x y)))) in *. set (g2 := grid (m42 (arr (glyph_matrix o r x y)))) in *. clearbody g1 g2.
  rewrite E in G1. rewrite F in G2.
  assert (X : x == (c * c + s * s) * x) by (rewrite U; ring). assert (Y : y == (c * c + s * s) * y) by (rewrite U; ring).
  split.
  - apply (near_two c s _ _ _ G1 G2). rewrite A, B, C, D. rewrite X at 1. ring.
  - assert (K := near_two s (- c) _ _ _ G1 G2 (Qeq_refl _)). rewrite Qabs_opp in K.
    assert (W : (Qabs s + Qabs c) / 64 == (Qabs c + Qabs s) / 64) by field. rewrite W in K.
    match goal with |- _ <= ?z <= _ => setoid_replace z with (s * (g1 - (c * x + s * y)) + - c * (g2 - (s * x - c * y))); [exact K|] end.
    rewrite A, B, C, D. rewrite Y at 1. ring.
Qed.
Lemma seg_set_down o r x y g : oracle_basic o -> unit_angle o r -> outlines g ->
  image (set_down x y (ocos o r) (osin o r)) ((Qabs (ocos o r) + Qabs (osin o r)) / 64) g
    (seg_map (from_glyph_point (glyph_matrix o r x y)) g).
Proof.
  intros O U G. destruct g; try (destruct G; fail); (destruct rel; [destruct G|]); cbn [seg_map]; constructor;
    apply point_set_down; assumption.
Qed.
(** ** All glyphs of a text *)
Lemma path_shows o it p : oracle_basic o -> unit_angle o (pl_rot p) -> Forall outlines (s_outline (i_setup it) (pl_id p)) ->
  shows_glyph o 0 it p (glyph_path o (i_setup it) p).
Proof.
  intros O U F. unfold shows_glyph, glyph_path, from_glyph. cbn zeta.
  induction F as [|g l G F IH]; cbn [map]; constructor; [|exact IH].
  assert (K := seg_set_down o (pl_rot p) (pl_x p) (pl_y p) g O U G). revert K.
  set (h := seg_map _ g). set (e := (_ + _) / 64). set (c := ocos o _). set (s := osin o _).
  assert (Z : forall q q', close_to e q' (set_down (pl_x p) (pl_y p) c s q) -> close_to e q' (set_down (pl_x p + 0) (pl_y p) c s q)).
  { intros q q' [[H1 H2] [H3 H4]]. unfold close_to, set_down in *. cbn [ptx pty] in *. repeat split; lra. }
  intros K. destruct K; constructor; apply Z; assumption.
Qed.
(** [was_put]: the glyph was placed by [put] from some pen *)
Definition was_put (o : oracle) (it : item) (p : placed) : Prop :=
  exists pn pn', put o (i_setup it) (i_rtl it) pn (i_glyph it) = (pn', p).
Lemma puts_made o ks s rtl gs : forall pn pn' ps, puts o s rtl pn gs = (pn', ps) ->
  Forall2 (was_put o) (map (mkI ks s rtl) gs) ps.
Proof.
  induction gs as [|g gs IH]; intros pn pn' ps; cbn [puts map].
  - intros [= <- <-]. constructor.
  - destruct (put o s rtl pn g) as [pn1 p] eqn:E. destruct (puts o s rtl pn1 gs) as [pn2 ps'] eqn:E2.
    intros [= <- <-]. constructor; [exists pn, pn1; exact E|]. eapply IH. exact E2.
Qed.
Lemma Forall2_length {A B} (R : A -> B -> Prop) l l' : Forall2 R l l' -> length l = length l'.
Proof. intros F. induction F; cbn [length]; congruence. Qed.
Definition paths (o : oracle) (l : list (item * placed)) : list seg :=
  flat_map (fun q => glyph_path o (i_setup (fst q)) (snd q)) l.
Lemma paths_same o ks s rtl gs : forall ps, length ps = length gs ->
  paths o (combine (map (mkI ks s rtl) gs) ps) = flat_map (glyph_path o s) ps.
Proof.
  induction gs as [|g gs IH]; intros [|p ps] L; try discriminate; [reflexivity|]. cbn [map combine]. unfold paths in *.
  cbn [flat_map fst snd i_setup]. now rewrite IH by (injection L; auto).
Qed.
Lemma combine_app {A B} (a1 a2 : list A) (b1 b2 : list B) : length a1 = length b1 ->
  combine (a1 ++ a2) (b1 ++ b2) = combine a1 b1 ++ combine a2 b2.
Proof.
  revert b1. induction a1 as [|x a1 IH]; intros [|y b1] L; try discriminate; [reflexivity|]. cbn [combine app].
  now rewrite IH by (injection L; auto).
Qed.
Lemma paths_app o a b : paths o (a ++ b) = paths o a ++ paths o b.
Proof. unfold paths. apply flat_map_app. Qed.
Lemma made_app o a1 a2 p1 p2 : Forall2 (was_put o) a1 p1 ->
  paths o (combine (a1 ++ a2) (p1 ++ p2)) = paths o (combine a1 p1) ++ paths o (combine a2 p2).
Proof. intros F. rewrite combine_app by exact (Forall2_length _ _ _ F). apply paths_app. Qed.
(** what a list of laid lines amounts to *)
Definition made (o : oracle) (its : list item) (ds : list laid) : Prop :=
  Forall2 (was_put o) its (flat_map d_placed ds) /\
  flat_map d_path ds = paths o (combine its (flat_map d_placed ds)) /\
  map d_box ds = map (fun d => unite_all (map pl_box (d_placed d))) ds.
Lemma made_cat o a b da db : made o a da -> made o b db -> made o (a ++ b) (da ++ db).
Proof.
  intros (A1 & A2 & A3) (B1 & B2 & B3). unfold made. rewrite !flat_map_app, !map_app. split; [now apply Forall2_app|]. split.
  - now rewrite A2, B2, (made_app o _ _ _ _ A1).
  - now rewrite A3, B3.
Qed.
Lemma line_made o ks s start rtl l pn d : against s rtl = false -> lay_line o s start rtl pn l = Ok d ->
  made o (map (mkI ks s rtl) (ordered (l_glyphs l))) [d].
Proof.
  intros AG. unfold lay_line. destruct (in_cluster_order (l_glyphs l)) as [gs|] eqn:E; cbn [bind]; [|discriminate].
  apply ordered_ok in E. subst gs. rewrite AG. set (ls := if (_ =? _)%nat then _ else _).
  destruct (puts o s rtl _ _) as [pn' ps] eqn:E. intros [= <-]. apply (puts_made o ks) in E.
  unfold made. cbn [flat_map d_placed d_path d_box map]. rewrite !app_nil_r. split; [exact E|]. split; [|reflexivity].
  symmetry. apply paths_same. apply Forall2_length in E. rewrite map_length in E. auto.
Qed.
Lemma made_nil o : made o [] [].
Proof. split; [constructor|split; reflexivity]. Qed.
Lemma lines_made o ks s start rtl ls : against s rtl = false -> forall pn pn' ds,
  lay_lines o s start rtl pn ls = Ok (pn', ds) ->
  made o (flat_map (fun l => map (mkI ks s rtl) (ordered (l_glyphs l))) ls) ds.
Proof.
  intros AG. induction ls as [|l ls IH]; intros pn pn' ds; cbn [lay_lines flat_map].
  - intros [= <- <-]. apply made_nil.
  - destruct (lay_line o s start rtl pn l) as [d|] eqn:E; cbn [bind]; [|discriminate].
    destruct (lay_lines o s start rtl (d_pen d) ls) as [[pn2 ds2]|] eqn:E2; cbn [bind]; [|discriminate].
    intros [= <- <-]. change (d :: ds2) with ([d] ++ ds2). apply made_cat; [eapply line_made; eassumption|eapply IH; exact E2].
Qed.
Lemma runs_made o p rs : (forall r, In r rs -> against (pc_setup p) (r_rtl r) = false) -> forall pn pn' ds,
  lay_runs o (pc_setup p) pn rs = Ok (pn', ds) -> made o (flat_map (run_items p) rs) ds.
Proof.
  induction rs as [|r rs IH]; intros AG pn pn' ds; cbn [lay_runs flat_map].
  - intros [= <- <-]. apply made_nil.
  - destruct (lay_lines o _ _ _ pn (r_lines r)) as [[pn1 ds1]|] eqn:E; cbn [bind]; [|discriminate].
    destruct (lay_runs o _ pn1 rs) as [[pn2 ds2]|] eqn:E2; cbn [bind]; [|discriminate].
    intros [= <- <-]. apply made_cat.
    + apply (lines_made o (pc_line p) (pc_setup p) (r_start r) (r_rtl r) (r_lines r) (AG r (or_introl eq_refl)) pn pn1 ds1 E).
    + eapply IH; [|exact E2]. intros r' i. apply AG. now right.
Qed.
Lemma pieces_made o ps : uniform ps -> forall st x y dss, lay_pieces o st x y ps = Ok dss ->
  Forall2 (fun p ds => made o (piece_items p) ds) ps dss.
Proof.
  induction ps as [|p ps IH]; intros U st x y dss; cbn [lay_pieces].
  - intros [= <-]. constructor.
  - destruct (lay_piece o st x y p) as [[[[st' x'] y'] ds]|] eqn:E; cbn [bind]; [|discriminate].
    destruct (lay_pieces o st' x' y' ps) as [dss'|] eqn:E2; cbn [bind]; [|discriminate]. intros [= <-].
    constructor; [|eapply IH; [|exact E2]; intros p' r i; apply U; now right].
    unfold lay_piece in E. destruct (lay_runs o _ _ _) as [[pn ds']|] eqn:E3; cbn [bind] in E; [|discriminate].
    injection E as _ _ _ <-. eapply runs_made; [|exact E3].
    intros r i. apply (against_uniform (p :: ps)); [exact U|now left|exact i].
Qed.
Lemma text_made o g0 ps dss : uniform ps -> lay_text o g0 ps = Ok dss -> Forall2 (fun p ds => made o (piece_items p) ds) ps dss.
Proof. intros U E. apply text_start in E. eapply pieces_made; eassumption. Qed.
Lemma text_paths o ps dss : Forall2 (fun p ds => made o (piece_items p) ds) ps dss ->
  Forall2 (was_put o) (items ps) (all_placed dss) /\ text_path dss = paths o (combine (items ps) (all_placed dss)).
Proof.
  intros F. induction F as [|p ds ps dss (A1 & A2 & _) F (B1 & B2)]; [split; [constructor|reflexivity]|].
  unfold items, all_placed, text_path in *. cbn [flat_map]. split; [now apply Forall2_app|].
  now rewrite (made_app o _ _ _ _ A1), A2, B2.
Qed.

(** ** Boxes *)
Definition bounds (u : rect) (bs : list rect) : Prop :=
  proper u /\ (forall b, In b bs -> included b u) /\
  (forall v, proper v -> (forall b, In b bs -> included b v) -> included u v).
Lemma valid_full b : isvalid b = true -> full b.
Proof.
  intros H. valid H. split; [right; rewrite Ex, Ey; repeat split; try congruence; lra|]. split; auto.
Qed.
Lemma unset_full : full rect_unset.
Proof. split; [apply proper_unset|]. cbn. split; intros; lra. Qed.
Lemma valid_above b u : isvalid b = true -> included b u -> isvalid u = true.
Proof.
  intros V K. valid V.
  assert (K1 := K x y). assert (K2 := K (x + rw b) (y + rh b)). unfold region in K1, K2. rewrite Ex, Ey in K1, K2.
  specialize (K1 ltac:(lra)). specialize (K2 ltac:(lra)). apply isvalid_true.
  destruct (rx u) as [ux|]; [|contradiction]. destruct (ry u) as [uy|]; [|contradiction].
  exists ux, uy. repeat split; lra.
Qed.
(** no box, or one with a positive size *)
Definition solid (b : rect) : Prop := b = rect_unset \/ isvalid b = true.
Lemma solid_full b : solid b -> full b.
Proof. intros [->|V]; [exact unset_full|now apply valid_full]. Qed.
Lemma unite_solid us : Forall solid us -> solid (unite_all us).
Proof.
  intros F. assert (Ff : Forall full us) by (eapply Forall_impl; [|exact F]; intros u; apply solid_full).
  destruct (unite_all_spec us Ff) as (_ & I1 & _).
  destruct (Exists_dec (fun u => isvalid u = true) us (fun u => Bool.bool_dec (isvalid u) true)) as [Ex|Nx].
  - right. apply Exists_exists in Ex. destruct Ex as (u & i & V). exact (valid_above u _ V (I1 u i)).
  - left. unfold unite_all. clear Ff I1. induction F as [|u us [->|V] F IH]; [reflexivity| |].
    + cbn [fold_left]. change (unite rect_unset rect_unset) with rect_unset. apply IH. intros E. apply Nx. now constructor 2.
    + exfalso. apply Nx. now constructor.
Qed.
Lemma unite_all_bounds bs : Forall solid bs -> bounds (unite_all bs) bs.
Proof. intros F. apply unite_all_spec. eapply Forall_impl; [|exact F]. intros b. apply solid_full. Qed.
Lemma bounds_nested us bss : Forall2 bounds us bss -> Forall full us -> bounds (unite_all us) (concat bss).
Proof.
  intros F2 F. destruct (unite_all_spec us F) as (P1 & I1 & L1). split; [exact P1|]. split.
  - intros b i. apply in_concat in i. destruct i as (bs & i & j).
    assert (K : exists u, In u us /\ bounds u bs).
    { clear - F2 i. induction F2 as [|u bs' us bss B F2 IH]; [destruct i|]. destruct i as [<-|i].
      - exists u. split; [now left|exact B].
      - destruct (IH i) as (u' & A1 & A2). exists u'. split; [now right|exact A2]. }
    destruct K as (u & K1 & (_ & K2 & _)). intros px py H. apply (I1 u K1). apply (K2 b j). exact H.
  - intros v Pv Hv. apply L1; [exact Pv|]. intros u i.
    assert (K : exists bs, In bs bss /\ bounds u bs).
    { clear - F2 i. induction F2 as [|u' bs' us bss B F2 IH]; [destruct i|]. destruct i as [<-|i].
      - exists bs'. split; [now left|exact B].
      - destruct (IH i) as (bs & A1 & A2). exists bs. split; [now right|exact A2]. }
    destruct K as (bs & K1 & (_ & _ & K2)). apply K2; [exact Pv|]. intros b j. apply Hv. apply in_concat. eauto.
Qed.
Lemma line_boxes o its ds : made o its ds -> Forall (fun p => isvalid (pl_box p) = true) (flat_map d_placed ds) ->
  solid (piece_box ds) /\ bounds (piece_box ds) (map pl_box (flat_map d_placed ds)).
Proof.
  intros (_ & _ & E) F. unfold piece_box. rewrite E. clear E.
  assert (Fs : Forall (fun d => Forall solid (map pl_box (d_placed d))) ds).
  { apply Forall_forall. intros d i. apply Forall_forall. intros b j. apply in_map_iff in j. destruct j as (p & <- & j).
    rewrite Forall_forall in F. right. apply F. apply in_flat_map. eauto. }
  set (us := map _ ds). assert (Su : Forall solid us).
  { unfold us. clear - Fs. induction Fs; cbn [map]; constructor; [now apply unite_solid|assumption]. }
  split; [now apply unite_solid|].
  replace (map pl_box (flat_map d_placed ds)) with (concat (map (fun d => map pl_box (d_placed d)) ds)).
  - apply bounds_nested; [|eapply Forall_impl; [|exact Su]; intros b; apply solid_full].
    unfold us. clear - Fs. induction Fs; cbn [map]; constructor; [now apply unite_all_bounds|assumption].
  - clear. induction ds as [|d ds IH]; [reflexivity|]. cbn [map concat flat_map]. now rewrite map_app, IH.
Qed.
Lemma text_boxes o ps dss : Forall2 (fun p ds => made o (piece_items p) ds) ps dss ->
  Forall (fun p => isvalid (pl_box p) = true) (all_placed dss) -> bounds (text_box dss) (map pl_box (all_placed dss)).
Proof.
  intros F2 F. unfold text_box.
  replace (map pl_box (all_placed dss)) with (concat (map (fun ds => map pl_box (flat_map d_placed ds)) dss)).
  2:{ clear. induction dss as [|ds dss IH]; [reflexivity|]. unfold all_placed in *. cbn [map concat flat_map]. now rewrite map_app, IH. }
  assert (K : Forall (fun ds => solid (piece_box ds) /\ bounds (piece_box ds) (map pl_box (flat_map d_placed ds))) dss).
  { induction F2 as [|p ds ps dss M F2 IH]; constructor.
    - apply (line_boxes o (piece_items p) ds M). unfold all_placed in F. cbn [flat_map] in F. apply Forall_app in F. tauto.
    - apply IH. unfold all_placed in F. cbn [flat_map] in F. apply Forall_app in F. tauto. }
  apply bounds_nested; clear - K; induction K as [|ds dss [A1 A2] K IH]; cbn [map]; constructor; auto. now apply solid_full.
Qed.

(** ** The box of one glyph *)
Definition plain_box (it : item) (x y : Q) : rect :=
  let s := i_setup it in let g := i_glyph it in
  if s_horizontal s then rect4 x (y - s_height s - s_descender s) (advance it) (s_height s)
  else if s_sideways s then rect4 x y (s_width s) (g_xadv g)
  else rect4 x (y - advance it + advance it + g_yoff g) (s_width s) (advance it).
Lemma put_box o it p : was_put o it p ->
  pl_box p = (if pl_rot p =?q 0 then plain_box it (pl_x p) (pl_y p)
              else transform_self (plain_box it (pl_x p) (pl_y p)) (affine_of (box_matrix o (pl_rot p) (pl_x p) (pl_y p)))).
Proof.
  intros (pn & pn' & E). unfold put in E.
  destruct (take (xs (p_lists pn)) (p_x pn)) as [x xs']. destruct (take (ys (p_lists pn)) (p_y pn)) as [y ys'].
  destruct (take (dxs (p_lists pn)) 0) as [dx dxs']. destruct (take (dys (p_lists pn)) 0) as [dy dys'].
  destruct (take_rotate (rots (p_lists pn)) (p_rot pn)) as [r rots']. injection E as _ <-.
  cbn [pl_box pl_rot pl_x pl_y]. unfold plain_box, advance.
  destruct (s_horizontal (i_setup it)), (s_sideways (i_setup it)), (i_rtl it); cbn [andb]; reflexivity.
Qed.
Lemma plain_cell it p px py : region (plain_box it (pl_x p) (pl_y p)) px py <-> cell it p px py.
Proof.
  unfold plain_box, cell, advance. destruct (s_horizontal (i_setup it)) eqn:Eh; [|destruct (s_sideways (i_setup it))];
    rewrite region_rect4; split; intros [H1 H2]; split; lra.
Qed.
Lemma plain_valid it x y : sized it -> isvalid (plain_box it x y) = true.
Proof.
  unfold sized, plain_box, advance. intros H. destruct (s_horizontal (i_setup it)); [|destruct (s_sideways (i_setup it))];
    apply isvalid_rect4; try tauto; destruct H; lra.
Qed.
(** a turned box keeps a positive size *)
Lemma min_max_gap x1 x2 x3 x4 : ~ (x2 == x3 /\ x3 == x4) -> 0 < max4 (min4 x1 x2 x3 x4) x2 x3 x4 - min4 x1 x2 x3 x4.
Proof.
  intros N. destruct (min4_spec x1 x2 x3 x4) as ((A1 & A2 & A3 & A4) & _).
  destruct (max4_spec (min4 x1 x2 x3 x4) x2 x3 x4) as ((B1 & B2 & B3 & B4) & _).
  set (lo := min4 x1 x2 x3 x4) in *. set (hi := max4 lo x2 x3 x4) in *. clearbody lo hi.
  destruct (Qlt_le_dec 0 (hi - lo)) as [H|H]; [exact H|]. exfalso. apply N. split; lra.
Qed.
Lemma turned_valid b m : isvalid b = true -> ~ (fa m == 0 /\ fc m == 0) -> ~ (fb m == 0 /\ fd m == 0) ->
  isvalid (transform_self b m) = true.
Proof.
  intros V N1 N2. unfold transform_self. rewrite V. cbn [negb]. valid V. rewrite Ex, Ey. cbn zeta. unfold set_coords.
  apply isvalid_rect4; apply min_max_gap; unfold apply_x, apply_y; intros [H1 H2]; [apply N1|apply N2].
  - assert (P1 : fa m * rw b == 0) by lra. assert (P2 : fc m * rh b == 0) by lra.
    apply Qmult_integral in P1. apply Qmult_integral in P2. split; [destruct P1|destruct P2]; lra.
  - assert (P1 : fb m * rw b == 0) by lra. assert (P2 : fd m * rh b == 0) by lra.
    apply Qmult_integral in P1. apply Qmult_integral in P2. split; [destruct P1|destruct P2]; lra.
Qed.
Lemma box_affine o r x y : oracle_basic o ->
  let m := affine_of (box_matrix o r x y) in let c := ocos o r in let s := osin o r in
  (fa m == c /\ fb m == s /\ fc m == - s /\ fd m == c) /\
  (forall px py, apply_x m px py == turn_x c s x y px py /\ apply_y m px py == turn_y c s x y px py).
Proof.
  intros O m c s. destruct (box_matrix_is o r x y O) as (A & B & C & D & E & F). fold c in A, B, C, D, E, F. fold s in A, B, C, D, E, F.
  split; [repeat split; assumption|]. intros px py. unfold apply_x, apply_y, turn_x, turn_y, m, affine_of. cbn [fa fb fc fd fe ff].
  rewrite A, B, C, D, E, F. split; ring.
Qed.
(** angles for which transform_self is right *)
Definition turns_well (o : oracle) (r : Q) : Prop := 0 <= ocos o r \/ osin o r == 0.
Lemma glyph_box o it p : oracle_basic o -> unit_angle o (pl_rot p) -> was_put o it p -> sized it ->
  isvalid (pl_box p) = true /\
  (turns_well o (pl_rot p) -> covers o (pl_box p) it p /\
     forall b, proper b -> covers o b it p -> included (pl_box p) b).
Proof.
  intros O U W Sz. rewrite (put_box o it p W). assert (V := plain_valid it (pl_x p) (pl_y p) Sz).
  set (c := ocos o (pl_rot p)). set (s := osin o (pl_rot p)). assert (U1 : c * c + s * s == 1) by exact U.
  destruct (Qeqb_spec (pl_rot p) 0) as [E|E].
  - split; [exact V|]. intros _. destruct (proj2 O _ E) as [C0 S0]. fold c in C0. fold s in S0.
    assert (T : forall px py, turn_x c s (pl_x p) (pl_y p) px py == px /\ turn_y c s (pl_x p) (pl_y p) px py == py).
    { intros px py. unfold turn_x, turn_y. rewrite C0, S0. split; ring. }
    split.
    + intros px py H. fold c s. destruct (T px py) as [T1 T2]. apply (region_compat _ px py); [now rewrite T1|now rewrite T2|].
      now apply plain_cell.
    + intros b Pb H px py K. apply plain_cell in K. specialize (H px py K). fold c s in H. destruct (T px py) as [T1 T2].
      now apply (region_compat _ _ _ px py) in H.
  - destruct (box_affine o (pl_rot p) (pl_x p) (pl_y p) O) as ((A & B & C & D) & Ap).
    set (m := affine_of _) in *. fold c in A, B, C, D, Ap. fold s in A, B, C, D, Ap. split.
    + apply turned_valid; [exact V| |]; intros [H1 H2].
      * rewrite A in H1. rewrite C in H2. assert (s == 0) by lra. rewrite H1, H in U1. discriminate.
      * rewrite B in H1. rewrite D in H2. rewrite H1, H2 in U1. discriminate.
    + intros G. unfold turns_well in G. fold c s in G.
      destruct (transform_exact (plain_box it (pl_x p) (pl_y p)) m V) as (T1 & T2 & _).
      * unfold corner1_not_max. rewrite A, C. intros [H1 H2]. destruct G as [G|G]; lra.
      * unfold corner1_not_max. rewrite B, D. intros [H1 H2]. destruct G as [G|G]; lra.
      * split.
        -- intros px py H. fold c s. apply plain_cell in H. destruct (Ap px py) as [A1 A2].
           apply (region_compat _ (apply_x m px py) (apply_y m px py)); [exact A1|exact A2|]. now apply T1.
        -- intros b Pb H. apply T2; [exact Pb|]. intros px py K. apply plain_cell in K. specialize (H px py K). fold c s in H.
           destruct (Ap px py) as [A1 A2]. apply (region_compat b (turn_x c s (pl_x p) (pl_y p) px py) (turn_y c s (pl_x p) (pl_y p) px py)); [now rewrite A1|now rewrite A2|exact H].
Qed.
