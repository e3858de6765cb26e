(** C34: the view box is mapped to the viewport as preserveAspectRatio says.
    C35: preserveAspectRatio texts. *)
From Coq Require Import Qabs.
From Verif Require Import PyBase PyText PySplit MatrixModel CssUnitModel LengthModel LengthProofs ViewModel ViewSpec ViewProofs.
#[local] Open Scope Q_scope.

Definition ln (n : Q) (u : option text) : slength := mkL n u no_context no_context None.
(** The example: a viewport of 4in x 1in at (10px, 0), a view box of 100 x 50 at (5, 5). *)
Definition vbox (a m : Z) := Some (ln 5 None, ln 5 None, ln 100 None, ln 50 None, mkPar a m).
Definition inch := Some (lit "in").
Lemma example_viewport : viewport_is (ln 0 None) (ln (1 # 2) inch) (ln 4 inch) (ln 1 inch) (mkF 0 48 384 96).
Proof. split; [reflexivity|]. split; [now left|]. split; [now right|]. repeat split; eexists; (split; [constructor|reflexivity]). Qed.
Lemma example_box : box_is (ln 5 None) (ln 5 None) (ln 100 None) (ln 50 None) (mkF 5 5 100 50).
Proof. repeat split. Qed.

Lemma div_pos a b : 0 < a -> 0 < b -> 0 < a / b.
Proof. intros A B. unfold Qdiv. apply Qmult_lt_0_compat; auto. now apply Qinv_lt_0_compat. Qed.
Lemma div_mul a b : 0 < b -> a / b * b == a. Proof. intros B. field. lra. Qed.

(** ** none: exactly onto the viewport *)
Theorem c34_none : forall ex ey ew eh vbx vby vbw vbh p f b,
  viewport_is ex ey ew eh f -> box_is vbx vby vbw vbh b -> 0 < fw b -> 0 < fh b -> palign p = 1%Z ->
  exists m, viewport_matrix ex ey ew eh (Some (vbx, vby, vbw, vbh, p)) = Ok m /\ onto m b f.
Proof.
  intros ex ey ew eh vbx vby vbw vbh p f b V B Pw Ph A.
  destruct (main ex ey ew eh vbx vby vbw vbh p f b V B) as (m & kx & ky & E & F & T); [lra|lra|].
  exists m. split; [exact E|]. rewrite A in *. change (known_align 1) with 1%Z in *. cbn in F. destruct F as (KX & KY).
  assert (DX := div_mul (fw f) (fw b) Pw). assert (DY := div_mul (fh f) (fh b) Ph). rewrite <- KX in DX. rewrite <- KY in DY.
  split; [destruct (T (fx b) (fy b)) as (X & Y & E1 & H1 & H2)|destruct (T (fx b + fw b) (fy b + fh b)) as (X & Y & E1 & H1 & H2)];
    exists X, Y; (split; [exact E1|]); rewrite H1, H2; unfold share; cbn [zin existsb]; change (1 =? 3)%Z with false; cbn -[Qmult Qplus Qminus]; split; lra || nra.
Qed.
Print Assumptions c34_none.
Example c34_none_case : exists m, viewport_matrix (ln 0 None) (ln (1 # 2) inch) (ln 4 inch) (ln 1 inch) (vbox 1 1) = Ok m /\ takes m 105 55 384 144.
Proof. eexists. split; [reflexivity|]. do 2 eexists. split; [reflexivity|]. split; reflexivity. Qed.

(** ** meet and slice: one scale for both axes, the free (or overflowing) space
    shared out as the alignment says; with meet the picture is inside the
    viewport, with slice the viewport inside the picture, and they agree in
    one dimension.  The two ratios must be told apart by math.isclose, or be
    equal. *)
Lemma share_before a : (2 <= a <= 10)%Z -> share a [3; 6; 9]%Z [4; 7; 10]%Z == before_x a /\ share a [5; 6; 7]%Z [8; 9; 10]%Z == before_y a /\ 0 <= before_x a <= 1 /\ 0 <= before_y a <= 1.
Proof.
  intros H. assert (E : (a = 2 \/ a = 3 \/ a = 4 \/ a = 5 \/ a = 6 \/ a = 7 \/ a = 8 \/ a = 9 \/ a = 10)%Z) by lia.
  repeat (destruct E as [->|E]; [repeat split; reflexivity || (vm_compute; discriminate)|]). subst. repeat split; reflexivity || (vm_compute; discriminate).
Qed.
Theorem c34_fit_partial : forall ex ey ew eh vbx vby vbw vbh p f b,
  viewport_is ex ey ew eh f -> box_is vbx vby vbw vbh b -> 0 < fw f -> 0 < fh f -> 0 < fw b -> 0 < fh b ->
  (palign p = 0 \/ 2 <= palign p <= 10)%Z -> (0 <= pmos p <= 2)%Z -> told_apart (fw f / fw b) (fh f / fh b) ->
  let a := if (palign p =? 0)%Z then 6%Z else palign p in
  exists m k r, viewport_matrix ex ey ew eh (Some (vbx, vby, vbw, vbh, p)) = Ok m /\ onto m b r /\
    0 < k /\ fw r == k * fw b /\ fh r == k * fh b /\
    fx r - fx f == before_x a * (fw f - fw r) /\ fy r - fy f == before_y a * (fh f - fh r) /\
    (pmos p <> 2%Z -> inside r f) /\ (pmos p = 2%Z -> inside f r) /\ (fw r == fw f \/ fh r == fh f).
Proof.
  intros ex ey ew eh vbx vby vbw vbh p f b V B Pfw Pfh Pw Ph A M TA a.
  destruct (main ex ey ew eh vbx vby vbw vbh p f b V B) as (m & kx & ky & E & F & T); [lra|lra|].
  fold (known_align (palign p)) in a. fold a in F, T.
  assert (RA : (2 <= a <= 10)%Z). { unfold a, known_align. destruct (Z.eqb_spec (palign p) 0); lia. }
  destruct (share_before a RA) as (SX & SY & BX & BY).
  assert (DX := div_mul (fw f) (fw b) Pw). assert (DY := div_mul (fh f) (fh b) Ph).
  assert (PX := div_pos _ _ Pfw Pw). assert (PY := div_pos _ _ Pfh Ph). set (rx := fw f / fw b) in *. set (ry := fh f / fh b) in *.
  assert (K : kx == ky /\ (pmos p <> 2%Z -> kx <= rx /\ kx <= ry) /\ (pmos p = 2%Z -> rx <= kx /\ ry <= kx) /\ (kx == rx \/ kx == ry)).
  { unfold fit in F. destruct (Z.eqb_spec a 1); [lia|]. unfold known_mos in F. destruct (Z.eqb_spec (pmos p) 0) as [Z0|Z0].
    - cbn [Z.eqb Pos.eqb] in F. change (1 =? 1)%Z with true in F. cbn iota in F. destruct (isclose rx ry) eqn:IC.
      + destruct F as (F1 & F2). assert (Z := TA IC). split; [lra|]. split; [intros _; lra|]. split; [lia|]. left. exact F1.
      + destruct F as (F1 & F2). split; [exact F1|]. destruct (Q.min_spec rx ry) as [(C1 & C2)|(C1 & C2)]; rewrite C2 in F2; split; try (intros _; lra); (split; [lia|]); auto.
    - destruct (Z.eqb_spec (pmos p) 1) as [Z1|Z1].
      + destruct (isclose rx ry) eqn:IC.
        * destruct F as (F1 & F2). assert (Z := TA IC). split; [lra|]. split; [intros _; lra|]. split; [lia|]. left. exact F1.
        * destruct F as (F1 & F2). split; [exact F1|]. destruct (Q.min_spec rx ry) as [(C1 & C2)|(C1 & C2)]; rewrite C2 in F2; split; try (intros _; lra); (split; [lia|]); auto.
      + assert (Z2 : pmos p = 2%Z) by lia. rewrite Z2 in F. change (2 =? 2)%Z with true in F. cbn iota in F. destruct (isclose rx ry) eqn:IC.
        * destruct F as (F1 & F2). assert (Z := TA IC). split; [lra|]. split; [congruence|]. split; [intros _; lra|]. left. exact F1.
        * destruct F as (F1 & F2). split; [exact F1|]. destruct (Q.max_spec rx ry) as [(C1 & C2)|(C1 & C2)]; rewrite C2 in F2; split; try congruence; (split; [intros _; lra|]); auto. }
  destruct K as (K1 & K2 & K3 & K4).
  set (r := mkF (fx f + before_x a * (fw f - kx * fw b)) (fy f + before_y a * (fh f - kx * fh b)) (kx * fw b) (kx * fh b)).
  exists m, kx, r. split; [exact E|]. split.
  { split; [destruct (T (fx b) (fy b)) as (X & Y & E1 & H1 & H2)|destruct (T (fx b + fw b) (fy b + fh b)) as (X & Y & E1 & H1 & H2)];
      exists X, Y; (split; [exact E1|]); rewrite H1, H2, SX, SY, <- K1; cbn [fx fy fw fh r]; split; ring. }
  split; [destruct K4; lra|]. split; [reflexivity|]. split; [reflexivity|].
  split; [cbn; ring|]. split; [cbn; ring|].
  split; [|split].
  - intros N. destruct (K2 N) as (L1 & L2). unfold inside. cbn [fx fy fw fh r].
    assert (0 <= fw f - kx * fw b) by (rewrite <- DX; nra). assert (0 <= fh f - kx * fh b) by (rewrite <- DY; nra). repeat split; nra.
  - intros N. destruct (K3 N) as (L1 & L2). unfold inside. cbn [fx fy fw fh r].
    assert (0 <= kx * fw b - fw f) by (rewrite <- DX; nra). assert (0 <= kx * fh b - fh f) by (rewrite <- DY; nra). repeat split; nra.
  - cbn [fx fy fw fh r]. destruct K4 as [Z|Z]; [left|right]; rewrite Z; auto.
Qed.
Print Assumptions c34_fit_partial.
Example c34_meet_case : exists m, viewport_matrix (ln 0 None) (ln (1 # 2) inch) (ln 4 inch) (ln 1 inch) (vbox 7 1) = Ok m /\
  takes m 5 5 192 48 /\ takes m 105 55 384 144 /\ told_apart (384 / 100) (96 / 50).
Proof. eexists. split; [reflexivity|]. split; [|split; [|vm_compute; discriminate]]; do 2 eexists; (split; [reflexivity|]); split; reflexivity. Qed.
Example c34_slice_case : exists m, viewport_matrix (ln 0 None) (ln (1 # 2) inch) (ln 4 inch) (ln 1 inch) (vbox 9 2) = Ok m /\
  takes m 5 5 0 (-48) /\ takes m 105 55 384 144.
Proof. eexists. split; [reflexivity|]. split; do 2 eexists; (split; [reflexivity|]); split; reflexivity. Qed.
(** The fractions: xMin xMid xMax across, YMin YMid YMax down. *)
Example c34_fractions_case : map before_x [2; 3; 4; 5; 6; 7; 8; 9; 10]%Z = [0 / 2; 1 / 2; 2 / 2; 0 / 2; 1 / 2; 2 / 2; 0 / 2; 1 / 2; 2 / 2] /\
  map before_y [2; 3; 4; 5; 6; 7; 8; 9; 10]%Z = [0 / 2; 0 / 2; 0 / 2; 1 / 2; 1 / 2; 1 / 2; 2 / 2; 2 / 2; 2 / 2].
Proof. split; reflexivity. Qed.

(** ** Without a view box: a translation *)
Theorem c34_no_box : forall ex ey ew eh f, viewport_is ex ey ew eh f ->
  exists m, viewport_matrix ex ey ew eh None = Ok m /\ forall x y, takes m x y (fx f + x) (fy f + y).
Proof.
  intros ex ey ew eh f (_ & _ & _ & SX & SY & _). destruct (pixels_abs _ _ SX) as (a & Ea & Ha). destruct (pixels_abs _ _ SY) as (b & Eb & Hb).
  cbn [viewport_matrix]. rewrite Ea, Eb. cbn [bind]. eexists. split; [reflexivity|]. intros x y.
  destruct (scaled_matrix a b 1 1 x y) as (X & Y & E & HX & HY). unfold scale_self in E. change (1 =?q 1) with true in E. cbn [andb] in E.
  exists X, Y. split; [exact E|]. rewrite HX, HY, Ha, Hb. split; ring.
Qed.
Print Assumptions c34_no_box.

(** ** Where it fails *)
(** Ratios below 1e-9 count as equal: the scale is not uniform. *)
Theorem c34_uniform_refuted : exists w h m X Y, 0 < w /\ 0 < h /\
  viewport_matrix (ln 0 None) (ln 0 None) (ln w None) (ln h None) (Some (ln 0 None, ln 0 None, ln 1000000000000 None, ln 1000000000000 None, mkPar 6 1)) = Ok m /\
  takes m 1 0 X 0 /\ takes m 0 1 0 Y /\ Y == 2 * X.
Proof.
  exists 100, 200. eexists. exists (1 # 10000000000), (2 # 10000000000). split; [reflexivity|]. split; [reflexivity|]. split; [reflexivity|].
  split; [|split; [|reflexivity]]; do 2 eexists; (split; [reflexivity|]); split; reflexivity.
Qed.
Print Assumptions c34_uniform_refuted.
(** Width and height in different units: 1in x 96px is a square, but a square
    view box is not mapped onto it. *)
Theorem c34_units_refuted : exists m X Y, shows (ln 1 inch) 96 /\ shows (ln 96 (Some (lit "px"))) 96 /\
  viewport_matrix (ln 0 None) (ln 0 None) (ln 1 inch) (ln 96 (Some (lit "px"))) (Some (ln 0 None, ln 0 None, ln 96 None, ln 96 None, mkPar 1 1)) = Ok m /\
  takes m 96 96 X Y /\ X == 96 /\ Y == 1.
Proof.
  eexists. exists 96, 1. split; [eexists; split; [constructor|reflexivity]|]. split; [eexists; split; [constructor|reflexivity]|]. split; [reflexivity|].
  split; [|split; reflexivity]. do 2 eexists. split; [reflexivity|]. split; reflexivity.
Qed.
Print Assumptions c34_units_refuted.
(** So too when x has another unit than the width. *)
Theorem c34_origin_units_refuted : exists m X Y,
  viewport_matrix (ln 5 (Some (lit "px"))) (ln 0 None) (ln 1 inch) (ln 1 inch) (Some (ln 0 None, ln 0 None, ln 96 None, ln 96 None, mkPar 1 1)) = Ok m /\
  takes m 1 1 X Y /\ X == 101.
Proof. eexists. exists 101, 96. split; [reflexivity|]. split; [|reflexivity]. do 2 eexists. split; [reflexivity|]. split; reflexivity. Qed.
Print Assumptions c34_origin_units_refuted.
(** A view box of no width raises. *)
Theorem c34_empty_box_refuted : forall p, viewport_matrix (ln 0 None) (ln 0 None) (ln 10 None) (ln 10 None) (Some (ln 0 None, ln 0 None, ln 0 None, ln 5 None, p)) = Err ZeroDivisionError.
Proof. intros p. reflexivity. Qed.
Print Assumptions c34_empty_box_refuted.

(** ** The size of nested viewports *)
(** Widths and heights that are absolute, percentages, auto or inherit: each
    percentage is one of the enclosing viewport, the outermost of the window. *)
Theorem c34_sizes_partial : forall ww wh l W H, nested l ww wh W H ->
  exists w h, vp_sizes l (window_len ww Horizontal) (window_len wh Vertical) = Ok (w, h) /\ shows w W /\ shows h H.
Proof. intros ww wh l W H N. apply (sizes_spec l ww wh W H N); exists 1; (split; [constructor|]); cbn; ring. Qed.
Print Assumptions c34_sizes_partial.
Definition root_ (w h : option text) : vroot := mkR w h None None no_context no_context None.
Example c34_sizes_case : nested [root_ (Some (lit "2in")) None; root_ (Some (lit "50%")) (Some (lit "25%"))] 1280 720 96 180.
Proof.
  apply n_cons with (W1 := 192) (H1 := 720).
  - apply sm_absolute with (w := lit "2in") (n := 2 # 1) (u := Some (lit "in")) (s := 96); [reflexivity|discriminate|discriminate|reflexivity|constructor|reflexivity].
  - apply sm_auto. now left.
  - apply n_cons with (W1 := 96) (H1 := 180); [| |constructor].
    + apply sm_percent with (w := lit "50%") (n := 50 # 1); reflexivity.
    + apply sm_percent with (w := lit "25%") (n := 25 # 1); reflexivity.
Qed.
(** and the origin: of the innermost, percentages being of its own size *)
Theorem c34_origin : forall ww wh l r W H tx ty n m u s u' s', nested (l ++ [r]) ww wh W H ->
  rx r = Some tx -> ry r = Some ty -> parse tx = Ok (n, u) -> parse ty = Ok (m, u') ->
  (u = Some (lit "%") \/ absolute u s) -> (u' = Some (lit "%") \/ absolute u' s') ->
  exists x y w h, get_viewport_size ww wh (l ++ [r]) = Ok (x, y, w, h) /\ shows w W /\ shows h H /\
    (u = Some (lit "%") -> shows x (W * (n / 100))) /\ (absolute u s -> shows x (n * s)) /\
    (u' = Some (lit "%") -> shows y (H * (m / 100))) /\ (absolute u' s' -> shows y (m * s')).
Proof.
  intros ww wh l r W H tx ty n m u s u' s' N RX RY PX PY UX UY. destruct (c34_sizes_partial _ _ _ _ _ N) as (w & h & E & SW & SH).
  unfold get_viewport_size. rewrite E, rev_app_distr. cbn [bind rev app]. rewrite RX, RY.
  assert (X : exists x, resolve r tx Horizontal w h = Ok x /\ (u = Some (lit "%") -> shows x (W * (n / 100))) /\ (absolute u s -> shows x (n * s))).
  { destruct UX as [->|A].
    - destruct (resolve_percent r tx Horizontal n w h W H PX ltac:(discriminate) SW SH) as (x & Ex & S). exists x. split; [auto|]. split; [auto|]. intros A. inversion A.
    - destruct (resolve_absolute r tx Horizontal n u s w h PX A) as (x & Ex & S). exists x. split; [auto|]. split; [|auto]. intros ->. inversion A. }
  assert (Y : exists y, resolve r ty Vertical w h = Ok y /\ (u' = Some (lit "%") -> shows y (H * (m / 100))) /\ (absolute u' s' -> shows y (m * s'))).
  { destruct UY as [->|A].
    - destruct (resolve_percent r ty Vertical m w h W H PY ltac:(discriminate) SW SH) as (x & Ex & S). exists x. split; [auto|]. split; [auto|]. intros A. inversion A.
    - destruct (resolve_absolute r ty Vertical m u' s' w h PY A) as (x & Ex & S). exists x. split; [auto|]. split; [|auto]. intros ->. inversion A. }
  destruct X as (x & EX & X1 & X2). destruct Y as (y & EY & Y1 & Y2). rewrite EX. cbn [bind]. rewrite EY. cbn [bind]. exists x, y, w, h. repeat split; auto.
Qed.
Print Assumptions c34_origin.
(** vmin and vmax forget their number, vh as a width counts twice, and
    viewport units without a view box never end (base.py 276-282, core.py 1402). *)
Definition boxed (w : text) : vroot := mkR (Some w) None None None (mkC 16 16 200 100 0 None (fun _ _ => 0)) no_context (Some (200, 100)).
Theorem c34_viewport_units_refuted : exists a b c,
  vp_sizes [boxed (lit "10vmin")] (window_len 1280 Horizontal) (window_len 720 Vertical) = Ok (a, b) /\ num a == 720 /\
  vp_sizes [boxed (lit "50vh")] (window_len 1280 Horizontal) (window_len 720 Vertical) = Ok (c, b) /\ num c == 180 /\
  vp_sizes [root_ (Some (lit "50vw")) None] (window_len 1280 Horizontal) (window_len 720 Vertical) = Err OtherError.
Proof. do 3 eexists. split; [reflexivity|]. split; [reflexivity|]. split; [reflexivity|]. split; reflexivity. Qed.
Print Assumptions c34_viewport_units_refuted.

(** What viewport units give in general: vw of a width and vh of a height are
    percentages of the parent's; crossed, they are off by the ratio of the view
    box; vmax and vmin give the larger and smaller of the parent's sizes
    whatever their number. *)
Theorem c34_viewport_units : forall r t n u d pw ph W H, parse t = Ok (n, Some u) -> rbox r <> None -> 0 < cvw (rctx r) -> 0 < cvh (rctx r) -> shows pw W -> shows ph H -> d <> Unspecified ->
  (mem u [lit "vw"; lit "vh"] = true -> exists x, resolve r t d pw ph = Ok x /\
     shows x ((if text_eqb u (lit "vw") then W else H) * (n / 100) *
              (match d with Vertical => if text_eqb u (lit "vw") then cvw (rctx r) / cvh (rctx r) else 1 | _ => if text_eqb u (lit "vw") then 1 else cvh (rctx r) / cvw (rctx r) end)))
  /\ (mem u [lit "vmax"; lit "vmin"] = true -> lunit pw = lunit ph -> told_apart (num ph) (num pw) -> exists x, resolve r t d pw ph = Ok x /\
     shows x (if text_eqb u (lit "vmax") then if W <=?q H then H else W else if W <=?q H then W else H)).
Proof.
  intros r t n u d pw ph W H P B CW CH SW SH D. split.
  - intros M. destruct (rbox r) as [b|] eqn:RB; [|congruence]. apply mem_in in M. assert (NW : (cvw (rctx r) =?q 0) = false) by (destruct (Qeqb_spec (cvw (rctx r)) 0); [lra|reflexivity]). assert (NH : (cvh (rctx r) =?q 0) = false) by (destruct (Qeqb_spec (cvh (rctx r)) 0); [lra|reflexivity]).
    assert (PC : forall w, In w [lit "vw"; lit "vh"] -> percent_of r (mkL n (Some w) (rctx r) (rcopy r) (Some d)) = do q <- div (n * vk (rctx r) w / 100) (match d with Vertical => cvh (rctx r) | _ => cvw (rctx r) end); Ok (q * 100)).
    { intros w I. unfold percent_of. rewrite RB. destruct I as [<-|[<-|[]]]; destruct d; try congruence; reflexivity. }
    assert (RS : forall w, In w [lit "vw"; lit "vh"] -> parse t = Ok (n, Some w) -> resolve r t d pw ph = do p <- percent_of r (mkL n (Some w) (rctx r) (rcopy r) (Some d)); Ok (mul_n (if text_eqb w (lit "vw") then pw else ph) (p / 100))).
    { intros w I E. unfold resolve, rlen. rewrite E. destruct I as [<-|[<-|[]]]; destruct d; try congruence; reflexivity. }
    rewrite (RS u M P), (PC u M). unfold div. destruct M as [<-|[<-|[]]]; destruct d; try congruence; rewrite ?NW, ?NH; cbn [bind]; (eexists; split; [reflexivity|]);
      (eapply shows_fun; [apply scale_shows; eassumption|]);
      match goal with |- context [vk ?c ?w] => change (vk c w) with (cvw c) || change (vk c w) with (cvh c) end;
      repeat match goal with |- context [text_eqb ?a ?b] => let e := eval vm_compute in (text_eqb a b) in change (text_eqb a b) with e end; cbv iota; field; lra.
  - unfold resolve, rlen. rewrite P. cbn [bind fst snd unit_of lunit]. intros M U T. apply mem_in in M. assert (V1 := value_same pw (lunit ph) U). assert (V2 := value_same ph (lunit pw) (eq_sym U)).
    destruct SW as (s & AW & EW), SH as (s' & AH & EH). assert (S := absolute_fun (lunit ph) s' s AH ltac:(now rewrite <- U)). destruct (absolute_sized _ _ AW) as (Ps & _).
    assert (EH' : H == num ph * s) by (rewrite EH, S; reflexivity).
    assert (G : exists b, gt_ ph pw = Ok b /\ (b = true <-> W < H)).
    { unfold gt_. rewrite V1. cbn [bind]. eexists. split; [reflexivity|]. destruct (isclose (num ph) (num pw)) eqn:C.
      - assert (E := T C). split; [discriminate|]. intros L. exfalso. rewrite EW, EH', E in L. lra.
      - destruct (Qltb_spec (num pw) (num ph)) as [L|L]; split; intros X; try reflexivity; try discriminate.
        + rewrite EW, EH'. apply Qmult_lt_r; assumption.
        + exfalso. apply L. rewrite EW, EH' in X. apply Qmult_lt_r in X; assumption. }
    assert (G' : exists b, lt_ ph pw = Ok b /\ (b = true <-> H < W)).
    { unfold lt_. rewrite V1. cbn [bind]. eexists. split; [reflexivity|]. destruct (isclose (num ph) (num pw)) eqn:C.
      - assert (E := T C). split; [discriminate|]. intros L. exfalso. rewrite EW, EH', E in L. lra.
      - destruct (Qltb_spec (num ph) (num pw)) as [L|L]; split; intros X; try reflexivity; try discriminate.
        + rewrite EW, EH'. apply Qmult_lt_r; assumption.
        + exfalso. apply L. rewrite EW, EH' in X. apply Qmult_lt_r in X; assumption. }
    assert (SW : shows pw W) by (exists s; auto). assert (SH : shows ph H) by (exists s'; auto).
    destruct G as (b & G & Gb), G' as (b' & G' & Gb').
    assert (Fb : if b then W < H else H <= W) by (destruct b; [now apply Gb|]; destruct (Qlt_le_dec W H) as [X|X]; [apply Gb in X; discriminate|exact X]).
    assert (Fb' : if b' then H < W else W <= H) by (destruct b'; [now apply Gb'|]; destruct (Qlt_le_dec H W) as [X|X]; [apply Gb' in X; discriminate|exact X]).
    destruct M as [<-|[<-|[]]]; destruct d; try congruence; cbn [unit_of lunit]; (eexists; split; [cbn; unfold max_, min_; rewrite ?G, ?G'; reflexivity|]); cbn;
      destruct (Qleb_spec W H) as [L|L]; destruct b, b'; try (exfalso; lra); try assumption; idtac. all: try (apply (shows_fun pw W); [exact SW|apply Qle_antisym; assumption]). all: try (apply (shows_fun ph H); [exact SH|apply Qle_antisym; assumption]).
Qed.
Print Assumptions c34_viewport_units.
Example c34_viewport_units_case : exists x y, resolve (boxed (lit "50vh")) (lit "50vh") Horizontal (window_len 1280 Horizontal) (window_len 720 Vertical) = Ok x /\ num x == 720 * (50 / 100) * (100 / 200)
  /\ resolve (boxed (lit "50vh")) (lit "7vmin") Vertical (window_len 1280 Horizontal) (window_len 720 Vertical) = Ok y /\ num y == 720.
Proof. do 2 eexists. split; [reflexivity|]. split; [reflexivity|]. split; reflexivity. Qed.

(** ** viewBox texts *)
(** Four numbers with separators between them *)
Theorem c34_box_leading_space_refuted : view_box no_context no_context (lit " 0 0 10 10") = Err ValueError /\
  (exists x y w h, view_box no_context no_context (lit "0, 0 ,10 10 garbage") = Ok (x, y, w, h) /\ num w == 10) /\
  view_box no_context no_context (lit "0 0 10") = Err IndexError.
Proof. split; [reflexivity|]. split; [|reflexivity]. do 4 eexists. split; reflexivity. Qed.
Print Assumptions c34_box_leading_space_refuted.

(** * C35 *)
(** Whatever the text, the result is a defined setting. *)
Theorem c35_valid : forall t, (1 <= palign (par_parse t) <= 10)%Z /\ (1 <= pmos (par_parse t) <= 2)%Z.
Proof.
  intros t. assert (A : forall w, (1 <= code_of align_names w 6 <= 10)%Z).
  { intros w. destruct (code_in align_names w 6) as [E|I]; [rewrite E; lia|]. revert I. generalize (code_of align_names w 6). intros z I. cbn in I. lia. }
  assert (M : forall w, (1 <= code_of mos_names w 1 <= 2)%Z).
  { intros w. destruct (code_in mos_names w 1) as [E|I]; [rewrite E; lia|]. revert I. generalize (code_of mos_names w 1). intros z I. cbn in I. lia. }
  unfold par_parse. destruct (split_sequence (strip t)) as [|a [|m l]]; cbn [palign pmos]; split; auto; lia.
Qed.
Print Assumptions c35_valid.
(** A text whose first word is no keyword aligns xMidYMid. *)
Theorem c35_fallback : forall t,
  ~ In (takewhile (fun c => negb (is_space c || (c =? 44)%N)) (strip t))
       [lit "none"; lit "xMinYMin"; lit "xMidYMin"; lit "xMaxYMin"; lit "XMinYMid"; lit "xMidYMid"; lit "xMaxYMid"; lit "xMinYMax"; lit "xMidYMax"; lit "xMaxYMax"] ->
  palign (par_parse t) = 6%Z.
Proof.
  intros t N. unfold par_parse. destruct (split_first (strip t)) as (l & E). rewrite E.
  assert (C : code_of align_names (takewhile plain (strip t)) 6 = 6%Z) by (apply code_not; exact N). destruct l; exact C.
Qed.
Print Assumptions c35_fallback.
Example c35_fallback_case : par_parse (lit "defer xMinYMin slice") = mkPar 6 1 /\ par_parse (lit "") = mkPar 6 1. Proof. split; reflexivity. Qed.
(** The keywords, alone or with meet or slice, with any white space around and
    white space or a comma between. *)
Theorem c35_keywords_partial : forall k n sep s1 s2, In (k, n)
    [(1%Z, lit "none"); (2%Z, lit "xMinYMin"); (3%Z, lit "xMidYMin"); (4%Z, lit "xMaxYMin"); (6%Z, lit "xMidYMid"); (7%Z, lit "xMaxYMid");
     (8%Z, lit "xMinYMax"); (9%Z, lit "xMidYMax"); (10%Z, lit "xMaxYMax")] ->
  separates sep -> forallb is_space s1 = true -> forallb is_space s2 = true ->
  par_parse (s1 ++ n ++ s2) = mkPar k 1 /\ par_parse (s1 ++ (n ++ sep ++ lit "meet") ++ s2) = mkPar k 1 /\ par_parse (s1 ++ (n ++ sep ++ lit "slice") ++ s2) = mkPar k 2.
Proof.
  intros k n sep s1 s2 I S A B.
  assert (N : forallb plain n = true /\ n <> [] /\ code_of align_names n 6 = k).
  { repeat (destruct I as [I|I]; [injection I as <- <-; repeat split; discriminate|]). destruct I. }
  destruct N as (P & NE & C). destruct (head_plain n P) as (H1 & H2).
  assert (W : forall m, m <> [] -> forallb plain m = true -> strip (s1 ++ (n ++ sep ++ m) ++ s2) = n ++ sep ++ m).
  { intros m Nm Pm. apply strip_around; auto.
    - destruct n; [congruence|exact H1].
    - destruct (head_plain m Pm) as (_ & H4). rewrite !rev_app_distr. destruct (rev m) as [|c r] eqn:E; [|exact H4]. exfalso. apply Nm. rewrite <- (rev_involutive m), E. reflexivity.
    - destruct n; [congruence|discriminate]. }
  unfold par_parse. split; [|split].
  - rewrite strip_around by auto. rewrite split_one by auto. now rewrite C.
  - rewrite W by (reflexivity || discriminate). rewrite split_two by (auto; discriminate). now rewrite C.
  - rewrite W by (reflexivity || discriminate). rewrite split_two by (auto; discriminate). now rewrite C.
Qed.
Print Assumptions c35_keywords_partial.
Example c35_keywords_case : separates (lit " ,  ") /\ par_parse (lit "  xMaxYMin ,  slice ") = mkPar 4 2.
Proof. split; [|reflexivity]. exists (lit " "), (lit "  "). split; [reflexivity|]. split; [reflexivity|]. now left. Qed.
(** 'xMinYMid' is not known (687: 'XMinYMid'): it reads as xMidYMid. *)
Theorem c35_keyword_refuted : par_parse (lit "xMinYMid slice") = mkPar 6 2 /\ par_tostring (mkPar 5 1) = lit "XMinYMid meet".
Proof. split; reflexivity. Qed.
Print Assumptions c35_keyword_refuted.
(** Printing and reading gives the setting back. *)
Theorem c35_roundtrip_partial : forall p, (2 <= palign p <= 10)%Z -> (1 <= pmos p <= 2)%Z -> par_parse (par_tostring p) = p.
Proof.
  intros (a & m) A M. cbn [palign pmos] in *.
  assert (E : (a = 2 \/ a = 3 \/ a = 4 \/ a = 5 \/ a = 6 \/ a = 7 \/ a = 8 \/ a = 9 \/ a = 10)%Z) by lia. assert (F : (m = 1 \/ m = 2)%Z) by lia.
  destruct F as [-> | ->]; repeat (destruct E as [->|E]; [reflexivity|]); subst; reflexivity.
Qed.
Print Assumptions c35_roundtrip_partial.
Example c35_roundtrip_case : par_tostring (mkPar 8 2) = lit "xMinYMax slice". Proof. reflexivity. Qed.
(** none loses slice. *)
Theorem c35_none_refuted : par_parse (par_tostring (mkPar 1 2)) = mkPar 1 1 /\ par_parse (lit "none slice") = mkPar 1 2.
Proof. split; reflexivity. Qed.
Print Assumptions c35_none_refuted.
(** What was read prints as something that reads the same, unless none. *)
Theorem c35_stable : forall t, palign (par_parse t) <> 1%Z -> par_parse (par_tostring (par_parse t)) = par_parse t.
Proof. intros t N. destruct (c35_valid t) as (A & M). apply c35_roundtrip_partial; lia. Qed.
Print Assumptions c35_stable.
Example c35_stable_case : palign (par_parse (lit "xMaxYMin whatever")) <> 1%Z. Proof. discriminate. Qed.
