(** C14: with arcs, too, normalisation does not fail. *)
From Coq Require Import Qabs Qround Qminmax Lia Lqa Qfield.
From Verif Require Import PyBase MatrixModel MatrixSpec PathModel PathSpec MatrixProofs2 PathProofs PathNormProofs PathTransProofs PathArcProofs PathArcSpec.
#[local] Open Scope Q_scope.

Lemma angle_same at2 y x y' x' : exact_angles at2 -> get_angle at2 y x == get_angle at2 y' x' -> y * x' == y' * x /\ 0 <= x * x' + y * y'.
Proof.
  intros [R S] E. apply S. destruct (R y x) as (A & B & C). destruct (R y' x') as (A' & B' & C'). unfold get_angle in E.
  destruct (Qltb_spec 0 y) as [L|L], (Qltb_spec 0 y') as [L'|L']; [lra| | |].
  - specialize (A L). destruct (Qltb_spec y' 0) as [M|M]; [specialize (B' M); lra|]. assert (Z : y' == 0) by lra. destruct (C' Z) as [Z'|Z']; rewrite Z' in E; lra.
  - specialize (A' L'). destruct (Qltb_spec y 0) as [M|M]; [specialize (B M); lra|]. assert (Z : y == 0) by lra. destruct (C Z) as [Z'|Z']; rewrite Z' in E; lra.
  - destruct (Qltb_spec y 0) as [M|M], (Qltb_spec y' 0) as [M'|M']; [lra| | |exact E].
    + specialize (B M). assert (Z : y' == 0) by lra. destruct (C' Z) as [Z'|Z']; rewrite Z' in E; lra.
    + specialize (B' M'). assert (Z : y == 0) by lra. destruct (C Z) as [Z'|Z']; rewrite Z' in E; lra.
Qed.
Lemma angle_range at2 y x : exact_angles at2 -> 0 <= get_angle at2 y x < 360.
Proof.
  intros [R _]. destruct (R y x) as (A & B & C). unfold get_angle. destruct (Qltb_spec 0 y) as [L|L]; [specialize (A L); lra|]. destruct (Qltb_spec y 0) as [M|M]; [specialize (B M); lra|].
  assert (Z : y == 0) by lra. destruct (C Z) as [Z'|Z']; rewrite Z'; lra.
Qed.
Lemma square0 a b : 0 <= - (a * a + b * b) -> a == 0 /\ b == 0.
Proof.
  intros H. assert (sq : forall z : Q, 0 <= z * z) by (intros z; destruct (Qlt_le_dec z 0); [setoid_replace (z * z) with ((- z) * (- z)) by ring|]; apply Qmult_le_0_compat; lra).
  assert (A := sq a). assert (B := sq b). assert (A0 : a * a == 0) by lra. assert (B0 : b * b == 0) by lra. split; [destruct (Qmult_integral a a A0)|destruct (Qmult_integral b b B0)]; assumption.
Qed.
(** the centre does not lie on the line beyond both ends *)
Lemma centre_between o rx ry rot fa fs cp ep : unit_angle o rot -> 0 < rx -> 0 < ry -> ~ peq cp ep ->
  let c := arc_center o rx ry rot fa fs cp ep in
  ~ ((pty cp - pty c) * (ptx ep - ptx c) == (pty ep - pty c) * (ptx cp - ptx c) /\ 0 <= (ptx cp - ptx c) * (ptx ep - ptx c) + (pty cp - pty c) * (pty ep - pty c)).
Proof.
  intros U X Y N c [CR DT]. unfold c, arc_center in CR, DT. cbv zeta in CR, DT. cbn [ptx pty] in CR, DT. unfold unit_angle in U.
  set (h := arc_half o rot cp ep) in *. set (f := if Bool.eqb fa fs then _ else _) in *. set (C := ocos o rot) in *. set (S := osin o rot) in *.
  set (dx := (ptx cp - ptx ep) / 2). set (dy := (pty cp - pty ep) / 2).
  assert (HX : ptx h == C * dx + S * dy) by reflexivity. assert (HY : pty h == - S * dx + C * dy) by reflexivity.
  assert (D0 : ~ (dx == 0 /\ dy == 0)). { intros [A B]. apply N. unfold dx in A. unfold dy in B. split.
    - assert (K : ptx cp - ptx ep == 0) by (transitivity ((ptx cp - ptx ep) / 2 * 2); [field|rewrite A; ring]). lra.
    - assert (K : pty cp - pty ep == 0) by (transitivity ((pty cp - pty ep) / 2 * 2); [field|rewrite B; ring]). lra. }
  clearbody f h. set (hx := ptx h) in *. set (hy := pty h) in *. clearbody hx hy. set (zx := f * (rx * hy / ry)) in *. set (zy := f * (- ry * hx / rx)) in *.
  assert (V1 : ptx cp - (C * zx - S * zy + (ptx cp + ptx ep) / 2) == dx - (C * zx - S * zy)) by (unfold dx; field).
  assert (V2 : pty cp - (S * zx + C * zy + (pty cp + pty ep) / 2) == dy - (S * zx + C * zy)) by (unfold dy; field).
  assert (W1 : ptx ep - (C * zx - S * zy + (ptx cp + ptx ep) / 2) == - dx - (C * zx - S * zy)) by (unfold dx; field).
  assert (W2 : pty ep - (S * zx + C * zy + (pty cp + pty ep) / 2) == - dy - (S * zx + C * zy)) by (unfold dy; field).
  rewrite V1, V2, W1, W2 in CR, DT. clear V1 V2 W1 W2.
  assert (HZ : hx * zy == hy * zx).
  { rewrite HX, HY. assert (K : 2 * ((C * dx + S * dy) * zy - (- S * dx + C * dy) * zx) == 0).
    { transitivity ((dy - (S * zx + C * zy)) * (- dx - (C * zx - S * zy)) - (- dy - (S * zx + C * zy)) * (dx - (C * zx - S * zy))); [ring|rewrite CR; ring]. }
    lra. }
  assert (H0 : ~ (hx == 0 /\ hy == 0)).
  { intros [A B]. apply D0. rewrite A in HX. rewrite B in HY. split.
    - transitivity ((C * C + S * S) * dx); [rewrite U; ring|]. transitivity (C * (C * dx + S * dy) - S * (- S * dx + C * dy)); [ring|]. rewrite <- HX, <- HY. ring.
    - transitivity ((C * C + S * S) * dy); [rewrite U; ring|]. transitivity (S * (C * dx + S * dy) + C * (- S * dx + C * dy)); [ring|]. rewrite <- HX, <- HY. ring. }
  assert (F0 : f == 0).
  { assert (K : f * ((rx * hy) * (rx * hy) + (ry * hx) * (ry * hx)) == 0).
    { transitivity (rx * ry * (hy * zx - hx * zy)); [unfold zx, zy; field; split; lra|]. rewrite HZ. ring. }
    destruct (Qmult_integral _ _ K) as [K'|K']; [exact K'|]. exfalso. apply H0. destruct (square0 (rx * hy) (ry * hx)) as [A B]; [lra|].
    split; [destruct (Qmult_integral _ _ B)|destruct (Qmult_integral _ _ A)]; lra. }
  assert (ZX : zx == 0) by (unfold zx; rewrite F0; ring). assert (ZY : zy == 0) by (unfold zy; rewrite F0; ring). rewrite ZX, ZY in DT.
  apply D0, square0. setoid_replace (- (dx * dx + dy * dy)) with ((dx - (C * 0 - S * 0)) * (- dx - (C * 0 - S * 0)) + (dy - (S * 0 + C * 0)) * (- dy - (S * 0 + C * 0))) by ring. exact DT.
Qed.
Lemma isclose_refl x y : x == y -> isclose x y = true.
Proof.
  intros E. unfold isclose. destruct (Qleb_spec (Qabs (x - y)) (Qmax (tol * Qmax (Qabs x) (Qabs y)) tol)) as [|N]; [reflexivity|]. exfalso. apply N.
  apply (Qle_trans _ tol); [setoid_replace (x - y) with 0 by (rewrite E; ring); discriminate|apply Q.le_max_r].
Qed.
Lemma isclose_near x y : isclose x y = true -> near x y.
Proof.
  unfold isclose. destruct (Qleb_spec (Qabs (x - y)) (Qmax (tol * Qmax (Qabs x) (Qabs y)) tol)) as [L|]; [|discriminate]. intros _. unfold near. cbv zeta. set (e := Qabs (x - y)) in *. clearbody e.
  destruct (Q.max_spec (tol * Qmax (Qabs x) (Qabs y)) tol) as [[_ M]|[_ M]]; rewrite M in L; unfold tol in *; [left; lra|]. right.
  destruct (Q.max_spec (Qabs x) (Qabs y)) as [[_ K]|[_ K]]; rewrite K in L; [right|left]; lra.
Qed.
Lemma factor_pos o rx ry h : (forall a, 1 < a -> 0 < osqrt o a) -> 0 < arc_factor o rx ry h.
Proof. intros R. unfold arc_factor. cbv zeta. destruct (Qltb_spec 1 (ptx h * ptx h / (rx * rx) + pty h * pty h / (ry * ry))) as [L|]; [now apply R|reflexivity]. Qed.
(** One arc: nothing comes out only when the ends are equal. *)
Lemma arc_ok o at2 rx ry rot fa fs cp ep : unit_angle o rot -> (forall a, 1 < a -> 0 < osqrt o a) -> exact_angles at2 ->
  exists l, normalize_arc o at2 rx ry rot fa fs cp ep = Ok l /\ (l = [] -> near (ptx cp) (ptx ep) /\ near (pty cp) (pty ep)).
Proof.
  intros U R T. unfold normalize_arc. destruct (get_center_of_arc o at2 rx ry rot fa fs cp ep) as [rx' ry'|c rx' ry' d1 ext] eqn:G.
  - eexists. split; [reflexivity|]. unfold get_center_of_arc in G. destruct ((arc_radius rx =?q 0) || (arc_radius ry =?q 0)) eqn:Z.
    + injection G as <- <-. rewrite Z. discriminate.
    + destruct (isclose (ptx cp) (ptx ep) && isclose (pty cp) (pty ep)) eqn:Cl; [|discriminate]. intros _. apply andb_true_iff in Cl as [A B]. split; now apply isclose_near.
  - assert (E : ~ ext == 0).
    { unfold get_center_of_arc in G. destruct ((arc_radius rx =?q 0) || (arc_radius ry =?q 0)) eqn:Z; [discriminate|]. destruct (isclose (ptx cp) (ptx ep) && isclose (pty cp) (pty ep)) eqn:Cl; [discriminate|].
      apply orb_false_iff in Z as [Zx Zy].
      assert (N : ~ peq cp ep). { intros [A B]. rewrite (isclose_refl _ _ A), (isclose_refl _ _ B) in Cl. discriminate. }
      assert (K := factor_pos o (arc_radius rx) (arc_radius ry) (arc_half o rot cp ep) R). set (k := arc_factor o (arc_radius rx) (arc_radius ry) (arc_half o rot cp ep)) in *.
      assert (Rp : forall r, (arc_radius r =?q 0) = false -> 0 < arc_radius r * k).
      { intros r H. destruct (Qeqb_spec (arc_radius r) 0) as [|N0]; [discriminate|]. assert (P : 0 <= arc_radius r) by (unfold arc_radius; destruct (isclose (Qabs r) 0); [discriminate|apply Qabs_nonneg]).
        apply Qle_lt_or_eq in P as [P|P]; [|exfalso; apply N0; now rewrite <- P]. setoid_replace 0 with (0 * k) by ring. now apply Qmult_lt_r. }
      assert (B := centre_between o (arc_radius rx * k) (arc_radius ry * k) rot (negb (fa =?q 0)) (negb (fs =?q 0)) cp ep U (Rp rx Zx) (Rp ry Zy) N). cbv zeta in B.
      set (cc := arc_center _ _ _ _ _ _ _ _) in *. clearbody cc. injection G as _ _ _ _ <-. intros E. apply B. apply (angle_same at2 _ _ _ _ T).
      assert (A1 := angle_range at2 (pty cp - pty cc) (ptx cp - ptx cc) T). assert (A2 := angle_range at2 (pty ep - pty cc) (ptx ep - ptx cc) T).
      set (a := get_angle at2 (pty cp - pty cc) (ptx cp - ptx cc)) in *. set (b := get_angle at2 (pty ep - pty cc) (ptx ep - ptx cc)) in *. clearbody a b. unfold arc_extent in E.
      set (d := Qabs _) in E. assert (D0 : 0 <= d) by apply Qabs_nonneg. assert (D1 : d < 360). { unfold d. apply Qabs_Qlt_condition. destruct (rot =?q 0); lra. }
      assert (D2 : d == 0 -> a == b). { intros Dz. unfold d in Dz. destruct (Qlt_le_dec ((if rot =?q 0 then b else b + rot) - (if rot =?q 0 then a else a + rot)) 0) as [L|L].
        - rewrite Qabs_neg in Dz by lra. destruct (rot =?q 0); lra.
        - rewrite Qabs_pos in Dz by lra. destruct (rot =?q 0); lra. }
      clearbody d. apply D2. destruct (negb (fa =?q 0)), (negb (fs =?q 0)); destruct (Qltb_spec d 180), (Qltb_spec 180 d); lra. }
    assert (Pn : (0 < Qceiling (Qabs ext / 90))%Z).
    { assert (A := Qabs_nonneg ext). assert (B : ~ Qabs ext == 0). { intros Z. apply E. destruct (Qlt_le_dec ext 0) as [L|L]; [rewrite Qabs_neg in Z by lra|rewrite Qabs_pos in Z by exact L]; lra. }
      assert (P : 0 < Qabs ext / 90). { apply Qlt_shift_div_l; [reflexivity|]. assert (P : 0 < Qabs ext) by lra. lra. }
      assert (L := Qle_ceiling (Qabs ext / 90)). rewrite Zlt_Qlt. apply (Qlt_le_trans _ (Qabs ext / 90)); [exact P|exact L]. }
    destruct (Nat.eqb_spec (Z.to_nat (Qceiling (Qabs ext / 90))) 0) as [Z|Z]; [lia|]. eexists. split; [reflexivity|]. intros Nl. exfalso. apply Z. rewrite <- (seq_length (Z.to_nat (Qceiling (Qabs ext / 90))) 0). apply map_eq_nil in Nl. now rewrite Nl.
Qed.
Lemma near_eq x y x' y' : x == x' -> y == y' -> near x y -> near x' y'.
Proof. intros A B. unfold near. cbv zeta. rewrite A, B. auto. Qed.
Lemma arc_step_ok o at2 m st s q r rx ry rot fa fs p : oracle_basic o -> (forall t, unit_angle o t) -> (forall a, 1 < a -> 0 < osqrt o a) -> exact_angles at2 ->
  Inv m st s q -> Forall apart (snd (draw o s (SA r rx ry rot fa fs p))) -> exists x, normalize_step o at2 st (SA r rx ry rot fa fs p) = Ok x.
Proof.
  intros O U R T I F. destruct I as (p0 & a0 & Ecp & Est & Pp & _ & Eb & _). destruct st as [start cp ext b last]. cbn [n_cp n_start n_bearing n_last n_ext] in *. subst cp start.
  assert (PS := place_shift' o s p0 b p O Pp Eb). cbn [draw snd] in F. inversion F as [|? ? Ap _]; subst. cbn [apart] in Ap.
  set (e := if r then shift (ptx p0) (pty p0) (turn o (brg s) p) else p). set (rt := if r then (if brg s =?q 0 then rot else rot + brg s) else rot).
  destruct (arc_ok o at2 rx ry rt fa fs p0 e (U rt) R T) as (l & El & Nl).
  assert (L : l <> []).
  { intros Z. apply Ap. destruct (Nl Z) as [A B]. destruct Pp as [Px Py]. destruct r.
    - destruct PS as [Sx Sy]. split; [eapply near_eq; [exact Px|symmetry; exact Sx|exact A]|eapply near_eq; [exact Py|symmetry; exact Sy|exact B]].
    - split; [eapply near_eq; [exact Px|reflexivity|exact A]|eapply near_eq; [exact Py|reflexivity|exact B]]. }
  assert (E1 : seg_normalize o at2 (SA r rx ry rot fa fs p) (some_pt p0) (brg s) ext = Ok l).
  { rewrite <- El. unfold e, rt. destruct p0 as [x0 y0]. destruct r; reflexivity. }
  unfold normalize_step. cbn [kind n_cp n_start n_bearing n_last n_ext]. rewrite E1. cbn [bind is_cubic is_quad orb]. destruct (rev l) as [|z t] eqn:Rv; [exfalso; apply L; now rewrite <- (rev_involutive l), Rv|]. cbn [bind]. eauto.
Qed.
Lemma run_ok o at2 l : oracle_basic o -> (forall t, unit_angle o t) -> (forall a, 1 < a -> 0 < osqrt o a) -> exact_angles at2 -> forall m st s q, Inv m st s q ->
  smooth_ok m l = true -> Forall apart (strokes o s l) -> exists out, normalize_from o at2 st l = Ok out.
Proof.
  intros O U R T; induction l as [|g l IH]; intros m st s q I G N; cbn [normalize_from]; [eauto|].
  cbn [smooth_ok] in G. apply andb_prop in G as [A G]. cbn [strokes] in N.
  assert (N1 : Forall apart (snd (draw o s g)) /\ Forall apart (strokes o (fst (draw o s g)) l)) by (destruct (draw o s g) as [s' d]; now apply Forall_app in N). destruct N1 as [Ng N1].
  assert (E0 : exists x, normalize_step o at2 st g = Ok x).
  { destruct (no_arc g) eqn:NA; [now apply (norm_step_ok o at2 m st s q g)|]. destruct g; try discriminate NA. eapply arc_step_ok; eauto. }
  destruct E0 as ([st' o1] & E). rewrite E. cbn [bind].
  destruct (norm_step o at2 m st s q g st' o1 O I A E) as (_ & I' & _).
  destruct (IH _ _ _ _ I' G N1) as (o2 & ->). cbn [bind]. eauto.
Qed.
(** Paths that begin with a moveto, use smooth curves where they are right and
    have no arc between equal points: normalisation succeeds. *)
Theorem c14_total : forall o at2 l, oracle_basic o -> (forall t, unit_angle o t) -> (forall a, 1 < a -> 0 < osqrt o a) -> exact_angles at2 ->
  begins_moveto l = true -> smooth_ok NoSmooth l = true -> Forall apart (drawing o l) -> exists out, normalize o at2 l = Ok out.
Proof.
  intros o at2 l O U R T. unfold normalize, drawing.
  assert (W : forall l st s, n_cp st = (None, None) -> n_start st = (None, None) -> n_bearing st = brg s -> is_moveto (n_last st) = false -> cur s = P 0 0 -> after_move s = false -> begins_moveto l = true ->
    smooth_ok NoSmooth l = true -> Forall apart (strokes o s l) -> exists out, normalize_from o at2 st l = Ok out).
  { clear l. induction l as [|g l IH]; intros st s Ecp Est Eb El Ec Am BM G N; cbn [normalize_from]; [eauto|].
    cbn [smooth_ok] in *. apply andb_prop in G as [A G].
    destruct g as [r p|r p|r x|r y|r p1 p2 p|r p2 p|r p1 p|r p|r rx ry rot fa fs p|r a|r|p2 p|]; cbn [begins_moveto] in BM; try discriminate BM.
    - destruct st as [start cp ext b last]. cbn [n_cp n_start n_bearing n_last n_ext] in *. subst cp start.
      assert (E1 : normalize_step o at2 (NS (None, None) (None, None) ext b last) (SM r p)
        = let e := if r then shift 0 0 (turn o b p) else p in Ok (NS (some_pt e) (some_pt e) (Some (P (ptx e) (pty e))) b (Some KM), [SM false e])).
      { destruct r; unfold normalize_step; cbn [kind seg_normalize isrelative toabsolute bind is_cubic is_quad orb rev app n_cp n_start n_bearing n_last n_ext seg_end]; unfold set_start; cbn [is_moveto andb missing]; rewrite El; reflexivity. }
      rewrite E1. cbn [bind]. set (e := if r then _ else p). cbn [strokes draw] in N. rewrite Am in N. cbn [app] in N. inversion N as [|? ? _ N1]; subst.
      set (f := place o s r p) in *.
      assert (EF : peq e f). { unfold e, f. destruct r; [|split; reflexivity]. assert (PS := place_shift' o s (P 0 0) (brg s) p O ltac:(rewrite Ec; split; reflexivity) eq_refl). destruct PS as [Sx Sy]. split; symmetry; [exact Sx|exact Sy]. }
      destruct (run_ok o at2 l O U R T AfterMove (NS (some_pt e) (some_pt e) (Some (P (ptx e) (pty e))) (brg s) (Some KM)) (Pen f f NoCtrl true (brg s)) (Pen f f NoCtrl true (brg s))) as (o2 & ->); [|exact G|exact N1|cbn [bind]; eauto].
      exists e, e. cbn [n_cp n_start n_bearing n_last n_ext cur sub ctl brg after_move ext_ok moved moved1 is_moveto is_cubic is_quad]. fin.
    - cbn [normalize_step kind bind]. cbn [strokes draw app] in N.
      edestruct (IH (NS (n_start st) (n_cp st) (n_ext st) (get_bearing (SB r a) (n_bearing st)) (Some KB))) as (o2 & ->); [| | | | | | |exact G|exact N|cbn [bind]; eauto]; cbn [n_cp n_start n_bearing n_last is_moveto brg cur after_move get_bearing]; auto. now rewrite Eb.
    - cbn [normalize_step kind bind]. cbn [strokes draw app] in N. destruct (IH st s) as (o2 & ->); auto. cbn [bind]. eauto. }
  intros. eapply (W l nstate0 pen0); auto.
Qed.
Print Assumptions c14_total.
(** a rational stand-in for the angle: the way along a square *)
Definition square_at2 (y x : Q) : Q :=
  let n := Qabs x + Qabs y in if n =?q 0 then 0 else if y <?q 0 then - (90 * (1 - x / n)) else 90 * (1 - x / n).
Lemma along y x : ~ Qabs x + Qabs y == 0 -> 0 < Qabs x + Qabs y.
Proof. intros N. assert (A := Qabs_nonneg x). assert (B := Qabs_nonneg y). lra. Qed.
Lemma square_exact : exact_angles square_at2.
Proof.
  assert (TR : forall y x, 0 < Qabs x + Qabs y -> - (1) <= x / (Qabs x + Qabs y) <= 1 /\ (~ y == 0 -> - (1) < x / (Qabs x + Qabs y) < 1)).
  { intros y x P. assert (A := Qle_Qabs x). assert (B : - Qabs x <= x) by (rewrite <- (Qopp_involutive x) at 2; apply Qopp_le_compat; rewrite <- Qabs_opp; apply Qle_Qabs). assert (C := Qabs_nonneg y).
    split; [split; [apply Qle_shift_div_l|apply Qle_shift_div_r]; lra|]. intros Ny. assert (D : 0 < Qabs y). { apply Qle_lt_or_eq in C as [C|C]; [exact C|]. exfalso. apply Ny. destruct (Qlt_le_dec y 0) as [L|L]; [rewrite Qabs_neg in C by lra|rewrite Qabs_pos in C by exact L]; lra. }
    split; [apply Qlt_shift_div_l|apply Qlt_shift_div_r]; lra. }
  split.
  - intros y x. unfold square_at2. cbv zeta. destruct (Qeqb_spec (Qabs x + Qabs y) 0) as [Z|Z].
    + assert (Y : y == 0). { assert (A := Qabs_nonneg x). assert (B := Qabs_nonneg y). assert (C : Qabs y == 0) by lra. destruct (Qlt_le_dec y 0) as [L|L]; [rewrite Qabs_neg in C by lra|rewrite Qabs_pos in C by exact L]; lra. }
      split; [intros; lra|]. split; [intros; lra|]. intros _. left. reflexivity.
    + apply along in Z. destruct (TR y x Z) as [T1 T2]. set (t := x / (Qabs x + Qabs y)) in *. destruct (Qltb_spec y 0) as [L|L].
      * destruct (T2 ltac:(lra)). repeat split; intros; lra.
      * split; [intros H; destruct (T2 ltac:(lra)); split; lra|]. split; [intros; lra|]. intros Y. assert (QY : Qabs y == 0) by (rewrite Y; reflexivity).
        destruct (Qlt_le_dec x 0) as [X|X].
        -- right. assert (E : t == - (1)). { unfold t. rewrite QY, Qabs_neg by lra. field. lra. } rewrite E. reflexivity.
        -- left. assert (QX := Qabs_pos x X). assert (E : t == 1). { unfold t. rewrite QY, QX. field. lra. } rewrite E. reflexivity.
  - intros y x y' x'. unfold square_at2. cbv zeta.
    assert (Z0 : forall a b, Qabs a + Qabs b == 0 -> a == 0 /\ b == 0).
    { intros a b Z. assert (A := Qabs_nonneg a). assert (B := Qabs_nonneg b). assert (C : Qabs a == 0) by lra. assert (D : Qabs b == 0) by lra.
      split; [destruct (Qlt_le_dec a 0) as [L|L]; [rewrite Qabs_neg in C by lra|rewrite Qabs_pos in C by exact L]; lra|destruct (Qlt_le_dec b 0) as [L|L]; [rewrite Qabs_neg in D by lra|rewrite Qabs_pos in D by exact L]; lra]. }
    destruct (Qeqb_spec (Qabs x + Qabs y) 0) as [Z|Z]; [apply Z0 in Z as [A B]; intros _; rewrite A, B; split; [ring|]; setoid_replace (0 * x' + 0 * y') with 0 by ring; lra|].
    destruct (Qeqb_spec (Qabs x' + Qabs y') 0) as [Z'|Z']; [apply Z0 in Z' as [A B]; intros _; rewrite A, B; split; [ring|]; setoid_replace (x * 0 + y * 0) with 0 by ring; lra|].
    apply along in Z. apply along in Z'. destruct (TR y x Z) as [T1 T2]. destruct (TR y' x' Z') as [T1' T2'].
    set (n := Qabs x + Qabs y) in *. set (n' := Qabs x' + Qabs y') in *. set (t := x / n) in *. set (t' := x' / n') in *. intros E.
    assert (G : t == t' /\ ((y < 0 /\ y' < 0) \/ (0 <= y /\ 0 <= y'))).
    { destruct (Qltb_spec y 0) as [L|L], (Qltb_spec y' 0) as [L'|L']; [split; [lra|left; split; assumption]| | |split; [lra|right; split; lra]]; exfalso.
      - destruct (T2 ltac:(lra)). lra.
      - destruct (T2' ltac:(lra)). lra. }
    destruct G as [Tt Sg]. assert (X : x == t * n) by (unfold t; field; lra). assert (X' : x' == t * n') by (rewrite Tt; unfold t'; field; lra).
    assert (AX : Qabs x == Qabs t * n). { rewrite X at 1. rewrite Qabs_Qmult. rewrite (Qabs_pos n) by lra. reflexivity. }
    assert (AX' : Qabs x' == Qabs t * n'). { rewrite X' at 1. rewrite Qabs_Qmult. rewrite (Qabs_pos n') by lra. reflexivity. }
    assert (AY : Qabs y == (1 - Qabs t) * n). { transitivity (n - Qabs x); [unfold n; ring|]. rewrite AX. ring. }
    assert (AY' : Qabs y' == (1 - Qabs t) * n'). { transitivity (n' - Qabs x'); [unfold n'; ring|]. rewrite AX'. ring. }
    set (v := 1 - Qabs t) in *.
    assert (NN : 0 <= n * n') by (apply Qmult_le_0_compat; lra).
    assert (sq : forall z : Q, 0 <= z * z) by (intros z; destruct (Qlt_le_dec z 0); [setoid_replace (z * z) with ((- z) * (- z)) by ring|]; apply Qmult_le_0_compat; lra).
    assert (DT : 0 <= (t * t + v * v) * (n * n')) by (apply Qmult_le_0_compat; [assert (A := sq t); assert (B := sq v); lra|exact NN]).
    assert (YY : exists w, (w == v \/ w == - v) /\ y == w * n /\ y' == w * n').
    { destruct Sg as [[L L']|[L L']].
      - exists (- v). split; [right; reflexivity|]. rewrite Qabs_neg in AY by lra. rewrite Qabs_neg in AY' by lra. split; lra.
      - exists v. split; [left; reflexivity|]. rewrite Qabs_pos in AY by exact L. rewrite Qabs_pos in AY' by exact L'. split; assumption. }
    destruct YY as (w & Hw & Y & Y'). rewrite X, X', Y, Y'. split; [ring|]. setoid_replace (t * n * (t * n') + w * n * (w * n')) with ((t * t + w * w) * (n * n')) by ring.
    assert (W2 : w * w == v * v) by (destruct Hw as [-> | ->]; ring). rewrite W2. exact DT.
Qed.
Lemma quarter_roots : forall a, 1 < a -> 0 < osqrt quarter_oracle a.
Proof.
  intros [p d] H. cbn [osqrt quarter_oracle]. unfold qsqrt, Qlt in *. cbn [Qnum Qden] in *. assert (K : (1 <= Z.sqrt (p * Zpos d))%Z) by (rewrite <- Z.sqrt_1; apply Z.sqrt_le_mono; nia). nia.
Qed.
Definition arcs : list seg := [SM false (P 5 0); SA true 5 5 0 0 1 (P (-5) 5); SA false 3 0 0 1 0 (P 7 7); SL true (P 1 1); SA false 5 2 90 1 1 (P 0 0); SZ false].
Example c14_total_case : exact_angles square_at2 /\ oracle_basic quarter_oracle /\ (forall a, 1 < a -> 0 < osqrt quarter_oracle a) /\ begins_moveto arcs = true /\ smooth_ok NoSmooth arcs = true /\ Forall apart (drawing quarter_oracle arcs).
Proof.
  split; [exact square_exact|]. split; [exact quarter_basic|]. split; [exact quarter_roots|]. split; [reflexivity|]. split; [reflexivity|]. set (d := drawing quarter_oracle arcs). vm_compute in d. subst d.
  repeat (constructor; [cbn [apart]; unfold near; try exact I; intros [A B]; vm_compute in A, B; intuition (auto; discriminate)|]). constructor.
Qed.
