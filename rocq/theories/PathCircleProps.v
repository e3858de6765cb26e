(** C14, arcs of circles: the extent leads from the start to the end. *)
From Coq Require Import Qabs Qminmax Qround ZArith Lqa Lia Bool.
From Verif Require Import PyBase MatrixModel MatrixSpec PathModel PathSpec MatrixProofs2 PathArcProofs PathArcSpec PathProps PathArcProps.
#[local] Open Scope Q_scope.

(* the sign of the sine, up to a turn either way *)
Definition sine_signs (o : oracle) : Prop := forall x, (0 < x -> x < 180 -> 0 < osin o x) /\ (180 < x -> x < 360 -> osin o x < 0)
  /\ (- (180) < x -> x < 0 -> osin o x < 0) /\ (- (360) < x -> x < - (180) -> 0 < osin o x).
(* the same angle up to full turns *)
Definition same_angle (a b : Q) : Prop := exists k : Z, a == b + inject_Z k * 360.

Lemma extent_leads fa fs a b (s : Q) : - (360) <= b - a <= 360 ->
  (0 <= s -> ~ (180 < b - a < 360) /\ ~ (- (180) < b - a < 0)) -> (s <= 0 -> ~ (0 < b - a < 180) /\ ~ (- (360) < b - a < - (180))) ->
  (if Bool.eqb fa fs then 0 <= s else s <= 0) -> same_angle (a + arc_extent fa fs a b) b.
Proof.
  intros R UP DOWN S.
  assert (I0 : inject_Z 0 * 360 == 0) by reflexivity. assert (I1 : inject_Z 1 * 360 == 360) by reflexivity. assert (I2 : inject_Z (-1) * 360 == - (360)) by reflexivity.
  assert (I3 : inject_Z 2 * 360 == 720) by reflexivity. assert (I4 : inject_Z (-2) * 360 == - (720)) by reflexivity.
  unfold same_angle, arc_extent.
  assert (E : (b - a < 0 /\ Qabs (b - a) == a - b) \/ (0 <= b - a /\ Qabs (b - a) == b - a)) by (destruct (Qlt_le_dec (b - a) 0); [left; rewrite Qabs_neg by lra|right; rewrite Qabs_pos by lra]; split; lra).
  set (d := Qabs (b - a)) in *. clearbody d.
  assert (C : (if Bool.eqb fa fs then (b - a <= - (180) \/ 0 <= b - a <= 180 \/ b - a == 360) else (- (180) <= b - a <= 0 \/ 180 <= b - a \/ b - a == - (360)))).
  { destruct (Bool.eqb fa fs).
    - destruct (UP S) as [U1 U2]. destruct (Qlt_le_dec (- (180)) (b - a)) as [L|L]; [|left; exact L]. right. destruct (Qlt_le_dec (b - a) 0) as [M|M]; [exfalso; apply U2; split; assumption|].
      destruct (Qlt_le_dec 180 (b - a)) as [N|N]; [right|left; split; assumption]. destruct (Qlt_le_dec (b - a) 360) as [X|X]; [exfalso; apply U1; split; assumption|lra].
    - destruct (DOWN S) as [U1 U2]. destruct (Qlt_le_dec (b - a) 180) as [L|L]; [|right; left; exact L]. destruct (Qlt_le_dec 0 (b - a)) as [M|M]; [exfalso; apply U1; split; assumption|].
      destruct (Qlt_le_dec (b - a) (- (180))) as [N|N]; [right; right|left; split; assumption]. destruct (Qlt_le_dec (- (360)) (b - a)) as [X|X]; [exfalso; apply U2; split; assumption|lra]. }
  clear UP DOWN S s. destruct fa, fs; cbn [Bool.eqb] in C; destruct (Qltb_spec d 180), (Qltb_spec 180 d);
  destruct E as [[E1 E2]|[E1 E2]]; destruct C as [C|[C|C]];
  first [exfalso; lra | exists 0%Z; lra | exists 1%Z; lra | exists (-1)%Z; lra | exists 2%Z; lra | exists (-2)%Z; lra].
Qed.

Lemma sq_ge x : 0 <= x * x.
Proof. nra. Qed.
Lemma circle_sine o rx ry rot cp ep s : unit_angle o rot -> rx == ry -> ~ ry == 0 -> let h := arc_half o rot cp ep in
  let c := P (ocos o rot * (s * (rx * pty h / ry)) - osin o rot * (s * (- ry * ptx h / rx)) + (ptx cp + ptx ep) / 2)
             (osin o rot * (s * (rx * pty h / ry)) + ocos o rot * (s * (- ry * ptx h / rx)) + (pty cp + pty ep) / 2) in
  (ptx cp - ptx c) * (pty ep - pty c) - (ptx ep - ptx c) * (pty cp - pty c) == (2 # 4) * s * ((ptx cp - ptx ep) * (ptx cp - ptx ep) + (pty cp - pty ep) * (pty cp - pty ep)).
Proof.
  intros U E N h c. unfold unit_angle in U.
  assert (Q1 : rx * pty h / ry == pty h) by (rewrite E; field; exact N). assert (Q2 : - ry * ptx h / rx == - ptx h) by (rewrite E; field; exact N).
  unfold c. cbn [ptx pty]. rewrite Q1, Q2. unfold h, arc_half. cbn [ptx pty]. set (co := ocos o rot) in *. set (si := osin o rot) in *.
  set (dx := (ptx cp - ptx ep) / 2). set (dy := (pty cp - pty ep) / 2).
  assert (CX : co * (s * (- si * dx + co * dy)) - si * (s * - (co * dx + si * dy)) == s * dy * (co * co + si * si)) by ring.
  assert (CY : si * (s * (- si * dx + co * dy)) + co * (s * - (co * dx + si * dy)) == - (s * dx * (co * co + si * si))) by ring.
  rewrite CX, CY, U. unfold dx, dy. field.
Qed.

(** For circles the extent is not only of the right size: turned by it, the
    start of the arc comes to its end, in the direction of the sweep flag. *)
Theorem c14_circle_end : forall o at2 rx ry rot fa fs cp ep c r r' d1 ext, atan_like at2 -> sine_signs o -> unit_angle o rot ->
  (forall x, 0 <= x -> 0 <= osqrt o x) ->
  get_center_of_arc o at2 rx ry rot fa fs cp ep = Centre c r r' d1 ext -> r == r' -> 0 < r ->
  let a := get_angle at2 (pty cp - pty c) (ptx cp - ptx c) in let b := get_angle at2 (pty ep - pty c) (ptx ep - ptx c) in
  r * ocos o a == ptx cp - ptx c -> r * osin o a == - (pty cp - pty c) -> r * ocos o b == ptx ep - ptx c -> r * osin o b == - (pty ep - pty c) ->
  osin o (b - a) == osin o b * ocos o a - ocos o b * osin o a ->
  same_angle (d1 + ext) (if rot =?q 0 then b else b + rot)
  /\ ((forall x y, same_angle x y -> ocos o x == ocos o y /\ osin o x == osin o y) -> rot == 0 ->
      ptx c + r * ocos o (d1 + ext) == ptx ep /\ pty c - r * osin o (d1 + ext) == pty ep).
Proof.
  intros o at2 rx ry rot fa fs cp ep c r r' d1 ext T SG U SQ G RR RP a b CA SA CB SB DF.
  assert (MAIN : same_angle (d1 + ext) (if rot =?q 0 then b else b + rot)).
  { unfold get_center_of_arc in G. destruct (_ || _); [discriminate|]. destruct (_ && _); [discriminate|].
    set (g := negb (fa =?q 0)) in G. set (w := negb (fs =?q 0)) in G. set (k := arc_factor _ _ _ _) in G. set (RX := arc_radius rx * k) in G. set (RY := arc_radius ry * k) in G.
    set (cc := arc_center o RX RY rot g w cp ep) in G.
    assert (H : cc = c /\ RX = r /\ RY = r' /\ (if rot =?q 0 then get_angle at2 (pty cp - pty cc) (ptx cp - ptx cc) else get_angle at2 (pty cp - pty cc) (ptx cp - ptx cc) + rot) = d1
      /\ arc_extent g w (if rot =?q 0 then get_angle at2 (pty cp - pty cc) (ptx cp - ptx cc) else get_angle at2 (pty cp - pty cc) (ptx cp - ptx cc) + rot) (if rot =?q 0 then get_angle at2 (pty ep - pty cc) (ptx ep - ptx cc) else get_angle at2 (pty ep - pty cc) (ptx ep - ptx cc) + rot) = ext) by (inversion G; auto).
    clear G. destruct H as (HC & HX & HY & H1 & H2). rewrite HC in H1, H2. fold a b in H1, H2. rewrite H1 in H2.
    set (e := if rot =?q 0 then b else b + rot) in *. rewrite <- H2.
    assert (DE : e - d1 == b - a) by (unfold e; rewrite <- H1; destruct (rot =?q 0); ring).
    assert (RA := get_angle_range at2 (pty cp - pty c) (ptx cp - ptx c) T). assert (RB := get_angle_range at2 (pty ep - pty c) (ptx ep - ptx c) T). fold a in RA. fold b in RB.
    set (f0 := osqrt o (pymax (arc_fp RX RY (arc_half o rot cp ep)) 0)). set (s := if Bool.eqb g w then - f0 else f0).
    assert (CR := circle_sine o RX RY rot cp ep s U). cbv zeta in CR. fold f0 in CR. 
    assert (CCE : cc = P (ocos o rot * (s * (RX * pty (arc_half o rot cp ep) / RY)) - osin o rot * (s * (- RY * ptx (arc_half o rot cp ep) / RX)) + (ptx cp + ptx ep) / 2)
             (osin o rot * (s * (RX * pty (arc_half o rot cp ep) / RY)) + ocos o rot * (s * (- RY * ptx (arc_half o rot cp ep) / RX)) + (pty cp + pty ep) / 2)) by reflexivity.
    rewrite <- CCE, HC in CR. clear CCE. rewrite HX, HY in CR. specialize (CR RR ltac:(lra)).
    assert (F0 : 0 <= f0) by (apply SQ; unfold pymax; match goal with |- context [?x <?q ?y] => destruct (Qltb_spec x y) end; lra).
    set (X1 := ptx cp - ptx c) in *. set (Y1 := pty cp - pty c) in *. set (X2 := ptx ep - ptx c) in *. set (Y2 := pty ep - pty c) in *.
    set (n := (ptx cp - ptx ep) * (ptx cp - ptx ep) + (pty cp - pty ep) * (pty cp - pty ep)) in *.
    assert (N0 : 0 <= n) by (unfold n; assert (W1 := sq_ge (ptx cp - ptx ep)); assert (W2 := sq_ge (pty cp - pty ep)); lra).
    assert (SD : r * r * osin o (b - a) == - ((2 # 4) * s * n)).
    { rewrite <- CR, DF. transitivity ((r * osin o b) * (r * ocos o a) - (r * ocos o b) * (r * osin o a)); [ring|]. rewrite CA, SA, CB, SB. ring. }
    set (S := osin o (b - a)) in *. assert (SN : (if Bool.eqb g w then 0 <= S else S <= 0)).
    { assert (RR2 : 0 < r * r) by (apply Qmult_lt_0_compat; exact RP). assert (FN : 0 <= f0 * n) by (apply Qmult_le_0_compat; assumption). clearbody n f0 S. unfold s in SD. destruct (Bool.eqb g w).
      - destruct (Qlt_le_dec S 0) as [L|L]; [exfalso|exact L]. assert (0 < r * r * (- S)) by (apply Qmult_lt_0_compat; lra). lra.
      - destruct (Qlt_le_dec 0 S) as [L|L]; [exfalso|exact L]. assert (0 < r * r * S) by (apply Qmult_lt_0_compat; lra). lra. }
    destruct (SG (b - a)) as (G1 & G2 & G3 & G4). fold S in G1, G2, G3, G4.
    apply (extent_leads g w d1 e S); [lra|intros SP; rewrite DE|intros SP; rewrite DE|exact SN]; split; intros [L1 L2].
    - specialize (G2 L1 L2). lra.
    - specialize (G3 L1 L2). lra.
    - specialize (G1 L1 L2). lra.
    - specialize (G4 L1 L2). lra. }
  split; [exact MAIN|]. intros PER Z. destruct (Qeqb_spec rot 0) as [_|N]; [|contradiction]. destruct (PER _ _ MAIN) as [P1 P2]. rewrite P1, P2, CB, SB. split; ring.
Qed.
Print Assumptions c14_circle_end.
(* a sine made of parabolas, right at the quarters: an arc of a quarter with the
   sweep flag and its large complement *)
Definition hump (x : Q) : Q := x * (180 - x) / 8100.
Definition turned (x : Q) : Q := x - 360 * inject_Z (Qfloor (x / 360)).
Definition hsin (x : Q) : Q := let t := turned x in if t <=?q 180 then hump t else - hump (t - 180).
Definition hump_oracle : oracle := Orc (fun x => hsin (x + 90)) hsin (fun _ => 0) (fun q => if q <?q 0 then 0 else q).
Lemma hump_pos x : 0 < x -> x < 180 -> 0 < hump x.
Proof. intros A B. unfold hump. apply Qlt_shift_div_l; [reflexivity|]. rewrite Qmult_0_l. apply Qmult_lt_0_compat; lra. Qed.
Lemma turned_by x k : inject_Z k * 360 <= x -> x < inject_Z k * 360 + 360 -> turned x == x - inject_Z k * 360.
Proof.
  intros A B. unfold turned. assert (E : Qfloor (x / 360) = k).
  { apply Z.le_antisymm.
    - apply Z.lt_succ_r. rewrite Zlt_Qlt. apply Qle_lt_trans with (x / 360); [apply Qfloor_le|]. apply Qlt_shift_div_r; [reflexivity|]. unfold Z.succ. rewrite inject_Z_plus. change (inject_Z 1) with 1. lra.
    - rewrite <- (Qfloor_Z k). apply Qfloor_resp_le. apply Qle_shift_div_l; [reflexivity|exact A]. }
  rewrite E. ring.
Qed.
Lemma hump_signs : sine_signs hump_oracle.
Proof.
  assert (I0 : inject_Z 0 * 360 == 0) by reflexivity. assert (I2 : inject_Z (-1) * 360 == - (360)) by reflexivity.
  assert (PR : forall x y, x == y -> hump x == hump y) by (intros x y E; unfold hump; rewrite E; reflexivity).
  intros x. cbn [osin hump_oracle]. unfold hsin. repeat split; intros A B.
  - assert (E := turned_by x 0 ltac:(lra) ltac:(lra)). destruct (Qleb_spec (turned x) 180); [|exfalso; lra]. rewrite (PR _ x) by lra. now apply hump_pos.
  - assert (E := turned_by x 0 ltac:(lra) ltac:(lra)). destruct (Qleb_spec (turned x) 180); [exfalso; lra|]. assert (W := hump_pos (turned x - 180) ltac:(lra) ltac:(lra)). lra.
  - assert (E := turned_by x (-1) ltac:(lra) ltac:(lra)). destruct (Qleb_spec (turned x) 180); [exfalso; lra|]. assert (W := hump_pos (turned x - 180) ltac:(lra) ltac:(lra)). lra.
  - assert (E := turned_by x (-1) ltac:(lra) ltac:(lra)). destruct (Qleb_spec (turned x) 180); [|exfalso; lra]. apply hump_pos; lra.
Qed.
Example c14_circle_end_case : sine_signs hump_oracle /\ unit_angle hump_oracle 0 /\ (forall x, 0 <= x -> 0 <= osqrt hump_oracle x) /\
  (let a := get_angle axis_at2 0 5 in let b := get_angle axis_at2 5 0 in osin hump_oracle (b - a) == osin hump_oracle b * ocos hump_oracle a - ocos hump_oracle b * osin hump_oracle a
     /\ 5 * ocos hump_oracle a == 5 /\ 5 * osin hump_oracle a == 0 /\ 5 * ocos hump_oracle b == 0 /\ 5 * osin hump_oracle b == -5) /\
  (exists c d, get_center_of_arc hump_oracle axis_at2 5 5 0 0 1 (P 5 0) (P 0 5) = Centre c 5 5 d (-90) /\ peq c (P 0 0) /\ d == 0
     /\ 5 * ocos hump_oracle (0 + -90) == 0 /\ - (5 * osin hump_oracle (0 + -90)) == 5) /\
  (exists c d, get_center_of_arc hump_oracle axis_at2 5 5 0 1 0 (P 5 0) (P 0 5) = Centre c 5 5 d 270 /\ peq c (P 0 0) /\ d == 0
     /\ 5 * ocos hump_oracle (0 + 270) == 0 /\ - (5 * osin hump_oracle (0 + 270)) == 5).
Proof.
  split; [exact hump_signs|]. split; [reflexivity|]. split; [intros x X; cbn; destruct (Qltb_spec x 0); lra|].
  split; [repeat split; vm_compute; reflexivity|].
  split; eexists; eexists; (split; [vm_compute; reflexivity|]); repeat split; vm_compute; reflexivity.
Qed.
