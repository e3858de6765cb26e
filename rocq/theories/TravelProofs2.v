(** The length of a path is the sum of the lengths of its strokes. *)
From Coq Require Import Lia Lqa Qround Qabs Setoid.
From Verif Require Import PyBase MatrixModel MatrixSpec MatrixProofs PathModel PathSpec PathProofs PathNormProofs
  TravelModel TravelSpec TravelProofs.
Local Open Scope Q_scope.

Definition LInv (m : mode) (st : nstate) (s : pen) : Prop :=
  exists p a, n_cp st = some_pt p /\ n_start st = some_pt a /\ peq p (cur s) /\ peq a (sub s) /\
    n_bearing st = brg s /\ is_moveto (n_last st) = moved1 m /\ after_move s = moved1 m /\ ext_ok m st s.

Lemma dist_eq ms a b c d : lawful ms -> peq a c -> peq b d -> distance ms a b == hypot ms (ptx d - ptx c) (pty d - pty c).
Proof.
  intros (_ & Hy & _) [A1 A2] [B1 B2]. unfold distance. apply Hy; [rewrite A1, B1|rewrite A2, B2]; reflexivity.
Qed.
Lemma cubic_len ms a c d b a' c' d' b' : lawful ms -> peq a a' -> peq c c' -> peq d d' -> peq b b' ->
  curve_length ms a c d b == length_of ms (Cubic a' c' d' b').
Proof.
  intros La E1 E2 E3 E4. rewrite curve_speed by exact La.
  change (length_of ms (Cubic a c d b) == length_of ms (Cubic a' c' d' b')). apply length_of_eq; [exact La|]. cbn. auto.
Qed.
Lemma quad_len ms a c b a' c' b' : lawful ms -> peq a a' -> peq c c' -> peq b b' ->
  curve_length ms a (lerp23 a c) (lerp23 b c) b == length_of ms (Quad a' c' b').
Proof.
  intros La E1 E2 E3. rewrite curve_speed, quad_speed by exact La.
  change (length_of ms (Quad a c b) == length_of ms (Quad a' c' b')). apply length_of_eq; [exact La|]. cbn. auto.
Qed.
(** the arc *)
Lemma get_arc_len o at2 ms rx ry rot rot' fa fs c e s0 e0 : lawful ms -> peq s0 c -> peq e0 e -> rot == rot' ->
  measures o at2 ms (Arc s0 rx ry rot fa fs e0)
    (match get_center_of_arc o at2 rx ry rot' fa fs c e with
     | NoCentre rx' ry' => if (rx' =?q 0) || (ry' =?q 0) then distance ms c e else 0
     | Centre _ rx' ry' d1 extent => ellipse_length ms rx' ry' d1 extent
     end).
Proof.
  intros La E1 E2 E3. cbn [measures]. exists c, rot', e. split; [exact E1|]. split; [exact E3|]. split; [exact E2|].
  destruct (get_center_of_arc o at2 rx ry rot' fa fs c e) as [x y|cc x y d1 ext].
  - destruct (_ || _); [|reflexivity]. apply dist_eq; auto using peq_sym.
  - intros f Al B N1 N2. apply ellipse_along; assumption.
Qed.

Ltac one := match goal with |- exists vs, Forall2 _ [_] vs /\ ?v == _ => exists [v]; split; [constructor; [|constructor]|cbn [sum]; ring] end.
Ltac none := exists []; split; [constructor|reflexivity].
Ltac linv := match goal with |- LInv _ _ _ => idtac end;
  do 2 eexists; cbn [n_cp n_start n_bearing n_last n_ext];
  split; [reflexivity|]; split; [reflexivity|];
  unfold goto; cbn [mode_after]; cbn [cur sub ctl brg after_move pen_after fst draw ext_ok moved moved1 is_moveto place n_ext n_last is_cubic is_quad].

Lemma len_step o at2 ms m st s g : oracle_basic o -> lawful ms -> LInv m st s -> allowed_len m g = true ->
  exists st' v, length_step o at2 ms st g = Ok (st', v) /\
    (exists vs, Forall2 (measures o at2 ms) (snd (draw o s g)) vs /\ v == sum vs) /\
    LInv (mode_after m g) st' (fst (draw o s g)).
Proof.
  intros O La I A.
  destruct I as (p0 & a0 & Ecp & Est & Pp & Pa & Eb & El & Am & X).
  destruct st as [start cp ext b last]. cbn [n_cp n_start n_bearing n_last n_ext] in *. subst cp start.
  pose proof (fun p => place_shift' o s p0 b p O Pp Eb) as PS.
  assert (PG : forall r p, peq (place o s r p) (if r then shift (ptx p0) (pty p0) (turn o b p) else p)).
  { intros [] p; [apply PS|apply peq_refl]. }
  destruct g as [r p|r p|r x|r y|r p1 p2 p|r p2 p|r p1 p|r p|r rx ry rot fa fs p|r a|r|p2 p|].
  - (* M *)
    assert (F : length_step o at2 ms (NS (some_pt a0) (some_pt p0) ext b last) (SM r p)
      = let e := if r then shift (ptx p0) (pty p0) (turn o b p) else p in
        if is_moveto last then Ok (NS (some_pt a0) (some_pt e) (Some (P (ptx e) (pty e))) b (Some KM), distance ms (P (ptx p0) (pty p0)) e)
        else Ok (NS (some_pt e) (some_pt e) (Some (P (ptx e) (pty e))) b (Some KM), 0)) by (destruct r; reflexivity).
    rewrite F; clear F. cbn zeta. rewrite El. cbn [draw]. rewrite Am.
    pose proof (PG r p) as G. set (e := if r then _ else p) in *. rewrite !peta.
    destruct (moved1 m); do 2 eexists; (split; [reflexivity|]); cbn [fst snd]; split; try one.
    + cbn [measures length_of]. apply dist_eq; auto using peq_sym.
    + linv. fin.
    + reflexivity.
    + linv. fin.
  - (* L *)
    assert (F : length_step o at2 ms (NS (some_pt a0) (some_pt p0) ext b last) (SL r p)
      = let e := if r then shift (ptx p0) (pty p0) (turn o b p) else p in
        Ok (NS (some_pt a0) (some_pt e) (Some (P (ptx e) (pty e))) b (Some KL), distance ms (P (ptx p0) (pty p0)) e)) by (destruct r; reflexivity).
    rewrite F; clear F. cbn zeta. cbn [draw].
    pose proof (PG r p) as G. set (e := if r then _ else p) in *. rewrite !peta.
    do 2 eexists; (split; [reflexivity|]); cbn [fst snd]; split; [one|linv; fin].
    cbn [measures length_of]. apply dist_eq; auto using peq_sym.
  - (* H *)
    assert (F : length_step o at2 ms (NS (some_pt a0) (some_pt p0) ext b last) (SH r x)
      = let e := if r then shift (ptx p0) (pty p0) (turn o b (P x 0)) else P x (pty p0) in
        Ok (NS (some_pt a0) (some_pt e) (Some (P (ptx e) (pty e))) b (Some KH), distance ms (P (ptx p0) (pty p0)) e)) by (destruct r; reflexivity).
    rewrite F; clear F. cbn zeta. cbn [draw].
    assert (G : peq (if r then place o s true (P x 0) else P x (pty (cur s)))
                    (if r then shift (ptx p0) (pty p0) (turn o b (P x 0)) else P x (pty p0))).
    { destruct r; [apply PS|]. split; cbn [ptx pty]; [reflexivity|]. symmetry; apply Pp. }
    set (e := if r then shift _ _ _ else _) in *. set (e' := if r then place _ _ _ _ else _) in *. rewrite !peta.
    do 2 eexists; (split; [reflexivity|]); cbn [fst snd]; split; [one|linv; fin].
    cbn [measures length_of]. apply dist_eq; auto using peq_sym.
  - (* V *)
    assert (F : length_step o at2 ms (NS (some_pt a0) (some_pt p0) ext b last) (SV r y)
      = let e := if r then shift (ptx p0) (pty p0) (turn o b (P 0 y)) else P (ptx p0) y in
        Ok (NS (some_pt a0) (some_pt e) (Some (P (ptx e) (pty e))) b (Some KV), distance ms (P (ptx p0) (pty p0)) e)) by (destruct r; reflexivity).
    rewrite F; clear F. cbn zeta. cbn [draw].
    assert (G : peq (if r then place o s true (P 0 y) else P (ptx (cur s)) y)
                    (if r then shift (ptx p0) (pty p0) (turn o b (P 0 y)) else P (ptx p0) y)).
    { destruct r; [apply PS|]. split; cbn [ptx pty]; [|reflexivity]. symmetry; apply Pp. }
    set (e := if r then shift _ _ _ else _) in *. set (e' := if r then place _ _ _ _ else _) in *. rewrite !peta.
    do 2 eexists; (split; [reflexivity|]); cbn [fst snd]; split; [one|linv; fin].
    cbn [measures length_of]. apply dist_eq; auto using peq_sym.
  - (* C *)
    assert (F : length_step o at2 ms (NS (some_pt a0) (some_pt p0) ext b last) (SC r p1 p2 p)
      = let g p := if r then shift (ptx p0) (pty p0) (turn o b p) else p in
        Ok (NS (some_pt a0) (some_pt (g p)) (Some (reflect (g p) (g p2))) b (Some KC),
            curve_length ms (P (ptx p0) (pty p0)) (g p1) (g p2) (g p)))
      by (destruct r; reflexivity).
    rewrite F; clear F. cbn zeta. cbn [draw].
    pose proof (PG r p) as G. pose proof (PG r p1) as G1. pose proof (PG r p2) as G2.
    set (e := if r then _ else p) in *. set (e1 := if r then _ else p1) in *.
    set (e2 := if r then _ else p2) in *. rewrite !peta.
    do 2 eexists; (split; [reflexivity|]); cbn [fst snd]; split; [one|linv; fin].
    cbn [measures]. apply cubic_len; auto using peq_sym.
  - (* S *)
    assert (K : exists e, ext = Some e /\
       peq (match ctl s with CtrlC c => mirror (cur s) c | _ => cur s end) e).
    { destruct m; cbn [allowed_len allowed ext_ok n_ext n_last] in *; try discriminate A;
        [destruct X as ((e & -> & E) & -> & _)|destruct X as ((e & -> & E) & -> & _)
        |destruct X as ((e & -> & E) & -> & _)|destruct X as (e & c & -> & -> & E & _)];
        exists e; split; auto using peq_sym. }
    destruct K as (e1 & -> & G1).
    assert (F : length_step o at2 ms (NS (some_pt a0) (some_pt p0) (Some e1) b last) (SS r p2 p)
      = let g p := if r then shift (ptx p0) (pty p0) (turn o b p) else p in
        Ok (NS (some_pt a0) (some_pt (g p))
               (Some (if is_cubic last then reflect (g p) (g p2) else reflect (g p) (P (ptx p0) (pty p0))))
               b (Some KS), curve_length ms (P (ptx p0) (pty p0)) e1 (g p2) (g p)))
      by (destruct r; destruct last as [[]|]; reflexivity).
    rewrite F; clear F. cbn zeta. cbn [draw].
    pose proof (PG r p) as G. pose proof (PG r p2) as G2.
    set (e := if r then _ else p) in *. set (e2 := if r then _ else p2) in *. rewrite !peta.
    do 2 eexists; (split; [reflexivity|]); cbn [fst snd]; split; [one|].
    + cbn [measures]. apply cubic_len; auto using peq_sym.
    + destruct m; cbn [allowed_len allowed ext_ok n_ext n_last mode_after] in *; try discriminate A;
        linv; try (fin; fail).
      destruct X as (e' & c & _ & _ & _ & X). rewrite X. fin.
  - (* Q *)
    assert (F : length_step o at2 ms (NS (some_pt a0) (some_pt p0) ext b last) (SQ r p1 p)
      = let g p := if r then shift (ptx p0) (pty p0) (turn o b p) else p in
        Ok (NS (some_pt a0) (some_pt (g p)) (Some (reflect (g p) (g p1))) b (Some KQ),
            curve_length ms (P (ptx p0) (pty p0)) (lerp23 (P (ptx p0) (pty p0)) (g p1)) (lerp23 (g p) (g p1)) (g p)))
      by (destruct r; reflexivity).
    rewrite F; clear F. cbn zeta. cbn [draw].
    pose proof (PG r p) as G. pose proof (PG r p1) as G1.
    set (e := if r then _ else p) in *. set (e1 := if r then _ else p1) in *. rewrite !peta.
    do 2 eexists; (split; [reflexivity|]); cbn [fst snd]; split; [one|linv; fin].
    cbn [measures]. apply quad_len; auto using peq_sym.
  - (* T *)
    assert (K : exists e, ext = Some e /\
       peq (match ctl s with CtrlQ c => mirror (cur s) c | _ => cur s end) e).
    { destruct m; cbn [allowed_len allowed ext_ok n_ext n_last] in *; try discriminate A;
        [destruct X as ((e & -> & E) & -> & _)|destruct X as ((e & -> & E) & -> & _)
        |destruct X as ((e & -> & E) & -> & _)|destruct X as (e & c & -> & -> & E & _)];
        exists e; split; auto using peq_sym. }
    destruct K as (e1 & -> & G1).
    assert (F : length_step o at2 ms (NS (some_pt a0) (some_pt p0) (Some e1) b last) (ST r p)
      = let g p := if r then shift (ptx p0) (pty p0) (turn o b p) else p in
        Ok (NS (some_pt a0) (some_pt (g p))
               (Some (if is_quad last then reflect (g p) e1 else reflect (g p) (P (ptx p0) (pty p0))))
               b (Some KT),
             curve_length ms (P (ptx p0) (pty p0)) (lerp23 (P (ptx p0) (pty p0)) e1) (lerp23 (g p) e1) (g p)))
      by (destruct r; destruct last as [[]|]; reflexivity).
    rewrite F; clear F. cbn zeta. cbn [draw].
    pose proof (PG r p) as G. set (e := if r then _ else p) in *. rewrite !peta.
    do 2 eexists; (split; [reflexivity|]); cbn [fst snd]; split; [one|].
    + cbn [measures]. apply quad_len; auto using peq_sym.
    + set (c1 := match ctl s with CtrlQ c => mirror (cur s) c | _ => cur s end) in *.
      assert (R : peq (if is_quad last then reflect e e1 else reflect e p0) (mirror (place o s r p) c1)).
      { destruct m; cbn [allowed_len allowed ext_ok n_ext n_last] in *; try discriminate A;
          [destruct X as (_ & E & _ & ->)|destruct X as (_ & E & _ & ->)
          |destruct X as (_ & E & _ & ->)|destruct X as (e' & c & E1 & _ & _ & ->)];
          try (subst c1; rewrite E; apply reflect_mirror; auto using peq_sym; fail).
        apply reflect_mirror; auto using peq_sym. }
      linv. split; [apply peq_sym; exact G|]. split; [exact Pa|]. split; [exact Eb|].
      split; [reflexivity|]. split; [reflexivity|].
      do 2 eexists. split; [reflexivity|]. split; [reflexivity|]. split; [exact R|reflexivity].
  - (* A *)
    assert (F : length_step o at2 ms (NS (some_pt a0) (some_pt p0) ext b last) (SA r rx ry rot fa fs p)
      = let e := if r then shift (ptx p0) (pty p0) (turn o b p) else p in
        let c := P (ptx p0) (pty p0) in
        Ok (NS (some_pt a0) (some_pt e) (Some (P (ptx e) (pty e))) b (Some KA),
            match get_center_of_arc o at2 rx ry (if r then (if b =?q 0 then rot else rot + b) else rot) fa fs c e with
            | NoCentre rx' ry' => if (rx' =?q 0) || (ry' =?q 0) then distance ms c e else 0
            | Centre _ rx' ry' d1 extent => ellipse_length ms rx' ry' d1 extent
            end)).
    { destruct r; unfold length_step; cbn [kind n_cp n_bearing n_ext n_last n_start];
        unfold seg_length; cbn zeta; cbn [isrelative toabsolute some_pt fst snd or0 bind ptx pty];
        match goal with |- context [get_center_of_arc ?a1 ?a2 ?a3 ?a4 ?a5 ?a6 ?a7 ?a8 ?a9] =>
          destruct (get_center_of_arc a1 a2 a3 a4 a5 a6 a7 a8 a9) end; reflexivity. }
    rewrite F; clear F. cbn zeta. cbn [draw].
    pose proof (PG r p) as G. set (e := if r then shift _ _ _ else p) in *. rewrite !peta.
    do 2 eexists; (split; [reflexivity|]); cbn [fst snd]; split; [one|linv; fin].
    apply get_arc_len; auto using peq_sym.
    destruct r; [|reflexivity]. rewrite <- Eb. destruct (Qeqb_spec b 0) as [E|E]; [rewrite E; ring|reflexivity].
  - (* B *)
    do 2 eexists; (split; [reflexivity|]); cbn [draw fst snd]; split; [none|].
    exists p0, a0. cbn [n_cp n_start n_bearing n_last n_ext cur sub brg after_move].
    split; [reflexivity|]. split; [reflexivity|]. split; [exact Pp|]. split; [exact Pa|].
    split; [cbn [get_bearing]; rewrite Eb; reflexivity|].
    assert (E : moved1 (mode_after m (SB r a)) = false) by (destruct m; reflexivity).
    rewrite E. split; [reflexivity|]. split; [reflexivity|].
    destruct m; cbn [mode_after ext_ok n_ext n_last cur ctl] in *; auto;
      destruct X as (X & _); split; auto.
  - (* Z *)
    assert (F : length_step o at2 ms (NS (some_pt a0) (some_pt p0) ext b last) (SZ r)
      = Ok (NS (some_pt a0) (some_pt a0) ext b (Some KZ), distance ms (P (ptx p0) (pty p0)) (P (ptx a0) (pty a0)))) by (destruct r; reflexivity).
    rewrite F; clear F. rewrite !peta. cbn [draw].
    do 2 eexists; (split; [reflexivity|]); cbn [fst snd]; split; [one|linv; fin].
    cbn [measures length_of]. apply dist_eq; auto using peq_sym.
  - discriminate A.
  - do 2 eexists; (split; [reflexivity|]); cbn [draw fst snd mode_after]; split; [none|].
    exists p0, a0. auto 20.
Qed.

Lemma sum_app l1 l2 : sum (l1 ++ l2) == sum l1 + sum l2.
Proof. induction l1 as [|v l IH]; cbn [sum app]; [ring|rewrite IH; ring]. Qed.
Lemma len_run o at2 ms l : oracle_basic o -> lawful ms -> forall m st s, LInv m st s ->
  smooth_len m l = true ->
  exists v, length_from o at2 ms st l = Ok v /\ exists vs, Forall2 (measures o at2 ms) (strokes o s l) vs /\ v == sum vs.
Proof.
  intros O La; induction l as [|g l IH]; intros m st s I G; cbn [length_from strokes].
  - exists 0. split; [reflexivity|none].
  - cbn [smooth_len] in G. apply andb_prop in G as [A G].
    destruct (len_step o at2 ms m st s g O La I A) as (st' & v & -> & (vs & F & E) & I'). cbn [bind].
    destruct (draw o s g) as [s' d]. cbn [fst snd] in *.
    destruct (IH _ _ _ I' G) as (w & -> & (ws & F' & E')). cbn [bind].
    exists (v + w). split; [reflexivity|]. exists (vs ++ ws). split; [apply Forall2_app; assumption|].
    rewrite sum_app, E, E'. reflexivity.
Qed.
Lemma len_prefix o at2 ms l : oracle_basic o -> lawful ms -> forall st s,
  n_cp st = (None, None) -> n_start st = (None, None) -> n_bearing st = brg s ->
  is_moveto (n_last st) = false -> cur s = P 0 0 -> after_move s = false -> begins_moveto l = true ->
  smooth_len NoSmooth l = true ->
  exists v, length_from o at2 ms st l = Ok v /\ exists vs, Forall2 (measures o at2 ms) (strokes o s l) vs /\ v == sum vs.
Proof.
  intros O La; induction l as [|g l IH]; intros st s Ecp Est Eb El Ec Am BM G; cbn [length_from strokes].
  - exists 0. split; [reflexivity|none].
  - cbn [smooth_len] in G. apply andb_prop in G as [A G].
    destruct g as [r p|r p|r x|r y|r p1 p2 p|r p2 p|r p1 p|r p|r rx ry rot fa fs p|r a|r|p2 p|];
      cbn [begins_moveto] in BM; try discriminate BM.
    + destruct st as [start cp ext b last]. cbn [n_cp n_start n_bearing n_last n_ext] in *. subst cp start.
      assert (E1 : length_step o at2 ms (NS (None, None) (None, None) ext b last) (SM r p)
        = let e := if r then shift 0 0 (turn o b p) else p in
          Ok (NS (some_pt e) (some_pt e) (Some (P (ptx e) (pty e))) b (Some KM), 0)).
      { destruct r; unfold length_step; cbn [kind seg_length isrelative toabsolute bind is_cubic is_quad orb
          n_cp n_start n_bearing n_last n_ext is_moveto]; rewrite El; reflexivity. }
      rewrite E1; clear E1. cbn zeta. cbn [bind].
      assert (PG : peq (place o s r p) (if r then shift 0 0 (turn o b p) else p)).
      { destruct r; [|apply peq_refl]. apply (place_shift' o s (P 0 0) b p O); [rewrite Ec; apply peq_refl|exact Eb]. }
      set (e := if r then _ else p) in *. cbn [draw]. rewrite Am.
      edestruct (len_run o at2 ms l O La AfterMove) as (w & Hw & (ws & F' & E')); [|exact G|rewrite Hw].
      2:{ cbn [bind]. exists (0 + w). split; [reflexivity|]. exists (0 :: ws). split; [|cbn [sum]; rewrite E'; reflexivity].
          cbn [app]. constructor; [reflexivity|]. exact F'. }
      do 2 eexists. cbn [n_cp n_start n_bearing n_last n_ext].
      split; [reflexivity|]. split; [reflexivity|].
      cbn [cur sub ctl brg after_move ext_ok moved moved1 is_moveto place n_ext n_last is_cubic is_quad]. fin.
    + cbn [length_step kind bind draw app].
      destruct (IH (NS (n_start st) (n_cp st) (n_ext st) (get_bearing (SB r a) (n_bearing st)) (Some KB))
        (Pen (cur s) (sub s) NoCtrl false (if r then brg s + a else a))) as (w & Hw & (ws & F' & E'));
        cbn [n_cp n_start n_bearing n_last n_ext cur after_move brg]; auto.
      { cbn [get_bearing]. rewrite Eb. reflexivity. }
      rewrite Hw. cbn [bind]. exists (0 + w). split; [reflexivity|]. exists ws. split; [exact F'|]. rewrite E'. ring.
    + cbn [length_step kind bind draw app].
      destruct (IH st s) as (w & Hw & (ws & F' & E')); auto.
      rewrite Hw. cbn [bind]. exists (0 + w). split; [reflexivity|]. exists ws. split; [exact F'|]. rewrite E'. ring.
Qed.
Lemma total_measures o at2 ms l : oracle_basic o -> lawful ms -> begins_moveto l = true -> smooth_len NoSmooth l = true ->
  exists v vs, total_length o at2 ms l = Ok v /\ Forall2 (measures o at2 ms) (drawing o l) vs /\ v == sum vs.
Proof.
  intros O La B G. destruct (len_prefix o at2 ms l O La nstate0 pen0) as (v & H & (vs & F & E)); auto.
  exists v, vs. auto.
Qed.
