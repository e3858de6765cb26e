(** Proofs about PathParser.normalize. *)
From Coq Require Import Qround Qabs.
From Verif Require Import PyBase MatrixModel MatrixSpec MatrixProofs PathModel PathSpec PathProofs.
Local Open Scope Q_scope.

(** ** Output form *)
Definition basic (g : seg) : bool :=
  match g with SCNone _ _ => true | _ => base g end.

Lemma normalize_arc_form o at2 rx ry rot fa fs c p l :
  normalize_arc o at2 rx ry rot fa fs c p = Ok l -> forallb base l = true.
Proof.
  unfold normalize_arc. destruct (get_center_of_arc _ _ _ _ _ _ _ _ _) as [a b|cc a b d e].
  - destruct (_ || _); intros [= <-]; reflexivity.
  - destruct (Nat.eqb _ 0); [discriminate|]. intros [= <-].
    generalize (seq 0 (Z.to_nat (Qceiling (Qabs e / 90)))) as k. intros k.
    induction k as [|i k IH]; cbn [map forallb]; [reflexivity|]. rewrite IH. reflexivity.
Qed.
Lemma seg_normalize_form o at2 s cp b ext l :
  seg_normalize o at2 s cp b ext = Ok l -> forallb basic l = true.
Proof.
  assert (W : forall k, forallb base k = true -> forallb basic k = true).
  { intros k. induction k as [|g k IH]; cbn [forallb]; [auto|].
    intros H; apply andb_prop in H as [A B]. rewrite IH by exact B.
    destruct g; try destruct rel; cbn in *; auto; discriminate. }
  unfold seg_normalize.
  destruct s; try destruct rel; cbn [isrelative toabsolute]; try (intros [= <-]; reflexivity);
    try (destruct ext; try discriminate; intros [= <-]; reflexivity);
    intros H; apply W; eapply normalize_arc_form; exact H.
Qed.
Lemma normalize_step_form o at2 st s st' l :
  normalize_step o at2 st s = Ok (st', l) -> forallb basic l = true.
Proof.
  unfold normalize_step.
  destruct (seg_normalize o at2 s (n_cp st) (n_bearing st) (n_ext st)) as [k|e] eqn:E.
  2:{ destruct (kind s) as [[]|]; cbn [bind]; try discriminate; intros [= <- <-]; reflexivity. }
  pose proof (seg_normalize_form _ _ _ _ _ _ _ E) as F.
  destruct (kind s) as [c|]; [|intros [= <- <-]; reflexivity].
  assert (G : forall (ext : result (option pt)),
    (do ext <- ext; match s with
      | SZ _ => Ok (NS (n_start st) (if missing (n_start st) then n_cp st else n_start st)
                       ext (n_bearing st) (Some c), k)
      | _ => match rev k with
             | [] => Err IndexError
             | e :: _ => Ok (NS (set_start (Some c) (n_start st) (n_last st) (seg_end e))
                               (seg_end e) ext (n_bearing st) (Some c), k)
             end
      end) = Ok (st', l) -> forallb basic l = true).
  { intros [x|x]; cbn [bind]; [|discriminate].
    destruct s; try (intros [= <- <-]; exact F);
    (destruct (rev k); [discriminate|]; intros [= <- <-]; exact F). }
  destruct c; try (exact (G _)); intros [= <- <-]; reflexivity.
Qed.
Lemma normalize_from_form o at2 l : forall st l',
  normalize_from o at2 st l = Ok l' -> forallb basic l' = true.
Proof.
  induction l as [|s l IH]; intros st l'; cbn [normalize_from].
  - intros [= <-]; reflexivity.
  - destruct (normalize_step o at2 st s) as [[st' out]|] eqn:E; cbn [bind]; [|discriminate].
    destruct (normalize_from o at2 st' l) as [rest|] eqn:F; cbn [bind]; [|discriminate].
    intros [= <-]. rewrite forallb_app, (normalize_step_form _ _ _ _ _ _ E), (IH _ _ F). reflexivity.
Qed.

(** a normalised path is left as it is *)
Lemma normalize_basic o at2 l : forallb basic l = true -> forall st, normalize_from o at2 st l = Ok l.
Proof.
  induction l as [|g l IH]; intros H st; [reflexivity|].
  cbn [forallb] in H; apply andb_prop in H as [A B].
  cbn [normalize_from].
  assert (E : exists st', normalize_step o at2 st g = Ok (st', [g])).
  { destruct g; try destruct rel; try discriminate; unfold normalize_step; cbn; eexists; reflexivity. }
  destruct E as [st' ->]. cbn [bind]. rewrite IH by exact B. reflexivity.
Qed.

(** ** Geometry *)
Lemma strokes_app o l1 l2 : forall s,
  strokes o s (l1 ++ l2) = strokes o s l1 ++ strokes o (pen_after o s l1) l2.
Proof.
  induction l1 as [|g l1 IH]; intros s; cbn [strokes pen_after app]; [reflexivity|].
  destruct (draw o s g) as [s' d]. cbn [fst]. rewrite IH, app_assoc. reflexivity.
Qed.
Lemma all_render_app d1 o1 d2 o2 : all_render d1 o1 -> all_render d2 o2 -> all_render (d1 ++ d2) (o1 ++ o2).
Proof.
  induction 1; intros K; cbn; [exact K|]. rewrite <- app_assoc. constructor; auto.
Qed.

Lemma quad_renders a c b a' c' b' a'' : peq a a' -> peq c c' -> peq b b' -> peq a a'' ->
  renders (Quad a c b) [Cubic a' (lerp23 a'' c') (lerp23 b' c') b'].
Proof.
  intros (A1 & A2) (C1 & C2) (B1 & B2) (D1 & D2). apply rend_quad. intros t.
  cbn [at_time opt_peq]. unfold mix, lerp23. split; cbn [ptx pty].
  - rewrite <- A1, <- C1, <- B1, <- D1. ring.
  - rewrite <- A2, <- C2, <- B2, <- D2. ring.
Qed.

Lemma chain_start a l b a' : chain a l b -> peq a a' -> chain a' l b.
Proof.
  destruct 1; intros E; [apply chain_one|apply chain_cons]; auto; eapply peq_trans; eauto.
Qed.
Lemma chain_end a l b b' : chain a l b -> peq b b' -> chain a l b'.
Proof.
  intros C E. induction C as [x c d y a' y' H K|x c d y a' l e H C IH].
  - apply chain_one; auto. eapply peq_trans; eauto.
  - apply chain_cons; auto.
Qed.

Lemma arc_chain o m ep start inc n : forall k i q, (k + i)%nat = n -> k <> 0%nat ->
  let l := map (arc_curve o m ep start inc n) (seq i k) in
  chain (cur q) (strokes o q l) ep /\
  cur (pen_after o q l) = ep /\ sub (pen_after o q l) = sub q /\
  after_move (pen_after o q l) = false.
Proof.
  induction k as [|k IH]; intros i q E K l; [contradiction|].
  subst l. cbn [seq map strokes pen_after]. unfold arc_curve at 1 3 5 7. cbn [draw place].
  destruct (Nat.eqb (S i) n) eqn:F.
  - apply Nat.eqb_eq in F. assert (k = 0)%nat by lia. subst k. cbn.
    split; [apply chain_one; auto|]. auto.
  - apply Nat.eqb_neq in F.
    match goal with |- context [goto q ?p ?c] => specialize (IH (S i) (goto q p c)) end.
    destruct IH as (A & B & C & D); [lia|lia|].
    cbn [goto cur sub] in A, B, C, D.
    split; [|auto]. cbn [app]. apply chain_cons; [auto|]. exact A.
Qed.

Definition ext_ok (m : mode) (st : nstate) (s : pen) : Prop :=
  match m with
  | AfterMove | AfterMoveB | Fresh =>
      (exists e, n_ext st = Some e /\ peq e (cur s)) /\ ctl s = NoCtrl /\
      is_cubic (n_last st) = false /\ is_quad (n_last st) = false
  | AfterCubic => exists e c, n_ext st = Some e /\ ctl s = CtrlC c /\ peq e (mirror (cur s) c) /\
      is_cubic (n_last st) = true
  | AfterQuad => exists e c, n_ext st = Some e /\ ctl s = CtrlQ c /\ peq e (mirror (cur s) c) /\
      is_quad (n_last st) = true
  | NoSmooth => True
  end.
Definition moved (m : mode) : bool := match m with AfterMove | AfterMoveB => true | _ => false end.
Definition moved1 (m : mode) : bool := match m with AfterMove => true | _ => false end.
Definition Inv (m : mode) (st : nstate) (s q : pen) : Prop :=
  exists p a, n_cp st = some_pt p /\ n_start st = some_pt a /\ peq p (cur s) /\ peq a (sub s) /\
    n_bearing st = brg s /\ is_moveto (n_last st) = moved1 m /\ after_move s = moved1 m /\
    ext_ok m st s /\ peq (cur s) (cur q) /\ peq (sub s) (sub q) /\ after_move q = moved m.

Lemma place_shift' o s c b p : oracle_basic o -> peq c (cur s) -> b = brg s ->
  peq (place o s true p) (shift (ptx c) (pty c) (turn o b p)).
Proof.
  intros O [A B] ->. destruct (place_shift o s p O) as [C D].
  split; [rewrite C|rewrite D]; unfold shift; cbn [ptx pty]; [rewrite A|rewrite B]; reflexivity.
Qed.
Lemma reflect_mirror p c q d : peq p q -> peq c d -> peq (reflect p c) (mirror q d).
Proof.
  intros (A & B) (C & D); split; cbn [reflect mirror ptx pty]; [rewrite A, C|rewrite B, D]; ring.
Qed.
Lemma peta p : P (ptx p) (pty p) = p. Proof. destruct p; reflexivity. Qed.

Ltac solve_inv :=
  match goal with |- Inv _ _ _ _ => idtac end;
  do 2 eexists; cbn [n_cp n_start n_bearing n_last n_ext];
  split; [reflexivity|]; split; [reflexivity|];
  unfold goto; cbn [mode_after]; cbn [cur sub ctl brg after_move pen_after fst draw ext_ok moved moved1 is_moveto place n_ext n_last is_cubic is_quad].

Ltac ren1 := match goal with |- all_render [?d] [?x] =>
  change [x] with ([x] ++ []); apply ren_cons; [|constructor] end.
Ltac same1 := ren1; apply rend_same; [exact I|]; cbn [stroke_eq].
Ltac fin := rewrite ?peta;
  repeat first [assumption | apply peq_refl | reflexivity | apply peq_sym; assumption
               | apply reflect_mirror; apply peq_sym; assumption
               | match goal with |- _ /\ _ => split | |- exists _, _ => eexists end].

Lemma arc_cases o at2 rx ry rot fa fs c p l :
  normalize_arc o at2 rx ry rot fa fs c p = Ok l ->
  l = [SL false p] \/ l = [] \/
  exists m start inc k, l = map (arc_curve o m p start inc (S k)) (seq 0 (S k)).
Proof.
  unfold normalize_arc. destruct (get_center_of_arc _ _ _ _ _ _ _ _ _) as [a b|cc a b d e].
  - destruct (_ || _); intros [= <-]; auto.
  - destruct (Z.to_nat (Qceiling (Qabs e / 90))) as [|k]; cbn [Nat.eqb]; [discriminate|].
    intros [= <-]. right; right. do 4 eexists. reflexivity.
Qed.
Lemma arc_last o m p start inc k :
  exists g t, rev (map (arc_curve o m p start inc (S k)) (seq 0 (S k))) = g :: t /\
  seg_end g = some_pt p.
Proof.
  rewrite seq_S, map_app, rev_app_distr. cbn [map rev app]. do 2 eexists. split; [reflexivity|].
  unfold arc_curve. cbn [plus]. rewrite Nat.eqb_refl. reflexivity.
Qed.

Lemma norm_step o at2 m st s q g st' out : oracle_basic o -> Inv m st s q ->
  allowed m g = true -> normalize_step o at2 st g = Ok (st', out) ->
  all_render (snd (draw o s g)) (strokes o q out) /\
  Inv (mode_after m g) st' (fst (draw o s g)) (pen_after o q out) /\ forallb base out = true.
Proof.
  intros O I A.
  destruct I as (p0 & a0 & Ecp & Est & Pp & Pa & Eb & El & Am & X & Pc & Ps & Aq).
  destruct st as [start cp ext b last]. cbn [n_cp n_start n_bearing n_last n_ext] in *. subst cp start.
  pose proof (fun p => place_shift' o s p0 b p O Pp Eb) as PS.
  assert (Pq : peq p0 (cur q)) by (eapply peq_trans; eauto).
  assert (PG : forall r p, peq (place o s r p) (if r then shift (ptx p0) (pty p0) (turn o b p) else p)).
  { intros [] p; [apply PS|apply peq_refl]. }
  assert (MS : forall k l e, set_start k (some_pt a0) l e
             = if is_moveto k && negb (is_moveto l) then e else some_pt a0).
  { intros k l e. unfold set_start, missing. cbn [some_pt fst snd is_some negb orb].
    now rewrite orb_false_r. }
  destruct g as [r p|r p|r x|r y|r p1 p2 p|r p2 p|r p1 p|r p|r rx ry rot fa fs p|r a|r|p2 p|].
  - (* M *)
    intros H. assert (F : normalize_step o at2 (NS (some_pt a0) (some_pt p0) ext b last) (SM r p)
      = let e := if r then shift (ptx p0) (pty p0) (turn o b p) else p in
        Ok (NS (set_start (Some KM) (some_pt a0) last (some_pt e)) (some_pt e)
               (Some (P (ptx e) (pty e))) b (Some KM), [SM false e])) by (destruct r; reflexivity).
    rewrite F in H; clear F. cbn zeta in H. injection H as <- <-.
    rewrite MS. cbn [is_moveto andb]. rewrite El.
    pose proof (PG r p) as G. set (e := if r then _ else p) in *. cbn [strokes draw pen_after].
    rewrite Am, Aq. destruct m; cbn [allowed] in A; try discriminate A; cbn [moved moved1 negb app];
      (split; [|split; [|reflexivity]]);
      cbn [fst snd app]; try (same1; auto);
      solve_inv; fin.
  - (* L *)
    intros H. assert (F : normalize_step o at2 (NS (some_pt a0) (some_pt p0) ext b last) (SL r p)
      = let e := if r then shift (ptx p0) (pty p0) (turn o b p) else p in
        Ok (NS (set_start (Some KL) (some_pt a0) last (some_pt e)) (some_pt e)
               (Some (P (ptx e) (pty e))) b (Some KL), [SL false e])) by (destruct r; reflexivity).
    rewrite F in H; clear F. cbn zeta in H. injection H as <- <-.
    rewrite MS. cbn [is_moveto andb].
    pose proof (PG r p) as G. set (e := if r then _ else p) in *. cbn [strokes draw pen_after snd fst app].
    split; [|split; [|reflexivity]]; [same1; auto|]. solve_inv. fin.
  - (* H *)
    intros H. assert (F : normalize_step o at2 (NS (some_pt a0) (some_pt p0) ext b last) (SH r x)
      = let e := if r then shift (ptx p0) (pty p0) (turn o b (P x 0)) else P x (pty p0) in
        Ok (NS (set_start (Some KH) (some_pt a0) last (some_pt e)) (some_pt e)
               (Some (P (ptx e) (pty e))) b (Some KH), [SL false e])) by (destruct r; reflexivity).
    rewrite F in H; clear F. cbn zeta in H. injection H as <- <-.
    rewrite MS. cbn [is_moveto andb].
    assert (G : peq (if r then place o s true (P x 0) else P x (pty (cur s)))
                    (if r then shift (ptx p0) (pty p0) (turn o b (P x 0)) else P x (pty p0))).
    { destruct r; [apply PS|]. split; cbn [ptx pty]; [reflexivity|]. symmetry; apply Pp. }
    set (e := if r then shift _ _ _ else _) in *. cbn [strokes draw pen_after snd fst app].
    set (e' := if r then place _ _ _ _ else _) in *.
    split; [|split; [|reflexivity]]; [same1; auto|]. solve_inv. fin.
  - (* V *)
    intros H. assert (F : normalize_step o at2 (NS (some_pt a0) (some_pt p0) ext b last) (SV r y)
      = let e := if r then shift (ptx p0) (pty p0) (turn o b (P 0 y)) else P (ptx p0) y in
        Ok (NS (set_start (Some KV) (some_pt a0) last (some_pt e)) (some_pt e)
               (Some (P (ptx e) (pty e))) b (Some KV), [SL false e])) by (destruct r; reflexivity).
    rewrite F in H; clear F. cbn zeta in H. injection H as <- <-.
    rewrite MS. cbn [is_moveto andb].
    assert (G : peq (if r then place o s true (P 0 y) else P (ptx (cur s)) y)
                    (if r then shift (ptx p0) (pty p0) (turn o b (P 0 y)) else P (ptx p0) y)).
    { destruct r; [apply PS|]. split; cbn [ptx pty]; [|reflexivity]. symmetry; apply Pp. }
    set (e := if r then shift _ _ _ else _) in *. cbn [strokes draw pen_after snd fst app].
    set (e' := if r then place _ _ _ _ else _) in *.
    split; [|split; [|reflexivity]]; [same1; auto|]. solve_inv. fin.
  - (* C *)
    intros H. assert (F : normalize_step o at2 (NS (some_pt a0) (some_pt p0) ext b last) (SC r p1 p2 p)
      = let g p := if r then shift (ptx p0) (pty p0) (turn o b p) else p in
        Ok (NS (set_start (Some KC) (some_pt a0) last (some_pt (g p))) (some_pt (g p))
               (Some (reflect (g p) (g p2))) b (Some KC), [SC false (g p1) (g p2) (g p)]))
      by (destruct r; reflexivity).
    rewrite F in H; clear F. cbn zeta in H. injection H as <- <-.
    rewrite MS. cbn [is_moveto andb].
    pose proof (PG r p) as G. pose proof (PG r p1) as G1. pose proof (PG r p2) as G2.
    cbn [strokes draw pen_after snd fst app].
    set (e := if r then _ else p) in *. set (e1 := if r then _ else p1) in *.
    set (e2 := if r then _ else p2) in *.
    split; [|split; [|reflexivity]]; [same1; auto|]. solve_inv. fin.
  - (* S *)
    assert (K : exists e, ext = Some e /\
       peq (match ctl s with CtrlC c => mirror (cur s) c | _ => cur s end) e).
    { destruct m; cbn [allowed ext_ok n_ext n_last] in *; try discriminate A;
        [destruct X as ((e & -> & E) & -> & _)|destruct X as ((e & -> & E) & -> & _)
        |destruct X as ((e & -> & E) & -> & _)|destruct X as (e & c & -> & -> & E & _)];
        exists e; split; auto using peq_sym. }
    destruct K as (e1 & -> & G1).
    intros H. assert (F : normalize_step o at2 (NS (some_pt a0) (some_pt p0) (Some e1) b last) (SS r p2 p)
      = let g p := if r then shift (ptx p0) (pty p0) (turn o b p) else p in
        Ok (NS (set_start (Some KS) (some_pt a0) last (some_pt (g p))) (some_pt (g p))
               (Some (if is_cubic last then reflect (g p) (g p2) else reflect (g p) (P (ptx p0) (pty p0))))
               b (Some KS), [SC false e1 (g p2) (g p)]))
      by (destruct r; destruct last as [[]|]; reflexivity).
    rewrite F in H; clear F. cbn zeta in H. injection H as <- <-.
    rewrite MS. cbn [is_moveto andb].
    pose proof (PG r p) as G. pose proof (PG r p2) as G2.
    cbn [strokes draw pen_after snd fst app].
    set (e := if r then _ else p) in *. set (e2 := if r then _ else p2) in *.
    split; [|split; [|reflexivity]]; [same1; auto|].
    destruct m; cbn [allowed ext_ok n_ext n_last mode_after] in *; try discriminate A;
      solve_inv; try (fin; fail).
    destruct X as (e' & c & _ & _ & _ & X). rewrite X. fin.
  - (* Q *)
    intros H. assert (F : normalize_step o at2 (NS (some_pt a0) (some_pt p0) ext b last) (SQ r p1 p)
      = let g p := if r then shift (ptx p0) (pty p0) (turn o b p) else p in
        Ok (NS (set_start (Some KQ) (some_pt a0) last (some_pt (g p))) (some_pt (g p))
               (Some (reflect (g p) (g p1))) b (Some KQ),
            [SC false (lerp23 (P (ptx p0) (pty p0)) (g p1)) (lerp23 (g p) (g p1)) (g p)]))
      by (destruct r; reflexivity).
    rewrite F in H; clear F. cbn zeta in H. injection H as <- <-.
    rewrite MS. cbn [is_moveto andb].
    pose proof (PG r p) as G. pose proof (PG r p1) as G1.
    cbn [strokes draw pen_after snd fst app].
    set (e := if r then _ else p) in *. set (e1 := if r then _ else p1) in *.
    split; [|split; [|reflexivity]].
    + ren1. rewrite peta. apply quad_renders; auto using peq_sym.
    + solve_inv. fin.
  - (* T *)
    assert (K : exists e, ext = Some e /\
       peq (match ctl s with CtrlQ c => mirror (cur s) c | _ => cur s end) e).
    { destruct m; cbn [allowed ext_ok n_ext n_last] in *; try discriminate A;
        [destruct X as ((e & -> & E) & -> & _)|destruct X as ((e & -> & E) & -> & _)
        |destruct X as ((e & -> & E) & -> & _)|destruct X as (e & c & -> & -> & E & _)];
        exists e; split; auto using peq_sym. }
    destruct K as (e1 & -> & G1).
    intros H. assert (F : normalize_step o at2 (NS (some_pt a0) (some_pt p0) (Some e1) b last) (ST r p)
      = let g p := if r then shift (ptx p0) (pty p0) (turn o b p) else p in
        Ok (NS (set_start (Some KT) (some_pt a0) last (some_pt (g p))) (some_pt (g p))
               (Some (if is_quad last then reflect (g p) e1 else reflect (g p) (P (ptx p0) (pty p0))))
               b (Some KT),
             [SC false (lerp23 (P (ptx p0) (pty p0)) e1) (lerp23 (g p) e1) (g p)]))
      by (destruct r; destruct last as [[]|]; reflexivity).
    rewrite F in H; clear F. cbn zeta in H. injection H as <- <-.
    rewrite MS. cbn [is_moveto andb].
    pose proof (PG r p) as G.
    cbn [strokes draw pen_after snd fst app].
    set (e := if r then _ else p) in *.
    split; [|split; [|reflexivity]].
    + ren1. rewrite peta. apply quad_renders; auto using peq_sym.
    + set (c1 := match ctl s with CtrlQ c => mirror (cur s) c | _ => cur s end) in *.
      assert (R : peq (if is_quad last then reflect e e1 else reflect e (P (ptx p0) (pty p0)))
                      (mirror (place o s r p) c1)).
      { destruct m; cbn [allowed ext_ok n_ext n_last] in *; try discriminate A;
          [destruct X as (_ & E & _ & ->)|destruct X as (_ & E & _ & ->)
          |destruct X as (_ & E & _ & ->)|destruct X as (e' & c & E1 & _ & _ & ->)];
          try (subst c1; rewrite E, peta; apply reflect_mirror; auto using peq_sym; fail).
        apply reflect_mirror; auto using peq_sym. }
      solve_inv.
      split; [apply peq_sym; exact G|]. split; [exact Pa|]. split; [exact Eb|].
      split; [reflexivity|]. split; [reflexivity|]. split.
      { do 2 eexists. split; [reflexivity|]. split; [reflexivity|]. split; [exact R|reflexivity]. }
      split; [exact G|]. split; [exact Ps|]. reflexivity.
  - (* A *)
    intros H.
    assert (F : exists rot', normalize_step o at2 (NS (some_pt a0) (some_pt p0) ext b last)
        (SA r rx ry rot fa fs p)
      = let e := if r then shift (ptx p0) (pty p0) (turn o b p) else p in
        do l <- normalize_arc o at2 rx ry rot' fa fs (P (ptx p0) (pty p0)) e;
        do x <- match rev l with [] => Err IndexError | g :: _ => Ok (end_pt (seg_end g)) end;
        match rev l with
        | [] => Err IndexError
        | g :: _ => Ok (NS (set_start (Some KA) (some_pt a0) last (seg_end g)) (seg_end g) x b (Some KA), l)
        end) by (destruct r; eexists; reflexivity).
    destruct F as (rot' & F). rewrite F in H; clear F. cbn zeta in H.
    pose proof (PG r p) as G. set (e := if r then _ else p) in *.
    destruct (normalize_arc _ _ _ _ _ _ _ _ _) as [l|] eqn:N; cbn [bind] in H; [|discriminate H].
    apply arc_cases in N. cbn [draw fst snd].
    set (rt := if r then rot + brg s else rot). clearbody rt.
    destruct N as [->|[->|(mm & start & inc & k & ->)]].
    + cbn [rev app bind] in H. injection H as <- <-. rewrite MS. cbn [is_moveto andb].
      cbn [strokes draw pen_after snd fst app]. split; [|split; [|reflexivity]].
      * ren1. apply rend_arc_line; auto.
      * solve_inv. cbn [end_pt seg_end]. fin.
    + discriminate H.
    + destruct (arc_last o mm e start inc k) as (g & t & R & EG). 
      destruct (arc_chain o mm e start inc (S k) (S k) 0 q) as (C1 & C2 & C3 & C4); [lia|discriminate|].
      assert (FB : forallb base (map (arc_curve o mm e start inc (S k)) (seq 0 (S k))) = true).
      { generalize (seq 0 (S k)). intros z. induction z as [|i z IH]; cbn [map forallb]; [reflexivity|].
        rewrite IH. reflexivity. }
      set (lst := map (arc_curve o mm e start inc (S k)) (seq 0 (S k))) in *. clearbody lst.
      rewrite R in H. cbn [bind] in H.
      injection H as <- <-. rewrite MS, EG. cbn [is_moveto andb].
      split; [|split].
      * rewrite <- (app_nil_r (strokes o q lst)). apply ren_cons; [|constructor].
        apply rend_arc. eapply chain_start; [eapply chain_end; [exact C1|]|]; auto using peq_sym.
      * do 2 eexists. cbn [n_cp n_start n_bearing n_last n_ext].
        split; [reflexivity|]. split; [reflexivity|]. rewrite C2, C3, C4.
        unfold goto. cbn [mode_after]. cbn [cur sub ctl brg after_move ext_ok moved moved1 is_moveto n_ext n_last is_cubic is_quad].
        cbn [end_pt some_pt]. fin.
      * exact FB.
  - (* B *)
    intros [= <- <-]. cbn [draw fst snd strokes pen_after]. split; [constructor|]. split; [|reflexivity].
    exists p0, a0. cbn [n_cp n_start n_bearing n_last n_ext cur sub brg after_move].
    split; [reflexivity|]. split; [reflexivity|]. split; [exact Pp|]. split; [exact Pa|].
    split; [cbn [get_bearing]; rewrite Eb; reflexivity|].
    assert (E : moved1 (mode_after m (SB r a)) = false) by (destruct m; reflexivity).
    rewrite E. split; [reflexivity|]. split; [reflexivity|].
    split; [|split; [exact Pc|split; [exact Ps|rewrite Aq; destruct m; reflexivity]]].
    destruct m; cbn [mode_after ext_ok n_ext n_last cur ctl] in *; auto;
      destruct X as (X & _); split; auto.
  - (* Z *)
    intros H. assert (F : normalize_step o at2 (NS (some_pt a0) (some_pt p0) ext b last) (SZ r)
      = Ok (NS (some_pt a0) (some_pt a0) None b (Some KZ), [SZ false])) by (destruct r; reflexivity).
    rewrite F in H; clear F. injection H as <- <-.
    cbn [strokes draw pen_after snd fst app].
    split; [|split; [|reflexivity]]; [same1; auto|].
    solve_inv. fin.
  - discriminate A.
  - intros [= <- <-]. cbn [draw fst snd strokes pen_after mode_after]. split; [constructor|].
    split; [|reflexivity]. exists p0, a0. auto 20.
Qed.

Lemma norm_run o at2 l : oracle_basic o -> forall m st s q out, Inv m st s q ->
  smooth_ok m l = true -> normalize_from o at2 st l = Ok out ->
  all_render (strokes o s l) (strokes o q out) /\ forallb base out = true.
Proof.
  intros O; induction l as [|g l IH]; intros m st s q out I G; cbn [normalize_from strokes].
  - intros [= <-]. split; [constructor|reflexivity].
  - cbn [smooth_ok] in G. apply andb_prop in G as [A G].
    destruct (normalize_step o at2 st g) as [[st' o1]|] eqn:E; cbn [bind]; [|discriminate].
    destruct (normalize_from o at2 st' l) as [o2|] eqn:F; cbn [bind]; [|discriminate].
    intros [= <-]. destruct (norm_step o at2 m st s q g st' o1 O I A E) as (R & I' & B).
    destruct (draw o s g) as [s' d]. cbn [fst snd] in *.
    destruct (IH _ _ _ _ _ I' G F) as (R' & B').
    rewrite strokes_app, forallb_app, B, B'. split; [|reflexivity]. apply all_render_app; assumption.
Qed.

(** before the first moveto *)
Lemma norm_prefix o at2 l : oracle_basic o -> forall m st s q out,
  n_cp st = (None, None) -> n_start st = (None, None) -> n_bearing st = brg s ->
  is_moveto (n_last st) = false -> m = NoSmooth ->
  cur s = P 0 0 -> after_move s = false -> after_move q = false -> begins_moveto l = true ->
  smooth_ok m l = true -> normalize_from o at2 st l = Ok out ->
  all_render (strokes o s l) (strokes o q out) /\ forallb base out = true.
Proof.
  intros O; induction l as [|g l IH]; intros m st s q out Ecp Est Eb El Em Ec Am Aq BM G;
    cbn [normalize_from strokes].
  - intros [= <-]. split; [constructor|reflexivity].
  - cbn [smooth_ok] in G. apply andb_prop in G as [A G].
    destruct (normalize_step o at2 st g) as [[st' o1]|] eqn:E; cbn [bind]; [|discriminate].
    destruct (normalize_from o at2 st' l) as [o2|] eqn:F; cbn [bind]; [|discriminate].
    intros [= <-]. subst m.
    destruct g as [r p|r p|r x|r y|r p1 p2 p|r p2 p|r p1 p|r p|r rx ry rot fa fs p|r a|r|p2 p|];
      cbn [begins_moveto] in BM; try discriminate BM.
    + destruct st as [start cp ext b last]. cbn [n_cp n_start n_bearing n_last n_ext] in *. subst cp start.
      assert (E1 : normalize_step o at2 (NS (None, None) (None, None) ext b last) (SM r p)
        = let e := if r then shift 0 0 (turn o b p) else p in
          Ok (NS (some_pt e) (some_pt e) (Some (P (ptx e) (pty e))) b (Some KM), [SM false e])).
      { destruct r; unfold normalize_step; cbn [kind seg_normalize isrelative toabsolute bind is_cubic is_quad orb
          rev app n_cp n_start n_bearing n_last n_ext seg_end]; unfold set_start; cbn [is_moveto andb missing];
          rewrite El; reflexivity. }
      rewrite E1 in E; clear E1. cbn zeta in E. injection E as <- <-.
      assert (PG : peq (place o s r p) (if r then shift 0 0 (turn o b p) else p)).
      { destruct r; [|apply peq_refl]. apply (place_shift' o s (P 0 0) b p O); [rewrite Ec; apply peq_refl|exact Eb]. }
      set (e := if r then _ else p) in *. cbn [draw]. rewrite Am.
      rewrite strokes_app, forallb_app. cbn [strokes draw pen_after fst snd]. rewrite Aq. cbn [fst snd].
      edestruct (norm_run o at2 l O AfterMove) as (R & B); [|exact G|exact F|].
      2:{ split; [|cbn [forallb]; rewrite B; reflexivity].
          apply all_render_app; [|exact R]. cbn [app]. same1. exact PG. }
      do 2 eexists. cbn [n_cp n_start n_bearing n_last n_ext].
      split; [reflexivity|]. split; [reflexivity|].
      cbn [cur sub ctl brg after_move ext_ok moved moved1 is_moveto place n_ext n_last is_cubic is_quad]. fin.
    + injection E as <- <-. cbn [draw app].
      apply (IH NoSmooth (NS (n_start st) (n_cp st) (n_ext st) (get_bearing (SB r a) (n_bearing st)) (Some KB)));
        cbn [n_cp n_start n_bearing n_last n_ext cur after_move brg]; auto.
      cbn [get_bearing]. rewrite Eb. reflexivity.
    + injection E as <- <-. cbn [draw app].
      apply (IH NoSmooth st); auto.
Qed.

Lemma normalize_renders o at2 l out : oracle_basic o -> begins_moveto l = true ->
  smooth_ok NoSmooth l = true -> normalize o at2 l = Ok out ->
  all_render (drawing o l) (drawing o out) /\ forallb base out = true.
Proof. intros O B G. apply (norm_prefix o at2 l O NoSmooth); auto. Qed.

(** strokes that are neither quadratic curves nor arcs are kept *)
Definition plain (d : stroke) : bool :=
  match d with Quad _ _ _ | Arc _ _ _ _ _ _ _ => false | _ => true end.
Lemma all_render_plain ds ds' : forallb plain ds = true -> all_render ds ds' -> Forall2 stroke_eq ds ds'.
Proof.
  intros P H. induction H as [|d l ds ds' R A IH]; [constructor|].
  cbn in P. apply andb_true_iff in P as [P1 P2].
  destruct R; try discriminate. cbn. constructor; auto.
Qed.
