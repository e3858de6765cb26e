(** Proofs about bounding boxes of subtrees. *)
From Coq Require Import Lqa.
From Verif Require Import PyBase PyText MatrixModel MatrixSpec MatrixProofs RectModel RectSpec RectProofs
  TransformModel TransformSpec TransformProofs CtmModel CtmSpec CtmProofs.
Local Open Scope Q_scope.

Lemma solid_proper b : solid b -> proper b.
Proof.
  intros [H|H]; [now left|]. apply isvalid_true in H as (x & y & X & Y & W & Hh).
  right. rewrite X, Y. repeat split; try congruence; lra.
Qed.
Lemma solid_full b : solid b -> full b.
Proof.
  intros H. split; [now apply solid_proper|]. destruct H as [(_ & _ & A & B)|H]; [rewrite A, B; tauto|].
  apply isvalid_true in H as (x & y & X & Y & W & Hh). tauto.
Qed.
Lemma thick b x1 y1 x2 y2 : proper b -> region b x1 y1 -> region b x2 y2 -> ~ x1 == x2 -> ~ y1 == y2 ->
  isvalid b = true.
Proof.
  intros P A B NX NY. unfold region in A, B. apply isvalid_true.
  destruct (rx b) as [x|]; [|contradiction]. destruct (ry b) as [y|]; [|contradiction].
  exists x, y. repeat split.
  - destruct (Qlt_le_dec 0 (rw b)) as [L|L]; [exact L|]. exfalso. apply NX. lra.
  - destruct (Qlt_le_dec 0 (rh b)) as [L|L]; [exact L|]. exfalso. apply NY. lra.
Qed.
Lemma valid_corners b : isvalid b = true -> exists x y w h, 0 < w /\ 0 < h /\
  rx b = Some x /\ ry b = Some y /\ w = rw b /\ h = rh b /\
  region b x y /\ region b (x + w) (y + h) /\ region b (x + w) y /\ region b x (y + h).
Proof.
  intros H. apply isvalid_true in H as (x & y & X & Y & W & Hh). exists x, y, (rw b), (rh b).
  unfold region. rewrite X, Y. repeat split; lra.
Qed.
Lemma solid_unite r o : solid r -> solid o -> solid (unite r o).
Proof.
  intros R O. destruct O as [(A & B & _ & _)|V].
  - unfold unite. rewrite A. cbn. exact R.
  - destruct (unite_upper r o (solid_proper r R) (solid_full o (or_intror V))) as (P & _ & I2 & _).
    right. destruct (valid_corners o V) as (x & y & w & h & W & Hh & _ & _ & _ & _ & C1 & C2 & _).
    apply (thick _ x y (x + w) (y + h) P (I2 _ _ C1) (I2 _ _ C2)); lra.
Qed.
Lemma solid_transform r m : solid r -> ~ (fa m < 0 /\ fc m < 0) -> ~ (fb m < 0 /\ fd m < 0) ->
  ~ (fa m == 0 /\ fc m == 0) -> ~ (fb m == 0 /\ fd m == 0) -> solid (transform_self r m).
Proof.
  intros R GX GY NX NY. destruct R as [(A & B & C & D)|V].
  - unfold transform_self. unfold isvalid. rewrite A. cbn. left. auto.
  - right. pose proof (transform_exact r m V GX GY) as (T & _ & _).
    pose proof (proper_transform r m (solid_proper r (or_intror V))) as P.
    destruct (valid_corners r V) as (x & y & w & h & W & Hh & _ & _ & _ & _ & C1 & C2 & C3 & C4).
    apply T in C1, C2, C3, C4. unfold apply_x, apply_y in C1, C2, C3, C4.
    unfold region in C1, C2, C3, C4. apply isvalid_true.
    destruct (rx (transform_self r m)) as [u|]; [|contradiction].
    destruct (ry (transform_self r m)) as [v|]; [|contradiction].
    exists u, v. split; [reflexivity|]. split; [reflexivity|]. split.
    + destruct (Qlt_le_dec 0 (rw (transform_self r m))) as [L|L]; [exact L|]. exfalso. apply NX.
      assert (E1 : fa m * w == 0) by lra. assert (E2 : fc m * h == 0) by lra.
      split; [apply Qmult_integral in E1 as [E1|E1]|apply Qmult_integral in E2 as [E2|E2]]; lra.
    + destruct (Qlt_le_dec 0 (rh (transform_self r m))) as [L|L]; [exact L|]. exfalso. apply NY.
      assert (E1 : fb m * w == 0) by lra. assert (E2 : fd m * h == 0) by lra.
      split; [apply Qmult_integral in E1 as [E1|E1]|apply Qmult_integral in E2 as [E2|E2]]; lra.
Qed.

(** ** The transform of a container *)
Lemma list_affine o l : oracle_basic o -> l <> [] -> forallb known l = true ->
  exists m, list_matrix o l = Ok (Some m) /\
    (let '(a, b, c, d) := coef o l in
     fa (affine_of m) == a /\ fb (affine_of m) == b /\ fc (affine_of m) == c /\ fd (affine_of m) == d) /\
    forall x y, apply_x (affine_of m) x y == v1 (g_list o l (V4 x y 0 1)) /\
                apply_y (affine_of m) x y == v2 (g_list o l (V4 x y 0 1)).
Proof.
  intros O N K. destruct (list_meaning o l O N K) as (m & M & _ & _ & A). exists m.
  split; [exact M|]. split.
  - unfold coef. pose proof (A (V4 1 0 0 0)) as (A1 & A2 & _). pose proof (A (V4 0 1 0 0)) as (B1 & B2 & _).
    rewrite <- A1, <- A2, <- B1, <- B2. unfold act, affine_of. cbn.
    repeat split; ring.
  - intros x y. destruct (A (V4 x y 0 1)) as (A1 & A2 & _). rewrite <- A1, <- A2.
    unfold act, apply_x, apply_y, affine_of. cbn. split; ring.
Qed.

Lemma own_covers o tr b : oracle_basic o -> solid b ->
  match tr with Some l => tame o l | None => True end ->
  exists b', apply_own o tr b = Ok b' /\ solid b' /\
    forall x y x' y', region b x y -> moves o tr x y x' y' -> region b' x' y'.
Proof.
  intros O SB T. destruct tr as [l|]; cbn [apply_own].
  - destruct T as (N & K & T). destruct (list_affine o l O N K) as (m & M & C & A).
    rewrite M. cbn [bind]. exists (transform_self b (affine_of m)). split; [reflexivity|].
    destruct (coef o l) as [[[a1 b1] c1] d1]. destruct C as (C1 & C2 & C3 & C4).
    rewrite <- C1, <- C2, <- C3, <- C4 in T. destruct T as (T1 & T2 & T3 & T4).
    split; [now apply solid_transform|].
    intros x y x' y' R (MX & MY). destruct SB as [(U & _)|V].
    + unfold region in R. rewrite U in R. contradiction.
    + destruct (transform_exact b (affine_of m) V T1 T2) as (TE & _ & _).
      apply TE in R. destruct (A x y) as (AX & AY).
      apply (region_compat _ (apply_x (affine_of m) x y) (apply_y (affine_of m) x y)); [lra|lra|exact R].
  - exists b. split; [reflexivity|]. split; [exact SB|]. intros x y x' y' R (MX & MY).
    apply (region_compat _ x y); [lra|lra|exact R].
Qed.

(** ** The children *)
Definition boxes (o : oracle) :=
  fix go (acc : rect) (cs : list gnode) : result rect :=
    match cs with
    | [] => Ok acc
    | c :: cs' =>
        match c with
        | GOther => go acc cs'
        | _ => if hidden c then go acc cs'
               else do b <- get_bbox o true c; go (unite acc b) cs'
        end
    end.
Lemma get_bbox_box o nested n d tr cs : get_bbox o nested (GBox n d tr cs) =
  if name_in n [lit "defs"; lit "symbol"] then Ok rect_unset else
  do b <- boxes o rect_unset cs; if nested then apply_own o tr b else Ok b.
Proof. reflexivity. Qed.
Lemma every_box (P : rect -> Prop) (R : list transform -> Prop) n d tr cs :
  every P R (GBox n d tr cs) <->
  match tr with Some l => R l | None => True end /\ Forall (every P R) cs.
Proof.
  cbn [every]. apply and_iff_compat_l. induction cs as [|c cs IH].
  - split; [constructor|auto].
  - rewrite Forall_cons_iff, <- IH. reflexivity.
Qed.
Lemma hidden_iff c : hidden c = false <-> displayed c.
Proof.
  unfold hidden, displayed. destruct (g_display c) as [d|]; [|split; intros; congruence].
  destruct (text_eqb_spec d (lit "none")) as [Q|Q]; split; intros H; congruence.
Qed.
Lemma drawn_iff n : name_in n [lit "defs"; lit "symbol"] = false <-> drawn_name n.
Proof.
  unfold drawn_name. split.
  - intros H. split; intros E; rewrite <- not_true_iff_false in H; apply H; apply name_in_iff; subst; cbn; auto.
  - intros [A B]. destruct (name_in n _) eqn:E; [|reflexivity]. apply name_in_iff in E as [E|[E|[]]]; congruence.
Qed.

Definition good (o : oracle) (c : gnode) : Prop :=
  exists b, get_bbox o true c = Ok b /\ solid b /\ forall x y, paints o c x y -> region b x y.
Lemma boxes_cover o cs : Forall (good o) cs -> forall acc, solid acc ->
  exists b, boxes o acc cs = Ok b /\ solid b /\ included acc b /\
    forall c x y, In c cs -> displayed c -> paints o c x y -> region b x y.
Proof.
  induction 1 as [|c cs G _ IH]; intros acc SA.
  - exists acc. repeat split; [exact SA|intros ? ? H; exact H|intros ? ? ? []].
  - destruct G as (bc & GB & SC & PC).
    assert (SKIP : (forall x y, displayed c -> paints o c x y -> False) ->
      exists b, boxes o acc cs = Ok b /\ solid b /\ included acc b /\
        forall c' x y, In c' (c :: cs) -> displayed c' -> paints o c' x y -> region b x y).
    { intros NO. destruct (IH acc SA) as (b & B & SB & IB & PB). exists b. repeat split; auto.
      intros c' x y [<-|I1] D P; [destruct (NO x y D P)|eauto]. }
    assert (TAKE : displayed c -> exists b, (do b <- get_bbox o true c; boxes o (unite acc b) cs) = Ok b /\
        solid b /\ included acc b /\
        forall c' x y, In c' (c :: cs) -> displayed c' -> paints o c' x y -> region b x y).
    { intros _. rewrite GB. cbn [bind].
      destruct (unite_upper acc bc (solid_proper acc SA) (solid_full bc SC)) as (_ & I1 & I2 & _).
      destruct (IH (unite acc bc) (solid_unite acc bc SA SC)) as (b & B & SB & IB & PB).
      exists b. repeat split; auto.
      - intros x y R. apply IB, I1, R.
      - intros c' x y [<-|I3] D P; [apply IB, I2, PC, P|eauto]. }
    cbn [boxes]. fold (boxes o).
    destruct c as [|d b|n d tr cs'].
    + apply SKIP. intros x y _ P. inversion P.
    + destruct (hidden (GLeaf d b)) eqn:Hd; [|apply TAKE; now apply hidden_iff].
      apply SKIP. intros x y D _. apply hidden_iff in D. congruence.
    + destruct (hidden (GBox n d tr cs')) eqn:Hd; [|apply TAKE; now apply hidden_iff].
      apply SKIP. intros x y D _. apply hidden_iff in D. congruence.
Qed.

Lemma solid_unset : solid rect_unset.
Proof. left. repeat split; reflexivity. Qed.

Lemma bbox_good o : oracle_basic o -> forall n, every solid (tame o) n -> good o n.
Proof.
  intros O. fix IH 1. intros [|d b|n d tr cs] E.
  - exists rect_unset. repeat split; [apply solid_unset|]. intros x y P. inversion P.
  - exists b. repeat split; [exact E|]. intros x y P. inversion P; subst. assumption.
  - apply every_box in E as (T & F).
    assert (G : Forall (good o) cs).
    { clear T. induction cs as [|c cs IHcs]; [constructor|]. inversion F; subst. constructor.
      - apply IH. assumption.
      - apply IHcs. assumption. }
    unfold good. rewrite get_bbox_box. destruct (name_in n _) eqn:NM.
    + exists rect_unset. repeat split; [apply solid_unset|]. intros x y P.
      inversion P as [|? ? ? ? ? ? ? ? ? D]; subst. apply drawn_iff in D. congruence.
    + destruct (boxes_cover o cs G rect_unset solid_unset) as (b & B & SB & _ & PB).
      rewrite B. cbn [bind]. destruct (own_covers o tr b O SB T) as (b' & B' & SB' & PB').
      exists b'. repeat split; [exact B'|exact SB'|]. intros x y P.
      inversion P as [|? ? ? ? c u v ? ? D I1 DS PC MV]; subst. eapply PB'; [|exact MV]. eauto.
Qed.

Lemma bbox_root o n d tr cs : oracle_basic o -> Forall (every solid (tame o)) cs ->
  exists b, get_bbox o false (GBox n d tr cs) = Ok b /\ solid b /\
    forall x y, paints_in o (GBox n d tr cs) x y -> region b x y.
Proof.
  intros O F. rewrite get_bbox_box. destruct (name_in n _) eqn:NM.
  - exists rect_unset. repeat split; [apply solid_unset|]. intros x y [D _]. apply drawn_iff in D. congruence.
  - destruct (boxes_cover o cs) with (acc := rect_unset) as (b & B & SB & _ & PB);
      [|apply solid_unset|].
    + apply Forall_forall. intros c I1. apply bbox_good; [exact O|]. rewrite Forall_forall in F. auto.
    + rewrite B. cbn [bind]. exists b. repeat split; [exact SB|]. intros x y [_ (c & I1 & D & P)]. eauto.
Qed.

(** ** Nothing more than needed *)
Definition least (o : oracle) (c : gnode) : Prop :=
  forall b, get_bbox o true c = Ok b -> forall B, proper B ->
    (forall x y, paints o c x y -> region B x y) -> included b B.
Lemma boxes_least o cs : Forall (good o) cs -> Forall (least o) cs -> forall acc b, solid acc ->
  boxes o acc cs = Ok b -> forall B, proper B -> included acc B ->
  (forall c x y, In c cs -> displayed c -> paints o c x y -> region B x y) -> included b B.
Proof.
  induction cs as [|c cs IH]; intros G L acc b SA E B PB IA PC.
  - cbn in E. injection E as <-. exact IA.
  - inversion G as [|? ? G1 G2]; subst. inversion L as [|? ? L1 L2]; subst.
    assert (REC : forall acc, solid acc -> boxes o acc cs = Ok b -> included acc B -> included b B).
    { intros a SA' E' I'. apply (IH G2 L2 a b SA' E' B PB I'). intros c' x y I1. apply PC. now right. }
    assert (TAKE : displayed c -> (do b <- get_bbox o true c; boxes o (unite acc b) cs) = Ok b -> included b B).
    { intros D E'. destruct G1 as (bc & GB & SC & _). rewrite GB in E'. cbn [bind] in E'.
      apply (REC (unite acc bc)); [now apply solid_unite|exact E'|].
      destruct (unite_upper acc bc (solid_proper acc SA) (solid_full bc SC)) as (_ & _ & _ & U).
      apply U; [exact PB|exact IA|]. apply (L1 bc GB B PB). intros x y. apply PC; [now left|exact D]. }
    cbn [boxes] in E. fold (boxes o) in E.
    destruct c as [|d b'|n d tr cs'].
    + eapply REC; eauto.
    + destruct (hidden (GLeaf d b')) eqn:Hd; [eapply REC; eauto|]. apply TAKE; [now apply hidden_iff|exact E].
    + destruct (hidden (GBox n d tr cs')) eqn:Hd; [eapply REC; eauto|]. apply TAKE; [now apply hidden_iff|exact E].
Qed.

Lemma upright_tame o l : upright o l -> tame o l.
Proof.
  intros (N & K & U). split; [exact N|]. split; [exact K|]. destruct (coef o l) as [[[a b] c] d].
  destruct U as (B & C & A & D). rewrite B, C. repeat split; intros [H1 H2]; try lra; contradiction.
Qed.
Lemma every_impl (P : rect -> Prop) (R R' : list transform -> Prop) : (forall l, R l -> R' l) ->
  forall n, every P R n -> every P R' n.
Proof.
  intros H. fix IH 1. intros [|d b|n d tr cs] E; [exact E|exact E|].
  apply every_box in E as (T & F). apply every_box. split; [destruct tr; auto|].
  clear T. induction cs as [|c cs IHcs]; [constructor|]. inversion F; subst. constructor; auto.
Qed.

(** An interval pulled back through x -> a x + e. *)
Lemma pull_back a e lo w : ~ a == 0 -> 0 <= w -> exists lo' w', 0 <= w' /\
  forall x, lo' <= x <= lo' + w' <-> lo <= a * x + e <= lo + w.
Proof.
  intros NA W. destruct (Qlt_le_dec 0 a) as [P|P].
  - exists ((lo - e) / a), (w / a). assert (E : forall x, x == (a * x) / a) by (intros; field; exact NA).
    split; [apply Qle_shift_div_l; lra|]. intros x.
    assert (S : (lo - e) / a + w / a == (lo - e + w) / a) by (field; exact NA). rewrite S.
    split; intros [H1 H2].
    + apply (Qmult_le_compat_r _ _ a) in H1; [|lra]. apply (Qmult_le_compat_r _ _ a) in H2; [|lra].
      assert (S1 : (lo - e) / a * a == lo - e) by (field; exact NA).
      assert (S2 : (lo - e + w) / a * a == lo - e + w) by (field; exact NA).
      rewrite S1 in H1. rewrite S2 in H2. split; lra.
    + split; [apply Qle_shift_div_r|apply Qle_shift_div_l]; lra.
  - assert (P' : 0 < - a) by (destruct (Qlt_le_dec 0 (- a)); [assumption|exfalso; apply NA; lra]).
    exists ((e - lo - w) / - a), (w / - a).
    split; [apply Qle_shift_div_l; lra|]. intros x.
    assert (NA' : ~ - a == 0) by lra.
    assert (S : (e - lo - w) / - a + w / - a == (e - lo) / - a) by (field; lra). rewrite S.
    split; intros [H1 H2].
    + apply (Qmult_le_compat_r _ _ (- a)) in H1; [|lra]. apply (Qmult_le_compat_r _ _ (- a)) in H2; [|lra].
      assert (S1 : (e - lo - w) / - a * - a == e - lo - w) by (field; lra).
      assert (S2 : (e - lo) / - a * - a == e - lo) by (field; lra).
      rewrite S1 in H1. rewrite S2 in H2. split; lra.
    + split; [apply Qle_shift_div_r|apply Qle_shift_div_l]; lra.
Qed.

Lemma own_least o tr b b' (S : Q -> Q -> Prop) : oracle_basic o -> solid b ->
  match tr with Some l => upright o l | None => True end ->
  apply_own o tr b = Ok b' ->
  (forall B, proper B -> (forall x y, S x y -> region B x y) -> included b B) ->
  forall B, proper B -> (forall x y x' y', S x y -> moves o tr x y x' y' -> region B x' y') -> included b' B.
Proof.
  intros O SB U E LB B PB H. destruct tr as [l|]; cbn [apply_own] in E.
  - destruct (upright_tame o l U) as (_ & _ & T). destruct U as (N & K & U).
    destruct (list_affine o l O N K) as (m & M & C & A). rewrite M in E. cbn [bind] in E.
    injection E as <-. destruct (coef o l) as [[[a1 b1] c1] d1]. destruct C as (C1 & C2 & C3 & C4).
    rewrite <- C1, <- C2, <- C3, <- C4 in U, T. destruct U as (U1 & U2 & U3 & U4).
    destruct T as (T1 & T2 & _ & _).
    destruct SB as [(X & Y & W & Hh)|V].
    + intros x y R. unfold transform_self, isvalid in R. rewrite X in R. cbn in R.
      unfold region in R. rewrite X in R. contradiction.
    + destruct (transform_exact b (affine_of m) V T1 T2) as (_ & TL & _). apply TL; [exact PB|].
      destruct PB as [(BX & BY & BW & BH)|(BX & BY & BW & BH)].
      * exfalso. assert (IB : included b rect_unset).
        { apply LB; [apply proper_unset|]. intros x y SX.
          pose proof (H x y _ _ SX (conj (Qeq_refl _) (Qeq_refl _))) as R.
          unfold region in R. rewrite BX in R. contradiction. }
        destruct (valid_corners b V) as (x & y & w & h & _ & _ & _ & _ & _ & _ & C & _).
        apply IB in C. exact C.
      * destruct (rx B) as [bx|] eqn:EX; [|congruence]. destruct (ry B) as [by_|] eqn:EY; [|congruence].
        destruct (pull_back (fa (affine_of m)) (fe (affine_of m)) bx (rw B) U3 BW) as (lx & wx & WX & PX).
        destruct (pull_back (fd (affine_of m)) (ff (affine_of m)) by_ (rh B) U4 BH) as (ly & wy & WY & PY).
        assert (IB : included b (rect4 lx ly wx wy)).
        { apply LB.
          - right. cbn. repeat split; congruence || assumption.
          - intros x y SX. pose proof (H x y _ _ SX (conj (Qeq_refl _) (Qeq_refl _))) as R.
            destruct (A x y) as (AX & AY). unfold region in R. rewrite EX, EY in R.
            apply region_rect4. unfold apply_x, apply_y in AX, AY. rewrite U2 in AX. rewrite U1 in AY.
            split; [apply PX|apply PY]; lra. }
        intros px py R. apply IB in R. apply region_rect4 in R as (R1 & R2).
        apply PX in R1. apply PY in R2. unfold region. rewrite EX, EY. unfold apply_x, apply_y.
        rewrite U1, U2. split; lra.
  - injection E as <-. apply LB; [exact PB|]. intros x y SX. apply (H x y x y SX). split; reflexivity.
Qed.

Lemma bbox_least o : oracle_basic o -> forall n, every solid (upright o) n -> least o n.
Proof.
  intros O. fix IH 1. intros [|d b|n d tr cs] E.
  - intros b G B _ _. cbn in G. injection G as <-. intros x y [].
  - intros b' G B PB H. cbn in G. injection G as <-. intros x y R. apply H. now constructor.
  - pose proof (every_impl solid (upright o) (tame o) (upright_tame o) _ E) as E2.
    apply every_box in E as (T & F). apply every_box in E2 as (_ & F2).
    assert (L : Forall (least o) cs).
    { clear T F2. induction cs as [|c cs IHcs]; [constructor|]. inversion F; subst. constructor.
      - apply IH. assumption.
      - apply IHcs. assumption. }
    assert (G : Forall (good o) cs).
    { apply Forall_forall. intros c I1. apply bbox_good; [exact O|]. rewrite Forall_forall in F2. auto. }
    intros b EB. rewrite get_bbox_box in EB. destruct (name_in n _) eqn:NM.
    + injection EB as <-. intros B _ _ x y [].
    + destruct (boxes_cover o cs G rect_unset solid_unset) as (bc & BC & SB & _ & _).
      pose proof (boxes_least o cs G L rect_unset bc solid_unset BC) as LB.
      rewrite BC in EB. cbn [bind] in EB. intros B PB H.
      apply (own_least o tr bc b (fun x y => exists c, In c cs /\ displayed c /\ paints o c x y) O SB T EB);
        [|exact PB|].
      * intros B' PB' H'. apply LB; [exact PB'|intros x y []|]. intros c x y I1 D P. apply H'. eauto.
      * intros x y x' y' (c & I1 & D & P) MV. apply H. apply paints_box with c x y; auto. now apply drawn_iff.
Qed.
Lemma bbox_root_least o n d tr cs : oracle_basic o -> Forall (every solid (upright o)) cs ->
  forall b, get_bbox o false (GBox n d tr cs) = Ok b -> forall B, proper B ->
    (forall x y, paints_in o (GBox n d tr cs) x y -> region B x y) -> included b B.
Proof.
  intros O F b EB B PB H. rewrite get_bbox_box in EB. destruct (name_in n _) eqn:NM.
  - injection EB as <-. intros x y [].
  - rewrite Forall_forall in F.
    assert (G : Forall (good o) cs).
    { apply Forall_forall. intros c I1. apply bbox_good; [exact O|].
      apply (every_impl solid (upright o) (tame o) (upright_tame o)). auto. }
    assert (L : Forall (least o) cs).
    { apply Forall_forall. intros c I1. apply bbox_least; [exact O|]. auto. }
    destruct (boxes o rect_unset cs) as [bc|] eqn:BC; [|discriminate]. cbn [bind] in EB. injection EB as <-.
    apply (boxes_least o cs G L rect_unset bc solid_unset BC B PB); [intros x y []|].
    intros c x y I1 D P. apply H. cbn [paints_in]. split; [now apply drawn_iff|]. eauto.
Qed.
