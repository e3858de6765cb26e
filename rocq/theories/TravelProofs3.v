(** Laws of the length of a path. *)
From Coq Require Import Lia Lqa Qround Qabs Setoid.
From Verif Require Import PyBase MatrixModel MatrixSpec MatrixProofs MatrixProofs2 PathModel PathSpec PathProofs PathNormProofs
  PathTransProofs TravelModel TravelSpec TravelProofs TravelProofs2.
Local Open Scope Q_scope.

(** ** Without arcs *)
Definition curved (d : stroke) : bool := match d with Arc _ _ _ _ _ _ _ => false | _ => true end.
Definition lengths (ms : measure) (ds : list stroke) : Q := sum (map (length_of ms) ds).
Lemma measures_plain o at2 ms ds : forall vs, forallb curved ds = true -> Forall2 (measures o at2 ms) ds vs ->
  sum vs == lengths ms ds.
Proof.
  unfold lengths. induction ds as [|d ds IH]; intros vs C F; inversion F as [|? v ? vs' M F']; subst; [reflexivity|].
  cbn [forallb] in C. apply andb_true_iff in C as [C1 C2]. cbn [sum map]. rewrite (IH _ C2 F').
  destruct d; try discriminate C1; cbn [measures] in M; rewrite M; reflexivity.
Qed.
Lemma no_arc_curved o l : forall s, forallb no_arc l = true -> forallb curved (strokes o s l) = true.
Proof.
  induction l as [|g l IH]; intros s H; [reflexivity|]. cbn [forallb] in H. apply andb_true_iff in H as [A B].
  cbn [strokes]. destruct (draw o s g) as [s' d] eqn:E. rewrite forallb_app, IH by exact B. rewrite andb_true_r.
  destruct g; try discriminate A; cbn [draw] in E; try destruct (after_move s); injection E as <- <-; reflexivity.
Qed.
Lemma total_plain o at2 ms l : oracle_basic o -> lawful ms -> begins_moveto l = true -> smooth_len NoSmooth l = true ->
  forallb no_arc l = true -> exists v, total_length o at2 ms l = Ok v /\ v == lengths ms (drawing o l).
Proof.
  intros O La B G N. destruct (total_measures o at2 ms l O La B G) as (v & vs & H & F & E).
  exists v. split; [exact H|]. rewrite E. apply (measures_plain o at2); [apply no_arc_curved; exact N|exact F].
Qed.

(** ** Normalising *)
Lemma smooth_ok_len l : forall m, smooth_ok m l = true -> smooth_len m l = true.
Proof.
  induction l as [|g l IH]; intros m H; [reflexivity|]. cbn [smooth_ok smooth_len] in *.
  apply andb_true_iff in H as [A B]. rewrite IH by exact B. rewrite andb_true_r.
  destruct g; try exact A; reflexivity.
Qed.
Lemma base_smooth l : forall m, forallb base l = true -> smooth_len m l = true /\ forallb no_arc l = true.
Proof.
  induction l as [|g l IH]; intros m H; [auto|]. cbn [forallb smooth_len] in *. apply andb_true_iff in H as [A B].
  destruct (IH (mode_after m g) B) as [-> ->]. destruct g; try discriminate A; auto.
Qed.
Lemma quad_cubic a c b a' c' d' b' :
  (forall t, opt_peq (at_time t (Quad a c b)) (at_time t (Cubic a' c' d' b'))) ->
  forall t, velocity t ptx (Quad a c b) == velocity t ptx (Cubic a' c' d' b') /\
            velocity t pty (Quad a c b) == velocity t pty (Cubic a' c' d' b').
Proof.
  intros H t. assert (H0 := H 0). assert (H1 := H 1). assert (H2 := H 2). assert (H3 := H (-1)).
  cbn [at_time opt_peq] in *. unfold peq, mix in *. cbn [ptx pty] in *.
  destruct H0 as [X0 Y0], H1 as [X1 Y1], H2 as [X2 Y2], H3 as [X3 Y3].
  assert (K : forall a c b a' c' d' b' : Q, a' == a -> b' == b -> 3 * c' == a + 2 * c -> 3 * d' == b + 2 * c ->
    2 * ((1 - t) * (c - a) + t * (b - c)) ==
    3 * ((1 - t) * ((1 - t) * (c' - a') + t * (d' - c')) + t * ((1 - t) * (d' - c') + t * (b' - d')))).
  { clear. intros a c b a' c' d' b' -> -> C D. assert (C' : c' == (a + 2 * c) / 3) by (rewrite <- C; field).
    assert (D' : d' == (b + 2 * c) / 3) by (rewrite <- D; field). rewrite C', D'. field. }
  split; cbn [velocity]; apply K; lra.
Qed.
Lemma renders_length ms d l : lawful ms -> curved d = true -> renders d l -> lengths ms l == length_of ms d.
Proof.
  intros La C R. unfold lengths. destruct R as [d d' _ E|a c b a' c' d' b' T| |]; try discriminate C; cbn [map sum].
  - rewrite (length_of_eq ms d d' La E). ring.
  - cbn [length_of]. destruct La as (I1 & _). rewrite Qplus_0_r. symmetry. apply I1. intros t. unfold speed2.
    destruct (quad_cubic _ _ _ _ _ _ _ T t) as [-> ->]. reflexivity.
Qed.
Lemma lengths_app ms l1 l2 : lengths ms (l1 ++ l2) == lengths ms l1 + lengths ms l2.
Proof. unfold lengths. rewrite map_app. apply sum_app. Qed.
Lemma all_render_length ms ds ds' : lawful ms -> forallb curved ds = true -> all_render ds ds' ->
  lengths ms ds' == lengths ms ds.
Proof.
  intros La C R. induction R as [|d l ds ds' R A IH]; [reflexivity|]. cbn [forallb] in C. apply andb_true_iff in C as [C1 C2].
  rewrite lengths_app, (renders_length ms d l La C1 R), (IH C2). unfold lengths. cbn [map sum]. reflexivity.
Qed.
Lemma first_stroke o l : forall s, begins_moveto l = true -> after_move s = false ->
  strokes o s l = [] \/ exists p ds, strokes o s l = Move p :: ds.
Proof.
  induction l as [|g l IH]; intros s B A; [auto|]. destruct g; try discriminate B; cbn [strokes draw].
  - rewrite A. right. do 2 eexists. reflexivity.
  - cbn [app]. apply IH; [exact B|reflexivity].
  - cbn [app]. apply IH; [exact B|exact A].
Qed.
Lemma render_first ds ds' : all_render ds ds' -> (ds = [] \/ exists p es, ds = Move p :: es) ->
  ds' = [] \/ exists p es, ds' = Move p :: es.
Proof.
  intros R [->|(p & es & ->)]; [inversion R; auto|]. inversion R as [|d l ? es' R1 R2]; subst.
  inversion R1 as [? d' _ E| | |]; subst. destruct d'; try contradiction. right. cbn [app]. eauto.
Qed.
Lemma base_first o out : forallb base out = true -> (drawing o out = [] \/ exists p es, drawing o out = Move p :: es) ->
  begins_moveto out = true.
Proof.
  destruct out as [|g out]; [reflexivity|]. cbn [forallb]. intros H [D|(p & es & D)]; apply andb_true_iff in H as [A _];
    destruct g as [[]|[]| | |[]| | | | | |[]| |]; try discriminate A; cbn in D; try discriminate D; reflexivity.
Qed.
Lemma normalize_length o at2 ms l out : oracle_basic o -> lawful ms -> begins_moveto l = true -> smooth_ok NoSmooth l = true ->
  forallb no_arc l = true -> normalize o at2 l = Ok out ->
  exists v w, total_length o at2 ms l = Ok v /\ total_length o at2 ms out = Ok w /\ v == w.
Proof.
  intros O La B G N H. destruct (normalize_renders o at2 l out O B G H) as [R Ba].
  destruct (base_smooth out NoSmooth Ba) as [G' N'].
  assert (B' : begins_moveto out = true).
  { apply (base_first o); [exact Ba|]. eapply render_first; [exact R|]. apply first_stroke; [exact B|reflexivity]. }
  destruct (total_plain o at2 ms l O La B (smooth_ok_len _ _ G) N) as (v & V & EV).
  destruct (total_plain o at2 ms out O La B' G' N') as (w & W & EW).
  exists v, w. split; [exact V|]. split; [exact W|]. rewrite EV, EW. symmetry.
  apply all_render_length; [exact La|apply no_arc_curved; exact N|exact R].
Qed.

(** ** Making absolute *)
Lemma forall2_length ms ds ds' : lawful ms -> Forall2 stroke_eq ds ds' -> lengths ms ds == lengths ms ds'.
Proof.
  intros La F. induction F as [|d d' ds ds' E F IH]; [reflexivity|]. unfold lengths in *. cbn [map sum].
  rewrite IH, (length_of_eq ms d d' La E). reflexivity.
Qed.
Lemma abs_modes o g cp b m : mode_after m (toabsolute o g cp b) = mode_after m g /\
  allowed_len m (toabsolute o g cp b) = allowed_len m g /\ no_arc (toabsolute o g cp b) = no_arc g.
Proof. destruct g as [[]|[]|[]|[]|[]|[]|[]|[]|[]|[]|[]| |], m; auto. Qed.
Lemma abs_smooth o l : forall s m, smooth_len m (absolute_path o s l) = smooth_len m l.
Proof.
  induction l as [|g l IH]; intros s m; [reflexivity|]. cbn [absolute_path smooth_len].
  destruct (abs_modes o g (some_pt (cur s)) (brg s) m) as (-> & -> & _). rewrite IH. reflexivity.
Qed.
Lemma abs_no_arc o l : forall s, forallb no_arc (absolute_path o s l) = forallb no_arc l.
Proof.
  induction l as [|g l IH]; intros s; [reflexivity|]. cbn [absolute_path forallb].
  destruct (abs_modes o g (some_pt (cur s)) (brg s) Fresh) as (_ & _ & ->). rewrite IH. reflexivity.
Qed.
Lemma abs_begins o l : forall s, begins_moveto (absolute_path o s l) = begins_moveto l.
Proof.
  induction l as [|g l IH]; intros s; [reflexivity|]. cbn [absolute_path].
  destruct g as [[]|[]|[]|[]|[]|[]|[]|[]|[]|[]|[]| |]; cbn [toabsolute begins_moveto]; auto.
Qed.
Lemma absolute_length o at2 ms l : oracle_basic o -> lawful ms -> begins_moveto l = true -> smooth_len NoSmooth l = true ->
  forallb no_arc l = true ->
  exists v w, total_length o at2 ms l = Ok v /\ total_length o at2 ms (absolute_path o pen0 l) = Ok w /\ v == w.
Proof.
  intros O La B G N. destruct (total_plain o at2 ms l O La B G N) as (v & V & EV).
  destruct (total_plain o at2 ms (absolute_path o pen0 l) O La) as (w & W & EW);
    [rewrite abs_begins; exact B|rewrite abs_smooth; exact G|rewrite abs_no_arc; exact N|].
  exists v, w. split; [exact V|]. split; [exact W|]. rewrite EV, EW.
  apply forall2_length; [exact La|]. apply absolute_drawing; [exact O|apply pen_eq_refl].
Qed.

(** ** Transforming *)
(** dropping the bearings allows more *)
Definition below (m m' : mode) : Prop :=
  m = m' \/ m = NoSmooth \/ (m = AfterMoveB /\ m' = AfterMove).
Definition alike (g t : seg) : Prop := forall m, mode_after m t = mode_after m g /\ allowed_len m t = allowed_len m g.
Definition kept (g : seg) : bool := match g with SB _ _ | SInvalid => false | _ => true end.
Lemma below_step m m' g : below m m' -> allowed_len m g = true -> kept g = true ->
  allowed_len m' g = true /\ below (mode_after m g) (mode_after m' g).
Proof.
  intros [->|[->|[-> ->]]] A K; [split; [exact A|left; reflexivity]| |].
  - destruct g; try discriminate A; try discriminate K; split; try (destruct m'; reflexivity); left; reflexivity.
  - destruct g; try discriminate A; try discriminate K; split; try reflexivity; left; reflexivity.
Qed.
Lemma below_drop m m' g : below m m' -> kept g = false -> below (mode_after m g) m'.
Proof. intros [->|[->|[-> ->]]] K; destruct g; try discriminate K; cbn; unfold below; auto; destruct m'; auto. Qed.
Lemma seg_transform_alike o s cp b m t : seg_transform o s cp b m = Ok t -> kept s = true -> kind s <> Some KZ ->
  alike s t /\ no_arc t = no_arc s /\ (begins_moveto [s] = begins_moveto [t]) /\ kept t = true.
Proof.
  unfold alike.
  destruct s as [[]|[]|[]|[]|[]|[]|[]|[]|[]|[]|[]| |]; intros H K Z; try discriminate K; try (contradiction Z; reflexivity);
    cbn [seg_transform isrelative toabsolute] in H; unfold cp_pt in H;
    repeat match type of H with context [match ?c with (_, _) => _ end] => destruct c; cbn [fst snd] in H
      | context [match fst cp with _ => _ end] => destruct (fst cp); cbn [bind] in H
      | context [match snd cp with _ => _ end] => destruct (snd cp); cbn [bind] in H end;
    cbn [bind] in H;
    repeat match type of H with context [tpoint m ?p] => destruct (tpoint m p); cbn [bind] in H; try discriminate H end;
    try discriminate H; try (injection H as <-);
    (split; [intros []; split; reflexivity|]); auto.
Qed.
Lemma transform_step_out o m st s st' out : transform_step o m st s = Ok (st', out) ->
  (kept s = false /\ out = []) \/
  (kept s = true /\ exists t, out = [t] /\ alike s t /\ no_arc t = no_arc s /\ (begins_moveto [s] = begins_moveto [t]) /\ kept t = true).
Proof.
  unfold transform_step.
  destruct (kind s) as [k|] eqn:K.
  2:{ intros [= <- <-]. left. destruct s; try discriminate K; auto. }
  assert (D : k = KB \/ k = KZ \/ (k <> KB /\ k <> KZ)) by (destruct k; auto; right; right; split; discriminate).
  destruct D as [->|[->|[N1 N2]]].
  - intros [= <- <-]. left. destruct s; try discriminate K; auto.
  - intros [= <- <-]. right. destruct s; try discriminate K. split; [reflexivity|]. eexists. split; [reflexivity|].
    unfold alike. split; [intros []; auto|]. auto.
  - intros H. assert (K' : kept s = true) by (destruct s; try reflexivity; cbn in K; congruence).
    assert (Z : kind s <> Some KZ) by congruence. right. split; [exact K'|].
    assert (S : exists t, seg_transform o s (t_cp st) (t_bearing st) m = Ok t /\ out = [t]).
    { destruct k; try congruence; (destruct (seg_transform o s (t_cp st) (t_bearing st) m) as [t|e]; cbn [bind] in H; [|discriminate H];
        injection H as <- <-; eauto). }
    destruct S as (t & S & ->). exists t. split; [reflexivity|]. exact (seg_transform_alike _ _ _ _ _ _ S K' Z).
Qed.
Lemma transform_modes o m l : forall st md md' out, transform_from o m st l = Ok out -> below md md' ->
  smooth_len md l = true ->
  smooth_len md' out = true /\ forallb no_arc out = forallb no_arc l /\ (begins_moveto l = true -> begins_moveto out = true).
Proof.
  induction l as [|g l IH]; intros st md md' out H Be G; cbn [transform_from] in H.
  - injection H as <-. auto.
  - destruct (transform_step o m st g) as [[st' o1]|] eqn:E; cbn [bind] in H; [|discriminate H].
    destruct (transform_from o m st' l) as [o2|] eqn:F; cbn [bind] in H; [|discriminate H]. injection H as <-.
    cbn [smooth_len] in G. apply andb_true_iff in G as [A G].
    destruct (transform_step_out _ _ _ _ _ _ E) as [[K ->]|(K & t & -> & Al & N & Bm & Kt)].
    + destruct (IH _ _ _ _ F (below_drop _ _ _ Be K) G) as (S1 & S2 & S3). cbn [app forallb].
      split; [exact S1|]. split; [rewrite S2; destruct g; try discriminate K; reflexivity|].
      intros B. apply S3. destruct g; try discriminate K; exact B.
    + destruct (below_step _ _ _ Be A K) as [A' Be']. destruct (Al md') as [Al1 Al2].
      destruct (IH _ _ _ _ F Be' G) as (S1 & S2 & S3). cbn [app forallb smooth_len].
      rewrite Al1, Al2, A', S1, S2, N. split; [reflexivity|]. split; [reflexivity|].
      intros B. destruct g; try discriminate K; try discriminate B; destruct t; cbn in Bm; try discriminate Bm; try discriminate Kt; reflexivity.
Qed.
Lemma img_mix a t p q : ptx (img a (P (mix t (ptx p) (ptx q)) (mix t (pty p) (pty q)))) == mix t (ptx (img a p)) (ptx (img a q)) /\
  pty (img a (P (mix t (ptx p) (ptx q)) (mix t (pty p) (pty q)))) == mix t (pty (img a p)) (pty (img a q)).
Proof. unfold img, act, mix. cbn [v1 v2 v3 v4 ptx pty]. split; ring. Qed.
(** the vector of the image *)
Definition lx (a : mat) (x y : Q) : Q := ptx (img a (P x y)) - ptx (img a (P 0 0)).
Definition ly (a : mat) (x y : Q) : Q := pty (img a (P x y)) - pty (img a (P 0 0)).
Lemma velocity_img a d t : curved d = true -> velocity t ptx (stroke_img a d) == lx a (velocity t ptx d) (velocity t pty d) /\
  velocity t pty (stroke_img a d) == ly a (velocity t ptx d) (velocity t pty d).
Proof.
  destruct d; try discriminate; intros _; cbn [stroke_img velocity]; unfold lx, ly, img, act, mix;
    cbn [v1 v2 v3 v4 ptx pty]; split; ring.
Qed.
Lemma speed_img k a d t : similarity k a -> curved d = true -> speed2 (stroke_img a d) t == k * k * speed2 d t.
Proof.
  intros [_ H] C. unfold speed2. destruct (velocity_img a d t C) as [-> ->].
  specialize (H (P 0 0) (P (velocity t ptx d) (velocity t pty d))). unfold dist2 in H. cbn [ptx pty] in H. unfold lx, ly.
  rewrite H. ring.
Qed.
Lemma length_img ms k a d : homogeneous ms -> similarity k a -> curved d = true ->
  length_of ms (stroke_img a d) == k * length_of ms d.
Proof.
  intros [H1 H2] S C. assert (S' := S). destruct S' as [K D].
  assert (V := speed_img k a d). 
  destruct d; try discriminate C; cbn [stroke_img length_of] in *; try ring;
    first [apply H2; [exact K|]; apply D|apply H1; [exact K|]; intros t; apply V; [exact S|reflexivity]].
Qed.
Lemma lengths_img ms k a ds : homogeneous ms -> similarity k a -> forallb curved ds = true ->
  lengths ms (map (stroke_img a) ds) == k * lengths ms ds.
Proof.
  intros Ho Si. unfold lengths. induction ds as [|d ds IH]; cbn [forallb map sum]; intros C; [ring|].
  apply andb_true_iff in C as [C1 C2]. rewrite (IH C2), (length_img ms k a d Ho Si C1). ring.
Qed.
Lemma transform_length o at2 ms m k l : oracle_basic o -> lawful ms -> homogeneous ms -> is2d m = true -> similarity k (arr m) ->
  begins_moveto l = true -> smooth_len NoSmooth l = true -> forallb no_arc l = true ->
  remembers true true l = true -> bearing_ok None false l = true -> forallb drawn l = true ->
  exists out v w, path_transform o m l = Ok out /\ total_length o at2 ms l = Ok v /\ total_length o at2 ms out = Ok w /\ w == k * v.
Proof.
  intros O La Ho D Si B G N Re Bo Dr. destruct (transform_draws o m l O D B Re Bo Dr) as (out & T & F).
  destruct (transform_modes o m l tstate0 NoSmooth NoSmooth out T (or_introl eq_refl) G) as (G' & N' & B').
  destruct (total_plain o at2 ms l O La B G N) as (v & V & EV).
  destruct (total_plain o at2 ms out O La (B' B) G') as (w & W & EW); [rewrite N'; exact N|].
  exists out, v, w. split; [exact T|]. split; [exact V|]. split; [exact W|].
  rewrite EV, EW, <- (forall2_length ms _ _ La F). apply lengths_img; [exact Ho|exact Si|apply no_arc_curved; exact N].
Qed.

(** ** Putting paths together *)
Fixpoint length_run (o : oracle) (at2 : Q -> Q -> Q) (ms : measure) (st : nstate) (l : list seg) : result (nstate * Q) :=
  match l with
  | [] => Ok (st, 0)
  | s :: l' => do (st', v) <- length_step o at2 ms st s; do (st'', w) <- length_run o at2 ms st' l'; Ok (st'', v + w)
  end.
Lemma length_run_from o at2 ms l : forall st, length_from o at2 ms st l = do (_, v) <- length_run o at2 ms st l; Ok v.
Proof.
  induction l as [|g l IH]; intros st; [reflexivity|]. cbn [length_from length_run].
  destruct (length_step o at2 ms st g) as [[st' v]|e]; cbn [bind]; [|reflexivity]. rewrite IH.
  destruct (length_run o at2 ms st' l) as [[st'' w]|e]; reflexivity.
Qed.
Lemma length_from_app o at2 ms l1 l2 : forall st st1 v1 w, length_run o at2 ms st l1 = Ok (st1, v1) ->
  length_from o at2 ms st (l1 ++ l2) = Ok w -> exists v2, length_from o at2 ms st1 l2 = Ok v2 /\ w == v1 + v2.
Proof.
  induction l1 as [|g l1 IH]; intros st st1 v1 w H1 H2; cbn [length_run app length_from] in *.
  - injection H1 as <- <-. exists w. split; [exact H2|ring].
  - destruct (length_step o at2 ms st g) as [[st' v]|e]; cbn [bind] in *; [|discriminate H1].
    destruct (length_run o at2 ms st' l1) as [[st'' u]|e] eqn:E; cbn [bind] in H1; [|discriminate H1]. injection H1 as <- <-.
    destruct (length_from o at2 ms st' (l1 ++ l2)) as [x|e] eqn:F; cbn [bind] in H2; [|discriminate H2]. injection H2 as <-.
    destruct (IH _ _ _ _ E F) as (v2 & V & EV). exists v2. split; [exact V|]. rewrite EV. ring.
Qed.
Lemma length_from_app2 o at2 ms l1 l2 : forall st st1 v1 v2, length_run o at2 ms st l1 = Ok (st1, v1) ->
  length_from o at2 ms st1 l2 = Ok v2 -> exists w, length_from o at2 ms st (l1 ++ l2) = Ok w /\ w == v1 + v2.
Proof.
  induction l1 as [|g l1 IH]; intros st st1 v1 v2 H1 H2; cbn [length_run app length_from] in *.
  - injection H1 as <- <-. exists v2. split; [exact H2|ring].
  - destruct (length_step o at2 ms st g) as [[st' v]|e]; cbn [bind] in *; [|discriminate H1].
    destruct (length_run o at2 ms st' l1) as [[st'' u]|e] eqn:E; cbn [bind] in H1; [|discriminate H1]. injection H1 as <- <-.
    destruct (IH _ _ _ _ E H2) as (w & -> & EW). cbn [bind]. exists (v + w). split; [reflexivity|]. rewrite EW. ring.
Qed.
Lemma step_last o at2 ms st g st' v : length_step o at2 ms st g = Ok (st', v) ->
  n_last st' = (match kind g with None => n_last st | k => k end) /\ (no_bearing g = true -> n_bearing st' = n_bearing st).
Proof.
  unfold length_step. destruct (kind g) as [k|] eqn:K; [|intros [= <- <-]; auto].
  destruct k; try (intros [= <- <-]; split; [reflexivity|]; destruct g; try discriminate K; discriminate);
    try (destruct (end_pt (n_start st)), (end_pt (n_cp st)); intros [= <- <-]; auto; fail);
    (destruct (seg_length o at2 ms g (n_cp st) (n_bearing st) (n_ext st)) as [[len cp]|e]; cbn [bind]; [|discriminate]);
    cbn [is_cubic is_quad orb is_moveto];
    try (destruct (next_control o g (n_cp st) (n_bearing st) (n_last st) (n_ext st)) as [p|e]; cbn [bind]; [|discriminate]); cbn [bind];
    try destruct (is_moveto (n_last st)); intros [= <- <-]; auto.
Qed.
Lemma run_last o at2 ms l : forall st st' v, length_run o at2 ms st l = Ok (st', v) ->
  (forallb no_bearing l = true -> n_bearing st' = n_bearing st) /\
  (drawn_last l = true -> is_moveto (n_last st') = false) /\
  (forallb (fun g => negb (is_some (kind g))) l = true -> n_last st' = n_last st).
Proof.
  induction l as [|g l IH] using rev_ind; intros st st' v H.
  - injection H as <- <-. split; [auto|]. split; [discriminate|auto].
  - assert (A : exists st1 v1 v2, length_run o at2 ms st l = Ok (st1, v1) /\ length_step o at2 ms st1 g = Ok (st', v2)).
    { clear IH. revert st st' v H. induction l as [|h l IHl]; intros st st' v H; cbn [app length_run] in *.
      - destruct (length_step o at2 ms st g) as [[s2 v2]|e] eqn:E; cbn [bind] in H; [|discriminate H]. injection H as <- <-.
        do 3 eexists; split; [reflexivity|exact E].
      - destruct (length_step o at2 ms st h) as [[s2 v2]|e]; cbn [bind] in *; [|discriminate H].
        destruct (length_run o at2 ms s2 (l ++ [g])) as [[s3 v3]|e] eqn:E; cbn [bind] in H; [|discriminate H]. injection H as <- <-.
        destruct (IHl _ _ _ E) as (st1 & v1 & w & -> & S). cbn [bind]. do 3 eexists; split; [reflexivity|exact S]. }
    destruct A as (st1 & v1 & v2 & R & S). destruct (IH _ _ _ R) as (I1 & I2 & I3).
    destruct (step_last _ _ _ _ _ _ _ S) as [L1 L2].
    split; [|split].
    + rewrite forallb_app. intros H'. apply andb_true_iff in H' as [X Y]. cbn [forallb] in Y. rewrite andb_true_r in Y.
      rewrite L2, I1 by assumption. reflexivity.
    + unfold drawn_last. rewrite filter_app, rev_app_distr. cbn [filter]. rewrite L1.
      destruct g as [| | | | | | | | | | | |]; cbn [rev app kind is_moveto]; try reflexivity; try discriminate. exact I2.
    + rewrite forallb_app. intros H'. apply andb_true_iff in H' as [X Y]. cbn [forallb] in Y. rewrite L1.
      destruct (kind g); [discriminate Y|]. apply I3. exact X.
Qed.
Lemma moveto_state o at2 ms st p : is_moveto (n_last st) = false ->
  length_step o at2 ms st (SM false p) = Ok (NS (some_pt p) (some_pt p) (Some (P (ptx p) (pty p))) (n_bearing st) (Some KM), 0).
Proof. intros H. unfold length_step. cbn [kind seg_length isrelative bind is_cubic is_quad orb is_moveto]. rewrite H. reflexivity. Qed.
Lemma join_length o at2 ms l1 p l2 v1 : total_length o at2 ms l1 = Ok v1 -> drawn_last l1 = true -> forallb no_bearing l1 = true ->
  forall e, (exists w, total_length o at2 ms (l1 ++ SM false p :: l2) = Ok w /\ w == v1 + e) <->
            (exists v2, total_length o at2 ms (SM false p :: l2) = Ok v2 /\ v2 == e).
Proof.
  intros H D N e. unfold total_length in *. rewrite length_run_from in H.
  destruct (length_run o at2 ms nstate0 l1) as [[st1 u]|] eqn:R; cbn [bind] in H; [|discriminate H]. injection H as ->.
  destruct (run_last _ _ _ _ _ _ _ R) as (Rb & Rl & _).
  assert (E : length_from o at2 ms st1 (SM false p :: l2) = length_from o at2 ms nstate0 (SM false p :: l2)).
  { cbn [length_from]. rewrite !moveto_state by (apply Rl, D || reflexivity). rewrite (Rb N). reflexivity. }
  split.
  - intros (w & W & EW). destruct (length_from_app _ _ _ _ _ _ _ _ _ R W) as (v2 & V2 & E2). rewrite E in V2.
    exists v2. split; [exact V2|]. lra.
  - intros (v2 & V2 & E2). rewrite <- E in V2. destruct (length_from_app2 _ _ _ _ _ _ _ _ _ R V2) as (w & W & EW).
    exists w. split; [exact W|]. lra.
Qed.

(** ** Other laws *)
Lemma lengths_positive ms ds : positive ms -> 0 <= lengths ms ds.
Proof.
  intros [P1 P2]. unfold lengths. induction ds as [|d ds IH]; cbn [map sum]; [lra|].
  assert (0 <= length_of ms d) by (destruct d; cbn [length_of]; auto; lra). lra.
Qed.
Lemma arc_extent_bound at2 o rx ry rot fa fs cp ep c rx' ry' d1 ext : atan2_range at2 ->
  get_center_of_arc o at2 rx ry rot fa fs cp ep = Centre c rx' ry' d1 ext -> Qabs ext <= 360.
Proof.
  intros R. unfold get_center_of_arc. destruct (_ || _); [discriminate|]. destruct (_ && _); [discriminate|].
  intros [= _ _ _ _ <-].
  assert (A : forall y x, 0 <= get_angle at2 y x < 360).
  { intros y x. destruct (R y x) as (R1 & R2 & R3). unfold get_angle.
    destruct (Qltb_spec 0 y) as [L|L]; [specialize (R1 L); lra|]. destruct (Qltb_spec y 0) as [L'|L']; [specialize (R2 L'); lra|].
    assert (y == 0) by lra. specialize (R3 H). lra. }
  match goal with |- context [arc_extent _ _ (if _ then ?a else _) (if _ then ?b else _)] =>
    assert (A1 : 0 <= a < 360) by apply A; assert (A2 : 0 <= b < 360) by apply A; set (u := a) in *; set (v := b) in * end.
  clearbody u v. clear A. unfold arc_extent.
  set (u' := if rot =?q 0 then u else u + rot). set (v' := if rot =?q 0 then v else v + rot).
  assert (D : v' - u' == v - u) by (unfold u', v'; destruct (rot =?q 0); ring).
  assert (B : 0 <= Qabs (v' - u') < 360).
  { split; [apply Qabs_nonneg|]. rewrite D. apply Qabs_Qlt_condition. lra. }
  set (w := Qabs (v' - u')) in *. clearbody w.
  assert (X : forall z, 0 <= z <= 360 -> forall b : bool, Qabs (if b then - z else z) <= 360).
  { intros z Z b. apply Qabs_Qle_condition. destruct b; lra. }
  apply X. destruct (negb (fa =?q 0)); [destruct (Qltb_spec w 180)|destruct (Qltb_spec 180 w)]; lra.
Qed.
Definition bend (t : Q) (f : pt -> Q) (d : stroke) : Q :=
  match d with
  | Quad a c b => f a - 2 * f c + f b
  | Cubic a c e b => 3 * mix t (f a - 2 * f c + f e) (f c - 2 * f e + f b)
  | _ => 0
  end.
Definition twist (f : pt -> Q) (d : stroke) : Q :=
  match d with Cubic a c e b => f b - 3 * f e + 3 * f c - f a | _ => 0 end.
Lemma velocity_derivative d t h p q : curved d = true -> at_time t d = Some p -> at_time (t + h) d = Some q ->
  exists r s r' s', ptx q == ptx p + h * velocity t ptx d + h * h * (r + h * s) /\
                    pty q == pty p + h * velocity t pty d + h * h * (r' + h * s').
Proof.
  intros C H1 H2. exists (bend t ptx d), (twist ptx d), (bend t pty d), (twist pty d).
  destruct d; try discriminate C; cbn [at_time] in *; injection H1 as <-; injection H2 as <-;
    cbn [velocity bend twist ptx pty]; unfold mix; split; ring.
Qed.

(** ** A measure with exact roots *)
Definition qroot (q : Q) : Q := let z := qsqrt q in if z * z =?q q then z else 0.
Lemma qroot_scaled k q q' : 0 <= k -> q' == k * k * q -> qroot q' == k * qroot q.
Proof.
  intros K E. unfold qroot. cbn zeta.
  assert (Pz : forall x, 0 <= qsqrt x).
  { intros [n d]. unfold qsqrt, Qle. cbn [Qnum Qden]. assert (H := Z.sqrt_nonneg (n * Z.pos d)). lia. }
  destruct (Qeqb_spec (qsqrt q * qsqrt q) q) as [H|H].
  - assert (X : qsqrt q' == k * qsqrt q).
    { apply qsqrt_ok; [apply Qmult_le_0_compat; [exact K|apply Pz]|]. rewrite E, <- H at 1. ring. }
    destruct (Qeqb_spec (qsqrt q' * qsqrt q') q') as [H'|H']; [exact X|].
    contradiction H'. rewrite X, E. rewrite <- H at 3. ring.
  - destruct (Qeqb_spec (qsqrt q' * qsqrt q') q') as [H'|H']; [|ring].
    destruct (Qeq_dec k 0) as [K0|K0].
    + rewrite K0. assert (q' == 0 * 0) by (rewrite E, K0; ring). assert (X : qsqrt q' == 0) by (apply qsqrt_ok; [lra|exact H0]).
      rewrite X. ring.
    + contradiction H.
      assert (Zp := Pz q'). set (z := qsqrt q') in *. clearbody z.
      assert (Y : q == z / k * (z / k)).
      { transitivity (k * k * q / (k * k)); [field; exact K0|]. rewrite <- E, <- H'. field. exact K0. }
      assert (X : qsqrt q == z / k) by (apply qsqrt_ok; [apply Qle_shift_div_l; lra|exact Y]).
      rewrite X. symmetry. exact Y.
Qed.
(** the midpoint rule, and circles *)
Definition exact_ms : measure :=
  mkMs (fun x y => qroot (x * x + y * y)) (fun f => qroot (f (1 # 2))) (fun rx ry a => rx * a).
Lemma exact_lawful : lawful exact_ms.
Proof.
  assert (E : forall q q', q' == q -> qroot q' == qroot q).
  { intros q q' H. rewrite (qroot_scaled 1 q q'); [ring|lra|rewrite H; ring]. }
  split; [|split]; cbn [root_integral hypot quarter exact_ms].
  - intros f g H. apply E, H.
  - intros x y x' y' H1 H2. apply E. rewrite H1, H2. reflexivity.
  - intros rx ry a rx' ry' a' H1 _ H2. rewrite H1, H2. reflexivity.
Qed.
Lemma exact_homogeneous : homogeneous exact_ms.
Proof.
  split; cbn [root_integral hypot exact_ms].
  - intros k f g K H. apply qroot_scaled; [exact K|apply H].
  - intros k x y x' y' K H. apply qroot_scaled; assumption.
Qed.
Lemma exact_positive : positive exact_ms.
Proof.
  assert (E : forall q, 0 <= qroot q).
  { intros [n d]. unfold qroot. cbn zeta. destruct (_ =?q _); [|lra]. unfold qsqrt, Qle. cbn [Qnum Qden].
    assert (H := Z.sqrt_nonneg (n * Z.pos d)). lia. }
  split; intros; apply E.
Qed.
Lemma circle_along r ry : along exact_ms r ry (fun a => r * a).
Proof.
  split; [|split; [|split]]; cbn [quarter exact_ms]; intros.
  - rewrite H. reflexivity.
  - reflexivity.
  - ring.
  - ring.
Qed.
