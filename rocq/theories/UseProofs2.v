(** Proofs about containers and 'use': what they show. *)
From Coq Require Import Lia Lqa.
From Verif Require Import PyBase PyText NumScan MatrixModel MatrixSpec MatrixProofs TransformModel TransformSpec TransformProofs
  PathModel PathSpec PathProofs PathNormProofs PathTransProofs CtmProofs UseModel UseSpec UseProofs.
Local Open Scope Q_scope.

(** ** Strokes *)
Lemma stroke_refl d : stroke_eq d d.
Proof. destruct d; cbn; repeat split; reflexivity. Qed.
Lemma stroke_trans a b c : stroke_eq a b -> stroke_eq b c -> stroke_eq a c.
Proof.
  assert (T : forall x y z : Q, x == y -> y == z -> x == z) by (intros x y z -> ->; reflexivity).
  destruct a, b; cbn; try contradiction; destruct c; cbn; try contradiction; intuition eauto using peq_trans.
Qed.
Lemma strokes_refl l : Forall2 stroke_eq l l.
Proof. induction l; constructor; auto using stroke_refl. Qed.
Lemma strokes_trans l1 l2 l3 : Forall2 stroke_eq l1 l2 -> Forall2 stroke_eq l2 l3 -> Forall2 stroke_eq l1 l3.
Proof.
  intros H. revert l3. induction H as [|a b l1 l2 Hab H IH]; intros l3 K; inversion K; subst; constructor;
    eauto using stroke_trans.
Qed.
Definition pmap (f : pt -> pt) : Prop := forall p q, peq p q -> peq (f p) (f q).
Lemma smap_proper f d d' : pmap f -> stroke_eq d d' -> stroke_eq (smap f d) (smap f d').
Proof. intros F. destruct d, d'; cbn; try contradiction; intuition. Qed.
Lemma smap_strokes f l l' : pmap f -> Forall2 stroke_eq l l' -> Forall2 stroke_eq (map (smap f) l) (map (smap f) l').
Proof. intros F H. induction H; cbn [map]; constructor; auto using smap_proper. Qed.
Lemma smap_img f a l : (forall p, peq (f p) (img a p)) ->
  Forall2 stroke_eq (map (smap f) l) (map (stroke_img a) l).
Proof.
  intros F. induction l as [|d l IH]; cbn [map]; constructor; [|exact IH].
  destruct d; cbn; repeat split; try apply F; reflexivity.
Qed.
Lemma smap_id f l : (forall p, peq (f p) p) -> Forall2 stroke_eq (map (smap f) l) l.
Proof.
  intros F. induction l as [|d l IH]; cbn [map]; constructor; [|exact IH].
  destruct d; cbn; repeat split; try apply F; reflexivity.
Qed.

(** ** Tidy path data *)
Lemma draw_plain o s g : plain g = true ->
  brg (fst (draw o s g)) = brg s /\ after_move (fst (draw o s g)) = moving g.
Proof.
  destruct g; try discriminate; intros _; cbn [draw moving]; try (split; reflexivity).
  destruct (after_move s); split; reflexivity.
Qed.
Lemma pen_after_app o l1 l2 : forall s, pen_after o s (l1 ++ l2) = pen_after o (pen_after o s l1) l2.
Proof. induction l1 as [|g l1 IH]; intros s; cbn [app pen_after]; auto. Qed.
Lemma pen_after_brg o l : forall s, forallb plain l = true -> brg (pen_after o s l) = brg s.
Proof.
  induction l as [|g l IH]; intros s H; [reflexivity|]. cbn [forallb] in H. apply andb_prop in H as [H1 H2].
  cbn [pen_after]. rewrite IH by exact H2. apply draw_plain, H1.
Qed.
Lemma pen_after_tidy o p l g : moving g = false -> forallb plain (l ++ [g]) = true ->
  let s := pen_after o pen0 (SM false p :: l ++ [g]) in brg s = 0 /\ after_move s = false.
Proof.
  intros M H s. assert (K := H). rewrite forallb_app in K. apply andb_prop in K as [_ K]. cbn [forallb] in K.
  rewrite andb_true_r in K. split.
  - unfold s. rewrite pen_after_brg; [reflexivity|]. cbn [forallb plain]. exact H.
  - unfold s. change (SM false p :: l ++ [g]) with ((SM false p :: l) ++ [g]). rewrite pen_after_app. cbn [pen_after].
    rewrite (proj2 (draw_plain o _ g K)). exact M.
Qed.
Lemma drawing_app o a b : tidy a -> tidy b -> drawing o (a ++ b) = drawing o a ++ drawing o b.
Proof.
  intros [-> |(p & l & g & -> & M & H & R)]; [reflexivity|].
  intros [-> |(q & l' & g' & -> & M' & H' & R')]; [now rewrite !app_nil_r|].
  unfold drawing. rewrite strokes_app. f_equal.
  destruct (pen_after_tidy o p l g M H) as [E1 E2].
  remember (pen_after o pen0 (SM false p :: l ++ [g])) as s. clear Heqs.
  cbn [strokes draw place]. rewrite E2, E1. reflexivity.
Qed.
Lemma remembers_move l q r : remembers true true r = true -> forall kx ky,
  remembers kx ky l = true -> remembers kx ky (l ++ SM false q :: r) = true.
Proof.
  intros R. induction l as [|g l IH]; intros kx ky; cbn [app remembers].
  - intros _. exact R.
  - intros H. apply andb_prop in H as [H1 H2]. rewrite H1. destruct (known_after kx ky g) as [x y]. cbn [andb]. auto.
Qed.
Lemma tidy_app a b : tidy a -> tidy b -> tidy (a ++ b).
Proof.
  intros [-> |(p & l & g & -> & M & H & R)]; [auto|].
  intros [-> |(q & l' & g' & -> & M' & H' & R')].
  { rewrite app_nil_r. right. exists p, l, g. auto. }
  right. exists p, ((l ++ [g]) ++ SM false q :: l'), g'. split.
  { cbn [app]. rewrite <- !app_assoc. reflexivity. }
  split; [exact M'|]. rewrite <- app_assoc. cbn [app]. split.
  - rewrite forallb_app. cbn [forallb plain]. rewrite H. exact H'.
  - now apply remembers_move.
Qed.
Lemma plain_bearing l : forall prev, forallb plain l = true -> bearing_ok prev false l = true.
Proof.
  induction l as [|g l IH]; intros prev H; [reflexivity|]. cbn [forallb] in H. apply andb_prop in H as [H1 H2].
  destruct g; try discriminate; cbn [bearing_ok andb negb]; auto.
Qed.
Lemma plain_drawn l : forallb plain l = true -> forallb drawn l = true.
Proof.
  induction l as [|g l IH]; [reflexivity|]. cbn [forallb]. intros H. apply andb_prop in H as [H1 H2].
  rewrite (IH H2). destruct g; try discriminate; reflexivity.
Qed.

Definition simple (g : seg) : bool :=
  match g with
  | SM false _ | SL false _ | SC false _ _ _ | SS false _ _ | SQ false _ _ | ST false _
  | SA false _ _ _ _ _ _ | SZ false => true
  | _ => false
  end.
Ltac tp := match goal with
  | |- context [bind (tpoint ?m ?p)] => destruct (tpoint m p); cbn [bind]
  | |- context [bind (cp_pt ?x ?y)] => destruct (cp_pt x y); cbn [bind]
  end.
Lemma transform_step_simple o m st g st' out : plain g = true -> transform_step o m st g = Ok (st', out) ->
  exists h, out = [h] /\ simple h = true /\ moving h = moving g.
Proof.
  destruct g; try discriminate; intros _; unfold transform_step; cbn [kind]; try (intros [= _ <-]; eauto; fail);
    unfold seg_transform; destruct rel; cbn [isrelative toabsolute bind]; repeat tp; try discriminate;
    intros [= _ <-]; eexists; split; reflexivity || (split; reflexivity).
Qed.
Lemma transform_from_simple o m l : forall st out, forallb plain l = true -> transform_from o m st l = Ok out ->
  Forall2 (fun g h => simple h = true /\ moving h = moving g) l out.
Proof.
  induction l as [|g l IH]; intros st out H; cbn [transform_from].
  - intros [= <-]. constructor.
  - cbn [forallb] in H. apply andb_prop in H as [H1 H2].
    destruct (transform_step o m st g) as [[st' d]|] eqn:E; cbn [bind]; [|discriminate].
    destruct (transform_from o m st' l) as [r|] eqn:F; cbn [bind]; [|discriminate]. intros [= <-].
    destruct (transform_step_simple _ _ _ _ _ _ H1 E) as (h & -> & K). cbn [app]. constructor; eauto.
Qed.
Lemma simple_plain l : forallb simple l = true -> forallb plain l = true /\ forall kx ky, remembers kx ky l = true.
Proof.
  induction l as [|g l IH]; [auto|]. cbn [forallb remembers]. intros H. apply andb_prop in H as [H1 H2].
  destruct (IH H2) as [P1 P2]. rewrite P1.
  destruct g; try discriminate; destruct rel; try discriminate; split; intros; auto; apply P2.
Qed.
Lemma simple_forall l out : Forall2 (fun g h => simple h = true /\ moving h = moving g) l out -> forallb simple out = true.
Proof. induction 1 as [|g h l out [H1 _] _ IH]; [reflexivity|]. cbn [forallb]. now rewrite H1. Qed.
Lemma transform_tidy o m l : oracle_basic o -> is2d m = true -> tidy l ->
  exists out, path_transform o m l = Ok out /\ tidy out /\
    Forall2 stroke_eq (map (stroke_img (arr m)) (drawing o l)) (drawing o out).
Proof.
  intros O D [-> |(p & l' & g & -> & M & H & R)].
  { exists []. split; [reflexivity|]. split; [now left|constructor]. }
  destruct (transform_draws o m (SM false p :: l' ++ [g]) O D) as (out & E & F); auto.
  - cbn [bearing_ok andb negb]. now apply plain_bearing.
  - cbn [forallb drawn]. now apply plain_drawn.
  - exists out. split; [exact E|]. split; [|exact F]. right.
    assert (S0 : Forall2 (fun g h => simple h = true /\ moving h = moving g) (SM false p :: l' ++ [g]) out).
    { apply (transform_from_simple o m _ tstate0); [exact H|exact E]. }
    inversion S0 as [|? h ? t [A1 A2] T]; subst. apply Forall2_app_inv_l in T as (t1 & t2 & T1 & T2 & ->).
    inversion T2 as [|? h2 ? t3 [B1 B2] T3]; subst. inversion T3; subst.
    destruct h; try discriminate. destruct rel; [discriminate|].
    exists p0, t1, h2. split; [reflexivity|]. split; [congruence|]. apply simple_forall in T1.
    assert (SS0 : forallb simple (t1 ++ [h2]) = true) by (rewrite forallb_app, T1; cbn [forallb]; now rewrite B1).
    destruct (simple_plain _ SS0). auto.
Qed.

(** ** Placement *)
Definition listed (o : oracle) (tr : list transform) (p : pt) : pt :=
  let v := g_list o tr (V4 (ptx p) (pty p) 0 1) in P (v1 v) (v2 v).
Lemma listed_pmap o tr : pmap (listed o tr).
Proof.
  intros p q [E1 E2]. assert (H := g_list_proper o tr (V4 (ptx p) (pty p) 0 1) (V4 (ptx q) (pty q) 0 1)).
  destruct H as (H1 & H2 & _); [repeat split; cbn; auto; reflexivity|]. split; assumption.
Qed.
Lemma place_list o tr l : oracle_basic o -> forallb known tr = true -> tidy l ->
  exists out, (do m <- list_matrix o tr; match m with None => Ok l | Some m => path_transform o m l end) = Ok out /\
    tidy out /\ Forall2 stroke_eq (map (smap (listed o tr)) (drawing o l)) (drawing o out).
Proof.
  intros O K T. destruct tr as [|t tr].
  - exists l. split; [reflexivity|]. split; [exact T|]. apply smap_id. intros p. split; reflexivity.
  - destruct (list_meaning o (t :: tr) O ltac:(discriminate) K) as (m & E & D & _ & A). rewrite E. cbn [bind].
    destruct (transform_tidy o m l O D T) as (out & E' & T' & F). exists out. split; [exact E'|]. split; [exact T'|].
    apply (strokes_trans _ (map (stroke_img (arr m)) (drawing o l))); [|exact F].
    apply smap_img. intros p. destruct (A (V4 (ptx p) (pty p) 0 1)) as (A1 & A2 & _).
    split; unfold listed, img; cbn [ptx pty]; symmetry; assumption.
Qed.
Lemma place_list_inv o tr l out : (do m <- list_matrix o tr; match m with None => Ok l | Some m => path_transform o m l end) = Ok out ->
  forallb known tr = true.
Proof.
  destruct (forallb known tr) eqn:E; [reflexivity|]. rewrite (list_unknown o tr E). discriminate.
Qed.

(** parsing only gives known transforms *)
Lemma scan_name_known tys : forall t ty r, ~ In UNKNOWN tys -> scan_name tys t = Some (ty, r) -> ty <> UNKNOWN.
Proof.
  induction tys as [|a tys IH]; intros t ty r N; cbn [scan_name]; [discriminate|].
  destruct (strip_prefix (name_of a) t); [intros [= <- _] ->; apply N; now left|].
  apply IH. intros i. apply N. now right.
Qed.
Lemma finditer_all {A} (P : A -> Prop) (m : text -> option (A * text)) : (forall t a r, m t = Some (a, r) -> P a) ->
  forall f t, Forall P (finditer_f m f t).
Proof.
  intros H. induction f as [|f IH]; intros t; cbn [finditer_f]; [constructor|]. destruct t as [|c t]; [constructor|].
  destruct (m (c :: t)) as [[a r]|] eqn:E; [constructor; eauto|apply IH].
Qed.
Lemma make_all_known l : Forall (fun p : ttype * text => fst p <> UNKNOWN) l -> forall tr, make_all l = Ok tr ->
  forallb known tr = true.
Proof.
  induction 1 as [|[ty vs] l H F IH]; intros tr; cbn [make_all]; [intros [= <-]; reflexivity|].
  destruct (set_transform ty (scan_numbers (strip vs))) as [t|] eqn:E; cbn [bind]; [|discriminate].
  destruct (make_all l) as [ts|]; cbn [bind]; [|discriminate]. intros [= <-]. cbn [forallb].
  rewrite (IH ts eq_refl), andb_true_r. cbn [fst] in H. clear -E H.
  destruct t; try reflexivity. exfalso. unfold set_transform in E.
  destruct ty; try congruence; revert E; generalize (scan_numbers (strip vs)); intros vs';
    repeat (destruct vs' as [|? vs']; try discriminate).
Qed.
Lemma parse_known t tr : parse_transforms t = Ok tr -> forallb known tr = true.
Proof.
  unfold parse_transforms. apply make_all_known. unfold finditer. apply finditer_all.
  intros u [ty vs] r. unfold scan_function. destruct (scan_name function_types u) as [[ty' r']|] eqn:E; [|discriminate].
  destruct (dropwhile is_space r') as [|c r1]; [discriminate|]. destruct (c =? 40)%N; [|discriminate].
  destruct (takewhile not_close r1), (dropwhile not_close r1) as [|? r2]; try discriminate.
  destruct (match r2 with [] => true | c :: _ => is_space c || (c =? 44)%N end); [|discriminate].
  intros [= <- _ _]. cbn [fst]. apply (scan_name_known function_types u ty' r'); [|exact E].
  unfold function_types. cbn [In]. intuition discriminate.
Qed.
Lemma transforms_of e tr : transforms e tr ->
  (transform_of e = Ok (Some tr) \/ (transform_of e = Ok None /\ tr = [])) /\ forallb known tr = true.
Proof.
  unfold transforms, transform_of. destruct (el_transform e) as [t|].
  - intros [[-> ->]|[H E]].
    + split; [right; split; reflexivity|reflexivity].
    + destruct (text_eqb_spec t (lit "none")) as [K|K]; [contradiction|]. rewrite E. split; [now left|].
      eapply parse_known; exact E.
  - intros ->. auto.
Qed.
Lemma of_transforms e r : transform_of e = Ok r -> transforms e (match r with Some tr => tr | None => [] end).
Proof.
  unfold transforms, transform_of. destruct (el_transform e) as [t|]; [|intros [= <-]; reflexivity].
  destruct (text_eqb_spec t (lit "none")) as [K|K]; [intros [= <-]; auto|].
  destruct (parse_transforms t) as [l|]; cbn [bind]; [|discriminate]. intros [= <-]. auto.
Qed.
Lemma fitted_iff t w h : is_in (el_name (self t)) [lit "svg"; lit "symbol"] && ((0 <?q w) || (0 <?q h)) = true <-> fitted t w h.
Proof.
  unfold fitted, name. rewrite andb_true_iff, orb_true_iff, is_in_iff.
  assert (K : In (el_name (self t)) [lit "svg"; lit "symbol"] <-> el_name (self t) = lit "svg" \/ el_name (self t) = lit "symbol").
  { cbn [In]. split; [intros [H|[H|[]]]; auto|intros [H|H]; auto]. }
  rewrite K. destruct (Qltb_spec 0 w), (Qltb_spec 0 h); intuition (try discriminate; try lra).
Qed.
Lemma use_list o at2 e t l tr x y w h : transforms e tr -> el_geom e = Ok (x, y, w, h) -> ~ fitted t w h ->
  use_transforms o at2 e (el_name (self t)) l =
    Ok (tr ++ (if negb (x =?q 0) || negb (y =?q 0) then [TTranslate x y] else []) ++ []).
Proof.
  intros T G F. unfold use_transforms.
  assert (E : (if is_in (el_name (self t)) [lit "svg"; lit "symbol"] then fit o at2 w h l else Ok []) = Ok []).
  { rewrite <- fitted_iff in F. apply not_true_is_false in F.
    destruct (is_in (el_name (self t)) [lit "svg"; lit "symbol"]); [|reflexivity]. unfold fit.
    cbn [andb] in F. rewrite F. reflexivity. }
  destruct (proj1 (transforms_of e tr T)) as [E1|[E1 ->]]; rewrite E1; cbn [bind]; rewrite G; cbn [bind];
    rewrite E; reflexivity.
Qed.
Lemma placed_listed o tr x y p : peq (placed o tr x y 1 1 p)
  (listed o (tr ++ (if negb (x =?q 0) || negb (y =?q 0) then [TTranslate x y] else []) ++ []) p).
Proof.
  unfold placed, listed. rewrite app_nil_r, g_list_app.
  assert (H : veq (V4 (1 * ptx p + x) (1 * pty p + y) 0 1)
    (g_list o (if negb (x =?q 0) || negb (y =?q 0) then [TTranslate x y] else []) (V4 (ptx p) (pty p) 0 1))).
  { destruct (Qeqb_spec x 0) as [E1|E1], (Qeqb_spec y 0) as [E2|E2]; cbn [negb orb g_list fold_right g_transform];
      unfold g_translate; split; cbn [v1 v2 v3 v4]; try (rewrite ?E1, ?E2; ring); split; cbn [v1 v2 v3 v4]; try (rewrite ?E1, ?E2; ring);
      split; cbn [v1 v2 v3 v4]; ring. }
  apply (g_list_proper o tr) in H. destruct H as (H1 & H2 & _). split; assumption.
Qed.
Lemma strokes_smap_ext f g l : (forall p, peq (f p) (g p)) -> Forall2 stroke_eq (map (smap f) l) (map (smap g) l).
Proof.
  intros F. induction l as [|d l IH]; cbn [map]; constructor; [|exact IH].
  destruct d; cbn; repeat split; try apply F; reflexivity.
Qed.
Lemma placed_pmap o tr x y sx sy : pmap (placed o tr x y sx sy).
Proof.
  intros p q [E1 E2]. assert (H := g_list_proper o tr (V4 (sx * ptx p + x) (sy * pty p + y) 0 1)
    (V4 (sx * ptx q + x) (sy * pty q + y) 0 1)).
  destruct H as (H1 & H2 & _); [|split; assumption].
  split; [cbn [v1]; rewrite E1; reflexivity|]. split; [cbn [v2]; rewrite E2; reflexivity|]. split; reflexivity.
Qed.
Lemma use_place o at2 e t l tr x y w h : oracle_basic o -> transforms e tr -> el_geom e = Ok (x, y, w, h) ->
  ~ fitted t w h -> tidy l ->
  exists out, place_use o at2 e (el_name (self t)) l = Ok out /\ tidy out /\
    Forall2 stroke_eq (map (smap (placed o tr x y 1 1)) (drawing o l)) (drawing o out).
Proof.
  intros O T G F TD. unfold place_use. rewrite (use_list _ _ _ _ _ _ _ _ _ _ T G F). cbn [bind].
  match goal with |- context [list_matrix o ?L] => set (tl := L) end.
  destruct (place_list o tl l O) as (out & E & T' & D); [|exact TD|].
  { unfold tl. rewrite forallb_app, (proj2 (transforms_of e tr T)). destruct (negb _ || negb _); reflexivity. }
  exists out. split; [exact E|]. split; [exact T'|]. refine (strokes_trans _ _ _ _ D).
  apply strokes_smap_ext. intros p. apply placed_listed.
Qed.

(** ** What is shown gets drawn *)
Scheme shows_mut := Minimality for shows Sort Prop
  with shows_all_mut := Minimality for shows_all Sort Prop.
Lemma drawn_all o at2 norm root : oracle_basic o ->
  (forall n l, In n (in_order root) -> own_outline n -> asked o at2 norm n l -> tidy l) ->
  forall n ds, shows o (asked o at2 norm) root n ds -> In n (in_order root) ->
  exists f l, path_data f o at2 norm root n = Some (Ok l) /\ tidy l /\ Forall2 stroke_eq ds (drawing o l).
Proof.
  intros O TD.
  apply (shows_mut o (asked o at2 norm) root
    (fun n ds => In n (in_order root) ->
       exists f l, path_data f o at2 norm root n = Some (Ok l) /\ tidy l /\ Forall2 stroke_eq ds (drawing o l))
    (fun cs ds => (forall c, In c cs -> In c (in_order root)) ->
       exists f l, (forall acc, descendants (path_data f o at2 norm root) cs acc = Some (Ok (acc ++ l))) /\ tidy l /\
         Forall2 stroke_eq ds (drawing o l))).
  - intros n l Hs A I0. exists 1%nat, l. rewrite path_data_step. unfold step. rewrite (proj2 (class_shape n) Hs).
    split; [|split; [eauto|apply strokes_refl]]. destruct A as (raw & E & A). rewrite E. cbn [bind].
    destruct norm; [now rewrite A|now rewrite A].
  - intros n Hs _. exists 1%nat, []. rewrite path_data_step. unfold step. rewrite (class_never n Hs).
    split; [reflexivity|]. split; [now left|constructor].
  - intros n ds Hs _ IH I0. destruct IH as (f & l & E & T & D); [intros c i; eapply in_order_child; eassumption|].
    exists (S f), l. rewrite path_data_step. unfold step. rewrite (class_group n Hs), E. auto.
  - intros n Hs R (i & P1 & N) _. exists 1%nat, []. rewrite path_data_step. unfold step. rewrite (class_use n Hs).
    unfold instance_root. rewrite (points_href _ _ P1). replace (35 =? 35)%N with true by reflexivity.
    unfold name in R. rewrite R. replace (text_eqb (lit "svg") (lit "svg")) with true by reflexivity.
    apply find_id_none in N. rewrite N. split; [reflexivity|]. split; [now left|constructor].
  - intros n Hs P1 _. exists 1%nat, []. rewrite path_data_step. unfold step. rewrite (class_use n Hs).
    unfold instance_root. rewrite (points_href _ _ P1). split; [reflexivity|]. split; [now left|constructor].
  - intros n t Hs R F N _. exists 1%nat, []. rewrite path_data_step. unfold step.
    rewrite (class_use n Hs), (instance_some _ _ _ R F). apply graphics_false in N. rewrite N.
    split; [reflexivity|]. split; [now left|constructor].
  - intros n t ds tr x y w h Hs R F Gt _ IH T G NF I0.
    assert (I1 := instance_some _ _ _ R F). assert (I2 := instance_inv _ _ _ I1). destruct I2 as (_ & _ & I2).
    destruct (IH I2) as (f & l & E & Tl & D).
    destruct (use_place o at2 (self n) t l tr x y w h O T G NF Tl) as (out & P1 & To & Do).
    exists (S f), out. rewrite path_data_step. unfold step. rewrite (class_use n Hs), I1.
    apply graphics_iff in Gt. rewrite Gt, E. cbn [bind]. rewrite P1. split; [reflexivity|]. split; [exact To|].
    refine (strokes_trans _ _ _ _ Do). apply smap_strokes; [apply placed_pmap|exact D].
  - intros _. exists 0%nat, []. split; [intros acc; cbn [descendants]; now rewrite app_nil_r|]. split; [now left|constructor].
  - intros c cs ds N _ IH I0. destruct IH as (f & l & E & T & D); [intros; apply I0; now right|].
    exists f, l. split; [|auto]. intros acc. cbn [descendants]. apply graphics_false in N. rewrite N. apply E.
  - intros c cs d ds Gc _ IH1 _ IH2 I0. destruct IH1 as (f & l & E & T & D); [apply I0; now left|].
    destruct IH2 as (f' & l' & E' & T' & D'); [intros; apply I0; now right|].
    exists (Nat.max f f'), (l ++ l'). split; [|split; [now apply tidy_app|rewrite drawing_app by assumption; now apply Forall2_app]].
    intros acc. cbn [descendants]. apply graphics_iff in Gc. rewrite Gc.
    rewrite (path_data_le f (Nat.max f f') _ _ _ _ _ _ ltac:(lia) E). rewrite app_assoc.
    apply (descendants_mono (path_data f' o at2 norm root)); [|apply E'].
    intros b r _ Hb. apply (path_data_le f'); [lia|exact Hb].
Qed.
(** and nothing else *)
Lemma descendants_shows o at2 norm root p cs :
  (forall c l, In c cs -> p c = Some (Ok l) -> graphical c -> exists d, shows o (asked o at2 norm) root c d) ->
  forall acc l, descendants p cs acc = Some (Ok l) -> exists ds, shows_all o (asked o at2 norm) root cs ds.
Proof.
  induction cs as [|c cs IH]; intros H acc l; cbn [descendants]; [intros _; eexists; constructor|].
  assert (IH' := IH (fun c l i => H c l (or_intror i))). destruct (graphics c) eqn:G.
  - apply graphics_iff in G. destruct (p c) as [[lc|]|] eqn:E; try discriminate. intros D.
    destruct (IH' _ _ D) as [ds K]. destruct (H c lc (or_introl eq_refl) E G) as [d Kd].
    eexists. apply shows_cons; eassumption.
  - apply graphics_false in G. intros D. destruct (IH' _ _ D) as [ds K]. eexists. apply shows_skip; eassumption.
Qed.
Lemma shown_all o at2 norm root :
  (forall n t x y w h, In n (in_order root) -> reusing n -> refers root (self n) t ->
     el_geom (self n) = Ok (x, y, w, h) -> ~ fitted t w h) ->
  forall f n l, In n (in_order root) -> path_data f o at2 norm root n = Some (Ok l) ->
  exists ds, shows o (asked o at2 norm) root n ds.
Proof.
  intros NF. induction f as [|f IH]; [discriminate|]. intros n l I0. rewrite path_data_step. unfold step.
  assert (C := class_cases n). destruct (class_of_node n).
  - intros [= E]. destruct (el_own (self n)) as [raw|] eqn:Eo; cbn [bind] in E; [|discriminate].
    exists (drawing o l). apply shows_shape; [exact C|]. exists raw. split; [exact Eo|].
    destruct norm; [exact E|congruence].
  - intros D. destruct (descendants_shows o at2 norm root (path_data f o at2 norm root) (children n)) with (2 := D) as [ds K].
    { intros c lc i E _. eapply IH; [eapply in_order_child; eassumption|exact E]. }
    exists ds. now apply shows_group.
  - intros _. exists []. now apply shows_never.
  - discriminate.
  - destruct (instance_root root (self n)) as [[t|]|] eqn:E; [| |discriminate].
    + destruct (instance_inv _ _ _ E) as (R1 & R2 & R3). destruct (graphics t) eqn:G.
      * apply graphics_iff in G. destruct (path_data f o at2 norm root t) as [[lt|]|] eqn:D; try discriminate.
        cbn [bind]. intros [= P1]. destruct (IH t lt R3 D) as [ds K].
        unfold place_use in P1. unfold use_transforms in P1.
        destruct (transform_of (self n)) as [tr|] eqn:T; cbn [bind] in P1; [|discriminate].
        destruct (el_geom (self n)) as [[[[x y] w] h]|] eqn:Ge; cbn [bind] in P1; [|discriminate].
        eexists. eapply shows_use; eauto using of_transforms.
      * apply graphics_false in G. intros _. exists []. eapply shows_foreign; eauto.
    + intros _. exists []. destruct (instance_inv _ _ _ E) as [H|[R H]]; [now apply shows_unset|now apply shows_dangling].
  - discriminate.
Qed.
