(** Proofs about the current transformation matrix. *)
From Coq Require Import Lia.
From Verif Require Import PyBase PyText MatrixModel MatrixSpec MatrixProofs RectModel
  TransformModel TransformSpec TransformProofs TransformTextProofs CtmModel CtmSpec.
Local Open Scope Q_scope.

Lemma name_in_iff n l : name_in n l = true <-> In n l.
Proof.
  unfold name_in. rewrite existsb_exists. split.
  - intros (x & I1 & E). destruct (text_eqb_spec n x) as [Q|Q]; [now rewrite Q|discriminate].
  - intros H. exists n. split; [exact H|]. destruct (text_eqb_spec n n) as [Q|Q]; [reflexivity|congruence].
Qed.
Lemma viewport_iff e : is_viewport e = true <-> viewport e.
Proof.
  unfold is_viewport, viewport, opens_viewport. rewrite name_in_iff.
  split; [intros [H|[H|[]]]; auto|intros [H|H]; [left|right; left]; auto].
Qed.
Lemma inner_iff e : is_viewport e = false <-> inner e.
Proof.
  unfold inner. rewrite <- viewport_iff. destruct (is_viewport e); split; intros H; congruence.
Qed.
Lemma transformable_iff e : transformable e = true <-> takes_transform (e_name e).
Proof.
  unfold transformable, takes_transform. rewrite name_in_iff.
  unfold transformable_names, graphics_names. cbn [app]. cbn [In]. intuition.
Qed.
Lemma is_svg_iff e : is_svg e = true <-> e_name e = lit "svg".
Proof. unfold is_svg. destruct (text_eqb_spec (e_name e) (lit "svg")); split; intros; congruence. Qed.
Lemma svg_viewport e : is_svg e = true -> is_viewport e = true.
Proof. rewrite is_svg_iff, viewport_iff. intros H. now left. Qed.

Definition ownf (o : oracle) (e : element) (p : vec4) : vec4 :=
  if transformable e then match e_transform e with Some l => g_list o l p | None => p end else p.
Definition fitsf (e : element) (p : vec4) : vec4 :=
  if is_viewport e then act (arr (e_vtm e)) p else p.
Definition movedf (o : oracle) (c : chain) (p : vec4) : vec4 := fold_left (fun p e => ownf o e p) c p.
Definition fittedf (c : chain) (p : vec4) : vec4 := fold_left (fun p e => fitsf e p) c p.
Definition placedf (o : oracle) (c : chain) (p : vec4) : vec4 :=
  fold_left (fun p e => ownf o e (fitsf e p)) c p.

Lemma g_list_proper o l p q : veq p q -> veq (g_list o l p) (g_list o l q).
Proof.
  intros H. unfold g_list. induction l as [|t l IH]; [exact H|]. cbn. now apply g_transform_proper.
Qed.
Lemma g_list_app o a b p : g_list o (a ++ b) p = g_list o a (g_list o b p).
Proof. unfold g_list. now rewrite fold_right_app. Qed.
Lemma ownf_proper o e p q : veq p q -> veq (ownf o e p) (ownf o e q).
Proof.
  intros H. unfold ownf. destruct (transformable e); [|exact H].
  destruct (e_transform e); [now apply g_list_proper|exact H].
Qed.
Lemma fitsf_proper e p q : veq p q -> veq (fitsf e p) (fitsf e q).
Proof. intros H. unfold fitsf. destruct (is_viewport e); [now apply act_proper|exact H]. Qed.
Lemma fold_proper (f : element -> vec4 -> vec4) c :
  (forall e p q, veq p q -> veq (f e p) (f e q)) ->
  forall p q, veq p q -> veq (fold_left (fun p e => f e p) c p) (fold_left (fun p e => f e p) c q).
Proof. intros F. induction c as [|e c IH]; intros p q H; [exact H|]. cbn. apply IH, F, H. Qed.
Lemma movedf_proper o c p q : veq p q -> veq (movedf o c p) (movedf o c q).
Proof. apply (fold_proper (ownf o)). apply ownf_proper. Qed.
Lemma fittedf_proper c p q : veq p q -> veq (fittedf c p) (fittedf c q).
Proof. apply (fold_proper fitsf). apply fitsf_proper. Qed.
Lemma placedf_proper o c p q : veq p q -> veq (placedf o c p) (placedf o c q).
Proof.
  apply (fold_proper (fun e p => ownf o e (fitsf e p))).
  intros e x y H. now apply ownf_proper, fitsf_proper.
Qed.

Lemma own_iff o e p q : own o e p q <-> veq q (ownf o e p).
Proof.
  unfold own, ownf. split.
  - intros [(l & T & E & V)|[[N|N] V]].
    + apply transformable_iff in T. now rewrite T, E.
    + destruct (transformable e) eqn:T; [apply transformable_iff in T; contradiction|exact V].
    + rewrite N. now destruct (transformable e).
  - destruct (transformable e) eqn:T.
    + apply transformable_iff in T. destruct (e_transform e) as [l|] eqn:E; intros V.
      * left. exists l. auto.
      * right. auto.
    + intros V. right. split; [left|exact V]. rewrite <- transformable_iff. congruence.
Qed.
Lemma fits_iff e p q : fits e p q <-> veq q (fitsf e p).
Proof.
  unfold fits, fitsf. destruct (is_viewport e) eqn:V.
  - pose proof (proj1 (viewport_iff e) V) as W. split; [intros [[_ H]|[H _]]; [exact H|contradiction]|auto].
  - pose proof (proj1 (inner_iff e) V) as W. split; [intros [[H _]|[_ H]]; [contradiction|exact H]|auto].
Qed.
Lemma moved_iff o c : forall p q, moved o c p q <-> veq q (movedf o c p).
Proof.
  induction c as [|e c IH]; intros p q; unfold movedf; cbn; split.
  - intros H; inversion H; subst; assumption.
  - intros H; now constructor.
  - intros H; inversion H as [|? ? ? x ? H1 H2]; subst. apply IH in H2. apply own_iff in H1.
    rewrite H2. now apply movedf_proper.
  - intros H. apply moved_up with (ownf o e p); [apply own_iff; reflexivity|]. apply IH. exact H.
Qed.
Lemma fitted_iff c : forall p q, fitted c p q <-> veq q (fittedf c p).
Proof.
  induction c as [|e c IH]; intros p q; unfold fittedf; cbn; split.
  - intros H; inversion H; subst; assumption.
  - intros H; now constructor.
  - intros H; inversion H as [|? ? ? x ? H1 H2]; subst. apply IH in H2. apply fits_iff in H1.
    rewrite H2. now apply fittedf_proper.
  - intros H. apply fitted_up with (fitsf e p); [apply fits_iff; reflexivity|]. apply IH. exact H.
Qed.
Lemma placed_iff o c : forall p q, placed o c p q <-> veq q (placedf o c p).
Proof.
  induction c as [|e c IH]; intros p q; unfold placedf; cbn; split.
  - intros H; inversion H; subst; assumption.
  - intros H; now constructor.
  - intros H; inversion H as [|? ? ? x y ? H1 H2 H3]; subst. apply IH in H3. apply fits_iff in H1.
    apply own_iff in H2. rewrite H3. apply placedf_proper. rewrite H2. now apply ownf_proper.
  - intros H. apply placed_up with (fitsf e p) (ownf o e (fitsf e p));
      [apply fits_iff; reflexivity|apply own_iff; reflexivity|]. apply IH. exact H.
Qed.

(** ** The outermost svg and the roots *)
Lemma farthest_none c : forall root, forallb (fun e => negb (is_svg e)) c = true ->
  farthest_svg c root = root.
Proof.
  induction c as [|e c IH]; intros root H; [reflexivity|]. cbn in *.
  apply andb_prop in H as [H1 H2]. destruct (is_svg e); [discriminate|]. now apply IH.
Qed.
Lemma farthest_app a far b : forall root, is_svg far = true ->
  forallb (fun e => negb (is_svg e)) b = true ->
  farthest_svg (a ++ far :: b) root = Some (far :: b).
Proof.
  induction a as [|e a IH]; intros root F B.
  - cbn [app farthest_svg]. rewrite F. now apply farthest_none.
  - cbn [app farthest_svg]. now apply IH.
Qed.
Lemma inner_not_svg b : Forall inner b -> forallb (fun e => negb (is_svg e)) b = true.
Proof.
  intros H. apply forallb_forall. intros e I1. rewrite Forall_forall in H. specialize (H e I1).
  apply inner_iff in H. destruct (is_svg e) eqn:E; [|reflexivity]. apply svg_viewport in E. congruence.
Qed.
Lemma filter_inner b : Forall inner b -> filter is_viewport b = [].
Proof.
  induction 1 as [|e b He _ IH]; [reflexivity|]. cbn [filter]. apply inner_iff in He. now rewrite He.
Qed.

Lemma nearest_split c : match nearest_viewport c with
  | None => filter is_viewport c = []
  | Some [] => False
  | Some (r :: up) => exists a, c = a ++ r :: up /\ Forall inner a /\ is_viewport r = true
  end.
Proof.
  induction c as [|e c IH]; [reflexivity|]. cbn [nearest_viewport filter].
  destruct (is_viewport e) eqn:V.
  - exists []. repeat split; [constructor|exact V].
  - destruct (nearest_viewport c) as [[|r up]|]; [exact IH| |exact IH].
    destruct IH as (a & E & F & R). exists (e :: a). cbn. rewrite E. repeat split; [|exact R].
    constructor; [now apply inner_iff|exact F].
Qed.
Lemma climb_all fuel : forall c roots, (length c <= fuel)%nat -> forall self,
  climb fuel false self c roots = rev (filter is_viewport c) ++ roots.
Proof.
  induction fuel as [|f IH]; intros c roots L self.
  - destruct c; [reflexivity|cbn in L; lia].
  - cbn [climb]. pose proof (nearest_split c) as N. destruct (nearest_viewport c) as [[|r up]|].
    + destruct N.
    + destruct N as (a & E & F & R). cbn [andb]. rewrite IH.
      * rewrite E, filter_app, (filter_inner a F). cbn [app filter]. rewrite R. cbn [rev].
        now rewrite <- app_assoc.
      * rewrite E in L. rewrite app_length in L. cbn in L. lia.
    + now rewrite N.
Qed.
Lemma nearest_app a r up : Forall inner a -> is_viewport r = true ->
  nearest_viewport (a ++ r :: up) = Some (r :: up).
Proof.
  intros F R. induction F as [|e a He _ IH]; cbn [app nearest_viewport]; [now rewrite R|].
  apply inner_iff in He. now rewrite He.
Qed.

(** ** Products *)
Lemma act_mul a b p : veq (act (arr (multiply_self a b)) p) (act (arr a) (act (arr b) p)).
Proof. exact (mul_vec (arr a) (arr b) p). Qed.
Lemma act_identity p : veq (act (arr identity) p) p.
Proof. exact (id_vec p). Qed.
Lemma times_app m a b : times_vtms m (a ++ b) = times_vtms (times_vtms m a) b.
Proof. unfold times_vtms. now rewrite fold_left_app. Qed.
Lemma times_fitted c : forall m p,
  veq (act (arr (times_vtms m (rev (filter is_viewport c)))) p) (act (arr m) (fittedf c p)).
Proof.
  induction c as [|e c IH]; intros m p; [reflexivity|]. unfold fittedf. cbn [filter fold_left].
  fold (fittedf c (fitsf e p)). unfold fitsf. destruct (is_viewport e) eqn:V.
  - cbn [rev]. rewrite times_app. unfold times_vtms at 1. cbn [fold_left].
    rewrite act_mul. apply IH.
  - apply IH.
Qed.

(** The elements up to the nearest viewport element, that one included. *)
Fixpoint below (c : chain) : chain :=
  match c with [] => [] | e :: up => e :: if is_viewport e then [] else below up end.
Lemma gather_list o c : forall acc p,
  g_list o (gather c acc) p = movedf o (below c) (g_list o acc p).
Proof.
  induction c as [|e c IH]; intros acc p; [reflexivity|]. cbn [gather below].
  assert (A : g_list o (if transformable e then match e_transform e with Some l => l ++ acc | None => acc end
                        else acc) p = ownf o e (g_list o acc p)).
  { unfold ownf. destruct (transformable e); [|reflexivity]. destruct (e_transform e); [|reflexivity].
    apply g_list_app. }
  destruct (is_viewport e).
  - unfold movedf. cbn [fold_left]. exact A.
  - rewrite IH, A. reflexivity.
Qed.
Lemma gather_known c : forall acc, known_transforms c -> forallb known acc = true ->
  forallb known (gather c acc) = true.
Proof.
  induction c as [|e c IH]; intros acc K A; [exact A|]. cbn [gather].
  assert (B : forallb known (if transformable e then match e_transform e with Some l => l ++ acc | None => acc end
                        else acc) = true).
  { destruct (transformable e); [|exact A]. destruct (e_transform e) as [l|] eqn:E; [|exact A].
    rewrite forallb_app, A, (K e l); [reflexivity|now left|exact E]. }
  destruct (is_viewport e); [exact B|]. apply IH; [|exact B]. intros x l I1. apply K. now right.
Qed.
Lemma below_app a r up : Forall inner a -> is_viewport r = true -> below (a ++ r :: up) = a ++ [r].
Proof.
  intros F R. induction F as [|e a He _ IH]; cbn [app below]; [now rewrite R|].
  apply inner_iff in He. now rewrite He, IH.
Qed.

(** The last step: multiplying by the gathered transforms. *)
Lemma finish o c ctm : oracle_basic o -> known_transforms c ->
  exists m, (do m <- list_matrix o (gather c []);
             match m with None => Ok ctm | Some m => Ok (multiply_self ctm m) end) = Ok m /\
    forall p, veq (act (arr m) p) (act (arr ctm) (movedf o (below c) p)).
Proof.
  intros O K. pose proof (gather_list o c []) as G. cbn [g_list fold_right] in G.
  pose proof (gather_known c [] K eq_refl) as KN.
  destruct (gather c []) as [|t l] eqn:E.
  - exists ctm. split; [reflexivity|]. intros p. rewrite <- (G p). reflexivity.
  - destruct (list_meaning o (t :: l) O) as (m & M & _ & _ & A); [discriminate|exact KN|].
    rewrite M. cbn [bind]. exists (multiply_self ctm m). split; [reflexivity|].
    intros p. rewrite act_mul. apply act_proper. rewrite A. rewrite (G p). reflexivity.
Qed.

Definition zoomf (e : element) (p : vec4) : vec4 :=
  V4 (e_scale e * v1 p + e_tx e * v4 p) (e_scale e * v2 p + e_ty e * v4 p) (v3 p) (v4 p).
Lemma zoom_act e p : veq (act (arr (multiply_self identity
    (DM (matrix2d (e_scale e) 0 0 (e_scale e) (e_tx e) (e_ty e)) true))) p) (zoomf e p).
Proof.
  rewrite act_mul, act_identity. unfold act, zoomf. repeat split; cbn; ring.
Qed.
Lemma zoomf_proper e p q : veq p q -> veq (zoomf e p) (zoomf e q).
Proof. intros (A & B & C & D). unfold zoomf. repeat split; cbn; rewrite ?A, ?B, ?C, ?D; reflexivity. Qed.

Lemma no_svg o vt c : Forall (fun e => e_name e <> lit "svg") c -> get_ctm_of o vt c = Ok identity.
Proof.
  intros H. unfold get_ctm_of. destruct c as [|e c]; [reflexivity|].
  rewrite farthest_none; [reflexivity|]. apply forallb_forall. intros x I1.
  rewrite Forall_forall in H. specialize (H x I1). destruct (is_svg x) eqn:E; [|reflexivity].
  apply is_svg_iff in E. contradiction.
Qed.

Lemma screen_formula o c far : oracle_basic o -> rooted c far -> known_transforms c ->
  exists m, get_screen_ctm o c = Ok m /\
    forall p, veq (act (arr m) p) (zoomf far (fittedf c (movedf o (below c) p))).
Proof.
  intros O (a & b & E & SV & B) K. unfold get_screen_ctm, get_ctm_of.
  assert (FR : farthest_svg c None = Some (far :: b)).
  { rewrite E. apply farthest_app; [now apply is_svg_iff|now apply inner_not_svg]. }
  destruct c as [|self up]; [destruct a; discriminate|]. rewrite FR. set (c := self :: up) in *.
  assert (V : is_viewport far = true) by (apply svg_viewport, is_svg_iff, SV).
  assert (RO : (if (S (length b) =? length c)%nat then [far] else climb (length c) false (is_viewport self) c [])
               = rev (filter is_viewport c)).
  { destruct (S (length b) =? length c)%nat eqn:L.
    - apply Nat.eqb_eq in L. rewrite E, app_length in L. cbn in L. destruct a as [|x a]; [|cbn in L; lia].
      rewrite E. cbn [app filter]. rewrite V, (filter_inner b B). reflexivity.
    - rewrite climb_all by lia. apply app_nil_r. }
  rewrite RO. destruct (rev (filter is_viewport c)) as [|r rs] eqn:RV.
  - exfalso. assert (I1 : In far (rev (filter is_viewport c))).
    { rewrite <- in_rev. apply filter_In. split; [rewrite E; apply in_elt|exact V]. }
    rewrite RV in I1. destruct I1.
  - rewrite <- RV. cbn zeta.
    destruct (finish o c (times_vtms (multiply_self identity
       (DM (matrix2d (e_scale far) 0 0 (e_scale far) (e_tx far) (e_ty far)) true))
       (rev (filter is_viewport c))) O K) as (m & M & A).
    exists m. split; [exact M|]. intros p. rewrite A, times_fitted, zoom_act. reflexivity.
Qed.

Lemma ctm_formula o a r b far : oracle_basic o -> a <> [] -> Forall inner a -> viewport r ->
  rooted (a ++ r :: b) far -> known_transforms (a ++ r :: b) ->
  exists m, get_ctm o (a ++ r :: b) = Ok m /\
    forall p, veq (act (arr m) p) (act (arr (e_vtm r)) (movedf o (a ++ [r]) p)).
Proof.
  intros O NA FA VR (a' & b' & E & SV & B) K. apply viewport_iff in VR.
  assert (FR : farthest_svg (a ++ r :: b) None = Some (far :: b')).
  { rewrite E. apply farthest_app; [now apply is_svg_iff|now apply inner_not_svg]. }
  assert (VF : is_viewport far = true) by (apply svg_viewport, is_svg_iff, SV).
  assert (L : (S (length b') =? length (a ++ r :: b))%nat = false).
  { apply Nat.eqb_neq. rewrite E, app_length. cbn. destruct a' as [|x a'']; [|cbn; lia].
    destruct a as [|y a]; [contradiction|]. inversion E; subst. inversion FA as [|? ? Hy _]; subst.
    apply inner_iff in Hy. congruence. }
  pose proof (nearest_app a r b FA VR) as NR.
  pose proof (below_app a r b FA VR) as BL.
  unfold get_ctm, get_ctm_of. destruct a as [|self a0]; [contradiction|].
  cbn [app] in *. set (c := self :: a0 ++ r :: b) in *. rewrite FR, L.
  inversion FA as [|? ? Hs _]; subst. apply inner_iff in Hs. rewrite Hs.
  assert (CL : climb (length c) true false c [] = [r]).
  { unfold c at 1. cbn [length climb]. fold c. rewrite NR. reflexivity. }
  rewrite CL. cbn zeta.
  destruct (finish o c (times_vtms identity [r]) O K) as (m & M & A).
  exists m. split; [exact M|]. intros p. rewrite A, BL. unfold times_vtms. cbn [fold_left].
  rewrite act_mul, act_identity. reflexivity.
Qed.

Lemma ctm_outermost o far b : oracle_basic o -> e_name far = lit "svg" -> Forall inner b ->
  known_transforms (far :: b) ->
  exists m, get_ctm o (far :: b) = Ok m /\
    forall p, veq (act (arr m) p) (act (arr (e_vtm far)) (ownf o far p)).
Proof.
  intros O SV B K.
  assert (FR : farthest_svg (far :: b) None = Some (far :: b)).
  { apply (farthest_app [] far b); [now apply is_svg_iff|now apply inner_not_svg]. }
  assert (VF : is_viewport far = true) by (apply svg_viewport, is_svg_iff, SV).
  unfold get_ctm, get_ctm_of. rewrite FR. cbn [length]. rewrite Nat.eqb_refl. cbn zeta.
  destruct (finish o (far :: b) (times_vtms identity [far]) O K) as (m & M & A).
  exists m. split; [exact M|]. intros p. rewrite A. cbn [below]. rewrite VF.
  unfold times_vtms, movedf. cbn [fold_left]. rewrite act_mul, act_identity. reflexivity.
Qed.

Lemma ctm_nested o r a r2 b far : oracle_basic o -> viewport r -> Forall inner a -> viewport r2 ->
  rooted (r :: a ++ r2 :: b) far -> known_transforms (r :: a ++ r2 :: b) ->
  exists m, get_ctm o (r :: a ++ r2 :: b) = Ok m /\
    forall p, veq (act (arr m) p) (act (arr (e_vtm r2)) (act (arr (e_vtm r)) (ownf o r p))).
Proof.
  intros O VR FA VR2 (a' & b' & E & SV & B) K. apply viewport_iff in VR. apply viewport_iff in VR2.
  assert (FR : farthest_svg (r :: a ++ r2 :: b) None = Some (far :: b')).
  { rewrite E. apply farthest_app; [now apply is_svg_iff|now apply inner_not_svg]. }
  assert (L : (S (length b') =? length (r :: a ++ r2 :: b))%nat = false).
  { apply Nat.eqb_neq. rewrite E, app_length. cbn. destruct a' as [|x a'']; [|cbn; lia].
    cbn [app] in E. inversion E; subst. rewrite Forall_app in B. destruct B as [_ B].
    inversion B as [|? ? Hy _]; subst. apply inner_iff in Hy. congruence. }
  pose proof (nearest_app a r2 b FA VR2) as NR.
  unfold get_ctm, get_ctm_of. rewrite FR, L, VR.
  assert (CL : climb (length (r :: a ++ r2 :: b)) true true (r :: a ++ r2 :: b) [] = [r2; r]).
  { destruct (length (a ++ r2 :: b)) as [|n] eqn:LN;
      [rewrite app_length in LN; cbn in LN; lia|].
    cbn [length]. rewrite LN. cbn [climb nearest_viewport]. rewrite VR. cbn [negb orb andb length Nat.leb].
    rewrite NR. reflexivity. }
  rewrite CL. cbn zeta.
  destruct (finish o (r :: a ++ r2 :: b) (times_vtms identity [r2; r]) O K) as (m & M & A).
  exists m. split; [exact M|]. intros p. rewrite A. cbn [below]. rewrite VR.
  unfold times_vtms, movedf. cbn [fold_left]. rewrite !act_mul. rewrite act_identity. reflexivity.
Qed.

(** ** Agreement with SVG *)
Lemma still_own o e p : still e -> ownf o e p = p.
Proof.
  intros [H|H]; unfold ownf.
  - destruct (transformable e) eqn:T; [apply transformable_iff in T; contradiction|reflexivity].
  - rewrite H. now destruct (transformable e).
Qed.
Lemma inner_fits e p : inner e -> fitsf e p = p.
Proof. intros H. apply inner_iff in H. unfold fitsf. now rewrite H. Qed.
Lemma placed_still o c : Forall still c -> forall p, placedf o c p = fittedf c p.
Proof.
  induction 1 as [|e c He _ IH]; intros p; [reflexivity|].
  unfold placedf, fittedf. cbn [fold_left]. rewrite still_own by exact He. apply IH.
Qed.
Lemma placed_inner o c : Forall inner c -> forall p, placedf o c p = movedf o c p.
Proof.
  induction 1 as [|e c He _ IH]; intros p; [reflexivity|].
  unfold placedf, movedf. cbn [fold_left]. rewrite inner_fits by exact He. apply IH.
Qed.
Lemma fitted_inner c : Forall inner c -> forall p, fittedf c p = p.
Proof.
  induction 1 as [|e c He _ IH]; intros p; [reflexivity|].
  unfold fittedf. cbn [fold_left]. rewrite inner_fits by exact He. apply IH.
Qed.
Lemma placedf_app o a b p : placedf o (a ++ b) p = placedf o b (placedf o a p).
Proof. unfold placedf. apply fold_left_app. Qed.
Lemma movedf_app o a b p : movedf o (a ++ b) p = movedf o b (movedf o a p).
Proof. unfold movedf. apply fold_left_app. Qed.
Lemma fittedf_app a b p : fittedf (a ++ b) p = fittedf b (fittedf a p).
Proof. unfold fittedf. apply fold_left_app. Qed.

Lemma agree o a r b p : Forall inner a -> viewport r -> still r -> Forall still b ->
  fittedf (a ++ r :: b) (movedf o (below (a ++ r :: b)) p) = placedf o (a ++ r :: b) p.
Proof.
  intros FA VR SR SB. pose proof (proj2 (viewport_iff r) VR) as V.
  rewrite (below_app a r b FA V). rewrite movedf_app, fittedf_app, placedf_app.
  rewrite (placed_inner o a FA). unfold movedf at 1. cbn [fold_left]. rewrite still_own by exact SR.
  rewrite (fitted_inner a FA). symmetry. apply placed_still. now constructor.
Qed.
