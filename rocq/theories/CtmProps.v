(** C55, C56: the current transformation matrix and the bounding box. *)
From Coq Require Import Lqa.
From Verif Require Import PyBase PyText MatrixModel MatrixSpec MatrixProofs MatrixProofs2 RectModel RectSpec RectProofs
  TransformModel TransformSpec TransformProofs CtmModel CtmSpec CtmProofs CtmProofs2.
Local Open Scope Q_scope.

(** C55: the screen matrix of an element takes a point through the transforms
    up to the nearest viewport element, then through every viewport mapping,
    then through the zoom and pan of the outermost 'svg'. *)
Theorem c55_screen : forall o a r b far, oracle_basic o -> Forall inner a -> viewport r ->
  rooted (a ++ r :: b) far -> known_transforms (a ++ r :: b) ->
  exists m, get_screen_ctm o (a ++ r :: b) = Ok m /\
    forall p q u v, moved o (a ++ [r]) p q -> fitted (r :: b) q u -> zoomed far u v ->
      veq (act (arr m) p) v.
Proof.
  intros o a r b far O FA VR RT K. destruct (screen_formula o _ far O RT K) as (m & M & A).
  exists m. split; [exact M|]. intros p q u v H1 H2 H3. rewrite A.
  apply moved_iff in H1. apply fitted_iff in H2. unfold zoomed in H3. rewrite H3. symmetry.
  apply (zoomf_proper far). rewrite H2.
  rewrite (below_app a r b FA (proj2 (viewport_iff r) VR)), fittedf_app, (fitted_inner a FA).
  now apply fittedf_proper.
Qed.
Print Assumptions c55_screen.

(** C55: when nothing from the nearest viewport element outwards carries a
    transform, the screen matrix is the mapping SVG defines.  Missing for the
    full claim: transforms further out, see c55_screen_refuted and
    c55_svg_transform_refuted. *)
Theorem c55_screen_placed_partial : forall o a r b far, oracle_basic o -> Forall inner a -> viewport r ->
  still r -> Forall still b -> rooted (a ++ r :: b) far -> known_transforms (a ++ r :: b) ->
  exists m, get_screen_ctm o (a ++ r :: b) = Ok m /\
    forall p u v, placed o (a ++ r :: b) p u -> zoomed far u v -> veq (act (arr m) p) v.
Proof.
  intros o a r b far O FA VR SR SB RT K. destruct (screen_formula o _ far O RT K) as (m & M & A).
  exists m. split; [exact M|]. intros p u v H1 H2. apply placed_iff in H1. unfold zoomed in H2.
  rewrite A, H2. symmetry. apply (zoomf_proper far). rewrite H1, (agree o a r b p FA VR SR SB). reflexivity.
Qed.
Print Assumptions c55_screen_placed_partial.

(** C55: the matrix of an element that opens no viewport: its transforms up to
    the nearest viewport element, then that element's viewport mapping. *)
Theorem c55_ctm : forall o a r b far, oracle_basic o -> a <> [] -> Forall inner a -> viewport r ->
  rooted (a ++ r :: b) far -> known_transforms (a ++ r :: b) ->
  exists m, get_ctm o (a ++ r :: b) = Ok m /\
    forall p q u, moved o (a ++ [r]) p q -> fits r q u -> veq (act (arr m) p) u.
Proof.
  intros o a r b far O NA FA VR RT K. destruct (ctm_formula o a r b far O NA FA VR RT K) as (m & M & A).
  exists m. split; [exact M|]. intros p q u H1 [[_ H2]|[H2 _]]; [|contradiction].
  apply moved_iff in H1. rewrite A, H2. symmetry. now apply act_proper.
Qed.
Print Assumptions c55_ctm.

(** C55: the matrix of the outermost 'svg', and of a nested viewport element,
    which also takes the next viewport mapping outwards. *)
Theorem c55_ctm_outermost : forall o far b, oracle_basic o -> e_name far = lit "svg" -> Forall inner b ->
  known_transforms (far :: b) ->
  exists m, get_ctm o (far :: b) = Ok m /\
    forall p q u, own o far p q -> fits far q u -> veq (act (arr m) p) u.
Proof.
  intros o far b O SV B K. destruct (ctm_outermost o far b O SV B K) as (m & M & A).
  exists m. split; [exact M|]. intros p q u H1 H2. apply own_iff in H1. apply fits_iff in H2.
  unfold fitsf in H2. rewrite (svg_viewport far (proj2 (is_svg_iff far) SV)) in H2.
  rewrite A, H2. symmetry. now apply act_proper.
Qed.
Print Assumptions c55_ctm_outermost.
Theorem c55_ctm_nested : forall o r a r2 b far, oracle_basic o -> viewport r -> Forall inner a -> viewport r2 ->
  rooted (r :: a ++ r2 :: b) far -> known_transforms (r :: a ++ r2 :: b) ->
  exists m, get_ctm o (r :: a ++ r2 :: b) = Ok m /\
    forall p q u v, own o r p q -> fits r q u -> fits r2 u v -> veq (act (arr m) p) v.
Proof.
  intros o r a r2 b far O VR FA VR2 RT K.
  destruct (ctm_nested o r a r2 b far O VR FA VR2 RT K) as (m & M & A).
  exists m. split; [exact M|]. intros p q u v H1 [[_ H2]|[H2 _]] [[_ H3]|[H3 _]]; try contradiction.
  apply own_iff in H1. rewrite A, H3. symmetry. apply act_proper. rewrite H2. now apply act_proper.
Qed.
Print Assumptions c55_ctm_nested.

(** C55: without an 'svg' element both are the identity. *)
Theorem c55_no_svg : forall o c, Forall (fun e => e_name e <> lit "svg") c ->
  get_ctm o c = Ok identity /\ get_screen_ctm o c = Ok identity.
Proof. intros o c H. split; now apply no_svg. Qed.
Print Assumptions c55_no_svg.

(** C55: going one element down multiplies by that element's transform. *)
Theorem c55_child : forall o e c far, oracle_basic o -> inner e -> rooted c far ->
  known_transforms (e :: c) ->
  exists m m', get_screen_ctm o c = Ok m /\ get_screen_ctm o (e :: c) = Ok m' /\
    forall p q, own o e p q -> veq (act (arr m') p) (act (arr m) q).
Proof.
  intros o e c far O IE RT K.
  assert (RT' : rooted (e :: c) far).
  { destruct RT as (a & b & E & SV & B). exists (e :: a), b. rewrite E. auto. }
  assert (K' : known_transforms c) by (intros x l I1; apply K; now right).
  destruct (screen_formula o c far O RT K') as (m & M & A).
  destruct (screen_formula o (e :: c) far O RT' K) as (m' & M' & A').
  exists m, m'. split; [exact M|]. split; [exact M'|]. intros p q H. apply own_iff in H.
  rewrite A', A. apply zoomf_proper. pose proof (proj2 (inner_iff e) IE) as V.
  unfold fittedf at 1. cbn [fold_left]. fold (fittedf c (fitsf e (movedf o (below (e :: c)) p))).
  rewrite inner_fits by exact IE. apply fittedf_proper. cbn [below]. rewrite V.
  unfold movedf at 1. cbn [fold_left]. apply movedf_proper. now symmetry.
Qed.
Print Assumptions c55_child.

(** C55: with a single viewport element the screen matrix is the zoom and pan
    after the matrix of the element. *)
Theorem c55_single_viewport : forall o a far b, oracle_basic o -> Forall inner a ->
  e_name far = lit "svg" -> Forall inner b -> known_transforms (a ++ far :: b) ->
  exists m s, get_ctm o (a ++ far :: b) = Ok m /\ get_screen_ctm o (a ++ far :: b) = Ok s /\
    forall p q, zoomed far (act (arr m) p) q -> veq (act (arr s) p) q.
Proof.
  intros o a far b O FA SV B K.
  assert (VF : viewport far) by (left; exact SV).
  assert (RT : rooted (a ++ far :: b) far) by (exists a, b; auto).
  destruct (screen_formula o _ far O RT K) as (s & S1 & A).
  pose proof (proj2 (viewport_iff far) VF) as V.
  assert (C : exists m, get_ctm o (a ++ far :: b) = Ok m /\
    forall p, veq (act (arr m) p) (act (arr (e_vtm far)) (movedf o (a ++ [far]) p))).
  { destruct a as [|x a].
    - destruct (ctm_outermost o far b O SV B K) as (m & M & H). exists m. split; [exact M|]. exact H.
    - apply (ctm_formula o (x :: a) far b far); auto. discriminate. }
  destruct C as (m & M & H). exists m, s. split; [exact M|]. split; [exact S1|].
  intros p q Z. unfold zoomed in Z. rewrite A, Z. apply zoomf_proper.
  rewrite (below_app a far b FA V), fittedf_app, (fitted_inner a FA). unfold fittedf. cbn [fold_left].
  fold (fittedf b (fitsf far (movedf o (a ++ [far]) p))). rewrite (fitted_inner b B).
  unfold fitsf. rewrite V. symmetry. apply H.
Qed.
Print Assumptions c55_single_viewport.

(** A document: a shape moved by its own transform and by its group's, in an
    inner 'svg' whose viewBox doubles, in a group that moves, in an outer 'svg'. *)
Definition unit_elem (n : text) (t : option (list transform)) : element := mkElem n t identity 1 0 0.
Definition doubling : dmat := DM (matrix2d 2 0 0 2 0 0) true.
Definition ex_shape := unit_elem (lit "rect") (Some [TTranslate 1 0]).
Definition ex_group := unit_elem (lit "g") (Some [TScale 3 3]).
Definition ex_plain := unit_elem (lit "g") None.
Definition ex_inner := mkElem (lit "svg") None doubling 1 0 0.
Definition ex_between := unit_elem (lit "g") (Some [TTranslate 100 0]).
Definition ex_outer := mkElem (lit "svg") None (DM (matrix2d 1 0 0 1 7 0) true) 10 1000 2000.

Lemma ex_known c : c = [ex_shape; ex_group; ex_inner; ex_between; ex_outer] \/
  c = [ex_shape; ex_group; ex_inner; ex_plain; ex_outer] -> known_transforms c.
Proof.
  intros [E0 | E0] e l; rewrite E0; clear E0; intros [<-|[<-|[<-|[<-|[<-|[]]]]]] E; cbn in E;
    first [discriminate E | injection E as <-; reflexivity].
Qed.
Lemma ex_inner_elem e : In e [ex_shape; ex_group; ex_plain; ex_between] -> inner e.
Proof.
  intros [<-|[<-|[<-|[<-|[]]]]]; apply inner_iff; reflexivity.
Qed.
Example c55_screen_ex : let c := [ex_shape; ex_group; ex_inner; ex_plain; ex_outer] in
  oracle_basic quarter_oracle /\ Forall inner [ex_shape; ex_group] /\ viewport ex_inner /\
  still ex_inner /\ Forall still [ex_plain; ex_outer] /\ rooted c ex_outer /\ known_transforms c /\
  exists m, get_screen_ctm quarter_oracle c = Ok m /\
    veq (act (arr m) (V4 1 1 0 1)) (V4 1190 2060 0 1).
Proof.
  split; [apply quarter_basic|].
  split; [repeat constructor; apply ex_inner_elem; cbn; auto|].
  split; [left; reflexivity|]. split; [right; reflexivity|].
  split; [repeat constructor; right; reflexivity|].
  split; [exists [ex_shape; ex_group; ex_inner; ex_plain], []; repeat split; constructor|].
  split; [apply ex_known; auto|]. eexists. split; [reflexivity|]. repeat split; vm_compute; reflexivity.
Qed.

(** C55 fails in general: a transform between two nested viewport elements is
    left out. *)
Theorem c55_screen_refuted : exists c far m, rooted c far /\ known_transforms c /\
  get_screen_ctm quarter_oracle c = Ok m /\
  exists p u v, placed quarter_oracle c p u /\ zoomed far u v /\ ~ veq (act (arr m) p) v.
Proof.
  exists [ex_shape; ex_group; ex_inner; ex_between; ex_outer], ex_outer.
  eexists. split; [exists [ex_shape; ex_group; ex_inner; ex_between], []; repeat split; constructor|].
  split; [apply ex_known; auto|]. split; [reflexivity|].
  exists (V4 1 1 0 1), (placedf quarter_oracle [ex_shape; ex_group; ex_inner; ex_between; ex_outer] (V4 1 1 0 1)).
  eexists. split; [apply placed_iff; reflexivity|]. split; [unfold zoomed; apply veq_refl|].
  intros (H & _). vm_compute in H. discriminate H.
Qed.
Print Assumptions c55_screen_refuted.

(** C55 fails also for a transform on an 'svg' with a viewBox: it is applied
    inside the viewport mapping instead of outside. *)
Definition ex_moved_svg := mkElem (lit "svg") (Some [TTranslate 5 0]) doubling 1 0 0.
Theorem c55_svg_transform_refuted : exists e m, rooted [e] e /\ known_transforms [e] /\
  get_screen_ctm quarter_oracle [e] = Ok m /\
  exists p u v, placed quarter_oracle [e] p u /\ zoomed e u v /\ ~ veq (act (arr m) p) v.
Proof.
  exists ex_moved_svg. eexists. split; [exists [], []; repeat split; constructor|].
  split; [intros e l [<-|[]] E; cbn in E; injection E as <-; reflexivity|]. split; [reflexivity|].
  exists (V4 1 1 0 1), (placedf quarter_oracle [ex_moved_svg] (V4 1 1 0 1)).
  eexists. split; [apply placed_iff; reflexivity|]. split; [unfold zoomed; apply veq_refl|].
  intros (H & _). vm_compute in H. discriminate H.
Qed.
Print Assumptions c55_svg_transform_refuted.

(** C56: the box of an element covers every drawn leaf below it, each leaf's
    box moved by the transforms of the containers between.  Missing for the
    full claim: leaf boxes of zero width or height, and transforms with two
    negative coefficients in a row; see the refutations. *)
Theorem c56_covers_partial : forall o n d tr cs, oracle_basic o -> Forall (every solid (tame o)) cs ->
  exists b, get_bbox o false (GBox n d tr cs) = Ok b /\ proper b /\
    forall x y, paints_in o (GBox n d tr cs) x y -> region b x y.
Proof.
  intros o n d tr cs O F. destruct (bbox_root o n d tr cs O F) as (b & B & S & P).
  exists b. split; [exact B|]. split; [now apply solid_proper|exact P].
Qed.
Print Assumptions c56_covers_partial.

(** C56: inside another container the element's own transform counts too. *)
Theorem c56_nested_partial : forall o n, oracle_basic o -> every solid (tame o) n ->
  exists b, get_bbox o true n = Ok b /\ proper b /\ forall x y, paints o n x y -> region b x y.
Proof.
  intros o n O E. destruct (bbox_good o O n E) as (b & B & S & P).
  exists b. split; [exact B|]. split; [now apply solid_proper|exact P].
Qed.
Print Assumptions c56_nested_partial.

(** C56: under scalings and translations the box is the smallest one. *)
Theorem c56_least_partial : forall o n d tr cs, oracle_basic o -> Forall (every solid (upright o)) cs ->
  exists b, get_bbox o false (GBox n d tr cs) = Ok b /\
    (forall x y, paints_in o (GBox n d tr cs) x y -> region b x y) /\
    forall B, proper B -> (forall x y, paints_in o (GBox n d tr cs) x y -> region B x y) -> included b B.
Proof.
  intros o n d tr cs O F.
  assert (F' : Forall (every solid (tame o)) cs).
  { eapply Forall_impl; [|exact F]. apply every_impl, upright_tame. }
  destruct (bbox_root o n d tr cs O F') as (b & B & S & P). exists b. split; [exact B|].
  split; [exact P|]. exact (bbox_root_least o n d tr cs O F b B).
Qed.
Print Assumptions c56_least_partial.

(** C56: symbols and definitions have no box; a leaf has that of its path. *)
Theorem c56_not_rendered : forall o nested n d tr cs, n = lit "defs" \/ n = lit "symbol" ->
  get_bbox o nested (GBox n d tr cs) = Ok rect_unset.
Proof.
  intros o nested n d tr cs H. rewrite get_bbox_box.
  assert (E : name_in n [lit "defs"; lit "symbol"] = true).
  { apply name_in_iff. destruct H as [-> | ->]; cbn; auto. }
  now rewrite E.
Qed.
Print Assumptions c56_not_rendered.

(** C56: children that are not displayed or not graphics change nothing. *)
Theorem c56_hidden_children : forall o nested n d tr a c b,
  c = GOther \/ g_display c = Some (lit "none") ->
  get_bbox o nested (GBox n d tr (a ++ c :: b)) = get_bbox o nested (GBox n d tr (a ++ b)).
Proof.
  intros o nested n d tr a c b H. rewrite !get_bbox_box.
  assert (E : forall acc, boxes o acc (a ++ c :: b) = boxes o acc (a ++ b)).
  { induction a as [|x a IH]; intros acc.
    - cbn [app]. cbn [boxes]. destruct c as [|d' r|n' d' tr' cs']; [reflexivity| |];
        (destruct H as [H|H]; [discriminate|]; unfold hidden; rewrite H;
         destruct (text_eqb_spec (lit "none") (lit "none")); [reflexivity|congruence]).
    - cbn [app boxes]. fold (boxes o). destruct x as [|d' r|n' d' tr' cs']; [apply IH| |];
        (destruct (hidden _); [apply IH|]; destruct (get_bbox o true _); [apply IH|reflexivity]). }
  now rewrite E.
Qed.
Print Assumptions c56_hidden_children.

Definition ex_tree : list gnode :=
  [ GLeaf None (rect4 0 0 2 1); GOther;
    GBox (lit "g") None (Some [TTranslate 10 0; TScale 2 (-1)])
      [GLeaf None (rect4 0 0 3 4); GLeaf (Some (lit "none")) (rect4 900 900 1 1)];
    GBox (lit "symbol") None None [GLeaf None (rect4 800 0 1 1)] ].
Example c56_ex : oracle_basic quarter_oracle /\ Forall (every solid (upright quarter_oracle)) ex_tree /\
  exists b, get_bbox quarter_oracle false (GBox (lit "svg") None (Some []) ex_tree) = Ok b /\
    rect_eqb b (rect4 0 (-4) 16 5) = true.
Proof.
  split; [apply quarter_basic|]. split.
  - assert (V : forall x y w h, isvalid (rect4 x y w h) = true -> solid (rect4 x y w h)) by (intros; now right).
    apply Forall_cons; [apply V; reflexivity|]. apply Forall_cons; [exact I|].
    apply Forall_cons; [|apply Forall_cons; [|apply Forall_nil]]; apply every_box; split; try exact I.
    + split; [discriminate|]. split; [reflexivity|]. vm_compute. repeat split; discriminate.
    + apply Forall_cons; [apply V; reflexivity|]. apply Forall_cons; [apply V; reflexivity|]. apply Forall_nil.
    + apply Forall_cons; [apply V; reflexivity|]. apply Forall_nil.
  - eexists. split; reflexivity.
Qed.

(** C56 fails for a turn with two negative coefficients in a row ... *)
Theorem c56_turn_refuted : exists cs b x y, get_bbox quarter_oracle false (GBox (lit "svg") None None cs) = Ok b /\
  Forall (every solid (fun _ => True)) cs /\
  paints_in quarter_oracle (GBox (lit "svg") None None cs) x y /\ ~ region b x y.
Proof.
  exists [GBox (lit "g") None (Some [TMatrix (-3#5) (4#5) (-4#5) (-3#5) 0 0]) [GLeaf None (rect4 0 0 1 1)]].
  eexists. exists 0, 0. split; [reflexivity|]. split; [apply Forall_cons; [|apply Forall_nil]; apply every_box; split; [exact I|];
    apply Forall_cons; [right; reflexivity|apply Forall_nil]|]. split.
  - split; [split; discriminate|]. eexists. split; [left; reflexivity|]. split; [discriminate|].
    apply paints_box with (GLeaf None (rect4 0 0 1 1)) 0 0; [split; discriminate|left; reflexivity|discriminate| |].
    + constructor. unfold region; cbn; lra.
    + split; vm_compute; reflexivity.
  - unfold region. vm_compute. intros [[_ H] _]. apply H. reflexivity.
Qed.
Print Assumptions c56_turn_refuted.
(** ... for a leaf whose box is a line ... *)
Theorem c56_line_refuted : exists cs b x y, get_bbox quarter_oracle false (GBox (lit "svg") None None cs) = Ok b /\
  paints_in quarter_oracle (GBox (lit "svg") None None cs) x y /\ ~ region b x y.
Proof.
  exists [GLeaf None (rect4 0 0 100 0)]. eexists. exists 100, 0. split; [reflexivity|]. split.
  - split; [split; discriminate|]. eexists. split; [left; reflexivity|]. split; [discriminate|].
    constructor. unfold region; cbn; lra.
  - unfold region. vm_compute. intros [[_ H] _]. apply H. reflexivity.
Qed.
Print Assumptions c56_line_refuted.
(** ... and an empty transform attribute on an inner container raises. *)
Theorem c56_empty_transform_refuted : exists cs,
  get_bbox quarter_oracle false (GBox (lit "svg") None None cs) = Err AttributeError.
Proof.
  exists [GBox (lit "g") None (Some []) [GLeaf None (rect4 0 0 1 1)]]. reflexivity.
Qed.
Print Assumptions c56_empty_transform_refuted.
