(** More lemmas on computed geometry: words that are no lengths, and paths. *)
From Verif Require Import PyBase PyText PySplit PyStrip PyDict PyCase NumScan FormatModel FormatSpec NumScanProofs CascadeModel LengthModel LengthSpec LengthProofs
  ViewModel ViewSpec ViewProofs PathModel ShapeModel GeomModel GeomSpec GeomProofs.
#[local] Open Scope Q_scope.

Lemma strip_wordy t : wordy t -> exists c r, strip t = c :: r /\ is_digit c = false /\ ~ In c [43; 45; 46]%N.
Proof.
  intros (a & c & r & -> & A & C & D & I). unfold strip. rewrite dropwhile_spaces by auto.
  assert (G : forall s, exists r', rdropwhile is_space (c :: s) = c :: r').
  { intros s. unfold rdropwhile. cbn [rev]. induction (rev s) as [|x l IH]; cbn [app dropwhile].
    - rewrite C. cbn. eauto.
    - destruct (is_space x); [exact IH|]. cbn [rev]. rewrite rev_app_distr. cbn. eauto. }
  destruct (G r) as (r' & ->). eauto.
Qed.
Lemma scan_word c r : is_digit c = false -> ~ In c [43; 45; 46]%N -> scan_number (c :: r) = None.
Proof.
  intros D I. unfold scan_number. cbn [scan_sign].
  destruct (N.eqb_spec c 43); [exfalso; apply I; cbn; auto|]. destruct (N.eqb_spec c 45); [exfalso; apply I; cbn; auto|].
  cbn [takewhile dropwhile]. rewrite D. cbn [scan_dot]. destruct (N.eqb_spec c 46); [exfalso; apply I; cbn; auto|]. reflexivity.
Qed.
Lemma py_float_wordy t : wordy t -> py_float t = Err ValueError.
Proof. intros W. destruct (strip_wordy t W) as (c & r & E & D & I). unfold py_float. now rewrite E, scan_word. Qed.
Lemma listed_wordy f t : f [] = Err ValueError -> (forall t, wordy t -> f t = Err ValueError) -> wordy t -> exists e, listed f (Some t) = Err e.
Proof.
  intros F0 F (a & c & r & -> & A & C & D & I). unfold listed. destruct (split_first (a ++ c :: r)) as (l & ->). cbn [map_result].
  assert (E : f (takewhile plain (a ++ c :: r)) = Err ValueError); [|rewrite E; cbn; eauto].
  destruct a as [|x a].
  - cbn [app takewhile]. destruct (plain c); [|exact F0]. apply F. now exists [], c, (takewhile plain r).
  - assert (S : plain x = false). { unfold spaces in A. cbn in A. apply andb_prop in A. unfold plain. now rewrite (proj1 A). } cbn [app takewhile]. rewrite S. exact F0.
Qed.
Lemma coordinate_wordy n key d t : dget (g_attr n) key = Some t -> wordy t -> coordinate n key d = Err ValueError.
Proof. intros E W. unfold coordinate, gattr. rewrite E. now apply glen_wordy. Qed.
Lemma extent_wordy n l key d t : mem key [lit "width"; lit "height"] = true -> dget (g_attr n) key = Some t -> wordy t -> t <> lit "auto" -> t <> lit "inherit" -> extent n l key d = Err ValueError.
Proof.
  intros K E W A I. rewrite extent_is, extent_step, E by exact K. destruct (text_eqb_spec t (lit "auto")); [contradiction|]. destruct (text_eqb_spec t (lit "inherit")); [contradiction|]. now apply glen_wordy.
Qed.
Lemma radius_wordy n key t : dget (g_attr n) key = Some t -> t <> lit "auto" -> gattr n key (lit "auto") = t /\ is_auto t = false.
Proof. intros E N. unfold gattr, is_auto. rewrite E. split; [reflexivity|]. now destruct (text_eqb_spec t (lit "auto")). Qed.
Lemma rect_radii_wordy n w h key t : In key [lit "rx"; lit "ry"] -> dget (g_attr n) key = Some t -> wordy t -> t <> lit "auto" -> exists e, rect_rx_ry n w h = Err e.
Proof.
  intros K E W N. destruct (radius_wordy n key t E N) as [G A]. unfold rect_rx_ry. cbv zeta. cbn [In] in K. destruct K as [<- |[<- |[]]]; rewrite G, A; cbn [andb negb].
  - rewrite glen_wordy by exact W. cbn. eauto.
  - rewrite andb_false_r. destruct (is_auto (gattr n (lit "rx") (lit "auto"))); cbn [bind]; [rewrite glen_wordy by exact W; cbn; eauto|].
    destruct (glen n Horizontal _); cbn [bind]; [rewrite glen_wordy by exact W; cbn; eauto|eauto].
Qed.
Lemma ellipse_radii_wordy n key t : In key [lit "rx"; lit "ry"] -> dget (g_attr n) key = Some t -> wordy t -> t <> lit "auto" -> exists e, ellipse_geometry n = Err e.
Proof.
  intros K E W N. destruct (radius_wordy n key t E N) as [G A]. unfold ellipse_geometry. cbv zeta. cbn [In] in K. destruct K as [<- |[<- |[]]]; rewrite G, A; cbn [andb negb].
  - destruct (is_auto (gattr n (lit "ry") (lit "auto"))); rewrite A; cbn [andb]; rewrite glen_wordy by exact W; cbn; eauto.
  - rewrite andb_false_r. destruct (is_auto (gattr n (lit "rx") (lit "auto"))) eqn:B; cbn [andb].
    + rewrite A. cbn [andb]. rewrite glen_wordy by exact W. cbn. eauto.
    + rewrite B. cbn [andb]. destruct (glen n Horizontal _); cbn [bind]; [rewrite glen_wordy by exact W; cbn; eauto|eauto].
Qed.
Lemma refused n l k t : In (g_name n) measured -> In k (geometry_keys (g_name n)) -> dget (g_attr n) (lit k) = Some t -> wordy t -> ~ In t (keywords k) ->
  exists e, computed_geometry n l = Err e.
Proof.
  intros N K E W X. destruct (computed_geometry n l) as [g|e] eqn:G; [exfalso|eauto].
  unfold measured in N. cbn [In] in N. revert G. unfold computed_geometry. unfold geometry_keys in K.
  Local Ltac names N := rewrite <- N in *; cbn [orb];
  repeat match goal with |- context [text_eqb (lit ?a) (lit ?b)] => let v := eval vm_compute in (text_eqb (lit a) (lit b)) in change (text_eqb (lit a) (lit b)) with v end;
  repeat match goal with K : context [text_eqb (lit ?a) (lit ?b)] |- _ => let v := eval vm_compute in (text_eqb (lit a) (lit b)) in change (text_eqb (lit a) (lit b)) with v in K end; cbn [orb] in *; cbv iota in *.
  Local Ltac no_coordinate := match goal with H : coordinate ?n ?k _ = Ok _, E : dget (g_attr ?n) ?k = Some ?t, W : wordy ?t |- _ => rewrite (coordinate_wordy n k _ t E W) in H; discriminate H end.
  Local Ltac no_extent := match goal with H : extent ?n ?l ?k _ = Ok _, E : dget (g_attr ?n) ?k = Some ?t, W : wordy ?t, X : ~ In ?t _ |- _ =>
    rewrite (extent_wordy n l k _ t eq_refl E W) in H; [discriminate H|intros ->; apply X; cbn; tauto|intros ->; apply X; cbn; tauto] end.
  Local Ltac no_list := match goal with H : listed ?f (match dget (g_attr ?n) ?k with _ => _ end) = Ok _, E : dget (g_attr ?n) ?k = Some ?t, W : wordy ?t |- _ =>
      rewrite E in H; destruct (listed_wordy f t eq_refl ltac:(intros; apply glen_wordy; assumption) W) as (? & Z); rewrite Z in H; discriminate H
    | H : listed ?f (dget (g_attr ?n) ?k) = Ok _, E : dget (g_attr ?n) ?k = Some ?t, W : wordy ?t |- _ =>
      rewrite E in H; destruct (listed_wordy f t eq_refl ltac:(intros; (apply glen_wordy || apply py_float_wordy); assumption) W) as (? & Z); rewrite Z in H; discriminate H end.
  destruct N as [N|[N|[N|[N|[N|[N|[N|[N|[]]]]]]]]]; names N; cbn [In] in K.
  - unfold circle_geometry. okay. intros _. destruct K as [<- |[<- |[<- |[]]]]; no_coordinate.
  - destruct K as [<- |[<- |K]].
    + destruct (ellipse_radii_wordy n (lit "rx") t) as (e & ->); [cbn; tauto|exact E|exact W|intros ->; apply X; cbn; tauto|discriminate].
    + destruct (ellipse_radii_wordy n (lit "ry") t) as (e & ->); [cbn; tauto|exact E|exact W|intros ->; apply X; cbn; tauto|discriminate].
    + unfold ellipse_geometry. cbv zeta. okay. intros _. destruct K as [<- |[<- |[]]]; no_coordinate.
  - unfold line_geometry. okay. intros _. destruct K as [<- |[<- |[<- |[<- |[]]]]]; no_coordinate.
  - unfold rect_geometry. okay. intros _. destruct K as [<- |[<- |[<- |[<- |[<- |[<- |[]]]]]]]; try no_coordinate; try no_extent.
    + match goal with H : rect_rx_ry n ?w ?h = Ok _ |- _ => destruct (rect_radii_wordy n w h (lit "rx") t) as (? & Z); [cbn; tauto|exact E|exact W|intros ->; apply X; cbn; tauto|]; rewrite Z in H; discriminate H end.
    + match goal with H : rect_rx_ry n ?w ?h = Ok _ |- _ => destruct (rect_radii_wordy n w h (lit "ry") t) as (? & Z); [cbn; tauto|exact E|exact W|intros ->; apply X; cbn; tauto|]; rewrite Z in H; discriminate H end.
  - unfold use_geometry. okay. intros _. destruct K as [<- |[<- |[<- |[<- |[]]]]]; try no_coordinate; no_extent.
  - unfold text_geometry. cbv zeta. okay. intros _. destruct K as [<- |[<- |[<- |[<- |[<- |[]]]]]]; no_list.
  - unfold text_geometry. cbv zeta. okay. intros _. destruct K as [<- |[<- |[<- |[<- |[<- |[]]]]]]; no_list.
  - unfold text_geometry. cbv zeta. okay. intros _. destruct K as [<- |[<- |[<- |[<- |[<- |[]]]]]]; no_list.
Qed.

(** * Paths *)
Ltac unheld := repeat match goal with
  | H : holds _ (_ :: _) |- _ => unfold holds in H; inversion H; clear H; subst
  | H : Forall2 _ _ (_ :: _) |- _ => inversion H; clear H; subst
  | H : Forall2 _ _ [] |- _ => inversion H; clear H; subst
  end; repeat match goal with a : (text * gval)%type |- _ => destruct a as [? ?] end; cbn [fst snd] in *;
  repeat match goal with H : _ /\ _ |- _ => destruct H as [? ?] | H : exists _, _ |- _ => destruct H as [? ?] end; subst.
Lemma circle_path_is n l cx cy r : g_name n = lit "circle" -> gives n (lit "cx") Horizontal cx -> gives n (lit "cy") Vertical cy -> gives n (lit "r") Unspecified r ->
  exists a b c, element_path n l = Ok (circle_path a b c) /\ a == cx /\ b == cy /\ c == r.
Proof.
  intros N A B C. destruct (circle_holds n l cx cy r N A B C) as (g & G & H). unheld. unfold element_path. rewrite G, N. cbn [bind]. eexists _, _, _. split; [reflexivity|auto].
Qed.
Lemma ellipse_path_is n l cx cy rx ry : g_name n = lit "ellipse" -> gives n (lit "cx") Horizontal cx -> gives n (lit "cy") Vertical cy -> ellipse_radii_are n rx ry ->
  exists a b c d, element_path n l = Ok (ellipse_path a b c d) /\ a == cx /\ b == cy /\ c == rx /\ d == ry.
Proof.
  intros N A B C. destruct (ellipse_holds n l cx cy rx ry N A B C) as (g & G & H). unheld. unfold element_path. rewrite G, N. cbn [bind]. eexists _, _, _, _. split; [reflexivity|auto].
Qed.
Lemma line_path_is n l x1 y1 x2 y2 : g_name n = lit "line" -> gives n (lit "x1") Horizontal x1 -> gives n (lit "y1") Vertical y1 ->
  gives n (lit "x2") Horizontal x2 -> gives n (lit "y2") Vertical y2 ->
  exists a b c d, element_path n l = Ok (line_path a b c d) /\ a == x1 /\ b == y1 /\ c == x2 /\ d == y2.
Proof.
  intros N A B C D. destruct (line_holds n l x1 y1 x2 y2 N A B C D) as (g & G & H). unheld. unfold element_path. rewrite G, N. cbn [bind]. eexists _, _, _, _. split; [reflexivity|auto].
Qed.
Lemma rect_path_is n l x y w h rx ry : g_name n = lit "rect" -> gives n (lit "x") Horizontal x -> gives n (lit "y") Vertical y ->
  spans (lit "width") Horizontal (n :: l) w -> spans (lit "height") Vertical (n :: l) h -> rect_radii_are n w h rx ry ->
  exists a b c d e f, element_path n l = Ok (rect_path a b c d e f) /\ a == x /\ b == y /\ c == w /\ d == h /\ e == rx /\ f == ry.
Proof.
  intros N A B C D R. destruct (rect_holds n l x y w h rx ry N A B C D R) as (g & G & H). unheld. unfold element_path. rewrite G, N. cbn [bind]. eexists _, _, _, _, _, _. split; [reflexivity|auto 10].
Qed.
Lemma poly_path_is n l : In (g_name n) [lit "polygon"; lit "polyline"] ->
  let p := match dget (g_attr n) (lit "points") with None => [] | Some t => map (fun p => P (fst p) (snd p)) (get_points t) end in
  element_path n l = Ok (if text_eqb (g_name n) (lit "polygon") then polygon_path p else polyline_path p).
Proof.
  intros [N|[N|[]]] p; symmetry in N; unfold element_path; named N; cbn [bind]; unfold points_geometry, p; destruct (dget (g_attr n) (lit "points")); reflexivity.
Qed.

(** * Viewports *)
Lemma view_holds n x y w h f : g_view n = Ok (x, y, w, h) -> viewport_is x y w h f ->
  exists g, view_geometry n = Ok g /\ holds g [("x", fx f); ("y", fy f); ("width", fw f); ("height", fh f)]%string.
Proof.
  intros E (_ & _ & _ & X & Y & W & H). unfold view_geometry. rewrite E. cbn [bind].
  destruct (pixels_abs _ _ X) as (a & -> & ?). destruct (pixels_abs _ _ Y) as (b & -> & ?). destruct (pixels_abs _ _ W) as (c & -> & ?). destruct (pixels_abs _ _ H) as (d & -> & ?).
  cbn [bind]. eexists. split; [reflexivity|]. held.
Qed.
Lemma reference_is n key words d v : refers n key words d v -> exists g, reference n key words d = Ok g /\ same_val g v.
Proof.
  unfold refers, reference. destruct (dget (g_attr n) key) as [t|]; [|intros ->; exists GNone; split; [reflexivity|exact I]].
  intros [(M & ->)|(M & q & S & ->)].
  - apply mem_in in M. rewrite M. eexists. split; [reflexivity|reflexivity].
  - apply mem_not_in in M. rewrite M. destruct (glen_stands n d t q S) as (u & -> & U). cbn [bind]. eexists. split; [reflexivity|exact U].
Qed.
Lemma symbol_holds n x y w h f rx ry : g_view n = Ok (x, y, w, h) -> viewport_is x y w h f ->
  refers n (lit "refX") [lit "left"; lit "center"; lit "right"] Horizontal rx -> refers n (lit "refY") [lit "top"; lit "center"; lit "bottom"] Vertical ry ->
  exists g a b, symbol_geometry n = Ok (g ++ [(lit "refX", a); (lit "refY", b)]) /\ holds g [("x", fx f); ("y", fy f); ("width", fw f); ("height", fh f)]%string /\ same_val a rx /\ same_val b ry.
Proof.
  intros E V X Y. destruct (view_holds n x y w h f E V) as (g & G & H). apply reference_is in X, Y. destruct X as (a & X & SX), Y as (b & Y & SY).
  exists g, a, b. unfold symbol_geometry. rewrite G, X, Y. cbn. auto.
Qed.
Lemma rotate_unit n l w u v : In (g_name n) [lit "text"; lit "tspan"; lit "textPath"] -> dget (g_attr n) (lit "rotate") = Some (w ++ u) -> numeral w = Some v -> In u supported ->
  exists e, computed_geometry n l = Err e.
Proof.
  intros N E W U. destruct (computed_geometry n l) as [g|e] eqn:G; [exfalso|eauto].
  assert (T : text_geometry n = Ok g). { unfold computed_geometry in G. destruct N as [N|[N|[N|[]]]]; rewrite <- N in G; exact G. }
  destruct (numeral_plain w v W) as [P Z]. destruct (unit_finished (Some u) U) as (F & _ & C & _).
  assert (Pl : forallb plain (w ++ u) = true) by now rewrite forallb_app, P.
  assert (X : py_float (w ++ u) = Err ValueError).
  { unfold py_float. assert (St : strip (w ++ u) = w ++ u).
    { assert (Y := strip_inside [] (w ++ u) [] eq_refl eq_refl (plain_not_space _ Pl)). cbn [app] in Y. rewrite app_nil_r in Y. apply Y. destruct w; [congruence|discriminate]. }
    rewrite St. destruct (numeral_scan w v u W F) as (q & S & _). unfold text in *. rewrite S. destruct u as [|c u]; [|reflexivity]. apply mem_in in U. discriminate U. }
  unfold text_geometry in T. cbv zeta in T. rewrite E in T.
  assert (Y : listed py_float (Some (w ++ u)) = Err ValueError). { unfold listed. rewrite (split_one _ Pl). cbn [map_result]. now rewrite X. }
  rewrite Y in T. revert T. repeat match goal with |- context [bind (listed ?a ?b)] => destruct (listed a b) eqn:?; cbn [bind] end; try discriminate.
Qed.
