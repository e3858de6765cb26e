(** C18: path data of the basic shapes. *)
From Verif Require Import PyBase PyText RectModel RectSpec MatrixModel MatrixSpec MatrixProofs2 PathModel PathSpec PathBBoxModel ShapeModel ShapeSpec ShapeProofs.
Local Open Scope Q_scope.

(** Ellipses and circles: drawn exactly when both radii are positive, *)
Theorem c18_ellipse : forall o cx cy rx ry,
  (0 < rx -> 0 < ry -> drawing o (ellipse_path cx cy rx ry) = ellipse_outline cx cy rx ry) /\
  (ellipse_path cx cy rx ry = [] <-> rx <= 0 \/ ry <= 0).
Proof. intros. split; [apply ellipse_draws|apply ellipse_empty]. Qed.
Print Assumptions c18_ellipse.
Theorem c18_circle : forall o cx cy r,
  (0 < r -> drawing o (circle_path cx cy r) = ellipse_outline cx cy r r) /\
  (circle_path cx cy r = [] <-> r <= 0).
Proof.
  intros. rewrite circle_is_ellipse. split; [intros; now apply ellipse_draws|].
  rewrite ellipse_empty. tauto.
Qed.
Print Assumptions c18_circle.
(** and svgpy's own arc code finds the centre of the ellipse for each arc. *)
Theorem c18_ellipse_centre : forall o at2 cx cy rx ry, oracle_basic o -> tol < rx -> tol < ry ->
  Forall (centred o at2 (P cx cy)) (drawing o (ellipse_path cx cy rx ry)).
Proof.
  intros o at2 cx cy rx ry O X Y. assert (T : 0 < tol) by reflexivity.
  rewrite ellipse_draws by lra. now apply ellipse_centred.
Qed.
Print Assumptions c18_ellipse_centre.
Example c18_ellipse_ex : drawing quarter_oracle (circle_path 1 2 3) =
  [Move (P 4 2); Arc (P 4 2) 3 3 0 0 1 (P 1 5); Arc (P 1 5) 3 3 0 0 1 (P (-2) 2);
   Arc (P (-2) 2) 3 3 0 0 1 (P 1 (-1)); Arc (P 1 (-1)) 3 3 0 0 1 (P 4 2); Close (P 4 2) (P 4 2)] /\
  isclose 4 1 && isclose 2 5 = false /\ oracle_basic quarter_oracle.
Proof. split; [reflexivity|]. split; [reflexivity|exact quarter_basic]. Qed.

(** 'auto' radii of an ellipse. *)
Theorem c18_ellipse_radii : forall h v h' v',
  ellipse_radii (Some (h, v)) (Some (h', v')) = (h, v') /\
  ellipse_radii (Some (h, v)) None = (h, v) /\ ellipse_radii None (Some (h, v)) = (h, v) /\
  ellipse_radii None None = (0, 0).
Proof. intros. repeat split. Qed.
Print Assumptions c18_ellipse_radii.

(** Rectangles: drawn exactly when both sizes are positive, *)
Theorem c18_rect : forall o x y w h rx ry,
  (0 < w -> 0 < h -> rx <= 0 \/ ry <= 0 ->
     strokes_eq (drawing o (rect_path x y w h rx ry)) (rect_outline x y w h)) /\
  (0 < w -> 0 < h -> 0 < rx -> 0 < ry ->
     strokes_eq (drawing o (rect_path x y w h rx ry)) (round_outline x y w h rx ry)) /\
  (rect_path x y w h rx ry = [] <-> w <= 0 \/ h <= 0).
Proof. intros. split; [apply rect_draws|]. split; [apply round_draws|apply rect_empty]. Qed.
Print Assumptions c18_rect.
(** the corner arcs are centred inside the corners, *)
Theorem c18_rect_corners : forall o at2 x y w h rx ry, oracle_basic o -> 0 < w -> 0 < h ->
  tol < rx -> tol < ry ->
  Forall2 (centred o at2) (corner_centres x y w h rx ry) (drawing o (rect_path x y w h rx ry)).
Proof. exact round_centred. Qed.
Print Assumptions c18_rect_corners.
(** the radii are at most half the sides, are the given ones where those
    fit, and an 'auto' radius is the other one before clamping, *)
Theorem c18_rect_radii : forall w h rx ry, 0 <= w -> 0 <= h ->
  let '(a, b) := rect_radii w h rx ry in
  a <= w / 2 /\ b <= h / 2 /\
  match rx, ry with
  | Some (x, _), Some (_, y) => (x <= w / 2 -> a = x) /\ (y <= h / 2 -> b = y)
  | Some (x, _), None => (x <= w / 2 -> a = x) /\ (x <= h / 2 -> b = x)
  | None, Some (_, y) => (y <= w / 2 -> a = y) /\ (y <= h / 2 -> b = y)
  | None, None => a = 0 /\ b = 0
  end.
Proof.
  intros w h rx ry W H. assert (W' : 0 <= w / 2) by (apply Qle_shift_div_l; lra).
  assert (H' : 0 <= h / 2) by (apply Qle_shift_div_l; lra).
  unfold rect_radii. destruct rx as [[x1 x2]|], ry as [[y1 y2]|]; cbv beta iota zeta;
  repeat match goal with |- context [?a <?q ?b] => destruct (Qltb_spec a b) end;
  repeat match goal with |- _ /\ _ => split end; intros;
  first [assumption|reflexivity|apply Qle_refl|apply Qnot_lt_le; assumption|match goal with A : ?x < ?y, B : ?y <= ?x |- _ => exfalso; exact (Qlt_not_le _ _ A B) end].
Qed.
Print Assumptions c18_rect_radii.
(** and the bounding box of a rect with square corners is that rect. *)
Theorem c18_rect_box : forall o at2 x y w h rx ry, oracle_basic o -> 0 < w -> 0 < h -> rx <= 0 \/ ry <= 0 ->
  exists out b, normalize o at2 (rect_path x y w h rx ry) = Ok out /\ path_bbox o at2 out = Ok b /\
    same_region b (rect4 x y w h).
Proof. exact rect_box. Qed.
Print Assumptions c18_rect_box.
Example c18_rect_ex :
  rect_radii 10 4 (Some (3, 5)) None = (3, 4 / 2) /\
  drawing quarter_oracle (rect_path 1 1 10 4 3 2) =
  [Move (P 4 1); Line (P 4 1) (P 8 1); Arc (P 8 1) 3 2 0 0 1 (P 11 3); Line (P 11 3) (P 11 3);
   Arc (P 11 3) 3 2 0 0 1 (P 8 5); Line (P 8 5) (P 4 5); Arc (P 4 5) 3 2 0 0 1 (P 1 3); Line (P 1 3) (P 1 3);
   Arc (P 1 3) 3 2 0 0 1 (P 4 1); Close (P 4 1) (P 4 1)].
Proof. split; reflexivity. Qed.

(** Lines: nothing is drawn exactly when both ends agree to 1e-9. *)
Theorem c18_line : forall o x1 y1 x2 y2,
  let far := tol < Qabs.Qabs (x2 - x1) \/ tol < Qabs.Qabs (y2 - y1) in
  (far -> drawing o (line_path x1 y1 x2 y2) = [Move (P x1 y1); Line (P x1 y1) (P x2 y2)]) /\
  (line_path x1 y1 x2 y2 = [] <-> ~ far).
Proof.
  intros o x1 y1 x2 y2 far. unfold line_path.
  destruct (isclose (x2 - x1) 0) eqn:E1; [destruct (isclose (y2 - y1) 0) eqn:E2|]; cbn [andb].
  - apply isclose_0 in E1. apply isclose_0 in E2. unfold far. split; [intros [?|?]; lra|].
    split; [intros _ [?|?]; lra|reflexivity].
  - split; [reflexivity|]. split; [discriminate|]. intros N. exfalso. apply N. right.
    apply Qnot_le_lt. intros K. apply isclose_0 in K. congruence.
  - split; [reflexivity|]. split; [discriminate|]. intros N. exfalso. apply N. left.
    apply Qnot_le_lt. intros K. apply isclose_0 in K. congruence.
Qed.
Print Assumptions c18_line.

(** Polylines and polygons. *)
Theorem c18_polyline : forall o p l, drawing o (polyline_path (p :: l)) = Move p :: legs p l.
Proof. exact polyline_draws. Qed.
Print Assumptions c18_polyline.
Theorem c18_polygon : forall o p q l, drawing o (polygon_path (p :: q :: l)) =
  Move p :: legs p (q :: l) ++ [Close (last (q :: l) p) p].
Proof. exact polygon_draws. Qed.
Print Assumptions c18_polygon.
Theorem c18_poly_empty : forall l, (polyline_path l = [] <-> l = []) /\ (polygon_path l = [] <-> l = []).
Proof. intros [|p l]; split; split; try reflexivity; discriminate. Qed.
Print Assumptions c18_poly_empty.
Example c18_polygon_ex : drawing quarter_oracle (polygon_path [P 0 0; P 1 0; P 1 1]) =
  [Move (P 0 0); Line (P 0 0) (P 1 0); Line (P 1 0) (P 1 1); Close (P 1 1) (P 0 0)].
Proof. reflexivity. Qed.

(** The points attribute reads back what was assigned, to six decimals. *)
Theorem c18_points : forall l, Forall2 near6_pair l (get_points (set_points l)).
Proof. exact points_roundtrip. Qed.
Print Assumptions c18_points.
Example c18_points_ex : set_points [(1, 2); (-(1#2), 3)] = lit "1,2 -0.5,3" /\
  get_points (lit " 1,2 3-4 ") = [(1, 2); (3, -(4))] /\ get_points (lit "1,2 3") = [].
Proof. repeat split; vm_compute; reflexivity. Qed.
