(** C75: the computed geometry of elements, and the shapes drawn from their attributes. *)
From Coq Require Import Qabs.
From Verif Require Import PyBase PyText PySplit PyDict FormatSpec LengthModel LengthSpec ViewModel ViewSpec ViewProofs MatrixModel MatrixSpec MatrixProofs2 PathModel PathSpec ShapeModel ShapeSpec ShapeProofs ShapeProps
  GeomModel GeomSpec GeomProofs GeomProofs2.
#[local] Open Scope Q_scope.

(** The surroundings of the examples: a viewport of 200 x 100 whose diagonal
    counts 150, a font of 20 in a document of 10. *)
Definition around : lctx := mkC 10 20 200 100 150 None (fun _ _ => 0).
Definition element (name : string) (attrs : list (string * string)) : gnode :=
  mkG (lit name) (map (fun p => (lit (fst p), lit (snd p))) attrs) around (Err OtherError).
Local Ltac stand a w u b n := exists (lit a), (lit (w ++ u)), (lit b); split; [reflexivity|]; split; [reflexivity|]; split; [reflexivity|];
  exists (lit w), n; eexists; eexists; split; [reflexivity|]; split; [reflexivity|]; split; [cbn; tauto|]; split; [constructor; reflexivity|reflexivity].

(** ** The shapes *)

(** A circle: cx is read along the width, cy along the height, r along the diagonal; a missing one is 0. *)
Theorem c75_circle n l cx cy r : g_name n = lit "circle" ->
  gives n (lit "cx") Horizontal cx -> gives n (lit "cy") Vertical cy -> gives n (lit "r") Unspecified r ->
  exists g, computed_geometry n l = Ok g /\ holds g [("cx", cx); ("cy", cy); ("r", r)]%string.
Proof. apply circle_holds. Qed.
Print Assumptions c75_circle.
Example c75_circle_ex : let n := element "circle" [("cx", " 10% "); ("r", "10%")]%string in
  gives n (lit "cx") Horizontal 20 /\ gives n (lit "cy") Vertical 0 /\ gives n (lit "r") Unspecified 15 /\
  exists g, computed_geometry n [] = Ok g /\ holds g [("cx", 20); ("cy", 0); ("r", 15)]%string.
Proof.
  intros n. assert (A : gives n (lit "cx") Horizontal 20) by stand " "%string "10"%string "%"%string " "%string (Some (lit "%")).
  assert (B : gives n (lit "cy") Vertical 0) by reflexivity. assert (C : gives n (lit "r") Unspecified 15) by stand ""%string "10"%string "%"%string ""%string (Some (lit "%")).
  split; [exact A|]. split; [exact B|]. split; [exact C|]. now apply c75_circle.
Qed.
(** An ellipse: an automatic radius is the text of the other one, read in its own direction. *)
Theorem c75_ellipse n l cx cy rx ry : g_name n = lit "ellipse" ->
  gives n (lit "cx") Horizontal cx -> gives n (lit "cy") Vertical cy -> ellipse_radii_are n rx ry ->
  exists g, computed_geometry n l = Ok g /\ holds g [("rx", rx); ("ry", ry); ("cx", cx); ("cy", cy)]%string.
Proof. apply ellipse_holds. Qed.
Print Assumptions c75_ellipse.
Example c75_ellipse_ex : let n := element "ellipse" [("rx", "auto"); ("ry", "2em"); ("cy", "1in")]%string in
  ellipse_radii_are n 40 40 /\ exists g, computed_geometry n [] = Ok g /\ holds g [("rx", 40); ("ry", 40); ("cx", 0); ("cy", 96)]%string.
Proof.
  intros n. assert (R : ellipse_radii_are n 40 40) by (split; stand ""%string "2"%string "em"%string ""%string (Some (lit "em"))). split; [exact R|].
  apply c75_ellipse; [reflexivity|reflexivity| |exact R]. stand ""%string "1"%string "in"%string ""%string (Some (lit "in")).
Qed.
(** A line *)
Theorem c75_line n l x1 y1 x2 y2 : g_name n = lit "line" -> gives n (lit "x1") Horizontal x1 -> gives n (lit "y1") Vertical y1 ->
  gives n (lit "x2") Horizontal x2 -> gives n (lit "y2") Vertical y2 ->
  exists g, computed_geometry n l = Ok g /\ holds g [("x1", x1); ("y1", y1); ("x2", x2); ("y2", y2)]%string.
Proof. apply line_holds. Qed.
Print Assumptions c75_line.
Example c75_line_ex : let n := element "line" [("x2", "-3.5rem"); ("y1", "50%")]%string in
  exists g, computed_geometry n [] = Ok g /\ holds g [("x1", 0); ("y1", 50); ("x2", -(35)); ("y2", 0)]%string.
Proof.
  intros n. apply c75_line; try reflexivity; [stand ""%string "50"%string "%"%string ""%string (Some (lit "%"))|stand ""%string "-3.5"%string "rem"%string ""%string (Some (lit "rem"))].
Qed.
(** A rectangle: 'inherit' asks the parent for a width or height, automatic is
    nothing (all for 'svg'); an automatic radius is the length of the other one;
    radii are no more than half the sides. *)
Theorem c75_rect n l x y w h rx ry : g_name n = lit "rect" -> gives n (lit "x") Horizontal x -> gives n (lit "y") Vertical y ->
  spans (lit "width") Horizontal (n :: l) w -> spans (lit "height") Vertical (n :: l) h -> rect_radii_are n w h rx ry ->
  exists g, computed_geometry n l = Ok g /\ holds g [("width", w); ("height", h); ("rx", rx); ("ry", ry); ("x", x); ("y", y)]%string.
Proof. apply rect_holds. Qed.
Print Assumptions c75_rect.
Example c75_rect_ex : let n := element "rect" [("width", "inherit"); ("height", "10px"); ("rx", "30%")]%string in
  let l := [element "g" [("width", "inherit")]%string; element "svg" [("width", "auto")]%string] in
  exists g, computed_geometry n l = Ok g /\ holds g [("width", 200); ("height", 10); ("rx", 60); ("ry", 5); ("x", 0); ("y", 0)]%string.
Proof.
  intros n l. apply c75_rect; try reflexivity.
  - apply sp_inherit; [reflexivity|]. apply sp_inherit; [reflexivity|]. apply sp_svg; [now right|reflexivity|]. stand ""%string "100"%string "%"%string ""%string (Some (lit "%")).
  - eapply sp_length; [reflexivity|]. stand ""%string "10"%string "px"%string ""%string (Some (lit "px")).
  - exists 60. split; [stand ""%string "30"%string "%"%string ""%string (Some (lit "%"))|]. split; reflexivity.
Qed.
(** A use element *)
Theorem c75_use n l x y w h : g_name n = lit "use" -> gives n (lit "x") Horizontal x -> gives n (lit "y") Vertical y ->
  spans (lit "width") Horizontal (n :: l) w -> spans (lit "height") Vertical (n :: l) h ->
  exists g, computed_geometry n l = Ok g /\ holds g [("x", x); ("y", y); ("width", w); ("height", h)]%string.
Proof. apply use_holds. Qed.
Print Assumptions c75_use.
Example c75_use_ex : let n := element "use" [("y", "1px"); ("height", "inherit")]%string in
  exists g, computed_geometry n [element "g" []] = Ok g /\ holds g [("x", 0); ("y", 1); ("width", 0); ("height", 0)]%string.
Proof.
  intros n. apply c75_use; try reflexivity; [stand ""%string "1"%string "px"%string ""%string (Some (lit "px"))| |].
  - apply sp_auto; [now left|discriminate|discriminate|reflexivity].
  - apply sp_inherit; [reflexivity|]. apply sp_auto; [now left|discriminate|discriminate|reflexivity].
Qed.
(** A path: its text, unless that is empty or 'none' *)
Theorem c75_path n l : g_name n = lit "path" -> computed_geometry n l =
  Ok [(lit "d", match dget (g_attr n) (lit "d") with
                | None => GNone
                | Some t => if text_eqb t (lit "none") || text_eqb t [] then GNone else GText t
                end)].
Proof. apply path_geometry_is. Qed.
Print Assumptions c75_path.
Example c75_path_ex : computed_geometry (element "path" [("d", "M0,0")]%string) [] = Ok [(lit "d", GText (lit "M0,0"))] /\
  computed_geometry (element "path" [("d", "none")]%string) [] = Ok [(lit "d", GNone)].
Proof. split; reflexivity. Qed.

(** An svg element: its viewport in pixels *)
Theorem c75_svg n l x y w h f : g_name n = lit "svg" -> g_view n = Ok (x, y, w, h) -> viewport_is x y w h f ->
  exists g, computed_geometry n l = Ok g /\ holds g [("x", fx f); ("y", fy f); ("width", fw f); ("height", fh f)]%string.
Proof. intros N. named N. apply view_holds. Qed.
Print Assumptions c75_svg.
Definition inches (q : Q) : slength := mkL q (Some (lit "in")) no_context no_context None.
Lemma example_view : viewport_is (inches 0) (inches (1 # 2)) (inches 4) (inches 1) (ViewSpec.mkF 0 48 384 96).
Proof. split; [reflexivity|]. split; [now right|]. split; [now right|]. repeat split; eexists; (split; [constructor|reflexivity]). Qed.
Example c75_svg_ex : exists g, computed_geometry (mkG (lit "svg") [] around (Ok (inches 0, inches (1 # 2), inches 4, inches 1))) [] = Ok g /\
  holds g [("x", 0); ("y", 48); ("width", 384); ("height", 96)]%string.
Proof. exact (c75_svg (mkG (lit "svg") [] around (Ok (inches 0, inches (1 # 2), inches 4, inches 1))) [] _ _ _ _ _ eq_refl eq_refl example_view). Qed.
(** A symbol: the same, and its reference point *)
Theorem c75_symbol n l x y w h f rx ry : g_name n = lit "symbol" -> g_view n = Ok (x, y, w, h) -> viewport_is x y w h f ->
  refers n (lit "refX") [lit "left"; lit "center"; lit "right"] Horizontal rx -> refers n (lit "refY") [lit "top"; lit "center"; lit "bottom"] Vertical ry ->
  exists g a b, computed_geometry n l = Ok (g ++ [(lit "refX", a); (lit "refY", b)]) /\
    holds g [("x", fx f); ("y", fy f); ("width", fw f); ("height", fh f)]%string /\ same_val a rx /\ same_val b ry.
Proof. intros N. named N. apply symbol_holds. Qed.
Print Assumptions c75_symbol.
Example c75_symbol_ex : let n := mkG (lit "symbol") [(lit "refX", lit "center"); (lit "refY", lit "30%")] around (Ok (inches 0, inches (1 # 2), inches 4, inches 1)) in
  exists g a b, computed_geometry n [] = Ok (g ++ [(lit "refX", a); (lit "refY", b)]) /\
    holds g [("x", 0); ("y", 48); ("width", 384); ("height", 96)]%string /\ same_val a (RWord (lit "center")) /\ same_val b (RLength 30).
Proof.
  intros n. apply (c75_symbol n [] _ _ _ _ _ _ _ eq_refl eq_refl example_view); [left; split; [cbn; tauto|reflexivity]|]. right. split; [cbn; intuition discriminate|].
  exists 30. split; [|reflexivity]. stand ""%string "30"%string "%"%string ""%string (Some (lit "%")).
Qed.

(** ** Text *)

(** Each position list is its words, in order, read in its direction; x and y of 'text' start at 0. *)
Theorem c75_text n l x y dx dy ro : In (g_name n) [lit "text"; lit "tspan"; lit "textPath"] ->
  let start key := match dget (g_attr n) key with Some t => Some t | None => if text_eqb (g_name n) (lit "text") then Some (lit "0") else None end in
  rows (word (g_ctx n) Horizontal) (start (lit "x")) x -> rows (word (g_ctx n) Vertical) (start (lit "y")) y ->
  rows (word (g_ctx n) Horizontal) (dget (g_attr n) (lit "dx")) dx -> rows (word (g_ctx n) Vertical) (dget (g_attr n) (lit "dy")) dy ->
  rows number (dget (g_attr n) (lit "rotate")) ro ->
  exists a b c d e, computed_geometry n l = Ok [(lit "x", a); (lit "y", b); (lit "dx", c); (lit "dy", d); (lit "rotate", e)] /\
    same_list a x /\ same_list b y /\ same_list c dx /\ same_list d dy /\ same_list e ro.
Proof. apply text_holds. Qed.
Print Assumptions c75_text.
Example c75_text_ex : let n := element "text" [("dx", "1 , 10%"); ("rotate", "-30 4.5")]%string in
  rows (word (g_ctx n) Horizontal) (dget (g_attr n) (lit "dx")) (Some [1; 20]) /\ rows number (dget (g_attr n) (lit "rotate")) (Some [-(30); 9 # 2]) /\
  rows (word (g_ctx n) Horizontal) (Some (lit "0")) (Some [0]) /\
  computed_geometry n [] = Ok [(lit "x", GList [0]); (lit "y", GList [0]); (lit "dx", GList [1; 2000 # 100]); (lit "dy", GNone); (lit "rotate", GList [-(30); 45 # 10])] /\
  computed_geometry (element "tspan" []) [] = Ok [(lit "x", GNone); (lit "y", GNone); (lit "dx", GNone); (lit "dy", GNone); (lit "rotate", GNone)].
Proof.
  intros n. repeat split.
  - apply (row_more _ (lit "1") 1 (lit " , ") (lit "10%") [20]).
    + exists (lit "1"), None, 1, 1. split; [reflexivity|]. split; [reflexivity|]. split; [exact Logic.I|]. split; [apply s_none|reflexivity].
    + exists (lit " "), (lit " "). repeat split. now left.
    + apply row_one. exists (lit "10"), (Some (lit "%")). do 2 eexists. split; [reflexivity|]. split; [reflexivity|]. split; [cbn; tauto|]. split; [constructor; reflexivity|reflexivity].
  - apply (row_more _ (lit "-30") (-(30)) (lit " ") (lit "4.5") [9 # 2]).
    + eexists. split; reflexivity.
    + exists (lit " "), []. repeat split. right. split; [reflexivity|discriminate].
    + apply row_one. eexists. split; reflexivity.
  - apply row_one. exists (lit "0"), None, 0, 1. split; [reflexivity|]. split; [reflexivity|]. split; [exact Logic.I|]. split; [apply s_none|reflexivity].
Qed.

(** ** Every element *)

(** The geometry always has the keys that go with the element, in the same order. *)
Theorem c75_keys n l g : computed_geometry n l = Ok g -> map fst g = map lit (geometry_keys (g_name n)).
Proof. apply keys_are. Qed.
Print Assumptions c75_keys.
Example c75_keys_ex : geometry_keys (lit "rect") = ["width"; "height"; "rx"; "ry"; "x"; "y"]%string /\
  exists g, computed_geometry (element "rect" []) [] = Ok g /\ length g = 6%nat /\ geometry_keys (lit "g") = [] /\ computed_geometry (element "g" []) [] = Ok [].
Proof. split; [reflexivity|]. eexists. split; [reflexivity|]. repeat split. Qed.
(** No attribute but those of its geometry changes it. *)
Theorem c75_other_attributes m n l : alike (geometry_keys (g_name n)) m n -> computed_geometry m l = computed_geometry n l.
Proof. apply geometry_alike. Qed.
Print Assumptions c75_other_attributes.
Example c75_other_attributes_ex : alike (geometry_keys (lit "circle")) (element "circle" [("x", "oops"); ("r", "1")]%string) (element "circle" [("r", "1"); ("width", "5")]%string).
Proof. repeat split. intros k [<- |[<- |[<- |[]]]]; reflexivity. Qed.
(** What goes wrong is a ValueError, or an ancestor image whose size is asked. *)
Theorem c75_errors n l e : g_name n <> lit "svg" -> g_name n <> lit "symbol" -> computed_geometry n l = Err e ->
  e = ValueError \/ e = NotImplementedError_ /\ exists m, In m l /\ g_name m = lit "image".
Proof. apply geometry_error. Qed.
Print Assumptions c75_errors.
Example c75_errors_ex : computed_geometry (element "rect" [("width", "inherit")]%string) [element "image" []] = Err NotImplementedError_ /\
  computed_geometry (element "circle" [("r", "1dpi")]%string) [] = Err ValueError.
Proof. split; reflexivity. Qed.
(** A word where a length is wanted is never passed over in silence, but for
    the keywords auto (radii and sizes) and inherit (sizes). *)
Theorem c75_refused n l k t : In (g_name n) measured -> In k (geometry_keys (g_name n)) ->
  dget (g_attr n) (lit k) = Some t -> wordy t -> ~ In t (keywords k) -> exists e, computed_geometry n l = Err e.
Proof. apply refused. Qed.
Print Assumptions c75_refused.
Example c75_refused_ex : wordy (lit " thick") /\ ~ In (lit " thick") (keywords "ry") /\
  computed_geometry (element "ellipse" [("rx", "auto"); ("ry", " thick")]%string) [] = Err ValueError.
Proof. split; [exists (lit " "), 116%N, (lit "hick"); repeat split; cbn; intuition discriminate|]. split; [cbn; intuition discriminate|reflexivity]. Qed.

(** Rotations are bare numbers: one with a unit is refused. *)
Theorem c75_rotate_unit n l w u v : In (g_name n) [lit "text"; lit "tspan"; lit "textPath"] -> dget (g_attr n) (lit "rotate") = Some (w ++ u) -> numeral w = Some v -> In u supported ->
  exists e, computed_geometry n l = Err e.
Proof. apply rotate_unit. Qed.
Print Assumptions c75_rotate_unit.
Example c75_rotate_unit_ex : computed_geometry (element "text" [("rotate", "30px")]%string) [] = Err ValueError /\ In (lit "px") supported.
Proof. split; [reflexivity|]. apply mem_in. reflexivity. Qed.

(** ** What is drawn *)

Local Ltac pts := cbv zeta; repeat (apply Forall2_cons; [unfold quarter_arc, east, south, west, north; cbn [stroke_eq]; unfold peq; cbn [ptx pty]; repeat split; first [reflexivity|lra]|]); apply Forall2_nil.
Lemma ellipse_outline_eq a b c d a' b' c' d' : a == a' -> b == b' -> c == c' -> d == d' -> strokes_eq (ellipse_outline a b c d) (ellipse_outline a' b' c' d').
Proof. intros. unfold strokes_eq, ellipse_outline. pts. Qed.
(** A circle is drawn around its centre when its radius is positive, else nothing is. *)
Theorem c75_draw_circle o n l cx cy r : g_name n = lit "circle" ->
  gives n (lit "cx") Horizontal cx -> gives n (lit "cy") Vertical cy -> gives n (lit "r") Unspecified r ->
  exists p, element_path n l = Ok p /\ (0 < r -> strokes_eq (drawing o p) (ellipse_outline cx cy r r)) /\ (p = [] <-> r <= 0).
Proof.
  intros N A B C. destruct (circle_path_is n l cx cy r N A B C) as (a & b & c & E & EA & EB & EC). exists (circle_path a b c). split; [exact E|].
  rewrite circle_is_ellipse. split.
  - intros P. rewrite ellipse_draws by lra. now apply ellipse_outline_eq.
  - rewrite ellipse_empty. rewrite EC. tauto.
Qed.
Print Assumptions c75_draw_circle.
Example c75_draw_circle_ex : element_path (element "circle" [("r", "3"); ("cx", "50%")]%string) [] = Ok (circle_path (10000 # 100) 0 3). Proof. reflexivity. Qed.
(** So is an ellipse. *)
Theorem c75_draw_ellipse o n l cx cy rx ry : g_name n = lit "ellipse" ->
  gives n (lit "cx") Horizontal cx -> gives n (lit "cy") Vertical cy -> ellipse_radii_are n rx ry ->
  exists p, element_path n l = Ok p /\ (0 < rx -> 0 < ry -> strokes_eq (drawing o p) (ellipse_outline cx cy rx ry)) /\ (p = [] <-> rx <= 0 \/ ry <= 0).
Proof.
  intros N A B C. destruct (ellipse_path_is n l cx cy rx ry N A B C) as (a & b & c & d & E & EA & EB & EC & ED). exists (ellipse_path a b c d). split; [exact E|]. split.
  - intros P Q. rewrite ellipse_draws by lra. now apply ellipse_outline_eq.
  - rewrite ellipse_empty, EC, ED. tauto.
Qed.
Print Assumptions c75_draw_ellipse.
Example c75_draw_ellipse_ex : element_path (element "ellipse" [("rx", "3"); ("ry", "auto")]%string) [] = Ok (ellipse_path 0 0 3 3). Proof. reflexivity. Qed.
(** A rectangle goes once around its four corners, round when both radii are positive. *)
Theorem c75_draw_rect o n l x y w h rx ry : g_name n = lit "rect" -> gives n (lit "x") Horizontal x -> gives n (lit "y") Vertical y ->
  spans (lit "width") Horizontal (n :: l) w -> spans (lit "height") Vertical (n :: l) h -> rect_radii_are n w h rx ry ->
  exists p, element_path n l = Ok p /\
    (0 < w -> 0 < h -> rx <= 0 \/ ry <= 0 -> strokes_eq (drawing o p) (rect_outline x y w h)) /\
    (0 < w -> 0 < h -> 0 < rx -> 0 < ry -> strokes_eq (drawing o p) (round_outline x y w h rx ry)) /\ (p = [] <-> w <= 0 \/ h <= 0).
Proof.
  intros N A B C D R. destruct (rect_path_is n l x y w h rx ry N A B C D R) as (a & b & c & d & e & f & E & EA & EB & EC & ED & EE & EF).
  exists (rect_path a b c d e f). split; [exact E|].
  assert (T : forall u v z, strokes_eq u v -> strokes_eq v z -> strokes_eq u z).
  { clear. unfold strokes_eq. intros u v z U. revert z. induction U as [|p q u v PQ U IH]; intros z V; [exact V|]. inversion V as [|q' r v' z' QR V']; subst. constructor; [|auto].
    clear - PQ QR. destruct p, q; cbn in PQ; try contradiction; destruct r; cbn in QR; try contradiction; cbn; unfold peq in *; intuition (etransitivity; eassumption). }
  split; [|split].
  - intros W H S. eapply T; [apply rect_draws; lra|]. unfold strokes_eq, rect_outline. pts.
  - intros W H X Y. eapply T; [apply round_draws; lra|]. unfold strokes_eq, round_outline. pts.
  - rewrite rect_empty, EC, ED. tauto.
Qed.
Print Assumptions c75_draw_rect.
Example c75_draw_rect_ex : element_path (element "rect" [("width", "30"); ("height", "20"); ("ry", "40")]%string) [] = Ok (rect_path 0 0 30 20 (30 / 2) (20 / 2)). Proof. reflexivity. Qed.
(** A line is drawn unless its ends are the same. *)
Theorem c75_draw_line o n l x1 y1 x2 y2 : g_name n = lit "line" -> gives n (lit "x1") Horizontal x1 -> gives n (lit "y1") Vertical y1 ->
  gives n (lit "x2") Horizontal x2 -> gives n (lit "y2") Vertical y2 ->
  exists p, element_path n l = Ok p /\
    (tol < Qabs (x2 - x1) \/ tol < Qabs (y2 - y1) -> strokes_eq (drawing o p) [Move (P x1 y1); Line (P x1 y1) (P x2 y2)]) /\
    (x1 == x2 -> y1 == y2 -> p = []).
Proof.
  intros N A B C D. destruct (line_path_is n l x1 y1 x2 y2 N A B C D) as (a & b & c & d & E & EA & EB & EC & ED). exists (line_path a b c d). split; [exact E|].
  assert (X : c - a == x2 - x1) by (rewrite EA, EC; reflexivity). assert (Y : d - b == y2 - y1) by (rewrite EB, ED; reflexivity). split.
  - intros F. rewrite (proj1 (c18_line o a b c d)) by (rewrite X, Y; exact F). unfold strokes_eq. pts.
  - intros P Q. apply (proj2 (c18_line o a b c d)). intros [F|F]; revert F; apply Qle_not_lt; [setoid_replace (c - a) with 0 by (rewrite X, P; ring)|setoid_replace (d - b) with 0 by (rewrite Y, Q; ring)]; discriminate.
Qed.
Print Assumptions c75_draw_line.
Example c75_draw_line_ex : element_path (element "line" [("x2", "3")]%string) [] = Ok (line_path 0 0 3 0). Proof. reflexivity. Qed.
(** Polygons and polylines whose points were written by the setter draw those
    points, to six decimals; without points they draw nothing. *)
Theorem c75_draw_poly n l pts : In (g_name n) [lit "polygon"; lit "polyline"] ->
  dget (g_attr n) (lit "points") = Some (set_points pts) ->
  exists qs, Forall2 near6_pair pts qs /\ let p := map (fun q => P (fst q) (snd q)) qs in
    element_path n l = Ok (if text_eqb (g_name n) (lit "polygon") then polygon_path p else polyline_path p).
Proof. intros N E. exists (get_points (set_points pts)). split; [apply points_roundtrip|]. cbn zeta. rewrite poly_path_is by exact N. now rewrite E. Qed.
Print Assumptions c75_draw_poly.
Theorem c75_draw_no_points n l : In (g_name n) [lit "polygon"; lit "polyline"] -> dget (g_attr n) (lit "points") = None -> element_path n l = Ok [].
Proof. intros N E. rewrite poly_path_is by exact N. rewrite E. now destruct (text_eqb (g_name n) (lit "polygon")). Qed.
Print Assumptions c75_draw_no_points.
Example c75_draw_poly_ex : set_points [(1, 2); (3, 4); (0, 1 # 2)] = lit "1,2 3,4 0,0.5" /\
  element_path (element "polygon" [("points", "1,2 3,4 0,0.5")]%string) [] = Ok (polygon_path [P 1 2; P 3 4; P 0 (5 # 10)]).
Proof. split; reflexivity. Qed.

(** ** Not so *)
Local Ltac heldc := repeat (apply Forall2_cons; [split; [reflexivity|eexists; split; reflexivity]|]); apply Forall2_nil.

(** False: an automatic radius is as long as the other one (SVG 2, 10.4: "the
    used radius is equal to that of the other"); for an ellipse a percentage is
    read again along the other side. A rectangle has it right. *)
Theorem c75_auto_radius_refuted : exists a b g, dget a (lit "ry") = None /\ computed_geometry (mkG (lit "ellipse") a around (Err OtherError)) [] = Ok g /\
  holds g [("rx", 20); ("ry", 10); ("cx", 0); ("cy", 0)]%string /\
  computed_geometry (mkG (lit "rect") (a ++ [(lit "width", lit "90"); (lit "height", lit "90")]) around (Err OtherError)) [] = Ok b /\
  holds b [("width", 90); ("height", 90); ("rx", 20); ("ry", 20); ("x", 0); ("y", 0)]%string.
Proof.
  exists [(lit "rx", lit "10%")]. eexists. eexists. split; [reflexivity|]. split; [vm_compute; reflexivity|]. split; [heldc|split; [vm_compute; reflexivity|heldc]].
Qed.
Print Assumptions c75_auto_radius_refuted.
(** False: 'inherit' is taken wherever a length is; only the width and height of 'rect' and 'use' know it. *)
Theorem c75_inherit_refuted : computed_geometry (element "circle" [("cx", "inherit")]%string) [element "g" [("cx", "5")]%string] = Err ValueError.
Proof. reflexivity. Qed.
Print Assumptions c75_inherit_refuted.
(** False: white space around a list does not matter, as it does not around a length. *)
Theorem c75_text_space_refuted : computed_geometry (element "text" [("x", " 10 20")]%string) [] = Err ValueError /\
  computed_geometry (element "text" [("x", "10 20 ")]%string) [] = Err ValueError /\
  exists g, computed_geometry (element "use" [("x", " 10 ")]%string) [] = Ok g.
Proof. split; [reflexivity|]. split; [reflexivity|]. eexists. reflexivity. Qed.
Print Assumptions c75_text_space_refuted.
(** False: an empty list of positions is like none. *)
Theorem c75_text_empty_refuted : computed_geometry (element "tspan" [("dx", "")]%string) [] = Err ValueError. Proof. reflexivity. Qed.
Print Assumptions c75_text_empty_refuted.
(** False: what follows a length is an error; only the first word of the text counts. *)
Theorem c75_garbage_refuted : exists g, computed_geometry (element "circle" [("r", "7 of hearts")]%string) [] = Ok g /\ holds g [("cx", 0); ("cy", 0); ("r", 7)]%string.
Proof. eexists. split; [vm_compute; reflexivity|]. heldc. Qed.
Print Assumptions c75_garbage_refuted.
