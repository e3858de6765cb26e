(** Words for the claims about view boxes and viewports. *)
From Verif Require Import PyBase PyText PySplit MatrixModel CssUnitModel LengthModel ViewModel.
#[local] Open Scope Q_scope.

(** Units that are worth the same number of pixels everywhere. *)
Inductive absolute : option text -> Q -> Prop :=
  | ab_none : absolute None 1
  | ab_px : absolute (Some (lit "px")) 1
  | ab_in : absolute (Some (lit "in")) 96
  | ab_cm : absolute (Some (lit "cm")) (96 / d254)
  | ab_mm : absolute (Some (lit "mm")) (96 / d25_4)
  | ab_q : absolute (Some (lit "q")) (96 / d254 / 40)
  | ab_pt : absolute (Some (lit "pt")) (96 / 72)
  | ab_pc : absolute (Some (lit "pc")) (96 / 6).
(** The length [x] is [p] pixels. *)
Definition shows (x : slength) (p : Q) : Prop := exists s, absolute (lunit x) s /\ p == num x * s.
(** A rectangle in pixels *)
Record frame := mkF { fx : Q; fy : Q; fw : Q; fh : Q }.
(** The viewport: width and height in one absolute unit, x and y in that unit or none *)
Definition viewport_is (x y w h : slength) (f : frame) : Prop :=
  lunit h = lunit w /\ (lunit x = None \/ lunit x = lunit w) /\ (lunit y = None \/ lunit y = lunit w) /\
  shows x (fx f) /\ shows y (fy f) /\ shows w (fw f) /\ shows h (fh f).
(** The view box: four numbers *)
Definition box_is (x y w h : slength) (b : frame) : Prop :=
  lunit x = None /\ lunit y = None /\ lunit w = None /\ lunit h = None /\
  num x == fx b /\ num y == fy b /\ num w == fw b /\ num h == fh b.
(** The matrix takes (x, y) to (X, Y). *)
Definition takes (m : dmat) (x y X Y : Q) : Prop :=
  exists X' Y', transform_point m x y 0 1 = [X'; Y'] /\ X' == X /\ Y' == Y.
(** The matrix takes the rectangle [b] onto the rectangle [r]. *)
Definition onto (m : dmat) (b r : frame) : Prop :=
  takes m (fx b) (fy b) (fx r) (fy r) /\ takes m (fx b + fw b) (fy b + fh b) (fx r + fw r) (fy r + fh r).
(** Rectangle inclusion, for positive sizes *)
Definition inside (r f : frame) : Prop :=
  fx f <= fx r /\ fx r + fw r <= fx f + fw f /\ fy f <= fy r /\ fy r + fh r <= fy f + fh f.
(** Alignments 2..10 are the rows xMin xMid xMax of YMin, YMid, YMax: the part
    of the free space that comes before the picture. *)
Definition before_x (a : Z) : Q := inject_Z ((a - 2) mod 3) / 2.
Definition before_y (a : Z) : Q := inject_Z ((a - 2) / 3) / 2.
(** The ratios are told apart by math.isclose (or are equal). *)
Definition told_apart (a b : Q) : Prop := isclose a b = true -> a == b.

(** What a width or height attribute means: all or a percentage of the
    parent's, or so many absolute units. *)
Inductive size_means (t : option text) (parent : Q) : Q -> Prop :=
  | sm_auto : t = None \/ t = Some (lit "auto") \/ t = Some (lit "inherit") -> size_means t parent parent
  | sm_percent w n q : t = Some w -> parse w = Ok (n, Some (lit "%")) -> q == parent * (n / 100) -> size_means t parent q
  | sm_absolute w n u s q : t = Some w -> w <> lit "auto" -> w <> lit "inherit" -> parse w = Ok (n, u) -> absolute u s -> q == n * s -> size_means t parent q.
(** Nested viewports, outermost first *)
Inductive nested : list vroot -> Q -> Q -> Q -> Q -> Prop :=
  | n_nil W H : nested [] W H W H
  | n_cons r l W H W1 H1 W2 H2 : size_means (rwidth r) W W1 -> size_means (rheight r) H H1 -> nested l W1 H1 W2 H2 -> nested (r :: l) W H W2 H2.
