(** Specification vocabulary for transforms: the plane map each transform
    function denotes (SVG), and equality of transforms up to equality of
    numbers. *)
From Verif Require Import PyBase PyText MatrixModel MatrixSpec TransformModel.
Local Open Scope Q_scope.

Definition g_transform (o : oracle) (t : transform) (p : vec4) : vec4 :=
  match t with
  | TUnknown => p
  | TMatrix a b c d e f =>
      V4 (a * v1 p + c * v2 p + e * v4 p) (b * v1 p + d * v2 p + f * v4 p) (v3 p) (v4 p)
  | TTranslate tx ty => g_translate tx ty 0 p
  | TScale sx sy => g_scale sx sy 1 0 0 0 p
  | TRotate a cx cy =>
      g_translate cx cy 0 (g_rot2 (ocos o a) (osin o a) (g_translate (- cx) (- cy) 0 p))
  | TSkewX a => g_skew_x (otan o a) p
  | TSkewY a => g_skew_y (otan o a) p
  end.
(** the last transform of a list acts on a point first *)
Definition g_list (o : oracle) (l : list transform) (p : vec4) : vec4 :=
  fold_right (g_transform o) p l.

Definition known (t : transform) : bool := match t with TUnknown => false | _ => true end.

(** same type, same values *)
Definition same (t u : transform) : Prop :=
  type_of t = type_of u /\ Forall2 Qeq (values_of t) (values_of u).
(** [u] is [t] with every value replaced by its image under [f] *)
Definition image (f : Q -> Q) (t u : transform) : Prop :=
  type_of t = type_of u /\ Forall2 Qeq (map f (values_of t)) (values_of u).
(** numbers with at most [p] decimals *)
Definition decimal_places (p : nat) (x : Q) : Prop :=
  exists k : Z, (x == inject_Z k / inject_Z (10 ^ Z.of_nat p))%Q.
(** the oracle is a function of the number, not of its representation *)
Definition oracle_ext (o : oracle) : Prop :=
  forall a b, a == b -> ocos o a == ocos o b /\ osin o a == osin o b /\ otan o a == otan o b.
