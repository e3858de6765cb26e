(** What a setter is meant to make: the path command with the numbers given. *)
From Coq Require Import QArith.
From Verif Require Import PyBase PyText MatrixModel PathModel PathTextModel BuilderModel.
#[local] Open Scope Q_scope.

Definition num (a : arg) (x : Q) : Prop := as_float a = Ok x.
Definition flag (a : arg) (z : Z) : Prop := as_int a = Ok z.
Inductive builds (r : bool) : setter -> seg -> Prop :=
  | b_bearing a x : num a x -> builds r (Bearing a) (SB r x)
  | b_curve a b c d e f x1 y1 x2 y2 x y : num a x1 -> num b y1 -> num c x2 -> num d y2 -> num e x -> num f y ->
      builds r (Curveto a b c d e f) (SC r (P x1 y1) (P x2 y2) (P x y))
  | b_arc a b c d e f g rx ry rot fa fs x y : num a rx -> num b ry -> num c rot -> flag d fa -> flag e fs -> num f x -> num g y ->
      builds r (Arc a b c d e f g) (SA r rx ry rot (inject_Z fa) (inject_Z fs) (P x y))
  | b_horizontal a x : num a x -> builds r (Horizontal a) (SH r x)
  | b_line a b x y : num a x -> num b y -> builds r (Lineto a b) (SL r (P x y))
  | b_move a b x y : num a x -> num b y -> builds r (Moveto a b) (SM r (P x y))
  | b_quadratic a b c d x1 y1 x y : num a x1 -> num b y1 -> num c x -> num d y -> builds r (Quadratic a b c d) (SQ r (P x1 y1) (P x y))
  | b_smooth a b c d x2 y2 x y : num a x2 -> num b y2 -> num c x -> num d y -> builds r (Smooth a b c d) (SS r (P x2 y2) (P x y))
  | b_smooth_quadratic a b x y : num a x -> num b y -> builds r (SmoothQuadratic a b) (ST r (P x y))
  | b_vertical a y : num a y -> builds r (Vertical a) (SV r y).

(* the object that is a segment of PathModel *)
Definition stands (o : obj) (g : seg) : Prop := exists c, letter g = Some c /\ o_type o = Some [c] /\ o_values o = values g.
(* the letters a setter writes *)
Definition setter_letter (r : bool) (s : setter) : N :=
  letter_of (match s with
             | Bearing _ => KB | Curveto _ _ _ _ _ _ => KC | Arc _ _ _ _ _ _ _ => KA | Horizontal _ => KH | Lineto _ _ => KL
             | Moveto _ _ => KM | Quadratic _ _ _ _ => KQ | Smooth _ _ _ _ => KS | SmoothQuadratic _ _ => KT | Vertical _ => KV
             end) r.
