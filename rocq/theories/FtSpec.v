(** What FTMatrix objects are for: maps of the plane.  Glyphs have y upwards,
    pictures have y downwards. *)
From Coq Require Import NArith ZArith QArith List.
From Verif Require Import PyBase MatrixModel PathModel LayoutModel FtModel.
Import ListNotations.
#[local] Open Scope Q_scope.

(** The same point, the same map *)
Definition same (p q : pt) : Prop := ptx p == ptx q /\ pty p == pty q.
Definition plane := pt -> pt.
Definition same_map (f g : plane) : Prop := forall p, same (f p) (g p).

(** The operations of SVG on points, y downwards *)
Definition turn (c s : Q) : plane := fun p => P (c * ptx p - s * pty p) (s * ptx p + c * pty p).
Definition slant_x (t : Q) : plane := fun p => P (ptx p + t * pty p) (pty p).
Definition slant_y (t : Q) : plane := fun p => P (ptx p) (pty p + t * ptx p).
Definition stretch (x y : Q) : plane := fun p => P (x * ptx p) (y * pty p).
(** matrix(a b c d e f) without its translation *)
Definition svg_linear (m : dmat) : plane :=
  fun p => P (m11 (arr m) * ptx p + m21 (arr m) * pty p) (m12 (arr m) * ptx p + m22 (arr m) * pty p).
(** seen with y upwards *)
Definition mirror (p : pt) : pt := P (ptx p) (- pty p).
Definition upwards (f : plane) : plane := fun p => mirror (f (mirror p)).

(** What an operation puts before the map of the matrix; [other] is the map of
    the matrix with that number *)
Definition means (o : oracle) (other : nat -> option plane) (p : ftop) : option plane :=
  match p with
  | FSet _ _ | FClear | FInvert => None
  | FMul j => other j
  | FRotate a => Some (upwards (turn (ocos o a) (osin o a)))
  | FScale x y => Some (upwards (stretch x (match y with Some y => y | None => x end)))
  | FSkewX a => Some (upwards (slant_x (otan o a)))
  | FSkewY a => Some (upwards (slant_y (otan o a)))
  | FFlipX => Some (fun p => P (- ptx p) (pty p))
  | FFlipY => Some mirror
  end.
(** a list of such operations: the last is nearest to the point *)
Fixpoint all_mean (o : oracle) (other : nat -> option plane) (l : list ftop) : option plane :=
  match l with
  | [] => Some (fun p => p)
  | p :: r => match means o other p, all_mean o other r with Some f, Some g => Some (fun x => f (g x)) | _, _ => None end
  end.
Definition map_at (h : heap) (j : nat) : option plane := option_map ft_apply (nth_error h j).

(** A map that sends some other point to the origin *)
Definition flattens (f : plane) : Prop := exists p, ~ same p (P 0 0) /\ same (f p) (P 0 0).

(** Whether a call may change object [i] *)
Definition changes (i : nat) (c : ftcall) : Prop := exists p, c = Change i p.
