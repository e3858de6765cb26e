(** What is said of viewports: relations between nodes of a tree ([below s a n]: [n] is [a]
    or stands under it), none of the code's loops. *)
From Coq Require Import QArith.
From Verif Require Import PyBase PyText ForestModel ForestSpec OuterModel.
#[local] Open Scope nat_scope.

Definition named (w : world) (names : list text) (n : nat) : Prop := In (w_name w n) names.
Definition svg : list text := [lit "svg"].
Definition viewports : list text := [lit "svg"; lit "symbol"].

(* the outermost of the elements with such a name that [n] is or stands under *)
Definition outermost (w : world) (names : list text) (n r : nat) : Prop :=
  below (w_tree w) r n /\ named w names r /\ forall q, below (w_tree w) q n -> named w names q -> below (w_tree w) r q.
(* the innermost of them *)
Definition innermost (w : world) (names : list text) (n r : nat) : Prop :=
  below (w_tree w) r n /\ named w names r /\ forall q, below (w_tree w) q n -> named w names q -> below (w_tree w) q r.
(* the innermost of the proper ancestors *)
Definition ancestor (w : world) (names : list text) (n r : nat) : Prop :=
  r <> n /\ below (w_tree w) r n /\ named w names r /\ forall q, q <> n -> below (w_tree w) q n -> named w names q -> below (w_tree w) q r.
(* no other 'svg' element around [n] *)
Definition outer (w : world) (n : nat) : Prop := forall q, below (w_tree w) q n -> named w svg q -> q = n.

(** The edits of a history. *)
Fixpoint edits (ds : list deed) : list op := match ds with [] => [] | Edit o :: r => o :: edits r | _ :: r => edits r end.
(* [n] stood outermost when the history [ds] had happened to [w] *)
Definition outer_after (w : world) (ds : list deed) (n : nat) : Prop := outer (mkWorld (runs (w_tree w) (edits ds)) (w_name w) (w_scale w) (w_move w) (w_zoom w)) n.

(* [x] is the last value a history assigned to [n] at a moment [ok] held, [start] if none *)
Inductive last_kept {A} (make : nat -> A -> deed) (ok : list deed -> Prop) (n : nat) (start : A) (ds : list deed) : A -> Prop :=
  | kept_one a x b : ds = a ++ make n x :: b -> ok a ->
      (forall b1 y b2, b = b1 ++ make n y :: b2 -> ~ ok (a ++ make n x :: b1)) -> last_kept make ok n start ds x
  | kept_none : (forall b1 y b2, ds = b1 ++ make n y :: b2 -> ~ ok b1) -> last_kept make ok n start ds start.

(* the 'zoomAndPan' attribute after a history *)
Definition zoom_word (v : nat) : option text := match v with 1 => Some (lit "disable") | 2 => Some (lit "magnify") | _ => None end.
Definition zoom_text (n : nat) (d : deed) : option (option text) :=
  match d with
  | Zoom m v => if Nat.eqb m n then match zoom_word v with Some t => Some (Some t) | None => None end else None
  | ZoomText m t => if Nat.eqb m n then Some t else None
  | _ => None
  end.
