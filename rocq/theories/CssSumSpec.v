(** Words for the claims about sum values. *)
From Verif Require Import PyBase PyText PySplit PyDict CssUnitModel CssUnitSpec CssMathModel CssMathSpec.
From Coq Require Import Qpower.
#[local] Open Scope Q_scope.

(* what a product of powers of units is worth; a term; a sum of terms *)
Definition map_worth (sz : text -> Q) (m : umap) : Q := Qprod (map (fun p => sz (fst p) ^ snd p) m).
Definition mono_worth (sz : text -> Q) (x : mono) : Q := fst x * map_worth sz (snd x).
Definition sum_worth (sz : text -> Q) (l : list mono) : Q := Qsum (map (mono_worth sz) l).
Definition units_worth (sz : text -> Q) (l : list uval) : Q := Qsum (map (fun x => uv x * sz (uu x)) l).

(** Assignments of sizes to units: positive, a number counts as itself, and
    units that convert into one another have sizes in that ratio. *)
Definition good_sizes (pi : Q) (sz : text -> Q) : Prop :=
  0 < pi /\ sz (lit "number") == 1 /\ (forall u, 0 < sz u) /\
  (forall u v, compatible u v -> sz u * ratio pi v == sz v * ratio pi u).

(** The expressions the constructors make: known units, one or more arguments. *)
Fixpoint made (e : expr) : Prop :=
  match e with
  | EUnit _ u => known u
  | ESum l | EProduct l | EMin l | EMax l => l <> [] /\ conj (map made l)
  | ENegate x | EInvert x => made x
  | EClamp a b c => made a /\ made b /\ made c
  end.
(** all numbers, no units *)
Fixpoint numeric (e : expr) : Prop :=
  match e with
  | EUnit _ u => u = lit "number"
  | ESum l | EProduct l | EMin l | EMax l => conj (map numeric l)
  | ENegate x | EInvert x => numeric x
  | EClamp a b c => numeric a /\ numeric b /\ numeric c
  end.
(** What CSS allows in calc(): at most one factor of a product has a unit, and
    division is by a number. *)
Fixpoint linear (e : expr) : Prop :=
  match e with
  | EUnit _ _ => True
  | ESum l | EMin l | EMax l => conj (map linear l)
  | EProduct l => conj (map linear l) /\
                  exists l1 x l2, l = l1 ++ x :: l2 /\ forall y, In y (l1 ++ l2) -> numeric y
  | ENegate x => linear x
  | EInvert x => numeric x
  | EClamp a b c => linear a /\ linear b /\ linear c
  end.
(** Expressions that should have a sum value: no clamp(); only numbers inverted,
    and only numbers inside min() and max(). *)
Fixpoint simple (e : expr) : Prop :=
  match e with
  | EUnit _ _ => True
  | ESum l | EProduct l => conj (map simple l)
  | EMin l | EMax l => conj (map simple l) /\ conj (map numeric l)
  | ENegate x => simple x
  | EInvert x => simple x /\ numeric x
  | EClamp _ _ _ => False
  end.
(** Terms met in sums with the same units have the same powers of them. *)
Definition map_same (a b : umap) : Prop := forall k, dget a k = dget b k.
Fixpoint coherent (pi : Q) (e : expr) : Prop :=
  match e with
  | EUnit _ _ => True
  | ESum l => conj (map (coherent pi) l) /\
      forall ls x y, opts (map (sum_value pi) l) = Some ls -> In x (concat ls) -> In y (concat ls) ->
        (forall k, In k (dkeys (snd x)) <-> In k (dkeys (snd y))) -> map_same (snd x) (snd y)
  | EProduct l | EMin l | EMax l => conj (map (coherent pi) l)
  | ENegate x | EInvert x => coherent pi x
  | EClamp a b c => True
  end.
(** Alphabetical order, by code points *)
Inductive alphabetical : text -> text -> Prop :=
  | al_nil b : alphabetical [] b
  | al_lt x y a b : (x < y)%N -> alphabetical (x :: a) (y :: b)
  | al_eq x a b : alphabetical a b -> alphabetical (x :: a) (x :: b).
