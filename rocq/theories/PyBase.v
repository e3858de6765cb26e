(** Shared vocabulary of all models: Python exceptions as values, boolean
    comparisons on rationals (which stand for Python floats and Decimals),
    and a few tactics.  Nothing here models a particular svgpy function. *)
From Coq Require Export String Ascii QArith Qminmax ZArith Bool List Lqa Lia.
Export ListNotations.
#[global] Open Scope bool_scope.

(** The exceptions svgpy raises (svgpy/exception.py and Python built-ins). *)
Inductive pyerr : Type :=
| TypeError | ValueError | IndexError | KeyError | AttributeError
| NotImplementedError_ | ZeroDivisionError | AssertionError_
| HierarchyRequestError | InUseAttributeError | InvalidCharacterError
| NotFoundError | NamespaceError | NoModificationAllowedError
| SyntaxError_ | InvalidModificationError | LinAlgError | NotSupportedError
| UnicodeError_ | OtherError.

Inductive result (A : Type) : Type :=
| Ok (a : A)
| Err (e : pyerr).
Arguments Ok {A} a.
Arguments Err {A} e.

Definition bind {A B} (r : result A) (f : A -> result B) : result B :=
  match r with Ok a => f a | Err e => Err e end.
Notation "'do' x <- r ; k" := (bind r (fun x => k))
  (at level 200, x pattern, r at level 100, k at level 200).

Definition is_ok {A} (r : result A) : bool :=
  match r with Ok _ => true | Err _ => false end.

(** Comparisons on numbers. *)
Definition Qltb (x y : Q) : bool := negb (Qle_bool y x).
Notation "x <=?q y" := (Qle_bool x y) (at level 70, no associativity).
Notation "x <?q y" := (Qltb x y) (at level 70, no associativity).
Notation "x =?q y" := (Qeq_bool x y) (at level 70, no associativity).

Lemma Qleb_spec x y : reflect (x <= y)%Q (x <=?q y).
Proof.
  destruct (x <=?q y) eqn:E; constructor.
  - now apply Qle_bool_iff.
  - intro H; apply Qle_bool_iff in H; congruence.
Qed.
Lemma Qltb_spec x y : reflect (x < y)%Q (x <?q y).
Proof.
  unfold Qltb; destruct (Qleb_spec y x) as [H|H]; constructor; lra.
Qed.
Lemma Qeqb_spec x y : reflect (x == y)%Q (x =?q y).
Proof.
  destruct (x =?q y) eqn:E; constructor.
  - now apply Qeq_bool_iff.
  - intro H; apply Qeq_bool_iff in H; congruence.
Qed.

(** Split on the outermost rational comparison found in the goal or in a
    hypothesis. *)
Ltac qcase1 :=
  match goal with
  | |- context [ ?x <=?q ?y ] => destruct (Qleb_spec x y)
  | |- context [ ?x <?q ?y ] => destruct (Qltb_spec x y)
  | |- context [ ?x =?q ?y ] => destruct (Qeqb_spec x y)
  | H : context [ ?x <=?q ?y ] |- _ => destruct (Qleb_spec x y)
  | H : context [ ?x <?q ?y ] |- _ => destruct (Qltb_spec x y)
  | H : context [ ?x =?q ?y ] |- _ => destruct (Qeqb_spec x y)
  end.
Ltac qcase := repeat (qcase1; cbn [negb andb orb] in *; try (exfalso; lra)).

(** Python's [min]/[max] on two numbers (the first argument wins on ties). *)
Definition pymin (x y : Q) : Q := if y <?q x then y else x.
Definition pymax (x y : Q) : Q := if x <?q y then y else x.

Lemma pymin_spec x y : (pymin x y <= x /\ pymin x y <= y /\
                        (pymin x y == x \/ pymin x y == y))%Q.
Proof.
  unfold pymin; destruct (Qltb_spec y x); repeat split; try lra;
    first [left; reflexivity | right; reflexivity].
Qed.
Lemma pymax_spec x y : (x <= pymax x y /\ y <= pymax x y /\
                        (pymax x y == x \/ pymax x y == y))%Q.
Proof.
  unfold pymax; destruct (Qltb_spec x y); repeat split; try lra;
    first [left; reflexivity | right; reflexivity].
Qed.

(** [is Some]. *)
Definition is_some {A} (o : option A) : bool :=
  match o with Some _ => true | None => false end.

(** Run a list of operations. *)
Definition runs {S O} (step : S -> O -> S) (ops : list O) (s : S) : S :=
  fold_left step ops s.

Lemma runs_inv {S O} (step : S -> O -> S) (Inv : S -> Prop) :
  (forall s o, Inv s -> Inv (step s o)) ->
  forall ops s, Inv s -> Inv (runs step ops s).
Proof.
  intros Hstep ops; induction ops as [|o ops IH]; intros s Hs; cbn; auto.
Qed.

(* keep rational arithmetic opaque to cbn/simpl *)
Global Arguments Qplus : simpl never.
Global Arguments Qminus : simpl never.
Global Arguments Qmult : simpl never.
Global Arguments Qopp : simpl never.
Global Arguments Qinv : simpl never.
Global Arguments Qdiv : simpl never.
