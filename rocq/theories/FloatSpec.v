(** What C86 needs to say, without the model's functions: what a rounding is,
    numbers it leaves alone, and the outermost edges of two rectangles. *)
From Coq Require Import Qabs Qpower Qminmax ZArith.
From Verif Require Import PyBase RectModel.
#[local] Open Scope Q_scope.

(* monotone, stable, odd, and off by at most a [u]th part *)
Record rounding (f : Q -> Q) (u : Q) : Prop := mkRounding {
  r_mono : forall x y, x <= y -> f x <= f y;
  r_idem : forall x, f (f x) == f x;
  r_opp : forall x, f (- x) == - f x;
  r_error : forall x, Qabs (f x - x) <= u * Qabs x }.

(* a rectangle with its edges set to numbers the rounding leaves alone *)
Definition kept_rect (f : Q -> Q) (l t w h : Q) : Prop := f l == l /\ f t == t /\ f w == w /\ f h == h.

(* whole multiples of 2^k, at most n of them *)
Definition on_grid (k n : Z) (x : Q) : Prop := exists z, (Z.abs z <= n)%Z /\ x == inject_Z z * 2 ^ k.

(* numbers of a rectangle on the grid *)
Definition grid_rect (k n : Z) (l t w h : Q) : Prop := on_grid k n l /\ on_grid k n t /\ on_grid k n w /\ on_grid k n h.

(* the smallest rectangle round two, from edges: left, top, right, bottom *)
Definition around (f : Q -> Q) (l t r b ol ot orr ob : Q) : rect :=
  rect4 (Qmin l ol) (Qmin t ot) (f (Qmax r orr - Qmin l ol)) (f (Qmax b ob - Qmin t ot)).
