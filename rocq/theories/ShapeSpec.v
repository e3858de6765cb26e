(** What the basic shapes draw (SVG 2, chapter 10), as strokes. *)
From Verif Require Import PyBase FormatSpec MatrixModel PathModel PathSpec.
Local Open Scope Q_scope.

(** lines from point to point *)
Fixpoint legs (a : pt) (l : list pt) : list stroke :=
  match l with [] => [] | b :: l' => Line a b :: legs b l' end.
(** the points right, below, left and above the centre of an ellipse *)
Definition east (cx cy rx : Q) : pt := P (cx + rx) cy.
Definition south (cx cy ry : Q) : pt := P cx (cy + ry).
Definition west (cx cy rx : Q) : pt := P (cx - rx) cy.
Definition north (cx cy ry : Q) : pt := P cx (cy - ry).
(** clockwise quarter arc *)
Definition quarter_arc (rx ry : Q) (a b : pt) : stroke := Arc a rx ry 0 0 1 b.
(** equations 10.3: start right of the centre, four clockwise arcs, close *)
Definition ellipse_outline (cx cy rx ry : Q) : list stroke :=
  let e := east cx cy rx in let s := south cx cy ry in
  let w := west cx cy rx in let n := north cx cy ry in
  [Move e; quarter_arc rx ry e s; quarter_arc rx ry s w; quarter_arc rx ry w n;
   quarter_arc rx ry n e; Close e e].
(** equations 10.2, square corners: once around *)
Definition rect_outline (x y w h : Q) : list stroke :=
  let a := P x y in let b := P (x + w) y in let c := P (x + w) (y + h) in let d := P x (y + h) in
  [Move a; Line a b; Line b c; Line c d; Line d a; Close a a].
(** with rounded corners; the arcs have their centres rx, ry inside *)
Definition round_outline (x y w h rx ry : Q) : list stroke :=
  let l := x + rx in let r := x + w - rx in let t := y + ry in let b := y + h - ry in
  [Move (north l t ry); Line (north l t ry) (north r t ry);
   quarter_arc rx ry (north r t ry) (east r t rx); Line (east r t rx) (east r b rx);
   quarter_arc rx ry (east r b rx) (south r b ry); Line (south r b ry) (south l b ry);
   quarter_arc rx ry (south l b ry) (west l b rx); Line (west l b rx) (west l t rx);
   quarter_arc rx ry (west l t rx) (north l t ry); Close (north l t ry) (north l t ry)].
Definition strokes_eq : list stroke -> list stroke -> Prop := Forall2 stroke_eq.

(** svgpy finds for the arc d the centre c and the radii d is written with
    (unless its ends are so close together that svgpy drops the arc) *)
Definition centred (o : oracle) (at2 : Q -> Q -> Q) (c : pt) (d : stroke) : Prop :=
  match d with
  | Arc a rx ry rot fa fs b =>
      isclose (ptx a) (ptx b) && isclose (pty a) (pty b) = false ->
      exists c' rx' ry' s e, get_center_of_arc o at2 rx ry rot fa fs a b = Centre c' rx' ry' s e /\
        peq c' c /\ rx' == rx /\ ry' == ry
  | _ => True
  end.
(** the centres of the rounded corners, stroke by stroke of [round_outline] *)
Definition corner_centres (x y w h rx ry : Q) : list pt :=
  let l := x + rx in let r := x + w - rx in let t := y + ry in let b := y + h - ry in
  [P l t; P l t; P r t; P r t; P r b; P r b; P l b; P l b; P l t; P l t].
(** numbers are the same up to the six decimals written *)
Definition near6 (x y : Q) : Prop := FormatSpec.nearest 6 x y.
Definition near6_pair (p q : Q * Q) : Prop := near6 (fst p) (fst q) /\ near6 (snd p) (snd q).
