(** What path data means (SVG 2, chapter 9), written without the functions of
    the model: the list of strokes a path draws.  A moveto directly after a
    moveto is the implicit lineto of "M x,y x,y", which is how svgpy keeps
    such pairs. *)
From Verif Require Import PyBase MatrixModel MatrixSpec PathModel.
Local Open Scope Q_scope.

Definition peq (p q : pt) : Prop := ptx p == ptx q /\ pty p == pty q.

Inductive stroke :=
| Move (p : pt)
| Line (a b : pt)
| Close (a b : pt)
| Cubic (a c1 c2 b : pt)
| Quad (a c b : pt)
| Arc (a : pt) (rx ry rot fa fs : Q) (b : pt).

(** the last control point, when the last segment was a curve *)
Inductive ctrl := NoCtrl | CtrlC (p : pt) | CtrlQ (p : pt).

(** the pen *)
Record pen := Pen { cur : pt; sub : pt; ctl : ctrl; after_move : bool; brg : Q }.
Definition pen0 : pen := Pen (P 0 0) (P 0 0) NoCtrl false 0.

(** a coordinate pair as an absolute point *)
Definition place (o : oracle) (s : pen) (rel : bool) (p : pt) : pt :=
  if rel then
    let c := ocos o (brg s) in let t := osin o (brg s) in
    P (ptx (cur s) + (c * ptx p - t * pty p)) (pty (cur s) + (t * ptx p + c * pty p))
  else p.
(** mirror image of c in p *)
Definition mirror (p c : pt) : pt := P (ptx p + (ptx p - ptx c)) (pty p + (pty p - pty c)).

Definition goto (s : pen) (p : pt) (c : ctrl) : pen := Pen p (sub s) c false (brg s).

Definition draw (o : oracle) (s : pen) (g : seg) : pen * list stroke :=
  let a := cur s in
  match g with
  | SM r p =>
      let p := place o s r p in
      if after_move s then (Pen p (sub s) NoCtrl true (brg s), [Line a p])
      else (Pen p p NoCtrl true (brg s), [Move p])
  | SL r p => let p := place o s r p in (goto s p NoCtrl, [Line a p])
  | SH r x => let p := if r then place o s true (P x 0) else P x (pty a) in
              (goto s p NoCtrl, [Line a p])
  | SV r y => let p := if r then place o s true (P 0 y) else P (ptx a) y in
              (goto s p NoCtrl, [Line a p])
  | SC r p1 p2 p =>
      let p1 := place o s r p1 in let p2 := place o s r p2 in let p := place o s r p in
      (goto s p (CtrlC p2), [Cubic a p1 p2 p])
  | SS r p2 p =>
      let p1 := match ctl s with CtrlC c => mirror a c | _ => a end in
      let p2 := place o s r p2 in let p := place o s r p in
      (goto s p (CtrlC p2), [Cubic a p1 p2 p])
  | SQ r p1 p =>
      let p1 := place o s r p1 in let p := place o s r p in
      (goto s p (CtrlQ p1), [Quad a p1 p])
  | ST r p =>
      let p1 := match ctl s with CtrlQ c => mirror a c | _ => a end in
      let p := place o s r p in
      (goto s p (CtrlQ p1), [Quad a p1 p])
  | SA r rx ry rot fa fs p =>
      let p := place o s r p in
      (goto s p NoCtrl, [Arc a rx ry (if r then rot + brg s else rot) fa fs p])
  | SB r v => (Pen a (sub s) NoCtrl false (if r then brg s + v else v), [])
  | SZ _ => (Pen (sub s) (sub s) NoCtrl false (brg s), [Close a (sub s)])
  | SCNone _ _ | SInvalid => (s, [])
  end.
Fixpoint strokes (o : oracle) (s : pen) (l : list seg) : list stroke :=
  match l with
  | [] => []
  | g :: l' => let '(s', d) := draw o s g in d ++ strokes o s' l'
  end.
Definition drawing (o : oracle) (l : list seg) : list stroke := strokes o pen0 l.
Fixpoint pen_after (o : oracle) (s : pen) (l : list seg) : pen :=
  match l with [] => s | g :: l' => pen_after o (fst (draw o s g)) l' end.

(** same strokes up to equality of numbers *)
Definition stroke_eq (x y : stroke) : Prop :=
  match x, y with
  | Move p, Move q => peq p q
  | Line a b, Line a' b' | Close a b, Close a' b' => peq a a' /\ peq b b'
  | Cubic a c d b, Cubic a' c' d' b' => peq a a' /\ peq c c' /\ peq d d' /\ peq b b'
  | Quad a c b, Quad a' c' b' => peq a a' /\ peq c c' /\ peq b b'
  | Arc a rx ry rot fa fs b, Arc a' rx' ry' rot' fa' fs' b' =>
      peq a a' /\ rx == rx' /\ ry == ry' /\ rot == rot' /\ fa == fa' /\ fs == fs' /\ peq b b'
  | _, _ => False
  end.

(** the point of a line or curve at parameter t (Bernstein form) *)
Definition mix (t : Q) (a b : Q) : Q := (1 - t) * a + t * b.
Definition at_time (t : Q) (d : stroke) : option pt :=
  match d with
  | Line a b | Close a b => Some (P (mix t (ptx a) (ptx b)) (mix t (pty a) (pty b)))
  | Quad a c b =>
      let q f := mix t (mix t (f a) (f c)) (mix t (f c) (f b)) in Some (P (q ptx) (q pty))
  | Cubic a c d b =>
      let q f := mix t (mix t (mix t (f a) (f c)) (mix t (f c) (f d)))
                       (mix t (mix t (f c) (f d)) (mix t (f d) (f b))) in
      Some (P (q ptx) (q pty))
  | Move p => Some p
  | Arc _ _ _ _ _ _ _ => None
  end.
Definition opt_peq (x y : option pt) : Prop :=
  match x, y with Some p, Some q => peq p q | None, None => True | _, _ => False end.

(** Normal form of one stroke: quadratic curves become cubic ones that pass
    through the same point at every parameter; an arc becomes a line, or a
    connected chain of cubic curves with the same two ends. *)
Inductive chain : pt -> list stroke -> pt -> Prop :=
| chain_one a c d b a' b' : peq a a' -> peq b b' -> chain a' [Cubic a c d b] b'
| chain_cons a c d b a' l e : peq a a' -> chain b l e -> chain a' (Cubic a c d b :: l) e.
Inductive renders : stroke -> list stroke -> Prop :=
| rend_same d d' : (match d with Quad _ _ _ | Arc _ _ _ _ _ _ _ => False | _ => True end) ->
    stroke_eq d d' -> renders d [d']
| rend_quad a c b a' c' d' b' :
    (forall t, opt_peq (at_time t (Quad a c b)) (at_time t (Cubic a' c' d' b'))) ->
    renders (Quad a c b) [Cubic a' c' d' b']
| rend_arc_line a rx ry rot fa fs b a' b' : peq a a' -> peq b b' ->
    renders (Arc a rx ry rot fa fs b) [Line a' b']
| rend_arc a rx ry rot fa fs b l : chain a l b -> renders (Arc a rx ry rot fa fs b) l.
Inductive all_render : list stroke -> list stroke -> Prop :=
| ren_nil : all_render [] []
| ren_cons d l ds ds' : renders d l -> all_render ds ds' -> all_render (d :: ds) (l ++ ds').

(** the base command set *)
Definition base (g : seg) : bool :=
  match g with SM false _ | SL false _ | SC false _ _ _ | SZ false => true | _ => false end.
Definition absolute (g : seg) : bool := negb (isrelative g).

(** a drawing command, and paths that begin with a moveto (bearings and
    invalid segments may come before it) *)
Fixpoint begins_moveto (l : list seg) : bool :=
  match l with
  | (SB _ _ | SInvalid) :: l' => begins_moveto l'
  | SM _ _ :: _ | [] => true
  | _ => false
  end.

(** ** Where normalisation is right
    What the previous command was, as far as smooth curves are concerned. *)
Inductive mode :=
| AfterMove    (* M *)
| AfterMoveB   (* M, then bearings *)
| Fresh        (* L, H, V, A: the control point is the current point *)
| AfterCubic   (* C, or S directly after C or such an S *)
| AfterQuad    (* Q or T *)
| NoSmooth.    (* start, Z, a curve and then a bearing, or an S that did not
                  follow a cubic curve *)
Definition mode_after (m : mode) (g : seg) : mode :=
  match g with
  | SM _ _ => AfterMove
  | SL _ _ | SH _ _ | SV _ _ | SA _ _ _ _ _ _ _ => Fresh
  | SC _ _ _ _ => AfterCubic
  | SQ _ _ _ | ST _ _ => AfterQuad
  | SS _ _ _ => match m with AfterCubic => AfterCubic | _ => NoSmooth end
  | SZ _ => NoSmooth
  | SB _ _ => match m with AfterMove | AfterMoveB => AfterMoveB | Fresh => Fresh | _ => NoSmooth end
  | SCNone _ _ | SInvalid => m
  end.
Definition allowed (m : mode) (g : seg) : bool :=
  match g, m with
  | SS _ _ _, (AfterQuad | NoSmooth) | ST _ _, (AfterCubic | NoSmooth) => false
  | SM _ _, AfterMoveB => false
  | SCNone _ _, _ => false
  | _, _ => true
  end.
Fixpoint smooth_ok (m : mode) (l : list seg) : bool :=
  match l with [] => true | g :: l' => allowed m g && smooth_ok (mode_after m g) l' end.
Definition no_arc (g : seg) : bool := match g with SA _ _ _ _ _ _ _ => false | _ => true end.

(** ** Where transformation is right *)
(** the image of a stroke under the plane map of a matrix *)
Definition img (m : mat) (p : pt) : pt :=
  let v := act m (V4 (ptx p) (pty p) 0 1) in P (v1 v) (v2 v).
Definition stroke_img (m : mat) (d : stroke) : stroke :=
  match d with
  | Move p => Move (img m p)
  | Line a b => Line (img m a) (img m b)
  | Close a b => Close (img m a) (img m b)
  | Cubic a c e b => Cubic (img m a) (img m c) (img m e) (img m b)
  | Quad a c b => Quad (img m a) (img m c) (img m b)
  | Arc a rx ry rot fa fs b => Arc (img m a) rx ry rot fa fs (img m b)
  end.
(** After an absolute H (V) the code has forgotten the y (x) coordinate of
    the current point; [kx], [ky] say what it still knows. *)
Definition knows (kx ky : bool) (g : seg) : bool :=
  match g with
  | SH false _ => ky
  | SV false _ => kx
  | SM true _ | SL true _ | SH true _ | SV true _ | SC true _ _ _ | SS true _ _
  | SQ true _ _ | ST true _ | SA true _ _ _ _ _ _ => kx && ky
  | _ => true
  end.
Definition known_after (kx ky : bool) (g : seg) : bool * bool :=
  match g with
  | SH false _ => (true, false)
  | SV false _ => (false, true)
  | SB _ _ | SInvalid => (kx, ky)
  | _ => (true, true)
  end.
Fixpoint remembers (kx ky : bool) (l : list seg) : bool :=
  match l with
  | [] => true
  | g :: l' => knows kx ky g && (let '(x, y) := known_after kx ky g in remembers x y l')
  end.
(** The bearing commands are dropped from the output, so one between two
    movetos, or between a curve and a smooth curve that would continue it,
    glues the neighbours together: [prev] is the last command drawn, [after]
    tells whether a bearing came since. *)
Definition glued (prev : option cmd) (g : seg) : bool :=
  match g, prev with
  | SM _ _, Some KM => true
  | SS _ _ _, (Some KC | Some KS) => true
  | ST _ _, (Some KQ | Some KT) => true
  | _, _ => false
  end.
Fixpoint bearing_ok (prev : option cmd) (after : bool) (l : list seg) : bool :=
  match l with
  | [] => true
  | SB _ _ :: l' => bearing_ok prev true l'
  | SInvalid :: l' => bearing_ok prev after l'
  | g :: l' => negb (after && glued prev g) && bearing_ok (kind g) false l'
  end.

(** every segment made absolute where the pen stands *)
Fixpoint absolute_path (o : oracle) (s : pen) (l : list seg) : list seg :=
  match l with
  | [] => []
  | g :: l' => toabsolute o g (some_pt (cur s)) (brg s) :: absolute_path o (fst (draw o s g)) l'
  end.

(** ** Ellipses: (x, y) lies on the ellipse with centre c, radii rx, ry whose
    axis has direction (co, si) *)
Definition on_ellipse (c : pt) (rx ry co si : Q) (p : pt) : Prop :=
  let u := co * (ptx p - ptx c) + si * (pty p - pty c) in
  let v := - si * (ptx p - ptx c) + co * (pty p - pty c) in
  u * u * (ry * ry) + v * v * (rx * rx) == rx * rx * (ry * ry).
