(** Model of the bounding boxes of svgpy/path.py. *)
From Verif Require Import PyBase RectModel MatrixModel PathModel.
Local Open Scope Q_scope.

(** ** Cubic curves.  The numpy arrays are treated one coordinate at a time. *)
(* path.py:99-105 get_coefficients *)
Definition coef_a (p0 p1 p2 p3 : Q) : Q := - p0 + 3 * p1 - 3 * p2 + p3.
Definition coef_b (p0 p1 p2 p3 : Q) : Q := 3 * p0 - 6 * p1 + 3 * p2.
Definition coef_c (p0 p1 p2 p3 : Q) : Q := - (3) * p0 + 3 * p1.
(* path.py:153-156 point *)
Definition curve_at (p0 p1 p2 p3 t : Q) : Q :=
  coef_a p0 p1 p2 p3 * (t * t * t) + coef_b p0 p1 p2 p3 * (t * t) + coef_c p0 p1 p2 p3 * t + p0.
(* path.py:129-133 _solve *)
Definition solve (o : oracle) (a b c s : Q) : Q := (- b + s * osqrt o (b * b - 4 * a * c)) / (2 * a).
(* path.py:137-150: the roots of one coordinate *)
Definition axis_roots (o : oracle) (p0 p1 p2 p3 : Q) : list Q :=
  let a := 3 * coef_a p0 p1 p2 p3 in
  let b := 2 * coef_b p0 p1 p2 p3 in
  let c := coef_c p0 p1 p2 p3 in
  let d := b * b - 4 * a * c in
  if d <?q 0 then []
  else if (a =?q 0) && negb (b =?q 0) then [- c / b]
  else if (d =?q 0) && negb (a =?q 0) then [solve o a b c 1]
  else if negb (a =?q 0) then [solve o a b c 1; solve o a b c (-1)]
  else [].
(* path.py:127-151 get_roots *)
Definition in_unit (t : Q) : bool := (0 <=?q t) && (t <=?q 1).
Definition curve_roots (o : oracle) (p0 p1 p2 p3 : pt) : list Q :=
  filter in_unit (axis_roots o (ptx p0) (ptx p1) (ptx p2) (ptx p3)
                  ++ axis_roots o (pty p0) (pty p1) (pty p2) (pty p3)).
(* min and max of a non-empty sequence *)
Definition minl (x : Q) (l : list Q) : Q := fold_left pymin l x.
Definition maxl (x : Q) (l : list Q) : Q := fold_left pymax l x.
(* path.py:67-97 CubicBezierCurve.get_bbox *)
Definition curve_bbox (o : oracle) (p0 p1 p2 p3 : pt) : rect :=
  let r := curve_roots o p0 p1 p2 p3 in
  let xs := ptx p3 :: map (curve_at (ptx p0) (ptx p1) (ptx p2) (ptx p3)) r in
  let ys := pty p3 :: map (curve_at (pty p0) (pty p1) (pty p2) (pty p3)) r in
  let x := minl (ptx p0) xs in let y := minl (pty p0) ys in
  rect4 x y (maxl (ptx p0) xs - x) (maxl (pty p0) ys - y).
(* path.py:603, 615: DOMRect(cpx, cpy, x - cpx, y - cpy).normalize() *)
Definition line_bbox (a b : pt) : rect :=
  match RectModel.normalize (rect4 (ptx a) (pty a) (ptx b - ptx a) (pty b - pty a)) with
  | Ok r => r
  | Err _ => rect_unset
  end.

(* path.py:583-618: the loop of PathSegment.get_bbox over the normalised
   segments; the state is the box and the current point *)
Definition known_cp (cp : cpt) : pt := P (or0 (fst cp)) (or0 (snd cp)).
Fixpoint segs_bbox (o : oracle) (l : list seg) (box : rect) (cp : cpt) : result rect :=
  match l with
  | [] => Ok box
  | g :: l' =>
      match g with
      | SC false p1 p2 p =>
          segs_bbox o l' (unite box (curve_bbox o (known_cp cp) p1 p2 p)) (some_pt p)
      | SL false p => segs_bbox o l' (unite box (line_bbox (known_cp cp) p)) (some_pt p)
      | SM false p =>
          let box' :=
            match cp with
            | (Some x, Some y) => unite box (line_bbox (P x y) p)
            | _ => if isvalid box then unite box (rect4 (ptx p) (pty p) 0 0)
                   else rect4 (ptx p) (pty p) 0 0
            end in
          segs_bbox o l' box' (some_pt p)
      | SCNone _ _ => Err TypeError
      | _ => segs_bbox o l' box cp
      end
  end.
(* path.py:557-619 PathSegment.get_bbox *)
Definition seg_bbox (o : oracle) (at2 : Q -> Q -> Q) (g : seg) (cp : cpt) (bearing : Q) (ext : option pt)
  : result rect :=
  match g with
  | SInvalid | SB _ _ | SZ _ => Ok rect_unset
  | _ => do l <- seg_normalize o at2 g cp bearing ext; segs_bbox o l rect_unset cp
  end.

Record bstate := BS { b_box : rect; b_start : cpt; b_cp : cpt; b_last : option cmd }.
Definition bstate0 : bstate := BS rect_unset (None, None) (None, None) None.
(* path.py:1276-1320: one turn of the loop of PathParser.get_bbox.  The
   bearing stays 0. *)
Definition bbox_step (o : oracle) (at2 : Q -> Q -> Q) (st : bstate) (g : seg) : result bstate :=
  match g with
  | SInvalid => Ok st
  | SC false _ _ _ | SL false _ | SM false _ | SCNone _ _ =>
      do r <- seg_bbox o at2 g (b_cp st) 0 None;
      let cp := seg_end g in
      match g with
      | SM _ _ =>
          let box := match b_last st with None => r | Some _ => b_box st end in
          if is_moveto (b_last st) then Ok (BS (unite box r) (b_start st) cp (kind g))
          else Ok (BS box cp cp (kind g))
      | _ =>
          Ok (BS (unite (b_box st) r) (if missing (b_start st) then cp else b_start st) cp (kind g))
      end
  | SZ false =>
      match b_start st, b_cp st with
      | (Some sx, Some sy), (Some _, Some _) =>
          do r <- seg_bbox o at2 (SL false (P sx sy)) (b_cp st) 0 None;
          Ok (BS (unite (b_box st) r) (b_start st) (b_start st) (kind g))
      | _, _ => Ok (BS (b_box st) (b_start st) (b_cp st) (kind g))
      end
  | _ => Err ValueError
  end.
Fixpoint bbox_from (o : oracle) (at2 : Q -> Q -> Q) (st : bstate) (l : list seg) : result rect :=
  match l with
  | [] => Ok (b_box st)
  | g :: l' => do st' <- bbox_step o at2 st g; bbox_from o at2 st' l'
  end.
(* path.py:1258-1321 PathParser.get_bbox *)
Definition path_bbox (o : oracle) (at2 : Q -> Q -> Q) (l : list seg) : result rect :=
  bbox_from o at2 bstate0 l.
