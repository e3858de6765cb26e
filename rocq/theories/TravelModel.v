(** Model of the total length of a path: PathParser.get_total_length
    (svgpy/path.py:1322-1398), PathSegment.get_length (749-822), and the
    lengths of curves (104-127) and of elliptical arcs (178-249).

    Given: math.hypot, the numerical integration of the square root of a
    function over [0, 1] (scipy's quad), and the length of the arc of an
    ellipse from its first axis to a direction between 0 and 90 degrees
    (scipy's ellipeinc, 189-206). *)
From Coq Require Import Qround Qabs.
From Verif Require Import PyBase MatrixModel PathModel.
Local Open Scope Q_scope.

Record measure := mkMs { hypot : Q -> Q -> Q; root_integral : (Q -> Q) -> Q; quarter : Q -> Q -> Q -> Q }.

(** ** Curves *)
(* path.py:96-102 get_coefficients, one coordinate *)
Definition coef3 (p0 p1 p2 p3 : Q) : Q := - p0 + 3 * p1 - 3 * p2 + p3.
Definition coef2 (p0 p1 p2 : Q) : Q := 3 * p0 - 6 * p1 + 3 * p2.
Definition coef1 (p0 p1 : Q) : Q := - 3 * p0 + 3 * p1.
(* path.py:58-63: under the root *)
Definition integrand (c0 c1 c2 c3 c4 t : Q) : Q :=
  c4 * (t * t * t * t) + c3 * (t * t * t) + c2 * (t * t) + c1 * t + c0.
(* path.py:104-127 CubicBezierCurve.get_length *)
Definition curve_length (ms : measure) (p0 p1 p2 p3 : pt) : Q :=
  let a3 := coef3 (ptx p0) (ptx p1) (ptx p2) (ptx p3) in let b3 := coef3 (pty p0) (pty p1) (pty p2) (pty p3) in
  let a2 := coef2 (ptx p0) (ptx p1) (ptx p2) in let b2 := coef2 (pty p0) (pty p1) (pty p2) in
  let a1 := coef1 (ptx p0) (ptx p1) in let b1 := coef1 (pty p0) (pty p1) in
  let c4 := 9 * (a3 * a3 + b3 * b3) in
  let c3 := 12 * (a3 * a2 + b3 * b2) in
  let c2 := 6 * (a3 * a1 + b3 * b1) + 4 * (a2 * a2 + b2 * b2) in
  let c1 := 4 * (a2 * a1 + b2 * b1) in
  let c0 := a1 * a1 + b1 * b1 in
  root_integral ms (integrand c0 c1 c2 c3 c4).

(** ** Arcs of ellipses *)
(* path.py:211-222: the two loops; the number of turns they can take is the
   first argument *)
Fixpoint lower (n : nat) (a : Q) : Q :=
  match n with O => a | S n' => if 360 <?q a then lower n' (a - 360) else a end.
Fixpoint raise (n : nat) (a : Q) : Q :=
  match n with O => a | S n' => if a <?q 0 then raise n' (a + 360) else a end.
Definition turns (a : Q) : nat := Z.to_nat (Qceiling (Qabs a / 360)).
Definition full_circle (a : Q) : Q := let a := lower (turns a) a in raise (turns a) a.
(* path.py:230-246: from 0 degrees to [a] *)
Definition from_zero (ms : measure) (rx ry a : Q) : Q :=
  let n := inject_Z (Qfloor (a / 90)) in
  let r := a - 90 * n in
  let s0 := quarter ms rx ry 90 in
  let s := n * s0 in
  if 0 <?q r then
    if ((90 <?q a) && (a <=?q 180)) || ((270 <?q a) && (a <=?q 360)) then s + (s0 - quarter ms rx ry (90 - r))
    else s + quarter ms rx ry r
  else s.
(* path.py:178-249 Ellipse.get_length *)
Definition ellipse_length (ms : measure) (rx ry start delta : Q) : Q :=
  if (rx =?q 0) || (ry =?q 0) then 0 else
  let start := full_circle start in
  let stop := full_circle (start + delta) in
  if start =?q stop then 0 else
  let '(a, b) := if delta <?q 0 then (stop, start) else (start, stop) in
  let s1 := from_zero ms rx ry a in
  let s2 := from_zero ms rx ry b in
  if a <?q b then s2 - s1 else 4 * quarter ms rx ry 90 - s1 + s2.

(** ** Segments *)
Definition distance (ms : measure) (a b : pt) : Q := hypot ms (ptx b - ptx a) (pty b - pty a).
(* path.py:749-822 PathSegment.get_length.  A curve with a None control point
   fails in numpy. *)
Definition seg_length (o : oracle) (at2 : Q -> Q -> Q) (ms : measure) (s : seg) (cp : cpt) (bearing : Q)
  (ext : option pt) : result (Q * cpt) :=
  match s with
  | SInvalid | SB _ _ | SZ _ => Ok (0, cp)
  | _ =>
    let c := P (or0 (fst cp)) (or0 (snd cp)) in
    let s := if isrelative s then toabsolute o s (some_pt c) bearing else s in
    do s <- match s with
            | SH _ _ | SQ _ _ _ | SS _ _ _ | ST _ _ | SV _ _ =>
                do l <- seg_normalize o at2 s (some_pt c) bearing ext;
                match l with g :: _ => Ok g | [] => Err IndexError end
            | _ => Ok s
            end;
    match s with
    | SA _ rx ry rot fa fs ep =>
        match get_center_of_arc o at2 rx ry rot fa fs c ep with
        | NoCentre rx' ry' => Ok (if (rx' =?q 0) || (ry' =?q 0) then distance ms c ep else 0, some_pt ep)
        | Centre _ rx' ry' d1 extent => Ok (ellipse_length ms rx' ry' d1 extent, some_pt ep)
        end
    | SC _ p1 p2 p => Ok (curve_length ms c p1 p2 p, some_pt p)
    | SL _ p | SM _ p => Ok (distance ms c p, some_pt p)
    | SCNone _ _ => Err TypeError
    | _ => Err NotImplementedError_
    end
  end.

(** ** Paths *)
(* path.py:1341-1397: one turn of the loop *)
Definition length_step (o : oracle) (at2 : Q -> Q -> Q) (ms : measure) (st : nstate) (s : seg) : result (nstate * Q) :=
  let k := kind s in
  match k with
  | None => Ok (st, 0)
  | Some KB => Ok (NS (n_start st) (n_cp st) (n_ext st) (get_bearing s (n_bearing st)) k, 0)
  | Some KZ =>
      match end_pt (n_start st), end_pt (n_cp st) with
      | Some a, Some c => Ok (NS (n_start st) (n_start st) (n_ext st) (n_bearing st) k, distance ms c a)
      | _, _ => Ok (NS (n_start st) (n_cp st) (n_ext st) (n_bearing st) k, 0)
      end
  | Some _ =>
      do (len, cp) <- seg_length o at2 ms s (n_cp st) (n_bearing st) (n_ext st);
      do ext <- (if is_cubic k || is_quad k then
                   do p <- next_control o s (n_cp st) (n_bearing st) (n_last st) (n_ext st); Ok (Some p)
                 else Ok (end_pt cp));
      if is_moveto k then
        if is_moveto (n_last st) then Ok (NS (n_start st) cp ext (n_bearing st) k, len)
        else Ok (NS cp cp ext (n_bearing st) k, 0)
      else Ok (NS (if missing (n_start st) then cp else n_start st) cp ext (n_bearing st) k, len)
  end.
Fixpoint length_from (o : oracle) (at2 : Q -> Q -> Q) (ms : measure) (st : nstate) (l : list seg) : result Q :=
  match l with
  | [] => Ok 0
  | s :: l' =>
      do (st', v) <- length_step o at2 ms st s;
      do w <- length_from o at2 ms st' l';
      Ok (v + w)
  end.
(* path.py:1322-1398; base.py:629-638 is this for the path data of an element *)
Definition total_length (o : oracle) (at2 : Q -> Q -> Q) (ms : measure) (l : list seg) : result Q :=
  length_from o at2 ms nstate0 l.
