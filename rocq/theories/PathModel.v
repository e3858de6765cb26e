(** Model of svgpy/path.py: path segments, conversion to absolute
    coordinates, normalisation, transformation.  Numbers are exact rationals;
    trigonometry and square roots come from an oracle. *)
From Coq Require Import Qround Qabs.
From Verif Require Import PyBase MatrixModel.
Local Open Scope Q_scope.

(** A point of the plane (Python pairs of floats). *)
Record pt := P { ptx : Q; pty : Q }.

(** path.py:263-305 SVGPathSegment.  The object holds a type letter and a
    tuple; the model has one constructor per letter pair, [rel] telling lower
    case, with the number of values the letter requires
    (_PATH_SEGMENT_VALUES_LENGTH, 1185-1196).  Simplification: a known letter
    with another number of values is not representable.  [SInvalid] is every
    segment whose isvalid() (402-407) is false.  [SCNone] is a 'C' segment
    whose first control point is (None, None): normalize can produce it. *)
Inductive seg :=
| SM (rel : bool) (p : pt) | SL (rel : bool) (p : pt)
| SH (rel : bool) (x : Q) | SV (rel : bool) (y : Q)
| SC (rel : bool) (p1 p2 p : pt) | SS (rel : bool) (p2 p : pt)
| SQ (rel : bool) (p1 p : pt) | ST (rel : bool) (p : pt)
| SA (rel : bool) (rx ry rot fa fs : Q) (p : pt)
| SB (rel : bool) (angle : Q) | SZ (rel : bool)
| SCNone (p2 p : pt) | SInvalid.

(** the type letter, upper case *)
Inductive cmd := KM | KL | KH | KV | KC | KS | KQ | KT | KA | KB | KZ.
Definition kind (s : seg) : option cmd :=
  match s with
  | SM _ _ => Some KM | SL _ _ => Some KL | SH _ _ => Some KH | SV _ _ => Some KV
  | SC _ _ _ _ => Some KC | SS _ _ _ => Some KS | SQ _ _ _ => Some KQ | ST _ _ => Some KT
  | SA _ _ _ _ _ _ _ => Some KA | SB _ _ => Some KB | SZ _ => Some KZ
  | SCNone _ _ => Some KC | SInvalid => None
  end.
(* path.py:397-400 isrelative; false for the invalid segment *)
Definition isrelative (s : seg) : bool :=
  match s with
  | SM r _ | SL r _ | SH r _ | SV r _ | SC r _ _ _ | SS r _ _ | SQ r _ _ | ST r _
  | SA r _ _ _ _ _ _ | SB r _ | SZ r => r
  | SCNone _ _ | SInvalid => false
  end.

(** Each coordinate of the current point may be None. *)
Definition cpt := (option Q * option Q)%type.
Definition some_pt (p : pt) : cpt := (Some (ptx p), Some (pty p)).
Definition or0 (v : option Q) : Q := match v with Some x => x | None => 0 end.

(* path.py:310-346 SVGPathSegment.end *)
Definition seg_end (s : seg) : cpt :=
  match s with
  | SInvalid | SB _ _ | SZ _ => (None, None)
  | SA _ _ _ _ _ _ p | SC _ _ _ p | SL _ p | SM _ p | ST _ p | SQ _ _ p | SS _ _ p
  | SCNone _ p => some_pt p
  | SH r x => (Some x, if r then Some 0 else None)
  | SV r y => (if r then Some 0 else None, Some y)
  end.

(* path.py:379-391 get_bearing *)
Definition get_bearing (s : seg) (bearing : Q) : Q :=
  match s with SB r a => if r then bearing + a else a | _ => bearing end.

(** matrix.transform_point(x, y) unpacked into two names: a matrix that is
    not 2D gives four values and ValueError. *)
Definition tpoint (m : dmat) (p : pt) : result pt :=
  match transform_point m (ptx p) (pty p) 0 1 with
  | [x; y] => Ok (P x y)
  | _ => Err ValueError
  end.
(** the "if bearing != 0: matrix = DOMMatrix(); matrix.rotate_self(rot_z =
    bearing); transform_point" block of path.py:1033-1105; the matrix is 2D,
    so two values come back *)
Definition turn (o : oracle) (bearing : Q) (p : pt) : pt :=
  if bearing =?q 0 then p else
  match transform_point (rotate_self o (DM mat_id true) 0 0 bearing) (ptx p) (pty p) 0 1 with
  | x :: y :: _ => P x y
  | _ => p
  end.
Definition shift (cx cy : Q) (p : pt) : pt := P (ptx p + cx) (pty p + cy).

(* path.py:1009-1111 PathSegment.toabsolute *)
Definition toabsolute (o : oracle) (s : seg) (cp : cpt) (bearing : Q) : seg :=
  let go p := shift (or0 (fst cp)) (or0 (snd cp)) (turn o bearing p) in
  match s with
  | SA true rx ry rot fa fs p =>
      SA false rx ry (if bearing =?q 0 then rot else rot + bearing) fa fs (go p)
  | SB true a => SB false (bearing + a)
  | SC true p1 p2 p => SC false (go p1) (go p2) (go p)
  | SH true x => SL false (go (P x 0))
  | SL true p => SL false (go p)
  | SM true p => SM false (go p)
  | ST true p => ST false (go p)
  | SQ true p1 p => SQ false (go p1) (go p)
  | SS true p2 p => SS false (go p2) (go p)
  | SV true y => SL false (go (P 0 y))
  | SZ true => SZ false
  | _ => s
  end.

(** ** Arcs *)
(* core.py:999-1001 and math.isclose *)
Definition tol : Q := 1 # 1000000000.
Definition isclose (a b : Q) : bool :=
  Qabs (a - b) <=?q Qmax (tol * Qmax (Qabs a) (Qabs b)) tol.
(* path.py:31-38 get_angle; [at2 y x] stands for degrees(atan2(y, x)) *)
Definition get_angle (at2 : Q -> Q -> Q) (y x : Q) : Q :=
  let d := at2 y x in
  if 0 <?q y then 360 - d else if y <?q 0 then - d else d.

(** what get_center_of_arc returns: no centre (with the radii), or the
    centre, the radii, the start angle and the extent *)
Inductive arc_centre :=
| NoCentre (rx ry : Q)
| Centre (c : pt) (rx ry d1 extent : Q).

(* the radii after path.py:669-683: absolute values, nearly 0 becomes 0 *)
Definition arc_radius (r : Q) : Q := if isclose (Qabs r) 0 then 0 else Qabs r.
(* path.py:695-713: x1', y1' and the enlarged radii; [k] is the square root
   factor applied to both radii *)
Definition arc_half (o : oracle) (rot : Q) (cp ep : pt) : pt :=
  let dx := (ptx cp - ptx ep) / 2 in let dy := (pty cp - pty ep) / 2 in
  P (ocos o rot * dx + osin o rot * dy) (- osin o rot * dx + ocos o rot * dy).
Definition arc_factor (o : oracle) (rx ry : Q) (h : pt) : Q :=
  let a := (ptx h * ptx h) / (rx * rx) + (pty h * pty h) / (ry * ry) in
  if 1 <?q a then osqrt o a else 1.
(* path.py:716-721: the argument of the second square root *)
Definition arc_fp (rx ry : Q) (h : pt) : Q :=
  (rx * rx * (ry * ry) - rx * rx * (pty h * pty h) - ry * ry * (ptx h * ptx h))
  / (rx * rx * (pty h * pty h) + ry * ry * (ptx h * ptx h)).
(* path.py:715-736: the centre *)
Definition arc_center (o : oracle) (rx ry rot : Q) (fa fs : bool) (cp ep : pt) : pt :=
  let h := arc_half o rot cp ep in
  let f := osqrt o (pymax (arc_fp rx ry h) 0) in
  let f := if Bool.eqb fa fs then - f else f in
  let cxp := f * (rx * pty h / ry) in
  let cyp := f * (- ry * ptx h / rx) in
  P (ocos o rot * cxp - osin o rot * cyp + (ptx cp + ptx ep) / 2)
    (osin o rot * cxp + ocos o rot * cyp + (pty cp + pty ep) / 2).
(* path.py:738-757: start angle and extent *)
Definition arc_extent (fa fs : bool) (d1 d2 : Q) : Q :=
  let delta := Qabs (d2 - d1) in
  let delta := if fa then (if delta <?q 180 then 360 - delta else delta)
               else (if 180 <?q delta then 360 - delta else delta) in
  if fs then - delta else delta.

(* path.py:622-757 PathSegment.get_center_of_arc, for the absolute arc
   values.  fa, fs are compared with 0 (671-672). *)
Definition get_center_of_arc (o : oracle) (at2 : Q -> Q -> Q)
  (rx ry rot fa fs : Q) (cp ep : pt) : arc_centre :=
  let rx := arc_radius rx in let ry := arc_radius ry in
  let fa := negb (fa =?q 0) in let fs := negb (fs =?q 0) in
  if (rx =?q 0) || (ry =?q 0) then NoCentre rx ry else
  if isclose (ptx cp) (ptx ep) && isclose (pty cp) (pty ep) then NoCentre rx ry else
  let k := arc_factor o rx ry (arc_half o rot cp ep) in
  let rx := rx * k in let ry := ry * k in
  let c := arc_center o rx ry rot fa fs cp ep in
  let d1 := get_angle at2 (pty cp - pty c) (ptx cp - ptx c) in
  let d2 := get_angle at2 (pty ep - pty c) (ptx ep - ptx c) in
  let d1 := if rot =?q 0 then d1 else d1 + rot in
  let d2 := if rot =?q 0 then d2 else d2 + rot in
  Centre c rx ry d1 (arc_extent fa fs d1 d2).

(* path.py:921-923 the matrix from the unit circle to the ellipse *)
Definition arc_matrix (o : oracle) (c : pt) (rx ry rot : Q) : dmat :=
  scale_self (rotate_self o (translate_self (DM mat_id true) (ptx c) (- pty c) 0) 0 0 (- rot))
             rx (Some ry) 1 0 0 0.
Definition arc_point (m : dmat) (x y : Q) : pt :=
  match transform_point m x y 0 1 with
  | a :: b :: _ => P a (- b)
  | _ => P 0 0
  end.
(* path.py:917-918; the angles are kept in degrees *)
Definition arc_control (o : oracle) (inc : Q) : Q :=
  (4 # 3) * osin o (inc / 2) / (1 + ocos o (inc / 2)).
(* path.py:926-955: the curve number i of n *)
Definition arc_curve (o : oracle) (m : dmat) (ep : pt) (start inc : Q) (n i : nat) : seg :=
  let cl := arc_control o inc in
  let t := start + inject_Z (Z.of_nat i) * inc in
  let dx := ocos o t in let dy := osin o t in
  let q1 := arc_point m (dx - cl * dy) (dy + cl * dx) in
  let t := t + inc in
  let dx := ocos o t in let dy := osin o t in
  let q2 := arc_point m (dx + cl * dy) (dy - cl * dx) in
  let q3 := if Nat.eqb (S i) n then ep else arc_point m dx dy in
  SC false q1 q2 q3.
(* path.py:898-956 *)
Definition normalize_arc (o : oracle) (at2 : Q -> Q -> Q)
  (rx ry rot fa fs : Q) (cp ep : pt) : result (list seg) :=
  match get_center_of_arc o at2 rx ry rot fa fs cp ep with
  | NoCentre rx ry => Ok (if (rx =?q 0) || (ry =?q 0) then [SL false ep] else [])
  | Centre c rx ry d1 extent =>
      let n := Z.to_nat (Qceiling (Qabs extent / 90)) in
      if Nat.eqb n 0 then Err ZeroDivisionError else
      let inc := extent / inject_Z (Z.of_nat n) in
      Ok (map (arc_curve o (arc_matrix o c rx ry rot) ep d1 inc n) (seq 0 n))
  end.

(** ** Segment normalisation *)
Definition lerp23 (a b : pt) : pt := (* a + 2/3 (b - a) *)
  P (ptx a + (2 # 3) * (ptx b - ptx a)) (pty a + (2 # 3) * (pty b - pty a)).
(* path.py:966-978 Q to C *)
Definition quad_to_cubic (p0 p1 p : pt) : seg :=
  SC false (lerp23 p0 p1) (lerp23 p p1) p.

(* path.py:870-1006 PathSegment.normalize.  [ext] is the pair x1, y1 of the
   keyword arguments, both None or both numbers in every call; T with None
   fails in numpy (TypeError), S with None builds a broken 'C'. *)
Definition seg_normalize (o : oracle) (at2 : Q -> Q -> Q) (s : seg) (cp : cpt) (bearing : Q)
  (ext : option pt) : result (list seg) :=
  match s with
  | SInvalid | SB _ _ => Ok []
  | _ =>
    let c := P (or0 (fst cp)) (or0 (snd cp)) in
    let s := if isrelative s then toabsolute o s (some_pt c) bearing else s in
    match s with
    | SA _ rx ry rot fa fs p => normalize_arc o at2 rx ry rot fa fs c p
    | SH _ x => Ok [SL false (P x (pty c))]
    | SV _ y => Ok [SL false (P (ptx c) y)]
    | SQ _ p1 p => Ok [quad_to_cubic c p1 p]
    | SS _ p2 p => Ok [match ext with Some p1 => SC false p1 p2 p | None => SCNone p2 p end]
    | ST _ p => match ext with Some p1 => Ok [quad_to_cubic c p1 p] | None => Err TypeError end
    | _ => Ok [s]
    end
  end.

Definition reflect (p c : pt) : pt := P (2 * ptx p - ptx c) (2 * pty p - pty c).
Definition reflect_opt (p : pt) (c : cpt) : result pt :=
  match c with (Some x, Some y) => Ok (reflect p (P x y)) | _ => Err TypeError end.
Definition is_cubic (last : option cmd) : bool :=
  match last with Some KC | Some KS => true | _ => false end.
Definition is_quad (last : option cmd) : bool :=
  match last with Some KQ | Some KT => true | _ => false end.

(* path.py:825-867 PathSegment.get_next_control_point.  Called for C, S, Q, T
   only; another segment is a ValueError (829-831). *)
Definition next_control (o : oracle) (s : seg) (cp : cpt) (bearing : Q) (last : option cmd)
  (ext : option pt) : result pt :=
  match toabsolute o s cp bearing with
  | SC _ _ p2 p | SCNone p2 p => Ok (reflect p p2)
  | SS _ p2 p => if is_cubic last then Ok (reflect p p2) else reflect_opt p cp
  | SQ _ p1 p => Ok (reflect p p1)
  | ST _ p =>
      if is_quad last then
        match ext with Some p1 => Ok (reflect p p1) | None => Err TypeError end
      else reflect_opt p cp
  | _ => Err ValueError
  end.

(** ** Path normalisation *)
Record nstate := NS { n_start : cpt; n_cp : cpt; n_ext : option pt; n_bearing : Q; n_last : option cmd }.
Definition nstate0 : nstate := NS (None, None) (None, None) None 0 None.

Definition is_moveto (k : option cmd) : bool := match k with Some KM => true | _ => false end.
(* start_x is None or start_y is None *)
Definition missing (c : cpt) : bool := negb (is_some (fst c)) || negb (is_some (snd c)).
Definition set_start (k : option cmd) (st : cpt) (last : option cmd) (e : cpt) : cpt :=
  if (is_moveto k && negb (is_moveto last)) || missing st then e else st.
(* x1, y1 = normalized[-1].end: the last segment is M, L, C or Z *)
Definition end_pt (c : cpt) : option pt :=
  match c with (Some x, Some y) => Some (P x y) | _ => None end.

(* path.py:1421-1464: one turn of the loop of PathParser.normalize *)
Definition normalize_step (o : oracle) (at2 : Q -> Q -> Q) (st : nstate) (s : seg)
  : result (nstate * list seg) :=
  let k := kind s in
  match k with
  | None => Ok (st, [])
  | Some KB => Ok (NS (n_start st) (n_cp st) (n_ext st) (get_bearing s (n_bearing st)) k, [])
  | Some _ =>
      do l <- seg_normalize o at2 s (n_cp st) (n_bearing st) (n_ext st);
      do ext <- (if is_cubic k || is_quad k then
                   do p <- next_control o s (n_cp st) (n_bearing st) (n_last st) (n_ext st);
                   Ok (Some p)
                 else match rev l with [] => Err IndexError | e :: _ => Ok (end_pt (seg_end e)) end);
      match s with
      | SZ _ => Ok (NS (n_start st) (if missing (n_start st) then n_cp st else n_start st)
                       ext (n_bearing st) k, l)
      | _ =>
          match rev l with
          | [] => Err IndexError
          | e :: _ =>
              let cp := seg_end e in
              Ok (NS (set_start k (n_start st) (n_last st) cp) cp ext (n_bearing st) k, l)
          end
      end
  end.
Fixpoint normalize_from (o : oracle) (at2 : Q -> Q -> Q) (st : nstate) (l : list seg) : result (list seg) :=
  match l with
  | [] => Ok []
  | s :: l' =>
      do (st', out) <- normalize_step o at2 st s;
      do rest <- normalize_from o at2 st' l';
      Ok (out ++ rest)
  end.
(* path.py:1400-1465 PathParser.normalize *)
Definition normalize (o : oracle) (at2 : Q -> Q -> Q) (l : list seg) : result (list seg) :=
  normalize_from o at2 nstate0 l.

(** ** Transformation *)
(* path.py:1114-1166 PathSegment.transform.  transform_point of a None
   coordinate is a TypeError. *)
Definition cp_pt (x y : option Q) : result pt :=
  match x, y with Some x, Some y => Ok (P x y) | _, _ => Err TypeError end.
Definition seg_transform (o : oracle) (s : seg) (cp : cpt) (bearing : Q) (m : dmat) : result seg :=
  match s with
  | SInvalid | SZ _ => Ok s
  | SB _ _ => Err NotImplementedError_
  | _ =>
    match (if isrelative s then toabsolute o s cp bearing else s) with
    | SA _ rx ry rot fa fs p => do p <- tpoint m p; Ok (SA false rx ry rot fa fs p)
    | SC _ p1 p2 p =>
        do p1 <- tpoint m p1; do p2 <- tpoint m p2; do p <- tpoint m p; Ok (SC false p1 p2 p)
    | SH _ x => do p <- cp_pt (Some x) (snd cp); do p <- tpoint m p; Ok (SL false p)
    | SL _ p => do p <- tpoint m p; Ok (SL false p)
    | SM _ p => do p <- tpoint m p; Ok (SM false p)
    | ST _ p => do p <- tpoint m p; Ok (ST false p)
    | SQ _ p1 p => do p1 <- tpoint m p1; do p <- tpoint m p; Ok (SQ false p1 p)
    | SS _ p2 p => do p2 <- tpoint m p2; do p <- tpoint m p; Ok (SS false p2 p)
    | SV _ y => do p <- cp_pt (fst cp) (Some y); do p <- tpoint m p; Ok (SL false p)
    | _ => Err TypeError (* SCNone *)
    end
  end.

Record tstate := TS { t_start : cpt; t_cp : cpt; t_bearing : Q; t_last : option cmd }.
Definition tstate0 : tstate := TS (None, None) (None, None) 0 None.
(* path.py:1525-1566: one turn of the loop of PathParser.transform *)
Definition transform_step (o : oracle) (m : dmat) (st : tstate) (s : seg)
  : result (tstate * list seg) :=
  let k := kind s in
  match k with
  | None => Ok (st, [])
  | Some KB => Ok (TS (t_start st) (t_cp st) (get_bearing s (t_bearing st)) k, [])
  | Some KZ =>
      Ok (TS (t_start st) (if missing (t_start st) then t_cp st else t_start st)
             (t_bearing st) k, [SZ false])
  | Some _ =>
      do t <- seg_transform o s (t_cp st) (t_bearing st) m;
      let a := if isrelative s then toabsolute o s (t_cp st) (t_bearing st) else s in
      let cp := seg_end a in
      Ok (TS (set_start k (t_start st) (t_last st) cp) cp (t_bearing st) k, [t])
  end.
Fixpoint transform_from (o : oracle) (m : dmat) (st : tstate) (l : list seg) : result (list seg) :=
  match l with
  | [] => Ok []
  | s :: l' =>
      do (st', out) <- transform_step o m st s;
      do rest <- transform_from o m st' l';
      Ok (out ++ rest)
  end.
(* path.py:1517-1567 PathParser.transform *)
Definition path_transform (o : oracle) (m : dmat) (l : list seg) : result (list seg) :=
  transform_from o m tstate0 l.
