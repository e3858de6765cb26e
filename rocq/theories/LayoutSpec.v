(** Where the glyphs of a text element stand. *)
From Coq Require Import Qabs.
From Verif Require Import PyBase MatrixModel RectModel RectSpec PathModel PathSpec UseSpec LayoutModel.
Local Open Scope Q_scope.

(** A glyph of the text, with the text elements around it, the way its piece is
    set and the direction of its run. *)
Record item := mkI { i_line : list N; i_setup : setup; i_rtl : bool; i_glyph : glyph }.
(** The glyphs of a line in the order of their characters. *)
Definition ordered (gs : list glyph) : list glyph :=
  match gs with
  | [] => []
  | g :: _ => if (g_cluster (last gs g) <? g_cluster g)%Z then rev gs else gs
  end.
Definition run_items (p : piece) (r : run) : list item :=
  flat_map (fun l => map (mkI (pc_line p) (pc_setup p) (r_rtl r)) (ordered (l_glyphs l))) (r_lines r).
Definition piece_items (p : piece) : list item := flat_map (run_items p) (pc_runs p).
Definition items (ps : list piece) : list item := flat_map piece_items ps.
Definition all_placed (dss : list (list laid)) : list placed := flat_map (flat_map d_placed) dss.

(** one glyph for each character *)
Definition straight (ps : list piece) : Prop :=
  forall p r l, In p ps -> In r (pc_runs p) -> In l (r_lines r) -> length (l_glyphs l) = l_chars l.
(** horizontal runs go in the direction of their element *)
Definition uniform (ps : list piece) : Prop :=
  forall p r, In p ps -> In r (pc_runs p) -> s_horizontal (pc_setup p) = true -> r_rtl r = negb (s_ltr (pc_setup p)).

(** ** Entries of the position lists *)
(** the nearest element around that specifies the attribute *)
Definition nearest (g0 : store) (a : attr) (ks : list N) : option N :=
  find (fun k => match g0 k a with Some _ => true | None => false end) ks.
Definition counted (g0 : store) (a : attr) (k : N) (before : list item) : nat :=
  length (filter (fun it => match nearest g0 a (i_line it) with Some k' => N.eqb k' k | None => false end) before).
(** the entry for a glyph: that element's list, counting the glyphs before that
    take theirs from the same list *)
Definition entry (g0 : store) (a : attr) (before : list item) (it : item) : option Q :=
  match nearest g0 a (i_line it) with
  | Some k => match g0 k a with Some l => nth_error l (counted g0 a k before) | None => None end
  | None => None
  end.
(** the last entry of 'rotate' is repeated *)
Definition turned (g0 : store) (before : list item) (it : item) : Q :=
  match nearest g0 ARotate (i_line it) with
  | Some k => match g0 k ARotate with
              | Some l => nth (Nat.min (counted g0 ARotate k before) (length l - 1)) l 0
              | None => 0
              end
  | None => 0
  end.
Definition or_else (v : option Q) (d : Q) : Q := match v with Some v => v | None => d end.

(** ** Positions *)
Definition advance (it : item) : Q :=
  if s_horizontal (i_setup it) then g_xadv (i_glyph it) else - g_yadv (i_glyph it).
(** where the next glyph goes by itself after [it] was placed at (x, y) *)
Definition next_x (it : item) (x : Q) : Q :=
  if i_rtl it then x else x - g_xoff (i_glyph it) + (if s_horizontal (i_setup it) then advance it else 0).
Definition next_y (it : item) (y : Q) : Q :=
  y + g_yoff (i_glyph it) + (if s_horizontal (i_setup it) then 0 else advance it).
(** [sits g0 before cx cy it p]: the glyph is placed for the flow position (cx, cy) *)
Definition sits (g0 : store) (before : list item) (cx cy : Q) (it : item) (p : placed) : Prop :=
  pl_id p = g_id (i_glyph it) /\
  pl_x p == or_else (entry g0 AX before it) cx + or_else (entry g0 ADx before it) 0 + g_xoff (i_glyph it)
            - (if s_horizontal (i_setup it) && i_rtl it then advance it else 0) /\
  pl_y p == or_else (entry g0 AY before it) cy + or_else (entry g0 ADy before it) 0 - g_yoff (i_glyph it) /\
  pl_rot p = turned g0 before it /\
  pl_adv p = advance it.
(** where a text without any entry would begin *)
Definition begins (g0 : store) (ps : list piece) (a : attr) : Q :=
  match ps with
  | p :: _ => match pc_line p with k :: _ => match g0 k a with Some (v :: _) => v | _ => 0 end | [] => 0 end
  | [] => 0
  end.
(** the flow position after the glyphs so far *)
Definition flow (x y : Q) (before : list item) (placed_before : list placed) : Q * Q :=
  match rev before, rev placed_before with
  | it :: _, p :: _ => (next_x it (pl_x p), next_y it (pl_y p))
  | _, _ => (x, y)
  end.

(** ** Drawing *)
(** the outline (y upwards) set down with its origin at (x, y) and turned by the
    angle whose cosine and sine are c and s *)
Definition set_down (x y c s : Q) (p : pt) : pt :=
  P (x + (c * ptx p + s * pty p)) (y + (s * ptx p - c * pty p)).
Definition close_to (e : Q) (p q : pt) : Prop :=
  - e <= ptx p - ptx q <= e /\ - e <= pty p - pty q <= e.
(** [image f e g h]: h is the absolute M, L, Q or C command g with its points
    moved by f, up to e *)
Inductive image (f : pt -> pt) (e : Q) : seg -> seg -> Prop :=
| im_move p p' : close_to e p' (f p) -> image f e (SM false p) (SM false p')
| im_line p p' : close_to e p' (f p) -> image f e (SL false p) (SL false p')
| im_quad c p c' p' : close_to e c' (f c) -> close_to e p' (f p) -> image f e (SQ false c p) (SQ false c' p')
| im_cube c d p c' d' p' : close_to e c' (f c) -> close_to e d' (f d) -> close_to e p' (f p) ->
    image f e (SC false c d p) (SC false c' d' p').
Definition outlines (g : seg) : Prop :=
  match g with SM false _ | SL false _ | SQ false _ _ | SC false _ _ _ => True | _ => False end.
(** [l] shows the glyph of [it] at the place of [p], [dx] to the right of it *)
Definition shows_glyph (o : oracle) (dx : Q) (it : item) (p : placed) (l : list seg) : Prop :=
  let c := ocos o (pl_rot p) in let s := osin o (pl_rot p) in
  Forall2 (image (set_down (pl_x p + dx) (pl_y p) c s) ((Qabs c + Qabs s) / 64)) (s_outline (i_setup it) (pl_id p)) l.

(** ** Boxes *)
(** the cell of a glyph placed at (x, y): on the line of horizontal text, below
    the point in vertical text *)
Definition cell (it : item) (p : placed) (px py : Q) : Prop :=
  let s := i_setup it in let g := i_glyph it in
  if s_horizontal s then
    pl_x p <= px <= pl_x p + g_xadv g /\ pl_y p - s_height s - s_descender s <= py <= pl_y p - s_descender s
  else if s_sideways s then pl_x p <= px <= pl_x p + s_width s /\ pl_y p <= py <= pl_y p + g_xadv g
  else pl_x p <= px <= pl_x p + s_width s /\ pl_y p + g_yoff g <= py <= pl_y p + g_yoff g - g_yadv g.
Definition sized (it : item) : Prop :=
  let s := i_setup it in let g := i_glyph it in
  if s_horizontal s then 0 < g_xadv g /\ 0 < s_height s
  else 0 < s_width s /\ (if s_sideways s then 0 < g_xadv g else g_yadv g < 0).
(** the point (px, py) turned about (x, y) *)
Definition turn_x (c s x y px py : Q) : Q := x + (c * (px - x) - s * (py - y)).
Definition turn_y (c s x y px py : Q) : Q := y + (s * (px - x) + c * (py - y)).
(** the box has the turned cell of the glyph in it *)
Definition covers (o : oracle) (b : rect) (it : item) (p : placed) : Prop :=
  let c := ocos o (pl_rot p) in let s := osin o (pl_rot p) in
  forall px py, cell it p px py -> region b (turn_x c s (pl_x p) (pl_y p) px py) (turn_y c s (pl_x p) (pl_y p) px py).

(** ** Text that flows to the right *)
Definition rightwards (it : item) : Prop := s_horizontal (i_setup it) = true /\ i_rtl it = false.
Definition dx_of (g0 : store) (before : list item) (it : item) : Q := or_else (entry g0 ADx before it) 0.
Definition dy_of (g0 : store) (before : list item) (it : item) : Q := or_else (entry g0 ADy before it) 0.
Fixpoint travelled (g0 : store) (before its : list item) : Q :=
  match its with [] => 0 | it :: its' => dx_of g0 before it + advance it + travelled g0 (before ++ [it]) its' end.
Fixpoint dropped (g0 : store) (before its : list item) : Q :=
  match its with [] => 0 | it :: its' => dy_of g0 before it + dropped g0 (before ++ [it]) its' end.
(** no glyph of [its] after [before] has an entry of its own *)
Definition no_entry (g0 : store) (a : attr) (before its : list item) : Prop :=
  forall b1 it b2, its = b1 ++ it :: b2 -> entry g0 a (before ++ b1) it = None.

(** ** Ligatures *)
(** clusters after [c] in which each glyph stands for one or two characters *)
Fixpoint pairs_from (c : Z) (cl : list Z) : Prop :=
  match cl with
  | [] => True
  | d :: cl' => (d = c + 1 \/ d = c + 2)%Z /\ pairs_from d cl'
  end.
(** what the characters left out before the character c add to its entry *)
Definition with_left_out (last c : Z) (l : list Q) (v : Q) : Q :=
  if (c =? last + 2)%Z then v + nth (Z.to_nat (last + 1)) l 0 else v.

(** ** Lines against the direction of their element *)
Fixpoint width_of (gs : list glyph) : Q := match gs with [] => 0 | g :: gs' => g_xadv g + width_of gs' end.
(** nothing but the pen says where the glyphs go *)
Definition free (pn : pen) : Prop := p_lists pn = mkLs [] [] [] [] [] /\ p_rot pn = 0.
Definition no_offset (g : glyph) : Prop := g_xoff g == 0 /\ g_yoff g == 0.

(** ** What SVG asks for *)
(** a list of an element counts all characters inside the element *)
Definition inside (k : N) (before : list item) : nat :=
  length (filter (fun it => existsb (N.eqb k) (i_line it)) before).
Definition svg_entry (g0 : store) (a : attr) (before : list item) (it : item) : option Q :=
  match find (fun k => match g0 k a with Some l => (inside k before <? length l)%nat | None => false end) (i_line it) with
  | Some k => match g0 k a with Some l => nth_error l (inside k before) | None => None end
  | None => None
  end.
