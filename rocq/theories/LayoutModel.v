(** Model of the layout of glyphs in a text element (svgpy/text.py:127-504) and
    of PathParser.from_glyph (svgpy/path.py:1198-1256).

    Shaping (HarfBuzz), bidirectional runs and line breaks (ICU) and glyph
    outlines (FreeType) are given: every result of theirs is allowed.
    Simplifications: exact rationals for the floats and for FreeType's 16.16
    matrices and 26.6 outlines, except for the int() in from_glyph; the style
    (font, writing mode, direction) of an element is given as [setup]. *)
From Verif Require Import PyBase PyText MatrixModel RectModel PathModel.
Local Open Scope Q_scope.

(** One glyph of the shaper, its numbers already divided by 64
    (text.py:424-425, 429, 444). *)
Record glyph := mkG { g_id : N; g_cluster : Z; g_xoff : Q; g_yoff : Q; g_xadv : Q; g_yadv : Q }.
(** A line of a run in the order of the iteration (text.py:338-343): the number
    of its characters and its glyphs. *)
Record line := mkL { l_chars : nat; l_glyphs : list glyph }.
(** A run of one direction (text.py:334-337): where it starts, its level. *)
Record run := mkR { r_start : nat; r_rtl : bool; r_lines : list line }.
(** text.py:245-246, 278-281, 322-324: direction, writing mode, metrics; and
    the outlines, in pixels, y upwards. *)
Record setup := mkS { s_horizontal : bool; s_ltr : bool; s_sideways : bool;
  s_width : Q; s_height : Q; s_descender : Q; s_outline : N -> list seg }.
Record lists := mkLs { xs : list Q; ys : list Q; dxs : list Q; dys : list Q; rots : list Q }.

(** ** Ligatures (text.py:356-392) *)
(* list.pop(i) when i < len(list) *)
Definition drop_entry (i : nat) (l : list Q) : list Q := firstn i l ++ skipn (S i) l.
(* text.py:377-380: pop and add to what is then at the index *)
Definition merge_entry (i : nat) (l : list Q) : list Q :=
  match skipn i l with
  | d :: e :: r => firstn i l ++ (e + d) :: r
  | _ => firstn i l
  end.
(* text.py:386-388 *)
Definition drop_rotate (i : nat) (l : list Q) : list Q :=
  if (1 <? length l)%nat then drop_entry i l else l.
Definition ligature (i : nat) (ls : lists) : lists :=
  mkLs (drop_entry i (xs ls)) (drop_entry i (ys ls)) (merge_entry i (dxs ls)) (merge_entry i (dys ls))
    (drop_rotate i (rots ls)).
(* text.py:362-389; [i] is logical_start + offset *)
Fixpoint reposition (inc : Z) (i : nat) (last : option Z) (cl : list Z) (ls : lists) : lists :=
  match cl with
  | [] => ls
  | c :: cl' =>
      let ls' := match last with
                 | None => ls
                 | Some l => if (l =? c)%Z || (l + inc =? c)%Z then ls else ligature i ls
                 end in
      reposition inc (S i) (Some c) cl' ls'
  end.
(* text.py:357-361 *)
Definition cluster_inc (cl : list Z) : Z :=
  match cl with
  | [] => 1%Z
  | c :: r => Z.max ((fold_left Z.max r c - fold_left Z.min r c) / Z.of_nat (length cl)) 1
  end.

(** ** Drawing one glyph *)
(* text.py:456-459 *)
Definition glyph_matrix (o : oracle) (rot x y : Q) : dmat :=
  let m := DM mat_id true in
  let m := if rot =?q 0 then m else MatrixModel.rotate_self o m 0 0 rot in
  MatrixModel.translate_self m x (- y) 0.
(* text.py:449-454: about the position *)
Definition box_matrix (o : oracle) (rot x y : Q) : dmat :=
  MatrixModel.translate_self (MatrixModel.rotate_self o (MatrixModel.translate_self (DM mat_id true) x y 0) 0 0 rot) (- x) (- y) 0.
Definition affine_of (m : dmat) : affine :=
  mkAff (m11 (arr m)) (m12 (arr m)) (m21 (arr m)) (m22 (arr m)) (m41 (arr m)) (m42 (arr m)).
(* int(v * 64), in pixels *)
Definition trunc (q : Q) : Z := Z.quot (Qnum q) (Zpos (Qden q)).
Definition grid (v : Q) : Q := inject_Z (trunc (v * 64)) / 64.
(* freetype.py:925-1022 FTMatrix: numpy's two rows *)
Record ftmat := mkFt { f00 : Q; f01 : Q; f10 : Q; f11 : Q }.
(* np.dot, freetype.py:1090-1104, 1163-1164 *)
Definition ft_dot (a b : ftmat) : ftmat :=
  mkFt (f00 a * f00 b + f01 a * f10 b) (f00 a * f01 b + f01 a * f11 b)
       (f10 a * f00 b + f11 a * f10 b) (f10 a * f01 b + f11 a * f11 b).
Definition ft_flip_y : ftmat := ft_dot (mkFt 1 0 0 1) (mkFt 1 0 0 (-1)).
(* the setters a, b, c, d (freetype.py:970-1012) *)
Definition ft_of (m : dmat) : ftmat := mkFt (m11 (arr m)) (m12 (arr m)) (m21 (arr m)) (m22 (arr m)).
(* FT_Outline_Transform with ft_matrix (freetype.py:1014-1022, 857-859):
   xx, xy, yx, yy are the entries of the two rows *)
Definition ft_apply (f : ftmat) (p : pt) : pt :=
  P (f00 f * ptx p + f01 f * pty p) (f10 f * ptx p + f11 f * pty p).
(* path.py:1236-1250 *)
Definition from_glyph_point (m : dmat) (p : pt) : pt :=
  ft_apply (ft_dot ft_flip_y (ft_of m)) (P (ptx p + grid (m41 (arr m))) (pty p + grid (m42 (arr m)))).
(* path.py:1210-1234: the outline has absolute M, L, Q and C only *)
Definition seg_map (f : pt -> pt) (g : seg) : seg :=
  match g with
  | SM r p => SM r (f p)
  | SL r p => SL r (f p)
  | SQ r c p => SQ r (f c) (f p)
  | SC r c d p => SC r (f c) (f d) (f p)
  | g => g
  end.
Definition from_glyph (m : dmat) (outline : list seg) : list seg := map (seg_map (from_glyph_point m)) outline.

(** ** One glyph after the other (text.py:394-486) *)
Record pen := mkPen { p_lists : lists; p_rot : Q; p_x : Q; p_y : Q }.
Record placed := mkP { pl_id : N; pl_x : Q; pl_y : Q; pl_rot : Q; pl_adv : Q; pl_box : rect }.
(* l.pop(0) if len(l) > 0 else d *)
Definition take (l : list Q) (d : Q) : Q * list Q :=
  match l with v :: l' => (v, l') | [] => (d, []) end.
(* text.py:417-421 *)
Definition take_rotate (l : list Q) (d : Q) : Q * list Q :=
  match l with [] => (d, []) | [r] => (r, [r]) | r :: l' => (r, l') end.
Definition put (o : oracle) (s : setup) (rtl : bool) (pn : pen) (g : glyph) : pen * placed :=
  let '(x, xs') := take (xs (p_lists pn)) (p_x pn) in
  let '(y, ys') := take (ys (p_lists pn)) (p_y pn) in
  let '(dx, dxs') := take (dxs (p_lists pn)) 0 in
  let '(dy, dys') := take (dys (p_lists pn)) 0 in
  let '(rot, rots') := take_rotate (rots (p_lists pn)) (p_rot pn) in
  let x := x + (dx + g_xoff g) in
  let y := y + (dy - g_yoff g) in
  let adv := if s_horizontal s then g_xadv g else - g_yadv g in
  let x := if s_horizontal s && rtl then x - adv else x in
  let box := if s_horizontal s then rect4 x (y - s_height s - s_descender s) adv (s_height s)
             else if s_sideways s then rect4 x y (s_width s) (g_xadv g)
             else rect4 x (y - adv + adv + g_yoff g) (s_width s) adv in
  let x_advance := if s_horizontal s then adv else 0 in
  let y_advance := if s_horizontal s then 0 else adv in
  let box := if rot =?q 0 then box else transform_self box (affine_of (box_matrix o rot x y)) in
  (mkPen (mkLs xs' ys' dxs' dys' rots') rot
     (if rtl then x else x + (x_advance - g_xoff g)) (y + (y_advance + g_yoff g)),
   mkP (g_id g) x y rot adv box).
Fixpoint puts (o : oracle) (s : setup) (rtl : bool) (pn : pen) (gs : list glyph) : pen * list placed :=
  match gs with
  | [] => (pn, [])
  | g :: gs' => let '(pn1, p) := put o s rtl pn g in
                let '(pn2, ps) := puts o s rtl pn1 gs' in (pn2, p :: ps)
  end.
Definition glyph_path (o : oracle) (s : setup) (p : placed) : list seg :=
  from_glyph (glyph_matrix o (pl_rot p) (pl_x p) (pl_y p)) (s_outline s (pl_id p)).

(** ** One line (text.py:343-500) *)
Record laid := mkLaid { d_pen : pen; d_placed : list placed; d_path : list seg; d_box : rect }.
(* text.py:351-354 *)
Definition in_cluster_order (gs : list glyph) : result (list glyph) :=
  match gs with
  | [] => Err IndexError
  | g :: _ => Ok (if (g_cluster (last gs g) <? g_cluster g)%Z then rev gs else gs)
  end.
(* text.py:487-490: the run goes against the direction of the element *)
Definition against (s : setup) (rtl : bool) : bool := s_horizontal s && Bool.eqb (s_ltr s) rtl.
Definition lay_line (o : oracle) (s : setup) (start : nat) (rtl : bool) (pn : pen) (l : line) : result laid :=
  do gs <- in_cluster_order (l_glyphs l);
  let ls := if (length gs =? l_chars l)%nat then p_lists pn
            else let cl := map g_cluster gs in reposition (cluster_inc cl) start None cl (p_lists pn) in
  let '(pn, ps) := puts o s rtl (mkPen ls (p_rot pn) (p_x pn) (p_y pn)) gs in
  let box := fold_left unite (map pl_box ps) rect_unset in
  let path := flat_map (glyph_path o s) ps in
  if against s rtl then
    let k := if s_ltr s then 1 else -1 in
    let w := rw box in
    match RectModel.translate_self box (k * w) 0 with
    | (_, Some e) => Err e
    | (box', None) =>
        do path' <- path_transform o (MatrixModel.translate_self (DM mat_id true) (k * w) 0 0) path;
        match (if s_ltr s then right box' else rx box') with
        | None => Err TypeError
        | Some x => Ok (mkLaid (mkPen (p_lists pn) (p_rot pn) x (p_y pn)) ps path' box')
        end
    end
  else Ok (mkLaid pn ps path box).
(** The lines of a run, the runs of a text (text.py:334-502). *)
Fixpoint lay_lines (o : oracle) (s : setup) (start : nat) (rtl : bool) (pn : pen) (ls : list line) : result (pen * list laid) :=
  match ls with
  | [] => Ok (pn, [])
  | l :: ls' => do d <- lay_line o s start rtl pn l;
                do (pn', ds) <- lay_lines o s start rtl (d_pen d) ls';
                Ok (pn', d :: ds)
  end.
Fixpoint lay_runs (o : oracle) (s : setup) (pn : pen) (rs : list run) : result (pen * list laid) :=
  match rs with
  | [] => Ok (pn, [])
  | r :: rs' => do (pn1, ds1) <- lay_lines o s (r_start r) (r_rtl r) pn (r_lines r);
                do (pn2, ds2) <- lay_runs o s pn1 rs';
                Ok (pn2, ds1 ++ ds2)
  end.

(** ** Pieces of text in their elements *)
(** What get_computed_geometry gives of an element (text.py:524-594). *)
Inductive attr := AX | AY | ADx | ADy | ARotate.
Definition attr_eqb (a b : attr) : bool :=
  match a, b with AX, AX | AY, AY | ADx, ADx | ADy, ADy | ARotate, ARotate => true | _, _ => false end.
(** The style map: the lists are shared with it and popped from. *)
Definition store := N -> attr -> option (list Q).
Definition upd (st : store) (k : N) (a : attr) (l : list Q) : store :=
  fun k' a' => if N.eqb k' k && attr_eqb a' a then Some l else st k' a'.
(** A piece of text: the displayed text elements around it, its own first
    (text.py:213-226), how it is set, its runs. *)
Record piece := mkPiece { pc_line : list N; pc_setup : setup; pc_runs : list run }.
Fixpoint owner (st : store) (a : attr) (ks : list N) : option N :=
  match ks with
  | [] => None
  | k :: ks' => match st k a with Some _ => Some k | None => owner st a ks' end
  end.
Definition held (st : store) (a : attr) (ks : list N) : list Q :=
  match owner st a ks with Some k => match st k a with Some l => l | None => [] end | None => [] end.
Definition keep (ks : list N) (a : attr) (l : list Q) (st : store) : store :=
  match owner st a ks with Some k => upd st k a l | None => st end.
(* text.py:190-504 for one piece *)
Definition lay_piece (o : oracle) (st : store) (x y : Q) (p : piece) : result (store * Q * Q * list laid) :=
  let ks := pc_line p in
  let ls := mkLs (held st AX ks) (held st AY ks) (held st ADx ks) (held st ADy ks) (held st ARotate ks) in
  do (pn, ds) <- lay_runs o (pc_setup p) (mkPen ls 0 x y) (pc_runs p);
  let l := p_lists pn in
  let st := keep ks AX (xs l) st in
  let st := keep ks AY (ys l) st in
  let st := keep ks ADx (dxs l) st in
  let st := keep ks ADy (dys l) st in
  let st := keep ks ARotate (rots l) st in
  Ok (st, p_x pn, p_y pn, ds).
Fixpoint lay_pieces (o : oracle) (st : store) (x y : Q) (ps : list piece) : result (list (list laid)) :=
  match ps with
  | [] => Ok []
  | p :: ps' => do (r, ds) <- lay_piece o st x y p;
                let '(st', x', y') := r in
                do dss <- lay_pieces o st' x' y' ps';
                Ok (ds :: dss)
  end.
(* text.py:152-187; the first entry of the lists of the first piece's element *)
Definition first_entry (st : store) (k : N) (a : attr) : result Q :=
  match st k a with None => Ok 0 | Some [] => Err IndexError | Some (v :: _) => Ok v end.
Definition lay_text (o : oracle) (st : store) (ps : list piece) : result (list (list laid)) :=
  match ps with
  | [] => Ok []
  | p :: _ => match pc_line p with
              | [] => Err KeyError
              | k :: _ => do x <- first_entry st k AX; do y <- first_entry st k AY; lay_pieces o st x y ps
              end
  end.
(** text.py:506-522, 658-674, and the advance list (text.py:448): of the whole
    text element, whichever of its elements is asked. *)
Definition text_path (dss : list (list laid)) : list seg := flat_map (fun ds => flat_map d_path ds) dss.
Definition piece_box (ds : list laid) : rect := fold_left unite (map d_box ds) rect_unset.
Definition text_box (dss : list (list laid)) : rect := fold_left unite (map piece_box dss) rect_unset.
Definition piece_advances (ds : list laid) : list Q := flat_map (fun d => map pl_adv (d_placed d)) ds.
