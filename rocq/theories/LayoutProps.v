(** C69: where the glyphs of a text element stand and how they are drawn. *)
From Coq Require Import Lia Lqa Qabs.
From Verif Require Import PyBase MatrixModel MatrixSpec MatrixProofs MatrixProofs2 RectModel RectSpec RectProofs PathModel PathSpec
  LayoutModel LayoutSpec LayoutProofs LayoutProofs2 LayoutProofs3 LayoutProofs4.
Local Open Scope Q_scope.

(** ** Texts of the examples *)
(* every glyph is a triangle *)
Definition ex_outline (id : N) : list seg := [SM false (P 0 0); SL false (P 4 0); SL false (P 2 8)].
Definition ex_setup : setup := mkS true true false 10 12 (-2) ex_outline.
Definition gl (c : Z) (adv : Q) : glyph := mkG 1 c 0 0 adv 0.
Definition one_run (n : nat) (gs : list glyph) : run := mkR 0 false [mkL n gs].
(* 1 is the text element, 2 a tspan in it *)
Definition ex_store (x y : list Q) (dx : option (list Q)) (tx : option (list Q)) : store :=
  fun k a => match k, a with
             | 1%N, AX => Some x | 1%N, AY => Some y | 1%N, ADx => dx
             | 2%N, AX => tx | 2%N, ARotate => Some [0; 90] | _, _ => None end.
Definition ex_pieces : list piece :=
  [mkPiece [1%N] ex_setup [one_run 2 [gl 0 7; gl 1 8]]; mkPiece [2%N; 1%N] ex_setup [one_run 2 [gl 0 9; gl 1 5]]].
Definition ex_xs : store := ex_store [3; 20] [10] (Some [1; 1; 1; 1]) None.
Definition placed_at (r : result (list (list laid))) : list (Q * Q * Q) :=
  match r with Ok dss => map (fun p => (Qred (pl_x p), Qred (pl_y p), pl_rot p)) (all_placed dss) | Err _ => [] end.

(** ** Positions.
    In every text with one glyph for each character whose runs go in the
    direction of their element, each glyph stands at the entries of the nearest
    lists around it, moved by dx and dy; without an entry it follows the glyph
    before; it is turned by its entry of 'rotate', whose last one is repeated. *)
Theorem c69_positions : forall o g0 ps dss, lay_text o g0 ps = Ok dss -> straight ps -> uniform ps ->
  (forall k l, g0 k ARotate = Some l -> l <> []) ->
  length (all_placed dss) = length (items ps) /\
  forall a it b p, items ps = a ++ it :: b -> nth_error (all_placed dss) (length a) = Some p ->
    let '(cx, cy) := flow (begins g0 ps AX) (begins g0 ps AY) a (firstn (length a) (all_placed dss)) in sits g0 a cx cy it p.
Proof.
  intros o g0 ps dss E Sg U SE. apply text_start in E.
  destruct (pieces_placing o g0 ps SE Sg U [] g0 _ _ dss (store_start g0) E) as (x' & y' & H).
  split; [exact (placing_length _ _ _ _ _ _ _ _ H)|]. intros a it b p Ei Np.
  exact (placing_each g0 _ [] [] _ _ _ _ _ _ _ H (Qeq_refl _) (Qeq_refl _) eq_refl a it b p Ei Np).
Qed.
Example ex_positions : straight ex_pieces /\ uniform ex_pieces /\
  placed_at (lay_text quarter_oracle ex_xs ex_pieces) = [(4, 10, 0); (21, 10, 0); (30, 10, 0); (40, 10, 90)].
Proof.
  split; [|split; [|vm_compute; reflexivity]].
  - intros p r l [<-|[<-|[]]] [<-|[]] [<-|[]]; reflexivity.
  - intros p r [<-|[<-|[]]] [<-|[]] _; reflexivity.
Qed.
Print Assumptions c69_positions.

(** Between two entries text that goes to the right flows: every glyph stands
    at the last entry, moved by the advances of the glyphs since and by all dx
    and dy since. *)
Theorem c69_flow : forall o g0 ps dss, lay_text o g0 ps = Ok dss -> straight ps -> uniform ps ->
  (forall k l, g0 k ARotate = Some l -> l <> []) ->
  forall a it b jt c x y p, items ps = a ++ it :: b ++ jt :: c -> Forall rightwards (it :: b ++ [jt]) ->
  entry g0 AX a it = Some x -> entry g0 AY a it = Some y ->
  no_entry g0 AX (a ++ [it]) (b ++ [jt]) -> no_entry g0 AY (a ++ [it]) (b ++ [jt]) ->
  nth_error (all_placed dss) (length (a ++ it :: b)) = Some p ->
  pl_x p == x + travelled g0 a (it :: b) + dx_of g0 (a ++ it :: b) jt + g_xoff (i_glyph jt) /\
  pl_y p == y + dropped g0 a (it :: b ++ [jt]) - g_yoff (i_glyph jt).
Proof.
  intros o g0 ps dss E Sg U SE a it b jt c x y p Ei F Ex Ey Nx Ny Np. apply text_start in E.
  destruct (pieces_placing o g0 ps SE Sg U [] g0 _ _ dss (store_start g0) E) as (x' & y' & H).
  exact (flow_after g0 _ _ _ _ _ _ a it b jt c x y p H Ei F Ex Ey Nx Ny Np).
Qed.
Example ex_flow : let g0 := ex_store [3] [10] None None in
  exists a it b jt, items ex_pieces = a ++ it :: b ++ [jt] /\ length b = 2%nat /\ Forall rightwards (it :: b ++ [jt]) /\
    entry g0 AX a it = Some 3 /\ entry g0 AY a it = Some 10 /\ travelled g0 a (it :: b) == 24.
Proof.
  cbn zeta. exists []. do 3 eexists. split; [instantiate (2 := [_; _]); reflexivity|]. split; [reflexivity|].
  split; [repeat constructor|]. repeat split.
Qed.
Print Assumptions c69_flow.

(** The list of the outermost element alone counts the characters as SVG asks.
    Missing: lists of elements inside one another (c69_counting_refuted). *)
Theorem c69_counting_partial : forall g0 a k before it,
  (forall k', g0 k' a <> None -> k' = k) -> Forall (fun jt => In k (i_line jt)) (before ++ [it]) ->
  entry g0 a before it = svg_entry g0 a before it.
Proof.
  intros g0 a k before it Only F. apply Forall_app in F. destruct F as [F Fi]. inversion Fi as [|? ? Hi _]; subst.
  destruct (g0 k a) as [l|] eqn:El.
  - assert (Nr : forall ks, In k ks -> nearest g0 a ks = Some k).
    { intros ks i. unfold nearest. induction ks as [|k' ks IH]; [destruct i|]. cbn [find].
      destruct (g0 k' a) eqn:E'; [f_equal; apply Only; congruence|]. destruct i as [->|i]; [congruence|auto]. }
    assert (C1 : counted g0 a k before = length before).
    { unfold counted. clear Fi. induction F as [|jt b Hj F IH]; [reflexivity|]. cbn [filter]. rewrite (Nr _ Hj), N.eqb_refl. cbn [length]. now rewrite IH. }
    assert (C2 : inside k before = length before).
    { unfold inside. clear Fi. clear C1. induction F as [|jt b Hj F IH]; [reflexivity|]. cbn [filter].
      replace (existsb (N.eqb k) (i_line jt)) with true; [cbn [length]; now rewrite IH|].
      symmetry. apply existsb_exists. exists k. split; [exact Hj|apply N.eqb_refl]. }
    unfold entry, svg_entry. rewrite (Nr _ Hi), El, C1.
    destruct (Nat.ltb_spec (length before) (length l)) as [L|L].
    + replace (find _ (i_line it)) with (Some k); [now rewrite El, C2|]. symmetry.
      clear Fi. induction (i_line it) as [|k' ks IH]; [destruct Hi|]. cbn [find].
      destruct (g0 k' a) as [l'|] eqn:E'.
      * assert (k' = k) by (apply Only; congruence). subst k'. rewrite El in E'. injection E' as <-. rewrite C2.
        destruct (Nat.ltb_spec (length before) (length l)); [reflexivity|lia].
      * destruct Hi as [->|Hi]; [congruence|auto].
    + replace (find _ (i_line it)) with (@None N); [now apply nth_error_None|]. symmetry.
      clear Hi Fi. induction (i_line it) as [|k' ks IH]; [reflexivity|]. cbn [find].
      destruct (g0 k' a) as [l'|] eqn:E'; [|exact IH].
      assert (k' = k) by (apply Only; congruence). subst k'. rewrite El in E'. injection E' as <-. rewrite C2.
      destruct (Nat.ltb_spec (length before) (length l)); [lia|exact IH].
  - assert (No : forall k', g0 k' a = None).
    { intros k'. destruct (g0 k' a) eqn:E'; [|reflexivity]. assert (k' = k) by (apply Only; congruence). congruence. }
    unfold entry, svg_entry, nearest. clear Hi Fi. induction (i_line it) as [|k' ks IH]; [reflexivity|]. cbn [find]. rewrite No. exact IH.
Qed.
Example ex_counting : let g0 := ex_store [3; 20] [10] None None in
  (forall k', g0 k' AX <> None -> k' = 1%N) /\ Forall (fun jt => In 1%N (i_line jt)) (items ex_pieces).
Proof.
  cbn zeta. split.
  - intros [|[p|[p|p|]|]] H; cbn in H; solve [reflexivity | destruct H; reflexivity].
  - repeat (constructor; [cbn; auto|]). constructor.
Qed.
Print Assumptions c69_counting_partial.
(** Finding: the list of an element is not used up by the characters of a child
    with a list of its own; above all the initial x = "0" of the text element
    takes the first character after such a child back to 0:
    <text><tspan x="100">a</tspan>b</text> puts b at 0. *)
Theorem c69_counting_refuted : exists o g0 ps dss p it,
  lay_text o g0 ps = Ok dss /\ straight ps /\ uniform ps /\ nth_error (items ps) 1 = Some it /\
  nth_error (all_placed dss) 1 = Some p /\ pl_x p == 0 /\ svg_entry g0 AX (firstn 1 (items ps)) it = None /\
  fst (flow 0 0 (firstn 1 (items ps)) (firstn 1 (all_placed dss))) == 107.
Proof.
  pose (ps := [mkPiece [2%N; 1%N] ex_setup [one_run 1 [gl 0 7]]; mkPiece [1%N] ex_setup [one_run 1 [gl 0 8]]]).
  exists quarter_oracle, (ex_store [0] [0] None (Some [100])), ps. do 3 eexists.
  split; [vm_compute; reflexivity|].
  split; [intros p r l [<-|[<-|[]]] [<-|[]] [<-|[]]; reflexivity|].
  split; [intros p r [<-|[<-|[]]] [<-|[]] _; reflexivity|].
  split; [vm_compute; reflexivity|]. split; [vm_compute; reflexivity|]. repeat split; vm_compute; reflexivity.
Qed.
Print Assumptions c69_counting_refuted.
(** Finding: the offset of a glyph is taken back after it only in runs to the
    right; to the left the offsets add up. *)
Theorem c69_offset_refuted : exists o g0 ps dss p q,
  lay_text o g0 ps = Ok dss /\ straight ps /\ uniform ps /\ all_placed dss = [p; q] /\
  (* two glyphs of advance 10 and offset 1, beginning at 100 *)
  items ps = map (mkI [1%N] (mkS true false false 10 12 (-2) ex_outline) true) [mkG 1 0 1 0 10 0; mkG 1 1 1 0 10 0] /\
  pl_x p == 100 - 10 + 1 /\ ~ pl_x q == 100 - 20 + 1.
Proof.
  pose (ps := [mkPiece [1%N] (mkS true false false 10 12 (-2) ex_outline) [mkR 0 true [mkL 2 [mkG 1 0 1 0 10 0; mkG 1 1 1 0 10 0]]]]).
  exists quarter_oracle, (ex_store [100] [0] None None), ps. do 3 eexists. split; [vm_compute; reflexivity|].
  split; [intros p r l [<-|[]] [<-|[]] [<-|[]]; reflexivity|].
  split; [intros p r [<-|[]] [<-|[]] _; reflexivity|]. split; [reflexivity|]. split; [reflexivity|].
  split; [reflexivity|]. intros H. discriminate H.
Qed.
Print Assumptions c69_offset_refuted.

(** ** Drawing.
    The path data of a text whose runs go in the direction of their elements
    are the outlines of its glyphs in order, each set down at its place and
    turned about it, to within the rounding of int(). *)
Theorem c69_drawn : forall o g0 ps dss, oracle_basic o -> lay_text o g0 ps = Ok dss -> uniform ps ->
  (forall p, In p (all_placed dss) -> unit_angle o (pl_rot p)) ->
  (forall it, In it (items ps) -> Forall outlines (s_outline (i_setup it) (g_id (i_glyph it)))) ->
  exists ls, text_path dss = concat ls /\ length ls = length (items ps) /\ length (all_placed dss) = length (items ps) /\
    forall i it p l, nth_error (items ps) i = Some it -> nth_error (all_placed dss) i = Some p -> nth_error ls i = Some l ->
      pl_id p = g_id (i_glyph it) /\ shows_glyph o 0 it p l.
Proof.
  intros o g0 ps dss O E U UA Ho. destruct (text_paths o ps dss (text_made o g0 ps dss U E)) as [F ->].
  assert (L := Forall2_length _ _ _ F). revert F L UA Ho. generalize (items ps) (all_placed dss). clear E U.
  intros its qs F L UA Ho. exists (map (fun q => glyph_path o (i_setup (fst q)) (snd q)) (combine its qs)).
  split; [unfold paths; apply flat_map_concat_map|]. rewrite map_length, combine_length, <- L, Nat.min_id. split; [reflexivity|]. split; [reflexivity|].
  clear L. induction F as [|it p its qs W F IH]; intros [|i] jt q l; try discriminate; cbn [nth_error combine map].
  - intros [= <-] [= <-] [= <-]. cbn [fst snd].
    assert (Id : pl_id p = g_id (i_glyph it)).
    { destruct W as (pn & pn' & W). apply (put_lists o (i_setup it) (i_rtl it) pn (i_glyph it) pn' p W). }
    split; [exact Id|]. apply path_shows; [exact O|apply UA; now left|]. rewrite Id. apply Ho. now left.
  - apply IH; intros; [apply UA|apply Ho]; now right.
Qed.
Example ex_drawn : exists dss, lay_text quarter_oracle ex_xs ex_pieces = Ok dss /\
  Forall (fun p => unit_angle quarter_oracle (pl_rot p)) (all_placed dss) /\ length (text_path dss) = 12%nat /\
  match text_path dss with SM false p :: SL false q :: _ => ptx p == 4 /\ pty p == 10 /\ ptx q == 8 | _ => False end.
Proof.
  eexists. split; [vm_compute; reflexivity|]. split; [repeat constructor; vm_compute; reflexivity|]. split; [reflexivity|].
  repeat split; vm_compute; reflexivity.
Qed.
Print Assumptions c69_drawn.
(** Finding: PathParser.from_glyph is right only for rotations after a
    translation; a matrix that scales moves the glyph twice. *)
Theorem c69_matrix_refuted : exists m p, is2d m = true /\
  ptx (from_glyph_point m p) - (m11 (arr m) * ptx p + m21 (arr m) * pty p + m41 (arr m)) == 10.
Proof. exists (DM (matrix2d 2 0 0 2 10 0) true), (P 3 4). split; [reflexivity|vm_compute; reflexivity]. Qed.
Print Assumptions c69_matrix_refuted.

(** ** Boxes.
    get_bbox of a text is the smallest box around the cells of all its glyphs,
    each turned with its glyph.
    Missing: glyphs turned by more than a quarter but not a half
    (c69_box_refuted); glyphs without an advance (DOMRect cannot unite a line,
    C02); lines against the direction of their element (c69_against). *)
Theorem c69_box_partial : forall o g0 ps dss, oracle_basic o -> lay_text o g0 ps = Ok dss -> uniform ps ->
  (forall p, In p (all_placed dss) -> unit_angle o (pl_rot p) /\ (0 <= ocos o (pl_rot p) \/ osin o (pl_rot p) == 0)) ->
  Forall sized (items ps) ->
  proper (text_box dss) /\
  (forall it p, In (it, p) (combine (items ps) (all_placed dss)) -> covers o (text_box dss) it p) /\
  (forall b, proper b -> (forall it p, In (it, p) (combine (items ps) (all_placed dss)) -> covers o b it p) -> included (text_box dss) b).
Proof.
  intros o g0 ps dss O E U UA Sz. assert (M := text_made o g0 ps dss U E). destruct (text_paths o ps dss M) as [F _].
  assert (K : forall it p, In (it, p) (combine (items ps) (all_placed dss)) -> was_put o it p /\ sized it /\ In p (all_placed dss)).
  { intros it p i. split; [|split; [rewrite Forall_forall in Sz; apply Sz; eapply in_combine_l; exact i|eapply in_combine_r; exact i]].
    clear - F i. induction F as [|x y l l' W F IH]; [destruct i|]. destruct i as [[= <- <-]|i]; auto. }
  assert (K2 : forall p, In p (all_placed dss) -> exists it, In (it, p) (combine (items ps) (all_placed dss))).
  { clear - F. induction F as [|x y l l' W F IH]; intros p i; [destruct i|]. destruct i as [<-|i].
    - exists x. now left.
    - destruct (IH p i) as (it & j). exists it. now right. }
  assert (V : Forall (fun p => isvalid (pl_box p) = true) (all_placed dss)).
  { apply Forall_forall. intros p i. destruct (K2 p i) as (it & j). destruct (K it p j) as (W & S1 & _).
    apply (glyph_box o it p O (proj1 (UA p i)) W S1). }
  destruct (text_boxes o ps dss M V) as (P1 & I1 & L1). split; [exact P1|]. split.
  - intros it p i. destruct (K it p i) as (W & S1 & j). destruct (glyph_box o it p O (proj1 (UA p j)) W S1) as [_ G].
    destruct (G (proj2 (UA p j))) as [G1 _]. intros px py H. apply (I1 (pl_box p)); [now apply in_map|]. now apply G1.
  - intros b Pb Hb. apply L1; [exact Pb|]. intros r i. apply in_map_iff in i. destruct i as (p & <- & i).
    destruct (K2 p i) as (it & j). destruct (K it p j) as (W & S1 & _).
    destruct (glyph_box o it p O (proj1 (UA p i)) W S1) as [_ G]. destruct (G (proj2 (UA p i))) as [_ G2]. apply G2; [exact Pb|auto].
Qed.
Example ex_box : exists dss, lay_text quarter_oracle ex_xs ex_pieces = Ok dss /\ Forall sized (items ex_pieces) /\
  Forall (fun p => 0 <= ocos quarter_oracle (pl_rot p)) (all_placed dss) /\
  option_map Qred (rx (text_box dss)) = Some 4 /\ Qred (rw (text_box dss)) = 46 /\ Qred (rh (text_box dss)) = 15.
Proof.
  eexists. split; [vm_compute; reflexivity|]. split; [repeat constructor; vm_compute; reflexivity|].
  split; [repeat constructor; vm_compute; discriminate|]. repeat split; vm_compute; reflexivity.
Qed.
Print Assumptions c69_box_partial.
(** Finding: turned by an angle with a negative cosine a cell sticks out of the
    box (DOMRect.transform_self, C03). *)
Definition tilted : oracle := Orc (fun a => if a =?q 0 then 1 else - (3 # 5)) (fun a => if a =?q 0 then 0 else 4 # 5) (fun _ => 0) (fun _ => 1).
Theorem c69_box_refuted : exists g0 ps dss it p,
  lay_text tilted g0 ps = Ok dss /\ uniform ps /\ Forall sized (items ps) /\ unit_angle tilted (pl_rot p) /\
  combine (items ps) (all_placed dss) = [(it, p)] /\ ~ covers tilted (text_box dss) it p.
Proof.
  pose (g0 := fun k a => match k, a with 1%N, ARotate => Some [120] | 1%N, AX => Some [0] | 1%N, AY => Some [0] | _, _ => @None (list Q) end).
  exists g0, [mkPiece [1%N] ex_setup [one_run 1 [gl 0 10]]]. do 3 eexists. split; [vm_compute; reflexivity|].
  split; [intros p r [<-|[]] [<-|[]] _; reflexivity|]. split; [repeat constructor; vm_compute; reflexivity|].
  split; [|split; [vm_compute; reflexivity|]]; [vm_compute; reflexivity|].
  intros H. specialize (H 0 (-10)).
  assert (C : cell (mkI [1%N] ex_setup false (gl 0 10)) (mkP 1 0 0 120 10 rect_unset) 0 (-10)) by (repeat split; vm_compute; discriminate).
  specialize (H C). vm_compute in H. destruct H as [[_ H] _]. apply H. reflexivity.
Qed.
Print Assumptions c69_box_refuted.

(** ** Advances.
    Whatever the directions, the advance list of a piece of text (the one
    get_sub_string_length adds up, C62) has the advance of each of its glyphs,
    in the order of the characters. *)
Theorem c69_advances : forall o g0 ps dss, lay_text o g0 ps = Ok dss ->
  map piece_advances dss = map (fun p => map advance (piece_items p)) ps.
Proof. intros o g0 ps dss E. apply text_start in E. exact (pieces_advances o ps g0 _ _ dss E). Qed.
Example ex_advances : let ps := [mkPiece [1%N] ex_setup [mkR 0 true [mkL 2 [gl 1 7; gl 0 8]]]; mkPiece [2%N; 1%N] ex_setup [one_run 1 [gl 0 9]]] in
  exists dss, lay_text quarter_oracle ex_xs ps = Ok dss /\ map piece_advances dss = [[8; 7]; [9]].
Proof. eexists. split; vm_compute; reflexivity. Qed.
Print Assumptions c69_advances.

(** ** Lines against the direction of their element.
    A line of positive advances that nothing but the pen places, in a run
    against the direction of its element, stands beyond the pen: from the pen
    on for its width, its first character farthest (nearest for runs to the
    right in an element to the left); path data, box and pen agree. *)
Theorem c69_against : forall o s start rtl pn l d, oracle_basic o -> lay_line o s start rtl pn l = Ok d -> against s rtl = true ->
  let gs := ordered (l_glyphs l) in
  length (l_glyphs l) = l_chars l -> free pn -> Forall no_offset gs -> Forall (fun g => 0 < g_xadv g) gs -> 0 < s_height s ->
  (forall g, In g gs -> Forall outlines (s_outline s (g_id g))) ->
  (exists ls, d_path d = concat ls /\ length ls = length gs /\
     forall i g p, nth_error gs i = Some g -> nth_error ls i = Some p ->
       Forall2 (image (set_down (if rtl then p_x pn + width_of (skipn (S i) gs) else p_x pn - width_of (skipn i gs)) (p_y pn) 1 0) (1 # 64))
         (s_outline s (g_id g)) p) /\
  (exists x y, rx (d_box d) = Some x /\ ry (d_box d) = Some y /\ x == (if rtl then p_x pn else p_x pn - width_of gs) /\
     y == p_y pn - s_height s - s_descender s /\ rw (d_box d) == width_of gs /\ rh (d_box d) == s_height s) /\
  p_x (d_pen d) == (if rtl then p_x pn + width_of gs else p_x pn - width_of gs) /\ p_y (d_pen d) == p_y pn /\ free (d_pen d).
Proof. exact line_against. Qed.
Example ex_against : let pn := mkPen (mkLs [] [] [] [] []) 0 100 50 in
  exists d, lay_line quarter_oracle ex_setup 0 true pn (mkL 2 [gl 0 7; gl 1 8]) = Ok d /\ against ex_setup true = true /\
    free pn /\ p_x (d_pen d) == 115 /\ match d_path d with SM false p :: _ => ptx p == 108 | _ => False end.
Proof. eexists. split; [vm_compute; reflexivity|]. repeat split; vm_compute; reflexivity. Qed.
Print Assumptions c69_against.
(** A line without glyphs stops everything. *)
Theorem c69_empty_line : forall o s start rtl pn l, l_glyphs l = [] -> lay_line o s start rtl pn l = Err IndexError.
Proof. intros o s start rtl pn l E. unfold lay_line. rewrite E. reflexivity. Qed.
Example ex_empty_line : l_glyphs (mkL 1 []) = [].
Proof. reflexivity. Qed.
Print Assumptions c69_empty_line.

(** ** Ligatures.
    In the first run of a text, when every glyph but the last stands for one or
    two characters (one code unit each), each glyph takes the x and y of its
    first character, and its dx and dy with those of the second character of
    the glyph before added.
    Missing: ligatures of three characters (c69_three_refuted), at the end of a
    line (c69_last_refuted), in later runs (c69_later_refuted), and 'rotate'
    (c69_rotate_refuted). *)
Theorem c69_ligature_partial : forall o s rtl pn l d cl, lay_line o s 0 rtl pn l = Ok d -> against s rtl = false ->
  let gs := ordered (l_glyphs l) in
  length (l_glyphs l) <> l_chars l -> map g_cluster gs = 0%Z :: cl -> pairs_from 0 cl ->
  length (d_placed d) = length gs /\
  forall i g p, nth_error gs i = Some g -> nth_error (d_placed d) i = Some p ->
  let c := Z.to_nat (g_cluster g) in
  let before := nth i (0%Z :: map g_cluster gs) 0%Z in
  let ls := p_lists pn in
  pl_id p = g_id g /\
  (forall x dx, nth_error (xs ls) c = Some x -> nth_error (dxs ls) c = Some dx ->
     pl_x p == x + with_left_out before (g_cluster g) (dxs ls) dx + g_xoff g - (if s_horizontal s && rtl then g_xadv g else 0)) /\
  (forall y dy, nth_error (ys ls) c = Some y -> nth_error (dys ls) c = Some dy ->
     pl_y p == y + with_left_out before (g_cluster g) (dys ls) dy - g_yoff g).
Proof.
  intros o s rtl pn l d cl E AG gs Len Cl Pf. unfold lay_line in E.
  destruct (in_cluster_order (l_glyphs l)) as [gs'|] eqn:Ec; cbn [bind] in E; [|discriminate].
  apply ordered_ok in Ec. subst gs'. fold gs in E.
  replace (length gs =? l_chars l)%nat with false in E by (symmetry; apply Nat.eqb_neq; unfold gs; now rewrite ordered_length).
  rewrite AG, Cl, (pairs_inc cl Pf) in E. set (ls' := reposition 1 0 None (0%Z :: cl) (p_lists pn)) in *.
  destruct (puts o s rtl _ gs) as [pn' ps] eqn:Ep. injection E as <-. cbn [d_placed].
  assert (Lp : length ps = length gs).
  { apply (puts_made o []) in Ep. apply Forall2_length in Ep. rewrite map_length in Ep. auto. }
  split; [exact Lp|]. intros i g p Ng Np. cbn zeta.
  destruct (puts_entries o s rtl gs _ _ _ Ep i g p Ng Np) as (Id & X & Y). cbn [p_lists] in X, Y. split; [exact Id|].
  destruct (reposition_parts 1 (0%Z :: cl) 0 None (p_lists pn)) as (R1 & R2 & R3 & R4). fold ls' in R1, R2, R3, R4.
  assert (Nc : nth_error (0%Z :: cl) i = Some (g_cluster g)) by (rewrite <- Cl; now apply map_nth_error).
  assert (D : forall l0 v, nth_error l0 (Z.to_nat (g_cluster g)) = Some v ->
    nth_error (rep merge_entry 1 0 None (0%Z :: cl) l0) i = Some (with_left_out (nth i (0%Z :: map g_cluster gs) 0%Z) (g_cluster g) l0 v)).
  { intros l0 v Nv. rewrite (rep_start merge_entry Qplus cl l0 i (g_cluster g) v merge_good Pf Nc Nv). f_equal. rewrite Cl.
    unfold with_left_out. destruct i as [|i]; [|reflexivity]. cbn [nth nth_error] in *. injection Nc as <-. reflexivity. }
  assert (D2 : forall l0 v, nth_error l0 (Z.to_nat (g_cluster g)) = Some v -> nth_error (rep drop_entry 1 0 None (0%Z :: cl) l0) i = Some v).
  { intros l0 v Nv. rewrite (rep_start drop_entry (fun e _ => e) cl l0 i (g_cluster g) v drop_good Pf Nc Nv).
    destruct i as [|i]; [reflexivity|]. destruct (_ =? _)%Z; reflexivity. }
  split.
  - intros x dx Hx Hd. rewrite (X x) by (rewrite R1; now apply D2). rewrite R3, (D _ _ Hd). reflexivity.
  - intros y dy Hy Hd. rewrite (Y y) by (rewrite R2; now apply D2). rewrite R4, (D _ _ Hd). reflexivity.
Qed.
(* a, fi, b: the dx of i goes to b *)
Example ex_ligature : let pn := mkPen (mkLs [0; 10; 20; 30] [0; 1; 2; 3] [0; 5; 6; 7] [0; 0; 0; 0] []) 0 0 0 in
  let l := mkL 4 [gl 0 7; gl 1 8; gl 3 9] in
  exists d, lay_line quarter_oracle ex_setup 0 false pn l = Ok d /\ pairs_from 0 [1; 3]%Z /\
    map (fun p => (Qred (pl_x p), Qred (pl_y p))) (d_placed d) = [(0, 0); (15, 1); (43, 3)].
Proof. eexists. split; [vm_compute; reflexivity|]. split; [cbn; auto|vm_compute; reflexivity]. Qed.
Print Assumptions c69_ligature_partial.
Definition only_x (l r : list Q) : pen := mkPen (mkLs l [] [] [] r) 0 0 0.
(** Finding: of the entries of a ligature of three characters only one is
    dropped: the next glyph takes that of the third character. *)
Theorem c69_three_refuted : exists d p, lay_line quarter_oracle ex_setup 0 false (only_x [0; 10; 20; 30] []) (mkL 4 [gl 0 7; gl 3 8]) = Ok d /\
  nth_error (d_placed d) 1 = Some p /\ ~ pl_x p == nth 3 [0; 10; 20; 30] 0.
Proof. do 2 eexists. split; [vm_compute; reflexivity|]. split; [reflexivity|]. intros H. discriminate H. Qed.
Print Assumptions c69_three_refuted.
(** Finding: a ligature at the end of a line drops nothing; the next line
    begins at the entry of the second character of the ligature. *)
Theorem c69_last_refuted : exists pn ds p,
  lay_lines quarter_oracle ex_setup 0 false (only_x [0; 10; 20] []) [mkL 2 [gl 0 7]; mkL 1 [gl 0 8]] = Ok (pn, ds) /\
  nth_error (flat_map d_placed ds) 1 = Some p /\ ~ pl_x p == nth 2 [0; 10; 20] 0.
Proof. do 3 eexists. split; [vm_compute; reflexivity|]. split; [reflexivity|]. intros H. discriminate H. Qed.
Print Assumptions c69_last_refuted.
(** Finding: in later runs the start of the run is added to the index although
    the entries before are gone already. *)
Theorem c69_later_refuted : exists pn ds p,
  lay_runs quarter_oracle ex_setup (only_x [0; 10; 20; 30; 40] []) [mkR 0 false [mkL 2 [gl 0 7; gl 1 7]]; mkR 2 false [mkL 3 [gl 0 7; gl 2 8]]] = Ok (pn, ds) /\
  nth_error (flat_map d_placed ds) 3 = Some p /\ ~ pl_x p == nth 4 [0; 10; 20; 30; 40] 0.
Proof. do 3 eexists. split; [vm_compute; reflexivity|]. split; [reflexivity|]. intros H. discriminate H. Qed.
Print Assumptions c69_later_refuted.
(** Finding: a ligature can drop the last entry of 'rotate', the one that
    should be repeated. *)
Theorem c69_rotate_refuted : exists d p, lay_line quarter_oracle ex_setup 0 false (only_x [] [0; 90]) (mkL 3 [gl 0 7; gl 2 8]) = Ok d /\
  nth_error (d_placed d) 1 = Some p /\ ~ pl_rot p == nth (Nat.min 2 1) [0; 90] 0.
Proof. do 2 eexists. split; [vm_compute; reflexivity|]. split; [reflexivity|]. intros H. discriminate H. Qed.
Print Assumptions c69_rotate_refuted.
