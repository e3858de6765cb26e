(** Property theorems C01-C04: rectangles. *)
From Verif Require Import PyBase RectModel RectSpec RectProofs.
From Coq Require Import Permutation.
Local Open Scope Q_scope.

(** C01, first half: overlapping rectangles intersect exactly. *)
Theorem c01_intersect_exact_partial : forall r o,
  isvalid r = true -> isvalid o = true -> overlap r o ->
  forall px py, region (intersect_self r o) px py <-> region r px py /\ region o px py.
Proof. exact intersect_exact. Qed.
Print Assumptions c01_intersect_exact_partial.

Example c01_ex_hyp : let r := rect4 0 0 10 10 in let o := rect4 5 5 10 10 in
  isvalid r = true /\ isvalid o = true /\ overlap r o /\
  rect_eqb (intersect_self r o) (rect4 5 5 5 5) = true.
Proof.
  repeat split; try reflexivity. exists 7, 7; unfold interior; cbn; lra.
Qed.

(** C01, second half is false: rectangles without overlap do not give an
    empty result; the receiver comes back unchanged. *)
Theorem c01_disjoint_refuted : exists r o,
  isvalid r = true /\ isvalid o = true /\
  (forall px py, ~ (region r px py /\ region o px py)) /\
  isempty (intersect_self r o) = false /\ intersect_self r o <> rect_unset.
Proof.
  exists (rect4 0 0 1 1), (rect4 5 5 1 1).
  split; [reflexivity|]. split; [reflexivity|].
  split; [intros px py [H1 H2]; unfold region in *; cbn in *; lra|].
  split; [reflexivity|]. vm_compute. discriminate.
Qed.
Print Assumptions c01_disjoint_refuted.

(** ... and this is what happens for every pair that does not overlap. *)
Theorem c01_no_overlap_unchanged : forall r o,
  ~ overlap r o -> same_region (intersect_self r o) r.
Proof. exact intersect_no_overlap. Qed.
Print Assumptions c01_no_overlap_unchanged.

Example c01_no_overlap_ex : ~ overlap (rect4 0 0 1 1) (rect4 1 0 1 1).
Proof. intros (px & py & H1 & H2); unfold interior in *; cbn in *; lra. Qed.

(** C02: for operands that are unset, points or have both sizes positive,
    unite is the least upper bound. *)
Theorem c02_unite_least_partial : forall r o, proper r -> full o ->
  proper (unite r o) /\ included r (unite r o) /\ included o (unite r o) /\
  (forall b, proper b -> included r b -> included o b -> included (unite r o) b).
Proof. exact unite_upper. Qed.
Print Assumptions c02_unite_least_partial.

(** Folding over any list gives the least box of all of them. *)
Theorem c02_unite_all_partial : forall l, Forall full l ->
  proper (unite_all l) /\ (forall o, In o l -> included o (unite_all l)) /\
  (forall b, proper b -> (forall o, In o l -> included o b) -> included (unite_all l) b).
Proof. exact unite_all_spec. Qed.
Print Assumptions c02_unite_all_partial.

Theorem c02_unite_all_order_partial : forall l l', Permutation l l' -> Forall full l ->
  same_region (unite_all l) (unite_all l').
Proof. exact unite_all_perm. Qed.
Print Assumptions c02_unite_all_order_partial.

Example c02_ex_full : Forall full [rect4 0 0 2 1; rect4 5 5 0 0; rect_unset; rect4 (-1) 3 1 1]
  /\ rect_eqb (unite_all [rect4 0 0 2 1; rect4 5 5 0 0; rect_unset; rect4 (-1) 3 1 1])
       (rect4 (-1) 0 6 5) = true.
Proof.
  split; [|reflexivity].
  repeat (apply Forall_cons; [split;
    [first [left; cbn; repeat split; first [congruence|lra]; fail
           |right; cbn; repeat split; first [congruence|lra]]|cbn; split; intros; lra]|]).
  constructor.
Qed.

(** The full property is false: a horizontal line operand loses its extent. *)
Theorem c02_unite_line_refuted : exists o, proper o /\ region o 100 0 /\
  ~ region (unite rect_unset o) 100 0.
Proof.
  exists (rect4 0 0 100 0). split; [right; cbn; repeat split; first [congruence | lra]|].
  split; [unfold region; cbn; lra|].
  unfold region; vm_compute. intros [[_ H] _]. apply H. reflexivity.
Qed.
Print Assumptions c02_unite_line_refuted.

Theorem c02_unite_degenerate_is_corner : forall r x y w h,
  (w <= 0 \/ h <= 0) ->
  unite_self r (Some x) (Some y) w h = unite_self r (Some x) (Some y) 0 0.
Proof. exact unite_line_is_point. Qed.
Print Assumptions c02_unite_degenerate_is_corner.

Example c02_degenerate_ex : rect_eqb (unite rect_unset (rect4 1 2 30 0)) (rect4 1 2 0 0) = true.
Proof. reflexivity. Qed.

(** C03: exact bounding box of the image, outside the two bad quadrants. *)
Theorem c03_transform_exact_partial : forall r m,
  isvalid r = true -> ~ (fa m < 0 /\ fc m < 0) -> ~ (fb m < 0 /\ fd m < 0) ->
  (forall px py, region r px py -> region (transform_self r m) (apply_x m px py) (apply_y m px py)) /\
  (forall b, proper b ->
     (forall px py, region r px py -> region b (apply_x m px py) (apply_y m px py)) ->
     included (transform_self r m) b) /\
  0 <= rw (transform_self r m) /\ 0 <= rh (transform_self r m).
Proof. exact transform_exact. Qed.
Print Assumptions c03_transform_exact_partial.

Example c03_ex : isvalid (rect4 1 2 3 4) = true /\
  rect_eqb (transform_self (rect4 1 2 3 4) (mkAff 0 1 (-1) 0 0 0)) (rect4 (-6) 1 4 3) = true.
Proof. split; reflexivity. Qed.

(** The unguarded property fails for every valid rectangle and every matrix
    whose first row is negative in both entries (for instance any rotation
    by an angle strictly between 90 and 180 degrees). *)
Theorem c03_transform_refuted : forall r m,
  isvalid r = true -> fa m < 0 -> fc m < 0 ->
  exists px py, region r px py /\
    ~ region (transform_self r m) (apply_x m px py) (apply_y m px py).
Proof. exact transform_wrong_x. Qed.
Print Assumptions c03_transform_refuted.

Example c03_refuted_ex : let m := mkAff (-3#5) (4#5) (-4#5) (-3#5) 0 0 in
  isvalid (rect4 0 0 1 1) = true /\ fa m < 0 /\ fc m < 0.
Proof. cbn; repeat split; reflexivity. Qed.

(** C04 *)
Theorem c04_normalize : forall x y w h,
  exists n, normalize (rect4 x y w h) = Ok n /\ 0 <= rw n /\ 0 <= rh n /\
    (forall px py, region n px py <-> swept (rect4 x y w h) px py) /\
    normalize n = Ok n.
Proof. exact normalize_spec. Qed.
Print Assumptions c04_normalize.

Example c04_normalize_ex : exists n, normalize (rect4 5 5 (-3) 2) = Ok n /\
  rect_eqb n (rect4 2 5 3 2) = true.
Proof. eexists; split; reflexivity. Qed.

Theorem c04_normalize_unset_raises : forall w h,
  w < 0 -> normalize (mkRect None None w h) = Err TypeError.
Proof. exact normalize_unset_error. Qed.
Print Assumptions c04_normalize_unset_raises.

Theorem c04_isempty_isvalid : forall r, isempty r = negb (isvalid r).
Proof. exact isempty_isvalid. Qed.
Print Assumptions c04_isempty_isvalid.

Theorem c04_contains_point : forall r px py, isvalid r = true ->
  contains r px py 0 0 = true <-> region r px py.
Proof. exact contains_point. Qed.
Print Assumptions c04_contains_point.

Theorem c04_contains_rect : forall r x y w h, 0 < w -> 0 < h -> isvalid r = true ->
  (contains r x y w h = true <-> included (rect4 x y w h) r).
Proof. exact contains_rect. Qed.
Print Assumptions c04_contains_rect.

Example c04_contains_ex : contains (rect4 0 0 10 10) 2 2 8 8 = true /\
  contains (rect4 0 0 10 10) 2 2 9 8 = false /\ isvalid (rect4 0 0 10 10) = true.
Proof. repeat split; reflexivity. Qed.

(** Any number of translations adds up. *)
Theorem c04_translations_add : forall l r px py,
  region (runs rect_step (translates l) r) px py <-> region r (px - sumx l) (py - sumy l).
Proof. exact region_translates. Qed.
Print Assumptions c04_translations_add.

Example c04_translations_ex :
  rect_eqb (runs rect_step (translates [(1, 2); (3, -1)]) (rect4 0 0 1 1)) (rect4 4 1 1 1) = true.
Proof. reflexivity. Qed.

Theorem c04_adjust_edges : forall r x y a b c d,
  rx r = Some x -> ry r = Some y -> isvalid r = true ->
  forall px py, region (adjust_self r a b c d) px py <->
    x + a <= px <= x + rw r + c /\ y + b <= py <= y + rh r + d.
Proof. exact adjust_edges. Qed.
Print Assumptions c04_adjust_edges.

Theorem c04_adjust_undo : forall r a b c d,
  isvalid r = true -> isvalid (adjust_self r a b c d) = true ->
  same_region (adjust_self (adjust_self r a b c d) (-a) (-b) (-c) (-d)) r.
Proof. exact adjust_undo. Qed.
Print Assumptions c04_adjust_undo.

Example c04_adjust_ex : isvalid (adjust_self (rect4 0 0 10 10) 1 1 (-1) (-1)) = true /\
  rect_eqb (adjust_self (rect4 0 0 10 10) 1 1 (-1) (-1)) (rect4 1 1 8 8) = true.
Proof. split; reflexivity. Qed.

Theorem c04_transpose_involutive : forall r, transpose_self (transpose_self r) = r.
Proof. exact transpose_involutive. Qed.
Print Assumptions c04_transpose_involutive.

(** Transposing keeps the top left corner and mirrors the rectangle along the
    diagonal through it. *)
Theorem c04_transpose : forall r x y u v, rx r = Some x -> ry r = Some y ->
  (region (transpose_self r) (x + u) (y + v) <-> region r (x + v) (y + u)).
Proof. exact transpose_region. Qed.
Print Assumptions c04_transpose.
Example c04_transpose_ex : region (transpose_self (rect4 1 2 10 3)) (1 + 2) (2 + 9) /\ region (rect4 1 2 10 3) (1 + 9) (2 + 2).
Proof. unfold region; cbn. lra. Qed.

(** Non-negative sizes are an invariant of every history of the operations
    bounding-box code uses. *)
Theorem c04_proper_history : forall ops r,
  Forall op_ok ops -> proper r -> proper (runs rect_step ops r).
Proof. exact proper_history. Qed.
Print Assumptions c04_proper_history.

Example c04_history_ex :
  let ops := [OpUnite (rect4 0 0 2 2); OpTranslate 1 1; OpTransform (mkAff (-1) 0 0 1 0 0);
              OpIntersect (rect4 (-2) 0 5 2)] in
  Forall op_ok ops /\ proper rect_unset /\
  rect_eqb (runs rect_step ops rect_unset) (rect4 (-2) 1 1 1) = true.
Proof.
  cbn zeta. split; [|split; [exact proper_unset|reflexivity]].
  apply Forall_cons.
  { split; [right; cbn; repeat split; first [congruence|lra]|cbn; split; intros; lra]. }
  repeat (apply Forall_cons; [exact I|]). constructor.
Qed.

(** Rectangles are equal exactly when position and size are; an unset
    coordinate equals only an unset one. *)
Theorem c04_equal : forall r s, rect_eqb r s = true <->
  (match rx r, rx s with Some a, Some b => a == b | None, None => True | _, _ => False end) /\
  (match ry r, ry s with Some a, Some b => a == b | None, None => True | _, _ => False end) /\ rw r == rw s /\ rh r == rh s.
Proof.
  intros r s. unfold rect_eqb, opt_eqb. rewrite !andb_true_iff.
  assert (Q : forall a b, (a =?q b) = true <-> a == b) by (intros a b; destruct (Qeqb_spec a b); intuition congruence).
  rewrite !Q. destruct (rx r), (rx s), (ry r), (ry s); rewrite ?Q; intuition congruence.
Qed.
Print Assumptions c04_equal.
Example c04_equal_case : rect_eqb (rect4 (1#2) 0 3 4) (rect4 (2#4) 0 3 4) = true /\ rect_eqb (rect4 0 0 0 0) rect_unset = false.
Proof. split; reflexivity. Qed.
Theorem c04_equal_equivalence : forall r s t, rect_eqb r r = true /\ rect_eqb s r = rect_eqb r s /\ (rect_eqb r s = true -> rect_eqb s t = true -> rect_eqb r t = true).
Proof.
  intros r s t. split; [|split].
  - apply c04_equal. destruct (rx r), (ry r); repeat split; reflexivity.
  - apply Bool.eq_iff_eq_true. rewrite !c04_equal. destruct (rx r), (rx s), (ry r), (ry s); intuition.
  - rewrite !c04_equal. intros (A1 & A2 & A3 & A4) (B1 & B2 & B3 & B4). rewrite A3, A4, B3, B4.
    destruct (rx r), (rx s), (rx t), (ry r), (ry s), (ry t); try contradiction; repeat split; try reflexivity; try (rewrite A1; exact B1); try (rewrite A2; exact B2).
Qed.
Print Assumptions c04_equal_equivalence.
