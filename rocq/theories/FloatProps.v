(** C86: rectangles with the rounded numbers of Python's floats. *)
From Coq Require Import Qabs Qpower Qminmax Qround ZArith Lqa Lia Bool List.
From Verif Require Import PyBase RectModel FloatModel FloatSpec FloatProofs FloatProofs2 FloatProofs3.
Import ListNotations.
#[local] Open Scope Q_scope.

(** The rounding: it never changes an order, it leaves a number alone exactly
    when it has 53 binary digits, no other number of 53 digits is nearer, and
    of two equally near ones it takes the even one. *)
Theorem c86_rounding :
  rounding fl ((1#2) ^ 53)
  /\ (forall x, fl x == x <-> exists m e, (Z.abs m <= 2 ^ 53)%Z /\ x == inject_Z m * 2 ^ e)
  /\ (forall x m e, (Z.abs m <= 2 ^ 53)%Z -> Qabs (fl x - x) <= Qabs (inject_Z m * 2 ^ e - x))
  /\ (forall m e, (2 ^ 52 <= m < 2 ^ 53)%Z -> fl ((inject_Z m + (1#2)) * 2 ^ e) == inject_Z (if Z.even m then m else m + 1) * 2 ^ e).
Proof.
  split; [|split; [|split]].
  - exact fl_rounding.
  - intros x. symmetry. apply digits_fl.
  - intros x m e M. apply fl_nearest. exists m, e. split; [exact M|reflexivity].
  - exact fl_tie.
Qed.
Print Assumptions c86_rounding.
(* 0.1 + 0.2 is not 0.3 *)
Example c86_rounding_case : (fl (fl (1#10) + fl (2#10)) =?q fl (3#10)) = false /\ fl (1#10) == 3602879701896397 # 36028797018963968 /\ fl (9007199254740993 # 1) == 9007199254740992 # 1.
Proof. vm_compute. repeat split; reflexivity. Qed.

(** With a rounding that changes nothing these are the functions C01 to C04
    are about. *)
Theorem c86_exact : let e := fun q : Q => q in
  (forall r x y w h, fcontains e r x y w h = contains r x y w h) /\ (forall r, fnormalize e r = normalize r) /\ (forall r o, funite e r o = unite r o)
  /\ (forall r o, fintersect e r o = intersect_self r o) /\ (forall r dx dy, ftranslate e r dx dy = translate_self r dx dy) /\ (forall r a b c d, fadjust e r a b c d = adjust_self r a b c d).
Proof. repeat split; intros; reflexivity. Qed.
Print Assumptions c86_exact.

(** Numbers that are multiples of one power of two, not too many times it:
    whole numbers, halves, quarters...  There the rounded functions give what
    the exact ones give. *)
Theorem c86_grid k l t w h x y ow oh :
  grid_rect k (2 ^ 50) l t w h -> grid_rect k (2 ^ 50) x y ow oh ->
  fcontains fl (rect4 l t w h) x y ow oh = contains (rect4 l t w h) x y ow oh
  /\ (0 < w -> 0 < h -> 0 < ow -> 0 < oh ->
      rect_eqb (funite fl (rect4 l t w h) (rect4 x y ow oh)) (unite (rect4 l t w h) (rect4 x y ow oh)) = true
      /\ rect_eqb (fintersect fl (rect4 l t w h) (rect4 x y ow oh)) (intersect_self (rect4 l t w h) (rect4 x y ow oh)) = true).
Proof.
  intros A B. split.
  - apply (contains_grid k); [destruct A as (? & ? & ? & ?)|destruct B as (? & ? & ? & ?)]; repeat split; (eapply grid_weak; [|eassumption]); vm_compute; discriminate.
  - intros. split; [now apply (unite_grid k)|now apply (intersect_grid k)].
Qed.
Print Assumptions c86_grid.
Example c86_grid_case : grid_rect (-2) (2 ^ 50) (5#2) (-1#4) 1000000 (3#4)
  /\ rect_eqb (funite fl (rect4 (5#2) (-1#4) 1000000 (3#4)) (rect4 (-7#4) 0 3 (1#2))) (rect4 (-7#4) (-1#4) (4000017#4) (3#4)) = true.
Proof.
  split; [|reflexivity]. repeat split; [exists 10%Z|exists (-1)%Z|exists 4000000%Z|exists 3%Z]; (split; [vm_compute; discriminate|reflexivity]).
Qed.

(** ** For every rounding *)
(** A rectangle contains itself, and what is in something it contains. *)
Theorem c86_contains f u l t w h : rounding f u -> kept_rect f l t w h -> 0 < w -> 0 < h ->
  fcontains f (rect4 l t w h) l t w h = true
  /\ (forall l' t' w' h' x y ow oh, fcontains f (rect4 l t w h) l' t' w' h' = true -> fcontains f (rect4 l' t' w' h') x y ow oh = true -> fcontains f (rect4 l t w h) x y ow oh = true).
Proof. intros R K P Q. split; [now apply (contains_self f u)|]. intros. eapply contains_trans; eassumption. Qed.
Print Assumptions c86_contains.
Example c86_contains_case : let a := fl (1#10) in let b := fl (3#10) in let c := fl (2#10) in kept_rect fl a a b b /\ fcontains fl (rect4 a a b b) a a b b = true /\ fcontains fl (rect4 a a b b) c c c c = true
  /\ contains (rect4 a a b b) c c c c = false.
Proof. vm_compute. repeat split; reflexivity. Qed.

(** The union with a rectangle inside is the rectangle itself; otherwise it is
    what the outermost edges say, so that the two orders agree when neither
    contains the other. *)
Theorem c86_unite f u l t w h l' t' w' h' : rounding f u -> kept_rect f l t w h -> kept_rect f l' t' w' h' -> 0 < w -> 0 < h -> 0 < w' -> 0 < h' ->
  let r := rect4 l t w h in let o := rect4 l' t' w' h' in
  (fcontains f r l' t' w' h' = true -> funite f r o = r)
  /\ (fcontains f r l' t' w' h' = false -> rect_eqb (funite f r o) (around f l t (f (l + w)) (f (t + h)) l' t' (f (l' + w')) (f (t' + h'))) = true).
Proof.
  intros R K K' A B C D r o. split; intros H; [|now apply (unite_around f u)]. apply unite_absorbs; [exact H|]. now apply isvalid4.
Qed.
Print Assumptions c86_unite.
Theorem c86_unite_commutes_partial f u l t w h l' t' w' h' : rounding f u -> kept_rect f l t w h -> kept_rect f l' t' w' h' -> 0 < w -> 0 < h -> 0 < w' -> 0 < h' ->
  let r := rect4 l t w h in let o := rect4 l' t' w' h' in
  fcontains f r l' t' w' h' = false -> fcontains f o l t w h = false -> rect_eqb (funite f r o) (funite f o r) = true.
Proof.
  intros R K K' A B C D r o N N'. assert (E := unite_around f u R l t w h l' t' w' h' K K' A B C D N). assert (E' := unite_around f u R l' t' w' h' l t w h K' K C D A B N').
  fold r o in E, E'. destruct (unite_corner f l t w h l' t' w' h') as (a1 & a2 & a3 & a4 & EA & _). destruct (unite_corner f l' t' w' h' l t w h) as (b1 & b2 & b3 & b4 & EB & _).
  fold r o in EA, EB. rewrite EA in *. rewrite EB in *. unfold around in E, E'. apply rect_eqb_parts in E. apply rect_eqb_parts in E'.
  assert (X : forall a b, Qmin a b == Qmin b a) by (intros; apply Q.min_comm). assert (Y : forall a b, Qmax a b == Qmax b a) by (intros; apply Q.max_comm).
  destruct E as (E1 & E2 & E3 & E4), E' as (F1 & F2 & F3 & F4). apply rect4_eqb.
  - rewrite E1, F1. apply X. - rewrite E2, F2. apply X.
  - rewrite E3, F3. apply (r_proper f u R). rewrite (X l l'), (Y (f (l + w))). reflexivity.
  - rewrite E4, F4. apply (r_proper f u R). rewrite (X t t'), (Y (f (t + h))). reflexivity.
Qed.
Print Assumptions c86_unite_commutes_partial.
(** In general the order matters: 1.4 to 9.2, and 2.1 to 4.1 inside it. *)
Theorem c86_unite_commutes_refuted : exists r o, isvalid r = true /\ isvalid o = true /\ fcontains fl o (fl (21#10)) 0 2 1 = true /\ o = rect4 (fl (14#10)) 0 (fl (78#10)) 1 /\ r = rect4 (fl (21#10)) 0 2 1
  /\ rect_eqb (funite fl r o) (funite fl o r) = false.
Proof. exists (rect4 (fl (21#10)) 0 2 1), (rect4 (fl (14#10)) 0 (fl (78#10)) 1). vm_compute. repeat split; reflexivity. Qed.
Print Assumptions c86_unite_commutes_refuted.

(** A union need not contain what it unites: 2.8 to 3.4 and 0.8 to 1.3. *)
Theorem c86_unite_covers_refuted : exists l w l' w', kept_rect fl l 0 w 1 /\ kept_rect fl l' 0 w' 1 /\ 0 < w /\ 0 < w'
  /\ (let s := funite fl (rect4 l 0 w 1) (rect4 l' 0 w' 1) in fcontains fl s l 0 w 1 = false /\ fcontains fl s l' 0 w' 1 = true /\ isvalid s = true).
Proof. exists (fl (28#10)), (fl (6#10)), (fl (8#10)), (fl (5#10)). vm_compute. repeat split; reflexivity. Qed.
Print Assumptions c86_unite_covers_refuted.
(** It does when its sizes come out exact... *)
Theorem c86_unite_covers_partial f u l t w h l' t' w' h' : rounding f u -> kept_rect f l t w h -> kept_rect f l' t' w' h' -> 0 < w -> 0 < h -> 0 < w' -> 0 < h' ->
  (let d := Qmax (f (l + w)) (f (l' + w')) - Qmin l l' in f d == d /\ 0 < d) -> (let d := Qmax (f (t + h)) (f (t' + h')) - Qmin t t' in f d == d /\ 0 < d) ->
  let s := funite f (rect4 l t w h) (rect4 l' t' w' h') in fcontains f s l t w h = true /\ fcontains f s l' t' w' h' = true.
Proof.
  intros R K K' A B C D X Y s. destruct (fcontains f (rect4 l t w h) l' t' w' h') eqn:N.
  - assert (E : s = rect4 l t w h) by (apply unite_absorbs; [exact N|now apply isvalid4]). rewrite E. split; [now apply (contains_self f u)|exact N].
  - assert (E := unite_around f u R l t w h l' t' w' h' K K' A B C D N). fold s in E. destruct (unite_corner f l t w h l' t' w' h') as (a & b & c & d & EA & _). fold s in EA. rewrite EA in *. unfold around in E. apply rect_eqb_parts in E.
    destruct E as (E1 & E2 & E3 & E4). cbv zeta in X, Y. destruct X as [X X'], Y as [Y Y']. rewrite X in E3. rewrite Y in E4. destruct K as (K1 & K2 & _ & _), K' as (K1' & K2' & _ & _).
    assert (P := covers_axis f u R l w l' w' c K1 K1' A C E3). assert (Q := covers_axis f u R t h t' h' d K2 K2' B D E4). cbv zeta in P, Q.
    assert (F1 : f (a + c) == f (Qmin l l' + c)) by (apply (r_proper f u R); rewrite E1; reflexivity). assert (F2 : f (b + d) == f (Qmin t t' + d)) by (apply (r_proper f u R); rewrite E2; reflexivity).
    split; (apply fcontains_iff; [assumption|assumption|]); rewrite F1, F2; rewrite E1, E2; repeat split; lra.
Qed.
Print Assumptions c86_unite_covers_partial.
(** ... as they do when the farther edge is at most twice the nearer one, *)
Theorem c86_exact_size a b : fl a == a -> fl b == b -> a <= b -> b <= 2 * a -> fl (b - a) == b - a /\ fl (a + fl (b - a)) == b.
Proof.
  intros A B L U. assert (E : fl (b - a) == b - a) by (apply fl_exact, sterbenz; [now apply digits_fl|now apply digits_fl|exact L|exact U]).
  split; [exact E|]. rewrite (fl_proper _ b); [exact B|]. rewrite E. ring.
Qed.
Print Assumptions c86_exact_size.
Example c86_exact_size_case : let a := fl (21#10) in let b := fl (41#10) in fl a == a /\ fl b == b /\ a <= b /\ b <= 2 * a /\ fl (b - a) == b - a.
Proof. vm_compute. repeat split; try reflexivity; discriminate. Qed.
(** ... and otherwise the far edge, found again from the near one and the
    size, is off by this much at most. *)
Theorem c86_edge_error f u a b : rounding f u -> 0 <= u -> f b == b -> Qabs (f (a + f (b - a)) - b) <= u * Qabs b + u * (1 + u) * Qabs (b - a).
Proof. intros R. now apply r_back. Qed.
Print Assumptions c86_edge_error.
Example c86_edge_error_case : let a := fl (8#10) in let b := fl (fl (28#10) + fl (6#10)) in fl b == b /\ (fl (a + fl (b - a)) <?q b) = true /\ 0 <= (1#2) ^ 53.
Proof. vm_compute. repeat split; try reflexivity; discriminate. Qed.

(** The left and top edges of a box put round any number of rectangles, one
    after another, are exact, whatever the rounding does. *)
Theorem c86_box f l t w h (rs : list (Q * Q * Q * Q)) : exists l' t' w' h',
  fold_left (fun r o => let '(x, y, ow, oh) := o in funite f r (rect4 x y ow oh)) rs (rect4 l t w h) = rect4 l' t' w' h'
  /\ l' <= l /\ t' <= t /\ (forall x y ow oh, In (x, y, ow, oh) rs -> l' <= x /\ t' <= y)
  /\ (l' = l \/ exists x y ow oh, In (x, y, ow, oh) rs /\ l' = x) /\ (t' = t \/ exists x y ow oh, In (x, y, ow, oh) rs /\ t' = y).
Proof. apply unite_all. Qed.
Print Assumptions c86_box.
Example c86_box_case : let rs := [(fl (8#10), 0, fl (5#10), 1); (fl (1#10), fl (-7#10), 0, 0)] in
  exists w h, fold_left (fun r o => let '(x, y, ow, oh) := o in funite fl r (rect4 x y ow oh)) rs (rect4 (fl (28#10)) 0 (fl (6#10)) 1) = rect4 (fl (1#10)) (fl (-7#10)) w h.
Proof. eexists. eexists. vm_compute. reflexivity. Qed.

(** ** Intersection *)
(** Overlapping rectangles, wide and high enough to have different edges: the
    result has the common left and top edge, sizes that are the rounded
    distances to the common right and bottom edge, and is never empty. *)
Theorem c86_intersect f u l t w h l' t' w' h' : rounding f u -> u < 1 -> 0 < w -> 0 < h -> 0 < w' -> 0 < h' ->
  let r := rect4 l t w h in let o := rect4 l' t' w' h' in let rg := f (l + w) in let bt := f (t + h) in let rg' := f (l' + w') in let bt' := f (t' + h') in
  l < rg -> t < bt -> l' < rg' -> t' < bt' ->
  (fcontains f o l t w h = true -> fintersect f r o = r)
  /\ isvalid (fintersect f r o) = true
  /\ (fcontains f o l t w h = false -> Qmax l l' < Qmin rg rg' -> Qmax t t' < Qmin bt bt' ->
      rect_eqb (fintersect f r o) (rect4 (Qmax l l') (Qmax t t') (f (Qmin rg rg' - Qmax l l')) (f (Qmin bt bt' - Qmax t t'))) = true).
Proof.
  intros R U A B C D r o rg bt rg' bt' H1 H2 H3 H4.
  assert (Same : fcontains f o l t w h = true -> fintersect f r o = r).
  { intros N. unfold r, o in *. unfold fintersect. rewrite (proj2 (isvalid4 l t w h) (conj A B)), (proj2 (isvalid4 l' t' w' h') (conj C D)). cbn [negb orb]. cbn [rect4 rx ry rw rh] in *. fold (rect4 l' t' w' h') in *. now rewrite N. }
  split; [exact Same|]. split.
  - destruct (fcontains f o l t w h) eqn:N; [rewrite (Same eq_refl); now apply isvalid4|]. assert (I := intersect_corners f l t w h l' t' w' h' A B C D N). assert (E := corners_edges l t rg bt l' t' rg' bt' H1 H2 H3 H4).
    fold rg bt rg' bt' r o in I. destruct (corners l t rg bt l' t' rg' bt') as [[x1 y1] [x2 y2]]. rewrite I. unfold fset_coords. apply isvalid4. split; apply (r_pos f u R); try exact U; lra.
  - intros N X Y. assert (I := intersect_corners f l t w h l' t' w' h' A B C D N). assert (E := corners_overlap l t rg bt l' t' rg' bt' H1 H2 H3 H4 X Y).
    fold rg bt rg' bt' r o in I. destruct (corners l t rg bt l' t' rg' bt') as [[x1 y1] [x2 y2]]. rewrite I. destruct E as (E1 & E2 & E3 & E4). unfold fset_coords. apply rect4_eqb; [exact E1|exact E2| |]; apply (r_proper f u R); rewrite ?E1, ?E2, ?E3, ?E4; reflexivity.
Qed.
Print Assumptions c86_intersect.
Example c86_intersect_case : let r := rect4 (fl (17#10)) 0 (fl (53#10)) 1 in let o := rect4 (fl (5#10)) (-1) (fl (34#10)) (3#2) in
  rect_eqb (fintersect fl r o) (rect4 (fl (17#10)) 0 (fl (fl (fl (5#10) + fl (34#10)) - fl (17#10))) (1#2)) = true.
Proof. vm_compute. reflexivity. Qed.
(** It may stick out of the other rectangle: 1.7 to 7 and 0.5 to 3.9. *)
Theorem c86_intersect_inside_refuted : exists l w l' w', kept_rect fl l 0 w 1 /\ kept_rect fl l' 0 w' 1 /\ 0 < w /\ 0 < w'
  /\ exists x y d e, fintersect fl (rect4 l 0 w 1) (rect4 l' 0 w' 1) = rect4 x y d e /\ fcontains fl (rect4 l 0 w 1) x y d e = true /\ fcontains fl (rect4 l' 0 w' 1) x y d e = false.
Proof.
  exists (fl (17#10)), (fl (53#10)), (fl (5#10)), (fl (34#10)). split; [vm_compute; repeat split; reflexivity|]. split; [vm_compute; repeat split; reflexivity|]. split; [vm_compute; reflexivity|]. split; [vm_compute; reflexivity|].
  do 4 eexists. split; [vm_compute; reflexivity|]. split; vm_compute; reflexivity.
Qed.
Print Assumptions c86_intersect_inside_refuted.
(** And of two non-empty ones it may be empty: a width too small to move the
    right edge away from the left one. *)
Theorem c86_intersect_empty_refuted : exists w, 0 < w /\ fl w == w /\ isvalid (rect4 1 0 w 1) = true
  /\ isempty (fintersect fl (rect4 1 0 w 1) (rect4 0 0 2 (1#2))) = true /\ isempty (intersect_self (rect4 1 0 w 1) (rect4 0 0 2 (1#2))) = false.
Proof. exists (1 # 2 ^ 60). vm_compute. repeat split; reflexivity. Qed.
Print Assumptions c86_intersect_empty_refuted.

(** ** Normalising and moving *)
Theorem c86_normalize f u l t w h : rounding f u -> kept_rect f l t w h -> exists x y d e,
  fnormalize f (rect4 l t w h) = Ok (rect4 x y d e) /\ 0 <= d /\ 0 <= e /\ fnormalize f (rect4 x y d e) = Ok (rect4 x y d e)
  /\ (0 <= w -> x = l /\ d = w) /\ (w < 0 -> x == f (l + w) /\ (0 <= u -> Qabs (f (x + d) - l) <= u * Qabs l + u * (1 + u) * Qabs (l - x))).
Proof.
  intros R (K1 & K2 & _ & _).
  assert (Pos : forall p s, f p == p -> s < 0 -> 0 <= f (p - f (p + s))).
  { intros p s K S. apply (r_nonneg f u R). assert (f (p + s) <= f p) by (apply (r_mono f u R); lra). lra. }
  assert (Stay : forall x y d e, 0 <= d -> 0 <= e -> fnormalize f (rect4 x y d e) = Ok (rect4 x y d e)).
  { intros x y d e D E. unfold fnormalize. cbn [rect4 rx ry rw rh]. destruct (Qltb_spec d 0); [exfalso; lra|]. cbn. destruct (Qltb_spec e 0); [exfalso; lra|]. reflexivity. }
  unfold fnormalize at 1. cbn [rect4 rx ry rw rh].
  destruct (Qltb_spec w 0) as [W|W], (Qltb_spec h 0) as [H|H]; cbn [bind];
    (do 4 eexists; (split; [reflexivity|]); (split; [try (apply Pos; assumption); lra|]); (split; [try (apply Pos; assumption); lra|]); (split; [apply Stay; try (apply Pos; assumption); lra|])); split; intros S; try (exfalso; lra);
    try (split; reflexivity); (split; [reflexivity|]); intros P; apply (r_back f u R); assumption.
Qed.
Print Assumptions c86_normalize.
Example c86_normalize_case : exists d, fnormalize fl (rect4 (fl (4#10)) 0 (fl (-1#10)) 1) = Ok (rect4 (fl (fl (4#10) + fl (-1#10))) 0 d 1) /\ (d =?q fl (1#10)) = false.
Proof. eexists. split; vm_compute; reflexivity. Qed.
(** A width may be lost altogether. *)
Theorem c86_normalize_refuted : exists w, w < 0 /\ fl w == w /\ match fnormalize fl (rect4 1 0 w 1) with Ok n => isempty n = true | Err _ => False end.
Proof. exists (-1 # 2 ^ 60). vm_compute. repeat split; reflexivity. Qed.
Print Assumptions c86_normalize_refuted.

(** Moving the edges: the new corner is each sum rounded once, the sizes are
    not negative when the edges stay in order, and on a grid nothing is lost. *)
Theorem c86_adjust f u l t w h a b c d : rounding f u -> 0 < w -> 0 < h -> exists p q,
  fadjust f (rect4 l t w h) a b c d = rect4 (f (l + a)) (f (t + b)) p q
  /\ (a <= c -> l <= f (l + w) -> 0 <= p) /\ (b <= d -> t <= f (t + h) -> 0 <= q).
Proof.
  intros R W H. unfold fadjust. rewrite (proj2 (isvalid4 l t w h) (conj W H)). cbn [negb]. cbn [rect4 rx ry rw rh]. unfold fset_coords. do 2 eexists. split; [reflexivity|].
  assert (G : forall l w a c, a <= c -> l <= f (l + w) -> 0 <= f (f (f (l + w) + c) - f (l + a))).
  { intros x s p q A B. apply (r_nonneg f u R). assert (f (x + p) <= f (f (x + s) + q)) by (apply (r_mono f u R); lra). lra. }
  split; intros; now apply G.
Qed.
Print Assumptions c86_adjust.
Theorem c86_adjust_grid k l t w h a b c d : grid_rect k (2 ^ 50) l t w h -> grid_rect k (2 ^ 50) a b c d -> rect_eqb (fadjust fl (rect4 l t w h) a b c d) (adjust_self (rect4 l t w h) a b c d) = true.
Proof.
  intros (A1 & A2 & A3 & A4) (B1 & B2 & B3 & B4). unfold fadjust, adjust_self. destruct (isvalid (rect4 l t w h)); cbn [negb]; [|apply rect_eqb_refl]. cbn [rect4 rx ry rw rh]. unfold fset_coords, set_coords.
  assert (G : forall x s p q, on_grid k (2 ^ 50) x -> on_grid k (2 ^ 50) s -> on_grid k (2 ^ 50) p -> on_grid k (2 ^ 50) q -> fl (x + p) == x + p /\ fl (fl (fl (x + s) + q) - fl (x + p)) == x + s + q - (x + p)).
  { intros x s p q X S P Q. assert (E1 : fl (x + p) == x + p) by (apply (grid_digits k (2 ^ 51)); [vm_compute; discriminate|now apply (grid_plus k (2 ^ 50) (2 ^ 50))]).
    assert (E2 : fl (x + s) == x + s) by (apply (grid_digits k (2 ^ 51)); [vm_compute; discriminate|now apply (grid_plus k (2 ^ 50) (2 ^ 50))]).
    assert (E3 : fl (fl (x + s) + q) == x + s + q).
    { rewrite (fl_proper _ (x + s + q)) by (rewrite E2; reflexivity). apply (grid_digits k (2 ^ 51 + 2 ^ 50)); [vm_compute; discriminate|]. apply grid_plus; [now apply (grid_plus k (2 ^ 50) (2 ^ 50))|exact Q]. }
    split; [exact E1|]. rewrite (fl_proper _ (x + s + q - (x + p))) by (rewrite E3, E1; reflexivity).
    apply (grid_digits k (2 ^ 51 + 2 ^ 50 + 2 ^ 51)); [vm_compute; discriminate|]. apply grid_minus; [apply grid_plus; [now apply (grid_plus k (2 ^ 50) (2 ^ 50))|exact Q]|now apply (grid_plus k (2 ^ 50) (2 ^ 50))]. }
  destruct (G l w a c A1 A3 B1 B3), (G t h b d A2 A4 B2 B4). now apply rect4_eqb.
Qed.
Print Assumptions c86_adjust_grid.
Example c86_adjust_case : fadjust fl (rect4 1 2 3 4) (-1) (1#2) 1 (1#2) = fset_coords fl (fl 0) (fl (5#2)) (fl 5) (fl (13#2)) /\ rect_eqb (fadjust fl (rect4 1 2 3 4) (-1) (1#2) 1 (1#2)) (rect4 0 (5#2) 5 4) = true.
Proof. vm_compute. split; reflexivity. Qed.

(** Moving there and back: sizes stay, and the corner is off by this much at
    most. *)
Theorem c86_translate f u l t w h dx dy : rounding f u -> 0 <= u -> kept_rect f l t w h -> exists x y,
  ftranslate f (fst (ftranslate f (rect4 l t w h) dx dy)) (- dx) (- dy) = (rect4 x y w h, None)
  /\ Qabs (x - l) <= u * Qabs l + u * (1 + u) * Qabs (l + dx) /\ Qabs (y - t) <= u * Qabs t + u * (1 + u) * Qabs (t + dy).
Proof.
  intros R U (K1 & K2 & _ & _). exists (f (f (l + dx) + - dx)), (f (f (t + dy) + - dy)). split; [reflexivity|].
  assert (G : forall a d, f a == a -> Qabs (f (f (a + d) + - d) - a) <= u * Qabs a + u * (1 + u) * Qabs (a + d)).
  { intros a d K. assert (B := r_back f u R (- d) a U K). assert (E1 : a - - d == a + d) by ring. assert (E2 : f (- d + f (a - - d)) == f (f (a + d) + - d)).
    { apply (r_proper f u R). rewrite (r_proper f u R _ _ E1). ring. }
    rewrite E2 in B. rewrite E1 in B. exact B. }
  split; now apply G.
Qed.
Print Assumptions c86_translate.
Theorem c86_translate_refuted : exists l dx, fl l == l /\ fl dx == dx /\ rect_eqb (fst (ftranslate fl (fst (ftranslate fl (rect4 l 0 1 1) dx 0)) (- dx) 0)) (rect4 l 0 1 1) = false.
Proof. exists (fl (1#10)), (fl (2#10)). vm_compute. repeat split; reflexivity. Qed.
Print Assumptions c86_translate_refuted.
