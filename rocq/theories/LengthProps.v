(** C33: lengths.

    A length is a number and a unit; what a unit is worth (in pixels, or in
    dots per pixel for resolutions) is LengthSpec.sized.  Conversion, sums and
    comparison of lengths read in the same surroundings are those of the
    pixels; lengths and resolutions never mix. *)
From Coq Require Import Qabs.
From Verif Require Import PyBase PyText PySplit CssUnitModel FormatModel FormatSpec FormatProofs LengthModel LengthSpec LengthProofs.
#[local] Open Scope Q_scope.

(** Surroundings for the examples: font 16/20 px, viewport 200 x 50. *)
Definition here : lctx := mkC 16 20 200 50 140 None (fun _ _ => 0).
Definition len (n : Q) (u : text) : slength := mkL n (Some u) here here (Some Horizontal).

(** ** Conversion keeps the length: whatever the two units, the number times
    the size of the unit is unchanged.  Sizes of zero (a viewport of no width)
    are excluded; so are fonts whose metrics do not follow their size. *)
Theorem c33_convert_partial : forall x u k s su,
  measures x k s -> sized (ctx x) (ldir x) u k su -> ~ su == 0 -> steady (ctx x) u ->
  exists y, convert x u = Ok y /\ lunit y = u /\ together x y /\ measures y k su /\ num y * su == num x * s.
Proof. intros x u k s su M S N ST. destruct (convert_spec x u k s su M S N ST) as (y & A & B & C & _ & D & E). exists y. auto. Qed.
Print Assumptions c33_convert_partial.
Example c33_convert_case : exists y, convert (len 3 (lit "em")) (Some (lit "vw")) = Ok y /\ num y == 30 /\ lunit y = Some (lit "vw").
Proof. eexists. split; [reflexivity|]. split; reflexivity. Qed.

(** ... and so back again. *)
Theorem c33_convert_back : forall x u k s su,
  measures x k s -> ~ s == 0 -> sized (ctx x) (ldir x) u k su -> ~ su == 0 -> steady (ctx x) u -> steady (ctx x) (lunit x) ->
  exists y z, convert x u = Ok y /\ convert y (lunit x) = Ok z /\ num z == num x /\ lunit z = lunit x.
Proof.
  intros x u k s su M Ns S N ST STx. destruct (convert_spec x u k s su M S N ST) as (y & A & B & (C1 & C2) & _ & D & E).
  assert (S' : sized (ctx y) (ldir y) (lunit x) k s) by (rewrite <- C1, <- C2; exact M).
  rewrite C1 in STx. destruct (convert_spec y (lunit x) k su s D S' Ns STx) as (z & A' & B' & _ & _ & _ & E').
  exists y, z. repeat split; auto. apply Qmult_inj_r with s; auto. rewrite E', E. reflexivity.
Qed.
Print Assumptions c33_convert_back.
Example c33_convert_back_case : measures (len 5 (lit "in")) Length 96 /\ sized here (Some Horizontal) (Some (lit "vmin")) Length (Qmin 200 50 / 100).
Proof. split; constructor. Qed.
(** The size of a unit is unique: [sized] is a function. *)
Theorem c33_size : forall c d u k s k' s', sized c d u k s -> sized c d u k' s' -> k = k' /\ s == s'.
Proof. exact sized_fun. Qed.
Print Assumptions c33_size.
(** Every supported unit has a size. *)
Theorem c33_sizes : forall c d u, In u svg_units -> exists k s, sized c d (Some u) k s.
Proof.
  intros c d u I.
  assert (F : In u [lit "ex"; lit "cap"; lit "ch"; lit "ic"] -> exists k s, sized c d (Some u) k s).
  { intros J. destruct (metric c) as [m|] eqn:M.
    - destruct (Qeq_dec (m u) 0); do 2 eexists; [eapply s_font_0|eapply s_font]; eauto.
    - do 2 eexists. apply s_no_font; auto. }
  unfold svg_units in I. repeat (destruct I as [<-|I]; [first [apply F; cbn; tauto | do 2 eexists; constructor; fail | idtac]|]); try destruct I.
  destruct d as [[| |]|]; do 2 eexists; [apply s_percent_u|apply s_percent_h|apply s_percent_v|apply s_percent]; reflexivity.
Qed.
Print Assumptions c33_sizes.
(** Converting to a font unit first resizes the font to the length itself
    (1532-1548): a font whose x-height is half its size makes the result
    2ex whatever the length. *)
Definition half_font : lctx := mkC 16 20 200 50 140 (Some (fun _ => 10)) (fun p _ => p / 2).
Theorem c33_convert_refuted : exists x y s su,
  measures x Length s /\ sized (ctx x) (ldir x) (Some (lit "ex")) Length su /\ ~ su == 0 /\
  convert x (Some (lit "ex")) = Ok y /\ ~ num y * su == num x * s.
Proof.
  exists (mkL 50 (Some (lit "px")) half_font half_font None), (mkL (50 / (50 / 2)) (Some (lit "ex")) half_font half_font None), 1, 10.
  split; [constructor|]. split; [apply s_font with (m := fun _ => 10); [left; reflexivity|reflexivity|discriminate]|]. split; [discriminate|].
  split; [reflexivity|]. discriminate.
Qed.
Print Assumptions c33_convert_refuted.

(** ** += and -= add the pixels; the result keeps the unit of the left
    operand, or takes that of the right one when the left has none. *)
Theorem c33_iadd : forall x y k s sy, together x y -> measures x k s -> measures y k sy -> ~ s == 0 -> ~ sy == 0 ->
  steady (ctx y) (lunit y) -> steady (ctx x) (lunit x) ->
  exists z sz, iadd x y = Ok z /\ together z x /\ measures z k sz /\ num z * sz == num x * s + num y * sy /\
    (lunit z = lunit x \/ lunit x = None /\ lunit z = lunit y).
Proof. intros x y k s sy. apply (arith_spec Qplus); [intros; ring|]. intros a a' b b' A B. now rewrite A, B. Qed.
Print Assumptions c33_iadd.
Theorem c33_isub : forall x y k s sy, together x y -> measures x k s -> measures y k sy -> ~ s == 0 -> ~ sy == 0 ->
  steady (ctx y) (lunit y) -> steady (ctx x) (lunit x) ->
  exists z sz, isub x y = Ok z /\ together z x /\ measures z k sz /\ num z * sz == num x * s - num y * sy /\
    (lunit z = lunit x \/ lunit x = None /\ lunit z = lunit y).
Proof. intros x y k s sy. apply (arith_spec Qminus); [intros; ring|]. intros a a' b b' A B. now rewrite A, B. Qed.
Print Assumptions c33_isub.
Example c33_iadd_case : exists z, iadd (len 3 (lit "em")) (len 10 (lit "%")) = Ok z /\ num z == 4 /\ lunit z = Some (lit "em").
Proof. eexists. split; [reflexivity|]. split; reflexivity. Qed.
Example c33_iadd_bare_case : exists z, iadd (mkL 40 None here here (Some Horizontal)) (len 3 (lit "em")) = Ok z /\ num z == 5 /\ lunit z = Some (lit "em").
Proof. eexists. split; [reflexivity|]. split; reflexivity. Qed.

(** + and - do the same for a left operand whose copy reads what it reads;
    neither operand is changed (they are values here). *)
Theorem c33_add_partial : forall x y k s sy, portable x -> together x y -> measures x k s -> measures y k sy -> ~ s == 0 -> ~ sy == 0 ->
  steady (ctx y) (lunit y) -> steady (ctx x) (lunit x) ->
  (exists z sz, add x y = Ok z /\ together z x /\ measures z k sz /\ num z * sz == num x * s + num y * sy /\
     (lunit z = lunit x \/ lunit x = None /\ lunit z = lunit y)) /\
  (exists z sz, sub x y = Ok z /\ together z x /\ measures z k sz /\ num z * sz == num x * s - num y * sy /\
     (lunit z = lunit x \/ lunit x = None /\ lunit z = lunit y)).
Proof.
  intros x y k s sy P T M My N Ny ST STx. unfold add, sub. assert (E : copied x = x) by (destruct x; unfold portable, copied in *; cbn in *; congruence).
  rewrite E. split; [now apply (c33_iadd x y k s sy)|now apply (c33_isub x y k s sy)].
Qed.
Print Assumptions c33_add_partial.
Example c33_add_case : exists z, add (len 1 (lit "in")) (len 1 (lit "em")) = Ok z /\ num z * 96 == 116.
Proof. eexists. split; [reflexivity|]. reflexivity. Qed.
(** deepcopy detaches the context (1053-1065): 2em + 0px inside a parent with
    font size 20 is a length of 2em that reads the default size 16. *)
Theorem c33_add_refuted : exists x y z s sz, together x y /\ measures x Length s /\ ~ s == 0 /\ num y == 0 /\ lunit y = Some (lit "px") /\
  add x y = Ok z /\ measures z Length sz /\ ~ num z * sz == num x * s + num y.
Proof.
  exists (mkL 2 (Some (lit "em")) here no_context (Some Horizontal)), (len 0 (lit "px")).
  eexists. exists 20, 16. split; [split; reflexivity|]. split; [exact (s_em here _)|]. split; [discriminate|]. split; [reflexivity|]. split; [reflexivity|].
  split; [reflexivity|]. split; [apply (s_em no_context)|]. discriminate.
Qed.
Print Assumptions c33_add_refuted.
(** The right operand is converted with its own direction: 50% of the width
    plus 50% of the height are added as percentages as they stand. *)
Theorem c33_direction_refuted : exists x y z sx sy, ctx x = ctx y /\ measures x Length sx /\ measures y Length sy /\ iadd x y = Ok z /\
  measures z Length sx /\ ~ num z * sx == num x * sx + num y * sy.
Proof.
  exists (len 50 (lit "%")), (mkL 50 (Some (lit "%")) here here (Some Vertical)).
  eexists. exists (200 / 100), (50 / 100). split; [reflexivity|]. split; [apply (s_percent_h here); reflexivity|]. split; [apply (s_percent_v here); reflexivity|].
  split; [reflexivity|]. split; [apply (s_percent_h here); reflexivity|]. discriminate.
Qed.
Print Assumptions c33_direction_refuted.

(** ** Lengths and resolutions do not mix *)
Theorem c33_dimensions : forall x y k s k' sy, measures x k s -> measures y k' sy -> k <> k' ->
  iadd x y = Err ValueError /\ isub x y = Err ValueError /\ imul x y = Err ValueError /\ idiv x y = Err ValueError /\
  eq_ x y = Err ValueError /\ lt_ x y = Err ValueError /\ le_ x y = Err ValueError /\ gt_ x y = Err ValueError /\ ge_ x y = Err ValueError /\
  convert x (lunit y) = Err ValueError /\ value x (lunit y) None = Err ValueError.
Proof.
  intros x y k s k' sy M My N. assert (V : value y (lunit x) None = Err ValueError) by (apply (value_kinds y (lunit x) k' k sy _ _ s My M); congruence).
  assert (W : value x (lunit y) None = Err ValueError) by (apply (value_kinds x (lunit y) k k' s _ _ sy M My N)).
  unfold iadd, isub, imul, idiv. rewrite !(arith_kinds x y k s k' sy) by auto. unfold eq_, lt_, le_, gt_, ge_. rewrite V. repeat split; auto.
  unfold convert. rewrite W. destruct (unit_eqb_spec (lunit y) (lunit x)) as [E|]; [|reflexivity].
  rewrite E, value_own in W. discriminate.
Qed.
Print Assumptions c33_dimensions.
Example c33_dimensions_case : measures (len 3 (lit "em")) Length 20 /\ measures (len 96 (lit "dpi")) Resolution (1 / 96).
Proof. split; constructor. Qed.

(** ** Scaling by a number, negation and absolute value act on the number;
    division by zero is an error. *)
Theorem c33_scale : forall x k, portable x ->
  (forall kd s, measures x kd s -> measures (mul_n x k) kd s /\ num (mul_n x k) * s == num x * s * k) /\
  (k == 0 -> truediv_n x k = Err ZeroDivisionError) /\
  (~ k == 0 -> exists y, truediv_n x k = Ok y /\ lunit y = lunit x /\ together x y /\ num y * k == num x) /\
  num (neg x) == - num x /\ lunit (neg x) = lunit x /\ num (abs_ x) == Qabs (num x) /\ lunit (abs_ x) = lunit x.
Proof.
  intros x k P. assert (E : copied x = x) by (destruct x; unfold portable, copied in *; cbn in *; congruence).
  unfold mul_n, truediv_n, neg, abs_. rewrite E. unfold idiv_n. split; [|split; [|split]].
  - intros kd s M. split; [exact M|]. cbn. ring.
  - intros Z. unfold div. destruct (Qeqb_spec k 0); [reflexivity|contradiction].
  - intros N. destruct (div_spec (num x) k N) as (q & A & B). rewrite A. cbn [bind]. eexists. split; [reflexivity|]. repeat split; auto.
  - repeat split; reflexivity.
Qed.
Print Assumptions c33_scale.
Example c33_scale_case : portable (len 3 (lit "em")). Proof. reflexivity. Qed.
(** The product of two lengths is a length, and depends on the order: 2cm * 3mm
    is 0.6cm, 3mm * 2cm is 60mm. *)
Theorem c33_mul_refuted : exists x y a b sa sb, imul x y = Ok a /\ imul y x = Ok b /\ measures a Length sa /\ measures b Length sb /\
  num b * sb > 9 * (num a * sa).
Proof.
  exists (len 2 (lit "cm")), (len 3 (lit "mm")). do 2 eexists. exists (96 / d254), (96 / d25_4).
  split; [reflexivity|]. split; [reflexivity|]. split; [apply (s_cm here)|]. split; [apply (s_mm here)|]. reflexivity.
Qed.
Print Assumptions c33_mul_refuted.

(** ** Comparison *)
(** Comparable lengths satisfy exactly one of <, ==, >; <= and >= follow. *)
Theorem c33_trichotomy : forall x y k s sy, together x y -> measures x k s -> measures y k sy -> ~ s == 0 -> steady (ctx x) (lunit x) ->
  exists l e g, lt_ x y = Ok l /\ eq_ x y = Ok e /\ gt_ x y = Ok g /\ le_ x y = Ok (l || e) /\ ge_ x y = Ok (g || e) /\
    ((l, e, g) = (true, false, false) \/ (l, e, g) = (false, true, false) \/ (l, e, g) = (false, false, true)).
Proof.
  intros x y k s sy T M My N ST. destruct (value_compare x y k s sy T M My N ST) as (o & E & H). unfold lt_, eq_, gt_, le_, ge_. rewrite E. cbn [bind].
  do 3 eexists. do 3 (split; [reflexivity|]). destruct (isclose (num x) o) eqn:C. { rewrite !orb_true_r. tauto. }
  rewrite !orb_false_r. assert (D : ~ num x == o) by (intros Z; rewrite isclose_eq in C; auto; discriminate).
  destruct (Qltb_spec (num x) o), (Qltb_spec o (num x)), (Qleb_spec (num x) o), (Qleb_spec o (num x)); try lra; auto.
Qed.
Print Assumptions c33_trichotomy.
(** The order is that of the pixels, up to the tolerance of math.isclose. *)
Theorem c33_order : forall x y k s sy, together x y -> measures x k s -> measures y k sy -> 0 < s -> steady (ctx x) (lunit x) ->
  (lt_ x y = Ok true -> num x * s < num y * sy) /\
  (gt_ x y = Ok true -> num x * s > num y * sy) /\
  (num x * s == num y * sy -> eq_ x y = Ok true) /\
  (eq_ x y = Ok true -> Qabs (num x * s - num y * sy) <= tol * Qmax (Qmax (Qabs (num x * s)) (Qabs (num y * sy))) s).
Proof.
  intros x y k s sy T M My P ST. assert (N : ~ s == 0) by lra. destruct (value_compare x y k s sy T M My N ST) as (o & E & H).
  unfold lt_, eq_, gt_. rewrite E. cbn [bind]. rewrite <- H. split; [|split; [|split]].
  - destruct (isclose (num x) o); [discriminate|]. destruct (Qltb_spec (num x) o); [|discriminate]. intros _. now apply Qmult_lt_compat_r.
  - destruct (isclose (num x) o); [discriminate|]. destruct (Qltb_spec o (num x)); [|discriminate]. intros _. now apply Qmult_lt_compat_r.
  - intros Z. rewrite isclose_eq; auto. apply Qmult_inj_r with s; auto.
  - intros C. injection C as C. apply isclose_le in C. setoid_replace (num x * s - o * s) with ((num x - o) * s) by ring.
    rewrite !Qabs_Qmult, (Qabs_pos s) by lra.
    apply Qle_trans with (Qmax (tol * Qmax (Qabs (num x)) (Qabs o)) tol * s). { apply Qmult_le_compat_r; lra. }
    assert (TP : 0 < tol) by reflexivity.
    assert (K : forall a b, (a <= b -> tol * a * s <= tol * (b * s))).
    { intros a b L. rewrite <- Qmult_assoc. apply Qmult_le_l; auto. apply Qmult_le_compat_r; lra. }
    assert (A1 : Qabs (num x) * s <= Qmax (Qmax (Qabs (num x) * s) (Qabs o * s)) s) by (eapply Qle_trans; [|apply Q.le_max_l]; apply Q.le_max_l).
    assert (A2 : Qabs o * s <= Qmax (Qmax (Qabs (num x) * s) (Qabs o * s)) s) by (eapply Qle_trans; [|apply Q.le_max_l]; apply Q.le_max_r).
    assert (A3 : s <= Qmax (Qmax (Qabs (num x) * s) (Qabs o * s)) s) by apply Q.le_max_r.
    assert (B : forall a m, a * s <= m -> tol * a * s <= tol * m).
    { intros a m L. rewrite <- Qmult_assoc. apply Qmult_le_l; auto. }
    destruct (Q.max_spec (tol * Qmax (Qabs (num x)) (Qabs o)) tol) as [(_ & ->)|(_ & ->)].
    + apply Qmult_le_l; auto.
    + destruct (Q.max_spec (Qabs (num x)) (Qabs o)) as [(_ & ->)|(_ & ->)]; apply B; auto.
Qed.
Print Assumptions c33_order.
Example c33_order_case : lt_ (len 3 (lit "em")) (len 1 (lit "in")) = Ok true /\ eq_ (len 5 (lit "em")) (len 50 (lit "%")) = Ok true.
Proof. split; reflexivity. Qed.
(** The tolerance is absolute in the unit of the left operand, so == is not
    symmetric: 0in == 0.00000001px, but 0.00000001px != 0in. *)
Theorem c33_eq_symmetric_refuted : exists x y, together x y /\ eq_ x y = Ok true /\ eq_ y x = Ok false.
Proof. exists (len 0 (lit "in")), (len (1 # 100000000) (lit "px")). repeat split. Qed.
Print Assumptions c33_eq_symmetric_refuted.

(** ** Text *)
(** What is printed reads back: the number rounded to the printed precision,
    and the same unit. *)
Theorem c33_text : forall p x t, (0 < p)%nat -> (lunit x = None \/ exists u, lunit x = Some u /\ In u svg_units) ->
  tostring p x None = Ok t -> exists y, of_text t = Ok y /\ lunit y = lunit x /\ num y == rounded p (num x).
Proof.
  intros p x t Hp U. unfold tostring. rewrite value_own. intros E. injection E as <-. unfold of_text.
  destruct (parse_printed p (num x) (lunit x) Hp U) as (v & E & V). rewrite E. cbn [bind]. eexists. split; [reflexivity|]. split; auto.
Qed.
Print Assumptions c33_text.
Example c33_text_case : tostring 3 (len (- (25 # 2)) (lit "em")) None = Ok (lit "-12.5em") /\
  exists y, of_text (lit "-12.5em") = Ok y /\ num y == - (25 # 2) /\ lunit y = Some (lit "em").
Proof. split; [reflexivity|]. eexists. split; [reflexivity|]. split; reflexivity. Qed.
(** Printed in another unit it reads back as the converted length, rounded. *)
Theorem c33_text_in : forall p x u k s su, (0 < p)%nat -> In u svg_units -> measures x k s -> sized (ctx x) (ldir x) (Some u) k su -> ~ su == 0 ->
  steady (ctx x) (Some u) ->
  exists t y v, tostring p x (Some u) = Ok t /\ of_text t = Ok y /\ lunit y = Some u /\ num y == rounded p v /\ v * su == num x * s.
Proof.
  intros p x u k s su Hp I M S N ST. unfold tostring. destruct (value_spec x (Some u) k s su M S N ST) as (v & E & H). rewrite E. cbn [bind].
  destruct (parse_printed p v (Some u) Hp) as (w & E' & V); [right; eauto|].
  eexists. exists (mkL w (Some u) no_context no_context None), v. split; [reflexivity|]. unfold of_text. rewrite E'. auto.
Qed.
Print Assumptions c33_text_in.
Example c33_text_in_case : tostring 3 (len 3 (lit "em")) (Some (lit "pt")) = Ok (lit "45pt"). Proof. reflexivity. Qed.
(** Whatever text is accepted has no unit or a supported one. *)
Theorem c33_units : forall t y, of_text t = Ok y -> lunit y = None \/ exists u, lunit y = Some u /\ In u svg_units.
Proof.
  intros t y E. unfold of_text, parse in E. destruct (NumScan.scan_number (PyText.strip t)) as [(n & r)|]; [|discriminate].
  unfold normalize in E. destruct (scan_unit r) as [u|]; [|injection E as <-; auto].
  destruct (mem (PyCase.lower u) supported) eqn:M; [|discriminate]. injection E as <-. right. exists (PyCase.lower u). split; auto. now apply mem_in.
Qed.
Print Assumptions c33_units.
Example c33_units_case : of_text (lit "3 furlongs") = Ok (mkL 3 None no_context no_context None) /\ of_text (lit "3furlongs") = Err ValueError.
Proof. split; reflexivity. Qed.
(** The text need not end there (re.match, 1281): "10 furlongs" is 10. *)
Theorem c33_garbage_refuted : exists t y, ~ In (lit "furlongs") svg_units /\ t = lit "10 furlongs" /\ of_text t = Ok y /\ lunit y = None.
Proof. do 2 eexists. split; [|split; [reflexivity|split; [reflexivity|reflexivity]]]. vm_compute. intuition discriminate. Qed.
Print Assumptions c33_garbage_refuted.
(** A number and a unit are taken unchecked (1047-1051): such a length has no
    pixels. *)
Theorem c33_unchecked_refuted : exists n u, value (of_number n (Some u)) (Some (lit "px")) None = Err NotImplementedError_.
Proof. exists 1, (lit "furlong"). reflexivity. Qed.
Print Assumptions c33_unchecked_refuted.

(** ** Absolute, relative, resolution *)
(** An absolute length is worth the same everywhere; a relative one is not;
    the three classes do not overlap. *)
Theorem c33_absolute : forall x, isabsolute x = true ->
  exists s, forall c d, sized c d (lunit x) Length s.
Proof.
  intros x. unfold isabsolute. destruct (lunit x) as [u|]; [|intros _; eexists; intros; constructor].
  intros H. apply mem_in in H. repeat (destruct H as [<-|H]; [eexists; intros; constructor|]). destruct H.
Qed.
Print Assumptions c33_absolute.
Theorem c33_relative : forall x s, isrelative x = true -> exists c d s', sized c d (lunit x) Length s' /\ ~ s' == s.
Proof.
  intros x s. unfold isrelative. destruct (lunit x) as [u|]; [|discriminate]. intros H.
  assert (F : forall q, sized (mkC q q q q q (Some (fun _ => q)) (fun _ _ => q)) (Some Horizontal) (Some u) Length q \/
                        sized (mkC q q q q q (Some (fun _ => q)) (fun _ _ => q)) (Some Horizontal) (Some u) Length (q / 100) \/
                        sized (mkC q q q q q (Some (fun _ => q)) (fun _ _ => q)) (Some Horizontal) (Some u) Length (Qmin q q / 100) \/
                        sized (mkC q q q q q (Some (fun _ => q)) (fun _ _ => q)) (Some Horizontal) (Some u) Length (Qmax q q / 100)).
  { intros q. set (c := mkC q q q q q (Some (fun _ => q)) (fun _ _ => q)). apply mem_in in H.
    assert (M : In u [lit "ex"; lit "cap"; lit "ch"; lit "ic"] -> sized c (Some Horizontal) (Some u) Length q).
    { intros I. destruct (Qeq_dec q 0); [exact (s_font_0 c _ u (fun _ => q) I eq_refl q0)|exact (s_font c _ u (fun _ => q) I eq_refl n)]. }
    repeat (destruct H as [<-|H]; [first [left; apply M; cbn; tauto | left; exact (s_em c _) | left; exact (s_rem c _)
      | right; left; exact (s_percent_h c _ eq_refl) | right; left; exact (s_vw c _) | right; left; exact (s_vh c _)
      | right; right; left; exact (s_vmin c _) | right; right; right; exact (s_vmax c _)]|]). destruct H. }
  destruct (Qlt_le_dec 0 s) as [P|P].
  - exists (mkC 0 0 0 0 0 (Some (fun _ => 0)) (fun _ _ => 0)), (Some Horizontal). destruct (F 0) as [G|[G|[G|G]]]; eexists; (split; [exact G|]);
      [| setoid_replace (0 / 100) with 0 by reflexivity | setoid_replace (Qmin 0 0 / 100) with 0 by reflexivity | setoid_replace (Qmax 0 0 / 100) with 0 by reflexivity]; lra.
  - exists (mkC 100 100 100 100 100 (Some (fun _ => 100)) (fun _ _ => 100)), (Some Horizontal). destruct (F 100) as [G|[G|[G|G]]]; eexists; (split; [exact G|]);
      [| setoid_replace (100 / 100) with 1 by reflexivity | setoid_replace (Qmin 100 100 / 100) with 1 by reflexivity | setoid_replace (Qmax 100 100 / 100) with 1 by reflexivity]; lra.
Qed.
Print Assumptions c33_relative.
Theorem c33_resolution : forall x, isresolution x = true <-> exists s, measures x Resolution s.
Proof.
  intros x. unfold isresolution, measures. split.
  - destruct (lunit x) as [u|]; [|discriminate]. cbn [uin]. intros H. apply mem_in in H.
    repeat (destruct H as [<-|H]; [eexists; constructor|]). destruct H.
  - intros (s & S). apply (sized_kind _ _ _ _ _ S).
Qed.
Print Assumptions c33_resolution.
Example c33_classes_case : isabsolute (len 1 (lit "pt")) = true /\ isrelative (len 1 (lit "vmin")) = true /\ isresolution (len 1 (lit "dpi")) = true.
Proof. repeat split. Qed.
(** 'cap' is in no class (1247-1254). *)
Theorem c33_classes_refuted : exists u, In u svg_units /\
  isabsolute (len 1 u) = false /\ isrelative (len 1 u) = false /\ isresolution (len 1 u) = false.
Proof. exists (lit "cap"). split; [apply mem_in; reflexivity|]. repeat split. Qed.
Print Assumptions c33_classes_refuted.
(** Every other unit is in exactly one. *)
Theorem c33_classes_partial : forall x u, lunit x = Some u -> In u svg_units -> u <> lit "cap" ->
  (isabsolute x, isrelative x, isresolution x) = (true, false, false) \/ (isabsolute x, isrelative x, isresolution x) = (false, true, false) \/
  (isabsolute x, isrelative x, isresolution x) = (false, false, true).
Proof.
  intros x u E I N. unfold isabsolute, isrelative, isresolution. rewrite E. cbn [uin].
  repeat (destruct I as [<-|I]; [first [congruence | left; reflexivity | right; left; reflexivity | right; right; reflexivity]|]). destruct I.
Qed.
Print Assumptions c33_classes_partial.
Example c33_classes_partial_case : In (lit "ic") svg_units /\ isrelative (len 1 (lit "ic")) = true.
Proof. split; [apply mem_in; reflexivity|reflexivity]. Qed.
