(** C87: lengths with rounded numbers. *)
From Coq Require Import Qround Qabs Qpower Qminmax ZArith Lia Lqa Qfield.
From Verif Require Import PyBase PyText PySplit CssUnitModel LengthModel LengthSpec LengthProofs FloatModel FloatSpec FloatProofs FloatProofs2 DecModel DecSpec DecProofs DecProofs2 DecProofs3.
#[local] Open Scope Q_scope.

Definition nowhere (n : Q) (u : text) : slength := mkL n (Some u) no_context no_context None.
Definition written (t : text) : slength := match rof_text dl t with Ok x => x | Err _ => nowhere 0 [] end.

(** The arithmetic: rounding to p digits of a base is monotone, stable, odd and
    off by at most half of the last digit; floats are the case of 53 binary
    digits, Decimals that of 28 decimal ones, and a number of no more digits
    is kept. *)
Theorem c87_digits : forall b p, (2 <= b)%Z -> (1 <= p)%Z ->
  rounding (rnd b p) ((1#2) * inject_Z b ^ (1 - p)) /\ (forall x, digits b p (rnd b p x)) /\ (forall x, digits b p x <-> rnd b p x == x).
Proof.
  intros b p B H. split; [exact (rnd_rounding b p B H)|]. split; [intros x; now apply rnd_digits|]. intros x. split; [now apply rnd_exact|].
  intros E. destruct (rnd_digits b p x B H) as (m & e & M & F). exists m, e. split; [exact M|]. now rewrite <- E.
Qed.
Print Assumptions c87_digits.
Theorem c87_floats : forall x, fl x == rnd 2 53 x.
Proof.
  assert (E : forall q, 0 < q -> exponent q = expo 2 q).
  { intros q P. apply exponent_unique; [exact P|]. exact (expo_spec 2 q ltac:(lia) P). }
  intros x. unfold fl, rnd. destruct (Qeqb_spec x 0); [reflexivity|]. destruct (Qltb_spec x 0); unfold fl_pos, rnd_pos; rewrite E by lra; reflexivity.
Qed.
Print Assumptions c87_floats.
Theorem c87_decimals : rounding dl u10 /\ rounding fl u2.
Proof. split; [exact dl_rounding|exact fl_rounding]. Qed.
Print Assumptions c87_decimals.
Example c87_digits_case : digits 10 28 (314159265358979#100000000000000) /\ dl (1#3) == 0.3333333333333333333333333333 /\ dl (2#3) == 0.6666666666666666666666666667 /\
  dl 10000000000000000000000000005 == 10000000000000000000000000000 /\ dl 10000000000000000000000000015 == 10000000000000000000000000020.
Proof. split; [exists 314159265358979%Z, (-14)%Z; split; [vm_compute; discriminate|reflexivity]|]. repeat split; vm_compute; reflexivity. Qed.

(** Written with at most 28 digits, a number is kept. *)
Theorem c87_written : forall t n u, parse t = Ok (n, u) -> digits 10 28 n -> exists x, rof_text dl t = Ok x /\ num x == n /\ lunit x = u.
Proof. intros t n u E D. unfold rof_text. rewrite E. eexists. split; [reflexivity|]. split; [|reflexivity]. cbn [num fst]. apply rnd_exact; [lia|lia|exact D]. Qed.
Print Assumptions c87_written.
Example c87_written_case : exists x, rof_text dl (lit "10000000000.1px") = Ok x /\ num x == 10000000000.1 /\ lunit x = Some (lit "px").
Proof. eexists. split; [vm_compute; reflexivity|]. split; reflexivity. Qed.

(** With exact arithmetic these are the functions of C33. *)
Theorem c87_exact : forall x u d y, let id := fun q : Q => q in
  rvalue id id x u d = value x u d /\ rconvert id id x u = convert x u /\ riadd id id x y = iadd x y /\ risub id id x y = isub x y /\
  req id id x y = eq_ x y /\ rlt id id x y = lt_ x y /\ rle id id x y = le_ x y /\ rgt id id x y = gt_ x y /\ rge id id x y = ge_ x y.
Proof.
  intros x u d y id.
  assert (B : forall r : result Q, (do v <- r; Ok (id v)) = r) by (intros [v|e]; reflexivity).
  assert (V : forall x u d, rvalue id id x u d = value x u d).
  { clear. intros x u d. assert (B : forall r : result Q, (do v <- r; Ok (id v)) = r) by (intros [v|e]; reflexivity).
    unfold rvalue, value. destruct (unit_eqb u (lunit x)); [reflexivity|]. destruct (negb _); [reflexivity|].
    change (rto_pixels id) with to_pixels. destruct (to_pixels (ctx x) (match d with None => ldir x | _ => d end) (num x) (lunit x)) as [p|e]; [|reflexivity]. cbn [bind]. rewrite B. reflexivity. }
  assert (C : forall u, rconvert id id x u = convert x u) by (intros v; unfold rconvert, convert; now rewrite V).
  assert (D : radopt id id x y = adopt x y) by (unfold radopt, adopt; destruct (lunit x); auto; destruct (unit_of y); auto).
  unfold riadd, iadd, risub, isub, req, eq_, rlt, lt_, rle, le_, rgt, gt_, rge, ge_. rewrite D, !V, C. repeat split.
  - destruct (adopt x y); cbn [bind]; [|reflexivity]. now rewrite V.
  - destruct (adopt x y); cbn [bind]; [|reflexivity]. now rewrite V.
Qed.
Print Assumptions c87_exact.
Example c87_exact_case : rvalue (fun q => q) (fun q => q) (nowhere 1 (lit "in")) (Some (lit "cm")) None = Ok (1 * 96 / (96 / d254)).
Proof. reflexivity. Qed.

(** Rounding changes no error, except through the metrics of fonts. *)
Theorem c87_errors : forall f g x u d e, rounding f u2 -> rounding g u10 -> (metric (ctx x) = None \/ ~ uin u metric_units = true) ->
  (rvalue f g x u d = Err e <-> value x u d = Err e).
Proof.
  intros f g x u d e F R Q. unfold rvalue, value. destruct (unit_eqb u (lunit x)); [split; discriminate|]. destruct (negb _); [split; auto|].
  set (dd := match d with None => ldir x | _ => d end). set (c := ctx x) in *. clearbody dd.
  assert (DIV : forall g' p q w w', ~ w == 0 -> ~ w' == 0 -> ((do v <- (do z <- rdiv g p w'; Ok (g' z)); Ok (f v)) = Err e <-> (do z <- div q w; Ok (z * 100)) = Err e)).
  { intros g' p q w w' A B. unfold rdiv, div. destruct (Qeqb_spec w 0); [contradiction|]. destruct (Qeqb_spec w' 0); [contradiction|]. split; discriminate. }
  assert (D1 : forall p q w w', (w == 0 <-> w' == 0) -> ((do v <- rdiv g p w'; Ok (f v)) = Err e <-> div q w = Err e)).
  { intros p q w w' A. unfold rdiv, div. destruct (Qeqb_spec w 0), (Qeqb_spec w' 0); try tauto; cbn [bind]; split; congruence. }
  assert (D2 : forall p q w, ((do v <- (do z <- rdiv g p w; Ok (g (z * 100))); Ok (f v)) = Err e <-> (do z <- div q w; Ok (z * 100)) = Err e)).
  { intros p q w. unfold rdiv, div. destruct (Qeqb_spec w 0); cbn [bind]; split; congruence. }
  assert (PS : forall t k, pixel_size t = Some k -> ~ k == 0).
  { intros t k. unfold pixel_size. repeat match goal with |- context [if ?c then _ else _] => destruct c end; intros E; try discriminate; injection E as <-; discriminate. }
  assert (FR : forall p q, (do v <- rfrom_pixels g c dd p u; Ok (f v)) = Err e <-> from_pixels c dd q u = Err e).
  { intros p q. unfold rfrom_pixels, from_pixels. destruct (is_px u); [split; discriminate|]. destruct u as [t|]; [|split; discriminate].
    destruct (text_eqb t (lit "rem")); [apply D1; tauto|]. destruct (text_eqb t (lit "em")); [apply D1; tauto|].
    destruct (text_eqb t (lit "%")); [destruct dd as [[| |]|]; apply D2|].
    destruct (mem t metric_units) eqn:MU. { destruct Q as [Q|Q]; [|exfalso; apply Q; exact MU]. rewrite Q. apply D1. assert (NR := near_round g u10 (parent_size c / 2) R). split; intros Z.
      - rewrite (r_proper _ _ R _ _ Z). apply (r_zero _ _ R).
      - destruct (Qeq_dec (parent_size c / 2) 0) as [G|G]; [exact G|exfalso]. exact (near_nonzero u10 _ _ ltac:(reflexivity) NR G Z). }
    destruct (mem t viewport_units); [apply D2|]. destruct (mem t resolution_units); [split; discriminate|].
    destruct (pixel_size t) as [k|] eqn:K.
    - destruct (pixel_near g t k R K) as (k' & E & N). rewrite E. apply D1. assert (Nk := PS t k K). assert (Z : ~ k' == 0) by (apply (near_nonzero (11#10000000000000000000000000000) k' k); [reflexivity|exact N|exact Nk]). tauto.
    - rewrite (proj1 (pixel_none g t) K). cbn [bind]. split; auto. }
  assert (TO : (exists e', rto_pixels g c dd (num x) (lunit x) = Err e' /\ to_pixels c dd (num x) (lunit x) = Err e') \/ (exists p q, rto_pixels g c dd (num x) (lunit x) = Ok p /\ to_pixels c dd (num x) (lunit x) = Ok q)).
  { unfold rto_pixels, to_pixels. destruct (is_px (lunit x)); [eauto|]. destruct (lunit x) as [t|]; [|eauto]. do 6 (match goal with |- context [if ?b then _ else _] => destruct b end; [eauto|]).
    destruct (pixel_size t) as [k|] eqn:K; [destruct (pixel_near g t k R K) as (k' & E & _); rewrite E; eauto|]. rewrite (proj1 (pixel_none g t) K). eauto. }
  destruct TO as [(e' & -> & ->)|(p & q & -> & ->)]; cbn [bind]; [split; auto|]. apply FR.
Qed.
Print Assumptions c87_errors.
Example c87_errors_case : rvalue fl dl (nowhere 1 (lit "in")) (Some (lit "dpi")) None = Err ValueError /\ rvalue fl dl (nowhere 1 (lit "furlong")) (Some (lit "px")) None = Err NotImplementedError_.
Proof. split; reflexivity. Qed.

(** A value is off by little more than the rounding of the float that it is. *)
Theorem c87_value : forall f g x u k s su, rounding f u2 -> rounding g u10 ->
  measures x k s -> sized (ctx x) (ldir x) u k su -> ~ su == 0 -> steady (ctx x) u ->
  exists v w, value x u None = Ok v /\ rvalue f g x u None = Ok w /\ near e_value w v.
Proof.
  intros f g x u k s su F R M S N ST. destruct (value_spec x u k s su M S N ST) as (v & A & B). destruct (rvalue_near f g x u k s su F R M S N ST) as (w & C & D).
  exists v, w. split; [exact A|]. split; [exact C|]. apply near_comp with w (num x * s / su); [reflexivity|rewrite <- B; field; exact N|exact D].
Qed.
Print Assumptions c87_value.
(* the examples of core.py 1330-1337, 1300-1302 and 1040-1041: 2.54 exactly, as a float *)
Example c87_value_case : (exists w, rvalue fl dl (nowhere 1 (lit "in")) (Some (lit "cm")) None = Ok w /\ w == d254) /\
  (exists w, rvalue fl dl (nowhere 10 (lit "cm")) (Some (lit "mm")) None = Ok w /\ w == 100) /\
  (exists w, rvalue fl dl (nowhere 18 (lit "pt")) None None = Ok w /\ w == 24).
Proof. repeat split; eexists; (split; [vm_compute; reflexivity|vm_compute; reflexivity]). Qed.

(** Converted there and back, a length is the same up to three roundings of a
    float, but not exactly. *)
Theorem c87_back : forall f g x u k s su, rounding f u2 -> rounding g u10 ->
  measures x k s -> ~ s == 0 -> sized (ctx x) (ldir x) u k su -> ~ su == 0 -> steady (ctx x) u -> steady (ctx x) (lunit x) ->
  exists y z, rconvert f g x u = Ok y /\ rconvert f g y (lunit x) = Ok z /\ near (3 * u2) (num z) (num x) /\ lunit y = u /\ lunit z = lunit x.
Proof.
  intros f g x u k s su F R M N S Nu ST STx. destruct (value_back f g x u k s su F R M S N Nu ST STx) as (y & w & A & B & C & D & T & E). exists y.
  unfold rconvert at 2. rewrite D, B. destruct (unit_eqb_spec (lunit x) u) as [G|G].
  - exists y. rewrite D. assert (y = x) as ->. { unfold rconvert in A. rewrite <- G in A. destruct (unit_eqb_spec (lunit x) (lunit x)); [congruence|contradiction]. } repeat split; auto. apply near_refl. num.
  - eexists. split; [exact A|]. split; [reflexivity|]. repeat split; auto.
Qed.
Print Assumptions c87_back.
Example c87_back_case : exists y z, rconvert fl dl (nowhere 3 (lit "cm")) (Some (lit "pt")) = Ok y /\ rconvert fl dl y (Some (lit "cm")) = Ok z /\ 3 < num z /\ num z < 3 + 10 * u2.
Proof. do 2 eexists. split; [vm_compute; reflexivity|]. split; [vm_compute; reflexivity|]. split; reflexivity. Qed.
Theorem c87_back_refuted : exists x u y z, rconvert fl dl x u = Ok y /\ rconvert fl dl y (lunit x) = Ok z /\ num z < num x.
Proof. exists (nowhere 1 (lit "px")), (Some (lit "in")). do 2 eexists. split; [vm_compute; reflexivity|]. split; [vm_compute; reflexivity|]. reflexivity. Qed.
Print Assumptions c87_back_refuted.

(** A converted length is equal to the one it was, both ways round, and neither
    less nor greater: the tolerance covers every rounding. *)
Theorem c87_convert_equal : forall f g x u k s su, rounding f u2 -> rounding g u10 ->
  measures x k s -> ~ s == 0 -> sized (ctx x) (ldir x) u k su -> ~ su == 0 -> steady (ctx x) u -> steady (ctx x) (lunit x) ->
  exists y, rconvert f g x u = Ok y /\ lunit y = u /\ req f g x y = Ok true /\ req f g y x = Ok true /\ rlt f g x y = Ok false /\ rgt f g x y = Ok false /\
    rle f g x y = Ok true /\ rge f g x y = Ok true.
Proof.
  intros f g x u k s su F R M N S Nu ST STx. destruct (value_back f g x u k s su F R M S N Nu ST STx) as (y & w & A & B & C & D & T & E). exists y. split; [exact A|]. split; [exact D|].
  assert (I1 : isclose (f (num x)) w = true). { apply isclose_near with (num x); [apply near_weak with u2; [num|]; apply near_round, F|apply near_weak with (2 := C); num]. }
  unfold req, rlt, rgt, rle, rge. rewrite B. cbn [bind]. rewrite I1. split; [reflexivity|]. split; [|auto].
  destruct (rvalue_near f g x u k s su F R M S Nu ST) as (o & O & P). rewrite D, O. cbn [bind]. f_equal.
  destruct (rconvert_near f g x u k s su F R M S Nu ST) as (y' & A' & _ & _ & _ & _ & P'). rewrite A in A'. injection A' as <-.
  apply isclose_near with (num x * s / su); [|apply near_weak with (2 := P); num].
  apply near_weak with (u2 + e_value + u2 * e_value); [num|]. apply near_step; auto; num.
Qed.
Print Assumptions c87_convert_equal.
Example c87_convert_equal_case : exists y, rconvert fl dl (nowhere 1 (lit "px")) (Some (lit "in")) = Ok y /\ req fl dl (nowhere 1 (lit "px")) y = Ok true.
Proof. eexists. split; [vm_compute; reflexivity|vm_compute; reflexivity]. Qed.

(** Comparisons are those of the exact lengths where these are apart by two
    parts in 10^9 or near by half of one. *)
Theorem c87_compare : forall f g x y k s sy, rounding f u2 -> rounding g u10 -> together x y -> measures x k s -> measures y k sy -> ~ s == 0 -> steady (ctx x) (lunit x) ->
  let m := num y * sy / s in
  (band (1#2000000000) (num x) m -> req f g x y = Ok true /\ rlt f g x y = Ok false /\ rgt f g x y = Ok false /\ rle f g x y = Ok true /\ rge f g x y = Ok true) /\
  (~ band (2#1000000000) (num x) m -> num x < m -> req f g x y = Ok false /\ rlt f g x y = Ok true /\ rgt f g x y = Ok false /\ rle f g x y = Ok true /\ rge f g x y = Ok false) /\
  (~ band (2#1000000000) (num x) m -> m < num x -> req f g x y = Ok false /\ rlt f g x y = Ok false /\ rgt f g x y = Ok true /\ rle f g x y = Ok false /\ rge f g x y = Ok true).
Proof.
  intros f g x y k s sy F R T M My N ST m. destruct (decided f g x y k s sy F R T M My N ST) as (o & E & _ & A & B). fold m in B.
  unfold req, rlt, rgt, rle, rge. rewrite E. cbn [bind].
  assert (FAR : ~ band (2#1000000000) (num x) m -> isclose (f (num x)) o = false).
  { intros H. destruct (isclose (f (num x)) o) eqn:C; [exfalso|reflexivity]. apply H. apply isclose_iff in C.
    assert (A' : near (2#1000000000000) (num x) (f (num x))).
    { assert (D := near_round f u2 (num x) F).
      destruct (near_elim _ _ _ u2_pos D) as (d & Dd & Ed). apply Qabs_bounds in Dd. assert (U : u2 <= 1#9000000000000000) by num. apply near_intro with (- d / (1 + d)); [num| |rewrite Ed; field; lra].
      unfold Qdiv. rewrite Qabs_Qmult, Qabs_Qinv, (Qabs_pos (1 + d)) by lra. apply Qle_shift_div_r; [lra|]. apply Qabs_Qle_condition. lra. }
    assert (B' : near (2#1000000000000) m o).
    { destruct (near_elim small o m ltac:(num) B) as (d & Dd & Ed). unfold small in Dd. apply Qabs_bounds in Dd. apply near_intro with (- d / (1 + d)); [num| |rewrite Ed; field; lra].
      unfold Qdiv. rewrite Qabs_Qmult, Qabs_Qinv, (Qabs_pos (1 + d)) by lra. apply Qle_shift_div_r; [lra|]. apply Qabs_Qle_condition. lra. }
    (* the band of isclose, seen from the exact numbers *)
    apply band_move2 with (r := 2#1000000000000) (e := tol) (a := f (num x)) (b := o); [num|num|num|num|exact A'|exact B'|exact C]. }
  split; [|split].
  - intros H. assert (C : isclose (f (num x)) o = true). { apply isclose_iff. apply band_move with (e := 1#2000000000) (a := num x) (b := m); [num|num|exact A|exact B|exact H]. } rewrite C. repeat split.
  - intros H L. rewrite (FAR H). destruct (far_order (2#1000000000) (num x) m o ltac:(num) ltac:(num) B H) as [G _]. specialize (G L).
    destruct (Qltb_spec (num x) o), (Qltb_spec o (num x)), (Qleb_spec (num x) o), (Qleb_spec o (num x)); try lra; auto.
  - intros H L. rewrite (FAR H). destruct (far_order (2#1000000000) (num x) m o ltac:(num) ltac:(num) B H) as [_ G]. specialize (G L).
    destruct (Qltb_spec (num x) o), (Qltb_spec o (num x)), (Qleb_spec (num x) o), (Qleb_spec o (num x)); try lra; auto.
Qed.
Print Assumptions c87_compare.
Example c87_compare_case : rlt fl dl (nowhere 1 (lit "cm")) (nowhere 1 (lit "in")) = Ok true /\ req fl dl (nowhere 254 (lit "cm")) (nowhere 100 (lit "in")) = Ok true /\
  rlt fl dl (nowhere 254 (lit "cm")) (nowhere 100.000001 (lit "in")) = Ok true.
Proof. repeat split; vm_compute; reflexivity. Qed.
(** Equality is reflexive and, between lengths of one unit, symmetric. *)
Theorem c87_equal : forall f g x y, req f g x x = Ok true /\ rlt f g x x = Ok false /\ rle f g x x = Ok true /\
  (lunit x = lunit y -> req f g x y = req f g y x).
Proof.
  intros f g x y. unfold req, rlt, rle, rvalue. destruct (unit_eqb_spec (lunit x) (lunit x)) as [_|B]; [|contradiction]. cbn [bind]. rewrite isclose_refl. repeat split.
  intros E. rewrite E. destruct (unit_eqb_spec (lunit y) (lunit y)) as [_|B]; [|contradiction]. cbn [bind]. now rewrite isclose_sym.
Qed.
Print Assumptions c87_equal.
Example c87_equal_case : req fl dl (nowhere 1 (lit "cm")) (nowhere 2 (lit "cm")) = Ok false /\ req fl dl (nowhere 2 (lit "cm")) (nowhere 1 (lit "cm")) = Ok false.
Proof. split; vm_compute; reflexivity. Qed.

(** Sums and differences are off by at most two roundings of a float, of the
    two lengths together. *)
Theorem c87_sum : forall f g x y k s sy, rounding f u2 -> rounding g u10 -> together x y -> measures x k s -> measures y k sy -> ~ s == 0 -> ~ sy == 0 ->
  steady (ctx y) (lunit y) -> steady (ctx x) (lunit x) ->
  (exists z sz, riadd f g x y = Ok z /\ together z x /\ measures z k sz /\ (lunit z = lunit x \/ lunit x = None /\ lunit z = lunit y) /\
     Qabs (num z * sz - (num x * s + num y * sy)) <= 2 * u2 * (Qabs (num x * s) + Qabs (num y * sy))) /\
  (exists z sz, risub f g x y = Ok z /\ together z x /\ measures z k sz /\ (lunit z = lunit x \/ lunit x = None /\ lunit z = lunit y) /\
     Qabs (num z * sz - (num x * s - num y * sy)) <= 2 * u2 * (Qabs (num x * s) + Qabs (num y * sy))).
Proof.
  intros f g x y k s sy F R T M My N Ny ST STx. split.
  - destruct (rsum_near f g Qplus 1 x y k s sy F R ltac:(intros; ring) ltac:(left; reflexivity) T M My N Ny ST STx) as (z & sz & A & B & C & _ & E & U). exists z, sz. repeat (split; [assumption|]).
    assert (Z : num z * sz - (num x * s + num y * sy) == num z * sz - (num x * s + 1 * (num y * sy))) by ring. now rewrite Z.
  - destruct (rsum_near f g Qminus (- (1)) x y k s sy F R ltac:(intros; ring) ltac:(right; reflexivity) T M My N Ny ST STx) as (z & sz & A & B & C & _ & E & U). exists z, sz. repeat (split; [assumption|]).
    assert (Z : num z * sz - (num x * s - num y * sy) == num z * sz - (num x * s + - (1) * (num y * sy))) by ring. now rewrite Z.
Qed.
Print Assumptions c87_sum.
Example c87_sum_case : exists z, riadd fl dl (nowhere 1 (lit "in")) (nowhere 1 (lit "cm")) = Ok z /\ Qabs (num z - (1 + 1 / d254)) <= u2 /\ ~ num z == 1 + 1 / d254.
Proof. eexists. split; [vm_compute; reflexivity|]. split; [vm_compute; discriminate|]. intros Z. discriminate Z. Qed.
(** Between numbers that are floats, of one unit, a sum does not depend on the
    order, and a length less itself is nothing. *)
Theorem c87_commutes_partial : forall f g x y z w, rounding f u2 -> rounding g u10 -> lunit x <> None -> lunit x = lunit y -> f (num x) == num x -> f (num y) == num y ->
  riadd f g x y = Ok z -> riadd f g y x = Ok w -> num z == num w.
Proof.
  intros f g x y z w F R N U X Y A B. unfold riadd, radopt in A, B. rewrite <- U in B. destruct (lunit x) as [u|] eqn:E; [|contradiction]. cbn [bind] in A, B.
  unfold rvalue in A, B. rewrite E, <- U in A, B. destruct (unit_eqb_spec (Some u) (Some u)) as [_|C]; [|contradiction]. cbn [bind] in A, B. injection A as <-. injection B as <-. cbn [num set_num].
  apply (r_proper _ _ R). rewrite X, Y. ring.
Qed.
Print Assumptions c87_commutes_partial.
Theorem c87_minus_self_partial : forall f g x z, rounding f u2 -> rounding g u10 -> lunit x <> None -> f (num x) == num x -> risub f g x x = Ok z -> num z == 0.
Proof.
  intros f g x z F R N X A. unfold risub, radopt in A. destruct (lunit x) as [u|] eqn:E; [|contradiction]. cbn [bind] in A.
  unfold rvalue in A. rewrite E in A. destruct (unit_eqb_spec (Some u) (Some u)) as [_|C]; [|contradiction]. cbn [bind] in A. injection A as <-. cbn [num set_num].
  rewrite (r_proper _ _ R _ 0); [apply (r_zero _ _ R)|]. rewrite X. ring.
Qed.
Print Assumptions c87_minus_self_partial.
Example c87_commutes_case : fl (num (nowhere 0.5 (lit "px"))) == 0.5 /\ (exists z, riadd fl dl (nowhere 0.5 (lit "px")) (nowhere 3 (lit "px")) = Ok z /\ num z == 3.5) /\
  (exists z, risub fl dl (nowhere 0.5 (lit "px")) (nowhere 0.5 (lit "px")) = Ok z /\ num z == 0).
Proof. split; [vm_compute; reflexivity|]. split; eexists; (split; [vm_compute; reflexivity|vm_compute; reflexivity]). Qed.
(** As they are written they do: 10000000000.1px and -10000000000.3px have sums
    that are not even equal within the tolerance; 10000000000.1px less itself
    is not zero; and small lengths are lost. *)
Theorem c87_commutes_refuted : exists a b z w, a = written (lit "10000000000.1px") /\ b = written (lit "-10000000000.3px") /\ riadd fl dl a b = Ok z /\ riadd fl dl b a = Ok w /\
  req fl dl z w = Ok false.
Proof. do 4 eexists. split; [reflexivity|]. split; [reflexivity|]. split; [vm_compute; reflexivity|]. split; [vm_compute; reflexivity|]. vm_compute. reflexivity. Qed.
Print Assumptions c87_commutes_refuted.
Theorem c87_minus_self_refuted : exists a z, a = written (lit "10000000000.1px") /\ risub fl dl a a = Ok z /\ req fl dl z (nowhere 0 (lit "px")) = Ok false /\ rlt fl dl z (nowhere 0 (lit "px")) = Ok true.
Proof. do 2 eexists. split; [reflexivity|]. split; [vm_compute; reflexivity|]. split; vm_compute; reflexivity. Qed.
Print Assumptions c87_minus_self_refuted.
Theorem c87_lost_refuted : exists a b y z, riadd fl dl a b = Ok y /\ risub fl dl y b = Ok z /\ req fl dl a (nowhere 0 (lit "px")) = Ok false /\ num z == 0.
Proof. exists (nowhere 0.000001 (lit "px")), (nowhere 10000000000000000000000 (lit "px")). do 2 eexists. split; [vm_compute; reflexivity|]. split; [vm_compute; reflexivity|]. split; vm_compute; reflexivity. Qed.
Print Assumptions c87_lost_refuted.
