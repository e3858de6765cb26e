(** C29: unit conversion and comparison. *)
From Verif Require Import PyBase PyText PySplit PyDict PyCase CssTypeModel CssUnitModel CssUnitSpec CssUnitProofs.
From Coq Require Import Qabs.

(* 355/113, near enough for the examples *)
Definition milu : Q := 355 # 113.
Ltac in_list := repeat first [left; reflexivity | right].
Lemma px_known : known (lit "px"). Proof. right. exists absolute_units. split; [in_list|in_list]. Qed.
Lemma cm_px : compatible (lit "cm") (lit "px"). Proof. exists absolute_units. split; [in_list|split; in_list]. Qed.

(** which conversions are possible: to the same unit, or within a group *)
Theorem c29_accepts : forall pi x u, known (uu x) ->
  match to_unit pi x u with
  | Ok y => (lower u = uu x \/ compatible (uu x) (lower u)) /\ uu y = lower u
  | Err e => e = ValueError /\ lower u <> uu x /\ ~ compatible (uu x) (lower u)
  end.
Proof.
  intros pi x u K. destruct (to_spec pi x u K) as [(A & B)|[(A & C & B)|(A & C & B)]]; rewrite B; cbn [uu]; auto.
Qed.
Print Assumptions c29_accepts.
Example c29_accepts_case : to_unit milu (mkU 1 (lit "em")) (lit "px") = Err ValueError /\ to_unit milu (mkU 1 (lit "em")) (lit "EM") = Ok (mkU 1 (lit "em")) /\
  known (lit "em") /\ to_unit milu (mkU 1 (lit "px")) (lit "deg") = Err ValueError.
Proof. repeat split. left. in_list. Qed.
(** the units that can be made, and no others *)
Theorem c29_known : forall v u, match unit_value v u with
  | Ok x => known (uu x) /\ uu x = lower u /\ uv x = v
  | Err e => e = ValueError /\ ~ known (lower u)
  end.
Proof.
  intros v u. assert (C := create_known (lower u) (lower_lower u)). unfold unit_value. destruct (create_type (lower u)) as [t|e] eqn:E; cbn [bind is_ok uu uv] in *.
  - split; [apply C; reflexivity|auto].
  - split; [|intros H; apply C in H; discriminate]. unfold create_type in E.
    repeat match type of E with (if ?x then _ else _) = _ => destruct x; try discriminate E end. now injection E.
Qed.
Print Assumptions c29_known.
Example c29_known_case : unit_value 3 (lit "PX") = Ok (mkU 3 (lit "px")) /\ unit_value 3 (lit "mile") = Err ValueError. Proof. split; reflexivity. Qed.

(** there and back *)
Theorem c29_roundtrip : forall pi x u y, 0 < pi -> known (uu x) -> to_unit pi x u = Ok y ->
  exists z, to_unit pi y (uu x) = Ok z /\ ueq z x.
Proof.
  intros pi x u y P K E. destruct (to_size pi x u y P K E) as (S & U & C).
  assert (Ky : known (uu y)) by (destruct C as [C|C]; [rewrite C; exact K|apply (compatible_known _ _ C)]).
  assert (A := c29_accepts pi y (uu x) Ky). destruct (to_unit pi y (uu x)) as [z|] eqn:Z.
  - exists z. split; [reflexivity|]. destruct (to_size pi y (uu x) z P Ky Z) as (S2 & U2 & _). rewrite (known_lower _ K) in U2.
    split; [|exact U2]. apply (size_eq pi); auto. rewrite S2. exact S.
  - exfalso. rewrite (known_lower _ K) in A. destruct A as (_ & A & B). destruct C as [C|C]; [congruence|]. apply B. now apply compatible_sym.
Qed.
Print Assumptions c29_roundtrip.
Example c29_roundtrip_case : exists y, to_unit milu (mkU 3 (lit "rad")) (lit "turn") = Ok y /\ ~ uv y == 3 /\ known (lit "rad").
Proof. eexists. split; [reflexivity|]. split; [vm_compute; discriminate|]. right. exists angle_units. split; in_list. Qed.
(** directly or by way of another unit *)
Theorem c29_via : forall pi x u y v z, 0 < pi -> known (uu x) -> to_unit pi x u = Ok y -> to_unit pi y v = Ok z ->
  exists w, to_unit pi x v = Ok w /\ ueq w z.
Proof.
  intros pi x u y v z P K E F. destruct (to_size pi x u y P K E) as (S & U & C).
  assert (Ky : known (uu y)) by (destruct C as [C|C]; [rewrite C; exact K|apply (compatible_known _ _ C)]).
  destruct (to_size pi y v z P Ky F) as (S2 & U2 & C2).
  assert (A := c29_accepts pi x v K). destruct (to_unit pi x v) as [w|] eqn:W.
  - exists w. split; [reflexivity|]. destruct (to_size pi x v w P K W) as (S3 & U3 & _). split; [|congruence]. apply (size_eq pi); auto; [congruence|]. rewrite S3, S2, S. reflexivity.
  - exfalso. rewrite <- U2 in A. destruct A as (_ & A & B). destruct C as [C|C], C2 as [C2|C2]; try congruence. apply B. exact (compatible_trans _ _ _ C C2).
Qed.
Print Assumptions c29_via.
Example c29_via_case : exists y z, 0 < milu /\ to_unit milu (mkU 3 (lit "in")) (lit "pt") = Ok y /\ to_unit milu y (lit "pc") = Ok z /\ uv z == 18.
Proof. do 2 eexists. split; [reflexivity|]. split; [reflexivity|]. split; reflexivity. Qed.
(** conversion is multiplication by a positive number that depends on the units only *)
Theorem c29_linear : forall pi u v, 0 < pi -> compatible u v -> exists k, 0 < k /\ forall q, exists y, to_unit pi (mkU q u) v = Ok y /\ uv y == q * k.
Proof.
  intros pi u v P C. destruct (compatible_known _ _ C) as [Ku Kv]. exists (ratio pi u / ratio pi v).
  assert (Ru := ratio_pos pi u P). assert (Rv := ratio_pos pi v P). split; [unfold Qdiv; apply Qmult_lt_0_compat; [exact Ru|now apply Qinv_lt_0_compat]|].
  intros q. destruct (to_spec pi (mkU q u) v Ku) as [(A & B)|[(A & D & B)|(A & D & B)]]; rewrite (known_lower _ Kv) in *.
  - exists (mkU q u). split; [exact B|]. cbn [uu uv] in *. subst v. field. lra.
  - eexists. split; [exact B|]. cbn [uv uu]. reflexivity.
  - contradiction.
Qed.
Print Assumptions c29_linear.
Example c29_linear_case : compatible (lit "cm") (lit "px"). Proof. exact cm_px. Qed.
(** the sizes of units in terms of one another *)
Theorem c29_sizes : forall pi, 0 < pi ->
  forall a u b v, In (a, u, (b, v)) [(1, lit "in", (96, lit "px")); (1, lit "in", (72, lit "pt")); (1, lit "pc", (12, lit "pt")); (1, lit "cm", (10, lit "mm"));
    (1, lit "cm", (40, lit "q")); (1, lit "turn", (360, lit "deg")); (1, lit "s", (1000, lit "ms")); (1, lit "khz", (1000, lit "hz"));
    (96, lit "dpi", (1, lit "dppx")); (pi, lit "rad", (180, lit "deg"))] ->
  exists y, to_unit pi (mkU a u) v = Ok y /\ ueq y (mkU b v).
Proof.
  intros pi P a u b v H. cbn [In] in H.
  do 9 (destruct H as [H|H]; [injection H as <- <- <- <-; eexists; split; [reflexivity|split; reflexivity]|]).
  destruct H as [H|[]]. injection H as <- <- <- <-. eexists. split; [reflexivity|split; [|reflexivity]]. cbn [uv].
  change (ratio pi (uu (mkU pi (lit "rad")))) with (180 / pi). change (ratio pi (lower (lit "deg"))) with 1. field. lra.
Qed.
Print Assumptions c29_sizes.
(** centimetres and inches, grads and turns, dots per inch and per centimetre agree up to the error of the floats 2.54 and 0.9 *)
Theorem c29_sizes_near : forall pi, exists x y z, to_unit pi (mkU (254 # 100) (lit "cm")) (lit "in") = Ok y /\ Qabs (uv y - 1) <= 1 # 10 ^ 16 /\
  to_unit pi (mkU 400 (lit "grad")) (lit "turn") = Ok z /\ Qabs (uv z - 1) <= 1 # 10 ^ 16 /\
  to_unit pi (mkU (254 # 100) (lit "dpi")) (lit "dpcm") = Ok x /\ Qabs (uv x - 1) <= 1 # 10 ^ 16.
Proof.
  intros pi. do 3 eexists. split; [reflexivity|]. split; [vm_compute; discriminate|]. split; [reflexivity|]. split; [vm_compute; discriminate|]. split; [reflexivity|]. vm_compute. discriminate.
Qed.
Print Assumptions c29_sizes_near.
Theorem c29_exact_refuted : forall pi, exists y z, to_unit pi (mkU (254 # 100) (lit "cm")) (lit "in") = Ok y /\ ~ uv y == 1 /\
  to_unit pi (mkU 400 (lit "grad")) (lit "turn") = Ok z /\ ~ uv z == 1.
Proof. intros pi. do 2 eexists. split; [reflexivity|]. split; [vm_compute; discriminate|]. split; [reflexivity|]. vm_compute. discriminate. Qed.
Print Assumptions c29_exact_refuted.

(** comparison of compatible values: exactly one of <, ==, > *)
Theorem c29_trichotomy : forall pi x y, 0 < pi -> known (uu x) -> known (uu y) -> uu x = uu y \/ compatible (uu x) (uu y) ->
  exists lt eq gt, u_lt pi x y = Ok lt /\ u_eq pi x y = Ok eq /\ u_gt pi x y = Ok gt /\ u_le pi x y = Ok (lt || eq) /\ u_ge pi x y = Ok (gt || eq) /\
    ((lt, eq, gt) = (true, false, false) \/ (lt, eq, gt) = (false, true, false) \/ (lt, eq, gt) = (false, false, true)).
Proof.
  intros pi x y P Kx Ky C. destruct (compare_norm pi x y P Kx Ky C) as (y' & E & U & S). unfold u_lt, u_eq, u_gt, u_le, u_ge. rewrite E. cbn [bind].
  assert (CE : isclose (uv x) (uv y') = true \/ ~ uv x == uv y').
  { destruct (isclose (uv x) (uv y')) eqn:I; [now left|right]. intros H. assert (X : isclose (uv x) (uv y') = true); [|congruence].
    apply isclose_spec. left. rewrite H. assert (Z : uv y' - uv y' == 0) by ring. rewrite Z. change (Qabs 0) with 0. apply Qmult_le_0_compat; [discriminate|apply Qabs_nonneg]. }
  destruct (isclose (uv x) (uv y')); do 3 eexists; (split; [reflexivity|]); (split; [reflexivity|]); (split; [reflexivity|]); [cbn; auto 10|].
  destruct CE as [CE|CE]; [discriminate|].
  destruct (Qltb_spec (uv x) (uv y')), (Qltb_spec (uv y') (uv x)), (Qleb_spec (uv x) (uv y')), (Qleb_spec (uv y') (uv x)); cbn; try (exfalso; lra); auto 10.
Qed.
Print Assumptions c29_trichotomy.
(** x == y exactly when y == x, and x < y exactly when y > x *)
Theorem c29_compare_symmetric : forall pi x y, 0 < pi -> known (uu x) -> known (uu y) ->
  u_eq pi x y = u_eq pi y x /\ u_lt pi x y = u_gt pi y x /\ u_le pi x y = u_ge pi y x.
Proof.
  intros pi x y P Kx Ky.
  assert (D : (uu x = uu y \/ compatible (uu x) (uu y)) \/ (uu x <> uu y /\ ~ compatible (uu x) (uu y))).
  { destruct (text_eqb_spec (uu x) (uu y)); [auto|]. assert (A := c29_accepts pi x (uu y) Kx). rewrite (known_lower _ Ky) in A.
    destruct (to_unit pi x (uu y)); [destruct A as [[A|A] _]; [congruence|auto]|tauto]. }
  destruct D as [D|[D1 D2]].
  - assert (D' : uu y = uu x \/ compatible (uu y) (uu x)) by (destruct D; [left; auto|right; now apply compatible_sym]).
    destruct (compare_norm pi x y P Kx Ky D) as (y' & E & U & S). destruct (compare_norm pi y x P Ky Kx D') as (x' & E' & U' & S').
    destruct (compare_size pi x y y' P E U S) as (A1 & A2 & A3). destruct (compare_size pi y x x' P E' U' S') as (B1 & B2 & B3).
    unfold u_eq, u_lt, u_gt, u_le, u_ge, Qltb. rewrite E, E'. cbn [bind]. rewrite A1, A2, A3, B1, B2, B3, (isclose_sym (size pi y)). auto.
  - unfold u_eq, u_lt, u_gt, u_le, u_ge. rewrite (compare_bad pi x y) by auto. rewrite (compare_bad pi y x); auto. intros C. apply D2. now apply compatible_sym.
Qed.
Print Assumptions c29_compare_symmetric.
Example c29_compare_case : u_eq milu (mkU 1 (lit "in")) (mkU 96 (lit "px")) = Ok true /\ u_lt milu (mkU 1 (lit "cm")) (mkU 1 (lit "in")) = Ok true.
Proof. split; reflexivity. Qed.
(** a value equals what it converts to *)
Theorem c29_equal_after : forall pi x u y, 0 < pi -> known (uu x) -> to_unit pi x u = Ok y -> u_eq pi x y = Ok true.
Proof.
  intros pi x u y P K E. destruct (to_size pi x u y P K E) as (S & U & C).
  assert (Ky : known (uu y)) by (destruct C as [C|C]; [rewrite C; exact K|apply (compatible_known _ _ C)]).
  assert (C' : uu x = uu y \/ compatible (uu x) (uu y)) by (destruct C; auto).
  destruct (compare_norm pi x y P K Ky C') as (y' & E' & U' & S'). unfold u_eq. rewrite E'. cbn [bind]. f_equal.
  assert (V : uv x == uv y') by (apply (size_eq pi); auto; rewrite S'; symmetry; exact S).
  apply isclose_spec. left. rewrite V. assert (Z : uv y' - uv y' == 0) by ring. rewrite Z. change (Qabs 0) with 0. apply Qmult_le_0_compat; [discriminate|apply Qabs_nonneg].
Qed.
Print Assumptions c29_equal_after.
(** comparing incompatible values raises ValueError, even == *)
Theorem c29_incomparable : forall pi x y, known (uu x) -> known (uu y) -> uu x <> uu y -> ~ compatible (uu x) (uu y) ->
  u_eq pi x y = Err ValueError /\ u_lt pi x y = Err ValueError /\ u_gt pi x y = Err ValueError.
Proof. intros pi x y Kx Ky N C. unfold u_eq, u_lt, u_gt. rewrite compare_bad by auto. auto. Qed.
Print Assumptions c29_incomparable.
Example c29_incomparable_case : u_eq milu (mkU 1 (lit "px")) (mkU 1 (lit "em")) = Err ValueError. Proof. reflexivity. Qed.
(** equality is up to a tolerance, hence not transitive *)
Theorem c29_equal_transitive_refuted : exists pi x y z, u_eq pi x y = Ok true /\ u_eq pi y z = Ok true /\ u_eq pi x z = Ok false.
Proof. exists milu, (mkU 1000000000 (lit "px")), (mkU 1000000001 (lit "px")), (mkU 1000000002 (lit "px")). repeat split. Qed.
Print Assumptions c29_equal_transitive_refuted.
