(** Edges of tables and ranges of several claims. *)
From Coq Require Import Lia.
From Verif Require Import PyBase PyText PySplit PyStrip PyDict PyCase UtilsModel MatrixModel ShortModel InlineModel LayoutModel TextModel BufModel.
From Verif Require SupportModel.
#[local] Open Scope N_scope.

Lemma mem_spec t l : mem t l = true <-> In t l.
Proof. unfold mem. rewrite existsb_exists. split; [intros (x & I & E); destruct (text_eqb_spec t x); [now subst|discriminate]|]. intros I. exists t. split; [exact I|]. now destruct (text_eqb_spec t t). Qed.

(** ** C66: the ranges of a multiplier are {n}, {n,} and {n,m}, each number
    with at least one digit *)
Definition digits_only (t : text) : Prop := forall c, In c t -> 48 <= c <= 57.
Lemma span_digits t : exists u v, t = u ++ v /\ takewhile is_digit t = u /\ dropwhile is_digit t = v /\ digits_only u /\ match v with c :: _ => ~ 48 <= c <= 57 | [] => True end.
Proof.
  assert (N0 : digits_only []) by (intros c J; destruct J).
  induction t as [|c t (u & v & -> & E & F & D & N)]; [exists [], []; auto|]. cbn [takewhile dropwhile]. destruct (is_digit c) eqn:G; unfold is_digit in G.
  - rewrite E, F. exists (c :: u), v. do 3 (split; [reflexivity|]). split; [|exact N]. intros x [<-|J]; [rewrite andb_true_iff, !N.leb_le in G; lia|now apply D].
  - exists [], (c :: u ++ v). do 3 (split; [reflexivity|]). split; [exact N0|]. rewrite andb_false_iff, !N.leb_gt in G. lia.
Qed.
Lemma span_unique t u v : digits_only u -> match v with c :: _ => ~ 48 <= c <= 57 | [] => True end -> t = u ++ v -> takewhile is_digit t = u /\ dropwhile is_digit t = v.
Proof.
  intros D N ->. induction u as [|c u IH]; cbn [app].
  - destruct v as [|c v]; [split; reflexivity|]. cbn [takewhile dropwhile]. assert (G : is_digit c = false) by (unfold is_digit; rewrite andb_false_iff, !N.leb_gt; lia). now rewrite G.
  - cbn [takewhile dropwhile]. assert (G : is_digit c = true) by (unfold is_digit; rewrite andb_true_iff, !N.leb_le; apply D; now left). rewrite G. destruct IH as [-> ->]; [intros x I; apply D; now right|]. split; reflexivity.
Qed.
Theorem c66_range : forall t, SupportModel.is_range t = true <->
  exists n, n <> [] /\ digits_only n /\ (t = 123 :: n ++ [125] \/ exists m, digits_only m /\ t = 123 :: n ++ 44 :: m ++ [125]).
Proof.
  intros t. unfold SupportModel.is_range, SupportModel.range_tail. split.
  - destruct t as [|c t]; [discriminate|]. destruct (N.eqb_spec c 123) as [->|]; [|discriminate]. cbn [andb]. destruct (span_digits t) as (n & v & -> & -> & -> & D & N).
    destruct n as [|a n]; [discriminate|]. cbn [negb andb]. intros H. exists (a :: n). split; [discriminate|]. split; [exact D|]. destruct v as [|x v]; [discriminate|]. destruct v as [|y v].
    + left. apply N.eqb_eq in H as ->. reflexivity.
    + right. apply andb_true_iff in H as [X H]. apply N.eqb_eq in X as ->. destruct (span_digits (y :: v)) as (m & w & E & _ & F & Dm & _). rewrite F in H. destruct (text_eqb_spec w [125]) as [K|K]; [|discriminate].
      exists m. split; [exact Dm|]. now rewrite E, K.
  - intros (n & N & D & [->|(m & Dm & ->)]); cbn [N.eqb Pos.eqb andb].
    + destruct (span_unique (n ++ [125]) n [125] D ltac:(cbv beta iota; lia) eq_refl) as [-> ->]. destruct n; [easy|]. reflexivity.
    + destruct (span_unique (n ++ 44 :: m ++ [125]) n (44 :: m ++ [125]) D ltac:(cbv beta iota; lia) eq_refl) as [-> ->]. destruct n; [easy|]. cbn [negb andb].
      destruct (m ++ [125]) as [|x y] eqn:F; [destruct m; discriminate|]. rewrite <- F. destruct (span_unique (m ++ [125]) m [125] Dm ltac:(cbv beta iota; lia) eq_refl) as [_ ->]. reflexivity.
Qed.
Print Assumptions c66_range.
Example c66_range_case : SupportModel.is_range (lit "{2,}") = true /\ SupportModel.is_range (lit "{,3}") = false /\ SupportModel.is_range (lit "{1,4}") = true. Proof. repeat split. Qed.

(** ** C24: font cannot be written if one of its values is a word for all
    properties and another is not the same *)
Theorem c24_font_wide : forall c d pm n m w, In n (map strip_version l_font) -> In m (map strip_version l_font) ->
  dget pm n = Some w -> In w wide_keywords -> dget pm m <> Some w -> font_tostring c d pm = [].
Proof.
  intros c d pm n m w In1 In2 E W D. unfold font_tostring. destruct (negb (order_ok _ _ _ _)); [reflexivity|]. destruct (all_some (map (dget pm) (map strip_version l_font))) as [vs|] eqn:A; [|reflexivity].
  destruct (negb (forallb nonempty vs)); [reflexivity|].
  assert (G : forall l v, all_some (map (dget pm) l) = Some v -> (forall x, In x l -> exists y, dget pm x = Some y /\ In y v) /\ forall y, In y v -> exists x, In x l /\ dget pm x = Some y).
  { induction l as [|x l IH]; cbn [map all_some]; intros v H; [injection H as <-; split; intros ? []|]. destruct (dget pm x) as [y|] eqn:X; [|discriminate]. destruct (all_some (map (dget pm) l)) as [r|] eqn:R; [|discriminate]. injection H as <-. destruct (IH _ eq_refl) as [P Q].
    split; [intros z [<-|I]; [exists y; split; [exact X|now left]|destruct (P z I) as (u & U1 & U2); exists u; split; [exact U1|now right]]|].
    intros z [<-|I]; [exists x; split; [now left|exact X]|destruct (Q z I) as (u & U1 & U2); exists u; split; [now right|exact U2]]. }
  destruct (G _ _ A) as [P _]. destruct (P n In1) as (y & Y & Iy). rewrite E in Y. injection Y as <-. destruct (P m In2) as (z & Z & Iz).
  assert (X : existsb is_wide vs = true) by (apply existsb_exists; exists w; split; [exact Iy|]; unfold is_wide; now apply mem_spec). rewrite X.
  assert (F : all_same vs = false).
  { destruct (all_same vs) eqn:S; [|reflexivity]. exfalso. apply D. rewrite Z. f_equal. unfold all_same in S. destruct vs as [|a r]; [destruct Iy|]. rewrite forallb_forall in S.
    assert (Q : forall u, In u (a :: r) -> u = a) by (intros u [<-|I]; [reflexivity|]; apply S in I; destruct (text_eqb_spec a u); [now subst|discriminate]). now rewrite (Q z Iz), (Q w Iy). }
  unfold all_wide_same. rewrite F, andb_false_r. reflexivity.
Qed.
Print Assumptions c24_font_wide.
Definition half_inherited : dict text := [(lit "font-style", lit "normal"); (lit "font-variant", lit "normal"); (lit "font-weight", lit "inherit"); (lit "font-stretch", lit "normal");
  (lit "font-size", lit "12px"); (lit "line-height", lit "normal"); (lit "font-family", lit "serif")].
Example c24_font_wide_case : In (lit "font-weight") (map strip_version l_font) /\ In (lit "font-size") (map strip_version l_font) /\ dget half_inherited (lit "font-weight") = Some (lit "inherit") /\
  In (lit "inherit") wide_keywords /\ dget half_inherited (lit "font-size") <> Some (lit "inherit").
Proof. split; [vm_compute; tauto|]. split; [vm_compute; tauto|]. split; [reflexivity|]. split; [vm_compute; tauto|]. discriminate. Qed.

(** ** C69: glyphs are only turned and moved in the plane *)
Lemma translate_flat m x y : is2d m = true -> is2d (MatrixModel.translate_self m x y 0) = true.
Proof. intros H. unfold MatrixModel.translate_self. destruct (_ && _); [exact H|]. cbn [is2d]. now rewrite H. Qed.
Lemma rotate_flat o m a : is2d m = true -> is2d (MatrixModel.rotate_self o m 0 0 a) = true.
Proof.
  intros H. unfold MatrixModel.rotate_self. change (0 =?q 0) with true. cbv iota zeta. destruct (a =?q 0); [exact H|]. unfold rotate_axis_angle_self. cbv zeta.
  set (l := osqrt o _). destruct (Qeqb_spec l 0) as [|L]; [exact H|]. destruct (l =?q 1); cbn [is2d]; rewrite H; [reflexivity|]. assert (Z : (0 / l =?q 0) = true) by (destruct (Qeqb_spec (0 / l) 0) as [|K]; [reflexivity|]; exfalso; apply K; unfold Qdiv; ring). now rewrite Z.
Qed.
Theorem c69_flat : forall o rot x y, is2d (glyph_matrix o rot x y) = true /\ is2d (box_matrix o rot x y) = true.
Proof. intros. unfold glyph_matrix, box_matrix. split; [destruct (rot =?q 0)|]; repeat (apply translate_flat || apply rotate_flat); reflexivity. Qed.
Print Assumptions c69_flat.

(** ** C46: what counts as Hangul are the characters of its five blocks *)
Definition hangul_blocks : list (N * N) := [(0x1100, 0x11FF); (0x3130, 0x318F); (0xA960, 0xA97F); (0xAC00, 0xD7AF); (0xD7B0, 0xD7FF)].
Theorem c46_hangul : forall c, is_hangul c = true <-> exists b, In b hangul_blocks /\ fst b <= c <= snd b.
Proof.
  intros c. unfold is_hangul. rewrite !orb_true_iff, !andb_true_iff, !N.leb_le. unfold hangul_blocks. split.
  - intros H. destruct H as [[[[H|H]|H]|H]|H]; [exists (0xAC00, 0xD7AF)|exists (0x1100, 0x11FF)|exists (0x3130, 0x318F)|exists (0xA960, 0xA97F)|exists (0xD7B0, 0xD7FF)]; (split; [|exact H]); cbn [In]; tauto.
  - intros (b & I & L). cbn [In] in I. repeat (destruct I as [<-|I]; [cbn [fst snd] in L; tauto|]). destruct I.
Qed.
Print Assumptions c46_hangul.
Example c46_hangul_case : is_hangul 0x11FF = true /\ is_hangul 0x1200 = false /\ is_hangul 0xD55C = true /\ is_hangul 0x4E00 = false. Proof. repeat split. Qed.

(** ** C85: the names of the directions *)
Theorem c85_direction_names : forall d, is_valid d = true -> In (d, to_string d) [(4%Z, lit "ltr"); (5%Z, lit "rtl"); (6%Z, lit "ttb"); (7%Z, lit "btt")].
Proof.
  intros d V. unfold is_valid in V. apply Z.eqb_eq in V.
  assert (R : (4 <= d <= 7)%Z).
  { assert (E : (d = Z.lor (Z.land d (Z.lnot 3)) (Z.land d 3))%Z) by (rewrite <- Z.land_lor_distr_r; rewrite Z.lor_comm; rewrite Z.lor_lnot_diag; now rewrite Z.land_m1_r).
    rewrite V in E. rewrite Z.land_ones with (n := 2%Z) in E by lia. assert (B := Z.mod_pos_bound d (2 ^ 2)%Z ltac:(lia)). change (2 ^ 2)%Z with 4%Z in B, E.
    assert (C : (d mod 4 = 0 \/ d mod 4 = 1 \/ d mod 4 = 2 \/ d mod 4 = 3)%Z) by lia. destruct C as [C|[C|[C|C]]]; rewrite C in E; cbn in E; lia. }
  assert (C : (d = 4 \/ d = 5 \/ d = 6 \/ d = 7)%Z) by lia. destruct C as [-> | [-> | [-> | ->]]]; vm_compute; tauto.
Qed.
Print Assumptions c85_direction_names.
