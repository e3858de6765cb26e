(** Texts, values and classes (C67). *)
From Coq Require Import ZArith NArith List Lia.
From Verif Require Import PyBase PyText PySplit PyDict PyCase DatasetModel DatasetProofs SupportModel SupportTable ShortModel ShortSpec TypedTable TypedModel TypedSpec.
#[local] Open Scope N_scope.
Import ListNotations.

(** ** var( *)
Lemma var_after_spec ok t : var_after ok t = true <->
  exists b a, t = b ++ lit "var(" ++ a /\ ((b = [] /\ ok = true) \/ exists p c, b = p ++ [c] /\ separator c).
Proof.
  revert ok. induction t as [|c r IH]; intros ok; cbn [var_after].
  - split; [discriminate|]. intros (b & a & E & _). destruct b; discriminate E.
  - rewrite orb_true_iff, andb_true_iff, IH. split.
    + intros [[O S0]|(b & a & E & H)].
      * apply starts_with_spec in S0 as [a S0]. exists [], a. auto.
      * exists (c :: b), a. split; [now rewrite E|]. right. destruct H as [[-> H]|(p & x & -> & H)].
        -- exists [], c. split; [reflexivity|]. unfold separator. rewrite !orb_true_iff, !N.eqb_eq in H. cbn. intuition auto.
        -- exists (c :: p), x. auto.
    + intros (b & a & E & H). destruct b as [|x b]; cbn [app] in E.
      * left. destruct H as [[_ O]|(p & x & E' & _)]; [|destruct p; discriminate]. split; [exact O|]. apply starts_with_spec. exists a. exact E.
      * right. injection E as <- E. exists b, a. split; [exact E|]. destruct H as [[H _]|(p & y & E' & H)]; [discriminate|].
        destruct p as [|z p]; injection E' as -> E'.
        -- left. subst b. split; [reflexivity|]. unfold separator in H. cbn in H. rewrite !orb_true_iff, !N.eqb_eq. intuition auto.
        -- right. exists p, y. auto.
Qed.
Lemma has_var_spec t : has_var t = true <-> uses_var t.
Proof.
  unfold has_var, uses_var. rewrite var_after_spec. split; intros (b & a & E & H); exists b, a; (split; [exact E|]).
  - destruct H as [[H _]|H]; auto.
  - destruct H as [H|H]; auto.
Qed.

(** ** Folding *)
Lemma folding_mem t : mem t (color_keywords ++ SupportModel.wide_keywords) = true <-> In t folding.
Proof. apply mem_in. Qed.
Lemma fold_keyword_spec t : folded t (fold_keyword t).
Proof.
  unfold folded, fold_keyword. destruct (mem (lower t) (SupportModel.color_keywords ++ SupportModel.wide_keywords)) eqn:E; [left|right]; (split; [|reflexivity]).
  - now apply mem_in in E.
  - intros H. apply mem_in in H. change (mem (lower t) (SupportModel.color_keywords ++ SupportModel.wide_keywords) = true) in H. congruence.
Qed.
Lemma folded_fun t a b : folded t a -> folded t b -> a = b.
Proof. unfold folded. intuition congruence. Qed.
Lemma folded_iff t u : folded t u <-> fold_keyword t = u.
Proof. split; [intros H; eapply folded_fun; [apply fold_keyword_spec|exact H]|intros <-; apply fold_keyword_spec]. Qed.
Lemma fold_keyword_idem t : fold_keyword (fold_keyword t) = fold_keyword t.
Proof.
  unfold fold_keyword. destruct (mem (lower t) _) eqn:E; [rewrite lower_lower|]; now rewrite E.
Qed.
Lemma wide_mem t : mem t SupportModel.wide_keywords = true <-> In t wide_words.
Proof. apply mem_in. Qed.

(** ** Numbers *)
Lemma digits_take t : takewhile is_digit t ++ dropwhile is_digit t = t. Proof. apply take_drop. Qed.
Lemma take_digits t : digit_text (takewhile is_digit t).
Proof. unfold digit_text. induction t as [|c r IH]; cbn; [reflexivity|]. destruct (is_digit c) eqn:E; cbn; [now rewrite E|reflexivity]. Qed.
Lemma sign_off_spec t : exists s, sign s /\ t = s ++ sign_off t /\ (s = [] -> sign_off t = t).
Proof.
  destruct t as [|c r]; cbn [sign_off]; [exists []; split; [now left|auto]|].
  destruct (N.eqb_spec c 43) as [->|]; cbn [orb]; [exists (lit "+"); unfold sign; intuition; discriminate|].
  destruct (N.eqb_spec c 45) as [->|]; [exists (lit "-"); unfold sign; intuition; discriminate|]. exists []. unfold sign. auto.
Qed.
Lemma sign_off_app s t : sign s -> (forall c r, t = c :: r -> is_digit c = true \/ c = 46) -> sign_off (s ++ t) = t.
Proof.
  intros [->|[->| ->]] H; cbn [app lit sign_off]; try reflexivity. destruct t as [|c r]; [reflexivity|]. cbn [sign_off].
  destruct (H c r eq_refl) as [D| ->]; [|reflexivity]. unfold is_digit in D. apply andb_true_iff in D as [D1 D2]. apply N.leb_le in D1, D2.
  destruct (N.eqb_spec c 43); [lia|]. destruct (N.eqb_spec c 45); [lia|]. reflexivity.
Qed.
Lemma some_digits_spec t : some_digits t = true <-> takewhile is_digit t <> [].
Proof. unfold some_digits. destruct (takewhile is_digit t); split; congruence. Qed.
Definition exponent_text (e : text) : Prop := e = [] \/ exists x s' d, e = x :: s' ++ d /\ In x (lit "eE") /\ sign s' /\ digit_text d /\ d <> [].
Lemma take_all d : digit_text d -> takewhile is_digit d = d /\ dropwhile is_digit d = [].
Proof. unfold digit_text. induction d as [|c r IH]; cbn; [auto|]. intros H. apply andb_true_iff in H as [-> H]. destruct (IH H) as [-> ->]. auto. Qed.
Lemma first_digit d c r : digit_text d -> d = c :: r -> is_digit c = true.
Proof. intros H ->. unfold digit_text in H. cbn in H. now apply andb_true_iff in H. Qed.
Lemma exponent_spec e : exponent e = true <-> exponent_text e.
Proof.
  unfold exponent_text. destruct e as [|x r]; cbn [exponent]; [split; auto|]. rewrite !andb_true_iff, orb_true_iff, !N.eqb_eq, some_digits_spec. split.
  - intros [[X D] E]. right. destruct (sign_off_spec r) as (s & S0 & E0 & _). exists x, s, (sign_off r).
    split; [now rewrite <- E0|]. split; [cbn; intuition auto|]. split; [exact S0|].
    assert (T := digits_take (sign_off r)). destruct (dropwhile is_digit (sign_off r)); [|discriminate]. rewrite app_nil_r in T. split.
    + rewrite <- T. apply take_digits.
    + intros Z. rewrite Z in D. now elim D.
  - intros [H|(y & s & d & E & X & S0 & D & N0)]; [discriminate|]. injection E as -> ->.
    rewrite sign_off_app; [|exact S0|intros c r ->; left; eapply first_digit; eauto]. destruct (take_all d D) as [-> ->]. split; [split|]; [cbn in X; intuition auto|exact N0|reflexivity].
Qed.
Lemma not_digit_exp e c r : exponent_text e -> e = c :: r -> is_digit c = false /\ c <> 46.
Proof. intros [->|(x & s & d & -> & X & _)]; [discriminate|]. intros [= <- _]. cbn in X. destruct X as [<-|[<-|[]]]; split; (reflexivity || discriminate). Qed.
Lemma split_digits i t : digit_text i -> (forall c r, t = c :: r -> is_digit c = false) -> takewhile is_digit (i ++ t) = i /\ dropwhile is_digit (i ++ t) = t.
Proof.
  unfold digit_text. induction i as [|c r IH]; cbn [app forallb].
  - intros _ H. destruct t as [|c r]; cbn; [auto|]. rewrite (H c r eq_refl). auto.
  - intros H T. apply andb_true_iff in H as [C H]. cbn. rewrite C. destruct (IH H T) as [-> ->]. auto.
Qed.
Lemma real_number_spec t : real_number t = true <-> number_text t.
Proof.
  unfold real_number, number_text. split.
  - destruct (sign_off_spec t) as (s & S0 & E0 & _). set (u := sign_off t) in *. assert (T := digits_take u). destruct (dropwhile is_digit u) as [|c r] eqn:D.
    + rewrite some_digits_spec. intros H. exists s, [], [], u, []. rewrite app_nil_r in T. rewrite !app_nil_r. cbn [app].
      repeat split; auto; [rewrite <- T; apply take_digits|intros Z; rewrite Z in H; now elim H].
    + destruct (N.eqb_spec c 46) as [->|C]; rewrite andb_true_iff, some_digits_spec, exponent_spec; intros [H X].
      * exists s, (takewhile is_digit u), (lit "."), (takewhile is_digit r), (dropwhile is_digit r). rewrite digits_take. cbn [lit app].
        repeat split; auto using take_digits. change (46 :: r) with (lit "." ++ r) in T. rewrite E0, <- T at 1. reflexivity.
      * exists s, [], [], (takewhile is_digit u), (c :: r). cbn [app]. rewrite T. repeat split; auto using take_digits.
  - intros (s & i & p & f & e & -> & S0 & I0 & P0 & F0 & N0 & X). rewrite sign_off_app; [|exact S0|].
    + destruct P0 as [-> | ->].
      * cbn [app]. rewrite app_assoc.
        assert (IF : digit_text (i ++ f)) by (unfold digit_text in *; rewrite forallb_app, I0, F0; reflexivity).
        destruct (split_digits (i ++ f) e IF) as [T D]; [intros c r E; apply (not_digit_exp e c r X E)|]. rewrite D.
        assert (SD : some_digits ((i ++ f) ++ e) = true) by (apply some_digits_spec; rewrite T; destruct i; [exact N0|discriminate]).
        destruct e as [|c r]; [exact SD|]. destruct (not_digit_exp _ c r X eq_refl) as [_ C]. destruct (N.eqb_spec c 46); [congruence|]. rewrite SD. cbn [andb]. now apply exponent_spec.
      * destruct (split_digits i (lit "." ++ f ++ e) I0) as [T D]; [intros c r E; injection E as <- _; reflexivity|]. rewrite D. cbn [lit app]. cbn.
        destruct (split_digits f e F0) as [T' D']; [intros c r E; apply (not_digit_exp e c r X E)|]. rewrite D'. apply andb_true_iff. split; [|now apply exponent_spec].
        apply some_digits_spec. now rewrite T'.
    + intros c r E. destruct i as [|d i]; cbn [app] in E; [|injection E as -> _; left; eapply first_digit; [exact I0|reflexivity]].
      destruct P0 as [-> | ->]; cbn [app lit] in E; [|injection E as <- _; now right]. destruct f as [|d f]; [congruence|]. injection E as -> _. left. eapply first_digit; [exact F0|reflexivity].
Qed.
