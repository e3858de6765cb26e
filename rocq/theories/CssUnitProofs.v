From Verif Require Import PyBase PyText PySplit PyDict PyCase CssTypeModel CssUnitModel CssUnitSpec.
From Coq Require Import Qabs.

(* membership of a concrete list, one case per element *)
Ltac each H := cbv [In] in H; repeat (destruct H as [H|H]; [try subst|]); try contradiction.

Definition all_units := other_units ++ concat groups.
Lemma known_all u : known u <-> In u all_units.
Proof.
  unfold all_units. rewrite in_app_iff, in_concat. split; (intros [H|(g & A & B)]; [now left|right; exists g; auto]).
Qed.
Lemma known_lower u : known u -> lower u = u.
Proof. rewrite known_all. intros H. apply lower_id. revert u H. apply Forall_forall. vm_compute. repeat constructor. Qed.
Lemma create_known u : lower u = u -> (is_ok (create_type u) = true <-> known u).
Proof.
  intros L. rewrite known_all. split.
  - unfold create_type. rewrite L.
    repeat match goal with
    | |- context [text_eqb u ?x] => destruct (text_eqb_spec u x) as [->|]; [intros _; vm_compute; tauto|]
    | |- context [mem u ?l] => let M := fresh in destruct (mem u l) eqn:M; [intros _; apply mem_in in M; unfold length_units, angle_units, time_units, frequency_units, resolution_units in M;
         cbn [In] in M; unfold all_units, other_units, groups; cbn [concat app In]; tauto|]
    end. discriminate.
  - intros H. revert u H L. assert (X : Forall (fun u => is_ok (create_type u) = true) all_units) by (vm_compute; repeat constructor).
    rewrite Forall_forall in X. auto.
Qed.
Lemma unit_value_known v u : known u -> unit_value v u = Ok (mkU v u).
Proof.
  intros K. unfold unit_value. rewrite (known_lower u K). assert (O := proj2 (create_known u (known_lower u K)) K). destruct (create_type u); [reflexivity|discriminate].
Qed.
(* canonical units: equal exactly for compatible units *)
Lemma canonical_compatible u v : lower u = u -> lower v = v ->
  ((exists a, canonical u = Some a /\ canonical v = Some a) <-> compatible u v).
Proof.
  intros Lu Lv.
  assert (C : forall u, lower u = u -> forall a, canonical u = Some a <->
     exists g, In (g, a) (combine groups [lit "number"; lit "px"; lit "deg"; lit "ms"; lit "hz"; lit "dppx"]) /\ In u g).
  { clear. intros u L a. split.
    - unfold canonical. rewrite L. intros H.
      destruct (text_eqb_spec u (lit "number")) as [->|]; [injection H as <-; eexists; split; [left; reflexivity|now left]|].
      destruct (mem u absolute_units) eqn:M1; [injection H as <-; eexists; split; [right; left; reflexivity|apply mem_in in M1; exact M1]|].
      destruct (mem u angle_units) eqn:M2; [injection H as <-; eexists; split; [do 2 right; left; reflexivity|apply mem_in in M2; exact M2]|].
      destruct (mem u time_units) eqn:M3; [injection H as <-; eexists; split; [do 3 right; left; reflexivity|apply mem_in in M3; exact M3]|].
      destruct (mem u frequency_units) eqn:M4; [injection H as <-; eexists; split; [do 4 right; left; reflexivity|apply mem_in in M4; exact M4]|].
      destruct (mem u resolution_units) eqn:M5; [injection H as <-; eexists; split; [do 5 right; left; reflexivity|apply mem_in in M5; exact M5]|].
      discriminate.
    - intros (g & A & B). cbn [combine groups In] in A.
      repeat (destruct A as [A|A]; [injection A as <- <-; cbn [In] in B; repeat (destruct B as [<-|B]; [reflexivity|]); contradiction|]). contradiction. }
  assert (D : forall g a g', In (g, a) (combine groups [lit "number"; lit "px"; lit "deg"; lit "ms"; lit "hz"; lit "dppx"]) ->
     In (g', a) (combine groups [lit "number"; lit "px"; lit "deg"; lit "ms"; lit "hz"; lit "dppx"]) -> g = g').
  { intros g a g' A B. cbn [combine groups In] in A, B.
    repeat (destruct A as [A|A]; [injection A as <- <-; repeat (destruct B as [B|B]; [try discriminate B; now injection B|]); contradiction|]). contradiction. }
  split.
  - intros (a & A & B). apply (C u Lu) in A as (g & G & I). apply (C v Lv) in B as (g' & G' & I').
    rewrite (D _ _ _ G' G) in I'. exists g. split; [eapply in_combine_l; exact G|auto].
  - intros (g & G & I & I'). assert (exists a, In (g, a) (combine groups [lit "number"; lit "px"; lit "deg"; lit "ms"; lit "hz"; lit "dppx"])) as [a A].
    { cbn [combine groups In] in *. repeat (destruct G as [<-|G]; [eexists; tauto|]). contradiction. }
    exists a. split; [apply (C u Lu)|apply (C v Lv)]; eauto.
Qed.
Lemma ratio_pos pi u : 0 < pi -> 0 < ratio pi u.
Proof.
  intros P. assert (R : 0 < 180 / pi) by (unfold Qdiv; apply Qmult_lt_0_compat; [reflexivity|now apply Qinv_lt_0_compat]).
  unfold ratio. repeat match goal with |- 0 < (if ?x then _ else _) => destruct x; [first [exact R | reflexivity]|] end. reflexivity.
Qed.
Lemma compatible_sym u v : compatible u v -> compatible v u. Proof. intros (g & A & B & C). exists g. auto. Qed.
Lemma compatible_known u v : compatible u v -> known u /\ known v.
Proof. intros (g & A & B & C). split; right; exists g; auto. Qed.
Lemma compatible_trans u v w : compatible u v -> compatible v w -> compatible u w.
Proof.
  intros C1 C2. assert (K := compatible_known _ _ C1). assert (K' := compatible_known _ _ C2).
  assert (Lu := known_lower _ (proj1 K)). assert (Lv := known_lower _ (proj2 K)). assert (Lw := known_lower _ (proj2 K')).
  apply canonical_compatible in C1 as (a & A & B); auto. apply canonical_compatible in C2 as (b & A' & B'); auto.
  apply canonical_compatible; auto. exists a. split; [exact A|congruence].
Qed.
(* what a conversion does *)
Lemma to_spec pi x u : known (uu x) ->
  (lower u = uu x /\ to_unit pi x u = Ok x) \/
  (lower u <> uu x /\ compatible (uu x) (lower u) /\ to_unit pi x u = Ok (mkU (uv x * (ratio pi (uu x) / ratio pi (lower u))) (lower u))) \/
  (lower u <> uu x /\ ~ compatible (uu x) (lower u) /\ to_unit pi x u = Err ValueError).
Proof.
  intros K. unfold to_unit. destruct (text_eqb_spec (uu x) (lower u)) as [E|N].
  - left. split; [auto|]. rewrite unit_value_known by exact K. destruct x; reflexivity.
  - right. assert (C := canonical_compatible (uu x) (lower u) (known_lower _ K) (lower_lower u)).
    destruct (canonical (uu x)) as [a|] eqn:A.
    + destruct (canonical (lower u)) as [b|] eqn:B.
      * destruct (text_eqb_spec a b) as [->|Ne].
        { left. split; [congruence|]. assert (CC : compatible (uu x) (lower u)) by (apply C; eauto). split; [exact CC|].
          apply unit_value_known. apply (compatible_known _ _ CC). }
        right. split; [congruence|]. split; [|reflexivity]. rewrite <- C. intros (c & X & Y). congruence.
      * right. split; [congruence|]. split; [|reflexivity]. rewrite <- C. intros (c & X & Y). congruence.
    + right. split; [congruence|]. split; [|reflexivity]. rewrite <- C. intros (c & X & Y). congruence.
Qed.
(* one number for all conversions: the value in canonical units *)
Definition size (pi : Q) (x : uval) : Q := uv x * ratio pi (uu x).
Lemma to_size pi x u y : 0 < pi -> known (uu x) -> to_unit pi x u = Ok y -> size pi y == size pi x /\ uu y = lower u /\ (uu y = uu x \/ compatible (uu x) (uu y)).
Proof.
  intros P K E. destruct (to_spec pi x u K) as [(A & B)|[(A & C & B)|(A & C & B)]]; rewrite B in E; [| |discriminate]; injection E as <-.
  - split; [reflexivity|]. auto.
  - split; [|cbn; auto]. unfold size. cbn [uv uu]. assert (R := ratio_pos pi (lower u) P). field. lra.
Qed.
Lemma size_eq pi x y : 0 < pi -> uu x = uu y -> size pi x == size pi y -> uv x == uv y.
Proof.
  intros P E H. unfold size in H. rewrite E in H. assert (R := ratio_pos pi (uu y) P).
  apply Qmult_inj_r in H; [exact H|]. lra.
Qed.

(** comparison *)
Lemma isclose_spec a b : isclose a b = true <-> Qabs (a - b) <= tol * Qabs a \/ Qabs (a - b) <= tol * Qabs b.
Proof.
  unfold isclose. rewrite !Bool.orb_true_iff, Qeq_bool_iff, !Qle_bool_iff. split; [|tauto].
  intros [[E|H]|H]; auto. left. rewrite E. assert (Z : b - b == 0) by ring. rewrite Z. change (Qabs 0) with 0.
  apply Qmult_le_0_compat; [discriminate|apply Qabs_nonneg].
Qed.
Lemma isclose_sym a b : isclose a b = isclose b a.
Proof.
  apply Bool.eq_iff_eq_true. rewrite !isclose_spec. assert (E : Qabs (a - b) == Qabs (b - a)).
  { assert (X : a - b == - (b - a)) by ring. rewrite X. apply Qabs_opp. }
  rewrite E. tauto.
Qed.
Lemma Qabs_scale k a : 0 < k -> Qabs (a * k) == Qabs a * k.
Proof. intros K. rewrite Qabs_Qmult. rewrite (Qabs_pos k) by lra. reflexivity. Qed.
Lemma isclose_scale k a b c d : 0 < k -> c == a * k -> d == b * k -> isclose c d = isclose a b.
Proof.
  intros K C D. apply Bool.eq_iff_eq_true. rewrite !isclose_spec.
  assert (E : Qabs (c - d) == Qabs (a - b) * k) by (rewrite C, D; setoid_replace (a * k - b * k) with ((a - b) * k) by ring; now apply Qabs_scale).
  rewrite E, C, D, !Qabs_scale by exact K.
  assert (X : forall p q, p * k <= tol * (q * k) <-> p <= tol * q).
  { intros p q. rewrite Qmult_assoc. split; [intros H; apply Qmult_lt_0_le_reg_r with k; auto|intros H; apply Qmult_le_compat_r; lra]. }
  rewrite !X. reflexivity.
Qed.
Lemma compare_norm pi x y : 0 < pi -> known (uu x) -> known (uu y) -> (uu x = uu y \/ compatible (uu x) (uu y)) ->
  exists y', normalize pi x y = Ok y' /\ uu y' = uu x /\ size pi y' == size pi y.
Proof.
  intros P Kx Ky C. unfold normalize. destruct (text_eqb_spec (uu x) (uu y)) as [E|N]; [exists y; split; [reflexivity|]; split; [auto|reflexivity]|].
  destruct C as [C|C]; [contradiction|].
  destruct (to_spec pi y (uu x) Ky) as [(A & B)|[(A & D & B)|(A & D & B)]]; rewrite (known_lower _ Kx) in *.
  - congruence.
  - eexists. split; [exact B|]. split; [reflexivity|]. unfold size. cbn [uv uu]. assert (R := ratio_pos pi (uu x) P). field. lra.
  - exfalso. apply D. now apply compatible_sym.
Qed.
Lemma compare_bad pi x y : known (uu x) -> known (uu y) -> uu x <> uu y -> ~ compatible (uu x) (uu y) -> normalize pi x y = Err ValueError.
Proof.
  intros Kx Ky N C. unfold normalize. destruct (text_eqb_spec (uu x) (uu y)) as [E|_]; [contradiction|].
  destruct (to_spec pi y (uu x) Ky) as [(A & B)|[(A & D & B)|(A & D & B)]]; rewrite (known_lower _ Kx) in *; [congruence| |exact B].
  exfalso. apply C. now apply compatible_sym.
Qed.
Lemma Qleb_eq a b c d : (a <= b <-> c <= d) -> (a <=?q b) = (c <=?q d).
Proof. intros H. apply Bool.eq_iff_eq_true. rewrite !Qle_bool_iff. exact H. Qed.
(* comparisons are comparisons of sizes *)
Lemma compare_size pi x y y' : 0 < pi -> normalize pi x y = Ok y' -> uu y' = uu x -> size pi y' == size pi y ->
  isclose (uv x) (uv y') = isclose (size pi x) (size pi y) /\ (uv x <=?q uv y') = (size pi x <=?q size pi y) /\ (uv y' <=?q uv x) = (size pi y <=?q size pi x).
Proof.
  intros P _ U S. assert (R := ratio_pos pi (uu x) P).
  assert (S' : size pi y == uv y' * ratio pi (uu x)) by (rewrite <- S; unfold size; rewrite U; reflexivity).
  split; [|split].
  - symmetry. apply (isclose_scale (ratio pi (uu x))); auto. reflexivity.
  - apply Qleb_eq. rewrite S'. unfold size. split; intros H; [apply Qmult_le_compat_r; lra|apply Qmult_lt_0_le_reg_r with (ratio pi (uu x)); auto].
  - apply Qleb_eq. rewrite S'. unfold size. split; intros H; [apply Qmult_le_compat_r; lra|apply Qmult_lt_0_le_reg_r with (ratio pi (uu x)); auto].
Qed.
