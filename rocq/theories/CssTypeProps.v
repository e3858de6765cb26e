(** C28: the algebra of CSS numeric types. *)
From Verif Require Import PyBase PyText PySplit PyDict PyCase CssTypeModel CssTypeSpec CssTypeProofs.
From Coq Require Import Permutation.
#[local] Open Scope Z_scope.

Definition px := mkT [(length_, 1)] None.
Definition pct := mkT [(percent, 1)] None.
Definition px_or_pct := mkT [(length_, 1); (percent, 0)] (Some length_).
Definition hz := mkT [(frequency, 1)] None.
Lemma small_good d h : forallb (fun p => mem (fst p) (percent :: base_keys)) d = true -> NoDup (dkeys d) ->
  match h with Some h => In h base_keys /\ pget (mkT d (Some h)) percent = 0 | None => True end -> good (mkT d h).
Proof.
  intros K D H. split; [exact D|]. split; [|destruct h; exact H]. intros k I. apply in_map_iff in I as (p & <- & I).
  rewrite forallb_forall in K. apply K in I. apply mem_in in I as [<-|I]; auto.
Qed.
Ltac isgood := apply small_good; [reflexivity|repeat (apply NoDup_cons; [vm_compute; intuition discriminate|]); apply NoDup_nil|cbn [hint]; try exact I; try (split; [now left|reflexivity])].
Lemma px_good : good px. Proof. isgood. Qed.
Lemma pct_good : good pct. Proof. isgood. Qed.
Lemma hz_good : good hz. Proof. isgood. Qed.
Lemma number_good : good number. Proof. isgood. Qed.
Lemma px_or_pct_good : good px_or_pct. Proof. isgood. Qed.

(** every type made by the operations is a good one (inversion: if not hinted) *)
Theorem c28_types_good : forall o a b, some_order o -> good a -> good b ->
  (forall c, add_types o a b = Some c -> good c) /\ (forall c, multiply_types a b = Some c -> good c) /\
  (hint a = None -> good (invert_type a)) /\ (forall u t, create_type u = Ok t -> good t).
Proof.
  intros o a b O A B. split; [|split; [|split]].
  - intros c E. destruct (add_spec o a b O A B) as [(c' & E' & _ & G & _)|[E' _]]; rewrite E' in E; [|discriminate]. injection E as <-. exact G.
  - intros c E. destruct (merge_spec a b A B) as [[_ M]|(H & _)]; [unfold multiply_types in E; rewrite M in E; discriminate|].
    destruct (mul_spec a b A B H) as (c' & E' & G & _). rewrite E' in E. injection E as <-. exact G.
  - intros H. now apply invert_good.
  - intros u t. unfold create_type.
    repeat match goal with |- (if ?x then _ else _) = _ -> _ => destruct x end; intros E; try discriminate; injection E as <-; isgood.
Qed.
Print Assumptions c28_types_good.

(** multiplying: defined unless the hints differ; powers are added, percentages
    counting as the hinted type *)
Theorem c28_mul_defined : forall a b, good a -> good b -> ((exists c, multiply_types a b = Some c) <-> hints_agree a b).
Proof.
  intros a b A B. split.
  - intros (c & E). destruct (merge_spec a b A B) as [[N M]|(H & _)]; [|exact H]. unfold multiply_types in E. rewrite M in E. discriminate.
  - intros H. destruct (mul_spec a b A B H) as (c & E & _). now exists c.
Qed.
Print Assumptions c28_mul_defined.
Theorem c28_mul_exponents : forall a b c, good a -> good b -> multiply_types a b = Some c ->
  hint c = joint a b /\ forall k, In k base_keys -> pget c k = resolved (joint a b) a k + resolved (joint a b) b k.
Proof.
  intros a b c A B E. assert (H : hints_agree a b) by (apply (c28_mul_defined a b A B); eauto).
  destruct (mul_spec a b A B H) as (c' & E' & _ & H1 & H2 & _). rewrite E' in E. injection E as <-. auto.
Qed.
Print Assumptions c28_mul_exponents.
Example c28_mul_case : multiply_types px hz = Some (mkT [(length_, 1); (frequency, 1)] None) /\
  multiply_types px_or_pct pct = Some (mkT [(length_, 2); (percent, 0)] (Some length_)).
Proof. split; reflexivity. Qed.

(** multiplication commutes as long as no percentages get lost.
    Missing: types with different powers of percent and without hint *)
Theorem c28_mul_comm_partial : forall a b, good a -> good b -> (joint a b = None -> pget a percent = pget b percent) ->
  oteq (multiply_types a b) (multiply_types b a).
Proof.
  intros a b A B P.
  assert (J : hints_agree a b -> joint a b = joint b a) by (unfold hints_agree, joint; destruct (hint a), (hint b); congruence).
  assert (S : hints_agree b a <-> hints_agree a b) by (unfold hints_agree; destruct (hint a), (hint b); split; congruence).
  destruct (merge_spec a b A B) as [[N _]|(H & _)].
  - rewrite !mul_none by (auto; rewrite S; auto). exact I.
  - destruct (mul_spec a b A B H) as (c & E & G & C1 & C2 & C3). destruct (mul_spec b a B A (proj2 S H)) as (d & F & K & D1 & D2 & D3).
    rewrite E, F. specialize (J H). apply good_teq; auto; [congruence| |].
    + intros k Hk. rewrite C2, D2, <- J by exact Hk. lia.
    + rewrite C3, D3, <- J. destruct (joint a b); [reflexivity|]. now apply P.
Qed.
Print Assumptions c28_mul_comm_partial.
Example c28_mul_comm_case : good px /\ good hz /\ (joint px hz = None -> pget px percent = pget hz percent) /\ good px_or_pct /\ joint px_or_pct pct = Some length_.
Proof. repeat split; try apply px_good; try apply hz_good; try apply px_or_pct_good. Qed.
(** the percentages of the second factor are lost *)
Theorem c28_mul_comm_refuted : exists a b x y, good a /\ good b /\ multiply_types a b = Some x /\ multiply_types b a = Some y /\ ~ teq x y.
Proof.
  exists number, pct. do 2 eexists. split; [exact number_good|]. split; [exact pct_good|]. split; [reflexivity|]. split; [reflexivity|].
  intros [H _]. specialize (H percent). vm_compute in H. discriminate.
Qed.
Print Assumptions c28_mul_comm_refuted.

Definition omul (a b : option ntype) : option ntype := match a, b with Some x, Some y => multiply_types x y | _, _ => None end.
(** associativity, without percentages *)
Theorem c28_mul_assoc_partial : forall a b c, good a -> good b -> good c -> pget a percent = 0 -> pget b percent = 0 -> pget c percent = 0 ->
  oteq (omul (multiply_types a b) (Some c)) (omul (Some a) (multiply_types b c)).
Proof.
  intros a b c A B C Pa Pb Pc.
  assert (R : forall h t k, pget t percent = 0 -> resolved h t k = pget t k) by (intros h t k P; unfold resolved; rewrite P; destruct h as [h|]; [destruct (text_eqb h k)|]; lia).
  assert (HD : forall x y, hints_agree x y \/ ~ hints_agree x y).
  { intros x y. unfold hints_agree. destruct (hint x) as [p|], (hint y) as [q|]; auto. destruct (text_eqb_spec p q); auto. }
  destruct (HD a b) as [Hab|Hab]; destruct (HD b c) as [Hbc|Hbc].
  - destruct (mul_spec a b A B Hab) as (x & Ex & Gx & X1 & X2 & X3). destruct (mul_spec b c B C Hbc) as (y & Ey & Gy & Y1 & Y2 & Y3).
    rewrite Ex, Ey. cbn [omul].
    assert (Px : pget x percent = 0) by (rewrite X3; destruct (joint a b); auto). assert (Py : pget y percent = 0) by (rewrite Y3; destruct (joint b c); auto).
    assert (S : hints_agree x c <-> hints_agree a y).
    { unfold hints_agree in *. rewrite X1, Y1. unfold joint. destruct (hint a), (hint b), (hint c); try tauto; try (split; congruence). }
    destruct (HD x c) as [Hxc|Hxc].
    + destruct (mul_spec x c Gx C Hxc) as (u & Eu & Gu & U1 & U2 & U3). destruct (mul_spec a y A Gy (proj1 S Hxc)) as (v & Ev & Gv & V1 & V2 & V3).
      rewrite Eu, Ev. apply good_teq; auto.
      * rewrite U1, V1. unfold joint in *. rewrite X1, Y1. destruct (hint a), (hint b), (hint c); reflexivity.
      * intros k K. rewrite U2, V2 by exact K. rewrite !R by assumption. rewrite X2, Y2 by exact K. rewrite !R by assumption. lia.
      * rewrite U3, V3. destruct (joint x c), (joint a y); auto; congruence.
    + rewrite (mul_none x c Gx C Hxc). rewrite (mul_none a y A Gy) by (rewrite <- S; exact Hxc). exact I.
  - rewrite (mul_none b c B C Hbc). cbn [omul]. destruct (mul_spec a b A B Hab) as (x & Ex & Gx & X1 & _). rewrite Ex. cbn [omul].
    rewrite (mul_none x c Gx C); [exact I|]. unfold hints_agree in *. rewrite X1. unfold joint. destruct (hint a), (hint b), (hint c); try tauto. congruence.
  - rewrite (mul_none a b A B Hab). cbn [omul]. destruct (mul_spec b c B C Hbc) as (y & Ey & Gy & Y1 & _). rewrite Ey. cbn [omul].
    rewrite (mul_none a y A Gy); [exact I|]. unfold hints_agree in *. rewrite Y1. unfold joint. destruct (hint a), (hint b), (hint c); try tauto.
  - rewrite (mul_none a b A B Hab), (mul_none b c B C Hbc). exact I.
Qed.
Print Assumptions c28_mul_assoc_partial.
Example c28_mul_assoc_case : good px /\ good hz /\ good px_or_pct /\ pget px_or_pct percent = 0 /\ pget hz percent = 0 /\ omul (multiply_types px hz) (Some px_or_pct) <> None.
Proof. repeat split; try apply px_good; try apply hz_good; try apply px_or_pct_good. discriminate. Qed.
Theorem c28_mul_assoc_refuted : exists a b c x y, good a /\ good b /\ good c /\
  omul (multiply_types a b) (Some c) = Some x /\ omul (Some a) (multiply_types b c) = Some y /\ ~ teq x y.
Proof.
  exists px_or_pct, number, pct. do 2 eexists. split; [exact px_or_pct_good|]. split; [exact number_good|]. split; [exact pct_good|].
  split; [reflexivity|]. split; [reflexivity|]. intros [H _]. specialize (H length_). vm_compute in H. discriminate.
Qed.
Print Assumptions c28_mul_assoc_refuted.
(** numbers are the unit on the right; on the left only without percentages *)
Theorem c28_mul_unit : forall t, good t -> exists c, multiply_types t number = Some c /\ teq c t.
Proof.
  intros t G. assert (H : hints_agree t number) by (unfold hints_agree; destruct (hint t); exact I).
  destruct (mul_spec t number G number_good H) as (c & E & K & C1 & C2 & C3). exists c. split; [exact E|].
  assert (J : joint t number = hint t) by (unfold joint; destruct (hint t); reflexivity). rewrite J in *.
  apply good_teq; auto.
  - intros k B. rewrite C2 by exact B. rewrite resolved_self by (auto using base_not_percent). unfold resolved. change (pget number k) with 0.
    change (pget number percent) with 0. destruct (hint t) as [h|]; [destruct (text_eqb h k)|]; lia.
  - rewrite C3. destruct (hint t) eqn:E1; [|reflexivity]. destruct G as (_ & _ & G). rewrite E1 in G. symmetry. tauto.
Qed.
Print Assumptions c28_mul_unit.
Theorem c28_mul_unit_left_partial : forall t, good t -> pget t percent = 0 -> exists c, multiply_types number t = Some c /\ teq c t.
Proof.
  intros t G P. destruct (c28_mul_unit t G) as (c & E & T). assert (C := c28_mul_comm_partial number t number_good G (fun _ => eq_sym P)).
  rewrite E in C. unfold oteq in C. destruct (multiply_types number t) as [d|]; [|contradiction]. exists d. split; [reflexivity|]. exact (teq_trans _ _ _ C T).
Qed.
Print Assumptions c28_mul_unit_left_partial.
Example c28_mul_unit_case : good px_or_pct /\ multiply_types px_or_pct number = Some px_or_pct /\ multiply_types number pct = Some number.
Proof. split; [exact px_or_pct_good|]. split; reflexivity. Qed.

(** adding: defined exactly when, percentages counting as some hint that fits
    both, the powers of the base types are equal; the sum has those powers *)
Theorem c28_add_defined : forall o a b, some_order o -> good a -> good b ->
  ((exists c, add_types o a b = Some c) <->
   hints_agree a b /\ exists h, (joint a b = None \/ joint a b = h) /\ match h with Some k => In k base_keys | None => True end /\
     forall k, In k base_keys -> resolved h a k = resolved h b k).
Proof.
  intros o a b O A B. split.
  - intros (c & E). destruct (add_spec o a b O A B) as [(c' & E' & H & G & C)|[E' _]]; [|congruence].
    split; [exact H|]. destruct C as [(C1 & C2 & _)|(J & k & C1 & M & _)].
    + exists (joint a b). split; [now right|]. split; [|exact C2]. destruct G as (_ & _ & G). rewrite C1 in G. destruct (joint a b); tauto.
    + exists (Some k). split; [now left|]. destruct M as (Bk & N & R & Oth). split; [exact Bk|]. intros j Bj.
      destruct (text_eqb_spec k j) as [<-|Nj]; [exact R|]. unfold resolved. destruct (text_eqb_spec k j); [contradiction|]. rewrite Oth by auto. reflexivity.
  - intros (H & h & J & Hh & R). destruct (add_spec o a b O A B) as [(c & E & _)|[E F]]; [now exists c|]. exfalso.
    destruct F as [F|[F1 F2]]; [contradiction|]. destruct J as [J|J]; [|rewrite J in F1; contradiction].
    destruct h as [k|]; [|rewrite J in F1; contradiction]. rewrite J in F1. destruct (Z.eq_dec (pget a k) (pget b k)) as [E0|E0].
    + apply F1. intros j Bj. destruct (text_eqb_spec k j) as [<-|Nj]; [unfold resolved; lia|]. specialize (R j Bj). unfold resolved in *.
      destruct (text_eqb_spec k j); [contradiction|exact R].
    + apply (F2 J k). split; [exact Hh|]. split; [exact E0|]. split; [now apply R|]. intros j Bj Nj. specialize (R j Bj). unfold resolved in R.
      destruct (text_eqb_spec k j); [congruence|]. lia.
Qed.
Print Assumptions c28_add_defined.
Theorem c28_add_powers : forall o a b c, some_order o -> good a -> good b -> add_types o a b = Some c ->
  (forall k, In k base_keys -> pget c k = resolved (hint c) a k /\ pget c k = resolved (hint c) b k) /\
  (joint a b = None \/ hint c = joint a b) /\ (hint c <> None -> pget c percent = 0).
Proof.
  intros o a b c O A B E. destruct (add_spec o a b O A B) as [(c' & E' & H & G & C)|[E' _]]; [|congruence].
  rewrite E' in E. injection E as ->. assert (P : hint c <> None -> pget c percent = 0) by (destruct G as (_ & _ & G); destruct (hint c); tauto).
  destruct C as [(C1 & C2 & C3 & _)|(J & k & C1 & M & C3 & _)].
  - split; [|auto]. intros k K. rewrite C1. split; [now apply C3|rewrite <- C2 by exact K; now apply C3].
  - split; [|auto]. destruct M as (Bk & N & R & Oth). intros j Bj. rewrite C1. split; [now apply C3|]. rewrite C3 by exact Bj.
    destruct (text_eqb_spec k j) as [<-|Nj]; [exact R|]. unfold resolved. destruct (text_eqb_spec k j); [contradiction|]. rewrite Oth by auto. reflexivity.
Qed.
Print Assumptions c28_add_powers.
Example c28_add_case : some_order base_keys /\ add_types base_keys px pct = Some (mkT [(length_, 1)] (Some length_)) /\
  (exists c, add_types base_keys pct px = Some c /\ pget c length_ = 1 /\ pget c percent = 0 /\ hint c = Some length_) /\ add_types base_keys px hz = None.
Proof.
  split; [apply Permutation_refl|]. split; [reflexivity|]. split; [|reflexivity]. eexists. split; [reflexivity|]. repeat split.
Qed.
(** the order in which Python happens to visit a set does not matter *)
Theorem c28_add_order : forall o o' a b, some_order o -> some_order o' -> good a -> good b -> oteq (add_types o a b) (add_types o' a b).
Proof.
  intros o o' a b O O' A B.
  destruct (add_spec o a b O A B) as [(c & E & H & G & C)|[E F]]; destruct (add_spec o' a b O' A B) as [(d & E' & _ & K & D)|[E' F']]; rewrite E, E'; try exact I.
  - destruct C as [(C1 & C2 & C3 & C4)|(J & k & C1 & M & C3 & C4)], D as [(D1 & D2 & D3 & D4)|(J' & k' & D1 & M' & D3 & D4)].
    + apply good_teq; auto; [congruence| |congruence]. intros k Hk. rewrite C3, D3 by exact Hk. reflexivity.
    + exfalso. destruct M' as (Bk & N & _). apply N. specialize (C2 k' Bk). rewrite J' in C2. unfold resolved in C2. lia.
    + exfalso. destruct M as (Bk & N & _). apply N. specialize (D2 k Bk). rewrite J in D2. unfold resolved in D2. lia.
    + assert (X := made_up_unique a b k k' M M'). subst k'. apply good_teq; auto; [congruence| |congruence]. intros j Hj. rewrite C3, D3 by exact Hj. reflexivity.
  - assert (X : exists c, add_types o' a b = Some c) by (apply (c28_add_defined o' a b O' A B); apply (c28_add_defined o a b O A B); eauto). destruct X; congruence.
  - assert (X : exists c, add_types o a b = Some c) by (apply (c28_add_defined o a b O A B); apply (c28_add_defined o' a b O' A B); eauto). destruct X; congruence.
Qed.
Print Assumptions c28_add_order.
Example c28_add_order_case : some_order [flex; length_; angle; time; frequency; resolution] /\
  add_types [flex; length_; angle; time; frequency; resolution] pct px <> None.
Proof. split; [|discriminate]. change base_keys with ([length_; angle; time; frequency; resolution] ++ [flex]). apply (Permutation_app_comm [flex]). Qed.
(** idempotent *)
Theorem c28_add_idempotent : forall o t, some_order o -> good t -> exists c, add_types o t t = Some c /\ teq c t.
Proof.
  intros o t O G. assert (J : joint t t = hint t) by (unfold joint; destruct (hint t); reflexivity).
  destruct (add_spec o t t O G G) as [(c & E & _ & K & C)|[_ [F|[F _]]]].
  - exists c. split; [exact E|]. destruct C as [(C1 & C2 & C3 & C4)|(_ & k & _ & (_ & N & _) & _)]; [|congruence]. rewrite J in *.
    apply good_teq; auto.
    + intros k Hk. rewrite C3 by exact Hk. apply resolved_self; [exact G|now apply base_not_percent].
    + rewrite C4. destruct (hint t) eqn:E1; [destruct G as (_ & _ & G); rewrite E1 in G; symmetry; tauto|]. unfold pget. destruct (dget (pw t) percent); reflexivity.
  - exfalso. apply F. unfold hints_agree. destruct (hint t); auto.
  - exfalso. apply F. reflexivity.
Qed.
Print Assumptions c28_add_idempotent.
(** commutative, but for two unhinted types with different powers of percent *)
Theorem c28_add_comm_partial : forall o a b, some_order o -> good a -> good b ->
  dget (pw a) percent = None \/ dget (pw b) percent = None \/ pget a percent = pget b percent ->
  oteq (add_types o a b) (add_types o b a).
Proof.
  intros o a b O A B P.
  assert (J : hints_agree a b -> joint a b = joint b a) by (unfold hints_agree, joint; destruct (hint a), (hint b); congruence).
  assert (S : forall x y, hints_agree x y -> hints_agree y x) by (intros x y; unfold hints_agree; destruct (hint x), (hint y); congruence).
  assert (MS : forall x y k, made_up x y k -> made_up y x k) by (intros x y k (M1 & M2 & M3 & M4); repeat split; auto; intros; symmetry; auto).
  assert (Def : forall x y, good x -> good y -> (exists c, add_types o x y = Some c) -> exists c, add_types o y x = Some c).
  { intros x y Gx Gy H. apply (c28_add_defined o x y O Gx Gy) in H as (H & h & H1 & H2 & H3). apply (c28_add_defined o y x O Gy Gx). split; [now apply S|].
    exists h. split; [|split; [exact H2|intros k Hk; symmetry; now apply H3]]. unfold hints_agree, joint in *. destruct (hint x), (hint y); auto. subst. auto. }
  destruct (add_spec o a b O A B) as [(c & E & H & G & C)|[E F]]; destruct (add_spec o b a O B A) as [(d & E' & H' & K & D)|[E' F']]; rewrite E, E'; try exact I.
  - specialize (J H). rewrite <- J in D.
    destruct C as [(C1 & C2 & C3 & C4)|(Jn & k & C1 & M & C3 & C4)], D as [(D1 & D2 & D3 & D4)|(Jn' & k' & D1 & M' & D3 & D4)].
    + apply good_teq; auto; [congruence| |].
      * intros k Hk. rewrite C3, D3 by exact Hk. now apply C2.
      * rewrite C4, D4. destruct (joint a b); [reflexivity|]. unfold pget in *. destruct (dget (pw a) percent), (dget (pw b) percent); try reflexivity; destruct P as [P|[P|P]]; congruence.
    + exfalso. destruct M' as (Bk & N & _). apply N. specialize (C2 k' Bk). rewrite Jn' in C2. unfold resolved in C2. lia.
    + exfalso. destruct M as (Bk & N & _). apply N. specialize (D2 k Bk). rewrite Jn in D2. unfold resolved in D2. lia.
    + assert (X := made_up_unique a b k k' M (MS _ _ _ M')). subst k'. apply good_teq; auto; [congruence| |congruence]. intros j Hj. rewrite C3, D3 by exact Hj.
      destruct M as (Bk & N & R & Oth). destruct (text_eqb_spec k j) as [<-|Nj]; [exact R|]. unfold resolved. destruct (text_eqb_spec k j); [contradiction|]. rewrite Oth by auto. reflexivity.
  - destruct (Def a b A B) as [x X]; [eauto|]. congruence.
  - destruct (Def b a B A) as [x X]; [eauto|]. congruence.
Qed.
Print Assumptions c28_add_comm_partial.
Example c28_add_comm_case : good px /\ good pct /\ dget (pw px) percent = None /\ add_types base_keys px pct <> None.
Proof. repeat split; try apply px_good; try apply pct_good. discriminate. Qed.
(** percent plus 1/percent *)
Theorem c28_add_comm_refuted : exists a b x y, good a /\ good b /\ b = invert_type a /\
  add_types base_keys a b = Some x /\ add_types base_keys b a = Some y /\ ~ teq x y.
Proof.
  exists pct, (invert_type pct). do 2 eexists. split; [exact pct_good|]. split; [apply invert_good; [exact pct_good|reflexivity]|]. split; [reflexivity|].
  split; [reflexivity|]. split; [reflexivity|]. intros [H _]. specialize (H percent). vm_compute in H. discriminate.
Qed.
Print Assumptions c28_add_comm_refuted.
(** a number plus a percentage is accepted, as is a percentage plus one over a percentage *)
Theorem c28_add_percent_refuted : exists x y, add_types base_keys number pct = Some x /\ pget x percent <> pget number percent /\
  add_types base_keys pct (invert_type pct) = Some y.
Proof. do 2 eexists. split; [reflexivity|]. split; [discriminate|reflexivity]. Qed.
Print Assumptions c28_add_percent_refuted.

(** inversion negates the powers, and twice restores the type, if not hinted *)
Theorem c28_invert_twice_partial : forall t, hint t = None -> teq (invert_type (invert_type t)) t /\ (forall k, pget (invert_type t) k = - pget t k).
Proof.
  intros t H. split; [|intros k; apply invert_pget]. split; [intros k; rewrite !invert_pget; lia|]. unfold invert_type. cbn [hint]. rewrite H. reflexivity.
Qed.
Print Assumptions c28_invert_twice_partial.
Theorem c28_invert_hint_refuted : exists t, good t /\ hint (invert_type t) = Some [] /\ ~ good (invert_type t) /\ ~ teq (invert_type (invert_type t)) t.
Proof.
  exists px_or_pct. split; [exact px_or_pct_good|]. split; [reflexivity|]. split.
  - intros (_ & _ & [H _]). vm_compute in H. repeat (destruct H as [H|H]; [discriminate H|]). exact H.
  - intros [_ H]. discriminate H.
Qed.
Print Assumptions c28_invert_hint_refuted.
(** a type times its inverse has no powers left, but for percent *)
Theorem c28_invert_cancels : forall t, good t -> hint t = None -> exists c, multiply_types t (invert_type t) = Some c /\
  hint c = None /\ forall k, In k base_keys -> pget c k = 0.
Proof.
  intros t G H. assert (HI : hint (invert_type t) = None) by (unfold invert_type; cbn [hint]; rewrite H; reflexivity).
  assert (A : hints_agree t (invert_type t)) by (unfold hints_agree; rewrite H; exact I). assert (J : joint t (invert_type t) = None) by (unfold joint; rewrite H; exact HI).
  destruct (mul_spec t _ G (invert_good t G H) A) as (c & E & _ & C1 & C2 & _). exists c. split; [exact E|]. rewrite J in *. split; [exact C1|].
  intros k K. rewrite C2 by exact K. unfold resolved. rewrite invert_pget. lia.
Qed.
Print Assumptions c28_invert_cancels.
Example c28_invert_case : good hz /\ hint hz = None /\ multiply_types hz (invert_type hz) = Some (mkT [(frequency, 0)] None).
Proof. split; [exact hz_good|]. split; reflexivity. Qed.

(** every known unit has one dimension, in any letter case *)
Theorem c28_unit_type : forall u, match create_type u with
  | Ok t => t = number \/ exists k, In k (percent :: base_keys) /\ t = mkT [(k, 1)] None
  | Err e => e = ValueError
  end /\ create_type (lower u) = create_type u.
Proof.
  intros u. split; [|unfold create_type; now rewrite lower_lower]. unfold create_type.
  repeat match goal with |- match (if ?x then _ else _) with _ => _ end => destruct x; [first [now left|right; eexists; split; [|reflexivity]; cbn [In base_keys]; tauto]|] end.
  reflexivity.
Qed.
Print Assumptions c28_unit_type.
Example c28_unit_type_case : create_type (lit "PX") = Ok px /\ create_type (lit "furlong") = Err ValueError. Proof. split; reflexivity. Qed.

(** making an expression does not change the types of the others, unless it is
    an inversion *)
Theorem c28_types_kept_partial : forall o w op w', make o w op = Ok w' -> match op with MkInvert _ => False | _ => True end ->
  forall n t, type_at w n = Some t -> type_at w' n = Some t.
Proof.
  assert (Ext : forall (h : list ntype) ns h' a n t, type_at (mkW h ns) n = Some t -> type_at (mkW (h ++ h') (ns ++ [a])) n = Some t).
  { intros h ns h' a n t. unfold type_at. cbn [nodes heap]. destruct (nth_error ns n) as [b|] eqn:E; [|discriminate]. intros H.
    rewrite nth_error_app1 by (apply nth_error_Some; congruence). rewrite E. rewrite nth_error_app1 by (apply nth_error_Some; congruence). exact H. }
  intros o [h ns] op w' E Ni n t T. destruct op as [u|m args|a|a]; cbn [make nodes heap] in E; [| | |contradiction].
  - destruct (create_type u) as [t'|]; [|discriminate]. cbn [bind] in E. injection E as <-. now apply Ext.
  - destruct args as [|x [|y args]]; [discriminate| |].
    + destruct (nth_error ns x) as [a|]; [|discriminate]. injection E as <-. rewrite <- (app_nil_r h). now apply Ext.
    + destruct (types_of _ _) as [[|t1 ts]|]; try discriminate. destruct (fold_types o m t1 ts); [|discriminate]. injection E as <-. now apply Ext.
  - destruct (nth_error ns a) as [b|]; [|discriminate]. injection E as <-. rewrite <- (app_nil_r h). now apply Ext.
Qed.
Print Assumptions c28_types_kept_partial.
(** an inversion also inverts the type of its argument, and of every expression
    that shares that type *)
Theorem c28_invert_changes : forall o w n w', make o w (MkInvert n) = Ok w' ->
  forall j a, nth_error (nodes w) j = Some a ->
    type_at w' j = (if match nth_error (nodes w) n with Some b => Nat.eqb b a | None => false end
                    then match type_at w j with Some t => Some (invert_type t) | None => None end else type_at w j).
Proof.
  assert (SN : forall (A : Type) (l : list A) n x j, nth_error (set_nth l n x) j = if Nat.eqb n j then match nth_error l j with Some _ => Some x | None => None end else nth_error l j).
  { intros A l. induction l as [|y l IH]; intros n x j; [destruct n, j; cbn; try reflexivity; destruct (Nat.eqb n j); reflexivity|].
    destruct n, j; cbn; try reflexivity. apply IH. }
  intros o [h ns] n w' E j a Ha. cbn [make nodes heap] in *. destruct (nth_error ns n) as [b|] eqn:En; [|discriminate].
  destruct (nth_error h b) as [t|] eqn:Eb; [|discriminate]. injection E as <-. unfold type_at. cbn [nodes heap].
  rewrite nth_error_app1 by (apply nth_error_Some; congruence). rewrite Ha, SN. destruct (Nat.eqb_spec b a) as [->|]; [|reflexivity]. rewrite Eb. reflexivity.
Qed.
Print Assumptions c28_invert_changes.
Definition run (o : list text) (l : list mop) : result world := fold_left (fun r op => do w <- r; make o w op) l (Ok (mkW [] [])).
(** after inverting a length, the length itself has the type of an inverse *)
Theorem c28_types_kept_refuted : exists w1 w2, run base_keys [MkUnit (lit "px")] = Ok w1 /\ make base_keys w1 (MkInvert 0%nat) = Ok w2 /\
  type_at w1 0 = Some px /\ type_at w2 0 = Some (mkT [(length_, -1)] None).
Proof. do 2 eexists. split; [reflexivity|]. split; [reflexivity|]. split; reflexivity. Qed.
Print Assumptions c28_types_kept_refuted.
Example c28_types_kept_case : exists w, run base_keys [MkUnit (lit "px"); MkUnit (lit "em"); MkMany MSum [0%nat; 1%nat]; MkUnit (lit "percent"); MkMany MSum [2%nat; 3%nat]] = Ok w /\
  type_at w 4 = Some (mkT [(length_, 1)] (Some length_)) /\ type_at w 2 = Some px.
Proof. eexists. split; [reflexivity|]. split; reflexivity. Qed.
(** the type of a new sum, product, minimum or maximum: the arguments' types added or multiplied *)
Theorem c28_new_type : forall o w m n ns t ts, types_of w (n :: ns) = Some (t :: ts) -> ns <> [] ->
  match fold_types o m t ts with
  | Some t' => exists w', make o w (MkMany m (n :: ns)) = Ok w' /\ type_at w' (length (nodes w)) = Some t'
  | None => make o w (MkMany m (n :: ns)) = Err ValueError
  end.
Proof.
  intros o [h nd] m n ns t ts T N. destruct ns as [|x ns]; [congruence|]. cbn [make]. rewrite T.
  destruct (fold_types o m t ts); [|reflexivity]. eexists. split; [reflexivity|]. unfold type_at. cbn [nodes heap].
  rewrite nth_error_app2, Nat.sub_diag by apply le_n. cbn. rewrite nth_error_app2, Nat.sub_diag by apply le_n. reflexivity.
Qed.
Print Assumptions c28_new_type.
Example c28_new_type_case : exists w, run base_keys [MkUnit (lit "px"); MkUnit (lit "em")] = Ok w /\ types_of w [0%nat; 1%nat] = Some [px; px].
Proof. eexists. split; reflexivity. Qed.

(** the type of a number with a unit: the unit's group, to the power 1 *)
Theorem c28_unit_types : forall u,
  let group l k := In (lower u) l -> create_type u = Ok (mkT [(k, 1)] None) in
  group [lit "em"; lit "ex"; lit "ch"; lit "ic"; lit "rem"; lit "lh"; lit "rlh"; lit "vw"; lit "vh"; lit "vi"; lit "vb"; lit "vmin"; lit "vmax";
         lit "cm"; lit "mm"; lit "q"; lit "in"; lit "pt"; lit "pc"; lit "px"] (lit "length") /\
  group [lit "deg"; lit "grad"; lit "rad"; lit "turn"] (lit "angle") /\
  group [lit "s"; lit "ms"] (lit "time") /\
  group [lit "hz"; lit "khz"] (lit "frequency") /\
  group [lit "dpi"; lit "dpcm"; lit "dppx"] (lit "resolution") /\
  group [lit "fr"] (lit "flex") /\
  group [lit "percent"] (lit "percent") /\
  (lower u = lit "number" -> create_type u = Ok (mkT [] None)).
Proof.
  intros u group. unfold group, create_type. generalize (lower u). intros w.
  repeat (split; [intros H; repeat (destruct H as [<-|H]; [reflexivity|]); destruct H|]). intros ->. reflexivity.
Qed.
Print Assumptions c28_unit_types.
Example c28_unit_types_case : create_type (lit "MS") = Ok (mkT [(lit "time", 1)] None) /\ create_type (lit "furlong") = Err ValueError.
Proof. split; reflexivity. Qed.
