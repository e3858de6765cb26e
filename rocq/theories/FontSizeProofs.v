(** Proofs about font sizes and weights. *)
From Coq Require Import Qpower Qminmax.
From Verif Require Import PyBase PyText PySplit PyInt FontSizeModel FontSizeSpec.
#[local] Open Scope Q_scope.

Lemma at_least_min x : 10 <= at_least x. Proof. unfold at_least. destruct (Qltb_spec x 10); lra. Qed.
Lemma at_least_ge x : x <= at_least x. Proof. unfold at_least. destruct (Qltb_spec x 10); lra. Qed.
Lemma at_least_id x : 10 <= x -> at_least x = x. Proof. unfold at_least. destruct (Qltb_spec x 10); [lra|reflexivity]. Qed.
Lemma at_least_mono x y : x <= y -> at_least x <= at_least y.
Proof. unfold at_least. intros. destruct (Qltb_spec x 10), (Qltb_spec y 10); lra. Qed.
Lemma at_least_max x : (at_least x == 10 /\ x < 10) \/ (at_least x = x /\ 10 <= x).
Proof. unfold at_least. destruct (Qltb_spec x 10); [left|right]; split; try lra; reflexivity. Qed.

Lemma at_least_qmax x : at_least x == Qmax 10 x.
Proof. unfold at_least. destruct (Qltb_spec x 10) as [H|H]; [symmetry; apply Q.max_l; lra|symmetry; apply Q.max_r; lra]. Qed.
Lemma relative_size_iff v : relative_size v = true <-> relative_size_word v.
Proof. unfold relative_size, relative_size_word. rewrite mem_in. cbn [In]. intuition congruence. Qed.
Lemma relative_weight_iff v : relative_weight v = true <-> relative_weight_word v.
Proof. unfold relative_weight, relative_weight_word. rewrite mem_in. cbn [In]. intuition congruence. Qed.

(** ** Absolute sizes *)
Lemma size_min d len v l i px : compute_font_size d len v l i = Ok px -> 10 <= px.
Proof.
  unfold compute_font_size, absolute_size. destruct (relative_size v).
  - destruct (size_walk _ _ _ _) as [s|]; [|discriminate]. cbn [bind]. intros [= <-]. apply at_least_min.
  - destruct (match keyword_size d v with Some px => Ok px | None => len v end) as [s|]; [|discriminate]. cbn [bind]. intros [= <-]. apply at_least_min.
Qed.
Definition column (i : nat) (d : Q) : Q :=
  if (9 <=?q d) && (d <=?q 16) then nth i (nth (Z.to_nat (trunc (d - 9))) quirks_table []) 0
  else nth i [3#5; 3#4; 8#9; 1; 6#5; 3#2; 2] 0 * d.
Lemma keyword_column d i k : nth_error size_keywords i = Some k -> keyword_size d k = Some (column i d) /\ relative_size k = false.
Proof.
  intros E. unfold keyword_size, column. destruct i as [|[|[|[|[|[|[|i]]]]]]]; try (destruct i; discriminate E); injection E as <-; split; reflexivity.
Qed.
Lemma row_bound d : 9 <= d -> d <= 16 -> (Z.to_nat (trunc (d - 9)) < 8)%nat.
Proof.
  intros A B. unfold trunc. remember (d - 9) as x eqn:E. assert (0 <= x <= 7) by (subst; split; lra). clear E A B d. destruct H as [A B].
  unfold Qle in *. cbn in A, B. rewrite Z.quot_div_nonneg by lia. assert (Qnum x / Zpos (Qden x) <= 7)%Z by (apply Z.div_le_upper_bound; lia). lia.
Qed.
Lemma table_sorted : forallb (fun row => forallb (fun i => Qle_bool (nth i row 0) (nth (S i) row 0)) (seq 0 6)) quirks_table = true.
Proof. vm_compute. reflexivity. Qed.
Lemma column_step i d : (i < 6)%nat -> at_least (column i d) <= at_least (column (S i) d).
Proof.
  intros Hi. unfold column. destruct (Qleb_spec 9 d) as [A|A]; [destruct (Qleb_spec d 16) as [B|B]|]; cbn [andb].
  - apply at_least_mono. assert (R := row_bound d A B). assert (H := table_sorted). rewrite forallb_forall in H.
    specialize (H (nth (Z.to_nat (trunc (d - 9))) quirks_table [])). rewrite forallb_forall in H. apply Qle_bool_iff. apply H; [apply nth_In; exact R|apply in_seq; lia].
  - apply at_least_mono. destruct i as [|[|[|[|[|[|i]]]]]]; cbn [nth]; try lra; lia.
  - assert (C : d < 0 \/ 0 <= d) by lra. destruct C as [C|C].
    + assert (G : forall j, (j < 7)%nat -> at_least (nth j [3#5; 3#4; 8#9; 1; 6#5; 3#2; 2] 0 * d) = 10).
      { intros j Hj. unfold at_least. destruct (Qltb_spec (nth j [3#5; 3#4; 8#9; 1; 6#5; 3#2; 2] 0 * d) 10) as [|N]; [reflexivity|]. exfalso. apply N.
        destruct j as [|[|[|[|[|[|[|j]]]]]]]; cbn [nth]; try lra; lia. }
      rewrite !G by lia. lra.
    + apply at_least_mono. destruct i as [|[|[|[|[|[|i]]]]]]; cbn [nth]; try lra; lia.
Qed.
Lemma column_mono d i j : (i <= j)%nat -> (j <= 6)%nat -> at_least (column i d) <= at_least (column j d).
Proof.
  induction 1 as [|j H IH]; intros B; [lra|]. apply Qle_trans with (at_least (column j d)); [apply IH; lia|apply column_step; lia].
Qed.
Lemma size_absolute d len v l i : relative_size v = false -> compute_font_size d len v l i = absolute_size d len v.
Proof. intros E. unfold compute_font_size. now rewrite E. Qed.

(** ** Relative sizes *)
Lemma size_walk_app d f a : forall b s, size_walk d f (a ++ b) s = do s <- size_walk d f a s; size_walk d f b s.
Proof.
  induction a as [|n a IH]; intros b s; [reflexivity|]. cbn [app size_walk]. destruct (f_attr n) as [v|]; [|apply IH].
  destruct (relative_size v); [apply IH|]. destruct (absolute_size d (f_len n) v); [apply IH|reflexivity].
Qed.
Definition shifts (l : list fnode) : nat := length (filter (fun n => match f_attr n with Some _ => true | None => false end) l).
Lemma size_walk_shift d f l : ~ f == 0 -> Forall size_shift l -> forall s, exists r, size_walk d f l s = Ok r /\ r == s * Qpower f (Z.of_nat (shifts l)).
Proof.
  intros N0. induction 1 as [|n l H F IH]; intros s.
  - exists s. split; [reflexivity|]. cbn. ring.
  - cbn [size_walk]. unfold shifts, size_shift in *. cbn [filter]. destruct (f_attr n) as [v|]; [|apply IH].
    apply relative_size_iff in H. rewrite H. destruct (IH (s * f)) as (r & E & Er). exists r. split; [exact E|]. rewrite Er. cbn [length].
    rewrite Nat2Z.inj_succ, <- Z.add_1_r.
    rewrite Qpower_plus by exact N0. change (Qpower f 1) with f. ring.
Qed.
Lemma shifts_rev l : shifts (rev l) = shifts l.
Proof.
  unfold shifts. induction l as [|x l IH]; [reflexivity|]. cbn [rev filter]. rewrite filter_app, app_length, IH. cbn [filter].
  destruct (f_attr x); cbn [length]; lia.
Qed.
Definition size_factor (v : text) : Q := if text_eqb v (lit "larger") then 6#5 else 5#6.
Lemma factor_ne v : ~ size_factor v == 0.
Proof. unfold size_factor. destruct (text_eqb v _); discriminate. Qed.
Lemma at_least_eq x y : x == y -> at_least x == at_least y.
Proof. unfold at_least. intros. destruct (Qltb_spec x 10), (Qltb_spec y 10); lra. Qed.
Lemma size_relative d len v near n far w i px : relative_size_word v -> Forall size_shift near -> f_attr n = Some w -> ~ relative_size_word w ->
  compute_font_size d len v (near ++ n :: far) i = Ok px ->
  exists base, absolute_size d (f_len n) w = Ok base /\ px == at_least (base * Qpower (size_factor v) (Z.of_nat (shifts near))).
Proof.
  intros R F A N. apply relative_size_iff in R. unfold compute_font_size. rewrite R. fold (size_factor v). rewrite rev_app_distr. cbn [rev]. rewrite <- app_assoc.
  rewrite size_walk_app. destruct (size_walk d (size_factor v) (rev far) _) as [s|]; [|discriminate]. cbn [bind app size_walk]. rewrite A.
  destruct (relative_size w) eqn:Rw; [apply relative_size_iff in Rw; contradiction|]. destruct (absolute_size d (f_len n) w) as [b|]; [|discriminate]. cbn [bind].
  destruct (size_walk_shift d (size_factor v) (rev near) (factor_ne v)) with (s := b) as (r & E & Er); [now apply Forall_rev|]. rewrite E. cbn [bind]. intros [= <-].
  exists b. split; [reflexivity|]. rewrite shifts_rev in Er. now apply at_least_eq.
Qed.
Lemma size_relative_default d len v near i : relative_size_word v -> Forall size_shift near ->
  exists px, compute_font_size d len v near i = Ok px /\ px == at_least (match i with Some s => s | None => d end * Qpower (size_factor v) (Z.of_nat (shifts near))).
Proof.
  intros R F. apply relative_size_iff in R. unfold compute_font_size. rewrite R. fold (size_factor v).
  destruct (size_walk_shift d (size_factor v) (rev near) (factor_ne v)) with (s := match i with Some s => s | None => d end) as (r & E & Er); [now apply Forall_rev|].
  rewrite E. cbn [bind]. eexists. split; [reflexivity|]. rewrite shifts_rev in Er. now apply at_least_eq.
Qed.
Lemma power_ge n : 1 <= Qpower (6#5) (Z.of_nat n).
Proof.
  induction n as [|n IH]; [cbn; lra|]. rewrite Nat2Z.inj_succ, <- Z.add_1_r, Qpower_plus by (intros H; discriminate). change (Qpower (6#5) 1) with (6#5). lra.
Qed.
Lemma power_le n : 0 <= Qpower (5#6) (Z.of_nat n) <= 1.
Proof.
  induction n as [|n IH]; [cbn; lra|]. rewrite Nat2Z.inj_succ, <- Z.add_1_r, Qpower_plus by (intros H; discriminate). change (Qpower (5#6) 1) with (5#6). lra.
Qed.

(** ** Interpolation *)
Fixpoint points_ok (p : Q * Q) (pts : list (Q * Q)) : Prop :=
  match pts with [] => True | q :: r => fst p < fst q /\ snd p <= snd q /\ points_ok q r end.
Lemma seg_mid p q x : fst p < fst q -> fst p <= x -> x <= fst q -> exists t, 0 <= t /\ t <= 1 /\
  x == fst p + t * (fst q - fst p) /\ snd p + (snd q - snd p) / (fst q - fst p) * (x - fst p) == snd p + t * (snd q - snd p).
Proof.
  intros L A B. exists ((x - fst p) / (fst q - fst p)). assert (N : ~ fst q - fst p == 0) by lra. assert (P : 0 < fst q - fst p) by lra. split; [|split; [|split]].
  - apply Qle_shift_div_l; lra.
  - apply Qle_shift_div_r; lra.
  - field. exact N.
  - field. exact N.
Qed.
Fixpoint final (p : Q * Q) (pts : list (Q * Q)) : Q := match pts with [] => fst p | q :: r => final q r end.
Lemma seg_above pts : forall p x, points_ok p pts -> fst p <= snd p -> Forall (fun q => fst q <= snd q) pts -> fst p <= x -> x <= final p pts -> x <= interp_seg x p pts.
Proof.
  induction pts as [|q r IH]; intros p x O Hp F A B; [cbn in *; lra|]. cbn [points_ok interp_seg final] in *. destruct O as (L & M & O). inversion F as [|? ? Hq Fr]; subst.
  destruct (Qltb_spec x (fst q)) as [C|C]; [|apply IH; auto; lra].
  destruct (seg_mid p q x L A) as (t & T0 & T1 & E1 & E2); [lra|]. rewrite E2. rewrite E1 at 1. nra.
Qed.
Lemma seg_below pts : forall p x, points_ok p pts -> snd p <= fst p -> Forall (fun q => snd q <= fst q) pts -> fst p <= x -> interp_seg x p pts <= x.
Proof.
  induction pts as [|q r IH]; intros p x O Hp F A; [cbn in *; lra|]. cbn [points_ok interp_seg] in *. destruct O as (L & M & O). inversion F as [|? ? Hq Fr]; subst.
  destruct (Qltb_spec x (fst q)) as [C|C]; [|apply IH; auto; lra].
  destruct (seg_mid p q x L A) as (t & T0 & T1 & E1 & E2); [lra|]. rewrite E2. rewrite E1 at 1. nra.
Qed.
Lemma seg_range pts lo hi : forall p x, points_ok p pts -> lo <= snd p <= hi -> Forall (fun q => lo <= snd q <= hi) pts -> fst p <= x -> lo <= interp_seg x p pts <= hi.
Proof.
  induction pts as [|q r IH]; intros p x O Hp F A; [exact Hp|]. cbn [points_ok interp_seg] in *. destruct O as (L & M & O). inversion F as [|? ? Hq Fr]; subst.
  destruct (Qltb_spec x (fst q)) as [C|C]; [|apply IH; auto; lra].
  destruct (seg_mid p q x L A) as (t & T0 & T1 & E1 & E2); [lra|]. rewrite E2. split; nra.
Qed.
Lemma seg_low pts : forall p x, points_ok p pts -> fst p <= x -> snd p <= interp_seg x p pts.
Proof.
  induction pts as [|q r IH]; intros p x O A; [cbn; lra|]. cbn [points_ok interp_seg] in *. destruct O as (L & M & O).
  destruct (Qltb_spec x (fst q)) as [C|C]; [|apply Qle_trans with (snd q); [exact M|apply IH; auto; lra]].
  destruct (seg_mid p q x L A) as (t & T0 & T1 & E1 & E2); [lra|]. rewrite E2. nra.
Qed.
Lemma seg_mono pts : forall p x y, points_ok p pts -> fst p <= x -> x <= y -> interp_seg x p pts <= interp_seg y p pts.
Proof.
  induction pts as [|q r IH]; intros p x y O A B; [cbn; lra|]. cbn [points_ok interp_seg] in *. destruct O as (L & M & O).
  destruct (Qltb_spec x (fst q)) as [C|C], (Qltb_spec y (fst q)) as [D|D].
  - destruct (seg_mid p q x L A) as (t & T0 & T1 & E1 & E2); [lra|]. destruct (seg_mid p q y L) as (u & U0 & U1 & G1 & G2); [lra|lra|]. rewrite E2, G2.
    assert (t <= u). { assert (0 <= (u - t) * (fst q - fst p)) by lra. assert (0 < fst q - fst p) by lra. nra. } nra.
  - destruct (seg_mid p q x L A) as (t & T0 & T1 & E1 & E2); [lra|]. rewrite E2. assert (S := seg_low r q y O ltac:(lra)). nra.
  - lra.
  - apply IH; auto; lra.
Qed.
Lemma bolder_ok : points_ok (100, 400) (tl bolder_points). Proof. cbn. repeat split; lra. Qed.
Lemma lighter_ok : points_ok (100, 100) (tl lighter_points). Proof. cbn. repeat split; lra. Qed.
Lemma interp_mono p pts x y : points_ok p pts -> x <= y -> interp x (p :: pts) <= interp y (p :: pts).
Proof.
  intros O L. cbn [interp]. destruct (Qltb_spec x (fst p)) as [A|A], (Qltb_spec y (fst p)) as [B|B]; try lra.
  - apply seg_low; [exact O|lra].
  - apply seg_mono; [exact O|lra|exact L].
Qed.
Lemma interp_range p pts lo hi x : points_ok p pts -> lo <= snd p <= hi -> Forall (fun q => lo <= snd q <= hi) pts -> lo <= interp x (p :: pts) <= hi.
Proof. intros O H F. cbn [interp]. destruct (Qltb_spec x (fst p)) as [A|A]; [exact H|]. apply seg_range; auto; lra. Qed.
Lemma step_mono v x y : x <= y -> step_weight v x <= step_weight v y.
Proof. intros L. unfold step_weight. destruct (text_eqb v _); [apply (interp_mono _ _ x y bolder_ok L)|apply (interp_mono _ _ x y lighter_ok L)]. Qed.
Ltac points := repeat constructor; cbn; try lra.
Lemma step_range v x : 100 <= step_weight v x <= 900.
Proof.
  unfold step_weight. destruct (text_eqb v _); [apply (interp_range _ _ 100 900 x bolder_ok)|apply (interp_range _ _ 100 900 x lighter_ok)]; points.
Qed.
Lemma bolder_up x : x <= 900 -> x <= interp x bolder_points.
Proof.
  intros B. cbn [interp bolder_points]. destruct (Qltb_spec x (fst (100, 400))) as [A|A]; [cbn in *; lra|].
  apply seg_above; [apply bolder_ok|cbn; lra|points|cbn in *; lra|cbn; lra].
Qed.
Lemma lighter_down x : 100 <= x -> interp x lighter_points <= x.
Proof.
  intros B. cbn [interp lighter_points]. destruct (Qltb_spec x (fst (100, 100))) as [A|A]; [cbn in *; lra|].
  apply seg_below; [apply lighter_ok|cbn; lra|points|cbn in *; lra].
Qed.

(** ** Weights *)
Lemma step_nine v z : relative_weight_word v -> In z nine_weights -> step_weight v (inject_Z z) == inject_Z (shift_weight z v) /\ In (shift_weight z v) nine_weights.
Proof.
  intros [->| ->] I; destruct I as [<-|[<-|[<-|[<-|[<-|[<-|[<-|[<-|[<-|[]]]]]]]]]]; (split; [vm_compute; reflexivity|cbn; tauto]).
Qed.
Lemma interp_proper x y p pts : points_ok p pts -> x == y -> interp x (p :: pts) == interp y (p :: pts).
Proof. intros O E. apply Qle_antisym; apply interp_mono; auto; lra. Qed.
Lemma step_proper v x y : x == y -> step_weight v x == step_weight v y.
Proof. intros E. apply Qle_antisym; apply step_mono; lra. Qed.
Lemma weight_walk_app a : forall b w, weight_walk (a ++ b) w = do w <- weight_walk a w; weight_walk b w.
Proof.
  induction a as [|[v|] a IH]; intros b w; [reflexivity| |apply IH]. cbn [app weight_walk]. destruct (relative_weight v); [apply IH|].
  destruct (absolute_weight v); [apply IH|reflexivity].
Qed.
Definition words (l : list (option text)) : list text := flat_map (fun a => match a with Some v => [v] | None => [] end) l.
Lemma weight_walk_shift l : Forall weight_shift l -> forall z w, In z nine_weights -> w == inject_Z z ->
  exists r, weight_walk l w = Ok r /\ r == inject_Z (fold_left shift_weight (words l) z) /\ In (fold_left shift_weight (words l) z) nine_weights.
Proof.
  induction 1 as [|[v|] l H F IH]; intros z w I E; [exists w; auto| |].
  - cbn [weight_walk words flat_map app]. cbn [weight_shift] in H. assert (R := proj2 (relative_weight_iff v) H). rewrite R. destruct (step_nine v z H I) as [S I'].
    destruct (IH (shift_weight z v) (step_weight v w) I') as (r & A & B & C); [rewrite (step_proper v w _ E); exact S|]. exists r. cbn [fold_left]. auto.
  - cbn [weight_walk words flat_map app]. now apply IH.
Qed.
Lemma trunc_Z z : trunc (inject_Z z) = z. Proof. unfold trunc. cbn. apply Z.quot_1_r. Qed.
Lemma trunc_proper x y : x == y -> trunc x = trunc y.
Proof.
  unfold trunc, Qeq. intros E. destruct x as [a b], y as [c d]. cbn in *.
  assert (X : Z.quot (a * Zpos d) (Zpos b * Zpos d) = Z.quot a (Zpos b)) by (apply Z.quot_mul_cancel_r; lia).
  assert (Y : Z.quot (c * Zpos b) (Zpos d * Zpos b) = Z.quot c (Zpos d)) by (apply Z.quot_mul_cancel_r; lia).
  rewrite <- X, <- Y, E. f_equal. lia.
Qed.
Lemma words_rev l : words (rev l) = rev (words l).
Proof.
  induction l as [|x l IH]; [reflexivity|]. cbn [rev words flat_map]. unfold words in *. rewrite flat_map_app, IH, rev_app_distr. cbn [flat_map]. rewrite app_nil_r.
  f_equal. destruct x; reflexivity.
Qed.
Lemma weight_relative v near n far i w : relative_weight_word v -> Forall weight_shift near -> ~ relative_weight_word n ->
  (exists z0, absolute_weight n = Ok z0 /\ In z0 nine_weights) -> compute_font_weight v (near ++ Some n :: far) i = Ok w ->
  exists z0, absolute_weight n = Ok z0 /\ w = fold_left shift_weight (rev (words near)) z0 /\ In w nine_weights.
Proof.
  intros R F N (z0 & E0 & I0). apply relative_weight_iff in R. unfold compute_font_weight. rewrite R. rewrite rev_app_distr. cbn [rev]. rewrite <- app_assoc.
  rewrite weight_walk_app. destruct (weight_walk (rev far) _) as [s|]; [|discriminate]. cbn [bind app weight_walk].
  destruct (relative_weight n) eqn:Rw; [apply relative_weight_iff in Rw; contradiction|]. rewrite E0. cbn [bind].
  destruct (weight_walk_shift (rev near)) with (z := z0) (w := inject_Z z0) as (r & E & Er & Ir); [now apply Forall_rev|exact I0|reflexivity|].
  rewrite E. cbn [bind]. intros [= <-]. exists z0. split; [reflexivity|]. rewrite (trunc_proper _ _ Er), trunc_Z, words_rev in *. auto.
Qed.
Lemma weight_relative_default v near : relative_weight_word v -> Forall weight_shift near ->
  compute_font_weight v near None = Ok (fold_left shift_weight (rev (words near)) 400%Z).
Proof.
  intros R F. apply relative_weight_iff in R. unfold compute_font_weight. rewrite R.
  destruct (weight_walk_shift (rev near)) with (z := 400%Z) (w := 400) as (r & E & Er & _); [now apply Forall_rev|cbn; tauto|reflexivity|].
  rewrite E. cbn [bind]. now rewrite (trunc_proper _ _ Er), trunc_Z, words_rev.
Qed.
Lemma trunc_range x : 1 <= x -> x <= 1000 -> (1 <= trunc x <= 1000)%Z.
Proof.
  unfold trunc, Qle. destruct x as [a b]. cbn. intros A B. rewrite Z.quot_div_nonneg by lia. split; [apply Z.div_le_lower_bound|apply Z.div_le_upper_bound]; lia.
Qed.
Lemma weight_walk_range l : (forall v, In (Some v) l -> weight_ok v) -> forall w r, 1 <= w <= 1000 -> weight_walk l w = Ok r -> 1 <= r <= 1000.
Proof.
  induction l as [|[v|] l IH]; intros H w r W; cbn [weight_walk]; [intros [= <-]; exact W| |].
  - destruct (relative_weight v) eqn:R.
    + apply IH; [intros u J; apply H; now right|]. assert (S := step_range v w). lra.
    + destruct (absolute_weight v) as [z|] eqn:A; [|discriminate]. cbn [bind]. apply IH; [intros u J; apply H; now right|].
      destruct (H v (or_introl eq_refl)) as [X|(z' & X & B)]; [apply relative_weight_iff in X; congruence|]. rewrite A in X. injection X as <-.
      change 1 with (inject_Z 1) at 1. change 1000 with (inject_Z 1000). rewrite <- !Zle_Qle. exact B.
  - apply IH; [intros u J; apply H; now right|exact W].
Qed.
Lemma weight_range v l i w : weight_ok v -> (forall u, In (Some u) l -> weight_ok u) -> match i with Some x => 1 <= x <= 1000 | None => True end ->
  compute_font_weight v l i = Ok w -> (1 <= w <= 1000)%Z.
Proof.
  intros Hv H Hi. unfold compute_font_weight. destruct (relative_weight v) eqn:R.
  - destruct (weight_walk (rev l) _) as [r|] eqn:E; [|discriminate]. cbn [bind]. intros [= <-]. apply weight_walk_range in E.
    + apply trunc_range; lra.
    + intros u J. apply H. now apply in_rev.
    + destruct i; [exact Hi|lra].
  - intros E. destruct Hv as [X|(z & X & B)]; [apply relative_weight_iff in X; congruence|]. rewrite E in X. now injection X as ->.
Qed.
