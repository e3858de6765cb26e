From Coq Require Import NArith ZArith QArith Qabs Qfield Lia Lqa List.
From Verif Require Import PyBase MatrixModel PathModel LayoutModel MatrixSpec FtModel FtSpec.
Import ListNotations.
#[local] Open Scope Q_scope.

Lemma same_refl p : same p p. Proof. split; reflexivity. Qed.
Lemma same_sym p q : same p q -> same q p. Proof. intros [A B]; split; now symmetry. Qed.
Lemma same_trans p q r : same p q -> same q r -> same p r. Proof. intros [A B] [C D]; split; etransitivity; eauto. Qed.
Lemma apply_same m p q : same p q -> same (ft_apply m p) (ft_apply m q).
Proof. intros [A B]. split; cbn; now rewrite A, B. Qed.
Lemma dot_apply a b p : same (ft_apply (ft_dot a b) p) (ft_apply a (ft_apply b p)).
Proof. split; cbn; ring. Qed.

Lemma means_is o other m p m2 f : ft_do o other m p = Ok m2 ->
  means o (fun j => match other j with Ok x => Some (ft_apply x) | Err _ => None end) p = Some f ->
  same_map (ft_apply m2) (fun x => ft_apply m (f x)).
Proof.
  destruct p; cbn [ft_do means]; intros E M; try discriminate.
  - destruct (other j) as [b|]; [|discriminate]. cbn in E. injection E as <-. injection M as <-. intros x. apply dot_apply.
  - injection E as <-. injection M as <-. intros x. eapply same_trans; [apply dot_apply|]. apply apply_same. split; cbn; ring.
  - injection E as <-. injection M as <-. intros p. eapply same_trans; [apply dot_apply|]. apply apply_same. split; cbn; ring.
  - injection E as <-. injection M as <-. intros x. eapply same_trans; [apply dot_apply|]. apply apply_same. split; cbn; ring.
  - injection E as <-. injection M as <-. intros x. eapply same_trans; [apply dot_apply|]. apply apply_same. split; cbn; ring.
  - injection E as <-. injection M as <-. intros x. eapply same_trans; [apply dot_apply|]. apply apply_same. split; cbn; ring.
  - injection E as <-. injection M as <-. intros x. eapply same_trans; [apply dot_apply|]. apply apply_same. split; cbn; ring.
Qed.

(** ** Objects *)
Lemma put_length h : forall i m, length (put h i m) = length h.
Proof. induction h as [|x h IH]; intros [|i] m; cbn; auto. Qed.
Lemma put_same h : forall i m, (i < length h)%nat -> nth_error (put h i m) i = Some m.
Proof. induction h as [|x h IH]; intros [|i] m L; cbn in *; try lia; auto. apply IH. lia. Qed.
Lemma put_other h : forall i j m, i <> j -> nth_error (put h i m) j = nth_error h j.
Proof. induction h as [|x h IH]; intros [|i] [|j] m N; cbn; auto; try congruence. Qed.
Lemma call_length o h c h2 i : ft_call o h c = Ok (h2, i) -> (length h <= length h2)%nat /\ (i < length h2)%nat.
Proof.
  destruct c; cbn [ft_call]; intros E.
  - injection E as <- <-. rewrite app_length. cbn. lia.
  - injection E as <- <-. rewrite app_length. cbn. lia.
  - destruct (ft_from_array l); [|discriminate]. injection E as <- <-. rewrite app_length. cbn. lia.
  - unfold ft_at at 1 in E. destruct (nth_error h i0) eqn:N; [|discriminate]. cbn [bind] in E. destruct (ft_do o (ft_at h) f p); [|discriminate]. injection E as <- <-.
    rewrite put_length. split; [lia|]. apply nth_error_Some. congruence.
  - unfold ft_at at 1 in E. destruct (nth_error h i0) eqn:N; [|discriminate]. cbn [bind] in E. destruct (ft_do o (ft_at h) f p); [|discriminate]. injection E as <- <-.
    rewrite app_length. cbn. lia.
Qed.
Lemma step_other o h c i m : nth_error h i = Some m -> ~ changes i c -> nth_error (ft_step o h c) i = Some m.
Proof.
  intros N C. assert (L : (i < length h)%nat) by (apply nth_error_Some; congruence). unfold ft_step. destruct c; cbn [ft_call].
  - now rewrite nth_error_app1.
  - now rewrite nth_error_app1.
  - destruct (ft_from_array l); cbn; [now rewrite nth_error_app1|exact N].
  - destruct (ft_at h i0) as [x|]; cbn [bind]; [|exact N]. destruct (ft_do o (ft_at h) x p); cbn [bind]; [|exact N].
    rewrite put_other; [exact N|]. intros ->. apply C. now exists p.
  - destruct (ft_at h i0) as [x|]; cbn [bind]; [|exact N]. destruct (ft_do o (ft_at h) x p); cbn [bind]; [|exact N]. now rewrite nth_error_app1.
Qed.
Lemma run_other o l : forall h i m, nth_error h i = Some m -> (forall c, In c l -> ~ changes i c) -> nth_error (fold_left (ft_step o) l h) i = Some m.
Proof. induction l as [|c l IH]; intros h i m N C; [exact N|]. cbn [fold_left]. apply IH; [apply step_other; [exact N|apply C; now left]|]. intros d D. apply C. now right. Qed.

Lemma do_ok o h m p f : means o (map_at h) p = Some f -> exists m2, ft_do o (ft_at h) m p = Ok m2 /\ same_map (ft_apply m2) (fun x => ft_apply m (f x)).
Proof.
  intros M. assert (G : means o (fun j => match ft_at h j with Ok x => Some (ft_apply x) | Err _ => None end) p = Some f).
  { destruct p; try exact M. cbn [means] in *. unfold map_at, ft_at in *. destruct (nth_error h j); [exact M|discriminate M]. }
  assert (X : exists m2, ft_do o (ft_at h) m p = Ok m2).
  { destruct p; cbn in *; try discriminate; try (eexists; reflexivity). destruct (ft_at h j); [|discriminate]. eexists; reflexivity. }
  destruct X as (m2 & E). exists m2. split; [exact E|]. exact (means_is o (ft_at h) m p m2 f E G).
Qed.
Lemma history o l : forall h i m f, nth_error h i = Some m -> all_mean o (fun j => if Nat.eqb j i then None else map_at h j) l = Some f ->
  exists m2, nth_error (fold_left (ft_step o) (map (Change i) l) h) i = Some m2 /\ same_map (ft_apply m2) (fun x => ft_apply m (f x)).
Proof.
  induction l as [|p l IH]; intros h i m f N E.
  - injection E as <-. exists m. split; [exact N|]. intros x. apply same_refl.
  - cbn [all_mean] in E. destruct (means _ _ p) as [g|] eqn:G; [|discriminate]. destruct (all_mean o (fun j => if Nat.eqb j i then None else map_at h j) l) as [k|] eqn:K in E; [|discriminate]. injection E as <-.
    assert (G2 : means o (map_at h) p = Some g) by (destruct p; cbn [means] in *; try exact G; destruct (Nat.eqb j i); [discriminate|exact G]).
    destruct (do_ok o h m p g G2) as (m1 & E1 & S1). cbn [map fold_left].
    assert (H1 : ft_step o h (Change i p) = put h i m1) by (unfold ft_step; cbn [ft_call]; unfold ft_at at 1; rewrite N; cbn [bind]; rewrite E1; reflexivity).
    rewrite H1. assert (L : (i < length h)%nat) by (apply nth_error_Some; congruence).
    assert (K2 : all_mean o (fun j => if Nat.eqb j i then None else map_at (put h i m1) j) l = Some k).
    { rewrite <- K. clear - l. induction l as [|q l IH]; [reflexivity|]. cbn [all_mean]. rewrite IH. destruct q; try reflexivity. cbn [means].
      destruct (Nat.eqb j i) eqn:J; [reflexivity|]. apply Nat.eqb_neq in J. unfold map_at. now rewrite put_other by congruence. }
    destruct (IH (put h i m1) i m1 k (put_same h i m1 L) K2) as (m2 & E2 & S2). exists m2. split; [exact E2|]. intros x. eapply same_trans; [apply S2|apply S1].
Qed.

Lemma inv_ok m n : ft_inv m = Ok n -> same_map (fun p => ft_apply m (ft_apply n p)) (fun p => p) /\ same_map (fun p => ft_apply n (ft_apply m p)) (fun p => p).
Proof.
  unfold ft_inv. destruct (ft_det m =?q 0) eqn:D; [discriminate|]. intros [= <-].
  assert (Z : ~ ft_det m == 0) by (intros Z; apply Qeq_bool_iff in Z; congruence).
  unfold ft_det in *. split; intros p; split; cbn; field; exact Z.
Qed.

Lemma flat_det m : flattens (ft_apply m) <-> ft_det m == 0.
Proof.
  unfold ft_det. destruct m as [a b c d]. cbn [f00 f01 f10 f11]. split.
  - intros (p & N & [X Y]). cbn in X, Y. destruct (Qeq_dec (a * d - b * c) 0) as [E|E]; [exact E|]. exfalso. apply N.
    set (x := ptx p) in *. set (y := pty p) in *. split; cbn.
    + assert (W : (a * d - b * c) * x == 0) by (transitivity (d * (a * x + b * y) - b * (c * x + d * y)); [ring|rewrite X, Y; ring]).
      apply Qmult_integral in W. destruct W; [contradiction|assumption].
    + assert (W : (a * d - b * c) * y == 0) by (transitivity (a * (c * x + d * y) - c * (a * x + b * y)); [ring|rewrite X, Y; ring]).
      apply Qmult_integral in W. destruct W; [contradiction|assumption].
  - intros E. destruct (Qeq_dec a 0) as [A|A], (Qeq_dec b 0) as [B|B].
    + destruct (Qeq_dec c 0) as [C|C].
      * exists (P 1 0). split; [intros [X _]; cbn in X; discriminate|]. split; cbn; rewrite ?A, ?C; ring.
      * exists (P (- d) c). split; [intros [_ Y]; cbn in Y; contradiction|]. split; cbn; rewrite ?A, ?B; ring.
    + exists (P b (- a)). split; [intros [X _]; cbn in X; contradiction|]. split; cbn; [ring|]. lra.
    + exists (P b (- a)). split; [intros [_ Y]; cbn in Y; apply A; rewrite <- (Qopp_involutive a), Y; reflexivity|]. split; cbn; [ring|]. lra.
    + exists (P b (- a)). split; [intros [X _]; cbn in X; contradiction|]. split; cbn; [ring|]. lra.
Qed.
Lemma inv_err m : (exists e, ft_inv m = Err e) <-> ft_det m == 0.
Proof.
  unfold ft_inv. destruct (Qeq_bool (ft_det m) 0) eqn:D.
  - apply Qeq_bool_iff in D. split; [auto|intros _; eexists; reflexivity].
  - split; [intros (e & E); discriminate|]. intros E. apply Qeq_bool_iff in E. congruence.
Qed.
