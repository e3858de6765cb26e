(** C88: error bounds of long histories in closed form. *)
From Coq Require Import Qabs Qpower ZArith Lqa Lia Bool List.
From Verif Require Import PyBase RectModel MatrixModel MatrixSpec MatrixProofs FloatModel FloatSpec FloatProofs FloatProofs2 MatFloatModel MatFloatSpec MatFloatProofs MatFloatProofs2 MatFloatProps.
Import ListNotations.
#[local] Open Scope Q_scope.

Lemma grow_bound u n : 0 <= u -> grow u n * (1 - inject_Z (Z.of_nat n) * u) <= 1.
Proof.
  intros U. induction n as [|n IH]; [change (inject_Z (Z.of_nat 0)) with 0; cbn [grow]; lra|]. cbn [grow]. assert (G := grow_ge u n U). rewrite Nat2Z.inj_succ. unfold Z.succ. rewrite inject_Z_plus. change (inject_Z 1) with 1.
  set (k := inject_Z (Z.of_nat n)) in *. assert (K : 0 <= k) by (unfold k; change 0 with (inject_Z 0); rewrite <- Zle_Qle; lia). set (g := grow u n) in *. clearbody k g.
  assert (W : 0 <= g * ((k + 1) * (u * u))) by (repeat apply Qmult_le_0_compat; lra).
  assert (E : (1 + u) * g * (1 - (k + 1) * u) == g * (1 - k * u) - g * ((k + 1) * (u * u))) by ring. lra.
Qed.
Lemma sizes_positive rs : forall s, (forall r c, 0 <= entry s r c) -> forall r c, 0 <= entry (fold_left (fun a o => mat_mul a (msize (arr o))) rs s) r c.
Proof.
  induction rs as [|o rs IH]; intros s S; [exact S|]. cbn [fold_left]. apply IH. intros r c. rewrite entry_mul. unfold dot.
  assert (W : forall i, 0 <= entry s r i * entry (msize (arr o)) i c) by (intros i; apply Qmult_le_0_compat; [apply S|rewrite entry_size; apply Qabs_nonneg]).
  assert (W1 := W 1%nat). assert (W2 := W 2%nat). assert (W3 := W 3%nat). assert (W4 := W 4%nat). lra.
Qed.

(** After [n] products the error is at most 4nu / (1 - 4nu) of the sizes, while
    4nu is below 1: for floats, any two thousand million million products. *)
Theorem c88_history_bound f u pl rs m : rounding f u -> 0 <= u -> (forall c r, complete (pl c r)) ->
  let k := inject_Z (Z.of_nat (4 * length rs)) * u in k < 1 ->
  mnear (k / (1 - k)) (arr (fold_left (fmultiply_self f pl) rs m))
    (fold_left (fun a r => mat_mul a (arr r)) rs (arr m)) (fold_left (fun a r => mat_mul a (msize (arr r))) rs (msize (arr m))).
Proof.
  intros R U C k K r c. assert (H := c88_history f u pl rs m R U C r c). rewrite <- (grow_pow u (4 * length rs) U) in H.
  assert (P : 0 <= entry (fold_left (fun a r => mat_mul a (msize (arr r))) rs (msize (arr m))) r c) by (apply sizes_positive; intros; rewrite entry_size; apply Qabs_nonneg).
  set (s := entry (fold_left _ rs (msize (arr m))) r c) in *. assert (B := grow_bound u (4 * length rs) U). fold k in B. set (g := grow u (4 * length rs)) in *. clearbody s g k.
  apply (Qle_trans _ ((g - 1) * s)); [exact H|]. apply Qmult_le_compat_r; [|exact P]. apply Qle_shift_div_l; lra.
Qed.
Print Assumptions c88_history_bound.
(* a thousand products of floats are good to 12 digits, relative to the sizes *)
Example c88_history_bound_case : rounding fl ((1#2) ^ 53) /\ let k := inject_Z (Z.of_nat (4 * length (repeat (DM mat_id true) (Z.to_nat 1000)))) * (1#2) ^ 53 in k < 1 /\ k / (1 - k) <= 1 # 2000000000000.
Proof. split; [exact fl_rounding|]. rewrite repeat_length. split; vm_compute; [reflexivity|discriminate]. Qed.

Lemma sizes_bound rs : forall x s, (forall r c, Qabs (entry x r c) <= entry s r c) ->
  forall r c, Qabs (entry (fold_left (fun a o => mat_mul a (arr o)) rs x) r c) <= entry (fold_left (fun a o => mat_mul a (msize (arr o))) rs s) r c.
Proof.
  induction rs as [|o rs IH]; intros x s X; [exact X|]. cbn [fold_left]. apply IH. intros r c. rewrite !entry_mul. eapply Qle_trans; [apply dot_abs|].
  eapply Qle_trans; [apply (dot_le _ _ (entry s r)); [intros i; apply X|intros; apply Qabs_nonneg]|].
  rewrite (dot_ext (entry s r) (fun i => entry (msize (arr o)) i c) (entry s r) (fun i => Qabs (entry (arr o) i c))) by (intros; rewrite ?entry_size; reflexivity). apply Qle_refl.
Qed.
Lemma entry_column a p r : entry (mat_mul a (M4 p p p p)) r 1 = vget (mat_vec a p) r.
Proof. reflexivity. Qed.

(** A point drawn through a matrix made of [n] products, however its
    coordinates are added up, is off by at most k / (1 - k) of its size with
    k = 4(n+1)u. *)
Theorem c88_history_point f u pl pv rs m p : rounding f u -> 0 <= u -> (forall c r, complete (pl c r)) -> (forall r, complete (pv r)) ->
  let k := inject_Z (Z.of_nat (4 * S (length rs))) * u in k < 1 ->
  vnear (k / (1 - k)) (fmat_vec f pv (arr (fold_left (fmultiply_self f pl) rs m)) p)
    (mat_vec (fold_left (fun a r => mat_mul a (arr r)) rs (arr m)) p) (mat_vec (fold_left (fun a r => mat_mul a (msize (arr r))) rs (msize (arr m))) (vsize p)).
Proof.
  intros R U C D k K r.
  set (a := fold_left (fmultiply_self f pl) rs m). set (x := fold_left (fun a r => mat_mul a (arr r)) rs (arr m)). set (s := fold_left (fun a r => mat_mul a (msize (arr r))) rs (msize (arr m))).
  assert (X : forall i j, Qabs (entry x i j) <= entry s i j) by (apply sizes_bound; intros; rewrite entry_size; apply Qle_refl).
  assert (N : mnear (grow u (4 * length rs) - 1) (arr a) x s) by (intros i j; rewrite grow_pow by exact U; apply (c88_history f u pl rs m R U C)).
  assert (H := history_error f u (fun _ => pv) [DM (M4 p p p p) false] R U (fun _ => D) a x s _ (grow_ge u (4 * length rs) U) X N r 1%nat).
  cbn [fold_left arr fmultiply_self length] in H. rewrite <- grow_add in H.
  change (entry (fmat_mul f (fun _ => pv) (arr a) (M4 p p p p)) r 1) with (vget (fmat_vec f pv (arr a) p) r) in H. rewrite entry_column in H.
  change (entry (mat_mul s (msize (M4 p p p p))) r 1) with (vget (mat_vec s (vsize p)) r) in H.
  assert (P : 0 <= vget (mat_vec s (vsize p)) r).
  { rewrite vget_vec. unfold dot. assert (W : forall i, 0 <= entry s r i * vget (vsize p) i) by (intros i; apply Qmult_le_0_compat; [eapply Qle_trans; [apply Qabs_nonneg|apply X]|rewrite vget_size; apply Qabs_nonneg]).
    assert (W1 := W 1%nat). assert (W2 := W 2%nat). assert (W3 := W 3%nat). assert (W4 := W 4%nat). lra. }
  replace (4 * length rs + 4 * 1)%nat with (4 * S (length rs))%nat in H by lia.
  assert (B := grow_bound u (4 * S (length rs)) U). fold k in B. set (g := grow u (4 * S (length rs))) in *. set (z := vget (mat_vec s (vsize p)) r) in *. clearbody z g k.
  apply (Qle_trans _ ((g - 1) * z)); [exact H|]. apply Qmult_le_compat_r; [|exact P]. apply Qle_shift_div_l; lra.
Qed.
Print Assumptions c88_history_point.
Example c88_history_point_case : let m := DM (mfloat fl (matrix2d (1#10) 0 0 1 (1#7) 0)) true in let p := V4 (fl (1#3)) 0 0 1 in
  complete in_order /\ inject_Z (Z.of_nat (4 * 2)) * (1#2) ^ 53 < 1
  /\ (vget (fmat_vec fl (fun _ => in_order) (arr (fmultiply_self fl (fun _ _ => in_order) m m)) p) 1 =?q vget (mat_vec (mat_mul (arr m) (arr m)) p) 1) = false.
Proof. split; [apply plans_complete|]. split; vm_compute; reflexivity. Qed.
