(** Letter case, for ASCII.  (Python's str methods cover all of Unicode; the
    models that use these functions say so.) *)
From Verif Require Import PyBase PyText.
Local Open Scope N_scope.

Definition is_up (c : N) : bool := (65 <=? c) && (c <=? 90).
Definition is_low (c : N) : bool := (97 <=? c) && (c <=? 122).
Definition to_low (c : N) : N := if is_up c then c + 32 else c.
Definition to_up (c : N) : N := if is_low c then c - 32 else c.
(* str.lower, str.upper *)
Definition lower (t : text) : text := map to_low t.
Definition upper (t : text) : text := map to_up t.
(* str.capitalize *)
Definition capitalize (t : text) : text := match t with [] => [] | c :: r => to_up c :: lower r end.
(* str.islower: a letter, and no upper case letter *)
Definition islower (t : text) : bool := existsb is_low t && forallb (fun c => negb (is_up c)) t.

Lemma is_up_iff c : is_up c = true <-> 65 <= c <= 90.
Proof. unfold is_up. rewrite andb_true_iff, !N.leb_le. reflexivity. Qed.
Lemma is_low_iff c : is_low c = true <-> 97 <= c <= 122.
Proof. unfold is_low. rewrite andb_true_iff, !N.leb_le. reflexivity. Qed.
Lemma is_up_false c : is_up c = false <-> ~ (65 <= c <= 90).
Proof. rewrite <- is_up_iff. destruct (is_up c); split; congruence. Qed.
Lemma is_low_false c : is_low c = false <-> ~ (97 <= c <= 122).
Proof. rewrite <- is_low_iff. destruct (is_low c); split; congruence. Qed.
Lemma to_low_up c : is_up c = true -> is_low (to_low c) = true.
Proof. intros H. unfold to_low. rewrite H. apply is_up_iff in H. apply is_low_iff. lia. Qed.
Lemma to_low_not_up c : is_up (to_low c) = false.
Proof.
  unfold to_low. destruct (is_up c) eqn:E; [|exact E]. apply is_up_iff in E. apply is_up_false. lia.
Qed.
Lemma to_low_id c : is_up c = false -> to_low c = c.
Proof. intros H. unfold to_low. now rewrite H. Qed.
Lemma to_up_low c : is_low c = true -> is_up (to_up c) = true /\ to_low (to_up c) = c.
Proof.
  intros H. unfold to_up. rewrite H. apply is_low_iff in H.
  assert (U : is_up (c - 32) = true) by (apply is_up_iff; lia). split; [exact U|]. unfold to_low. rewrite U. lia.
Qed.
Lemma to_up_to_low c : is_up c = true -> to_up (to_low c) = c.
Proof.
  intros H. unfold to_up. rewrite (to_low_up c H). unfold to_low. rewrite H. apply is_up_iff in H. lia.
Qed.
Lemma lower_lower t : lower (lower t) = lower t.
Proof.
  unfold lower. rewrite map_map. apply map_ext. intros c. apply to_low_id, to_low_not_up.
Qed.
Lemma lower_app a b : lower (a ++ b) = lower a ++ lower b.
Proof. apply map_app. Qed.
Lemma lower_id t : forallb (fun c => negb (is_up c)) t = true -> lower t = t.
Proof.
  unfold lower. induction t as [|c t IH]; [reflexivity|]. cbn. intros H. apply andb_true_iff in H. destruct H as [H1 H2].
  rewrite IH by exact H2. f_equal. apply to_low_id. now apply negb_true_iff.
Qed.
Lemma lower_no_up t : forallb (fun c => negb (is_up c)) (lower t) = true.
Proof. induction t as [|c t IH]; [reflexivity|]. cbn. now rewrite to_low_not_up. Qed.
