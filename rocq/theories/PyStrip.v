(** Facts about strip, shared by several areas. *)
From Verif Require Import PyBase PyText PySplit PyCase.
From Coq Require Import Lia.
Local Open Scope N_scope.

Definition stripped (t : text) : Prop := head_not is_space t = true /\ head_not is_space (rev t) = true.

Lemma rdropwhile_head f t : head_not f t = true -> head_not f (rdropwhile f t) = true.
Proof.
  intros H. destruct (rdropwhile_split f t) as (s & E & _). destruct (rdropwhile f t) as [|a r] eqn:D; [reflexivity|].
  rewrite E in H. exact H.
Qed.
Lemma rdropwhile_stop f t : head_not f (rev (rdropwhile f t)) = true.
Proof. unfold rdropwhile. rewrite rev_involutive. apply dropwhile_stop. Qed.
Lemma strip_stripped t : stripped (strip t).
Proof. unfold strip, stripped. split; [apply rdropwhile_head, dropwhile_stop|apply rdropwhile_stop]. Qed.
Lemma stripped_strip t : stripped t -> strip t = t.
Proof. intros [A B]. apply strip_id; assumption. Qed.
Lemma strip_strip t : strip (strip t) = strip t.
Proof. apply stripped_strip, strip_stripped. Qed.
Lemma strip_iff t : stripped t <-> strip t = t.
Proof. split; [apply stripped_strip|]. intros <-. apply strip_stripped. Qed.
Lemma strip_left a t : forallb is_space a = true -> strip (a ++ t) = strip t.
Proof. intros H. unfold strip. rewrite dropwhile_app by exact H. reflexivity. Qed.
Lemma dropwhile_app_some f a b : dropwhile f a <> [] -> dropwhile f (a ++ b) = dropwhile f a ++ b.
Proof. induction a as [|c a IH]; cbn; [congruence|]. destruct (f c); [exact IH|reflexivity]. Qed.
Lemma dropwhile_nil f a : dropwhile f a = [] -> forallb f a = true.
Proof. induction a as [|c a IH]; [reflexivity|]. cbn. destruct (f c); [exact IH|discriminate]. Qed.
Lemma strip_right b t : forallb is_space b = true -> strip (t ++ b) = strip t.
Proof.
  intros H. unfold strip. destruct (dropwhile is_space t) as [|c r] eqn:E.
  - assert (F := dropwhile_nil _ _ E). rewrite dropwhile_app by exact F. rewrite dropwhile_all by exact H. reflexivity.
  - rewrite dropwhile_app_some by congruence. rewrite E. apply rdropwhile_app. exact H.
Qed.
Lemma strip_nil_iff t : strip t = [] <-> forallb is_space t = true.
Proof.
  split; intros H.
  - unfold strip in H. destruct (rdropwhile_split is_space (dropwhile is_space t)) as (s & E & F). rewrite H in E. cbn in E.
    assert (G := dropwhile_stop is_space t). rewrite E in G. destruct s as [|c s].
    + apply dropwhile_nil. exact E.
    + cbn in *. destruct (is_space c); discriminate.
  - unfold strip. rewrite dropwhile_all by exact H. reflexivity.
Qed.
Lemma is_space_low c : is_space (to_low c) = is_space c.
Proof.
  unfold to_low. destruct (is_up c) eqn:U; [|reflexivity]. apply is_up_iff in U.
  assert (A : is_space c = false). { unfold is_space. repeat rewrite Bool.orb_false_iff. rewrite !Bool.andb_false_iff, !N.leb_gt, !N.eqb_neq. lia. }
  assert (B : is_space (c + 32) = false). { unfold is_space. repeat rewrite Bool.orb_false_iff. rewrite !Bool.andb_false_iff, !N.leb_gt, !N.eqb_neq. lia. }
  congruence.
Qed.
Lemma dropwhile_map f g t : (forall c, f (g c) = f c) -> dropwhile f (map g t) = map g (dropwhile f t).
Proof. intros H. induction t as [|c t IH]; [reflexivity|]. cbn. rewrite H. destruct (f c); [exact IH|reflexivity]. Qed.
Lemma strip_lower t : strip (lower t) = lower (strip t).
Proof.
  unfold strip, rdropwhile, lower. rewrite dropwhile_map by exact is_space_low. rewrite <- !map_rev.
  rewrite dropwhile_map by exact is_space_low. rewrite !map_rev. reflexivity.
Qed.
Lemma lower_join sep l : lower (join sep l) = join (lower sep) (map lower l).
Proof.
  induction l as [|a l IH]; [reflexivity|]. destruct l as [|b l]; [reflexivity|].
  change (join sep (a :: b :: l)) with (a ++ sep ++ join sep (b :: l)). rewrite !lower_app, IH. reflexivity.
Qed.
(* no piece of a split holds the separator *)
Lemma split_on_acc_free c t : forall w, forallb (fun x => negb (c =? x)) w = true ->
  Forall (fun w => forallb (fun x => negb (c =? x)) w = true) (split_on_acc (N.eqb c) w t).
Proof.
  induction t as [|a t IH]; intros w H; cbn.
  - constructor; [exact H|constructor].
  - destruct (c =? a) eqn:E.
    + constructor; [exact H|]. apply IH. reflexivity.
    + apply IH. rewrite forallb_app, H. cbn. rewrite E. reflexivity.
Qed.
Lemma split_on_free c t : Forall (fun w => forallb (fun x => negb (c =? x)) w = true) (split_on c t).
Proof. apply split_on_acc_free. reflexivity. Qed.
Lemma split_on_acc_nonempty f t : forall w, split_on_acc f w t <> [].
Proof. induction t as [|a t IH]; intros w; cbn; [discriminate|]. destruct (f a); [discriminate|apply IH]. Qed.
Lemma split_on_nonempty c t : split_on c t <> [].
Proof. apply split_on_acc_nonempty. Qed.
Lemma split_on_single c t : forallb (fun x => negb (c =? x)) t = true -> split_on c t = [t].
Proof.
  intros H. assert (E := split_on_join c [t]). cbn [join] in E. apply E; [discriminate|].
  constructor; [exact H|constructor].
Qed.
Lemma split_on_one c t x : split_on c t = [x] -> x = t /\ forallb (fun x => negb (c =? x)) t = true.
Proof.
  intros H. assert (E := join_split_on c t). rewrite H in E. cbn in E. split; [exact E|]. subst.
  assert (F := split_on_free c t). rewrite H in F. inversion F. assumption.
Qed.
Lemma strip_free (f : N -> bool) t : forallb f t = true -> forallb f (strip t) = true.
Proof.
  intros H. unfold strip. rewrite forallb_forall in *. intros x Hx. apply H.
  destruct (rdropwhile_split is_space (dropwhile is_space t)) as (s & E & _).
  rewrite <- (take_drop is_space t). apply in_or_app. right. rewrite E. apply in_or_app. left. exact Hx.
Qed.
