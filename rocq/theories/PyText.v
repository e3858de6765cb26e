(** Python str as a list of code points, with the character classes and
    decimal notation the models share.  Nothing here models a particular
    svgpy function. *)
From Verif Require Import PyBase.
From Coq Require Export NArith Nnat.
Local Open Scope N_scope.
Global Arguments N.add : simpl never.
Global Arguments N.sub : simpl never.
Global Arguments N.mul : simpl never.
Global Arguments N.div : simpl never.
Global Arguments N.modulo : simpl never.
Global Arguments N.pow : simpl never.

Definition text := list N.
(* ASCII literals *)
Definition lit (s : string) : text := map N_of_ascii (list_ascii_of_string s).

Fixpoint text_eqb (a b : text) : bool :=
  match a, b with
  | [], [] => true
  | x :: a', y :: b' => (x =? y) && text_eqb a' b'
  | _, _ => false
  end.
Lemma text_eqb_spec a b : reflect (a = b) (text_eqb a b).
Proof.
  revert b; induction a as [|x a IH]; intros [|y b]; cbn; try (constructor; congruence).
  destruct (N.eqb_spec x y) as [->|H]; cbn; [|constructor; congruence].
  destruct (IH b) as [->|H]; constructor; congruence.
Qed.
Lemma text_eqb_refl a : text_eqb a a = true.
Proof. destruct (text_eqb_spec a a); congruence. Qed.

(* str.isspace / \s *)
Definition is_space (c : N) : bool :=
  ((9 <=? c) && (c <=? 13)) || ((28 <=? c) && (c <=? 32)) || (c =? 133) || (c =? 160)
  || (c =? 5760) || ((8192 <=? c) && (c <=? 8202)) || (c =? 8232) || (c =? 8233)
  || (c =? 8239) || (c =? 8287) || (c =? 12288).
(* \d, restricted to ASCII *)
Definition is_digit (c : N) : bool := (48 <=? c) && (c <=? 57).

Fixpoint dropwhile (f : N -> bool) (t : text) : text :=
  match t with c :: t' => if f c then dropwhile f t' else t | [] => [] end.
Fixpoint takewhile (f : N -> bool) (t : text) : text :=
  match t with c :: t' => if f c then c :: takewhile f t' else [] | [] => [] end.
Definition rdropwhile (f : N -> bool) (t : text) : text := rev (dropwhile f (rev t)).
(* str.strip() *)
Definition strip (t : text) : text := rdropwhile is_space (dropwhile is_space t).
(* str.rstrip(c) for one character *)
Definition rstrip (c : N) (t : text) : text := rdropwhile (N.eqb c) t.

(* str.join *)
Fixpoint join (sep : text) (l : list text) : text :=
  match l with
  | [] => []
  | [x] => x
  | x :: l' => x ++ sep ++ join sep l'
  end.

Lemma take_drop f t : takewhile f t ++ dropwhile f t = t.
Proof. induction t as [|c t IH]; cbn; [reflexivity|]. destruct (f c); cbn; congruence. Qed.
Lemma takewhile_forall f t : forallb f (takewhile f t) = true.
Proof. induction t as [|c t IH]; cbn; [reflexivity|]. destruct (f c) eqn:E; cbn; [now rewrite E|reflexivity]. Qed.
Lemma dropwhile_app f a b : forallb f a = true -> dropwhile f (a ++ b) = dropwhile f b.
Proof.
  induction a as [|c a IH]; cbn; [reflexivity|]. intros H; apply andb_prop in H as [H1 H2].
  rewrite H1; auto.
Qed.
Definition head_not (f : N -> bool) (t : text) : bool :=
  match t with c :: _ => negb (f c) | [] => true end.
Lemma dropwhile_head f t : head_not f t = true -> dropwhile f t = t.
Proof. destruct t as [|c t]; cbn; [reflexivity|]. destruct (f c); cbn; congruence. Qed.
Lemma dropwhile_stop f t : head_not f (dropwhile f t) = true.
Proof. induction t as [|c t IH]; cbn; [reflexivity|]. destruct (f c) eqn:E; cbn; [exact IH|now rewrite E]. Qed.
Lemma takewhile_app f a b : forallb f a = true -> head_not f b = true -> takewhile f (a ++ b) = a.
Proof.
  induction a as [|c a IH]; cbn.
  - destruct b as [|c b]; cbn; [reflexivity|]. destruct (f c); cbn; congruence.
  - intros H Hb; apply andb_prop in H as [H1 H2]. rewrite H1. f_equal; auto.
Qed.
Lemma dropwhile_app_stop f a b : forallb f a = true -> head_not f b = true -> dropwhile f (a ++ b) = b.
Proof. intros H Hb. rewrite dropwhile_app by exact H. now apply dropwhile_head. Qed.
Lemma takewhile_all f a : forallb f a = true -> takewhile f a = a.
Proof. intros H. rewrite <- (app_nil_r a) at 1. now apply takewhile_app. Qed.
Lemma dropwhile_all f a : forallb f a = true -> dropwhile f a = [].
Proof. intros H. rewrite <- (app_nil_r a). rewrite dropwhile_app by exact H. reflexivity. Qed.

Lemma rdropwhile_id f t : head_not f (rev t) = true -> rdropwhile f t = t.
Proof. intros H. unfold rdropwhile. rewrite dropwhile_head by exact H. apply rev_involutive. Qed.
Lemma rdropwhile_app f a b : forallb f b = true -> rdropwhile f (a ++ b) = rdropwhile f a.
Proof.
  intros H. unfold rdropwhile. rewrite rev_app_distr, dropwhile_app; [reflexivity|].
  apply forallb_forall. intros x Hx. rewrite <- in_rev in Hx. rewrite forallb_forall in H; auto.
Qed.
Lemma rdropwhile_split f t : exists s, t = rdropwhile f t ++ s /\ forallb f s = true.
Proof.
  exists (rev (takewhile f (rev t))). split.
  - unfold rdropwhile. rewrite <- rev_app_distr, take_drop. now rewrite rev_involutive.
  - apply forallb_forall. intros x Hx. rewrite <- in_rev in Hx.
    pose proof (takewhile_forall f (rev t)) as H. rewrite forallb_forall in H; auto.
Qed.
Lemma rdropwhile_last f t a x : rdropwhile f t = a ++ [x] -> f x = false.
Proof.
  unfold rdropwhile. intros H. pose proof (dropwhile_stop f (rev t)) as S.
  assert (E : dropwhile f (rev t) = x :: rev a).
  { rewrite <- (rev_involutive (dropwhile f (rev t))), H, rev_app_distr. reflexivity. }
  rewrite E in S; cbn in S. now destruct (f x).
Qed.

Lemma strip_id t : head_not is_space t = true -> head_not is_space (rev t) = true -> strip t = t.
Proof. intros H1 H2. unfold strip. rewrite dropwhile_head by exact H1. now apply rdropwhile_id. Qed.

(** *** decimal notation of natural numbers *)
Definition dval (c : N) : N := c - 48.
Definition digits_val (t : text) : N := fold_left (fun a c => 10 * a + dval c) t 0.
Fixpoint digits_f (fuel : nat) (n : N) : text :=
  match fuel with
  | O => [48]
  | S k => if n <? 10 then [48 + n] else digits_f k (n / 10) ++ [48 + n mod 10]
  end.
Definition digits (n : N) : text := digits_f (S (N.to_nat (N.size n))) n.

Lemma digits_val_app a b : digits_val (a ++ b) = fold_left (fun x c => 10 * x + dval c) b (digits_val a).
Proof. unfold digits_val. apply fold_left_app. Qed.
Lemma digits_val_snoc a c : digits_val (a ++ [c]) = 10 * digits_val a + dval c.
Proof. rewrite digits_val_app. reflexivity. Qed.
Lemma digits_val_app_len a b : digits_val (a ++ b) = digits_val a * 10 ^ N.of_nat (length b) + digits_val b.
Proof.
  induction b as [|c b IH] using rev_ind.
  - rewrite app_nil_r. cbn. lia.
  - rewrite app_assoc, !digits_val_snoc, IH, app_length. cbn [length].
    replace (N.of_nat (length b + 1)) with (N.succ (N.of_nat (length b))) by lia.
    rewrite N.pow_succ_r'. lia.
Qed.

Lemma is_digit_48 d : d < 10 -> is_digit (48 + d) = true.
Proof. intros H. unfold is_digit. apply andb_true_intro; split; apply N.leb_le; lia. Qed.
Lemma dval_48 d : dval (48 + d) = d.
Proof. unfold dval. lia. Qed.

Lemma digits_f_S k n : digits_f (S k) n =
  if n <? 10 then [48 + n] else digits_f k (n / 10) ++ [48 + n mod 10].
Proof. reflexivity. Qed.

Lemma digits_f_spec fuel : forall n, n < 2 ^ N.of_nat fuel ->
  digits_val (digits_f (S fuel) n) = n.
Proof.
  induction fuel as [|k IH]; intros n Hn; rewrite digits_f_S.
  - destruct (N.ltb_spec n 10) as [H|H]; [|cbn in Hn; lia].
    unfold digits_val; cbn [fold_left]. rewrite dval_48. lia.
  - destruct (N.ltb_spec n 10) as [H|H].
    + unfold digits_val; cbn [fold_left]. rewrite dval_48. lia.
    + rewrite digits_val_snoc, IH, dval_48.
      * pose proof (N.div_mod n 10). lia.
      * rewrite Nat2N.inj_succ, N.pow_succ_r' in Hn. apply N.div_lt_upper_bound; lia.
Qed.
Lemma digits_val_digits n : digits_val (digits n) = n.
Proof. unfold digits. apply digits_f_spec. rewrite N2Nat.id. apply N.size_gt. Qed.

Lemma digits_f_digits fuel : forall n, forallb is_digit (digits_f fuel n) = true.
Proof.
  induction fuel as [|k IH]; intros n; cbn [digits_f]; [reflexivity|].
  destruct (N.ltb_spec n 10) as [H|H].
  - cbn [forallb]. now rewrite is_digit_48.
  - rewrite forallb_app, IH. cbn [forallb]. rewrite is_digit_48; [reflexivity|].
    apply N.mod_lt; lia.
Qed.
Lemma digits_f_nonempty fuel n : digits_f fuel n <> [].
Proof.
  destruct fuel as [|k]; cbn [digits_f]; [discriminate|].
  destruct (n <? 10); [discriminate|]. destruct (digits_f k (n / 10)); discriminate.
Qed.

Lemma digits_digits n : forallb is_digit (digits n) = true.
Proof. apply digits_f_digits. Qed.
Lemma digits_nonempty n : digits n <> [].
Proof. apply digits_f_nonempty. Qed.

(* no leading zero except for 0 itself *)
Lemma digits_f_head fuel : forall n, n < 2 ^ N.of_nat fuel -> 0 < n ->
  exists c t, digits_f (S fuel) n = c :: t /\ 48 < c.
Proof.
  induction fuel as [|k IH]; intros n Hn H0; rewrite digits_f_S.
  - destruct (N.ltb_spec n 10) as [H|H]; [|cbn in Hn; lia].
    do 2 eexists; split; [reflexivity|lia].
  - destruct (N.ltb_spec n 10) as [H|H]; [do 2 eexists; split; [reflexivity|lia]|].
    destruct (IH (n / 10)) as (c & t & E & Hc).
    + rewrite Nat2N.inj_succ, N.pow_succ_r' in Hn. apply N.div_lt_upper_bound; lia.
    + apply N.div_str_pos; lia.
    + rewrite E. do 2 eexists; split; [reflexivity|exact Hc].
Qed.
Lemma digits_head n : 0 < n -> exists c t, digits n = c :: t /\ 48 < c.
Proof. intros H. apply digits_f_head; [|exact H]. rewrite N2Nat.id. apply N.size_gt. Qed.
Lemma digits_0 : digits 0 = [48].
Proof. reflexivity. Qed.
Lemma digits_inj a b : digits a = digits b -> a = b.
Proof. intros H. rewrite <- (digits_val_digits a), <- (digits_val_digits b). now rewrite H. Qed.
