(** Lemmas about the number scanner. *)
From Verif Require Import PyBase PyText FormatModel FormatSpec FormatProofs NumScan.
From Coq Require Import Qpower.
Local Open Scope N_scope.

(** *** finditer *)
Definition shrinks {A} (m : text -> option (A * text)) : Prop :=
  forall t a r, m t = Some (a, r) -> (length r < length t)%nat.

Lemma finditer_fuel {A} (m : text -> option (A * text)) : shrinks m ->
  forall n t, (length t <= n)%nat -> finditer_f m n t = finditer m t.
Proof.
  intros Hm. assert (G : forall n t k, (length t <= n)%nat -> (length t <= k)%nat ->
    finditer_f m n t = finditer_f m k t).
  { induction n as [|n IH]; intros t k Hn Hk.
    - destruct t; cbn in Hn; [|lia]. destruct k; reflexivity.
    - destruct k as [|k]; [destruct t; cbn in Hk; [reflexivity|lia]|]. cbn [finditer_f].
      destruct t as [|c t']; [reflexivity|]. cbn in Hn, Hk. destruct (m (c :: t')) as [[a r]|] eqn:E.
      + pose proof (Hm _ _ _ E) as H. cbn in H. f_equal. apply IH; lia.
      + apply IH; lia. }
  intros n t Hn. apply G; [exact Hn|lia].
Qed.
Lemma finditer_nil {A} (m : text -> option (A * text)) : finditer m [] = [].
Proof. reflexivity. Qed.
Lemma finditer_some {A} (m : text -> option (A * text)) t a r : shrinks m ->
  m t = Some (a, r) -> finditer m t = a :: finditer m r.
Proof.
  intros Hm E. pose proof (Hm _ _ _ E) as H. unfold finditer at 1.
  destruct t as [|c t']; [cbn in H; lia|]. cbn [length finditer_f]. rewrite E.
  f_equal. apply finditer_fuel; [exact Hm|]. cbn in H; lia.
Qed.
Lemma finditer_none {A} (m : text -> option (A * text)) c t : shrinks m ->
  m (c :: t) = None -> finditer m (c :: t) = finditer m t.
Proof. intros Hm E. unfold finditer at 1. cbn [length finditer_f]. rewrite E. reflexivity. Qed.
Lemma finditer_skip {A} (m : text -> option (A * text)) (p : N -> bool) s t : shrinks m ->
  (forall c t', p c = true -> m (c :: t') = None) -> forallb p s = true ->
  finditer m (s ++ t) = finditer m t.
Proof.
  intros Hm Hp. induction s as [|c s IH]; [reflexivity|]. cbn [forallb app].
  intros H; apply andb_prop in H as [H1 H2]. rewrite finditer_none by auto. auto.
Qed.

(** *** lengths *)
Lemma dropwhile_len f t : (length (dropwhile f t) <= length t)%nat.
Proof. induction t as [|c t IH]; cbn; [lia|]. destruct (f c); cbn; lia. Qed.
Lemma take_drop_len f t : (length (takewhile f t) + length (dropwhile f t) = length t)%nat.
Proof. rewrite <- app_length, take_drop. reflexivity. Qed.
Lemma scan_sign_len t : (length (snd (scan_sign t)) <= length t)%nat.
Proof. unfold scan_sign. destruct t as [|c t]; [cbn; lia|]. destruct (c =? 43), (c =? 45); cbn; lia. Qed.
Lemma scan_dot_len t t' : scan_dot t = Some t' -> (length t' < length t)%nat.
Proof. destruct t as [|c t]; cbn [scan_dot]; [discriminate|]. destruct (c =? 46); [|discriminate]. intros [= ->]; cbn; lia. Qed.
Lemma scan_exp_len t : (length (snd (scan_exp t)) <= length t)%nat.
Proof.
  unfold scan_exp. destruct t as [|c t]; [cbn; lia|].
  destruct (_ || _); [|cbn; lia]. pose proof (scan_sign_len t) as H.
  destruct (scan_sign t) as [neg t2]; cbn in H.
  destruct (takewhile is_digit t2); [cbn; lia|]. cbn [snd].
  pose proof (dropwhile_len is_digit t2). cbn; lia.
Qed.
Lemma scan_number_shrinks : shrinks scan_number.
Proof.
  intros t a r. unfold scan_number.
  pose proof (scan_sign_len t) as L1. destruct (scan_sign t) as [neg t1]; cbn [snd] in L1.
  pose proof (take_drop_len is_digit t1) as L2.
  destruct (scan_dot (dropwhile is_digit t1)) as [t'|] eqn:Ed.
  - apply scan_dot_len in Ed. pose proof (take_drop_len is_digit t') as L3.
    pose proof (scan_exp_len (dropwhile is_digit t')) as L4.
    destruct (scan_exp (dropwhile is_digit t')) as [e t4]; cbn [snd] in L4.
    destruct (takewhile is_digit t1), (takewhile is_digit t'); try discriminate;
      intros [= <- <-]; cbn [length] in *; lia.
  - pose proof (scan_exp_len (dropwhile is_digit t1)) as L4.
    destruct (scan_exp (dropwhile is_digit t1)) as [e t4]; cbn [snd] in L4.
    destruct (takewhile is_digit t1); [discriminate|].
    intros [= <- <-]; cbn [length] in *; lia.
Qed.

(** *** characters that cannot start a number *)
Definition starts_number (c : N) : bool := is_digit c || (c =? 43) || (c =? 45) || (c =? 46).
(** characters that cannot continue one either *)
Definition ends_number (c : N) : bool := negb (is_digit c || (c =? 46) || (c =? 69) || (c =? 101)).
Definition ended (t : text) : bool := match t with c :: _ => ends_number c | [] => true end.

Lemma scan_sign_other c t : (c =? 43) = false -> (c =? 45) = false -> scan_sign (c :: t) = (false, c :: t).
Proof. intros H1 H2. cbn [scan_sign]. now rewrite H1, H2. Qed.
Lemma scan_number_none c t : starts_number c = false -> scan_number (c :: t) = None.
Proof.
  unfold starts_number. rewrite !orb_false_iff. intros (((H1 & H2) & H3) & H4).
  unfold scan_number. rewrite scan_sign_other by assumption. cbn [takewhile dropwhile].
  rewrite H1. cbn [scan_dot]. now rewrite H4.
Qed.
Lemma scan_numbers_skip s t : forallb (fun c => negb (starts_number c)) s = true ->
  scan_numbers (s ++ t) = scan_numbers t.
Proof.
  apply finditer_skip; [exact scan_number_shrinks|]. intros c t' H.
  apply scan_number_none. now destruct (starts_number c).
Qed.

Lemma scan_exp_ended t : ended t = true -> scan_exp t = (0%Z, t).
Proof.
  destruct t as [|c t]; [reflexivity|]. cbn [ended scan_exp]. unfold ends_number.
  intros H. destruct (c =? 69); [destruct (is_digit c), (c =? 46); discriminate|].
  destruct (c =? 101); [destruct (is_digit c), (c =? 46); discriminate|]. reflexivity.
Qed.
Lemma ended_digit t : ended t = true -> head_not is_digit t = true.
Proof. destruct t as [|c t]; [reflexivity|]. cbn. unfold ends_number. now destruct (is_digit c). Qed.

Lemma decimal_value neg i f :
  (decimal neg i f 0%Z == (if neg then - dec_value i f else dec_value i f))%Q.
Proof.
  assert (E : (inject_Z (Z.of_N (digits_val (i ++ f))) * Qpower 10 (0 - Z.of_nat (length f))
          == dec_value i f)%Q).
  { unfold dec_value. rewrite digits_val_app_len. fold (Qof (digits_val i * 10 ^ N.of_nat (length f) + digits_val f)).
    rewrite Qof_add, Qof_mul.
    assert (P : (Qpower 10 (0 - Z.of_nat (length f)) == / Qof (10 ^ N.of_nat (length f)))%Q).
    { change (0 - Z.of_nat (length f))%Z with (- Z.of_nat (length f))%Z. rewrite Qpower_opp.
      apply Qinv_comp. unfold Qof. rewrite N2Z.inj_pow, nat_N_Z.
      change 10%Q with (inject_Z 10). rewrite <- Zpower_Qpower by lia. reflexivity. }
    rewrite P. pose proof (Qof_pos _ (pow10_pos (N.of_nat (length f)))) as HP.
    field. lra. }
  unfold decimal. destruct neg; rewrite E; reflexivity.
Qed.

Lemma scan_sign_digit i t : i <> [] -> forallb is_digit i = true -> scan_sign (i ++ t) = (false, i ++ t).
Proof.
  intros Hi Di. destruct i as [|c i]; [congruence|]. cbn in Di; apply andb_prop in Di as [Dc _].
  cbn [app]. unfold is_digit in Dc. apply andb_prop in Dc as [D1 D2]. apply N.leb_le in D1, D2.
  apply scan_sign_other; apply N.eqb_neq; lia.
Qed.

(** what may follow a number *)
Definition finished (r : text) : Prop := head_not is_digit r = true /\ scan_dot r = None /\ scan_exp r = (0%Z, r).
Lemma ended_finished r : ended r = true -> finished r.
Proof.
  intros Hr. split; [now apply ended_digit|]. split; [|now apply scan_exp_ended].
  destruct r as [|x r]; [reflexivity|]. cbn [scan_dot ended] in *. unfold ends_number in Hr.
  destruct (x =? 46); [|reflexivity]. destruct (is_digit x); discriminate.
Qed.
Lemma scan_shape_finished (neg : bool) i f r : i <> [] -> forallb is_digit i = true -> forallb is_digit f = true ->
  finished r ->
  scan_number (shape (if neg then [45] else []) i f ++ r) = Some (decimal neg i f 0, r).
Proof.
  intros Hi Di Df (Hr & Hd & He). unfold scan_number, shape.
  set (u := match f with [] => ([] : text) | _ => 46 :: f end).
  match goal with |- context [scan_sign ?z] => assert (S : scan_sign z = (neg, i ++ u ++ r)) end.
  { rewrite <- !app_assoc. destruct neg; [reflexivity|]. cbn [app]. now apply scan_sign_digit. }
  rewrite S.
  assert (Hu : head_not is_digit (u ++ r) = true).
  { unfold u. destruct f as [|d f]; [exact Hr|reflexivity]. }
  rewrite takewhile_app, dropwhile_app_stop by assumption.
  unfold u. destruct f as [|d f].
  - cbn [app]. rewrite Hd, He. destruct i; [congruence|reflexivity].
  - cbn [app scan_dot]. change (46 =? 46) with true. cbv iota.
    change (d :: f ++ r) with ((d :: f) ++ r).
    rewrite takewhile_app, dropwhile_app_stop by assumption.
    rewrite He. destruct i; [congruence|reflexivity].
Qed.
Lemma scan_shape (neg : bool) i f r : i <> [] -> forallb is_digit i = true -> forallb is_digit f = true ->
  ended r = true ->
  scan_number (shape (if neg then [45] else []) i f ++ r) = Some (decimal neg i f 0, r).
Proof. intros Hi Di Df Hr. apply scan_shape_finished; auto. now apply ended_finished. Qed.

(** reading a formatted number *)
Lemma scan_format_finished p x r : (0 < p)%nat -> finished r ->
  exists v, scan_number (format_number p x ++ r) = Some (v, r) /\ (v == rounded p x)%Q.
Proof.
  intros Hp Hr. rewrite fixed_shape by exact Hp. unfold rounded, fmt.
  set (n := scaled p x). set (s := negative x).
  exists (decimal (s && negb (n =? 0)) (fst (fparts p n)) (snd (fparts p n)) 0). split.
  - apply scan_shape_finished; [apply digits_nonempty|apply digits_digits|apply strip0_digits, frac_digits|exact Hr].
  - rewrite decimal_value. unfold fvalue. pose proof (fparts_value p n) as V.
    destruct s; cbn [andb]; [|exact V]. destruct (N.eqb_spec n 0) as [E|E]; cbn [negb]; rewrite V; [|reflexivity].
    rewrite E. unfold Qof, Qdiv. cbn. ring.
Qed.
Lemma scan_format p x r : (0 < p)%nat -> ended r = true ->
  exists v, scan_number (format_number p x ++ r) = Some (v, r) /\ (v == rounded p x)%Q.
Proof. intros Hp Hr. apply scan_format_finished; auto. now apply ended_finished. Qed.

(** *** a delimited sequence of numbers *)
Definition separator (d : text) : bool :=
  match d with [] => false | _ => forallb (fun c => is_space c || (c =? 44)) d end.
Lemma sep_char c : is_space c || (c =? 44) = true -> starts_number c = false /\ ends_number c = true.
Proof.
  unfold starts_number, ends_number, is_space, is_digit. intros H.
  repeat match type of H with
         | (_ || _)%bool = true => apply orb_prop in H as [H|H]
         | (_ && _)%bool = true => apply andb_prop in H as [? ?]
         end;
  repeat match goal with
         | H : (_ =? _) = true |- _ => apply N.eqb_eq in H
         | H : (_ <=? _) = true |- _ => apply N.leb_le in H
         end;
  (split; [|apply negb_true_iff]; rewrite ?orb_false_iff, ?andb_false_iff, ?N.eqb_neq, ?N.leb_gt; lia).
Qed.
Lemma separator_skip d t : separator d = true -> scan_numbers (d ++ t) = scan_numbers t.
Proof.
  intros H. apply scan_numbers_skip. destruct d as [|c d]; [discriminate|]. cbn [separator] in H.
  apply forallb_forall. intros x Hx. rewrite forallb_forall in H.
  destruct (sep_char x (H x Hx)) as [-> _]. reflexivity.
Qed.
Lemma separator_ended d t : separator d = true -> ended (d ++ t) = true.
Proof.
  destruct d as [|c d]; [discriminate|]. cbn [separator forallb app ended]. intros H.
  apply andb_prop in H as [H _]. now apply sep_char.
Qed.

Lemma Forall2_Qeq_refl l : Forall2 Qeq l l.
Proof. induction l; constructor; auto; reflexivity. Qed.
Lemma scan_join p d l r : (0 < p)%nat -> separator d = true -> ended r = true ->
  Forall2 Qeq (scan_numbers (join d (format_number_sequence p l) ++ r))
              (map (rounded p) l ++ scan_numbers r).
Proof.
  intros Hp Hd Hr. induction l as [|x l IH].
  - apply Forall2_Qeq_refl.
  - cbn [format_number_sequence map join]. destruct l as [|y l].
    + cbn [map]. destruct (scan_format p x r Hp Hr) as (v & E & V).
      unfold scan_numbers at 1. rewrite (finditer_some _ _ _ _ scan_number_shrinks E).
      cbn [app]. constructor; [exact V|]. fold (scan_numbers r).
      apply Forall2_Qeq_refl.
    + cbn [map]. rewrite <- !app_assoc.
      set (rest := join d (format_number p y :: map (format_number p) l) ++ r).
      destruct (scan_format p x (d ++ rest) Hp (separator_ended _ _ Hd)) as (v & E & V).
      unfold scan_numbers at 1. rewrite (finditer_some _ _ _ _ scan_number_shrinks E).
      cbn [app]. constructor; [exact V|].
      fold (scan_numbers (d ++ rest)). rewrite separator_skip by exact Hd. exact IH.
Qed.
