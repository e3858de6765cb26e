From Coq Require Import ZArith NArith List Lia.
From Verif Require Import PyBase PyText PySplit PyStrip PyDict FeatModel FeatSpec FeatProofs.
#[local] Open Scope N_scope.
Import ListNotations.

Definition free (c : N) (t : text) : Prop := forallb (fun x => negb (c =? x)) t = true.
Lemma free_app c a b : free c a -> free c b -> free c (a ++ b).
Proof. unfold free. rewrite forallb_app. now intros -> ->. Qed.
Lemma digits_free n : free 44 (digits n).
Proof. unfold free. pose proof (digits_digits n) as H. rewrite forallb_forall in *. intros x J. specialize (H x J). unfold is_digit in H. destruct (N.eqb_spec 44 x) as [<-|_]; [discriminate H|reflexivity]. Qed.
Lemma join_comma ps : forall p, join (lit ", ") (p :: ps) = join [44] (p :: map (cons 32) ps).
Proof.
  induction ps as [|p' ps IH]; intros p; [reflexivity|]. change (join (lit ", ") (p :: p' :: ps)) with (p ++ [44; 32] ++ join (lit ", ") (p' :: ps)). change (join [44] (p :: map (cons 32) (p' :: ps))) with (p ++ [44] ++ join [44] ((32 :: p') :: map (cons 32) ps)).
  rewrite IH. f_equal. cbn [app]. f_equal. destruct ps; reflexivity.
Qed.
Lemma split_comma ps p : free 44 p -> Forall (free 44) ps -> split_on 44 (join (lit ", ") (p :: ps)) = p :: map (cons 32) ps.
Proof.
  intros Hp Hps. rewrite join_comma. apply split_on_join; [discriminate|]. constructor; [exact Hp|]. apply Forall_forall. intros x J. apply in_map_iff in J. destruct J as (y & <- & J). rewrite Forall_forall in Hps. exact (Hps y J).
Qed.
Definition written (q : N) (p : text * value) : text := [q] ++ fst p ++ [q] ++ write_value (snd p).
Lemma tag_facts t : tag_ok t = true -> length t = 4%nat /\ forallb printable t = true /\ free 44 t /\ forallb (fun c => negb (is_space c)) t = true.
Proof.
  unfold tag_ok. rewrite andb_true_iff. intros [L H]. apply Nat.eqb_eq in L. split; [exact L|]. unfold free. rewrite !forallb_forall. rewrite forallb_forall in H.
  assert (X : forall c, In c t -> 33 <= c <= 126 /\ c <> 44) by (intros c J; specialize (H c J); rewrite !andb_true_iff, negb_true_iff, N.leb_le, N.leb_le, N.eqb_neq in H; tauto).
  split; [|split]; intros c J; destruct (X c J) as [[A B] C].
  - unfold printable. rewrite andb_true_iff, !N.leb_le. lia.
  - destruct (N.eqb_spec 44 c); [congruence|reflexivity].
  - unfold is_space. rewrite negb_true_iff. repeat rewrite orb_false_iff. rewrite ?andb_false_iff, ?N.leb_gt, ?N.eqb_neq. repeat split; lia.
Qed.
Lemma quote_free q : is_quote q = true -> free 44 [q] /\ is_space q = false.
Proof. unfold is_quote. rewrite orb_true_iff, !N.eqb_eq. intros [-> | ->]; split; reflexivity. Qed.
Lemma written_free q p : is_quote q = true -> tag_ok (fst p) = true -> free 44 (written q p).
Proof.
  intros Q T. destruct (tag_facts _ T) as (_ & _ & F & _). destruct (quote_free q Q) as [Fq _]. unfold written. repeat apply free_app; auto. destruct (snd p); try reflexivity. cbn [write_value]. apply free_app; [reflexivity|apply digits_free].
Qed.
Lemma digits_clean n : clean (digits n) = true.
Proof.
  unfold clean. destruct (digits n) as [|c d] eqn:E; [elim (digits_nonempty n E)|]. rewrite <- E. pose proof (digits_digits n) as H. rewrite forallb_forall in *. intros x J. specialize (H x J). unfold is_digit in H. rewrite andb_true_iff, !N.leb_le in H. unfold is_space. rewrite negb_true_iff. repeat rewrite orb_false_iff. rewrite ?andb_false_iff, ?N.leb_gt, ?N.eqb_neq. repeat split; lia.
Qed.
Definition value_words (v : value) : list text := match v with Bare => [] | On => [lit "on"] | Off => [lit "off"] | Num n => [digits n] end.
Lemma words_written q p : is_quote q = true -> tag_ok (fst p) = true -> split_ws (written q p) = ([q] ++ fst p ++ [q]) :: value_words (snd p).
Proof.
  intros Q T. destruct (tag_facts _ T) as (L & _ & _ & S). destruct (quote_free q Q) as [_ Sq]. replace (written q p) with (join [32] (([q] ++ fst p ++ [q]) :: value_words (snd p))).
  - apply split_join. constructor.
    + unfold clean. cbn [app]. change (q :: fst p ++ [q]) with ([q] ++ fst p ++ [q]). rewrite !forallb_app, S. cbn [forallb]. now rewrite Sq.
    + destruct (snd p); repeat constructor. apply digits_clean.
  - unfold written. destruct (snd p); cbn [value_words join write_value]; rewrite <- ?app_assoc; reflexivity.
Qed.
Lemma split_space t : split_ws (32 :: t) = split_ws t. Proof. reflexivity. Qed.
Lemma unquote_written q t : is_quote q = true -> unquote ([q] ++ t ++ [q]) = t.
Proof.
  intros Q. cbn [app unquote]. change (q :: t ++ [q]) with ((q :: t) ++ [q]). rewrite last_last, N.eqb_refl, Q. cbn [andb]. apply removelast_last.
Qed.
Lemma switch_words v : switch (value_words v) = Some (value_of v).
Proof.
  destruct v as [| | |n]; try reflexivity. cbn [value_words switch value_of]. rewrite digits_digits. destruct (digits n) eqn:E; [elim (digits_nonempty n E)|]. rewrite <- E. cbn [negb andb]. now rewrite digits_val_digits.
Qed.
Lemma read_written q l : is_quote q = true -> Forall (fun p => tag_ok (fst p) = true) l -> forall f g, (forall p, split_ws (g p) = split_ws (written q p)) -> read_tags (map g l) f = Ok (fold_left (fun f p => dset f (fst p) (value_of (snd p))) l f).
Proof.
  intros Q H f g G. revert f. induction H as [|p l T H IH]; intros f; [reflexivity|]. cbn [map read_tags fold_left]. rewrite G, (words_written q p Q T), (unquote_written q (fst p) Q). destruct (tag_facts _ T) as (L & P & _). rewrite L, P. cbn [Nat.eqb negb]. rewrite switch_words. apply IH.
Qed.
Lemma write_not_normal q l : is_quote q = true -> text_eqb (write q l) (lit "normal") = false.
Proof.
  intros Q. destruct l as [|p l]; [reflexivity|]. destruct (text_eqb_spec (write q (p :: l)) (lit "normal")) as [E|_]; [|reflexivity]. exfalso. unfold write in E. cbn [map join] in E. destruct l; cbn [map join app] in E; injection E as E _; rewrite E in Q; discriminate Q.
Qed.
Lemma parse_written q l : is_quote q = true -> l <> [] -> Forall (fun p => tag_ok (fst p) = true) l -> parse_font_feature_settings (write q l) = Ok (fold_left (fun f p => dset f (fst p) (value_of (snd p))) l []).
Proof.
  intros Q N H. unfold parse_font_feature_settings. rewrite write_not_normal by exact Q. destruct l as [|p l]; [congruence|]. inversion H as [|? ? T H']; subst. assert (W : write q (p :: l) = join (lit ", ") (written q p :: map (written q) l)) by reflexivity. rewrite W. rewrite split_comma.
  - cbn [read_tags]. rewrite (words_written q p Q T), (unquote_written q (fst p) Q). destruct (tag_facts _ T) as (L & P & _). rewrite L, P. cbn [Nat.eqb negb]. rewrite switch_words. rewrite map_map. apply (read_written q l Q H'). intros x. reflexivity.
  - now apply written_free.
  - apply Forall_forall. intros x J. apply in_map_iff in J. destruct J as (y & <- & J). rewrite Forall_forall in H'. apply written_free; [exact Q|exact (H' y J)].
Qed.
Lemma fold_last tag l : forall f, dget (fold_left (fun f p => dset f (fst p) (value_of (snd p))) l f) tag = match last_value tag l with Some n => Some n | None => dget f tag end.
Proof.
  induction l as [|[t v] l IH]; intros f; [reflexivity|]. cbn [fold_left last_value fst snd]. rewrite IH, dget_dset. destruct (last_value tag l); [reflexivity|]. now destruct (text_eqb t tag).
Qed.
(** every key has four printable characters, and the reading fails on blank parts only *)
Definition key_ok (t : text) : Prop := length t = 4%nat /\ forallb printable t = true.
Lemma read_keys ps : forall f d, read_tags ps f = Ok d -> dict_ok f -> (forall k, In k (dkeys f) -> key_ok k) -> dict_ok d /\ forall k, In k (dkeys d) -> key_ok k.
Proof.
  induction ps as [|p ps IH]; intros f d; cbn [read_tags]; [intros [= <-]; auto|]. destruct (split_ws p) as [|t items]; [discriminate|]. destruct (Nat.eqb (length (unquote t)) 4) eqn:L; cbn [negb]; [|apply IH]. destruct (forallb printable (unquote t)) eqn:P; cbn [negb]; [|apply IH]. destruct (switch items) as [sw|]; [|apply IH].
  intros H D K. apply (IH _ _ H); [now apply dset_ok|]. intros k J. rewrite dset_keys in J. destruct (dhas f (unquote t)); [now apply K|]. apply in_app_iff in J. destruct J as [J|[<-|[]]]; [now apply K|]. split; [now apply Nat.eqb_eq|exact P].
Qed.
Lemma read_total ps : forall f, (exists d, read_tags ps f = Ok d) /\ (forall p, In p ps -> split_ws p <> []) \/ (read_tags ps f = Err IndexError /\ exists p, In p ps /\ split_ws p = []).
Proof.
  induction ps as [|p ps IH]; intros f; cbn [read_tags]; [left; split; [eauto|intros p []]|]. destruct (split_ws p) as [|t items] eqn:E; [right; split; [reflexivity|]; exists p; split; [now left|exact E]|].
  assert (X : forall g, ((exists d, read_tags ps g = Ok d) /\ (forall x, In x (p :: ps) -> split_ws x <> [])) \/ (read_tags ps g = Err IndexError /\ exists x, In x (p :: ps) /\ split_ws x = [])).
  { intros g. destruct (IH g) as [[A B]|[A (x & J & B)]]; [left; split; [exact A|]; intros x [<-|J]; [congruence|now apply B]|right; split; [exact A|]; exists x; split; [now right|exact B]]. }
  destruct (negb (Nat.eqb (length (unquote t)) 4)); [apply X|]. destruct (negb (forallb printable (unquote t))); [apply X|]. destruct (switch items); apply X.
Qed.
Lemma split_acc_nil t : forall w, split_acc w t = [] <-> w = [] /\ forallb is_space t = true.
Proof.
  induction t as [|c t IH]; intros w; cbn [split_acc forallb].
  - destruct w; cbn; intuition congruence.
  - destruct (is_space c); cbn [andb].
    + destruct w as [|x w]; cbn [flush app]; [rewrite IH; tauto|split; [discriminate|intros [[=] _]]].
    + rewrite IH. split; [intros [Z _]; destruct w; discriminate Z|intros [_ [=]]].
Qed.
Lemma split_nil t : split_ws t = [] <-> forallb is_space t = true.
Proof. unfold split_ws. rewrite split_acc_nil. tauto. Qed.
(** ** Reading the features back *)
Lemma read_show t n : length t = 4%nat -> read_feature (show (t, n)) = (t, n).
Proof.
  intros L. unfold read_feature, show. cbn [fst snd]. destruct t as [|a [|b [|c [|d [|e t]]]]]; try discriminate L. cbn [firstn skipn app lit]. f_equal. apply digits_val_digits.
Qed.
