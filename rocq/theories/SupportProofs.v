(** Lemmas for SupportProps.v: reading a written syntax gives its terms back. *)
From Coq Require Import ZArith NArith List Lia.
From Verif Require Import PyBase PyText PySplit PyDict PyCase DatasetModel DatasetProofs SupportModel SupportSpec.
#[local] Open Scope N_scope.
Import ListNotations.

(** ** Splitting *)
Definition nonempty (t : text) : bool := match t with [] => false | _ => true end.
Definition parts (w t : text) : list text := filter nonempty (split_syntax w t).
Definition combining (c : N) : bool := existsb (N.eqb c) [32; 91; 93; 124; 38].
Lemma split_word u : forall w t, forallb (fun c => negb (combining c)) u = true -> split_syntax w (u ++ t) = split_syntax (w ++ u) t.
Proof.
  induction u as [|c u IH]; intros w t H; [now rewrite app_nil_r|].
  cbn [forallb] in H. apply andb_true_iff in H as [Hc H].
  unfold combining in Hc. cbn [existsb] in Hc. rewrite negb_true_iff in Hc. repeat rewrite orb_false_iff in Hc. destruct Hc as (C1 & C2 & C3 & C4 & C5 & _).
  cbn [app split_syntax]. rewrite C1, C2, C3, C4, C5. cbn [orb]. rewrite IH by exact H. now rewrite <- app_assoc.
Qed.
Lemma parts_bar_ n : forall t, (length t <= n)%nat -> parts [] (124 :: t) = parts [] t.
Proof.
  induction n as [|n IH]; intros [|d r] L; try reflexivity; [cbn in L; lia|].
  unfold parts. cbn [split_syntax N.eqb Pos.eqb orb]. destruct (N.eqb_spec d 124) as [->|E].
  - cbn [filter nonempty]. cbn in L. assert (X := IH r ltac:(lia)). unfold parts in X. symmetry. exact X.
  - reflexivity.
Qed.
Lemma parts_bar t : parts [] (124 :: t) = parts [] t.
Proof. now apply (parts_bar_ (length t)). Qed.
Lemma split_first w t : exists x r, split_syntax w t = x :: r /\ forall w', exists x', split_syntax w' t = x' :: r.
Proof.
  revert w. induction t as [|c t IH]; intros w.
  - exists w, []. split; [reflexivity|]. intros w'. now exists w'.
  - cbn [split_syntax]. destruct ((c =? 32) || (c =? 91) || (c =? 93)); [eexists _, _; split; [reflexivity|]; intros w'; now eexists|].
    destruct (c =? 124); [destruct t as [|d t']; [|destruct (d =? 124)]; eexists _, _; (split; [reflexivity|]); intros w'; now eexists|].
    assert (X : exists x r, split_syntax (w ++ [c]) t = x :: r /\ forall w', exists x', split_syntax (w' ++ [c]) t = x' :: r).
    { destruct (IH (w ++ [c])) as (x & r & E & F). exists x, r. split; [exact E|]. intros w'. apply F. }
    destruct (c =? 38); [|exact X]. destruct t as [|d t']; [exact X|]. destruct (d =? 38); [eexists _, _; split; [reflexivity|]; intros w'; now eexists|exact X].
Qed.
Definition flushed (w : text) : list text := if nonempty w then [w] else [].
Lemma parts_sep s w t : parts w (sep_text s ++ t) = flushed w ++ parts [] t.
Proof.
  assert (X : forall r, filter nonempty (w :: r) = flushed w ++ filter nonempty r) by (intros r; unfold flushed; cbn [filter]; destruct (nonempty w); reflexivity).
  destruct s; cbn [sep_text app]; unfold parts; cbn [split_syntax N.eqb Pos.eqb orb]; rewrite ?X; try reflexivity.
  destruct t as [|d r]; [apply X|]. destruct (N.eqb_spec d 124) as [->|E]; rewrite X; [|reflexivity].
  f_equal. symmetry. exact (parts_bar r).
Qed.
Lemma parts_end w : parts w [] = flushed w.
Proof. unfold parts, flushed. cbn [split_syntax filter]. destruct (nonempty w); reflexivity. Qed.
Definition smooth (i : item) : Prop := forallb (fun c => negb (combining c)) (item_text i) = true.
Lemma parts_render s : Forall smooth (items s) -> parts [] (render s) = filter nonempty (map item_text (items s)).
Proof.
  destruct s as [l i]. unfold render, items. cbn [fst snd]. induction l as [|[j s] l IH]; intros H; cbn [map concat app] in *.
  - inversion H; subst. rewrite <- (app_nil_r (item_text i)) at 1. unfold parts. rewrite split_word by assumption. cbn [app]. change (parts (item_text i) [] = filter nonempty [item_text i]). rewrite parts_end. unfold flushed. cbn [filter]. destruct (nonempty (item_text i)); reflexivity.
  - inversion H; subst. specialize (IH ltac:(assumption)). rewrite <- !app_assoc. unfold parts. rewrite split_word by assumption. cbn [app]. cbn [fst snd].
    change (filter nonempty (split_syntax (item_text j) (sep_text s ++ concat (map (fun p : item * sep => item_text (fst p) ++ sep_text (snd p)) l) ++ item_text i))) with (parts (item_text j) (sep_text s ++ concat (map (fun p : item * sep => item_text (fst p) ++ sep_text (snd p)) l) ++ item_text i)).
    rewrite parts_sep, IH. unfold flushed. cbn [filter]. destruct (nonempty (item_text j)); reflexivity.
Qed.

(** ** Multipliers *)
Lemma digit_range c : is_digit c = true <-> 48 <= c <= 57.
Proof. unfold is_digit. rewrite andb_true_iff, !N.leb_le. lia. Qed.
Lemma take_digits n t : head_not is_digit t = true -> takewhile is_digit (digits n ++ t) = digits n /\ dropwhile is_digit (digits n ++ t) = t.
Proof. intros H. split; [apply takewhile_app|apply dropwhile_app_stop]; auto using digits_digits. Qed.
Lemma range_ok r : is_range (range_text r) = true.
Proof.
  destruct r as [n|n|n m]; unfold is_range, range_text, range_tail; cbn [N.eqb Pos.eqb andb].
  - destruct (take_digits n [125] eq_refl) as [-> ->]. destruct (digits n) eqn:E; [now elim (digits_nonempty n)|]. reflexivity.
  - destruct (take_digits n [44; 125] eq_refl) as [-> ->]. destruct (digits n) eqn:E; [now elim (digits_nonempty n)|]. reflexivity.
  - destruct (take_digits n (44 :: digits m ++ [125]) eq_refl) as [-> ->]. destruct (digits n) eqn:E; [now elim (digits_nonempty n)|]. cbn [negb andb].
    destruct (digits m ++ [125]) as [|x y] eqn:F; [destruct (digits m); discriminate|]. rewrite <- F. destruct (take_digits m [125] eq_refl) as [_ ->]. reflexivity.
Qed.
Lemma mark_ok a : is_mark (mark_char a) = true. Proof. destruct a; reflexivity. Qed.
Lemma range_long r : exists a b t, range_text r = 123 :: a :: b :: t.
Proof. destruct r as [n|n|n m]; cbn [range_text]; destruct (digits n) as [|d [|e u]] eqn:E; try (now elim (digits_nonempty n)); cbn [app]; eauto. Qed.
Lemma mult_ok m : multiplier (mult_text m) = true.
Proof.
  destruct m as [|a|a b|r|a r]; cbn [mult_text].
  - reflexivity.
  - apply mark_ok.
  - cbn [multiplier]. rewrite !mark_ok. now rewrite orb_true_r.
  - assert (R := range_ok r). destruct (range_long r) as (x & y & t & E). rewrite E in *. cbn [multiplier]. now rewrite R.
  - assert (R := range_ok r). destruct (range_long r) as (x & y & t & E). rewrite E in *. cbn [multiplier]. rewrite R, mark_ok. now rewrite orb_true_r.
Qed.
(* nothing but marks can stand before a multiplier within a multiplier *)
Definition braced (c : N) : bool := (c =? 123) || (c =? 125).
Lemma mult_before s m : s <> [] -> forallb (fun c => negb (braced c)) s = true -> multiplier (s ++ m) = true -> is_mark (last s 0) = true.
Proof.
  intros N0 B H. assert (NR : forall t u, forallb (fun c => negb (braced c)) t = true -> t <> [] -> is_range (t ++ u) = false).
  { intros [|c t] u Bt Nt; [easy|]. cbn [app is_range]. cbn [forallb] in Bt. apply andb_true_iff in Bt as [Bt _]. unfold braced in Bt. destruct (N.eqb_spec c 123) as [->|]; [discriminate|reflexivity]. }
  destruct s as [|c s]; [easy|]. clear N0. destruct s as [|d s].
  - cbn [app last] in *. destruct m as [|e m]; cbn [multiplier] in H; [exact H|].
    rewrite (NR [c] (e :: m) B ltac:(discriminate) : is_range (c :: e :: m) = false) in H. cbn [orb] in H. now apply andb_true_iff in H as [H _].
  - assert (R1 := NR (c :: d :: s) m B ltac:(discriminate)). cbn [forallb] in B. apply andb_true_iff in B as [_ B].
    assert (R2 := NR (d :: s) m B ltac:(discriminate)). cbn [app] in *. cbn [multiplier] in H. rewrite R1, R2 in H. cbn [orb] in H. apply andb_true_iff in H as [_ H].
    destruct s as [|e s]; cbn [app] in *; [|discriminate H]. destruct m; [exact H|discriminate H].
Qed.
Lemma last_cons {A} (c : A) t d : t <> [] -> last (c :: t) d = last t d.
Proof. now destruct t. Qed.
Lemma strip_written t m : t <> [] -> forallb (fun c => negb (braced c)) t = true -> is_mark (last t 0) = false ->
  multiplier (t ++ mult_text m) = false /\ strip_mult (t ++ mult_text m) = t.
Proof.
  intros Ne B L. assert (M : multiplier (t ++ mult_text m) = false).
  { destruct (multiplier (t ++ mult_text m)) eqn:E; [|reflexivity]. rewrite (mult_before t _ Ne B E) in L. discriminate. }
  split; [exact M|]. revert Ne B L M. induction t as [|c t IH]; intros Ne B L M; [easy|]. cbn [app] in *.
  assert (X : strip_mult (c :: t ++ mult_text m) = c :: strip_mult (t ++ mult_text m)) by (change (strip_mult (c :: t ++ mult_text m)) with (if multiplier (c :: t ++ mult_text m) then [] else c :: strip_mult (t ++ mult_text m)); now rewrite M).
  rewrite X. f_equal. destruct t as [|d t].
  - cbn [app]. destruct (mult_text m) eqn:E; [reflexivity|]. rewrite <- E. assert (Y := mult_ok m). rewrite E in *. cbn [strip_mult]. now rewrite Y.
  - cbn [forallb] in B. apply andb_true_iff in B as [_ B]. rewrite last_cons in L by discriminate.
    apply IH; [discriminate|exact B|exact L|]. destruct (multiplier ((d :: t) ++ mult_text m)) eqn:E; [|reflexivity]. rewrite (mult_before (d :: t) _ ltac:(discriminate) B E) in L. discriminate.
Qed.

(** ** Terms *)
Lemma plain_smooth c : plain c = true -> combining c = false /\ braced c = false.
Proof. unfold plain, combining, braced. cbn [existsb]. rewrite negb_true_iff. repeat rewrite orb_false_iff. tauto. Qed.
Lemma forallb_impl {A} (f g : A -> bool) l : (forall x, f x = true -> g x = true) -> forallb f l = true -> forallb g l = true.
Proof. rewrite !forallb_forall. auto. Qed.
Lemma name_plain c : name_char c = true -> plain c = true /\ c <> 62 /\ c <> 40.
Proof.
  unfold name_char, name_start. intros H. assert (X : 65 <= c <= 90 \/ 97 <= c <= 122 \/ c = 95 \/ c = 45 \/ 48 <= c <= 57).
  { repeat rewrite orb_true_iff in H. rewrite is_up_iff, is_low_iff, digit_range, !N.eqb_eq in H. lia. }
  unfold plain. cbn [existsb]. repeat split; try lia. apply negb_true_iff. repeat rewrite orb_false_iff. rewrite !N.eqb_neq. lia.
Qed.
Definition whole (c : N) : bool := negb (combining c) && negb (braced c).
Lemma plain_whole c : plain c = true -> whole c = true.
Proof. intros H. destruct (plain_smooth c H) as [A B]. unfold whole. now rewrite A, B. Qed.
Lemma term_whole t : wf_term t = true -> term_text t <> [] /\ forallb whole (term_text t) = true /\ is_mark (last (term_text t) 0) = false.
Proof.
  destruct t as [n|n a|w]; cbn [wf_term term_text]; intros H.
  - repeat split; [discriminate| |].
    + cbn [forallb]. rewrite forallb_app. cbn. rewrite andb_true_r. revert H. apply forallb_impl. intros c X. apply andb_true_iff in X as [X _]. now apply plain_whole.
    + change (60 :: n ++ [62]) with ((60 :: n) ++ [62]). now rewrite last_last.
  - apply andb_true_iff in H as [H Ha]. apply andb_true_iff in H as [_ Hn]. repeat split; [discriminate| |].
    + cbn [forallb]. rewrite forallb_app. cbn [forallb]. rewrite forallb_app. cbn.
      assert (X : forallb whole n = true) by (revert Hn; apply forallb_impl; intros c X; apply plain_whole; now apply name_plain).
      assert (Y : forallb whole a = true) by (revert Ha; apply forallb_impl; intros c Y; apply andb_true_iff in Y as [Y _]; now apply plain_whole).
      rewrite X, Y. reflexivity.
    + replace (60 :: n ++ 40 :: a ++ [41; 62]) with ((60 :: n ++ 40 :: a ++ [41]) ++ [62]) by (cbn [app]; f_equal; rewrite <- app_assoc; cbn [app]; rewrite <- app_assoc; reflexivity). now rewrite last_last.
  - apply andb_true_iff in H as [H L]. apply andb_true_iff in H as [Ne H]. repeat split.
    + now destruct w.
    + revert H. apply forallb_impl. apply plain_whole.
    + apply negb_true_iff in L. cbn [existsb] in L. repeat rewrite orb_false_iff in L. destruct L as (_ & A & B & C & D & E & _). unfold is_mark. now rewrite A, B, C, D, E.
Qed.
Lemma digits_whole n : forallb (fun c => negb (combining c)) (digits n) = true.
Proof. generalize (digits_digits n). apply forallb_impl. intros c H. apply digit_range in H. unfold combining. cbn [existsb]. apply negb_true_iff. repeat rewrite orb_false_iff. rewrite !N.eqb_neq. lia. Qed.
Lemma mult_smooth m : forallb (fun c => negb (combining c)) (mult_text m) = true.
Proof.
  assert (R : forall r, forallb (fun c => negb (combining c)) (range_text r) = true) by (intros [n|n|n k]; cbn [range_text forallb]; rewrite forallb_app; cbn [forallb]; rewrite ?forallb_app, !digits_whole; reflexivity).
  assert (M : forall a, negb (combining (mark_char a)) = true) by (intros []; reflexivity).
  destruct m; cbn [mult_text forallb]; rewrite ?M, ?R; reflexivity.
Qed.
Lemma whole_split l : forallb whole l = true -> forallb (fun c => negb (combining c)) l = true /\ forallb (fun c => negb (braced c)) l = true.
Proof. intros H. split; revert H; apply forallb_impl; intros c X; apply andb_true_iff in X; tauto. Qed.
Definition wf_item (i : item) : Prop := match fst i with Some t => wf_term t = true | None => True end.
Lemma wf_items s : wf s -> Forall wf_item (items s).
Proof.
  unfold wf, terms. induction (items s) as [|i l IH]; intros H; constructor.
  - cbn [flat_map] in H. unfold wf_item. destruct (fst i); [|exact I]. now inversion H.
  - apply IH. cbn [flat_map] in H. apply Forall_app in H. tauto.
Qed.
Lemma item_smooth i : wf_item i -> smooth i.
Proof.
  unfold wf_item, smooth, item_text. intros H. rewrite forallb_app, mult_smooth, andb_true_r. destruct (fst i) as [t|]; [|reflexivity]. now apply whole_split, term_whole.
Qed.
Definition termed (i : item) : list text := match fst i with Some t => [item_text i] | None => [] end.
Lemma components_render s : wf s -> components (render s) = flat_map termed (items s).
Proof.
  intros H. apply wf_items in H. assert (P := parts_render s (Forall_impl _ item_smooth H)). unfold components.
  assert (F : forall l, filter (fun x => negb (multiplier x)) l = filter (fun x => negb (multiplier x)) (filter nonempty l)).
  { clear. induction l as [|[|c x] l IH]; [reflexivity|exact IH|]. cbn [filter nonempty]. destruct (negb (multiplier (c :: x))); [f_equal|]; exact IH. }
  rewrite F. unfold parts in P. rewrite P, <- F. clear P F. induction (items s) as [|i l IH]; [reflexivity|]. inversion H; subst. cbn [map filter flat_map]. rewrite IH by assumption.
  unfold termed, item_text in *. unfold wf_item in *. destruct (fst i) as [t|].
  - destruct (term_whole t ltac:(assumption)) as (A & B & C). apply whole_split in B as [_ B]. destruct (strip_written _ (snd i) A B C) as [-> _]. reflexivity.
  - cbn [app]. rewrite mult_ok. reflexivity.
Qed.
Lemma stripped_render s : wf s -> map strip_mult (components (render s)) = map term_text (terms s).
Proof.
  intros H. rewrite components_render by exact H. apply wf_items in H. unfold terms. induction (items s) as [|i l IH]; [reflexivity|]. inversion H; subst. cbn [flat_map]. rewrite !map_app, IH by assumption. f_equal.
  unfold termed, item_text, wf_item in *. destruct (fst i) as [t|]; [|reflexivity]. cbn [map]. destruct (term_whole t ltac:(assumption)) as (A & B & C). apply whole_split in B as [_ B]. now destruct (strip_written _ (snd i) A B C) as [_ ->].
Qed.
