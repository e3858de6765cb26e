From Verif Require Import PyBase PyText PyList PySplit TokenModel TokenSpec TokenProofs.
From Coq Require Import Lia.
Local Open Scope N_scope.

(* a token that the DOM either refuses, or that holds no white space at all *)
Definition wordlike (t : text) : Prop := dom_token t -> plain t.
Definition wordlike_op (o : op) : Prop :=
  match o with
  | OAdd l | ORemove l => Forall wordlike l
  | OToggle t _ | OInsert _ t => wordlike t
  | OReplace t n => wordlike t /\ wordlike n
  | OSetItem _ t => plain t
  | OSetSlice _ _ l => Forall plain l /\ NoDup l
  | ODel _ | ODelSlice _ _ | OPop _ | OClear | OReverse => True
  | OSetAttr _ => False
  end.

Lemma dom_dec t : dom_token t \/ ~ dom_token t.
Proof. rewrite validate_ok. destruct (validate_token t) as [[]|]; [now left|now right]. Qed.
Lemma doms_dec l : Forall dom_token l \/ ~ Forall dom_token l.
Proof. rewrite validate_all_ok. destruct (validate_tokens l) as [[]|]; [now left|now right]. Qed.
Lemma wordlikes l : Forall wordlike l -> Forall dom_token l -> Forall plain l.
Proof. intros W D. rewrite Forall_forall in *. intros x I. exact (W x I (D x I)). Qed.

Lemma add_few a l : Forall wordlike l -> few a (fst (add a l)).
Proof.
  intros W. destruct (doms_dec l) as [D|D].
  - destruct (add_tokens a l (wordlikes l W D)) as (a' & -> & T). intros x. cbn [fst]. rewrite T. apply few_puts.
  - unfold add. rewrite (validate_all_bad l D). apply few_refl.
Qed.
Lemma remove_few a l : few a (fst (remove a l)).
Proof.
  unfold remove. destruct (validate_tokens l); [|apply few_refl]. destruct (remove_all_tokens l a) as (a' & -> & T).
  intros x. cbn [fst]. rewrite T. pose proof (occ_drops l (tokens a) x). lia.
Qed.
Lemma toggle_few a t f : wordlike t -> few a (fst (toggle a t f)).
Proof.
  intros W. unfold toggle. pose proof (remove_few a [t]) as R.
  pose proof (add_few a [t] (Forall_cons _ W (Forall_nil _))) as A.
  destruct (add a [t]) as [a1 r1], (remove a [t]) as [a2 r2].
  destruct (mem t (tokens a)); destruct f as [[]|]; cbn [fst] in *; try exact A; try exact R; apply few_refl.
Qed.
Lemma replace_few a t n : wordlike n -> few a (fst (replace a t n)).
Proof.
  intros W. unfold replace. destruct (validate_tokens [t; n]) as [[]|] eqn:V; [|apply few_refl].
  apply validate_all_ok in V. inversion V as [|? ? _ V2]; subst. inversion V2 as [|? ? Vn _]; subst.
  destruct (_ || _); [apply few_refl|]. destruct (index_of t (tokens a)); [|apply few_refl].
  destruct (set_item a _ n) as [a'|] eqn:S; [|apply few_refl]. cbn [fst]. exact (set_item_few _ _ _ _ (W Vn) S).
Qed.
Lemma insert_few a i t : wordlike t -> few a (keep a (insert a i t)).
Proof.
  intros W. destruct (dom_dec t) as [D|D].
  - unfold insert. rewrite (proj1 (validate_ok t) D). cbn [bind keep]. apply set_slice_few; repeat constructor; [apply (W D)|apply (W D)|intros []].
  - unfold insert. rewrite (proj1 (validate_bad t) D). apply few_refl.
Qed.
Lemma cut_few a k m : (k <= m)%nat -> few a (set_tokens (firstn k (tokens a) ++ skipn m (tokens a))).
Proof.
  intros L x. rewrite tokens_set by apply Forall_cut, tokens_plain. rewrite occ_app. pose proof (occ_cut x (tokens a) k m L). lia.
Qed.
Lemma del_few a i : few a (keep a (del_item a i)).
Proof.
  unfold del_item, list_del. destruct (norm_index _ i) as [k|]; [|apply few_refl].
  exact (cut_few a k (S k) ltac:(lia)).
Qed.
Lemma pop_few a i : few a (fst (pop a i)).
Proof.
  unfold pop. pose proof (del_few a i) as H. destruct (list_get (tokens a) i), (del_item a i); cbn [fst keep] in *; try exact H; apply few_refl.
Qed.
Lemma clear_f_few n : forall a, few a (clear_f n a).
Proof.
  induction n as [|n IH]; intros a; cbn [clear_f]; [apply few_refl|]. pose proof (pop_few a (-1)%Z) as P.
  destruct (pop a (-1)%Z) as [a' [t|]]; cbn [fst] in P; [|exact P]. exact (few_trans _ _ _ P (IH a')).
Qed.

Lemma list_get_in {A} (l : list A) i x : list_get l i = Ok x -> In x l.
Proof.
  unfold list_get. destruct (norm_index _ _); [|discriminate]. destruct (nth_error l n) eqn:E; [|discriminate].
  injection 1 as <-. exact (nth_error_In _ _ E).
Qed.
Lemma set_item_present a i t : In t (tokens a) -> set_item a i t = Ok a.
Proof. intros I. unfold set_item. now rewrite (proj2 (mem_in _ _) I). Qed.
Lemma norm_in_range n k : (k < n)%nat -> norm_index n (Z.of_nat k) = Some k.
Proof. apply norm_of_nat. Qed.
Lemma list_get_nat {A} (l : list A) k : (k < length l)%nat -> exists x, list_get l (Z.of_nat k) = Ok x.
Proof.
  intros H. unfold list_get. rewrite norm_of_nat by exact H. destruct (nth_error l k) eqn:E; [now eexists|].
  apply nth_error_None in E. lia.
Qed.
Lemma reverse_f_same todo : forall i a, (i + todo <= length (tokens a))%nat ->
  reverse_f todo i (length (tokens a)) a = Ok a.
Proof.
  induction todo as [|k IH]; intros i a H; [reflexivity|]. cbn [reverse_f].
  destruct (list_get_nat (tokens a) (length (tokens a) - i - 1)) as (x & X); [lia|].
  destruct (list_get_nat (tokens a) i) as (y & Y); [lia|]. rewrite X, Y. cbn [bind].
  rewrite (set_item_present a _ x) by exact (list_get_in _ _ _ X). cbn [bind].
  rewrite (set_item_present a _ y) by exact (list_get_in _ _ _ Y). cbn [bind]. apply IH. lia.
Qed.
Lemma reverse_same a : reverse a = Ok a.
Proof.
  unfold reverse. apply reverse_f_same. cbn [Nat.add]. apply Nat.div_le_upper_bound; lia.
Qed.

Lemma step_few a o : wordlike_op o -> few a (step a o).
Proof.
  destruct o; cbn [wordlike_op step]; intros W.
  - now apply add_few.
  - apply remove_few.
  - now apply toggle_few.
  - now apply replace_few.
  - now apply insert_few.
  - destruct (set_item a i t) eqn:S; [|apply few_refl]. exact (set_item_few _ _ _ _ W S).
  - now apply set_slice_few.
  - apply del_few.
  - unfold del_slice, list_set_slice. cbn [app]. apply cut_few. lia.
  - apply pop_few.
  - apply clear_f_few.
  - rewrite reverse_same. apply few_refl.
  - destruct W.
Qed.
Lemma run_few ops : forall a, Forall wordlike_op ops -> few a (run a ops).
Proof.
  unfold run. induction ops as [|o ops IH]; intros a F; cbn [fold_left]; [apply few_refl|].
  inversion F as [|? ? Wo Fo]; subst. exact (few_trans _ _ _ (step_few a o Wo) (IH _ Fo)).
Qed.
Lemma run_nodup ops a : Forall wordlike_op ops -> NoDup (tokens a) -> NoDup (tokens (run a ops)).
Proof.
  intros F D. apply occ_nodup. intros x. pose proof (run_few ops a F x). apply occ_nodup with (x := x) in D. lia.
Qed.

(** the attribute text after a write *)
Definition canonical (a : attr) : Prop :=
  a = match tokens a with [] => None | l => Some (join [32] l) end.
Lemma set_tokens_canonical l : Forall plain l -> canonical (set_tokens l).
Proof.
  intros F. unfold canonical. rewrite tokens_set by exact F. unfold set_tokens.
  apply Forall_plain in F. rewrite join_clean_strip by exact F. destruct l as [|t l]; [reflexivity|].
  destruct (join [32] (t :: l)) eqn:J; [|reflexivity]. apply join_nil_iff in J; [discriminate|exact F].
Qed.
Definition fresh (a a' : attr) : Prop := a' = a \/ canonical a'.
Lemma fresh_trans a b c : fresh a b -> fresh b c -> fresh a c.
Proof. intros H [->|K]; [exact H|now right]. Qed.
Lemma set_slice_fresh a i j l : Forall plain l -> fresh a (set_slice a i j l).
Proof.
  intros P. unfold set_slice. set (f := filter _ l).
  assert (Pf : Forall plain f) by (apply Forall_forall; intros x I; apply filter_In in I; rewrite Forall_forall in P; now apply P).
  destruct f as [|y f'] eqn:E; [now left|]. right. apply set_tokens_canonical, Forall_cut2; [apply tokens_plain|exact Pf].
Qed.
Lemma insert_fresh a i t a' : plain t -> insert a i t = Ok a' -> fresh a a'.
Proof.
  intros P. unfold insert. destruct (validate_token t); [|discriminate]. cbn [bind]. injection 1 as <-.
  apply set_slice_fresh. constructor; [exact P|constructor].
Qed.
Lemma extend_fresh l : forall a, Forall plain l -> fresh a (fst (extend a l)).
Proof.
  induction l as [|t l IH]; intros a F; [now left|]. inversion F; subst. cbn [extend].
  destruct (append a t) as [a1|] eqn:E; [|now left]. eapply fresh_trans; [eapply insert_fresh; eassumption|now apply IH].
Qed.
Lemma del_fresh a i a' : del_item a i = Ok a' -> fresh a a'.
Proof.
  unfold del_item, list_del. destruct (norm_index _ i) as [k|]; [|discriminate]. cbn [bind]. injection 1 as <-. right.
  exact (set_tokens_canonical _ (Forall_cut k (S k) _ (tokens_plain a))).
Qed.
Lemma remove_all_fresh l : forall a, fresh a (fst (remove_all a l)).
Proof.
  induction l as [|t l IH]; intros a; [now left|]. cbn [remove_all]. destruct (mem t (tokens a)); [|apply IH].
  destruct (remove1 a t) as [a1|] eqn:E; [|now left]. eapply fresh_trans; [|apply IH].
  unfold remove1 in E. destruct (index_of t (tokens a)); [|discriminate]. exact (del_fresh _ _ _ E).
Qed.
Lemma set_item_fresh a i t a' : plain t -> set_item a i t = Ok a' -> fresh a a'.
Proof.
  intros P. unfold set_item. destruct (mem t (tokens a)); [injection 1 as <-; now left|]. unfold list_set.
  destruct (norm_index _ _) as [k|]; [|discriminate]. cbn [bind]. injection 1 as <-. right.
  exact (set_tokens_canonical _ (Forall_cut2 k (S k) (tokens a) [t] (tokens_plain a) (Forall_cons _ P (Forall_nil _)))).
Qed.
Lemma remove_fresh a l : fresh a (fst (remove a l)).
Proof. unfold remove. destruct (validate_tokens l); [apply remove_all_fresh|now left]. Qed.
Lemma add_fresh a l : Forall wordlike l -> fresh a (fst (add a l)).
Proof.
  intros W. destruct (doms_dec l) as [D|D]; unfold add.
  - rewrite (proj1 (validate_all_ok l) D). apply extend_fresh. now apply wordlikes.
  - rewrite (validate_all_bad l D). now left.
Qed.
Lemma pop_fresh a i : fresh a (fst (pop a i)).
Proof.
  unfold pop. destruct (list_get (tokens a) i); [|now left]. destruct (del_item a i) eqn:E; [|now left]. exact (del_fresh _ _ _ E).
Qed.
Lemma clear_f_fresh n : forall a, fresh a (clear_f n a).
Proof.
  induction n as [|n IH]; intros a; cbn [clear_f]; [now left|]. pose proof (pop_fresh a (-1)%Z) as P.
  destruct (pop a (-1)%Z) as [a' [t|]]; cbn [fst] in P; [|exact P]. exact (fresh_trans _ _ _ P (IH a')).
Qed.
Lemma step_fresh a o : wordlike_op o -> fresh a (step a o).
Proof.
  destruct o; cbn [wordlike_op step]; intros W.
  - now apply add_fresh.
  - apply remove_fresh.
  - unfold toggle. pose proof (remove_fresh a [t]) as R.
    pose proof (add_fresh a [t] (Forall_cons _ W (Forall_nil _))) as A.
    destruct (add a [t]) as [a1 r1], (remove a [t]) as [a2 r2].
    destruct (mem t (tokens a)); destruct f as [[]|]; cbn [fst] in *; try exact A; try exact R; now left.
  - unfold replace. destruct (validate_tokens [t; n]) as [[]|] eqn:V; [|now left].
    apply validate_all_ok in V. inversion V as [|? ? _ V2]; subst. inversion V2 as [|? ? Vn _]; subst.
    destruct (_ || _); [now left|]. destruct (index_of t (tokens a)); [|now left].
    destruct (set_item a _ n) as [a'|] eqn:S; [|now left]. cbn [fst]. exact (set_item_fresh _ _ _ _ (proj2 W Vn) S).
  - destruct (insert a i t) eqn:E; [|now left]. cbn [keep]. destruct (dom_dec t) as [D|D].
    + exact (insert_fresh _ _ _ _ (W D) E).
    + unfold insert in E. rewrite (proj1 (validate_bad t) D) in E. discriminate.
  - destruct (set_item a i t) eqn:S; [|now left]. exact (set_item_fresh _ _ _ _ W S).
  - now apply set_slice_fresh.
  - destruct (del_item a i) eqn:E; [|now left]. exact (del_fresh _ _ _ E).
  - right. unfold del_slice, list_set_slice. cbn [app]. apply set_tokens_canonical, Forall_cut, tokens_plain.
  - apply pop_fresh.
  - apply clear_f_fresh.
  - rewrite reverse_same. now left.
  - destruct W.
Qed.
Lemma run_fresh ops : forall a, Forall wordlike_op ops -> fresh a (run a ops).
Proof.
  unfold run. induction ops as [|o ops IH]; intros a F; cbn [fold_left]; [now left|].
  inversion F as [|? ? Wo Fo]; subst. exact (fresh_trans _ _ _ (step_fresh a o Wo) (IH _ Fo)).
Qed.

(** clear *)
Lemma norm_last n : norm_index (S n) (-1) = Some n.
Proof.
  unfold norm_index. change (-1 <? 0)%Z with true. cbv iota zeta.
  replace (-1 + Z.of_nat (S n))%Z with (Z.of_nat n) by lia.
  rewrite (proj2 (Z.leb_le 0 (Z.of_nat n))) by lia. rewrite (proj2 (Z.ltb_lt (Z.of_nat n) (Z.of_nat (S n)))) by lia.
  cbn [andb]. now rewrite Nat2Z.id.
Qed.
Lemma pop_last a : tokens a <> [] -> exists a' t, pop a (-1)%Z = (a', Ok t) /\ tokens a = tokens a' ++ [t].
Proof.
  intros N. destruct (exists_last N) as (l & t & E).
  assert (L : length (tokens a) = S (length l)) by (rewrite E, app_length; cbn; lia).
  assert (G : list_get (tokens a) (-1) = Ok t).
  { unfold list_get. rewrite L, norm_last, E, nth_error_app2, Nat.sub_diag by lia. reflexivity. }
  assert (D : list_del (tokens a) (-1) = Ok l).
  { unfold list_del. rewrite L, norm_last, E. rewrite firstn_app, firstn_all, Nat.sub_diag.
    rewrite skipn_all2 by (rewrite app_length; cbn; lia). cbn [firstn]. now rewrite !app_nil_r. }
  unfold pop, del_item. rewrite G, D. cbn [bind]. exists (set_tokens l), t. split; [reflexivity|].
  rewrite tokens_set; [exact E|]. pose proof (tokens_plain a) as F. rewrite E in F. now apply Forall_app in F.
Qed.
Lemma clear_f_all n : forall a, (length (tokens a) < n)%nat -> tokens (clear_f n a) = [].
Proof.
  induction n as [|n IH]; intros a H; [lia|]. cbn [clear_f].
  destruct (tokens a) as [|x l] eqn:E.
  - unfold pop, list_get. rewrite E. cbn. exact E.
  - destruct (pop_last a) as (a' & t & -> & T); [rewrite E; discriminate|]. apply IH.
    apply (f_equal (@length text)) in T. rewrite E, app_length in T. cbn in T, H. lia.
Qed.
Lemma clear_all a : tokens (clear a) = [].
Proof. apply clear_f_all. lia. Qed.

(** replace *)
Lemma replace_tokens a t n : plain t -> plain n -> In t (tokens a) -> ~ In n (tokens a) ->
  exists a' pre post, replace a t n = (a', Ok true) /\ tokens a = pre ++ t :: post /\ ~ In t pre /\ tokens a' = pre ++ n :: post.
Proof.
  intros Pt Pn I J. unfold replace.
  rewrite (proj1 (validate_all_ok [t; n])) by (constructor; [now apply dom_plain|constructor; [now apply dom_plain|constructor]]).
  rewrite (proj2 (mem_in _ _) I), (proj2 (mem_not_in _ _) J). cbn [negb orb].
  destruct (proj1 (index_of_in _ _) I) as (k & E). rewrite E. destruct (index_of_lt _ _ _ E) as (L & T & _ & NI).
  unfold set_item. rewrite (proj2 (mem_not_in _ _) J). unfold list_set. rewrite norm_of_nat by exact L. cbn [bind].
  eexists. exists (firstn k (tokens a)), (skipn (S k) (tokens a)). split; [reflexivity|].
  split; [|split; [exact NI|]].
  - rewrite <- (firstn_skipn k (tokens a)) at 1. f_equal. clear - T L. revert k T L.
    induction (tokens a) as [|x l IH]; intros k T L; [cbn in L; lia|]. destruct k; cbn in *; [congruence|]. apply IH; [exact T|lia].
  - rewrite tokens_set; [reflexivity|]. apply (Forall_cut2 k (S k) (tokens a) [n]); [apply tokens_plain|constructor; [exact Pn|constructor]].
Qed.
