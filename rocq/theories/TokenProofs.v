From Verif Require Import PyBase PyText PyList PySplit TokenModel TokenSpec.
From Coq Require Import Lia.
Local Open Scope N_scope.

Lemma plain_clean t : plain t <-> clean t = true.
Proof.
  unfold plain, clean. destruct t as [|c t]; [split; [intros [H _]; congruence|discriminate]|].
  rewrite forallb_forall. split.
  - intros [_ H] x I. now rewrite (H x I).
  - intros H. split; [discriminate|]. intros x I. now apply negb_true_iff, H.
Qed.
Lemma Forall_plain l : Forall plain l <-> Forall (fun x => clean x = true) l.
Proof. split; intros H; (eapply Forall_impl; [|exact H]); intros; now apply plain_clean. Qed.

Lemma tokens_plain a : Forall plain (tokens a).
Proof. apply Forall_plain, split_clean. Qed.
Lemma tokens_set l : Forall plain l -> tokens (set_tokens l) = l.
Proof.
  intros F. apply Forall_plain in F. unfold set_tokens. rewrite join_clean_strip by exact F.
  pose proof (split_join l F) as E.
  destruct (join [32] l) as [|c v] eqn:J; [|exact E].
  now rewrite (join_nil_iff l F J).
Qed.

Lemma words_split_acc v : forall w, (w = [] \/ plain w) ->
  exists l, split_acc w v = l /\ words (w ++ v) l.
Proof.
  induction v as [|c v IH]; intros w W.
  - exists (flush w). split; [reflexivity|]. rewrite app_nil_r. destruct W as [->|W]; [constructor|].
    destruct w; [destruct W; congruence|]. now constructor.
  - cbn [split_acc]. destruct (is_space c) eqn:S.
    + destruct (IH [] (or_introl eq_refl)) as (l & E & H). cbn [app] in H.
      exists (flush w ++ l). split; [now rewrite E|]. destruct W as [->|W]; [cbn; now constructor|].
      destruct w as [|d w]; [destruct W; congruence|]. cbn [flush app]. 
      change (d :: w ++ c :: v) with ((d :: w) ++ c :: v). now constructor.
    + destruct (IH (w ++ [c])) as (l & E & H).
      { right. split; [destruct w; discriminate|]. intros x I. apply in_app_iff in I. destruct I as [I|[<-|[]]]; [|exact S].
        destruct W as [->|W]; [destruct I|now apply W]. }
      exists l. split; [exact E|]. rewrite <- app_assoc in H. exact H.
Qed.
Lemma tokens_words v : words v (tokens (Some v)).
Proof. destruct (words_split_acc v [] (or_introl eq_refl)) as (l & E & H). cbn. unfold split_ws. rewrite E. exact H. Qed.

Lemma dom_plain t : plain t -> dom_token t.
Proof.
  intros [H P]. split; [exact H|]. intros c I J. specialize (P c I).
  cbn in J. repeat destruct J as [<-|J]; try discriminate P; destruct J.
Qed.
Lemma validate_ok t : dom_token t <-> validate_token t = Ok tt.
Proof.
  unfold dom_token, validate_token. destruct t as [|c0 t]; [split; [intros [H _]; congruence|discriminate]|].
  set (u := c0 :: t). destruct (is_ascii_whitespace u) eqn:E; unfold is_ascii_whitespace in E.
  - split; [|discriminate]. intros [_ H]. exfalso. apply existsb_exists in E. destruct E as (c & I & A).
    apply (H c I). unfold ascii_ws in A. repeat rewrite orb_true_iff in A. rewrite !N.eqb_eq in A. cbn. intuition.
  - split; [reflexivity|]. intros _. split; [discriminate|]. intros c I J.
    assert (existsb ascii_ws u = true) as X; [|congruence]. apply existsb_exists. exists c. split; [exact I|].
    cbn in J. repeat destruct J as [<-|J]; try reflexivity; destruct J.
Qed.
Lemma validate_bad t : ~ dom_token t <-> validate_token t = Err ValueError.
Proof.
  rewrite validate_ok. unfold validate_token. destruct t; [split; congruence|]. destruct (is_ascii_whitespace _); split; congruence.
Qed.
Lemma validate_all_ok l : Forall dom_token l <-> validate_tokens l = Ok tt.
Proof.
  induction l as [|t l IH]; [split; [reflexivity|constructor]|]. cbn [validate_tokens]. split.
  - inversion 1; subst. rewrite (proj1 (validate_ok t)) by assumption. now apply IH.
  - destruct (validate_token t) as [[]|] eqn:E; cbn [bind]; [|discriminate]. intros V. constructor; [now apply validate_ok|now apply IH].
Qed.
Lemma validate_all_bad l : ~ Forall dom_token l -> validate_tokens l = Err ValueError.
Proof.
  induction l as [|t l IH]; intros H; [destruct H; constructor|]. cbn [validate_tokens].
  destruct (validate_token t) as [[]|e] eqn:E; cbn [bind].
  - apply IH. intros F. apply H. constructor; [now apply validate_ok|exact F].
  - destruct (proj1 (validate_bad t)); [|now rewrite <- E]. rewrite validate_ok. congruence.
Qed.
Lemma Forall_dom l : Forall plain l -> Forall dom_token l.
Proof. intros H. eapply Forall_impl; [|exact H]. intros; now apply dom_plain. Qed.

(** appending one token *)
Definition put (l : list text) (t : text) : list text := if mem t l then l else l ++ [t].
Lemma clamp_len n : clamp_index n (Z.of_nat n) = n.
Proof.
  unfold clamp_index. destruct (Z.of_nat n <? 0)%Z eqn:E; [lia|]. rewrite E.
  destruct (Z.of_nat n <? Z.of_nat n)%Z eqn:F; lia.
Qed.
Lemma insert_tokens a i t : plain t -> exists a', insert a i t = Ok a' /\
  tokens a' = if mem t (tokens a) then tokens a else list_insert (tokens a) i t.
Proof.
  intros P. unfold insert. rewrite (proj1 (validate_ok t)) by now apply dom_plain. cbn [bind].
  eexists. split; [reflexivity|]. unfold set_slice. cbn [filter]. destruct (mem t (tokens a)) eqn:M; cbn [negb]; [reflexivity|].
  unfold list_set_slice, list_insert. rewrite Nat.max_id. cbn [app]. rewrite tokens_set; [reflexivity|].
  pose proof (tokens_plain a) as F. apply Forall_app. split; [now apply Forall_firstn|].
  constructor; [exact P|now apply Forall_skipn].
Qed.
Lemma append_tokens a t : plain t -> exists a', append a t = Ok a' /\ tokens a' = put (tokens a) t.
Proof.
  intros P. destruct (insert_tokens a (Z.of_nat (length (tokens a))) t P) as (a' & E & T).
  exists a'. split; [exact E|]. rewrite T. unfold put, list_insert. rewrite clamp_len, firstn_all, skipn_all. reflexivity.
Qed.
Lemma extend_tokens l : forall a, Forall plain l -> exists a', extend a l = (a', Ok tt) /\ tokens a' = fold_left put l (tokens a).
Proof.
  induction l as [|t l IH]; intros a F; [exists a; split; reflexivity|].
  inversion F as [|? ? Pt Fl]; subst. cbn [extend]. destruct (append_tokens a t Pt) as (a1 & -> & T1).
  destruct (IH a1 Fl) as (a2 & -> & T2). exists a2. split; [reflexivity|]. cbn [fold_left]. now rewrite T2, T1.
Qed.
Lemma add_tokens a l : Forall plain l -> exists a', add a l = (a', Ok tt) /\ tokens a' = fold_left put l (tokens a).
Proof.
  intros F. unfold add. rewrite (proj1 (validate_all_ok l)) by now apply Forall_dom. now apply extend_tokens.
Qed.
Lemma put_in l t x : In x (put l t) <-> In x l \/ x = t.
Proof.
  unfold put. destruct (mem t l) eqn:M; [apply mem_in in M|].
  - split; [now left|]. intros [H| ->]; assumption.
  - rewrite in_app_iff. cbn. intuition.
Qed.
Lemma puts_in l : forall s x, In x (fold_left put l s) <-> In x s \/ In x l.
Proof.
  induction l as [|t l IH]; intros s x; cbn [fold_left]; [cbn; intuition|]. rewrite IH, put_in. cbn. intuition.
Qed.
Lemma puts_prefix l : forall s, exists new, fold_left put l s = s ++ new.
Proof.
  induction l as [|t l IH]; intros s; cbn [fold_left]; [exists []; now rewrite app_nil_r|].
  destruct (IH (put s t)) as (n & ->). unfold put. destruct (mem t s); [now exists n|]. exists (t :: n). now rewrite <- app_assoc.
Qed.

(** occurrences *)
Lemma occ_cons x y l : occ x (y :: l) = ((if text_eqb x y then 1 else 0) + occ x l)%nat.
Proof. reflexivity. Qed.
Lemma occ_app x l m : occ x (l ++ m) = (occ x l + occ x m)%nat.
Proof. induction l; cbn [app occ]; [reflexivity|]. rewrite IHl. lia. Qed.
Lemma occ_in x l : (1 <= occ x l)%nat <-> In x l.
Proof.
  induction l as [|y l IH]; cbn [occ In]; [lia|]. destruct (text_eqb_spec x y) as [->|N].
  - split; [now left|lia].
  - split; intros H; [right; apply IH; lia|]. destruct H as [H|H]; [congruence|]. apply IH in H. lia.
Qed.
Lemma occ_not_in x l : ~ In x l -> occ x l = O.
Proof. rewrite <- occ_in. lia. Qed.
Lemma occ_nodup l : NoDup l <-> forall x, (occ x l <= 1)%nat.
Proof.
  induction l as [|y l IH]; [split; [intros _ x; cbn; lia|constructor]|]. split.
  - inversion 1; subst. intros x. cbn. destruct (text_eqb_spec x y) as [->|N].
    + rewrite (occ_not_in y l) by assumption. lia.
    + apply IH. assumption.
  - intros H. constructor.
    + intros I. apply occ_in in I. specialize (H y). cbn in H. rewrite text_eqb_refl in H. lia.
    + apply IH. intros x. specialize (H x). cbn in H. destruct (text_eqb x y); lia.
Qed.
Lemma occ_cut x l a b : (a <= b)%nat -> (occ x (firstn a l) + occ x (skipn b l) <= occ x l)%nat.
Proof.
  revert a b. induction l as [|y l IH]; intros a b H; [rewrite firstn_nil, skipn_nil; cbn; lia|].
  destruct a as [|a]; destruct b as [|b]; try lia; cbn [firstn skipn occ].
  - lia.
  - specialize (IH O b ltac:(lia)). cbn in IH. lia.
  - specialize (IH a b ltac:(lia)). lia.
Qed.

Definition few (a a' : attr) : Prop :=
  forall x, (occ x (tokens a') <= Nat.max 1 (occ x (tokens a)))%nat.
Lemma few_refl a : few a a.
Proof. intros x. lia. Qed.
Lemma few_trans a b c : few a b -> few b c -> few a c.
Proof. intros H K x. specialize (H x). specialize (K x). lia. Qed.

Lemma Forall_cut a b (l : list text) : Forall plain l -> Forall plain (firstn a l ++ skipn b l).
Proof. intros. apply Forall_app. split; [now apply Forall_firstn|now apply Forall_skipn]. Qed.
Lemma Forall_cut2 a b (l m : list text) : Forall plain l -> Forall plain m -> Forall plain (firstn a l ++ m ++ skipn b l).
Proof. intros. apply Forall_app. split; [now apply Forall_firstn|]. apply Forall_app. split; [assumption|now apply Forall_skipn]. Qed.

Lemma few_put l t : forall x, (occ x (put l t) <= Nat.max 1 (occ x l))%nat.
Proof.
  intros x. unfold put. destruct (mem t l) eqn:M; [lia|]. apply mem_not_in in M.
  rewrite occ_app. cbn [occ]. destruct (text_eqb_spec x t) as [->|N]; [pose proof (occ_not_in t l M)|]; lia.
Qed.
Lemma few_puts l : forall s x, (occ x (fold_left put l s) <= Nat.max 1 (occ x s))%nat.
Proof.
  induction l as [|t l IH]; intros s x; cbn [fold_left]; [lia|]. specialize (IH (put s t) x). pose proof (few_put s t x). lia.
Qed.

(** removal *)
Fixpoint remove_first (t : text) (l : list text) : list text :=
  match l with [] => [] | x :: l' => if text_eqb x t then l' else x :: remove_first t l' end.
Lemma index_of_in t l : In t l <-> exists k, index_of t l = Some k.
Proof.
  induction l as [|x l IH]; cbn [index_of In]; [split; [intros []|intros (k & H); discriminate]|].
  destruct (text_eqb_spec x t) as [->|N]; [split; [now exists O|now left]|]. split.
  - intros [H|H]; [congruence|]. apply IH in H. destruct H as (k & ->). now exists (S k).
  - intros (k & H). destruct (index_of t l); [|discriminate]. right. apply IH. now eexists.
Qed.
Lemma index_of_lt t l : forall k, index_of t l = Some k -> (k < length l)%nat /\ nth_error l k = Some t /\
  firstn k l ++ skipn (S k) l = remove_first t l /\ ~ In t (firstn k l).
Proof.
  induction l as [|x l IH]; intros k; cbn [index_of]; [discriminate|].
  destruct (text_eqb_spec x t) as [->|N].
  - injection 1 as <-. cbn. rewrite text_eqb_refl. split; [lia|]. split; [reflexivity|]. split; [reflexivity|]. intros [].
  - destruct (index_of t l) as [j|] eqn:E; [|discriminate]. injection 1 as <-.
    destruct (IH j eq_refl) as (A & B & C & D). cbn [length nth_error firstn skipn app remove_first In].
    destruct (text_eqb_spec x t); [congruence|].
    split; [lia|]. split; [exact B|]. split; [now f_equal|]. intros [H|H]; [congruence|contradiction].
Qed.
Lemma norm_of_nat n k : (k < n)%nat -> norm_index n (Z.of_nat k) = Some k.
Proof.
  intros H. unfold norm_index. destruct (Z.of_nat k <? 0)%Z eqn:E; [lia|].
  destruct (0 <=? Z.of_nat k)%Z eqn:A; [|lia]. destruct (Z.of_nat k <? Z.of_nat n)%Z eqn:B; [|lia]. cbn. f_equal. lia.
Qed.
Lemma remove1_tokens a t : In t (tokens a) -> exists a', remove1 a t = Ok a' /\ tokens a' = remove_first t (tokens a).
Proof.
  intros I. destruct (proj1 (index_of_in _ _) I) as (k & E). unfold remove1. rewrite E.
  destruct (index_of_lt _ _ _ E) as (L & _ & R & _). unfold del_item, list_del. rewrite norm_of_nat by exact L. cbn [bind].
  eexists. split; [reflexivity|]. rewrite tokens_set; [exact R|]. apply Forall_cut, tokens_plain.
Qed.
Definition drop1 (l : list text) (t : text) : list text := remove_first t l.
Lemma remove_first_not_in t l : ~ In t l -> remove_first t l = l.
Proof.
  induction l as [|x l IH]; intros H; [reflexivity|]. cbn. destruct (text_eqb_spec x t) as [->|N]; [destruct H; now left|].
  f_equal. apply IH. intros I. apply H. now right.
Qed.
Lemma remove_all_tokens l : forall a, exists a', remove_all a l = (a', Ok tt) /\ tokens a' = fold_left drop1 l (tokens a).
Proof.
  induction l as [|t l IH]; intros a; [exists a; split; reflexivity|]. cbn [remove_all fold_left].
  destruct (mem t (tokens a)) eqn:M.
  - apply mem_in in M. destruct (remove1_tokens a t M) as (a1 & -> & T). destruct (IH a1) as (a2 & -> & T2).
    exists a2. split; [reflexivity|]. now rewrite T2, T.
  - apply mem_not_in in M. destruct (IH a) as (a2 & -> & T2). exists a2. split; [reflexivity|]. rewrite T2.
    unfold drop1 at 3. now rewrite remove_first_not_in.
Qed.
Lemma occ_remove_first t l x : occ x (remove_first t l) = (occ x l - if text_eqb x t then 1 else 0)%nat.
Proof.
  induction l as [|y l IH]; cbn [remove_first occ]; [destruct (text_eqb x t); reflexivity|].
  destruct (text_eqb_spec y t) as [->|N].
  - destruct (text_eqb x t); lia.
  - cbn [occ]. rewrite IH. destruct (text_eqb_spec x t) as [E|E]; [|lia]. destruct (text_eqb_spec x y) as [E2|]; [congruence|]. lia.
Qed.
Lemma remove_first_filter t l : NoDup l -> remove_first t l = filter (fun x => negb (text_eqb x t)) l.
Proof.
  induction 1 as [|y l N D IH]; [reflexivity|]. cbn. destruct (text_eqb_spec y t) as [->|E]; cbn [negb].
  - symmetry. clear IH. induction l as [|z l IHl]; [reflexivity|]. cbn. destruct (text_eqb_spec z t) as [->|]; [destruct N; now left|].
    cbn. f_equal. apply IHl; [intros I; apply N; now right|now inversion D].
  - now rewrite IH.
Qed.
Lemma drops_filter l : forall s, NoDup s -> fold_left drop1 l s = filter (fun x => negb (mem x l)) s.
Proof.
  induction l as [|t l IH]; intros s D; cbn [fold_left].
  - cbn. clear. induction s; [reflexivity|]. cbn. now f_equal.
  - unfold drop1 at 2. rewrite remove_first_filter by exact D. rewrite IH by now apply NoDup_filter.
    clear. induction s as [|y s IHs]; [reflexivity|]. cbn. destruct (text_eqb y t); cbn; [exact IHs|]. rewrite IHs. reflexivity.
Qed.
Lemma occ_drops l : forall s x, (occ x (fold_left drop1 l s) <= occ x s)%nat.
Proof.
  induction l as [|t l IH]; intros s x; cbn [fold_left]; [lia|]. specialize (IH (drop1 s t) x).
  unfold drop1 in *. rewrite occ_remove_first in IH. lia.
Qed.

(** setting one item *)
Lemma set_item_few a i t a' : plain t -> set_item a i t = Ok a' -> few a a'.
Proof.
  intros P. unfold set_item. destruct (mem t (tokens a)) eqn:M; [injection 1 as <-; apply few_refl|].
  unfold list_set. destruct (norm_index _ _) as [k|] eqn:E; [|discriminate]. cbn [bind]. injection 1 as <-. intros x.
  apply mem_not_in in M.
  rewrite tokens_set; [|apply (Forall_cut2 k (S k) (tokens a) [t]); [apply tokens_plain|constructor; [exact P|constructor]]].
  rewrite occ_app. rewrite occ_cons. pose proof (occ_cut x (tokens a) k (S k) ltac:(lia)) as H. cbn [skipn] in H.
  destruct (text_eqb_spec x t) as [E2|]; [pose proof (occ_not_in _ _ M); rewrite E2 in *|]; lia.
Qed.
Lemma set_slice_few a i j l : Forall plain l -> NoDup l -> few a (set_slice a i j l).
Proof.
  intros P D. unfold set_slice. set (f := filter _ l).
  assert (Pf : Forall plain f) by (apply Forall_forall; intros x I; apply filter_In in I; rewrite Forall_forall in P; now apply P).
  assert (Df : NoDup f) by now apply NoDup_filter.
  assert (Nf : forall x, In x f -> ~ In x (tokens a)).
  { intros x I. apply filter_In in I. destruct I as [_ I]. apply negb_true_iff in I. now apply mem_not_in. }
  destruct f as [|y f'] eqn:E; [apply few_refl|]. rewrite <- E in *. intros x. unfold list_set_slice.
  set (k := clamp_index _ i). set (m := Nat.max k _).
  rewrite tokens_set by (apply Forall_cut2; [apply tokens_plain|exact Pf]).
  rewrite !occ_app. pose proof (occ_cut x (tokens a) k m ltac:(lia)). apply occ_nodup with (x := x) in Df.
  destruct (in_dec (list_eq_dec N.eq_dec) x f) as [I|I].
  - rewrite (occ_not_in x (tokens a)) in * by now apply Nf. lia.
  - rewrite (occ_not_in x f I). lia.
Qed.
