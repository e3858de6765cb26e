(** str.split of Python, on lists of code points. *)
From Verif Require Import PyBase PyText.
Local Open Scope N_scope.

(* str.split() without argument: the maximal runs of non-space characters *)
Definition flush (w : text) : list text := match w with [] => [] | _ => [w] end.
Fixpoint split_acc (w : text) (t : text) : list text :=
  match t with
  | [] => flush w
  | c :: t' => if is_space c then flush w ++ split_acc [] t' else split_acc (w ++ [c]) t'
  end.
Definition split_ws (t : text) : list text := split_acc [] t.

(* str.split(sep) for a one-character separator *)
Fixpoint split_on_acc (f : N -> bool) (w : text) (t : text) : list text :=
  match t with
  | [] => [w]
  | c :: t' => if f c then w :: split_on_acc f [] t' else split_on_acc f (w ++ [c]) t'
  end.
Definition split_on (c : N) (t : text) : list text := split_on_acc (N.eqb c) [] t.

(* x in (a, b, ...) for texts *)
Definition mem (x : text) (l : list text) : bool := existsb (text_eqb x) l.

(** *** Facts *)
Definition clean (w : text) : bool :=
  match w with [] => false | _ => forallb (fun c => negb (is_space c)) w end.

Lemma mem_in x l : mem x l = true <-> In x l.
Proof.
  unfold mem. rewrite existsb_exists. split.
  - intros (y & H & E). destruct (text_eqb_spec x y); [subst; exact H|discriminate].
  - intros H. exists x. split; [exact H|apply text_eqb_refl].
Qed.
Lemma mem_not_in x l : mem x l = false <-> ~ In x l.
Proof. rewrite <- mem_in. destruct (mem x l); split; congruence. Qed.

Lemma flush_clean w : forallb (fun c => negb (is_space c)) w = true -> Forall (fun x => clean x = true) (flush w).
Proof. destruct w; intros H; [constructor|]. constructor; [exact H|constructor]. Qed.
Lemma split_acc_clean t : forall w, forallb (fun c => negb (is_space c)) w = true ->
  Forall (fun x => clean x = true) (split_acc w t).
Proof.
  induction t as [|c t IH]; intros w H; cbn [split_acc]; [now apply flush_clean|].
  destruct (is_space c) eqn:E.
  - apply Forall_app. split; [now apply flush_clean|]. apply IH. reflexivity.
  - apply IH. rewrite forallb_app, H. cbn. now rewrite E.
Qed.
Lemma split_clean t : Forall (fun x => clean x = true) (split_ws t).
Proof. now apply split_acc_clean. Qed.

Lemma split_acc_word u : forall w t, forallb (fun c => negb (is_space c)) u = true ->
  split_acc w (u ++ t) = split_acc (w ++ u) t.
Proof.
  induction u as [|c u IH]; intros w t H; [now rewrite app_nil_r|].
  cbn [forallb] in H. apply andb_true_iff in H. destruct H as [H1 H2].
  cbn [app split_acc]. apply negb_true_iff in H1. rewrite H1. rewrite IH by exact H2.
  now rewrite <- app_assoc.
Qed.
Lemma clean_forallb w : clean w = true -> forallb (fun c => negb (is_space c)) w = true /\ w <> [].
Proof. destruct w; [discriminate|]. intros H. split; [exact H|discriminate]. Qed.
Lemma split_join l : Forall (fun x => clean x = true) l -> split_ws (join [32] l) = l.
Proof.
  induction 1 as [|w l H F IH]; [reflexivity|].
  apply clean_forallb in H. destruct H as [H N]. unfold split_ws.
  destruct l as [|v l].
  - cbn [join]. rewrite <- (app_nil_r w) at 1. rewrite split_acc_word by exact H. cbn.
    destruct w; [congruence|reflexivity].
  - change (join [32] (w :: v :: l)) with (w ++ [32] ++ join [32] (v :: l)).
    rewrite split_acc_word by exact H. cbn [app]. cbn [split_acc]. 
    change (is_space 32) with true. cbn iota. unfold split_ws in IH. rewrite IH.
    destruct w; [congruence|reflexivity].
Qed.
Lemma join_clean_strip l : Forall (fun x => clean x = true) l -> strip (join [32] l) = join [32] l.
Proof.
  intros F. apply strip_id.
  - destruct F as [|w l H F]; [reflexivity|]. apply clean_forallb in H. destruct H as [H N].
    destruct w as [|c w]; [congruence|]. cbn [forallb] in H. apply andb_true_iff in H.
    destruct l; cbn; apply H.
  - induction F as [|w l H F IH]; [reflexivity|]. apply clean_forallb in H. destruct H as [H N].
    destruct l as [|v l].
    + cbn [join]. rewrite forallb_forall in H. destruct (rev w) as [|c r] eqn:E; [reflexivity|].
      cbn. apply H. apply in_rev. rewrite E. left. reflexivity.
    + change (join [32] (w :: v :: l)) with (w ++ [32] ++ join [32] (v :: l)). rewrite !rev_app_distr.
      destruct (rev (join [32] (v :: l))) as [|c r] eqn:E; [|exact IH].
      exfalso. inversion F as [|? ? Hv _]; subst. apply clean_forallb in Hv. destruct Hv as [_ Nv].
      apply (f_equal (@rev BinNums.N)) in E. rewrite rev_involutive in E.
      destruct v; [congruence|]. destruct l; discriminate E.
Qed.
Lemma join_nil_iff l : Forall (fun x => clean x = true) l -> join [32] l = [] -> l = [].
Proof.
  intros F. destruct F as [|w l H F]; [reflexivity|]. apply clean_forallb in H. destruct H as [_ N].
  destruct w; [congruence|]. destruct l; discriminate.
Qed.

(** splitting on a separator and joining with it are inverse *)
Lemma split_on_word f u : forall w t, forallb (fun c => negb (f c)) u = true ->
  split_on_acc f w (u ++ t) = split_on_acc f (w ++ u) t.
Proof.
  induction u as [|c u IH]; intros w t H; [now rewrite app_nil_r|].
  cbn [forallb] in H. apply andb_true_iff in H. destruct H as [H1 H2].
  cbn [app split_on_acc]. apply negb_true_iff in H1. rewrite H1, IH by exact H2. now rewrite <- app_assoc.
Qed.
Lemma split_on_join c l : l <> [] -> Forall (fun w => forallb (fun x => negb (c =? x)) w = true) l ->
  split_on c (join [c] l) = l.
Proof.
  intros N F. induction F as [|w l H F IH]; [congruence|]. unfold split_on. destruct l as [|v l].
  - cbn [join]. rewrite <- (app_nil_r w) at 1. rewrite split_on_word by exact H. reflexivity.
  - change (join [c] (w :: v :: l)) with (w ++ [c] ++ join [c] (v :: l)).
    rewrite split_on_word by exact H. cbn [app split_on_acc]. rewrite N.eqb_refl.
    f_equal. apply IH. discriminate.
Qed.
Lemma join_split_on_acc c t : forall w, join [c] (split_on_acc (N.eqb c) w t) = w ++ t.
Proof.
  induction t as [|x t IH]; intros w; cbn [split_on_acc]; [now rewrite app_nil_r|].
  destruct (N.eqb_spec c x) as [->|E].
  - specialize (IH []). destruct (split_on_acc (N.eqb x) [] t) as [|a l] eqn:S.
    + destruct t; discriminate S || (cbn in S; destruct (x =? n); discriminate S) || idtac.
      cbn in S. destruct (x =? n); [discriminate|]. exfalso.
      assert (G : forall t w, split_on_acc (N.eqb x) w t <> []).
      { clear. induction t as [|y t IHt]; intros w; cbn; [discriminate|]. destruct (x =? y); [discriminate|apply IHt]. }
      exact (G _ _ S).
    + change (join [x] (w :: a :: l)) with (w ++ [x] ++ join [x] (a :: l)). rewrite IH. reflexivity.
  - rewrite IH, <- app_assoc. reflexivity.
Qed.
Lemma join_split_on c t : join [c] (split_on c t) = t.
Proof. exact (join_split_on_acc c t []). Qed.

Lemma Forall_firstn {A} (P : A -> Prop) n l : Forall P l -> Forall P (firstn n l).
Proof. intros H. rewrite <- (firstn_skipn n l) in H. now apply Forall_app in H. Qed.
Lemma Forall_skipn {A} (P : A -> Prop) n l : Forall P l -> Forall P (skipn n l).
Proof. intros H. rewrite <- (firstn_skipn n l) in H. now apply Forall_app in H. Qed.
