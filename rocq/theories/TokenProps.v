(** C19: DOMTokenList (svgpy/dom.py 176-350). *)
From Verif Require Import PyBase PyText PyList PySplit TokenModel TokenSpec TokenProofs TokenProofs2.
Local Open Scope N_scope.

(** The tokens are the white-space separated words of the attribute. *)
Theorem c19_tokens_are_words v : words v (tokens (Some v)).
Proof. exact (tokens_words v). Qed.
Print Assumptions c19_tokens_are_words.
Example c19_tokens_are_words_ex : tokens (Some (lit "  a bc  d ")) = [lit "a"; lit "bc"; lit "d"].
Proof. reflexivity. Qed.

(** A token is refused exactly when it is empty or holds ASCII white space;
    a refused call leaves the attribute as it was. *)
Theorem c19_refuse a t n l i :
  (~ Forall dom_token l -> add a l = (a, Err ValueError) /\ remove a l = (a, Err ValueError)) /\
  (Forall dom_token l -> is_ok (snd (remove a l)) = true) /\
  (~ dom_token t -> insert a i t = Err ValueError) /\
  (dom_token t -> is_ok (insert a i t) = true) /\
  (~ dom_token t \/ ~ dom_token n -> replace a t n = (a, Err ValueError)).
Proof.
  split; [|split; [|split; [|split]]].
  - intros H. unfold add, remove. now rewrite (validate_all_bad l H).
  - intros H. unfold remove. rewrite (proj1 (validate_all_ok l) H). destruct (remove_all_tokens l a) as (a' & -> & _). reflexivity.
  - intros H. unfold insert. now rewrite (proj1 (validate_bad t) H).
  - intros H. unfold insert. now rewrite (proj1 (validate_ok t) H).
  - intros H. unfold replace. rewrite (validate_all_bad [t; n]); [reflexivity|].
    intros F. inversion F as [|? ? A B]; subst. inversion B; subst. destruct H; contradiction.
Qed.
Print Assumptions c19_refuse.
Example c19_refuse_ex : add (Some (lit "a")) [lit "b"; lit "c d"] = (Some (lit "a"), Err ValueError)
  /\ insert (Some (lit "a")) 0 [] = Err ValueError /\ ~ Forall dom_token [lit "b"; lit "c d"].
Proof.
  split; [reflexivity|split; [reflexivity|]]. rewrite validate_all_ok. discriminate.
Qed.

(** add(t1, ..., tn): the old tokens stay, in place and in order; the new
    ones come after, each once; afterwards exactly the old and the given
    tokens are present. *)
Theorem c19_add a l : Forall plain l -> exists a' new,
  add a l = (a', Ok tt) /\ tokens a' = tokens a ++ new /\ NoDup new /\
  (forall x, In x new <-> In x l /\ ~ In x (tokens a)) /\
  (forall x, contains a' x = true <-> In x (tokens a) \/ In x l).
Proof.
  intros F. destruct (add_tokens a l F) as (a' & E & T). destruct (puts_prefix l (tokens a)) as (new & P).
  exists a', new. rewrite P in T.
  assert (I : forall x, In x (tokens a ++ new) <-> In x (tokens a) \/ In x l) by (intros x; rewrite <- P; apply puts_in).
  assert (O : forall x, (occ x (tokens a) + occ x new <= Nat.max 1 (occ x (tokens a)))%nat).
  { intros x. rewrite <- occ_app, <- P. apply few_puts. }
  split; [exact E|]. split; [exact T|]. split; [|split].
  - apply occ_nodup. intros x. specialize (O x). lia.
  - intros x. split.
    + intros N. assert (~ In x (tokens a)) as NI.
      { intros H. specialize (O x). apply occ_in in N, H. lia. }
      split; [|exact NI]. destruct (proj1 (I x)); [apply in_or_app; now right|contradiction|assumption].
    + intros [L N]. destruct (in_app_or _ _ _ (proj2 (I x) (or_intror L))); [contradiction|assumption].
  - intros x. unfold contains. rewrite mem_in, T. apply I.
Qed.
Print Assumptions c19_add.
Example c19_add_ex : fst (add (Some (lit "a  b")) [lit "c"; lit "a"; lit "c"]) = Some (lit "a b c")
  /\ Forall plain [lit "c"; lit "a"; lit "c"].
Proof. split; [reflexivity|]. apply Forall_plain. repeat constructor. Qed.

(** remove(t1, ..., tn) from a list without repeated tokens keeps exactly the
    other tokens, in order. *)
Theorem c19_remove_partial a l : NoDup (tokens a) -> Forall dom_token l -> exists a',
  remove a l = (a', Ok tt) /\ tokens a' = filter (fun x => negb (mem x l)) (tokens a) /\
  (forall x, contains a' x = true <-> In x (tokens a) /\ ~ In x l).
Proof.
  intros D F. unfold remove. rewrite (proj1 (validate_all_ok l) F). destruct (remove_all_tokens l a) as (a' & E & T).
  rewrite drops_filter in T by exact D. exists a'. split; [exact E|]. split; [exact T|].
  intros x. unfold contains. rewrite mem_in, T, filter_In, negb_true_iff, mem_not_in. reflexivity.
Qed.
Print Assumptions c19_remove_partial.
Example c19_remove_partial_ex : fst (remove (Some (lit "a b c")) [lit "b"; lit "x"]) = Some (lit "a c")
  /\ fst (remove (Some (lit "a")) [lit "a"]) = None.
Proof. split; reflexivity. Qed.

(** Without the assumption the claim is false: in class="a a", remove("a")
    takes one of the two away, and "a" is still contained. *)
Theorem c19_remove_refuted : exists a t, plain t /\ contains (fst (remove a [t])) t = true.
Proof. exists (Some (lit "a a")), (lit "a"). split; [now apply plain_clean|reflexivity]. Qed.
Print Assumptions c19_remove_refuted.

(** toggle: the answer says whether the token is present afterwards, force
    decides it, and no other token changes. *)
Theorem c19_toggle_partial a t f : NoDup (tokens a) -> plain t -> exists a' b,
  toggle a t f = (a', Ok b) /\ contains a' t = b /\
  b = match f with Some v => v | None => negb (contains a t) end /\
  (forall x, x <> t -> contains a' x = contains a x) /\
  filter (fun x => negb (text_eqb x t)) (tokens a') = filter (fun x => negb (text_eqb x t)) (tokens a).
Proof.
  intros D P. unfold toggle, contains.
  assert (K : forall a1 l, tokens a1 = l -> (forall x, mem x (tokens a1) = mem x l)) by (intros ? ? ->; reflexivity).
  destruct (mem t (tokens a)) eqn:M.
  - assert (R : exists a', remove a [t] = (a', Ok tt) /\ tokens a' = filter (fun x => negb (text_eqb x t)) (tokens a)).
    { destruct (c19_remove_partial a [t] D) as (a' & E & T & _); [constructor; [now apply dom_plain|constructor]|].
      exists a'. split; [exact E|]. rewrite T. apply filter_ext. intros x. cbn. now rewrite orb_false_r. }
    destruct R as (a' & E & T).
    assert (R2 : mem t (tokens a') = false /\ (forall x, x <> t -> mem x (tokens a') = mem x (tokens a)) /\
       filter (fun x => negb (text_eqb x t)) (tokens a') = filter (fun x => negb (text_eqb x t)) (tokens a)).
    { split; [|split].
      - apply mem_not_in. rewrite T, filter_In, text_eqb_refl. intros [_ H]. discriminate.
      - intros x N. destruct (mem x (tokens a)) eqn:X.
        + apply mem_in. rewrite T. apply filter_In. split; [now apply mem_in|]. destruct (text_eqb_spec x t); [congruence|reflexivity].
        + apply mem_not_in. rewrite T. intros H. apply filter_In in H. apply mem_not_in in X. now apply X.
      - rewrite T. clear. induction (tokens a) as [|y l IH]; [reflexivity|]. cbn. destruct (text_eqb y t) eqn:E; cbn; [exact IH|]. rewrite E. cbn. now rewrite IH. }
    destruct f as [[]|].
    + exists a, true. repeat split; auto.
    + rewrite E. exists a', false. destruct R2 as (R2 & R3 & R4). repeat split; auto.
    + rewrite E. exists a', false. destruct R2 as (R2 & R3 & R4). repeat split; auto.
  - destruct (add_tokens a [t] (Forall_cons _ P (Forall_nil _))) as (a' & E & T). cbn [fold_left] in T.
    assert (R2 : mem t (tokens a') = true /\ (forall x, x <> t -> mem x (tokens a') = mem x (tokens a)) /\
       filter (fun x => negb (text_eqb x t)) (tokens a') = filter (fun x => negb (text_eqb x t)) (tokens a)).
    { split; [|split].
      - apply mem_in. rewrite T. apply put_in. now right.
      - intros x N. destruct (mem x (tokens a)) eqn:X.
        + apply mem_in. rewrite T. apply put_in. left. now apply mem_in.
        + apply mem_not_in. rewrite T, put_in. apply mem_not_in in X. intuition.
      - rewrite T. unfold put. rewrite M, filter_app. cbn. rewrite text_eqb_refl. cbn. now rewrite app_nil_r. }
    destruct R2 as (R2 & R3 & R4). destruct f as [[]|].
    + rewrite E. exists a', true. repeat split; auto.
    + exists a, false. repeat split; auto.
    + rewrite E. exists a', true. repeat split; auto.
Qed.
Print Assumptions c19_toggle_partial.
Example c19_toggle_ex : toggle (Some (lit "a b")) (lit "a") None = (Some (lit "b"), Ok false)
  /\ toggle (Some (lit "b")) (lit "a") None = (Some (lit "b a"), Ok true)
  /\ toggle None (lit "a") (Some false) = (None, Ok false).
Proof. repeat split. Qed.

(** replace puts the new token in the place of the first occurrence of the
    old one, and answers whether it did. *)
Theorem c19_replace a t n : plain t -> plain n ->
  (In t (tokens a) -> ~ In n (tokens a) -> exists a' pre post, replace a t n = (a', Ok true) /\
     tokens a = pre ++ t :: post /\ ~ In t pre /\ tokens a' = pre ++ n :: post) /\
  (~ In t (tokens a) \/ In n (tokens a) -> replace a t n = (a, Ok false)).
Proof.
  intros Pt Pn. split; [now apply replace_tokens|]. intros H. unfold replace.
  rewrite (proj1 (validate_all_ok [t; n])) by (constructor; [now apply dom_plain|constructor; [now apply dom_plain|constructor]]).
  destruct H as [H|H]; [rewrite (proj2 (mem_not_in _ _) H)|rewrite (proj2 (mem_in _ _) H), orb_true_r]; reflexivity.
Qed.
Print Assumptions c19_replace.
Example c19_replace_ex : replace (Some (lit "a b c")) (lit "b") (lit "x") = (Some (lit "a x c"), Ok true).
Proof. reflexivity. Qed.

(** insert puts an absent token where list.insert would. *)
Theorem c19_insert a i t : plain t -> exists a', insert a i t = Ok a' /\
  (In t (tokens a) -> tokens a' = tokens a) /\
  (~ In t (tokens a) -> exists pre post, tokens a = pre ++ post /\ tokens a' = pre ++ t :: post /\
      length pre = clamp_index (length (tokens a)) i).
Proof.
  intros P. destruct (insert_tokens a i t P) as (a' & E & T). exists a'. split; [exact E|]. split.
  - intros I. now rewrite T, (proj2 (mem_in _ _) I).
  - intros I. rewrite (proj2 (mem_not_in _ _) I) in T. unfold list_insert in T. set (k := clamp_index _ i) in *.
    exists (firstn k (tokens a)), (skipn k (tokens a)). split; [now rewrite firstn_skipn|]. split; [exact T|].
    apply firstn_length_le. unfold k, clamp_index. destruct (i <? 0)%Z; cbv zeta;
    match goal with |- context [(?z <? 0)%Z] => destruct (Z.ltb_spec z 0) end; try lia;
    match goal with |- context [(?n <? ?z)%Z] => destruct (Z.ltb_spec n z) end; lia.
Qed.
Print Assumptions c19_insert.
Example c19_insert_ex : insert (Some (lit "a b")) (-1) (lit "x") = Ok (Some (lit "a x b")).
Proof. reflexivity. Qed.

(** Through any history of operations with tokens free of white space, no
    token is repeated more often than at the beginning (or once); in
    particular a list without repetitions stays so.  Wordlike arguments are
    tokens that hold no white space or are refused. *)
Theorem c19_history a ops : Forall wordlike_op ops ->
  (forall x, (occ x (tokens (run a ops)) <= Nat.max 1 (occ x (tokens a)))%nat) /\
  (NoDup (tokens a) -> NoDup (tokens (run a ops))) /\
  (run a ops = a \/ run a ops = match tokens (run a ops) with [] => None | l => Some (join [32] l) end).
Proof.
  intros F. split; [exact (run_few ops a F)|]. split; [now apply run_nodup|]. exact (run_fresh ops a F).
Qed.
Print Assumptions c19_history.
Example c19_history_ex :
  let ops := [OAdd [lit "a"; lit "b"]; OToggle (lit "c") None; OInsert 0 (lit "b"); OSetItem 1 (lit "z");
              ORemove [lit "a"; lit ""]; OReplace (lit "a") (lit "q"); OPop 0; OReverse] in
  Forall wordlike_op ops /\ run None ops = Some (lit "z c").
Proof.
  split; [|reflexivity]. repeat (match goal with |- Forall _ _ => constructor end; cbn [wordlike_op]);
  try exact I; try (split; intros _; now apply plain_clean); try (intros _; now apply plain_clean); try now apply plain_clean.
  intros [H _]. now destruct H.
Qed.

(** clear() empties the list. *)
Theorem c19_clear a : tokens (clear a) = [].
Proof. exact (clear_all a). Qed.
Print Assumptions c19_clear.
Example c19_clear_ex : clear (Some (lit "a b a")) = None.
Proof. reflexivity. Qed.

(** Findings.  A token holding a no-break space passes the validation, but is
    stored as two tokens; the repetition of an existing token is possible
    this way. *)
Theorem c19_space_refuted : exists a t, dom_token t /\ snd (add a [t]) = Ok tt /\
  contains (fst (add a [t])) t = false /\ ~ NoDup (tokens (fst (add a [t]))) /\ NoDup (tokens a).
Proof.
  exists (Some (lit "a")), (lit "b" ++ [160] ++ lit "a"). split; [now apply validate_ok|]. split; [reflexivity|].
  split; [reflexivity|]. split.
  - rewrite occ_nodup. intros H. specialize (H (lit "a")). vm_compute in H. lia.
  - change (tokens (Some (lit "a"))) with [lit "a"]. constructor; [intros []|constructor].
Qed.
Print Assumptions c19_space_refuted.

(** reverse(), inherited from MutableSequence, never changes anything. *)
Theorem c19_reverse_refuted : (forall a, reverse a = Ok a) /\ exists a, rev (tokens a) <> tokens a.
Proof. split; [exact reverse_same|]. exists (Some (lit "a b")). discriminate. Qed.
Print Assumptions c19_reverse_refuted.
