(** C51 and C53: unparsed values and var() references. *)
From Verif Require Import PyBase PyText PyCase PyList UnparsedModel UnparsedSpec UnparsedProofs.

(** ** C51: unparsed values are mutable sequences *)
(** Slice assignment, insertion, append, extend, deletion, pop, remove and clear do to the
    members what they do to a Python list, and refuse objects of other types (an
    extend keeps what comes before the refused one).  Not covered: assignment to an
    index and reverse, which insert. *)
Theorem c51_step_partial l o r : list_step l o = Some r -> ustep l o = r.
Proof. apply step_spec. Qed.
Print Assumptions c51_step_partial.
Example c51_step_ex : list_step [Str (lit "a"); Ref (lit "--b") None; Str (lit "a")] (URemove (lit "a")) = Some ([Ref (lit "--b") None; Str (lit "a")], None)
  /\ list_step [Str (lit "a")] (UExtend [Str (lit "b"); Other; Str (lit "c")]) = Some ([Str (lit "a"); Str (lit "b")], Some TypeError)
  /\ list_step [Str (lit "a"); Str (lit "b")] (UPop (-3)) = Some ([Str (lit "a"); Str (lit "b")], Some IndexError).
Proof. repeat split. Qed.
(** So does every history of these operations. *)
Definition list_run (l : list item) (ops : list uop) : list item := fold_left (fun l o => match list_step l o with Some r => fst r | None => l end) ops l.
Theorem c51_history_partial u ops : (forall o l, In o ops -> list_step l o <> None) -> u_toks (urun u ops) = list_run (u_toks u) ops.
Proof.
  unfold urun, list_run. cbn [u_toks]. generalize (u_toks u) as l. induction ops as [|o ops IH]; intros l H; [reflexivity|]. cbn [fold_left].
  assert (S := H o l (or_introl eq_refl)). destruct (list_step l o) as [r|] eqn:E; [|congruence]. rewrite (step_spec l o r E). apply IH. intros o' l' I. apply H. now right.
Qed.
Print Assumptions c51_history_partial.
Example c51_history_ex : let ops := [UAppend (Str (lit "a")); UInsert (-9) (Str (lit "b")); UExtend [Str (lit "c"); Str (lit "d")]; UDelSlice 1 3; USetSlice 0 0 [Ref (lit "--x") None]; UPop (-1)] in
  (forall o l, In o ops -> list_step l o <> None) /\ u_toks (urun (mkU None []) ops) = [Ref (lit "--x") None; Str (lit "b")].
Proof. split; [|reflexivity]. cbn. intros o l H. repeat (destruct H as [<-|H]; [discriminate|]). contradiction. Qed.
(** No history puts an object of another type among the members. *)
Theorem c51_members u ops : Forall member (u_toks u) -> Forall member (u_toks (urun u ops)).
Proof. unfold urun. cbn [u_toks]. generalize (u_toks u) as l. induction ops as [|o ops IH]; intros l H; [exact H|]. cbn [fold_left]. apply IH. now apply step_members. Qed.
Print Assumptions c51_members.
Example c51_members_ex : u_toks (urun (mkU None []) [UAppend Other; UAppend (Str (lit "a")); USetSlice 0 1 [Str (lit "z"); Other]; USet 0 Other; UReverse]) = [Str (lit "a")]. Proof. reflexivity. Qed.
(** An operation that raises leaves the members unchanged, extend excepted. *)
Theorem c51_raise l o e : (forall xs, o <> UExtend xs) -> o <> UReverse -> snd (ustep l o) = Some e -> fst (ustep l o) = l.
Proof.
  intros X R. destruct o; cbn [ustep]; try congruence.
  - unfold set_int. destruct (bad x); [reflexivity|discriminate].
  - unfold set_slice. destruct (existsb bad xs); [reflexivity|discriminate].
  - unfold insert, set_int. destruct (bad x); [reflexivity|discriminate].
  - unfold append, insert, set_int. destruct (bad x); [reflexivity|discriminate].
  - unfold del_int. destruct (list_del l i); [discriminate|reflexivity].
  - discriminate.
  - rewrite pop_spec. unfold del_int. destruct (list_del l i); [discriminate|reflexivity].
  - unfold remove. destruct (index_from l t 0); [|reflexivity]. unfold del_int. destruct (list_del l z); [discriminate|reflexivity].
  - unfold clear. rewrite clear_spec by lia. discriminate.
Qed.
Print Assumptions c51_raise.
Example c51_raise_ex : ustep [Str (lit "a")] (UDel 1) = ([Str (lit "a")], Some IndexError). Proof. reflexivity. Qed.
(** Assigning to an index always inserts: nothing is replaced, and no index is refused. *)
Theorem c51_set_inserts l i x : x <> Other -> ustep l (USet i x) = (list_insert l i x, None) /\ length (fst (ustep l (USet i x))) = S (length l).
Proof.
  intros X. cbn [ustep]. unfold set_int. destruct x; [| |congruence]; cbn [bad]; (split; [reflexivity|]); cbn [fst]; unfold list_insert; rewrite app_length; cbn [length]; rewrite firstn_length, skipn_length; lia.
Qed.
Print Assumptions c51_set_inserts.
(* [seq[0] = 'b'] on ['a'] *)
Theorem c51_set_refuted : exists l x l', list_set l 0 x = Ok l' /\ fst (ustep l (USet 0 x)) <> l'.
Proof. exists [Str (lit "a")], (Str (lit "b")), [Str (lit "b")]. split; [reflexivity|discriminate]. Qed.
Print Assumptions c51_set_refuted.
(* an index beyond the end *)
Theorem c51_set_index_refuted : exists l x i, list_set l i x = Err IndexError /\ snd (ustep l (USet i x)) = None.
Proof. exists [], (Str (lit "b")), 5%Z. split; reflexivity. Qed.
Print Assumptions c51_set_index_refuted.
(** reverse() reverses lists of fewer than two members only. *)
Lemma swaps_length n m : forall k l l', swaps n k m l = (l', None) -> length l' = (length l + 2 * m)%nat.
Proof.
  assert (S : forall l i x l', set_int l i x = (l', None) -> length l' = S (length l)).
  { intros l i x l'. unfold set_int. destruct (bad x); [discriminate|]. intros [= <-]. unfold list_insert. rewrite app_length. cbn [length]. rewrite firstn_length, skipn_length. lia. }
  induction m as [|m IH]; intros k l l'; cbn [swaps]; [intros [= <-]; lia|]. destruct (list_get l _) as [a|]; [|discriminate]. destruct (list_get l k) as [b|]; [|discriminate].
  destruct (set_int l k a) as [l1 [e|]] eqn:E1; [discriminate|]. destruct (set_int l1 _ b) as [l2 [e|]] eqn:E2; [discriminate|]. intros E3. rewrite (IH _ _ _ E3), (S _ _ _ _ E2), (S _ _ _ _ E1). lia.
Qed.
Theorem c51_reverse l : ustep l UReverse = (rev l, None) <-> (length l < 2)%nat.
Proof.
  cbn [ustep]. unfold reverse. split.
  - intros E. apply swaps_length in E. rewrite rev_length in E. assert (D := Nat.div2_odd (length l)). destruct (Nat.odd (length l)); cbn [Nat.b2n] in D; lia.
  - destruct l as [|x [|y l]]; [reflexivity|reflexivity|cbn; lia].
Qed.
Print Assumptions c51_reverse.
Theorem c51_reverse_refuted : exists l, fst (ustep l UReverse) <> rev l /\ fst (ustep l UReverse) = [Str (lit "b"); Str (lit "a"); Str (lit "a"); Str (lit "b")].
Proof. exists [Str (lit "a"); Str (lit "b")]. split; [discriminate|reflexivity]. Qed.
Print Assumptions c51_reverse_refuted.
(* the text of a value that was parsed is the parsed text, whatever happens to the members *)
Theorem c51_text_refuted : exists u o, unparsed_text u = items_text (u_toks u) /\ snd (ustep (u_toks u) o) = None /\ unparsed_text (urun u [o]) <> items_text (u_toks (urun u [o])).
Proof. exists (mkU (Some (lit "a")) [Str (lit "a")]), (UAppend (Str (lit "b"))). repeat split. discriminate. Qed.
Print Assumptions c51_text_refuted.

(** ** C53: reifying component values keeps their text *)
(** Every list of component values has exactly one rewriting (var() in lower case with
    its name stripped and its fallback, if any, after a comma), and the text of the
    members is that. *)
Theorem c53_text ts : exists w, written ts w /\ items_text (reify ts) = w /\ forall w', written ts w' -> w' = w.
Proof.
  destruct (written_total (S (list_sum (map size ts))) ts ltac:(lia)) as (w & W). exists w. split; [exact W|]. split; [now apply reify_written|]. intros w' W'. rewrite <- (reify_written ts w' W'). now apply reify_written.
Qed.
Print Assumptions c53_text.
Definition w_ex : list tok := [TVal (lit "1px") false; TVal (lit " ") false; TFun (lit "calc") [TFun (lit "VAR") [TVal (lit " ") false; TVal (lit "--a") false; TVal (lit ",") true; TVal (lit "2px") false]; TVal (lit "+") false; TFun (lit "f") []; TFun (lit "var") [TVal (lit "--b") false]]].
Example c53_text_ex : items_text (reify w_ex) = lit "1px calc(var(--a,2px)+f()var(--b))" /\ flat_map ser w_ex = lit "1px calc(VAR( --a,2px)+f()var(--b))"
  /\ reify w_ex = [Str (lit "1px calc("); Ref (lit "--a") (Some [Str (lit "2px")]); Str (lit "+f("); Str (lit ")"); Ref (lit "--b") None; Str (lit ")")].
Proof. repeat split; vm_compute; reflexivity. Qed.
(** Component values whose references are already so written keep their text exactly. *)
Theorem c53_exact ts : tidy ts -> items_text (reify ts) = flat_map ser ts.
Proof. intros T. apply reify_written. now apply tidy_written. Qed.
Print Assumptions c53_exact.
Example c53_exact_ex : tidy [TFun (lit "f") [TVal (lit "a") false; TVal (lit ",") true; TFun (lit "var") [TVal (lit "--x") false; TVal (lit ",") true; TFun (lit "var") [TVal (lit "--y") false]]]].
Proof.
  apply t_fun; [reflexivity| |constructor]. apply t_val; [discriminate|]. apply t_val; [reflexivity|].
  apply (t_var_or (lit "var") _ [] [TVal (lit "--x") false] (lit ",") [TFun (lit "var") [TVal (lit "--y") false]]); try reflexivity; [discriminate| |constructor].
  apply t_var; try reflexivity. constructor.
Qed.
(** The references among the members are those of the values outside of other
    references, in order, under their stripped names. *)
Theorem c53_references ts : ref_names (reify ts) = flat_map var_names ts.
Proof. apply reify_refs. Qed.
Print Assumptions c53_references.
Example c53_references_ex : flat_map var_names w_ex = [lit "--a"; lit "--b"]. Proof. vm_compute. reflexivity. Qed.
(** No member is an empty string. *)
Theorem c53_no_empty ts : Forall (fun x => x <> Str []) (reify ts).
Proof. eapply Forall_impl; [|apply reify_solid]. intros x H. apply H. Qed.
Print Assumptions c53_no_empty.
(** Values without references are strings only, with the text of the values. *)
Theorem c53_plain ts : flat_map var_names ts = [] -> forall x, In x (reify ts) -> exists t, x = Str t.
Proof.
  intros H x I. rewrite <- reify_refs in H. assert (S := reify_solid ts). rewrite Forall_forall in S. specialize (S x I). destruct x as [t|n f|]; [eauto| |destruct S; congruence].
  assert (Z : In n (ref_names (reify ts))) by (apply in_flat_map; exists (Ref n f); split; [exact I|now left]). rewrite H in Z. contradiction.
Qed.
Print Assumptions c53_plain.
Example c53_plain_ex : flat_map var_names [TFun (lit "f") [TVal (lit "1") false]] = [] /\ reify [TFun (lit "f") [TVal (lit "1") false]] = [Str (lit "f(1"); Str (lit ")")]. Proof. split; reflexivity. Qed.
(* an empty fallback, var(--a,), means the empty value and is lost *)
Theorem c53_empty_fallback_refuted : exists ts, flat_map ser ts = lit "var(--a,)" /\ items_text (reify ts) = lit "var(--a)".
Proof. exists [TFun (lit "var") [TVal (lit "--a") false; TVal (lit ",") true]]. split; reflexivity. Qed.
Print Assumptions c53_empty_fallback_refuted.
(* two strings side by side where there is no reference *)
Theorem c53_adjacent_refuted : exists ts a b, flat_map var_names ts = [] /\ reify ts = [Str a; Str b].
Proof. exists [TFun (lit "f") []], (lit "f("), (lit ")"). split; reflexivity. Qed.
Print Assumptions c53_adjacent_refuted.
