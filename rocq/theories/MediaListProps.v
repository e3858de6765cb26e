(** C25: media lists. *)
From Verif Require Import PyBase PyText PySplit PyCase PyList PyStrip MediaListModel MediaListSpec MediaListProofs.
From Coq Require Import Lia.

(** append_medium adds the query at the end, unless it is there already or the
    text holds several queries; append and extend are the same. *)
Theorem c25_append : forall l s,
  (single s -> In (strip s) l -> append_medium l s = l) /\
  (single s -> ~ In (strip s) l -> append_medium l s = l ++ [strip s]) /\
  (~ single s -> append_medium l s = l).
Proof.
  intros l s. rewrite append_spec. split; [|split]; intros S.
  - intros I. rewrite parse_single by exact S. apply mem_in in I. rewrite I. reflexivity.
  - intros I. rewrite parse_single by exact S. apply mem_not_in in I. rewrite I. reflexivity.
  - rewrite parse_many by exact S. reflexivity.
Qed.
Print Assumptions c25_append.
Example c25_append_case :
  append_medium [lit "print"] (lit " screen ") = [lit "print"; lit "screen"] /\
  append_medium [lit "print"; lit "screen"] (lit "screen") = [lit "print"; lit "screen"] /\
  append_medium [lit "print"] (lit "tv, tty") = [lit "print"].
Proof. repeat split. Qed.

(** No history of append, extend, delete_medium, remove, del, reverse and clear
    creates a duplicate. *)
Theorem c25_no_duplicates : forall ops l, NoDup l -> NoDup (fold_left mstep ops l).
Proof. intros ops. induction ops as [|o ops IH]; intros l D; [exact D|]. apply IH, mstep_nodup, D. Qed.
Print Assumptions c25_no_duplicates.
Example c25_no_duplicates_case :
  fold_left mstep [MAppend (lit "a"); MExtend [lit "b"; lit " a"; lit "c"]; MReverse; MDelete (lit "b "); MDelItem (-1); MAppend (lit "c")] []
  = [lit "c"].
Proof. vm_compute. reflexivity. Qed.
(** Assigning media_text, item assignment and insert do. *)
Theorem c25_duplicates_refuted :
  set_media_text [] (lit "screen, screen") = [lit "screen"; lit "screen"] /\
  insert [lit "screen"] 0 (lit "screen") = [lit "screen"; lit "screen"] /\
  set_item [lit "print"; lit "screen"] 0 (lit "screen") = Ok [lit "screen"; lit "screen"].
Proof. repeat split. Qed.
Print Assumptions c25_duplicates_refuted.
(** Queries are compared with letter case but printed without it. *)
Theorem c25_case_refuted : let l := append_medium [lit "Screen"] (lit "screen") in
  NoDup l /\ length l = 2%nat /\ media_text l = lit "screen, screen".
Proof.
  cbn zeta. change (append_medium [lit "Screen"] (lit "screen")) with [lit "Screen"; lit "screen"].
  split; [apply NoDup_cons; [vm_compute; intuition congruence|apply NoDup_cons; [intros []|apply NoDup_nil]]|]. split; reflexivity.
Qed.
Print Assumptions c25_case_refuted.

(** delete_medium removes the query or reports it missing. Missing: a text of
    several queries, which is ignored (below). *)
Theorem c25_delete_partial : forall l s, NoDup l -> single s ->
  (In (strip s) l -> delete_medium l s = Ok (without (strip s) l)) /\
  (~ In (strip s) l -> delete_medium l s = Err ValueError).
Proof.
  intros l s D S. rewrite delete_remove, (parse_single s S), remove_nodup by exact D. split; intros I.
  - apply mem_in in I. rewrite I. reflexivity.
  - apply mem_not_in in I. rewrite I. reflexivity.
Qed.
Print Assumptions c25_delete_partial.
(** With duplicates the first one goes. *)
Theorem c25_delete_first : forall a b m, single m -> strip m = m -> ~ In m a -> delete_medium (a ++ m :: b) m = Ok (a ++ b).
Proof.
  intros a b m S T N. rewrite delete_remove, (parse_single m S), T. unfold remove.
  destruct (index m (a ++ m :: b)) as [i|] eqn:E.
  - apply index_some in E as (a' & b' & E & <- & N').
    assert (a = a' /\ b = b') as [-> ->].
    { clear -E N N'. revert a' E N'. induction a as [|x a IH]; intros [|y a'] E N'; cbn in E.
      - injection E as ->. auto.
      - exfalso. injection E as <- _. apply N'. now left.
      - exfalso. injection E as -> _. apply N. now left.
      - injection E as -> E. destruct (IH (fun I => N (or_intror I)) a' E (fun I => N' (or_intror I))) as [-> ->]. auto. }
    apply del_at.
  - exfalso. apply index_none in E. apply E. apply in_or_app. right. now left.
Qed.
Print Assumptions c25_delete_first.
Example c25_delete_case : NoDup [lit "print"; lit "screen"] /\ delete_medium [lit "print"; lit "screen"] (lit " print") = Ok [lit "screen"] /\
  delete_medium [lit "print"] (lit "tv") = Err ValueError /\ delete_medium [lit "a"; lit "b"; lit "a"] (lit "a") = Ok [lit "b"; lit "a"].
Proof. split; [repeat constructor; cbn; intuition congruence|]. repeat split. Qed.
Theorem c25_delete_refuted : exists l s, delete_medium l s = Ok l /\ ~ In (strip s) l.
Proof. exists [lit "print"], (lit "tv, tty"). split; [reflexivity|]. vm_compute. intuition congruence. Qed.
Print Assumptions c25_delete_refuted.

(** Assigning media_text and reading it is stable, for every text. *)
Theorem c25_text_stable : forall l0 l1 v,
  let t := media_text (set_media_text l0 v) in media_text (set_media_text l1 t) = t.
Proof.
  intros l0 l1 v t. destruct (assigned_query l0 v) as [Q N]. unfold t. rewrite assign_read by assumption.
  unfold media_text. rewrite !lower_join, map_map. f_equal.
  apply map_ext. intros a. apply lower_lower.
Qed.
Print Assumptions c25_text_stable.
(** What the assigned text means: the parts between commas without the space
    around them; a blank text empties the list. *)
Theorem c25_text_parts : forall l0 ms, ms <> [] -> ms <> [[]] -> Forall query ms ->
  set_media_text l0 (join (lit ", ") ms) = ms /\ set_media_text l0 (join (lit ",") ms) = ms.
Proof.
  intros l0 ms N1 N2 F.
  assert (NB : strip (join (lit ", ") ms) <> []).
  { intros H. destruct (join_blank ms F H); contradiction. }
  assert (NB2 : strip (join (lit ",") ms) <> []).
  { intros H. apply NB. clear -H. apply strip_nil_iff in H. apply strip_nil_iff. destruct ms as [|m [|m2 ms]]; [reflexivity|exact H|].
    exfalso. change (join (lit ",") (m :: m2 :: ms)) with (m ++ [44%N] ++ join (lit ",") (m2 :: ms)) in H.
    rewrite !forallb_app in H. cbn in H. rewrite Bool.andb_false_r in H. discriminate. }
  unfold set_media_text. split.
  - destruct (ShortModel.normalize_text _) eqn:E; [apply normalize_nil in E; contradiction|]. apply split_comma_join; assumption.
  - destruct (ShortModel.normalize_text _) eqn:E; [apply normalize_nil in E; contradiction|].
    unfold parse_query_list. change (lit ",") with [44%N]. rewrite split_on_join; [|exact N1|].
    + clear -F. induction F as [|m ms Q F IH]; [reflexivity|]. cbn. rewrite IH. f_equal. apply stripped_query in Q as [Q _]. apply stripped_strip. exact Q.
    + clear -F. induction F as [|m ms Q F IH]; constructor; [|exact IH]. apply stripped_query in Q as [_ Q]. apply single_forallb. exact Q.
Qed.
Print Assumptions c25_text_parts.
Example c25_text_parts_case : set_media_text [lit "x"] (lit "screen, print") = [lit "screen"; lit "print"] /\
  set_media_text [lit "x"] (lit "  ") = [] /\ Forall query [lit "screen"; lit "print"].
Proof.
  split; [reflexivity|]. split; [reflexivity|].
  repeat (constructor; [apply stripped_query; split; [split; reflexivity|apply single_existsb; reflexivity]|]). constructor.
Qed.
(** media_text reads what the list holds: after any history that begins with
    an assignment (or the empty list), assigning what was read gives the same
    queries, in lower case. *)
Theorem c25_text_holds : forall ops l0 l1 v, let l := fold_left mstep ops (set_media_text l0 v) in
  l <> [[]] -> set_media_text l1 (media_text l) = map lower l.
Proof.
  intros ops l0 l1 v l N. apply assign_read; [|exact N]. unfold l.
  apply run_query. apply assigned_query.
Qed.
Print Assumptions c25_text_holds.
Example c25_text_holds_case : fold_left mstep [MAppend (lit "Print"); MReverse] (set_media_text [] (lit "tv")) = [lit "Print"; lit "tv"] /\
  set_media_text [] (media_text [lit "Print"; lit "tv"]) = [lit "print"; lit "tv"].
Proof. split; vm_compute; reflexivity. Qed.
