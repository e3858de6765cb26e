From Verif Require Import PyBase PyText PySplit PyCase PyList PyStrip MediaListModel MediaListSpec.
From Verif Require ShortModel.
From Coq Require Import Lia.
Local Open Scope N_scope.

Lemma single_forallb s : single s <-> forallb (fun x => negb (44 =? x)) s = true.
Proof.
  unfold single. rewrite forallb_forall. split.
  - intros H x Hx. destruct (N.eqb_spec 44 x) as [E|E]; [|reflexivity]. subst. contradiction.
  - intros H I. apply H in I. rewrite N.eqb_refl in I. discriminate.
Qed.
Lemma parse_query_spec s : parse_query s = if existsb (N.eqb 44) s then None else Some (strip s).
Proof.
  unfold parse_query, parse_query_list. destruct (existsb (N.eqb 44) s) eqn:E.
  - destruct (split_on 44 s) as [|x [|y l]] eqn:S; [reflexivity| |reflexivity]. exfalso.
    apply split_on_one in S as [-> F]. apply existsb_exists in E as (c & I & E). rewrite forallb_forall in F. apply F in I. rewrite E in I. discriminate.
  - rewrite split_on_single; [reflexivity|]. apply forallb_forall. intros x I. destruct (44 =? x) eqn:Q; [|reflexivity].
    exfalso. assert (existsb (N.eqb 44) s = true); [|congruence]. apply existsb_exists. exists x. split; assumption.
Qed.
Lemma single_existsb s : single s <-> existsb (N.eqb 44) s = false.
Proof.
  rewrite single_forallb. split; intros H.
  - destruct (existsb (N.eqb 44) s) eqn:E; [|reflexivity]. apply existsb_exists in E as (c & I & E). rewrite forallb_forall in H. apply H in I. rewrite E in I. discriminate.
  - apply forallb_forall. intros x I. destruct (44 =? x) eqn:Q; [|reflexivity].
    exfalso. assert (existsb (N.eqb 44) s = true); [|congruence]. apply existsb_exists. exists x. split; assumption.
Qed.
Lemma parse_single s : single s -> parse_query s = Some (strip s).
Proof. intros H. rewrite parse_query_spec. apply single_existsb in H. rewrite H. reflexivity. Qed.
Lemma parse_many s : ~ single s -> parse_query s = None.
Proof. intros H. rewrite parse_query_spec. destruct (existsb (N.eqb 44) s) eqn:E; [reflexivity|]. destruct H. now apply single_existsb. Qed.

Lemma clamp_len n : clamp_index n (Z.of_nat n) = n.
Proof. unfold clamp_index. destruct (Z.ltb_spec (Z.of_nat n) 0); [lia|]. destruct (Z.ltb_spec (Z.of_nat n) 0); [lia|].
  destruct (Z.ltb_spec (Z.of_nat n) (Z.of_nat n)); [lia|]. apply Nat2Z.id. Qed.
Lemma insert_end l s : insert l (Z.of_nat (length l)) s = l ++ [strip s].
Proof.
  unfold insert, list_set_slice. rewrite clamp_len, Nat.max_id, firstn_all, skipn_all. reflexivity.
Qed.
Lemma append_spec l s : append_medium l s =
  match parse_query s with None => l | Some m => if mem m l then l else l ++ [m] end.
Proof.
  unfold append_medium. destruct (parse_query s) as [m|] eqn:E; [|reflexivity]. destruct (mem m l); [reflexivity|].
  rewrite insert_end. assert (strip m = m); [|congruence]. rewrite parse_query_spec in E.
  destruct (existsb (N.eqb 44) s); [discriminate|]. injection E as <-. apply strip_strip.
Qed.

Lemma norm_nat n i : (i < n)%nat -> norm_index n (Z.of_nat i) = Some i.
Proof.
  intros H. unfold norm_index. destruct (Z.ltb_spec (Z.of_nat i) 0); [lia|].
  destruct (Z.leb_spec 0 (Z.of_nat i)); [|lia]. destruct (Z.ltb_spec (Z.of_nat i) (Z.of_nat n)); [|lia]. cbn. rewrite Nat2Z.id. reflexivity.
Qed.
Lemma index_none m l : index m l = None <-> ~ In m l.
Proof.
  induction l as [|x l IH]; cbn; [intuition|]. destruct (text_eqb_spec x m) as [->|N].
  - split; [discriminate|]. intros H. destruct H. now left.
  - destruct (index m l); cbn; split; intros H.
    + discriminate.
    + exfalso. apply H. right. destruct (in_dec (list_eq_dec N.eq_dec) m l) as [i|i]; [exact i|]. destruct IH as [_ IH]. specialize (IH i). discriminate.
    + intros [E|I]; [congruence|]. revert I. apply IH. reflexivity.
    + reflexivity.
Qed.
Lemma index_some m l i : index m l = Some i -> exists a b, l = a ++ m :: b /\ length a = i /\ ~ In m a.
Proof.
  revert i. induction l as [|x l IH]; intros i; cbn; [discriminate|]. destruct (text_eqb_spec x m) as [->|N].
  - intros H. injection H as <-. exists [], l. repeat split. intros [].
  - destruct (index m l) as [j|]; [|discriminate]. cbn. intros H. injection H as <-.
    destruct (IH j eq_refl) as (a & b & -> & <- & Na). exists (x :: a), b. repeat split. intros [E|I]; [congruence|contradiction].
Qed.
Lemma del_at {A} (a b : list A) x : list_del (a ++ x :: b) (Z.of_nat (length a)) = Ok (a ++ b).
Proof.
  unfold list_del. rewrite norm_nat by (rewrite app_length; cbn; lia). f_equal.
  rewrite firstn_app, firstn_all, Nat.sub_diag. cbn [firstn]. rewrite app_nil_r. f_equal.
  replace (S (length a)) with (length (a ++ [x])) by (rewrite app_length; cbn; lia).
  change (a ++ x :: b) with (a ++ [x] ++ b). rewrite app_assoc, skipn_app, skipn_all, Nat.sub_diag. reflexivity.
Qed.
Lemma without_app m a b : without m (a ++ b) = without m a ++ without m b.
Proof. unfold without. apply filter_app. Qed.
Lemma without_absent m l : ~ In m l -> without m l = l.
Proof.
  induction l as [|x l IH]; intros H; [reflexivity|]. cbn. destruct (list_eq_dec N.eq_dec x m) as [->|N]; [destruct H; now left|].
  f_equal. apply IH. intros I. apply H. now right.
Qed.
Lemma without_cons m b : without m (m :: b) = without m b.
Proof. unfold without. cbn. destruct (list_eq_dec N.eq_dec m m); [reflexivity|congruence]. Qed.
Lemma remove_spec l m : remove l m = if mem m l then match index m l with Some i => list_del l (Z.of_nat i) | None => Err ValueError end else Err ValueError.
Proof.
  unfold remove. destruct (mem m l) eqn:E; [reflexivity|]. apply mem_not_in, index_none in E. rewrite E. reflexivity.
Qed.
Lemma remove_nodup l m : NoDup l -> remove l m = if mem m l then Ok (without m l) else Err ValueError.
Proof.
  intros D. unfold remove. destruct (index m l) as [i|] eqn:E.
  - destruct (index_some m l i E) as (a & b & -> & <- & Na). rewrite del_at.
    assert (Nb : ~ In m (a ++ b)) by (apply NoDup_remove_2 in D; exact D).
    replace (mem m (a ++ m :: b)) with true by (symmetry; apply mem_in; apply in_or_app; right; now left).
    f_equal. rewrite without_app, without_cons, !without_absent; [reflexivity| |]; intros I; apply Nb; apply in_or_app; auto.
  - apply index_none in E. apply mem_not_in in E. rewrite E. reflexivity.
Qed.
Lemma remove_any l m l' : remove l m = Ok l' -> exists a b, l = a ++ m :: b /\ l' = a ++ b /\ ~ In m a.
Proof.
  unfold remove. destruct (index m l) as [i|] eqn:E; [|discriminate].
  destruct (index_some m l i E) as (a & b & -> & <- & Na). rewrite del_at. intros H. injection H as <-. exists a, b. auto.
Qed.
Lemma delete_remove l s : delete_medium l s = match parse_query s with None => Ok l | Some m => remove l m end.
Proof. reflexivity. Qed.

Lemma nodup_snoc {A} (l : list A) x : NoDup l -> ~ In x l -> NoDup (l ++ [x]).
Proof.
  intros D N. induction D as [|a l Na D IH]; cbn; [repeat constructor; intros []|].
  constructor.
  - intros I. apply in_app_or in I as [I|[E|[]]]; [contradiction|]. subst. apply N. now left.
  - apply IH. intros I. apply N. now right.
Qed.
Lemma append_nodup l s : NoDup l -> NoDup (append_medium l s).
Proof.
  intros D. rewrite append_spec. destruct (parse_query s) as [m|]; [|exact D]. destruct (mem m l) eqn:E; [exact D|].
  apply nodup_snoc; [exact D|]. apply mem_not_in. exact E.
Qed.
Lemma del_ok {A} (l : list A) i l' : list_del l i = Ok l' -> exists a x b, l = a ++ x :: b /\ l' = a ++ b.
Proof.
  unfold list_del. destruct (norm_index (length l) i) as [k|] eqn:E; [|discriminate]. intros H. injection H as <-.
  assert (K : (k < length l)%nat).
  { unfold norm_index in E. destruct (_ && _) eqn:B in E; [|discriminate]. injection E as <-. apply Bool.andb_true_iff in B as [B1 B2].
    apply Z.leb_le in B1. apply Z.ltb_lt in B2. lia. }
  destruct (nth_error l k) as [x|] eqn:Nx; [|apply nth_error_None in Nx; lia].
  apply nth_error_split in Nx as (a & b & -> & <-). exists a, x, b. split; [reflexivity|].
  rewrite firstn_app, firstn_all, Nat.sub_diag. cbn [firstn]. rewrite app_nil_r. f_equal.
  clear. induction a as [|y a IH]; [reflexivity|exact IH].
Qed.
Lemma extend_inv (P : media -> Prop) : (forall l s, P l -> P (append_medium l s)) -> forall ss l, P l -> P (extend l ss).
Proof. intros H ss. induction ss as [|s ss IH]; intros l Pl; [exact Pl|]. apply IH, H, Pl. Qed.
Lemma mstep_nodup l o : NoDup l -> NoDup (mstep l o).
Proof.
  intros D. destruct o; cbn [mstep].
  - apply append_nodup, D.
  - apply (extend_inv (@NoDup text)); [intros; now apply append_nodup|exact D].
  - rewrite delete_remove. destruct (parse_query s) as [m|]; [|exact D]. destruct (remove l m) as [l'|] eqn:E; [|exact D].
    apply remove_any in E as (a & b & -> & -> & _). apply NoDup_remove_1 in D. exact D.
  - destruct (remove l s) as [l'|] eqn:E; [|exact D]. apply remove_any in E as (a & b & -> & -> & _). apply NoDup_remove_1 in D. exact D.
  - destruct (list_del l i) as [l'|] eqn:E; [|exact D]. apply del_ok in E as (a & x & b & -> & ->). apply NoDup_remove_1 in D. exact D.
  - apply NoDup_rev, D.
  - constructor.
Qed.

Lemma stripped_query m : query m <-> stripped m /\ single m.
Proof.
  unfold query, stripped, single. split.
  - intros (A & B & C). repeat split; try exact A.
    + destruct m as [|c r]; [reflexivity|]. cbn. rewrite (B c r eq_refl). reflexivity.
    + destruct (rev m) as [|c r] eqn:E; [reflexivity|]. cbn. rewrite (C c (rev r)); [reflexivity|].
      rewrite <- (rev_involutive m), E. reflexivity.
  - intros ([A B] & C). split; [exact C|]. split.
    + intros c r ->. cbn in A. destruct (is_space c); [discriminate|reflexivity].
    + intros c r ->. rewrite rev_app_distr in B. cbn in B. destruct (is_space c); [discriminate|reflexivity].
Qed.
Lemma strip_query s : single s -> query (strip s).
Proof.
  intros H. apply stripped_query. split; [apply strip_stripped|]. apply single_forallb. apply strip_free. apply single_forallb. exact H.
Qed.
Lemma parse_list_query v : Forall query (parse_query_list v).
Proof.
  unfold parse_query_list. assert (F := split_on_free 44 v). induction F; cbn; constructor; [|assumption].
  apply strip_query. apply single_forallb. assumption.
Qed.
Lemma mstep_query l o : Forall query l -> Forall query (mstep l o).
Proof.
  assert (AP : forall l s, Forall query l -> Forall query (append_medium l s)).
  { clear. intros l s F. rewrite append_spec. destruct (parse_query s) as [m|] eqn:E; [|exact F]. destruct (mem m l); [exact F|].
    apply Forall_app. split; [exact F|]. constructor; [|constructor]. rewrite parse_query_spec in E.
    destruct (existsb (N.eqb 44) s) eqn:X; [discriminate|]. injection E as <-. apply strip_query, single_existsb. exact X. }
  assert (DR : forall a x b, Forall query (a ++ x :: b) -> Forall query (a ++ b)).
  { intros a x b F. apply Forall_app in F as [F1 F2]. inversion F2. apply Forall_app. split; assumption. }
  intros D. destruct o; cbn [mstep].
  - apply AP, D.
  - apply (extend_inv (Forall query)); assumption.
  - rewrite delete_remove. destruct (parse_query s) as [m|]; [|exact D]. destruct (remove l m) as [l'|] eqn:E; [|exact D].
    apply remove_any in E as (a & b & -> & -> & _). exact (DR _ _ _ D).
  - destruct (remove l s) as [l'|] eqn:E; [|exact D]. apply remove_any in E as (a & b & -> & -> & _). exact (DR _ _ _ D).
  - destruct (list_del l i) as [l'|] eqn:E; [|exact D]. apply del_ok in E as (a & x & b & -> & ->). exact (DR _ _ _ D).
  - apply Forall_rev, D.
  - constructor.
Qed.

(** media_text *)
Lemma lower_query m : query m -> query (lower m).
Proof.
  rewrite !stripped_query, !single_forallb. intros [A B]. split.
  - apply strip_iff. rewrite strip_lower. f_equal. apply strip_iff. exact A.
  - rewrite forallb_forall in *. intros x I. apply in_map_iff in I as (y & <- & I). apply B in I.
    destruct (N.eqb_spec 44 y) as [->|N1]; [discriminate|]. destruct (N.eqb_spec 44 (to_low y)) as [E|]; [|reflexivity].
    exfalso. unfold to_low in E. destruct (is_up y) eqn:U; [apply is_up_iff in U; lia|congruence].
Qed.
Lemma split_comma_join l : l <> [] -> Forall query l -> parse_query_list (join (lit ", ") l) = l.
Proof.
  intros N F. unfold parse_query_list.
  assert (E : exists ws, join (lit ", ") l = join [44] ws /\ ws <> [] /\ Forall (fun w => forallb (fun x => negb (44 =? x)) w = true) ws /\ map strip ws = l).
  { induction F as [|m l Q F IH]; [congruence|]. assert (Q' := Q). apply stripped_query in Q' as [S1 S2]. apply single_forallb in S2.
    destruct l as [|m2 l].
    - exists [m]. repeat split; [discriminate|constructor; [exact S2|constructor]|]. cbn. now rewrite stripped_strip.
    - destruct IH as (ws & J & Nw & G & H); [discriminate|]. destruct ws as [|w ws]; [congruence|].
      exists (m :: (32 :: w) :: ws).
      split.
      + change (join (lit ", ") (m :: m2 :: l)) with (m ++ [44; 32] ++ join (lit ", ") (m2 :: l)). rewrite J.
        change (join [44] (m :: (32 :: w) :: ws)) with (m ++ [44] ++ join [44] ((32 :: w) :: ws)). f_equal. cbn [app]. f_equal.
        destruct ws; reflexivity.
      + split; [discriminate|]. inversion G as [|? ? G1 G2]. subst. split.
        * constructor; [exact S2|]. constructor; [cbn [forallb]; rewrite G1; reflexivity|exact G2].
        * cbn [map]. rewrite stripped_strip by exact S1. f_equal. rewrite <- H. reflexivity. }
  destruct E as (ws & -> & Nw & G & <-). rewrite split_on_join by assumption. reflexivity.
Qed.
Lemma normalize_nil v : ShortModel.normalize_text v = [] <-> strip v = [].
Proof.
  unfold ShortModel.normalize_text. split; intros H; [|rewrite H; reflexivity].
  destruct (strip v) as [|c r]; [reflexivity|]. exfalso. cbn [ShortModel.lines_to_spaces] in H.
  assert (K : forall t, ShortModel.collapse t = [] -> t = []).
  { clear. intros t. induction t as [|a t IH]; [reflexivity|]. cbn [ShortModel.collapse]. destruct t as [|b t]; [discriminate|].
    destruct ((a =? 32) && (b =? 32)); [|discriminate]. intros H. apply IH in H. discriminate. }
  apply K in H. destruct (c =? 13); [|discriminate]. destruct r as [|d r]; [discriminate|]. destruct (d =? 10); discriminate.
Qed.
Lemma join_blank l : Forall query l -> strip (join (lit ", ") l) = [] -> l = [] \/ l = [[]].
Proof.
  intros F H. apply strip_nil_iff in H. destruct l as [|m [|m2 l]]; [now left| |].
  - right. cbn in H. inversion F as [|? ? Q _]. subst. apply stripped_query in Q as [[A _] _]. destruct m as [|c m]; [reflexivity|].
    exfalso. cbn in *. destruct (is_space c); discriminate.
  - exfalso. change (join (lit ", ") (m :: m2 :: l)) with (m ++ [44; 32] ++ join (lit ", ") (m2 :: l)) in H.
    rewrite !forallb_app in H. apply Bool.andb_true_iff in H as [_ H]. apply Bool.andb_true_iff in H as [H _]. discriminate.
Qed.
Lemma assign_read l0 l : Forall query l -> l <> [[]] -> set_media_text l0 (media_text l) = map lower l.
Proof.
  intros F N. unfold set_media_text, media_text. rewrite lower_join. change (lower (lit ", ")) with (lit ", ").
  assert (F' : Forall query (map lower l)) by (clear N; induction F; cbn; constructor; [apply lower_query|]; assumption).
  destruct (ShortModel.normalize_text (join (lit ", ") (map lower l))) as [|c r] eqn:E.
  - apply normalize_nil in E. apply join_blank in E as [E|E]; [symmetry; exact E| |exact F'].
    exfalso. destruct l as [|m [|m2 l]]; try discriminate. injection E as E. apply N. destruct m; [reflexivity|discriminate].
  - apply split_comma_join; [|exact F']. intros X. rewrite X in E. discriminate.
Qed.
Lemma assigned_query l0 v : Forall query (set_media_text l0 v) /\ set_media_text l0 v <> [[]].
Proof.
  unfold set_media_text. destruct (ShortModel.normalize_text v) as [|c r] eqn:E; [split; [constructor|discriminate]|].
  split; [apply parse_list_query|]. intros H. unfold parse_query_list in H.
  destruct (split_on 44 v) as [|x [|y l]] eqn:S; try discriminate. apply split_on_one in S as [-> _]. injection H as H.
  assert (N : ShortModel.normalize_text v = []) by (apply normalize_nil; exact H). congruence.
Qed.
Lemma run_query ops : forall l, Forall query l -> Forall query (fold_left mstep ops l).
Proof. induction ops as [|o ops IH]; intros l Q; [exact Q|]. apply IH, mstep_query, Q. Qed.
