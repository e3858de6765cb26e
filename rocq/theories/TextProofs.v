(** Proofs about white-space processing. *)
From Verif Require Import PyBase PyText PyStrip PySplit TextModel TextSpec.
#[local] Open Scope N_scope.

Lemma collapsible_cases c : collapsible c = true <-> c = 32 \/ c = 9 \/ c = 13 \/ c = 10.
Proof. unfold collapsible. cbn [existsb]. rewrite !orb_true_iff, !N.eqb_eq. intuition discriminate. Qed.
Lemma blank_cases c : is_blank c = true <-> c = 32 \/ c = 9. Proof. unfold is_blank. rewrite orb_true_iff, !N.eqb_eq. reflexivity. Qed.
Lemma break_cases c : is_break c = true <-> c = 13 \/ c = 10. Proof. unfold is_break. rewrite orb_true_iff, !N.eqb_eq. reflexivity. Qed.
Lemma blank_collapsible c : is_blank c = true -> collapsible c = true. Proof. rewrite blank_cases, collapsible_cases. tauto. Qed.
Lemma break_collapsible c : is_break c = true -> collapsible c = true. Proof. rewrite break_cases, collapsible_cases. tauto. Qed.
Lemma collapsible_space c : collapsible c = true -> is_space c = true. Proof. rewrite collapsible_cases. intros [->|[->|[->| ->]]]; reflexivity. Qed.

(** ** Filters: any filter that drops a class of separators *)
Definition without (p : N -> bool) (t : text) : text := filter (fun c => negb (p c)) t.
Lemma without_app p a b : without p (a ++ b) = without p a ++ without p b. Proof. apply filter_app. Qed.
Lemma without_all p t : forallb p t = true -> without p t = [].
Proof. induction t as [|c t IH]; [reflexivity|]. cbn. intros H. apply andb_true_iff in H. destruct H as [H G]. rewrite H. cbn. now apply IH. Qed.
Lemma without_cons_sep p c t : p c = true -> without p (c :: t) = without p t. Proof. intros H. cbn. now rewrite H. Qed.
Lemma without_cons p c t : without p (c :: t) = (if p c then [] else [c]) ++ without p t.
Proof. unfold without. cbn [filter]. now destruct (p c). Qed.
Lemma without_dropwhile p q t : (forall c, q c = true -> p c = true) -> without p (dropwhile q t) = without p t.
Proof. intros H. induction t as [|c t IH]; [reflexivity|]. cbn [dropwhile]. destruct (q c) eqn:E; [|reflexivity]. rewrite IH. symmetry. apply without_cons_sep. now apply H. Qed.
Lemma without_rdropwhile p q t : (forall c, q c = true -> p c = true) -> without p (rdropwhile q t) = without p t.
Proof.
  intros H. destruct (rdropwhile_split q t) as (s & E & A). rewrite E at 2. rewrite without_app, (without_all p s); [now rewrite app_nil_r|].
  rewrite forallb_forall in *. auto.
Qed.
Lemma without_join p c l : p c = true -> without p (join [c] l) = concat (map (without p) l).
Proof.
  intros H. induction l as [|x l IH]; [reflexivity|]. destruct l as [|y l]; [cbn; now rewrite app_nil_r|].
  change (join [c] (x :: y :: l)) with (x ++ [c] ++ join [c] (y :: l)). rewrite !without_app, IH. cbn [without filter]. rewrite H. reflexivity.
Qed.
Lemma without_lines p f t : p 10 = true -> (forall l, without p (f l) = without p l) -> without p (join [10] (map f (split_on 10 t))) = without p t.
Proof.
  intros H F. rewrite without_join by exact H. rewrite map_map. rewrite (map_ext _ (without p)) by exact F. rewrite <- (without_join p 10) by exact H. now rewrite join_split_on.
Qed.
Lemma without_map p f t : (forall c, p c = true -> p (f c) = true) -> (forall c, p c = false -> f c = c) -> without p (map f t) = without p t.
Proof.
  intros A B. induction t as [|c t IH]; [reflexivity|]. cbn [map]. rewrite !without_cons. destruct (p c) eqn:E.
  - rewrite (A c E). exact IH.
  - rewrite (B c E), E. now rewrite IH.
Qed.
Lemma without_collapse p t : p 32 = true -> without p (collapse t) = without p t.
Proof.
  intros H. induction t as [|c t IH]; [reflexivity|]. cbn [collapse]. destruct (N.eqb_spec c 32) as [->|Nc]; cbn [andb].
  - destruct (match t with d :: _ => d =? 32 | [] => false end); [rewrite IH; symmetry; now apply without_cons_sep|]. rewrite !without_cons_sep by exact H. exact IH.
  - rewrite !without_cons. now rewrite IH.
Qed.
Lemma without_crlf p t : p 13 = true -> without p (crlf t) = without p t.
Proof.
  intros H. induction t as [|c t IH]; [reflexivity|]. cbn [crlf]. destruct (N.eqb_spec c 13) as [->|Nc]; cbn [andb].
  - destruct (match t with d :: _ => d =? 10 | [] => false end); [rewrite IH; symmetry; now apply without_cons_sep|]. rewrite !without_cons_sep by exact H. exact IH.
  - rewrite !without_cons. now rewrite IH.
Qed.
Lemma broken_sep p lib a b : p 32 = true -> without p (broken lib a b) = [].
Proof. intros H. unfold broken. repeat (match goal with |- context [if ?x then _ else _] => destruct x end); cbn; rewrite ?H; reflexivity. Qed.
Lemma without_breaks p lib t : (forall c, collapsible c = true -> p c = true) -> forall prev run, without p (breaks lib prev run t) = without p t.
Proof.
  intros H. assert (S : p 32 = true) by now apply H. induction t as [|c t IH]; intros prev run; cbn [breaks]; [destruct run; [now apply broken_sep|reflexivity]|].
  destruct (is_break c) eqn:E.
  - rewrite IH. symmetry. apply without_cons_sep, H. now apply break_collapsible.
  - rewrite without_app, without_cons, IH, (without_cons p c t). destruct run; [now rewrite broken_sep|reflexivity].
Qed.
Lemma without_segment p lib ws t : (forall c, collapsible c = true -> p c = true) -> without p (segment_breaks lib ws t) = without p t.
Proof.
  intros H. unfold segment_breaks. destruct (mem ws _); [|now apply without_breaks]. rewrite without_map, without_crlf; [reflexivity|now apply H| |].
  - intros c P. unfold cr_lf. destruct (c =? 13); [now apply H|exact P].
  - intros c P. unfold cr_lf. destruct (N.eqb_spec c 13) as [->|]; [|reflexivity]. now rewrite H in P.
Qed.
Lemma without_processed p lib ws t : (forall c, collapsible c = true -> p c = true) -> without p (processed lib ws t) = without p (c_unescape lib t).
Proof.
  intros H. assert (B : forall c, is_blank c = true -> p c = true) by (intros; now apply H, blank_collapsible).
  unfold processed. set (u := c_unescape lib t).
  assert (X : without p (if mem ws [lit "normal"; lit "nowrap"; lit "pre-line"]
     then collapse (map tab_space (segment_breaks lib ws (strip_trailing (strip_leading u)))) else u) = without p u).
  { destruct (mem ws _); [|reflexivity]. rewrite without_collapse by now apply H. rewrite without_map, without_segment; [|exact H| |].
    - unfold strip_trailing, strip_leading. rewrite !without_lines; [reflexivity|now apply H| |now apply H|]; intros l; [now apply without_dropwhile|now apply without_rdropwhile].
    - intros c P. unfold tab_space. destruct (c =? 9); [now apply H|exact P].
    - intros c P. unfold tab_space. destruct (N.eqb_spec c 9) as [->|]; [|reflexivity]. now rewrite H in P. }
  destruct (mem ws [lit "pre"; lit "pre-wrap"]); [|exact X]. rewrite without_segment by exact H. exact X.
Qed.
Lemma without_trim p (first tail : bool) t : p 32 = true ->
  without p (let t := if first then dropwhile (N.eqb 32) t else t in if tail then rdropwhile (N.eqb 32) t else t) = without p t.
Proof.
  intros H. assert (Q : forall c, (32 =? c) = true -> p c = true) by (intros c E; apply N.eqb_eq in E; now subst).
  cbn zeta. destruct tail; [rewrite without_rdropwhile by exact Q|]; (destruct first; [now apply without_dropwhile|reflexivity]).
Qed.
Lemma visible_keeps lib ws t prev first tail : visible (normalize_text lib ws t prev first tail) = visible (c_unescape lib t).
Proof.
  change visible with (without is_space). unfold normalize_text. rewrite without_trim by reflexivity. rewrite <- (without_processed is_space lib ws t collapsible_space).
  generalize (processed lib ws t). intros u. unfold after. destruct prev as [q|]; [|reflexivity].
  destruct (ends_space q && starts_space u); [now apply without_dropwhile|]. destruct (negb _ && negb _); reflexivity.
Qed.
Lemma kept_keeps lib ws t prev first tail : match prev with None => True | Some p => ends_space p = false \/ starts_space (processed lib ws t) = false end ->
  kept (normalize_text lib ws t prev first tail) = kept (c_unescape lib t).
Proof.
  intros G. change kept with (without collapsible). unfold normalize_text. rewrite without_trim by reflexivity. rewrite <- (without_processed collapsible lib ws t) by auto.
  revert G. generalize (processed lib ws t). intros u G. unfold after. destruct prev as [q|]; [|reflexivity].
  assert (F : ends_space q && starts_space u = false) by (apply andb_false_iff; exact G). rewrite F. destruct (negb _ && negb _); reflexivity.
Qed.

(** ** No breaks and no tabs *)
Definition flat (t : text) : bool := forallb (fun c => negb (is_break c)) t.
Definition tabless (t : text) : bool := forallb (fun c => negb (c =? 9)) t.
Lemma forallb_dropwhile (g : N -> bool) q t : forallb g t = true -> forallb g (dropwhile q t) = true.
Proof. induction t as [|c t IH]; [reflexivity|]. cbn [dropwhile]. destruct (q c); [|auto]. cbn. intros H. apply andb_true_iff in H. now apply IH. Qed.
Lemma forallb_rev (g : N -> bool) t : forallb g (rev t) = forallb g t.
Proof. induction t as [|c t IH]; [reflexivity|]. cbn [rev forallb]. rewrite forallb_app. cbn. rewrite andb_true_r, IH. apply andb_comm. Qed.
Lemma forallb_rdropwhile (g : N -> bool) q t : forallb g t = true -> forallb g (rdropwhile q t) = true.
Proof. intros H. unfold rdropwhile. rewrite forallb_rev. apply forallb_dropwhile. now rewrite forallb_rev. Qed.
Lemma forallb_collapse (g : N -> bool) t : forallb g t = true -> forallb g (collapse t) = true.
Proof.
  induction t as [|c t IH]; [reflexivity|]. cbn [collapse forallb]. intros H. apply andb_true_iff in H. destruct H as [A B].
  destruct ((c =? 32) && _); [now apply IH|]. cbn. now rewrite A, IH.
Qed.
Lemma breaks_flat lib t : forall prev run, flat (breaks lib prev run t) = true.
Proof.
  assert (B : forall a b, flat (broken lib a b) = true) by (intros a b; unfold broken; repeat (match goal with |- context [if ?x then _ else _] => destruct x end); reflexivity).
  induction t as [|c t IH]; intros prev run; cbn [breaks]; [destruct run; [apply B|reflexivity]|].
  destruct (is_break c) eqn:E; [apply IH|]. unfold flat in *. rewrite forallb_app. cbn [forallb]. rewrite E, IH. destruct run; [now rewrite B|reflexivity].
Qed.
Lemma map_tab t : tabless (map tab_space t) = true.
Proof. induction t as [|c t IH]; [reflexivity|]. cbn. unfold tab_space at 1. destruct (N.eqb_spec c 9) as [->|N9]; [exact IH|]. apply N.eqb_neq in N9. now rewrite N9. Qed.
Lemma map_tab_flat t : flat t = true -> flat (map tab_space t) = true.
Proof.
  induction t as [|c t IH]; [reflexivity|]. cbn. intros H. apply andb_true_iff in H. destruct H as [A B]. fold (flat (map tab_space t)). rewrite (IH B), andb_true_r.
  unfold tab_space. destruct (c =? 9); [reflexivity|exact A].
Qed.
Lemma collapsing_mem ws : wrapping ws -> mem ws [lit "normal"; lit "nowrap"; lit "pre-line"] = true /\ mem ws [lit "pre"; lit "pre-wrap"] = false /\ mem ws [lit "pre"; lit "pre-wrap"; lit "pre-line"] = false.
Proof. intros [->| ->]; repeat split; reflexivity. Qed.
Lemma processed_wrapping lib ws t : wrapping ws -> processed lib ws t = collapse (map tab_space (breaks lib None false (strip_trailing (strip_leading (c_unescape lib t))))).
Proof. intros W. destruct (collapsing_mem ws W) as (A & B & C). unfold processed, segment_breaks. now rewrite A, B, C. Qed.
Lemma after_forallb (g : N -> bool) prev t : g 32 = true -> forallb g t = true -> forallb g (after prev t) = true.
Proof.
  intros S H. unfold after. destruct prev as [p|]; [|exact H]. destruct (_ && _); [now apply forallb_dropwhile|]. destruct (_ && _); [|exact H]. cbn. now rewrite S, H.
Qed.
Lemma trim_forallb (g : N -> bool) (first tail : bool) t : forallb g t = true ->
  forallb g (let t := if first then dropwhile (N.eqb 32) t else t in if tail then rdropwhile (N.eqb 32) t else t) = true.
Proof.
  intros H. cbn zeta. assert (A : forallb g (if first then dropwhile (N.eqb 32) t else t) = true) by (destruct first; [now apply forallb_dropwhile|exact H]).
  destruct tail; [now apply forallb_rdropwhile|exact A].
Qed.
Lemma normalize_flat lib ws t prev first tail : wrapping ws ->
  forallb (fun c => negb (collapsible c) || (c =? 32)) (normalize_text lib ws t prev first tail) = true.
Proof.
  intros W. unfold normalize_text. apply trim_forallb, after_forallb; [reflexivity|]. rewrite processed_wrapping by exact W. apply forallb_collapse.
  set (u := breaks _ _ _ _). assert (F := map_tab_flat u (breaks_flat _ _ _ _)). assert (T := map_tab u). unfold flat, tabless in *. rewrite forallb_forall in *.
  intros c I. specialize (F c I). specialize (T c I). unfold is_break, collapsible in *. cbn [existsb].
  destruct (c =? 32), (c =? 9), (c =? 13), (c =? 10); cbn in *; congruence.
Qed.

(** ** No runs of spaces *)
Lemma no_run_cons c t : no_run (c :: t) <-> ~ (c = 32 /\ starts_space t = true) /\ no_run t.
Proof.
  cbn [no_run]. destruct t as [|d t]; cbn [starts_space]; [intuition discriminate|]. rewrite N.eqb_eq. reflexivity.
Qed.
Lemma collapse_head t : starts_space (collapse t) = starts_space t.
Proof.
  induction t as [|c t IH]; [reflexivity|]. cbn [collapse]. destruct (N.eqb_spec c 32) as [->|Nc]; cbn [andb]; [|reflexivity].
  destruct t as [|d t]; [reflexivity|]. destruct (N.eqb_spec d 32) as [->|]; [|reflexivity]. rewrite IH. reflexivity.
Qed.
Lemma collapse_no_run t : no_run (collapse t).
Proof.
  induction t as [|c t IH]; [exact I|]. cbn [collapse]. destruct (N.eqb_spec c 32) as [->|Nc]; cbn [andb].
  - fold (starts_space t). destruct (starts_space t) eqn:E; [exact IH|]. apply no_run_cons. rewrite collapse_head, E. split; [intros [_ F]; discriminate F|exact IH].
  - apply no_run_cons. split; [tauto|exact IH].
Qed.
Lemma no_run_collapse t : no_run t -> collapse t = t.
Proof.
  induction t as [|c t IH]; [reflexivity|]. intros H. apply no_run_cons in H. destruct H as [A B]. cbn [collapse]. fold (starts_space t).
  destruct (N.eqb_spec c 32) as [->|Nc]; cbn [andb]; [|now rewrite IH]. destruct (starts_space t); [now destruct A|now rewrite IH].
Qed.
Lemma no_run_app a b : no_run (a ++ b) <-> no_run a /\ no_run b /\ ~ (ends_space a = true /\ starts_space b = true).
Proof.
  induction a as [|c a IH]; [cbn; intuition discriminate|]. cbn [app]. rewrite !no_run_cons, IH. unfold ends_space. cbn [rev].
  destruct a as [|d a].
  - cbn [app rev starts_space]. rewrite N.eqb_eq. cbn. intuition discriminate.
  - assert (E : starts_space (rev (d :: a) ++ [c]) = starts_space (rev (d :: a))).
    { destruct (rev (d :: a)) eqn:R; [|reflexivity]. apply (f_equal (@rev N)) in R. rewrite rev_involutive in R. discriminate R. }
    rewrite E. change (starts_space ((d :: a) ++ b)) with (starts_space (d :: a)). tauto.
Qed.
Lemma no_run_dropwhile q t : no_run t -> no_run (dropwhile q t).
Proof. intros H. rewrite <- (take_drop q t) in H. now apply no_run_app in H. Qed.
Lemma no_run_rdropwhile q t : no_run t -> no_run (rdropwhile q t).
Proof. intros H. destruct (rdropwhile_split q t) as (s & E & _). rewrite E in H. now apply no_run_app in H. Qed.
Lemma dropwhile_space_start t : starts_space (dropwhile is_space t) = false.
Proof.
  assert (H := dropwhile_stop is_space t). destruct (dropwhile is_space t) as [|c u]; [reflexivity|]. cbn in *. destruct (N.eqb_spec c 32) as [->|]; [discriminate H|reflexivity].
Qed.
Lemma dropwhile_32_start t : starts_space (dropwhile (N.eqb 32) t) = false.
Proof.
  assert (H := dropwhile_stop (N.eqb 32) t). destruct (dropwhile (N.eqb 32) t) as [|c u]; [reflexivity|]. cbn [head_not starts_space] in *. apply negb_true_iff in H. now rewrite N.eqb_sym.
Qed.
Lemma after_no_run prev t : no_run t -> no_run (after prev t).
Proof.
  intros H. unfold after. destruct prev as [p|]; [|exact H]. destruct (_ && _); [now apply no_run_dropwhile|]. destruct (ends_space p), (starts_space t) eqn:S; cbn [negb andb]; try exact H.
  apply no_run_cons. rewrite S. split; [intros [_ F]; discriminate F|exact H].
Qed.
Lemma after_linked p t : after (Some p) t <> [] -> ends_space p = negb (starts_space (after (Some p) t)).
Proof.
  unfold after. destruct (ends_space p) eqn:E, (starts_space t) eqn:S; cbn [negb andb]; intros _; [now rewrite dropwhile_space_start|now rewrite S|now rewrite S|reflexivity].
Qed.
Definition collapsing (ws : text) : Prop := ws = lit "normal" \/ ws = lit "nowrap" \/ ws = lit "pre-line".
Lemma processed_no_run lib ws t : collapsing ws -> no_run (processed lib ws t).
Proof.
  intros W. unfold processed. assert (A : mem ws [lit "normal"; lit "nowrap"; lit "pre-line"] = true) by (destruct W as [->|[->| ->]]; reflexivity).
  assert (B : mem ws [lit "pre"; lit "pre-wrap"] = false) by (destruct W as [->|[->| ->]]; reflexivity). rewrite A, B. apply collapse_no_run.
Qed.
Lemma trim_no_run (first tail : bool) t : no_run t -> no_run (let t := if first then dropwhile (N.eqb 32) t else t in if tail then rdropwhile (N.eqb 32) t else t).
Proof.
  intros H. cbn zeta. assert (A : no_run (if first then dropwhile (N.eqb 32) t else t)) by (destruct first; [now apply no_run_dropwhile|exact H]).
  destruct tail; [now apply no_run_rdropwhile|exact A].
Qed.
Lemma normalize_no_run lib ws t prev first tail : collapsing ws -> no_run (normalize_text lib ws t prev first tail).
Proof. intros W. unfold normalize_text. now apply trim_no_run, after_no_run, processed_no_run. Qed.
(* the boundary *)
Lemma trim_start (first tail : bool) t p : (ends_space p = true -> starts_space t = false) ->
  ~ (ends_space p = true /\ starts_space (let t := if first then dropwhile (N.eqb 32) t else t in if tail then rdropwhile (N.eqb 32) t else t) = true).
Proof.
  intros H [A B]. specialize (H A). cbn zeta in B. set (u := if first then dropwhile (N.eqb 32) t else t) in *.
  assert (U : starts_space u = false) by (unfold u; destruct first; [apply dropwhile_32_start|exact H]).
  destruct tail; [|congruence]. destruct (rdropwhile_split (N.eqb 32) u) as (s & E & _). destruct (rdropwhile (N.eqb 32) u) as [|c w]; [discriminate B|].
  rewrite E in U. cbn in U, B. congruence.
Qed.
Lemma boundary lib ws t p first tail : collapsing ws -> no_run p -> no_run (p ++ normalize_text lib ws t (Some p) first tail).
Proof.
  intros W H. apply no_run_app. split; [exact H|]. split; [now apply normalize_no_run|]. unfold normalize_text. apply trim_start. intros E.
  unfold after. rewrite E. cbn [negb andb]. destruct (starts_space (processed lib ws t)) eqn:S; [apply dropwhile_space_start|exact S].
Qed.

(** ** Words *)
Lemma fields_acc_app sep w a c b : sep c = true -> fields_acc sep w (a ++ c :: b) = fields_acc sep w a ++ fields_acc sep [] b.
Proof.
  intros H. revert w. induction a as [|d a IH]; intros w; cbn [app fields_acc]; [now rewrite H|]. destruct (sep d); [now rewrite IH, app_assoc|apply IH].
Qed.
Lemma fields_app sep a c b : sep c = true -> fields sep (a ++ c :: b) = fields sep a ++ fields sep b.
Proof. apply fields_acc_app. Qed.
Lemma fields_dropwhile sep q t : (forall c, q c = true -> sep c = true) -> fields sep (dropwhile q t) = fields sep t.
Proof. intros H. induction t as [|c t IH]; [reflexivity|]. cbn [dropwhile]. destruct (q c) eqn:E; [|reflexivity]. rewrite IH. unfold fields. cbn [fields_acc]. now rewrite (H c E). Qed.
Lemma fields_seps sep s : forallb sep s = true -> fields sep s = [].
Proof. induction s as [|c s IH]; [reflexivity|]. cbn. intros H. apply andb_true_iff in H. destruct H as [H G]. rewrite H. now apply IH. Qed.
Lemma fields_rdropwhile sep q t : (forall c, q c = true -> sep c = true) -> fields sep (rdropwhile q t) = fields sep t.
Proof.
  intros H. destruct (rdropwhile_split q t) as (s & E & A). rewrite E at 2. destruct s as [|c s]; [now rewrite app_nil_r|]. cbn in A. apply andb_true_iff in A. destruct A as [A B].
  rewrite fields_app by now apply H. rewrite (fields_seps sep s); [now rewrite app_nil_r|]. rewrite forallb_forall in *. auto.
Qed.
Lemma fields_join sep c l : sep c = true -> fields sep (join [c] l) = concat (map (fields sep) l).
Proof.
  intros H. induction l as [|x l IH]; [reflexivity|]. destruct l as [|y l]; [cbn; now rewrite app_nil_r|].
  change (join [c] (x :: y :: l)) with (x ++ c :: join [c] (y :: l)). rewrite fields_app by exact H. now rewrite IH.
Qed.
Lemma fields_lines sep f t : sep 10 = true -> (forall l, fields sep (f l) = fields sep l) -> fields sep (join [10] (map f (split_on 10 t))) = fields sep t.
Proof.
  intros H F. rewrite fields_join by exact H. rewrite map_map. rewrite (map_ext _ (fields sep)) by exact F. rewrite <- (fields_join sep 10) by exact H. now rewrite join_split_on.
Qed.
Lemma fields_acc_map sep f t : (forall c, sep (f c) = sep c) -> (forall c, sep c = false -> f c = c) -> forall w, fields_acc sep w (map f t) = fields_acc sep w t.
Proof.
  intros A B. induction t as [|c t IH]; intros w; [reflexivity|]. cbn [map fields_acc]. rewrite A. destruct (sep c) eqn:E; rewrite IH; [reflexivity|now rewrite B].
Qed.
Lemma fields_acc_collapse sep t : sep 32 = true -> forall w, fields_acc sep w (collapse t) = fields_acc sep w t.
Proof.
  intros H. induction t as [|c t IH]; intros w; [reflexivity|]. cbn [collapse]. destruct (N.eqb_spec c 32) as [->|Nc]; cbn [andb].
  - destruct t as [|d t]; [reflexivity|]. destruct (N.eqb_spec d 32) as [->|Nd].
    + rewrite IH. cbn [fields_acc]. rewrite H. reflexivity.
    + cbn [fields_acc]. rewrite H. f_equal. rewrite IH. reflexivity.
  - cbn [fields_acc]. destruct (sep c); now rewrite IH.
Qed.
Definition plainc (lib : charlib) (c : N) : bool := negb (c =? zwsp) && negb (c_wide lib c && negb (is_hangul c)).
Lemma broken_plain lib a b : match a with Some c => plainc lib c = true | None => True end -> match b with Some c => plainc lib c = true | None => True end -> broken lib a b = [32].
Proof.
  unfold plainc, broken. intros A B. destruct a as [a|], b as [b|]; try (apply andb_true_iff in A; destruct A as [A A']; apply negb_true_iff in A, A'; rewrite A, ?A');
    try (apply andb_true_iff in B; destruct B as [B B']; apply negb_true_iff in B, B'; rewrite B, ?B'); reflexivity.
Qed.
Lemma fields_breaks lib sep t : (forall c, is_break c = true -> sep c = true) -> sep 32 = true -> narrow lib t = true ->
  forall prev run w, match prev with Some c => plainc lib c = true | None => True end ->
  fields_acc sep w (breaks lib prev run t) = if run then flush w ++ fields_acc sep [] t else fields_acc sep w t.
Proof.
  intros B S. induction t as [|c t IH]; intros Hn prev run w P; cbn [breaks].
  - destruct run; [|reflexivity]. rewrite (broken_plain lib prev None P I). cbn [fields_acc]. now rewrite S.
  - unfold narrow in Hn. cbn [forallb] in Hn. apply andb_true_iff in Hn. destruct Hn as [Hc Hn]. fold (plainc lib c) in Hc. destruct (is_break c) eqn:E.
    + rewrite (IH Hn) by exact P. cbn [fields_acc]. rewrite (B c E). destruct run; reflexivity.
    + destruct run.
      * rewrite (broken_plain lib prev (Some c) P Hc). cbn [app fields_acc]. rewrite S. destruct (sep c); rewrite (IH Hn) by exact Hc; reflexivity.
      * cbn [app fields_acc]. destruct (sep c); rewrite (IH Hn) by exact Hc; reflexivity.
Qed.
Lemma narrow_lines lib f t : (forall l, forallb (plainc lib) l = true -> forallb (plainc lib) (f l) = true) -> narrow lib t = true -> narrow lib (join [10] (map f (split_on 10 t))) = true.
Proof.
  intros F H. change (narrow lib) with (forallb (plainc lib)) in *. assert (P : plainc lib 10 = true \/ length (split_on 10 t) = 1%nat).
  { destruct (forallb (fun x => negb (10 =? x)) t) eqn:E; [right; now rewrite split_on_single|left]. apply not_true_iff_false in E. 
    assert (X : In 10 t). { destruct (in_dec N.eq_dec 10 t); [assumption|]. exfalso. apply E. apply forallb_forall. intros x I. apply negb_true_iff, N.eqb_neq. congruence. }
    rewrite forallb_forall in H. now apply H. }
  rewrite <- (join_split_on 10 t) in H. revert P H. generalize (split_on 10 t). intros ls. induction ls as [|x ls IH]; intros P H; [reflexivity|].
  destruct ls as [|y ls]; [cbn in *; now apply F|]. change (join [10] (x :: y :: ls)) with (x ++ [10] ++ join [10] (y :: ls)) in H.
  change (join [10] (map f (x :: y :: ls))) with (f x ++ [10] ++ join [10] (map f (y :: ls))). rewrite !forallb_app in *. destruct P as [P|P]; [|discriminate P].
  apply andb_true_iff in H. destruct H as [H G]. apply andb_true_iff in G. destruct G as [_ G]. rewrite (F x H), IH; [cbn [forallb andb]; now rewrite P|now left|exact G].
Qed.
Lemma processed_fields lib ws t : wrapping ws -> narrow lib (c_unescape lib t) = true -> fields collapsible (processed lib ws t) = fields collapsible (c_unescape lib t).
Proof.
  intros W H. rewrite processed_wrapping by exact W. set (u := c_unescape lib t) in *. unfold fields. rewrite fields_acc_collapse by reflexivity. rewrite fields_acc_map.
  - rewrite fields_breaks; [| |reflexivity| |exact I].
    + fold (fields collapsible (strip_trailing (strip_leading u))). fold (fields collapsible u). unfold strip_trailing, strip_leading.
      rewrite !fields_lines; try reflexivity; intros l; [apply fields_dropwhile|apply fields_rdropwhile]; apply blank_collapsible.
    + apply break_collapsible.
    + unfold strip_trailing, strip_leading. apply narrow_lines; [intros; now apply forallb_rdropwhile|]. apply narrow_lines; [intros; now apply forallb_dropwhile|exact H].
  - intros c. unfold tab_space. destruct (N.eqb_spec c 9) as [->|]; reflexivity.
  - intros c P. unfold tab_space. destruct (N.eqb_spec c 9) as [->|]; [discriminate P|reflexivity].
Qed.
Lemma join_fields (sep : N -> bool) t : (forall c, In c t -> sep c = true -> c = 32) -> sep 32 = true -> forall w, forallb (fun c => negb (sep c)) w = true ->
  (w = [] -> starts_space t = false) -> no_run t -> ends_space t = false -> join [32] (fields_acc sep w t) = w ++ t.
Proof.
  intros A S. induction t as [|c t IH]; intros w Hw Hd Hr He; cbn [fields_acc].
  - rewrite app_nil_r. destruct w; reflexivity.
  - assert (A' : forall x, In x t -> sep x = true -> x = 32) by (intros; apply A; [now right|assumption]). apply no_run_cons in Hr. destruct Hr as [R1 R2].
    assert (He' : ends_space t = false).
    { unfold ends_space in *. cbn [rev] in He. destruct (rev t) eqn:E; [reflexivity|exact He]. }
    destruct (sep c) eqn:E.
    + assert (c = 32) by (apply A; [now left|exact E]). subst c. destruct w as [|a w]; [specialize (Hd eq_refl); discriminate Hd|].
      assert (Z : starts_space t = false) by (destruct (starts_space t); [destruct R1; now split|reflexivity]).
      destruct t as [|d t]; [discriminate He|]. cbn [flush app]. assert (X := IH A' [] eq_refl (fun _ => Z) R2 He').
      destruct (fields_acc sep [] (d :: t)) as [|f fs] eqn:F; [discriminate X|]. change (join [32] ((a :: w) :: f :: fs)) with ((a :: w) ++ [32] ++ join [32] (f :: fs)). rewrite X. reflexivity.
    + rewrite (IH A'); [now rewrite <- app_assoc|rewrite forallb_app, Hw; cbn; now rewrite E|intros Z; destruct w; discriminate Z|exact R2|exact He'].
Qed.
Lemma rdrop_end t : ends_space (rdropwhile (N.eqb 32) t) = false.
Proof. unfold ends_space, rdropwhile. rewrite rev_involutive. apply dropwhile_32_start. Qed.
Lemma rdrop_start t : starts_space t = false -> starts_space (rdropwhile (N.eqb 32) t) = false.
Proof. intros H. destruct (rdropwhile_split (N.eqb 32) t) as (s & E & _). destruct (rdropwhile (N.eqb 32) t) as [|c w]; [reflexivity|]. rewrite E in H. exact H. Qed.
Lemma ends_trim t : starts_space (rdropwhile (N.eqb 32) (dropwhile (N.eqb 32) t)) = false /\ ends_space (rdropwhile (N.eqb 32) (dropwhile (N.eqb 32) t)) = false.
Proof. split; [apply rdrop_start, dropwhile_32_start|apply rdrop_end]. Qed.
Lemma words_exact lib ws t : wrapping ws -> narrow lib (c_unescape lib t) = true ->
  normalize_text lib ws t None true true = join [32] (fields collapsible (c_unescape lib t)).
Proof.
  intros W H. rewrite <- (processed_fields lib ws t W H). assert (F := normalize_flat lib ws t None true true W). assert (R := normalize_no_run lib ws t None true true ltac:(unfold collapsing; destruct W; tauto)).
  unfold normalize_text in *. cbn [after] in *. destruct (ends_trim (processed lib ws t)) as [E1 E2]. set (u := processed lib ws t) in *. set (v := rdropwhile (N.eqb 32) (dropwhile (N.eqb 32) u)) in *.
  assert (G : fields collapsible u = fields collapsible v).
  { unfold v. rewrite fields_rdropwhile, fields_dropwhile; [reflexivity| |]; intros c Q; apply N.eqb_eq in Q; now subst. }
  rewrite G. symmetry. unfold fields. rewrite join_fields; [reflexivity| |reflexivity|reflexivity|auto|exact R|exact E2].
  intros c I P. rewrite forallb_forall in F. specialize (F c I). rewrite P in F. cbn in F. now apply N.eqb_eq in F.
Qed.

(** ** Idempotence *)
Definition settled (t : text) : Prop := forallb (fun c => negb (collapsible c) || (c =? 32)) t = true /\ no_run t /\ starts_space t = false /\ ends_space t = false.
Lemma settled_breaks lib t : flat t = true -> forall prev, breaks lib prev false t = t.
Proof. induction t as [|c t IH]; intros H prev; [reflexivity|]. cbn in H. apply andb_true_iff in H. destruct H as [A B]. apply negb_true_iff in A. cbn [breaks]. rewrite A. cbn [app]. f_equal. now apply IH. Qed.
Lemma settled_chars t c : forallb (fun c => negb (collapsible c) || (c =? 32)) t = true -> In c t -> c <> 9 /\ c <> 10 /\ c <> 13.
Proof. intros H I. rewrite forallb_forall in H. specialize (H c I). repeat split; intros ->; discriminate H. Qed.
Lemma settled_processed lib ws t : wrapping ws -> settled t -> c_unescape lib t = t -> processed lib ws t = t.
Proof.
  intros W (F & R & S & E) U. rewrite processed_wrapping by exact W. rewrite U. assert (C := fun c => settled_chars t c F).
  assert (L : split_on 10 t = [t]) by (apply split_on_single, forallb_forall; intros c I; apply negb_true_iff, N.eqb_neq; destruct (C c I) as (_ & X & _); congruence).
  assert (H1 : dropwhile is_blank t = t).
  { apply dropwhile_head. destruct t as [|c t]; [reflexivity|]. cbn [head_not starts_space] in *. unfold is_blank. rewrite S. apply negb_true_iff. cbn [orb]. destruct (C c) as (X & _); [now left|]. now apply N.eqb_neq. }
  assert (H2 : rdropwhile is_blank t = t).
  { apply rdropwhile_id. unfold ends_space in E. destruct (rev t) as [|c u] eqn:V; [reflexivity|]. cbn [head_not starts_space] in *. unfold is_blank. rewrite E. apply negb_true_iff. cbn [orb].
    destruct (C c) as (X & _); [apply in_rev; rewrite V; now left|]. now apply N.eqb_neq. }
  unfold strip_leading. rewrite L. cbn [map join]. rewrite H1. unfold strip_trailing. rewrite L. cbn [map join]. rewrite H2.
  rewrite settled_breaks.
  - rewrite <- (map_id t) at 2. rewrite (map_ext_in tab_space (fun c => c)); [rewrite map_id; now apply no_run_collapse|].
    intros c I. unfold tab_space. destruct (C c I) as (X & _). apply N.eqb_neq in X. now rewrite X.
  - apply forallb_forall. intros c I. unfold is_break. destruct (C c I) as (_ & X & Y). apply N.eqb_neq in X, Y. now rewrite X, Y.
Qed.
Lemma normalize_settled lib ws t prev : wrapping ws -> settled (normalize_text lib ws t prev true true).
Proof.
  intros W. split; [now apply normalize_flat|]. split; [apply normalize_no_run; unfold collapsing; destruct W; tauto|]. unfold normalize_text. apply ends_trim.
Qed.
Lemma settled_fixed lib ws t first tail : wrapping ws -> settled t -> c_unescape lib t = t -> normalize_text lib ws t None first tail = t.
Proof.
  intros W S U. unfold normalize_text. rewrite settled_processed by assumption. cbn [after]. destruct S as (_ & _ & S & E).
  assert (A : dropwhile (N.eqb 32) t = t) by (apply dropwhile_head; destruct t as [|c t]; [reflexivity|]; cbn [head_not starts_space] in *; now rewrite N.eqb_sym, S).
  assert (B : rdropwhile (N.eqb 32) t = t) by (apply rdropwhile_id; unfold ends_space in E; destruct (rev t) as [|c u]; [reflexivity|]; cbn [head_not starts_space] in *; now rewrite N.eqb_sym, E).
  destruct first; rewrite ?A; destruct tail; now rewrite ?B.
Qed.
