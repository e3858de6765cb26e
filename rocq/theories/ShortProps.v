(** C23, C24: declaration blocks and shorthand properties. *)
From Verif Require Import PyBase PyText PySplit PyDict PyCase ShortModel ShortSpec ShortProofs ShortProofs2 ShortProofs3 ShortProofs4 ShortProofs5 ShortProofs6.
From Coq Require Import Lia.
Local Open Scope nat_scope.

Definition empty_block : block := mkB [] false.
Definition sample : block :=
  mkB [(lit "fill", (lit "red", [])); (lit "stroke", (lit "blue", lit "important")); (lit "--X", (lit "1", []))] false.
Lemma sample_ok : block_ok sample.
Proof. unfold block_ok, dict_ok. cbn [sample bdecls dkeys map fst]. nodup_lits. Qed.

(** After any history the value of a longhand or custom property is that of
    its last declaration, whatever was done to other properties. *)
Theorem c23_last_value : forall c h b n, block_ok b -> breadonly b = false -> is_shorthand (key n) = false ->
  (forall o, In o h -> is_shorthand (key (dop_name o)) = true -> ~ In (key n) (written (dop_name o))) ->
  get_property_value c (fold_left (drun c) h b) n = entry_value (latest c (key n) h (dget (bdecls b) (key n))) /\
  get_property_priority (fold_left (drun c) h b) n = entry_priority (latest c (key n) h (dget (bdecls b) (key n))).
Proof.
  intros c h b n B R S W. unfold get_property_value, get_property_priority. rewrite S.
  rewrite (run_latest c (key n) h b B R S W). split; reflexivity.
Qed.
Print Assumptions c23_last_value.
Example c23_last_value_case :
  let h := [DSet (lit "Fill") (lit " green ") None; DSet (lit "overflow") (lit "hidden") None;
            DSet (lit "fill") (lit "white") (Some (lit "IMPORTANT")); DSet (lit "fill") (lit "gray") (Some (lit "bad")); DRemove (lit "stroke");
            DSet (lit "fill") (lit "black") None] in
  (forall o, In o h -> is_shorthand (key (dop_name o)) = true -> ~ In (key (lit "FILL")) (written (dop_name o))) /\
  get_property_value wcss (fold_left (drun wcss) h sample) (lit "FILL") = lit "black" /\
  get_property_priority (fold_left (drun wcss) h sample) (lit "FILL") = lit "important" /\
  get_property_value wcss (fold_left (drun wcss) h sample) (lit "stroke") = [] /\
  get_property_value wcss (fold_left (drun wcss) h sample) (lit "--X") = lit "1" /\
  get_property_value wcss (fold_left (drun wcss) h sample) (lit "--x") = [].
Proof.
  cbv zeta. split; [|vm_compute; repeat split].
  intros o H. cbn [In] in H.
  repeat (destruct H as [<-|H]; [vm_compute; intuition congruence|]). destruct H.
Qed.

(** What one declaration that is accepted does: the value is readable, the
    property is the last one listed, the others are as before. *)
Theorem c23_set : forall c b n v w p, block_ok b -> breadonly b = false -> is_shorthand (key n) = false ->
  nonempty (normalize_text v) = true -> stored c v = Some w -> good_priority (lower p) = true ->
  exists b', set_property c b n v (Some p) = Ok b' /\
    get_property_value c b' n = w /\ get_property_priority b' n = lower p /\
    keys b' = filter (fun x => negb (text_eqb x (key n))) (keys b) ++ [key n] /\
    (forall m, key m <> key n -> is_shorthand (key m) = false ->
       get_property_value c b' m = get_property_value c b m /\ get_property_priority b' m = get_property_priority b m).
Proof.
  intros c b n v w p B R S NV ST G.
  assert (FN : find_shorthand (key n) = None).
  { unfold is_shorthand in S. destruct (find_shorthand (key n)); [discriminate|reflexivity]. }
  exists (mkB (dset_end (bdecls b) (key n) (w, lower p)) false).
  split.
  - unfold set_property. rewrite R, NV. cbn [negb]. unfold good_priority in G. rewrite G. cbn [negb].
    unfold set_internal. rewrite FN. rewrite (stored_spec c v _ eq_refl) in ST. cbv zeta in ST.
    destruct (cparse c (normalize_text v)) as [|x r]; [discriminate|]. unfold set_longhand.
    destruct (nonempty (strip (serialize (x :: r)))); [|discriminate]. injection ST as <-. reflexivity.
  - unfold get_property_value, get_property_priority. rewrite S. cbn [bdecls]. rewrite dget_dset_end by exact B. rewrite text_eqb_refl.
    split; [reflexivity|]. split; [reflexivity|]. split; [unfold keys; cbn [bdecls]; rewrite dset_end_keys, ddel_keys by exact B; reflexivity|].
    intros m Nm Sm. rewrite Sm, !dget_dset_end by exact B. destruct (text_eqb_spec (key n) (key m)); [congruence|]. split; reflexivity.
Qed.
Print Assumptions c23_set.
Example c23_set_case : exists b', set_property wcss sample (lit "FILL") (lit "  CurrentColor") (Some (lit "Important")) = Ok b' /\
  bdecls b' = [(lit "stroke", (lit "blue", lit "important")); (lit "--X", (lit "1", [])); (lit "fill", (lit "currentcolor", lit "important"))].
Proof. eexists. split; vm_compute; reflexivity. Qed.

(** A declaration without a priority keeps the priority the property had. *)
Theorem c23_keep_priority : forall c b n v, breadonly b = false ->
  nonempty (normalize_text v) = true ->
  set_property c b n v None = set_property c b n v (Some (get_property_priority b n)) \/
  lower (get_property_priority b n) <> get_property_priority b n.
Proof.
  intros c b n v R NV. destruct (text_eqb_spec (lower (get_property_priority b n)) (get_property_priority b n)) as [E|E]; [left|right; exact E].
  unfold set_property. rewrite R, NV. cbn [negb]. rewrite E.
  replace (get_property_priority b (key n)) with (get_property_priority b n); [reflexivity|].
  unfold get_property_priority. rewrite key_key. reflexivity.
Qed.
Print Assumptions c23_keep_priority.
Example c23_keep_priority_case : exists b', set_property wcss sample (lit "stroke") (lit "lime") None = Ok b' /\
  get_property_priority b' (lit "stroke") = lit "important" /\ get_property_value wcss b' (lit "stroke") = lit "lime".
Proof. eexists. split; [vm_compute; reflexivity|]. split; vm_compute; reflexivity. Qed.

(** A priority other than "" and "important" (in any letter case), and a value
    that is nothing, change nothing. *)
Theorem c23_bad_priority : forall c b n v p, breadonly b = false -> nonempty (normalize_text v) = true ->
  good_priority (lower p) = false -> set_property c b n v (Some p) = Ok b.
Proof. intros c b n v p R NV G. unfold set_property. rewrite R, NV. cbn [negb]. unfold good_priority in G. rewrite G. reflexivity. Qed.
Print Assumptions c23_bad_priority.
Example c23_bad_priority_case : set_property wcss sample (lit "fill") (lit "lime") (Some (lit "!important")) = Ok sample.
Proof. vm_compute. reflexivity. Qed.
Theorem c23_no_value : forall c b n v p, breadonly b = false -> nonempty (normalize_text v) = true -> is_shorthand (key n) = false ->
  stored c v = None -> set_property c b n v p = Ok b.
Proof.
  intros c b n v p R NV S ST. unfold set_property. rewrite R, NV. cbn [negb].
  destruct (negb _); [reflexivity|]. unfold set_internal.
  assert (FN : find_shorthand (key n) = None).
  { unfold is_shorthand in S. destruct (find_shorthand (key n)); [discriminate|reflexivity]. }
  rewrite FN. rewrite (stored_spec c v _ eq_refl) in ST. cbv zeta in ST.
  destruct (cparse c (normalize_text v)) as [|x r]; [reflexivity|]. unfold set_longhand.
  destruct (nonempty (strip (serialize (x :: r)))); [discriminate|reflexivity].
Qed.
Print Assumptions c23_no_value.
Definition no_css : css := mkCss (fun _ => []) (fun _ _ => Ok (true, false)) (fun _ _ => true) (fun _ => []) (fun _ => false) (fun _ => false).
Example c23_no_value_case : stored no_css (lit "/**/") = None /\ set_property no_css sample (lit "fill") (lit "/**/") None = Ok sample.
Proof. vm_compute. split; reflexivity. Qed.

(** An empty value removes the property, and remove_property returns the value
    it had. *)
Theorem c23_empty_removes : forall c b n v p, breadonly b = false -> nonempty (normalize_text v) = false ->
  exists old, remove_property c b n = Ok (drun c b (DSet n v p), old) /\ old = get_property_value c b n.
Proof.
  intros c b n v p R NV. exists (get_property_value c b n). split; [|reflexivity].
  cbn [drun]. unfold set_property. rewrite R, NV. cbn [negb]. unfold remove_property. rewrite R. reflexivity.
Qed.
Print Assumptions c23_empty_removes.
Theorem c23_remove : forall c b n, block_ok b -> breadonly b = false -> is_shorthand (key n) = false ->
  exists b', remove_property c b n = Ok (b', get_property_value c b n) /\
    contains b' n = false /\ get_property_value c b' n = [] /\ get_property_priority b' n = [] /\
    keys b' = filter (fun x => negb (text_eqb x (key n))) (keys b) /\
    (forall m, key m <> key n -> is_shorthand (key m) = false -> get_property_value c b' m = get_property_value c b m).
Proof.
  intros c b n B R S. unfold remove_property. rewrite R, S. eexists. split; [reflexivity|].
  unfold contains, get_property_value, get_property_priority, keys, dhas. rewrite S. cbn [bdecls].
  rewrite dget_ddel by exact B. rewrite text_eqb_refl.
  split; [reflexivity|]. split; [reflexivity|]. split; [reflexivity|]. split; [apply ddel_keys; exact B|].
  intros m Nm Sm. rewrite Sm, dget_ddel by exact B. destruct (text_eqb_spec (key n) (key m)); [congruence|reflexivity].
Qed.
Print Assumptions c23_remove.
Example c23_remove_case : exists b', remove_property wcss sample (lit "Stroke") = Ok (b', lit "blue") /\
  keys b' = [lit "fill"; lit "--X"] /\ drun wcss sample (DSet (lit "STROKE") (lit "  ") None) = b'.
Proof. eexists. split; [vm_compute; reflexivity|]. split; vm_compute; reflexivity. Qed.

(** After any history, from an empty block say, no property is listed twice,
    item() lists them all and exactly the listed ones are in the block. *)
Theorem c23_enumerates : forall c h b, block_ok b ->
  let b' := fold_left (drun c) h b in
  NoDup (keys b') /\ length_ b' = length (keys b') /\
  (forall n, In (key n) (keys b') <-> contains b' n = true) /\
  (forall i, i < length_ b' -> exists q, item b' i = Some q /\ In q (keys b')) /\
  (forall i, length_ b' <= i -> item b' i = None) /\
  (forall q, In q (keys b') -> exists! i, item b' i = Some q).
Proof.
  intros c h b B b'. assert (B' : block_ok b') by (apply run_ok; exact B).
  assert (L : length_ b' = length (keys b')) by (unfold length_, keys, dkeys; rewrite map_length; reflexivity).
  split; [exact B'|]. split; [exact L|].
  split; [intros n; unfold contains, keys, dhas; rewrite <- dget_some_keys; destruct (dget (bdecls b') (key n)); split; intros Q; [reflexivity|eauto|destruct Q; discriminate|discriminate]|].
  split; [|split].
  - intros i Hi. unfold item. rewrite L in Hi. destruct (nth_error (keys b') i) eqn:E.
    + eexists. split; [reflexivity|]. apply nth_error_In in E. exact E.
    + apply nth_error_None in E. lia.
  - intros i Hi. apply nth_error_None. rewrite <- L. exact Hi.
  - intros q Hq. apply In_nth_error in Hq as [i Hi]. exists i. split; [exact Hi|]. intros j Hj. unfold item in Hj.
    unfold block_ok, dict_ok in B'. fold (keys b') in B'. rewrite NoDup_nth_error in B'. apply B'; [|congruence].
    apply nth_error_Some. congruence.
Qed.
Print Assumptions c23_enumerates.
Example c23_enumerates_case :
  let b' := fold_left (drun wcss) [DSet (lit "fill") (lit "red") None; DSet (lit "overflow") (lit "hidden") None; DSet (lit "FILL") (lit "blue") None] empty_block in
  keys b' = [lit "overflow-x"; lit "overflow-y"; lit "fill"].
Proof. vm_compute. reflexivity. Qed.

(** A read-only block refuses every change. *)
Theorem c23_readonly : forall c h b n v p, breadonly b = true ->
  set_property c b n v p = Err NoModificationAllowedError /\ remove_property c b n = Err NoModificationAllowedError /\
  fold_left (drun c) h b = b.
Proof.
  intros c h b n v p R. unfold set_property, remove_property. rewrite R. split; [reflexivity|]. split; [reflexivity|].
  induction h as [|o h IH]; [reflexivity|]. cbn [fold_left]. rewrite drun_readonly by exact R. exact IH.
Qed.
Print Assumptions c23_readonly.
Example c23_readonly_case : breadonly (mkB (bdecls sample) true) = true /\ get_property_value wcss (mkB (bdecls sample) true) (lit "fill") = lit "red".
Proof. split; reflexivity. Qed.

(** Names are compared without letter case, custom properties with it. *)
Theorem c23_name_case : forall c b n m, custom n = false -> custom m = false -> lower n = lower m ->
  get_property_value c b n = get_property_value c b m /\ get_property_priority b n = get_property_priority b m /\
  contains b n = contains b m /\ remove_property c b n = remove_property c b m /\
  (forall v p, set_property c b n v p = set_property c b m v p).
Proof.
  intros c b n m Cn Cm E. assert (K : key n = key m) by (unfold key; rewrite Cn, Cm; exact E).
  unfold get_property_value, get_property_priority, contains, set_property, remove_property, get_property_value. rewrite K.
  repeat split; reflexivity.
Qed.
Print Assumptions c23_name_case.
Theorem c23_custom_case : forall c b n m v p b', block_ok b -> custom n = true -> custom m = true -> n <> m ->
  set_property c b n v p = Ok b' -> get_property_value c b' m = get_property_value c b m.
Proof.
  intros c b n m v p b' B Cn Cm N H.
  destruct (breadonly b) eqn:R; [unfold set_property in H; rewrite R in H; discriminate|].
  assert (Kn : key n = n) by (unfold key; rewrite Cn; reflexivity). assert (Km : key m = m) by (unfold key; rewrite Cm; reflexivity).
  assert (Sn : is_shorthand n = false) by (unfold is_shorthand, find_shorthand; rewrite Cn; reflexivity).
  assert (Sm : is_shorthand m = false) by (unfold is_shorthand, find_shorthand; rewrite Cm; reflexivity).
  assert (E := step_latest c b (DSet n v p) m B R Sm). cbn [drun dop_name latest_step] in E. rewrite H, Kn, Sn in E.
  destruct (text_eqb_spec n m); [congruence|].
  unfold get_property_value. rewrite Km, Sm, E; [reflexivity|discriminate].
Qed.
Print Assumptions c23_custom_case.
Example c23_custom_case_case : custom (lit "--X") = true /\ lower (lit "FILL") = lower (lit "fill") /\
  get_property_value wcss (drun wcss sample (DSet (lit "--x") (lit "2") None)) (lit "--X") = lit "1".
Proof. vm_compute. repeat split. Qed.

(** In the declarations of one style rule a later plain declaration replaces
    an earlier important one; by the cascade the important one should stay. *)
Theorem c23_important_refuted : exists b', parse_content wcss empty_block
    [(lit "fill", lit "red", true); (lit "fill", lit "blue", false)] = Ok b' /\
  get_property_value wcss b' (lit "fill") = lit "blue" /\ get_property_priority b' (lit "fill") = [].
Proof. eexists. split; [vm_compute; reflexivity|]. split; vm_compute; reflexivity. Qed.
Print Assumptions c23_important_refuted.
(** Missing: that important declarations win.  What holds: the declarations of
    a rule act as set_property in order, so the last one of a property counts. *)
Theorem c23_rule_last_partial : forall c l b b', parse_content c b l = Ok b' ->
  b' = fold_left (drun c) (map (fun e => let '(n, v, imp) := e in DSet n v (Some (if imp : bool then lit "important" else []))) l) b.
Proof.
  intros c l. induction l as [|[[n v] imp] l IH]; intros b b'; cbn [parse_content map fold_left].
  - intros H. injection H as <-. reflexivity.
  - destruct (set_property c b n v _) as [b1|e] eqn:E; cbn [bind]; [|discriminate]. intros H. apply IH in H.
    cbn [drun]. rewrite E. exact H.
Qed.
Print Assumptions c23_rule_last_partial.

(** C24.  Setting a shorthand either changes nothing or declares exactly its
    longhands, all with the priority given, and leaves every other property. *)
Theorem c24_set_exact : forall c b n s l v p b', block_ok b -> find_shorthand (key n) = Some (s, l) ->
  nonempty (normalize_text v) = true -> set_property c b n v (Some p) = Ok b' ->
  b' = b \/
  (good_priority (lower p) = true /\ get_property_priority b' n = lower p /\
   (forall k, In k (leaves s) -> contains b' k = true /\ get_property_priority b' k = lower p) /\
   (forall k, ~ In k (leaves s) -> dget (bdecls b') k = dget (bdecls b) k)).
Proof.
  intros c b n s l v p b' B F NV. unfold set_property. destruct (breadonly b); [discriminate|]. rewrite NV. cbn [negb].
  destruct (text_eqb (lower p) [] || text_eqb (lower p) (lit "important")) eqn:G; cbn [negb]; [|intros H; injection H as <-; now left].
  unfold set_internal. rewrite F. destruct (cparse c (normalize_text v)) as [|x r]; cbn [bind]; [intros H; injection H as <-; now left|].
  destruct (sh_set c s (bdecls b) (x :: r) (lower p)) as [[d'|]|e] eqn:E; cbn [bind]; [|intros H; injection H as <-; now left|discriminate].
  intros H. injection H as <-. right. destruct (sh_set_wrote c s _ _ _ _ B E) as (D & W & O).
  split; [exact G|]. assert (S : is_shorthand (key n) = true) by (unfold is_shorthand; rewrite F; reflexivity).
  assert (LK : forall k, In k (leaves s) -> key k = k /\ is_shorthand k = false).
  { assert (Q : forallb (fun k => text_eqb (key k) k && negb (is_shorthand k)) (leaves s) = true) by (destruct s; vm_compute; reflexivity).
    rewrite forallb_forall in Q. intros k Hk. apply Q in Hk. apply Bool.andb_true_iff in Hk as [A1 A2].
    destruct (text_eqb_spec (key k) k); [|discriminate]. split; [assumption|]. destruct (is_shorthand k); [discriminate|reflexivity]. }
  split; [unfold get_property_priority; rewrite S; cbn [bdecls]; rewrite (find_key n s l F); apply priority_all; exact W|].
  split; [|exact O].
  intros k Hk. destruct (LK k Hk) as [Ek Sk]. destruct (W k Hk) as [w Gk].
  unfold contains, get_property_priority, dhas. rewrite Ek, Sk. cbn [bdecls]. rewrite Gk. split; reflexivity.
Qed.
Print Assumptions c24_set_exact.
Example c24_set_exact_case : exists b', set_property wcss sample (lit "Overflow") (lit "hidden  scroll") (Some (lit "important")) = Ok b' /\
  b' <> sample /\ get_property_priority b' (lit "overflow") = lit "important" /\
  get_property_value wcss b' (lit "overflow-y") = lit "scroll" /\ get_property_value wcss b' (lit "fill") = lit "red".
Proof. eexists. split; [vm_compute; reflexivity|]. split; [discriminate|]. vm_compute. repeat split. Qed.

(** Removing a shorthand removes all its longhands and nothing else, keeps the
    order of the rest and returns the value it had. *)
Theorem c24_remove_exact : forall c b n s l, block_ok b -> breadonly b = false -> find_shorthand (key n) = Some (s, l) ->
  exists b', remove_property c b n = Ok (b', get_property_value c b n) /\
    (forall k, In k (leaves s) -> contains b' k = false) /\
    (forall k, ~ In k (leaves s) -> dget (bdecls b') k = dget (bdecls b) k) /\
    keys b' = filter (fun x => negb (mem x (leaves s))) (keys b).
Proof.
  intros c b n s l B R F. unfold remove_property. rewrite R.
  assert (S : is_shorthand (key n) = true) by (unfold is_shorthand; rewrite F; reflexivity). rewrite S.
  eexists. split; [reflexivity|]. rewrite (find_key n s l F).
  destruct (sh_remove_spec (bdecls b) s B) as (D & G & K). unfold keys, contains, dhas. cbn [bdecls].
  split; [|split; [|exact K]].
  - intros k Hk. assert (Ek : key k = k).
    { assert (Q : forallb (fun k => text_eqb (key k) k) (leaves s) = true) by (destruct s; vm_compute; reflexivity).
      rewrite forallb_forall in Q. apply Q in Hk. destruct (text_eqb_spec (key k) k); [assumption|discriminate]. }
    rewrite Ek, G. apply mem_in in Hk. rewrite Hk. reflexivity.
  - intros k Hk. rewrite G. apply mem_not_in in Hk. rewrite Hk. reflexivity.
Qed.
Print Assumptions c24_remove_exact.
Definition fonts : block :=
  mkB [(lit "font-style", (lit "italic", [])); (lit "fill", (lit "red", [])); (lit "font-variant-caps", (lit "small-caps", []));
       (lit "font-size-adjust", (lit "none", []))] false.
Example c24_remove_exact_case : exists b', remove_property wcss fonts (lit "FONT") = Ok (b', []) /\ keys b' = [lit "fill"; lit "font-size-adjust"].
Proof. eexists. split; vm_compute; reflexivity. Qed.

(** The priority of a shorthand: "" or the priority of each of its declared
    longhands; the common priority when all are declared. *)
Theorem c24_priority_common : forall b n s l, find_shorthand (key n) = Some (s, l) ->
  (forall p, (forall k, In k (leaves s) -> exists v, dget (bdecls b) k = Some (v, p)) -> get_property_priority b n = p) /\
  (forall k v p, In k (leaves s) -> dget (bdecls b) k = Some (v, p) -> get_property_priority b n = [] \/ get_property_priority b n = p).
Proof.
  intros b n s l F. assert (S : is_shorthand (key n) = true) by (unfold is_shorthand; rewrite F; reflexivity).
  unfold get_property_priority. rewrite S, (find_key n s l F). split.
  - intros p H. apply priority_all. exact H.
  - intros k v p H G. apply (priority_shared _ s k v p H G).
Qed.
Print Assumptions c24_priority_common.
Example c24_priority_common_case :
  get_property_priority (mkB [(lit "overflow-x", (lit "auto", lit "important")); (lit "overflow-y", (lit "auto", lit "important"))] false) (lit "overflow") = lit "important" /\
  get_property_priority (mkB [(lit "overflow-x", (lit "auto", lit "important")); (lit "overflow-y", (lit "auto", []))] false) (lit "overflow") = [].
Proof. split; reflexivity. Qed.
(** Missing: font (below).  For the other seven, the common priority of the
    longhands that are declared, when some are. *)
Theorem c24_priority_declared_partial : forall b n s l p, s <> SFont -> find_shorthand (key n) = Some (s, l) ->
  (exists k, In k (leaves s) /\ dhas (bdecls b) k = true) ->
  (forall k v q, In k (leaves s) -> dget (bdecls b) k = Some (v, q) -> q = p) ->
  get_property_priority b n = p.
Proof.
  intros b n s l p NF F E H. assert (S : is_shorthand (key n) = true) by (unfold is_shorthand; rewrite F; reflexivity).
  unfold get_property_priority. rewrite S, (find_key n s l F). apply priority_flat; assumption.
Qed.
Print Assumptions c24_priority_declared_partial.
Example c24_priority_declared_case :
  get_property_priority (mkB [(lit "mask-clip", (lit "border-box", lit "important")); (lit "fill", (lit "red", []))] false) (lit "mask") = lit "important".
Proof. reflexivity. Qed.
(** The only longhand of font declared is important, the priority of font is "". *)
Theorem c24_priority_font_refuted : exists b, block_ok b /\
  (exists k, In k (leaves SFont) /\ dhas (bdecls b) k = true) /\
  (forall k v q, In k (leaves SFont) -> dget (bdecls b) k = Some (v, q) -> q = lit "important") /\
  get_property_priority b (lit "font") = [].
Proof.
  exists (mkB [(lit "font-style", (lit "italic", lit "important"))] false).
  split; [repeat constructor; cbn; intuition|]. split; [exists (lit "font-style"); split; [now left|reflexivity]|].
  split; [|reflexivity]. intros k v q _ G. cbn [bdecls dget] in G. destruct (text_eqb (lit "font-style") k); [|discriminate]. congruence.
Qed.
Print Assumptions c24_priority_font_refuted.

(** A CSS-wide keyword set on any of the eight shorthands is read back. *)
Theorem c24_read_wide : forall c b s k p, css_ok c -> block_ok b -> breadonly b = false -> good_priority (lower p) = true ->
  In k [lit "inherit"; lit "initial"; lit "revert"; lit "unset"] ->
  exists b', set_property c b (sname s) k (Some p) = Ok b' /\ get_property_value c b' (sname s) = k.
Proof.
  intros c b s k p O B R G H. apply read_wide; auto. cbn [In] in H.
  destruct H as [<-|[<-|[<-|[<-|[]]]]]; reflexivity.
Qed.
Print Assumptions c24_read_wide.
(** The values of white-space are read back, and stand for these longhands. *)
Theorem c24_read_white_space : forall c b w x y p, css_ok c -> block_ok b -> breadonly b = false -> good_priority (lower p) = true ->
  In (w, (x, y)) [(lit "normal", (lit "collapse", lit "wrap")); (lit "pre", (lit "preserve", lit "nowrap"));
                  (lit "nowrap", (lit "collapse", lit "nowrap")); (lit "pre-wrap", (lit "preserve", lit "wrap"));
                  (lit "pre-line", (lit "preserve-breaks", lit "wrap"))] ->
  csupports c (lit "text-space-collapse") x = true -> csupports c (lit "text-wrap") y = true ->
  csupports c (lit "text-space-trim") (lit "none") = true ->
  exists b', set_property c b (lit "white-space") w (Some p) = Ok b' /\
    get_property_value c b' (lit "white-space") = w /\
    get_property_value c b' (lit "text-space-collapse") = x /\ get_property_value c b' (lit "text-wrap") = y /\
    get_property_value c b' (lit "text-space-trim") = lit "none".
Proof. exact read_white_space. Qed.
Print Assumptions c24_read_white_space.
(** font-synthesis *)
Theorem c24_read_font_synthesis : forall c b w x y p, css_ok c -> block_ok b -> breadonly b = false -> good_priority (lower p) = true ->
  In (w, (x, y)) [(lit "none", (lit "none", lit "none")); (lit "weight", (lit "auto", lit "none")); (lit "style", (lit "none", lit "auto"));
                  (lit "weight style", (lit "auto", lit "auto"))] ->
  csupports c (lit "font-synthesis-weight") x = true -> csupports c (lit "font-synthesis-style") y = true ->
  exists b', set_property c b (lit "font-synthesis") w (Some p) = Ok b' /\
    get_property_value c b' (lit "font-synthesis") = w /\
    get_property_value c b' (lit "font-synthesis-weight") = x /\ get_property_value c b' (lit "font-synthesis-style") = y.
Proof. exact read_font_synthesis. Qed.
Print Assumptions c24_read_font_synthesis.
(** overflow: two supported keywords are read back, as one when they are equal. *)
Theorem c24_read_overflow : forall c b x y p cx cy, css_ok c -> block_ok b -> breadonly b = false -> good_priority (lower p) = true ->
  word x = true -> word y = true -> is_wide x = false -> is_wide y = false ->
  csupport c (lit "overflow-x") (mkC CIdent x) = Ok (true, cx) -> csupport c (lit "overflow-x") (mkC CIdent y) = Ok (true, cy) ->
  csupports c (lit "overflow-x") x = true -> csupports c (lit "overflow-y") y = true ->
  exists b', set_property c b (lit "overflow") (x ++ lit " " ++ y) (Some p) = Ok b' /\
    get_property_value c b' (lit "overflow") = (if text_eqb x y then x else x ++ lit " " ++ y) /\
    get_property_value c b' (lit "overflow-x") = x /\ get_property_value c b' (lit "overflow-y") = y.
Proof. exact read_overflow. Qed.
Print Assumptions c24_read_overflow.
(** text-decoration with any words in any order, one group of words for each
    longhand, is read back in the order of the longhands; longhands without
    words become initial. *)
Theorem c24_read_text_decoration : forall c b gs p, css_ok c -> block_ok b -> breadonly b = false -> good_priority (lower p) = true ->
  sorted_out c l_text_decoration gs -> gs <> [] -> (forall q v, given gs q = Some v -> csupports c q v = true) ->
  exists b', set_property c b (lit "text-decoration") (value_text gs) (Some p) = Ok b' /\
    get_property_value c b' (lit "text-decoration") = given_in_order gs l_text_decoration /\
    forall q, In q l_text_decoration -> get_property_value c b' q = match given gs q with Some v => v | None => lit "initial" end.
Proof. exact read_text_decoration_words. Qed.
Print Assumptions c24_read_text_decoration.
(** The same for font-variant, whose longhands go back to normal. *)
Theorem c24_read_font_variant : forall c b gs p, css_ok c -> block_ok b -> breadonly b = false -> good_priority (lower p) = true ->
  sorted_out c l_font_variant gs -> gs <> [] -> (forall q v, given gs q = Some v -> csupports c q v = true) ->
  (forall q, In q l_font_variant -> cinitial c q = lit "normal" /\ csupports c q (lit "normal") = true) ->
  (forall w, In w (value_words gs) -> w <> lit "normal" /\ w <> lit "none") ->
  exists b', set_property c b (lit "font-variant") (value_text gs) (Some p) = Ok b' /\
    get_property_value c b' (lit "font-variant") = given_in_order gs l_font_variant /\
    forall q, In q l_font_variant -> get_property_value c b' q = match given gs q with Some v => v | None => lit "normal" end.
Proof. exact read_font_variant_words. Qed.
Print Assumptions c24_read_font_variant.
(** And for mask: one box is the origin and the clip, two different boxes are
    the origin and then the clip.  Missing: mask-size, which needs a '/'. *)
Theorem c24_read_mask_partial : forall c b gs p, css_ok c -> block_ok b -> breadonly b = false -> good_priority (lower p) = true ->
  sorted_out c l_mask gs -> gs <> [] -> (forall q v, In q l_mask -> mask_given gs q = Some v -> csupports c q v = true) ->
  ggiven gs (lit "mask-size") = None -> ggiven gs (lit "mask-clip") = None ->
  (forall ws, ggiven gs (lit "mask-origin") = Some ws -> exists x, ws = [x] \/ exists y, ws = [x; y] /\ x <> y) ->
  exists b', set_property c b (lit "mask") (value_text gs) (Some p) = Ok b' /\
    get_property_value c b' (lit "mask") = given_in_order gs l_mask /\
    forall q, In q l_mask -> get_property_value c b' q = match mask_given gs q with Some v => v | None => lit "initial" end.
Proof. exact read_mask_words. Qed.
Print Assumptions c24_read_mask_partial.

(* a table of the words of some properties *)
Definition gtable : list (text * list text) :=
  [(lit "text-decoration-line", [lit "underline"; lit "overline"]); (lit "text-decoration-style", [lit "wavy"; lit "dotted"]);
   (lit "text-decoration-color", [lit "red"]);
   (lit "font-variant-ligatures", [lit "common-ligatures"]); (lit "font-variant-caps", [lit "small-caps"]);
   (lit "font-variant-numeric", [lit "ordinal"; lit "slashed-zero"]);
   (lit "mask-image", [lit "none"]); (lit "mask-position", [lit "left"; lit "top"]); (lit "mask-repeat", [lit "round"; lit "space"]);
   (lit "mask-origin", [lit "border-box"; lit "content-box"]); (lit "mask-clip", [lit "border-box"; lit "content-box"]);
   (lit "mask-composite", [lit "add"]); (lit "mask-mode", [lit "alpha"; lit "luminance"])].
Definition gcss : css := mkCss (cparse wcss)
  (fun p x => Ok (match dget gtable p with Some l => mem (ctext x) l | None => false end, false))
  (fun _ _ => true) (cinitial wcss) (fun _ => false) (fun _ => false).
Lemma gcss_ok : css_ok gcss.
Proof. constructor; [exact (ok_words wcss wcss_ok)|reflexivity]. Qed.
(* [sorted_out] can be computed *)
Definition sorted_b (c : css) (ps : list text) (gs : list group) : bool :=
  forallb (fun g => mem (fst g) ps && negb (match snd g with [] => true | _ => false end)
    && forallb (fun w => word w && negb (is_wide w)
       && match csupport c (fst g) (mkC CIdent w) with Ok (true, false) => true | _ => false end
       && forallb (fun q => match csupport c q (mkC CIdent w) with Ok (false, _) => true | _ => false end)
            (firstn (index_of (fst g) ps) ps)) (snd g)) gs.
Lemma index_split p (l1 : list text) q l2 : ~ In p (l1 ++ [q]) -> In q (firstn (index_of p (l1 ++ q :: l2)) (l1 ++ q :: l2)).
Proof.
  induction l1 as [|x l1 IH]; intros N; cbn [app index_of] in *.
  - destruct (text_eqb_spec q p) as [->|]; [cbn in N; tauto|]. cbn. now left.
  - destruct (text_eqb_spec x p) as [->|]; [cbn in N; tauto|]. cbn [firstn]. right. apply IH. cbn in N. tauto.
Qed.
Lemma sorted_b_ok c ps gs : NoDup (map fst gs) -> NoDup ps -> sorted_b c ps gs = true -> sorted_out c ps gs.
Proof.
  intros N NP H. unfold sorted_b in H. rewrite forallb_forall in H. split; [exact N|].
  assert (X : forall p ws, In (p, ws) gs -> mem p ps = true /\ ws <> [] /\ forall w, In w ws -> word w = true /\ is_wide w = false /\
     csupport c p (mkC CIdent w) = Ok (true, false) /\ forall q, In q (firstn (index_of p ps) ps) -> exists f, csupport c q (mkC CIdent w) = Ok (false, f)).
  { intros p ws I. specialize (H (p, ws) I). cbn [fst snd] in H. rewrite !Bool.andb_true_iff in H. destruct H as [[A1 A2] A3].
    split; [exact A1|]. split; [intros ->; discriminate|]. intros w Hw. rewrite forallb_forall in A3. specialize (A3 w Hw).
    rewrite !Bool.andb_true_iff, Bool.negb_true_iff in A3. destruct A3 as [[[B1 B2] B3] B4]. split; [exact B1|]. split; [exact B2|]. split.
    - destruct (csupport c p (mkC CIdent w)) as [[[|] [|]]|]; try discriminate. reflexivity.
    - intros q Hq. rewrite forallb_forall in B4. specialize (B4 q Hq). destruct (csupport c q (mkC CIdent w)) as [[[|] f]|]; try discriminate. eauto. }
  split; [|split].
  - intros p ws I. destruct (X p ws I) as (A & B & C). split; [now apply mem_in|]. split; [exact B|]. apply Forall_forall. intros w Hw.
    destruct (C w Hw) as (C1 & C2 & _). now split.
  - intros p ws w I J. destruct (X p ws I) as (_ & _ & C). apply (C w J).
  - intros p ws w q l1 l2 I J E K. destruct (X p ws I) as (_ & _ & C). destruct (C w J) as (_ & _ & _ & D). apply D. subst ps. apply index_split.
    intros Z. apply in_app_or in Z. cbn [In] in Z. apply in_split in K as (a & b & ->).
    replace (l1 ++ q :: a ++ p :: b) with ((l1 ++ q :: a) ++ p :: b) in NP by (rewrite <- app_assoc; reflexivity).
    apply NoDup_remove_2 in NP. apply NP. apply in_or_app. left. apply in_or_app. cbn. tauto.
Qed.
Definition g_decoration : list group :=
  [(lit "text-decoration-color", [lit "red"]); (lit "text-decoration-line", [lit "overline"; lit "underline"])].
Definition g_variant : list group :=
  [(lit "font-variant-numeric", [lit "slashed-zero"; lit "ordinal"]); (lit "font-variant-caps", [lit "small-caps"])].
Definition g_mask : list group :=
  [(lit "mask-mode", [lit "alpha"]); (lit "mask-origin", [lit "content-box"; lit "border-box"]); (lit "mask-repeat", [lit "round"; lit "space"]);
   (lit "mask-position", [lit "left"; lit "top"])].
Example c24_read_words_case : css_ok gcss /\
  sorted_out gcss l_text_decoration g_decoration /\ sorted_out gcss l_font_variant g_variant /\ sorted_out gcss l_mask g_mask /\
  get_property_value gcss (drun gcss sample (DSet (lit "text-decoration") (lit "red overline underline") (Some []))) (lit "text-decoration")
    = lit "overline underline red" /\
  get_property_value gcss (drun gcss sample (DSet (lit "font-variant") (lit "slashed-zero ordinal small-caps") (Some []))) (lit "font-variant")
    = lit "small-caps slashed-zero ordinal" /\
  get_property_value gcss (drun gcss sample (DSet (lit "mask") (lit "alpha content-box border-box round space left top") (Some []))) (lit "mask")
    = lit "left top round space content-box border-box alpha".
Proof.
  split; [exact gcss_ok|].
  split; [apply sorted_b_ok; [cbn [g_decoration map fst]; nodup_lits|unfold l_text_decoration; nodup_lits|vm_compute; reflexivity]|].
  split; [apply sorted_b_ok; [cbn [g_variant map fst]; nodup_lits|unfold l_font_variant; nodup_lits|vm_compute; reflexivity]|].
  split; [apply sorted_b_ok; [cbn [g_mask map fst]; nodup_lits|unfold l_mask; nodup_lits|vm_compute; reflexivity]|].
  vm_compute. repeat split.
Qed.

(** The text of mask when all its longhands are declared with one priority, none
    with a CSS-wide keyword other than 'initial', and no longhand of mask-border
    after one of mask: the values in their order, the size after a '/', the clip
    only when it differs from the origin, and nothing if there is a size without a position. *)
Theorem c24_print_mask : forall c b v p pre post, css_ok c -> declared c (bdecls b) l_mask v p -> (exists k, In k l_mask /\ v k <> None) ->
  dkeys (bdecls b) = pre ++ post -> (forall k, In k l_mask -> In k post /\ ~ In k pre) -> (forall k, In k l_mask_border -> ~ In k post) ->
  get_property_value c b (lit "mask") =
  match v (lit "mask-position"), v (lit "mask-size") with
  | None, Some _ => []
  | _, _ => join (lit " ") (opt (v (lit "mask-image")) ++ opt (v (lit "mask-position")) ++ slashed (v (lit "mask-size")) ++ opt (v (lit "mask-repeat"))
      ++ opt (v (lit "mask-origin"))
      ++ (match v (lit "mask-origin"), v (lit "mask-clip") with Some o, Some k => if text_eqb o k then [] else [k] | _, k => opt k end)
      ++ opt (v (lit "mask-composite")) ++ opt (v (lit "mask-mode")))
  end.
Proof.
  intros c b v p pre post O H EX K K1 K2. destruct b as [d r]. rewrite (get_block c d r SMask : get_property_value c _ (lit "mask") = _).
  change (sname SMask) with (lit "mask"). cbn [bdecls] in *. rewrite (mask_value c d v p pre post O H EX K K1 K2). unfold mask_text.
  destruct (v (lit "mask-position")), (v (lit "mask-size")); reflexivity.
Qed.
Print Assumptions c24_print_mask.
(** mask-border in the same way; the width comes after a '/' and needs a slice,
    the outset comes after another '/' and needs both. *)
Theorem c24_print_mask_border : forall c b v p pre post, css_ok c -> declared c (bdecls b) l_mask_border v p ->
  (exists k, In k l_mask_border /\ v k <> None) ->
  dkeys (bdecls b) = pre ++ post -> (forall k, In k l_mask_border -> In k post /\ ~ In k pre) -> (forall k, In k l_mask -> ~ In k post) ->
  get_property_value c b (lit "mask-border") =
  match v (lit "mask-border-slice"), v (lit "mask-border-width"), v (lit "mask-border-outset") with
  | None, Some _, _ | None, _, Some _ | _, None, Some _ => []
  | _, _, _ => join (lit " ") (opt (v (lit "mask-border-source")) ++ opt (v (lit "mask-border-slice")) ++ slashed (v (lit "mask-border-width"))
      ++ slashed (v (lit "mask-border-outset")) ++ opt (v (lit "mask-border-repeat")) ++ opt (v (lit "mask-border-mode")))
  end.
Proof.
  intros c b v p pre post O H EX K K1 K2. destruct b as [d r]. rewrite (get_block c d r SMaskBorder : get_property_value c _ (lit "mask-border") = _).
  change (sname SMaskBorder) with (lit "mask-border"). cbn [bdecls] in *. rewrite (mask_border_value c d v p pre post O H EX K K1 K2). unfold mask_border_text.
  destruct (v (lit "mask-border-slice")), (v (lit "mask-border-width")), (v (lit "mask-border-outset")); reflexivity.
Qed.
Print Assumptions c24_print_mask_border.
Definition masks : block := mkB (map (fun e => (lit (fst e), (lit (snd e), [])))
  [("fill", "red"); ("mask-border-source", "none"); ("mask-image", "none"); ("mask-position", "left"); ("mask-size", "cover");
   ("mask-repeat", "initial"); ("mask-origin", "content-box"); ("mask-clip", "content-box"); ("mask-composite", "initial");
   ("mask-mode", "alpha")]%string) false.
Definition masks_v (k : text) : option text :=
  match dget (bdecls masks) k with Some (x, _) => if text_eqb x (lit "initial") then None else Some x | None => None end.
Example c24_print_case : declared gcss (bdecls masks) l_mask masks_v [] /\ (exists k, In k l_mask /\ masks_v k <> None) /\
  dkeys (bdecls masks) = [lit "fill"; lit "mask-border-source"] ++ l_mask /\
  get_property_value gcss masks (lit "mask") = lit "none left / cover content-box alpha".
Proof.
  split.
  { intros k J. unfold l_mask in J. cbn [In] in J.
    repeat match type of J with _ \/ _ => destruct J as [<-|J];
      [split; [vm_compute; reflexivity|split; [vm_compute; first [reflexivity|exact I]|intros x E; vm_compute in E; first [discriminate E|injection E as <-; split; [discriminate|reflexivity]]]]|] end.
    destruct J. }
  split; [exists (lit "mask-image"); split; [now left|vm_compute; discriminate]|]. split; reflexivity.
Qed.
(** A clip beside an initial origin is printed as the only box, which is read as
    the box of both: reading the text of mask back changes mask-origin. *)
Theorem c24_mask_clip_refuted : exists b b', block_ok b /\
  get_property_value gcss b (lit "mask-origin") = lit "initial" /\
  set_property gcss b (lit "mask") (get_property_value gcss b (lit "mask")) (Some []) = Ok b' /\
  get_property_value gcss b' (lit "mask-origin") = lit "content-box".
Proof.
  exists (mkB (map (fun k => (k, (if text_eqb k (lit "mask-clip") then lit "content-box" else lit "initial", []))) l_mask) false).
  eexists. split; [unfold block_ok, dict_ok, l_mask; cbn [bdecls dkeys map fst]; nodup_lits|]. vm_compute. repeat split.
Qed.
Print Assumptions c24_mask_clip_refuted.
(** the hypotheses of the theorems on css-wide keywords, white-space, font-synthesis and overflow hold for the sample table *)
Example c24_read_case : css_ok wcss /\ block_ok sample /\ word (lit "underline") = true /\ is_wide (lit "underline") = false /\
  csupport wcss (lit "text-decoration-line") (mkC CIdent (lit "underline")) = Ok (true, false) /\
  csupport wcss (lit "overflow-x") (mkC CIdent (lit "hidden")) = Ok (true, false) /\
  get_property_value wcss (drun wcss sample (DSet (lit "overflow") (lit "hidden hidden") (Some []))) (lit "overflow") = lit "hidden" /\
  get_property_value wcss (drun wcss sample (DSet (lit "mask-border") (lit "unset") (Some []))) (lit "mask-border") = lit "unset" /\
  get_property_value wcss (drun wcss sample (DSet (lit "white-space") (lit "pre-line") (Some []))) (lit "white-space") = lit "pre-line".
Proof. split; [exact wcss_ok|]. split; [exact sample_ok|]. vm_compute. repeat split. Qed.

(** Two CSS-wide keywords are no value: mask, mask-border, overflow and
    text-decoration stay as they were.  Missing: the other shorthands and other
    values that cannot be parsed, for which it is false (below). *)
Theorem c24_two_wide_partial : forall c b s k1 k2 p, css_ok c -> breadonly b = false ->
  In s [SMask; SMaskBorder; SOverflow; STextDecoration] -> is_wide k1 = true -> is_wide k2 = true ->
  set_property c b (sname s) (k1 ++ lit " " ++ k2) p = Ok b.
Proof.
  intros c b s k1 k2 p O R H W1 W2. destruct (wide_word k1 W1) as [A1 L1]. destruct (wide_word k2 W2) as [A2 L2].
  change (lit " ") with [32%N].
  unfold set_property. rewrite R. rewrite normalize_two by assumption.
  assert (NV : nonempty (k1 ++ [32%N] ++ k2) = true) by (destruct k1; [discriminate|reflexivity]).
  rewrite NV. cbn [negb]. destruct (negb _); [reflexivity|]. unfold set_internal.
  destruct (find_sname s) as (l & F & K). rewrite K, F. rewrite (ok_two c O) by assumption.
  assert (SC : forall q, parse_component_list c q [mkC CIdent k1; mkC CWs [32%N]; mkC CIdent k2] [] [] = Ok ([mkC CWs [32%N]], [], [k1; k2])).
  { intros q. unfold parse_component_list. cbn [scan ck ctext]. rewrite L1, W1. cbn [scan ck ctext app]. rewrite L2, W2. reflexivity. }
  assert (SW : forall q, parse_component_list c q [mkC CWs [32%N]] [] [k1; k2] = Ok ([mkC CWs [32%N]], [], [k1; k2])) by reflexivity.
  assert (PE : forall ps, parse_each c ps [mkC CWs [32%N]] [] [k1; k2] = Ok ([mkC CWs [32%N]], [], [k1; k2])).
  { induction ps as [|q ps IH]; [reflexivity|]. cbn [parse_each]. rewrite SW. cbn [bind]. exact IH. }
  assert (PE1 : forall q ps, parse_each c (q :: ps) [mkC CIdent k1; mkC CWs [32%N]; mkC CIdent k2] [] [] = Ok ([mkC CWs [32%N]], [], [k1; k2])).
  { intros q ps. cbn [parse_each]. rewrite SC. cbn [bind]. apply PE. }
  cbn [In] in H. destruct H as [<-|[<-|[<-|[<-|[]]]]]; cbn [sh_set];
    unfold l_mask, l_mask_border, l_text_decoration; try rewrite PE1; try rewrite SC; reflexivity.
Qed.
Print Assumptions c24_two_wide_partial.
Example c24_two_wide_case : set_property wcss fonts (lit "mask") (lit "inherit unset") None = Ok fonts.
Proof. vm_compute. reflexivity. Qed.
(** A value that means nothing for white-space is not refused: it resets the
    longhands to their initial values. *)
Theorem c24_unparsable_refuted : exists b b',
  get_property_value wcss b (lit "white-space") = lit "pre" /\
  set_property wcss b (lit "white-space") (lit "bogus") (Some []) = Ok b' /\
  get_property_value wcss b' (lit "white-space") = lit "normal".
Proof.
  exists (drun wcss empty_block (DSet (lit "white-space") (lit "pre") (Some []))). eexists.
  split; [vm_compute; reflexivity|]. split; [vm_compute; reflexivity|]. vm_compute. reflexivity.
Qed.
Print Assumptions c24_unparsable_refuted.
(** Nor for font-synthesis and text-decoration; for overflow it is a KeyError. *)
Theorem c24_unparsable_more_refuted :
  (exists b b', get_property_value wcss b (lit "font-synthesis") = lit "none" /\
     set_property wcss b (lit "font-synthesis") (lit "bogus") (Some []) = Ok b' /\
     get_property_value wcss b' (lit "font-synthesis") <> lit "none") /\
  (exists b b', get_property_value wcss b (lit "text-decoration") = lit "underline" /\
     set_property wcss b (lit "text-decoration") (lit "bogus") (Some []) = Ok b' /\
     get_property_value wcss b' (lit "text-decoration") <> lit "underline") /\
  set_property wcss empty_block (lit "overflow") (lit "bogus") (Some []) = Err KeyError.
Proof.
  split; [|split].
  - exists (drun wcss empty_block (DSet (lit "font-synthesis") (lit "none") (Some []))). eexists.
    split; [vm_compute; reflexivity|]. split; [vm_compute; reflexivity|]. vm_compute. discriminate.
  - exists (drun wcss empty_block (DSet (lit "text-decoration") (lit "underline") (Some []))). eexists.
    split; [vm_compute; reflexivity|]. split; [vm_compute; reflexivity|]. vm_compute. discriminate.
  - vm_compute. reflexivity.
Qed.
Print Assumptions c24_unparsable_more_refuted.
