(** Proofs about inline styles: changes, histories, loading. *)
From Coq Require Import Permutation.
From Verif Require Import PyBase PyText PySplit PyStrip PyDict PyCase UtilsModel UtilsSpec UtilsProofs ShortModel ShortSpec ShortProofs ShortProofs2 InlineModel InlineSpec InlineProofs.
Local Open Scope nat_scope.

Lemma kept_nonempty c v w : kept_as c v = Some w -> w <> [].
Proof.
  unfold kept_as. cbv zeta. destruct (nonempty _) eqn:E; [|discriminate]. intros Q. injection Q as <-.
  destruct (strip (concat (map ctext (cparse c v)))) as [|x r]; [discriminate|]. match goal with |- context [if ?b then _ else _] => destruct b end; discriminate.
Qed.
Lemma value_plain c s n : is_shorthand (key n) = false -> get_property_value c (block_of s) n = entry_value (dget (idecls s) (key n)).
Proof. intros S. unfold get_property_value. rewrite S. reflexivity. Qed.
Lemma prio_plain s n : is_shorthand (key n) = false -> get_property_priority (block_of s) n = entry_priority (dget (idecls s) (key n)).
Proof. intros S. unfold get_property_priority. rewrite S. reflexivity. Qed.

(* what a declaration that is accepted does *)
Definition accepted (c : css) (s : inline) (n v : text) (p : option text) (w pr : text) : Prop :=
  nonempty (normalize_text v) = true /\ stored c v = Some w /\ good_priority pr = true /\
  pr = match p with Some p => lower p | None => entry_priority (seen c (dget (idecls s) (key n)) (attr_of s (key n))) end.
Lemma sync_twice_entry c s s1 s2 q : inline_ok s -> is_longhand q = false -> is_shorthand q = false -> sync c s = Ok s1 -> sync c s1 = Ok s2 ->
  inline_ok s2 /\ iattr s2 = iattr s /\ dget (idecls s2) q = seen c (dget (idecls s) q) (attr_of s q).
Proof.
  intros O L S E1 E2. destruct (sync_plain c s s1 q O L S E1) as (O1 & A1 & G1).
  destruct (sync_plain c s1 s2 q O1 L S E2) as (O2 & A2 & G2). split; [exact O2|]. split; [congruence|].
  rewrite G2, G1. unfold attr_of. rewrite A1. apply seen_twice.
Qed.
Lemma set_plain c s n v p w pr s' : inline_ok s -> plain (key n) -> neat (key n) -> neat w -> accepted c s n v p w pr -> i_set c s n v p = Ok s' ->
  inline_ok s' /\ iattr s' <> None /\ (forall k, attr_of s' k = if text_eqb (key n) k then Some w else after_font (iattr s) k) /\
  dget (idecls s') (key n) = Some (w, pr) /\
  (forall k, plain k -> k <> key n -> dget (idecls s') k = seen c (dget (idecls s) k) (attr_of s k)).
Proof.
  intros O P N W (NV & ST & G & PR) E. assert (P0 := P). apply plain_facts in P0 as (L & S & _).
  unfold i_set in E. assert (R := proj2 O). rewrite R, NV in E. cbn [negb] in E.
  assert (Q : exists s1 s2, (s1 = s \/ sync c s = Ok s1) /\ sync c s1 = Ok s2 /\
     Ok s' = bind (set_internal c (idecls s2) (key n) (normalize_text v) pr) (fun r =>
        match r with
        | None => Ok s2
        | Some d => Ok (mkI d (attr_update c d (key n) (if is_shorthand (key n) then sh_value depth c d (key n)
                       else match dget d (key n) with Some (v, _) => v | None => [] end) (iattr s2)) false)
        end)).
  { destruct p as [p|].
    - cbn [bind] in E. rewrite <- PR in E. unfold good_priority in G. rewrite G in E. cbn [negb] in E.
      destruct (sync c s) as [s2|e] eqn:E2; cbn [bind] in E; [|discriminate]. exists s, s2. split; [left; reflexivity|]. split; [exact E2|].
      symmetry. exact E.
    - destruct (sync c s) as [s1|e] eqn:E1; cbn [bind] in E; [|discriminate].
      destruct (sync_plain c s s1 (key n) O L S E1) as (O1 & A1 & G1).
      rewrite prio_plain in E by (rewrite key_key; exact S). rewrite key_key, G1 in E. rewrite <- PR in E.
      unfold good_priority in G. rewrite G in E. cbn [negb] in E.
      destruct (sync c s1) as [s2|e] eqn:E2; cbn [bind] in E; [|discriminate]. exists s1, s2. split; [right; reflexivity|]. split; [exact E2|].
      symmetry. exact E. }
  destruct Q as (s1 & s2 & Q1 & Q2 & Q3).
  assert (F : forall q, is_longhand q = false -> is_shorthand q = false -> inline_ok s2 /\ iattr s2 = iattr s /\ dget (idecls s2) q = seen c (dget (idecls s) q) (attr_of s q)).
  { intros q Lq Sq. destruct Q1 as [-> | Q1]; [apply sync_plain; assumption|eapply sync_twice_entry; eassumption]. }
  rewrite put_ok in Q3 by exact S. rewrite <- kept_stored, ST in Q3. cbn [bind] in Q3. injection Q3 as ->. cbn [idecls iattr ironly].
  destruct (F (key n) L S) as (O2 & A2 & _). assert (D2 := proj1 O2).
  rewrite S. rewrite dget_dset_end by exact D2. rewrite text_eqb_refl.
  assert (NE : w <> []) by (apply (kept_nonempty c (normalize_text v)); exact ST).
  destruct (attr_set_plain c (dset_end (idecls s2) (key n) (w, pr)) (key n) w (iattr s2) P N W NE) as [X1 X2].
  split; [split; [apply dset_end_ok; exact D2|reflexivity]|]. split; [exact X1|].
  split; [intros k; unfold attr_of; cbn [iattr]; rewrite X2, A2; reflexivity|]. split; [reflexivity|].
  intros k Pk Nk. rewrite dget_dset_end by exact D2. destruct (text_eqb_spec (key n) k); [congruence|].
  apply plain_facts in Pk as (Lk & Sk & _). apply (F k Lk Sk).
Qed.
Lemma remove_plain c s n s' v : inline_ok s -> plain (key n) -> i_remove c s n = Ok (s', v) ->
  let e := seen c (dget (idecls s) (key n)) (attr_of s (key n)) in
  v = entry_value e /\ inline_ok s' /\ dget (idecls s') (key n) = None /\
  (forall k, plain k -> k <> key n -> dget (idecls s') k = seen c (dget (idecls s) k) (attr_of s k)) /\
  (forall k, attr_of s' k = if text_eqb (key n) k && is_some e then None else attr_of s k).
Proof.
  intros O P E. assert (P0 := P). apply plain_facts in P0 as (L & S & _). cbv zeta.
  unfold i_remove in E. rewrite (proj2 O) in E.
  destruct (sync c s) as [s1|] eqn:E1; cbn [bind] in E; [|discriminate].
  destruct (sync c s1) as [s2|] eqn:E2; cbn [bind] in E; [|discriminate].
  destruct (sync_plain c s s1 (key n) O L S E1) as (O1 & A1 & G1).
  destruct (sync_twice_entry c s s1 s2 (key n) O L S E1 E2) as (O2 & A2 & G2).
  rewrite S in E. rewrite value_plain in E by exact S. rewrite G1 in E.
  assert (H : dhas (idecls s2) (key n) = is_some (seen c (dget (idecls s) (key n)) (attr_of s (key n)))).
  { unfold dhas. rewrite G2. destruct (seen _ _ _); reflexivity. }
  rewrite H in E. destruct (seen c (dget (idecls s) (key n)) (attr_of s (key n))) as [e|] eqn:SE; cbn [is_some] in *.
  - injection E as <- <-. split; [reflexivity|]. cbn [idecls iattr ironly].
    split; [split; [apply ddel_ok; apply O2|reflexivity]|]. split; [rewrite dget_ddel by apply O2; rewrite text_eqb_refl; reflexivity|].
    split.
    + intros k Pk Nk. rewrite dget_ddel by apply O2. destruct (text_eqb_spec (key n) k); [congruence|].
      apply plain_facts in Pk as (Lk & Sk & _). apply (sync_twice_entry c s s1 s2 k O Lk Sk E1 E2).
    + intros k. unfold attr_of. cbn [iattr]. rewrite (proj1 (attr_remove_plain c _ (key n) (iattr s2) P) k), A2.
      rewrite andb_true_r. reflexivity.
  - injection E as <- <-. split; [reflexivity|]. cbn [idecls iattr ironly]. split; [split; [apply O2|reflexivity]|].
    split; [exact G2|]. split.
    + intros k Pk Nk. apply plain_facts in Pk as (Lk & Sk & _). apply (sync_twice_entry c s s1 s2 k O Lk Sk E1 E2).
    + intros k. rewrite andb_false_r. unfold attr_of. cbn [iattr]. rewrite A2. reflexivity.
Qed.

(** Histories *)
Lemma step_attr_plain s k v : in_step s -> attr_of s k = Some v -> plain k.
Proof.
  intros (O & K & A & _) E. rewrite A in E. apply K. apply dget_some_keys. destruct (dget (idecls s) k) as [x|]; [eauto|discriminate].
Qed.
Lemma sync_id c s : in_step s -> sync c s = Ok s.
Proof.
  intros T. assert (T0 := T). destruct T as ([D R] & K & A & _). unfold sync. rewrite R.
  assert (E : fold_left (agree_step c (idecls s)) (idecls s) (style_to_dict (iattr s)) = []).
  { apply all_none. intros k.
    destruct (dget (style_to_dict (iattr s)) k) as [v|] eqn:E.
    - assert (P : plain k) by (apply (step_attr_plain s k v T0); exact E). apply plain_facts in P as (L & S & _).
      rewrite agree_fold by (try assumption; apply style_ok). specialize (A k). unfold attr_of in A. rewrite E in A. rewrite E.
      unfold left_over. destruct (dget (idecls s) k) as [[w p]|]; [|discriminate]. injection A as ->. cbn [fst]. rewrite text_eqb_refl. reflexivity.
    - apply dget_keys. intros I. apply agree_incl in I. apply dget_keys in E. contradiction. }
  rewrite E. cbn [sync_items bind]. destruct s as [d a r]. cbn in *. subst r. reflexivity.
Qed.
Lemma step_no_font s : in_step s -> font_there (iattr s) = false.
Proof.
  intros T. unfold font_there, dhas. destruct (dget (style_to_dict (iattr s)) (lit "font")) as [v|] eqn:E; [|reflexivity].
  exfalso. apply (step_attr_plain s _ v T) in E. destruct E as (_ & _ & N & _). apply N. left. reflexivity.
Qed.
Lemma step_sim c s o : in_step s -> fits c o ->
  block_of (irun c s o) = drun c (block_of s) o /\ in_step (irun c s o).
Proof.
  intros T (P & N & F). assert (T0 := T). destruct T as ((D & R) & K & A & Z1 & Z2).
  assert (NF := step_no_font s T0). assert (P0 := P). apply plain_facts in P0 as (L & S & X).
  destruct o as [n v p|n]; cbn [dop_name] in *.
  - cbn [irun drun]. unfold i_set, set_property. cbn [block_of breadonly]. rewrite R. cbv zeta.
    destruct (nonempty (normalize_text v)) eqn:NV; cbn [negb].
    + assert (E : match p with None => do s1 <- sync c s; Ok (s1, get_property_priority (block_of s1) (key n)) | Some p => Ok (s, lower p) end
        = Ok (s, match p with None => get_property_priority (block_of s) (key n) | Some p => lower p end)).
      { destruct p; [reflexivity|]. rewrite sync_id by exact T0. reflexivity. }
      rewrite E. cbn [bind].
      set (pr := match p with None => _ | Some p => _ end). destruct (negb (text_eqb pr [] || text_eqb pr (lit "important"))) eqn:G.
      * split; [|exact T0]. unfold block_of. rewrite R. reflexivity.
      * rewrite sync_id by exact T0. cbn [bind]. rewrite put_ok by exact S. cbn [bdecls]. rewrite put_ok by exact S. rewrite <- kept_stored. cbn [bind].
        destruct (stored c v) as [w|] eqn:ST.
        -- rewrite S, dget_dset_end by exact D. rewrite text_eqb_refl.
           assert (NE : w <> []) by (apply (kept_nonempty c (normalize_text v)); exact ST).
           destruct (attr_set_plain c (dset_end (idecls s) (key n) (w, pr)) (key n) w (iattr s) P N (F w eq_refl) NE) as [X1 X2].
           split; [reflexivity|]. split; [split; [apply dset_end_ok; exact D|reflexivity]|].
           cbn [idecls iattr]. split.
           ++ intros k. rewrite dset_end_keys, in_app_iff. intros [I|[<-|[]]]; [|exact P]. apply K. eapply ddel_keys_incl. exact I.
           ++ split; [|split].
              ** intros k. unfold attr_of. cbn [iattr]. rewrite X2, dget_dset_end by exact D. destruct (text_eqb_spec (key n) k) as [Q|Q]; [reflexivity|].
                 unfold after_font. rewrite NF. cbn [andb]. apply A.
              ** unfold dset_end. intros Q. destruct (app_cons_not_nil _ _ _ (eq_sym Q)).
              ** intros _. exact X1.
        -- split; [unfold block_of; rewrite R; reflexivity|exact T0].
    + unfold i_remove, remove_property. cbn [block_of breadonly]. rewrite R. rewrite sync_id by exact T0. cbn [bind]. rewrite sync_id by exact T0. cbn [bind].
      rewrite S. cbn [bdecls fst]. destruct (dhas (idecls s) (key n)) eqn:H.
      * cbn [bind fst]. split; [reflexivity|]. split; [split; [apply ddel_ok; exact D|reflexivity]|]. cbn [idecls iattr].
        destruct (attr_remove_plain c (ddel (idecls s) (key n)) (key n) (iattr s) P) as (Y1 & Y2 & Y3).
        assert (HA : dhas (style_to_dict (iattr s)) (key n) = true).
        { unfold dhas in *. specialize (A (key n)). unfold attr_of in A. rewrite A. destruct (dget (idecls s) (key n)); [reflexivity|discriminate]. }
        assert (AA : forall k, dget (style_to_dict (attr_update c (ddel (idecls s) (key n)) (key n) [] (iattr s))) k = option_map fst (dget (ddel (idecls s) (key n)) k)).
        { intros k. rewrite Y1, dget_ddel by exact D. destruct (text_eqb (key n) k); [reflexivity|apply A]. }
        split; [intros k I; apply K; eapply ddel_keys_incl; exact I|]. split; [exact AA|]. split.
        -- intros Q. apply Y2; [exact HA|]. apply all_none. intros k. rewrite dget_ddel by apply style_ok.
           assert (AAk := AA k). rewrite Y1, Q in AAk. exact AAk.
        -- intros Q Q2. apply Q. apply Y2 in Q2; [|exact HA]. apply all_none. intros k. assert (AAk := AA k). rewrite Y1 in AAk.
           rewrite <- (dget_ddel (style_to_dict (iattr s)) (key n) k (style_ok _)), Q2 in AAk. destruct (dget (ddel (idecls s) (key n)) k); [discriminate|reflexivity].
      * cbn [bind fst]. assert (DD : ddel (idecls s) (key n) = idecls s).
        { apply ddel_absent. apply dget_keys. unfold dhas in H. destruct (dget (idecls s) (key n)); [discriminate|reflexivity]. }
        split; [unfold block_of; cbn [idecls ironly bdecls fst snd]; rewrite ?DD; reflexivity|]. destruct s as [d a r]. cbn in *. subst r. exact T0.
  - cbn [irun drun]. unfold i_remove, remove_property. cbn [block_of breadonly]. rewrite R. rewrite sync_id by exact T0. cbn [bind]. rewrite sync_id by exact T0. cbn [bind].
      rewrite S. cbn [bdecls fst]. destruct (dhas (idecls s) (key n)) eqn:H.
      * cbn [bind fst]. split; [reflexivity|]. split; [split; [apply ddel_ok; exact D|reflexivity]|]. cbn [idecls iattr].
        destruct (attr_remove_plain c (ddel (idecls s) (key n)) (key n) (iattr s) P) as (Y1 & Y2 & Y3).
        assert (HA : dhas (style_to_dict (iattr s)) (key n) = true).
        { unfold dhas in *. specialize (A (key n)). unfold attr_of in A. rewrite A. destruct (dget (idecls s) (key n)); [reflexivity|discriminate]. }
        assert (AA : forall k, dget (style_to_dict (attr_update c (ddel (idecls s) (key n)) (key n) [] (iattr s))) k = option_map fst (dget (ddel (idecls s) (key n)) k)).
        { intros k. rewrite Y1, dget_ddel by exact D. destruct (text_eqb (key n) k); [reflexivity|apply A]. }
        split; [intros k I; apply K; eapply ddel_keys_incl; exact I|]. split; [exact AA|]. split.
        -- intros Q. apply Y2; [exact HA|]. apply all_none. intros k. rewrite dget_ddel by apply style_ok.
           assert (AAk := AA k). rewrite Y1, Q in AAk. exact AAk.
        -- intros Q Q2. apply Q. apply Y2 in Q2; [|exact HA]. apply all_none. intros k. assert (AAk := AA k). rewrite Y1 in AAk.
           rewrite <- (dget_ddel (style_to_dict (iattr s)) (key n) k (style_ok _)), Q2 in AAk. destruct (dget (ddel (idecls s) (key n)) k); [discriminate|reflexivity].
      * cbn [bind fst]. assert (DD : ddel (idecls s) (key n) = idecls s).
        { apply ddel_absent. apply dget_keys. unfold dhas in H. destruct (dget (idecls s) (key n)); [discriminate|reflexivity]. }
        split; [unfold block_of; cbn [idecls ironly bdecls fst snd]; rewrite ?DD; reflexivity|]. destruct s as [d a r]. cbn in *. subst r. exact T0.
Qed.
Lemma run_sim c : forall h s, in_step s -> Forall (fits c) h ->
  block_of (fold_left (irun c) h s) = fold_left (drun c) h (block_of s) /\ in_step (fold_left (irun c) h s).
Proof.
  induction h as [|o h IH]; intros s T F; [split; [reflexivity|exact T]|]. inversion F as [|x xs Fo Fh]; subst. cbn [fold_left].
  destruct (step_sim c s o T Fo) as [E T']. rewrite <- E. apply IH; assumption.
Qed.

(** An element as loaded *)
Lemma load_items c : forall l d, dict_ok l -> dict_ok d -> (forall k, In k (dkeys l) -> is_shorthand k = false /\ ~ In k (dkeys d)) ->
  sync_items c d l = Ok (d ++ flat_map (fun e => match kept_as c (snd e) with Some w => [(fst e, (w, []))] | None => [] end) l).
Proof.
  induction l as [|[n v] l IH]; intros d Dl D H; cbn [sync_items flat_map]; [rewrite app_nil_r; reflexivity|].
  inversion Dl as [|x xs Nx Dx]; subst. destruct (H n (or_introl eq_refl)) as [S I].
  unfold sync_item. rewrite S. assert (I0 := I). apply dget_keys in I0. rewrite I0. rewrite put_ok by exact S. cbn [bind fst snd].
  destruct (kept_as c v) as [w|] eqn:K.
  - rewrite IH; [|exact Dx|apply dset_end_ok; exact D|].
    + unfold dset_end. rewrite ddel_absent by exact I. rewrite <- app_assoc. reflexivity.
    + intros k Ik. destruct (H k (or_intror Ik)) as [Sk Nk]. split; [exact Sk|]. rewrite dset_end_keys, ddel_absent by exact I.
      rewrite in_app_iff. intros [J|[J|[]]]; [exact (Nk J)|]. subst k. exact (Nx Ik).
  - rewrite IH; [reflexivity|exact Dx|exact D|]. intros k Ik. exact (H k (or_intror Ik)).
Qed.
Lemma agree_nothing c d pm : fold_left (agree_step c d) [] pm = pm. Proof. reflexivity. Qed.
Lemma empty_value c n : sh_value depth c [] n = [].
Proof.
  unfold depth. destruct (find_shorthand n) as [[s l]|] eqn:F.
  - assert (E : lower n = sname s) by (apply (find_some n s l); exact F).
    assert (L : longhands n = longhands (sname s)). { unfold longhands. rewrite E. destruct s; reflexivity. }
    cbn [sh_value]. rewrite L, F. destruct s; vm_compute; reflexivity.
  - cbn [sh_value]. rewrite F. destruct (fold_right _ _ _); reflexivity.
Qed.

(** Shorthands in the attribute *)
Lemma drop_quiet_get ns : forall m q, dict_ok m -> dict_ok (drop_quiet ns m) /\ dget (drop_quiet ns m) q = if mem q ns then None else dget m q.
Proof.
  unfold drop_quiet. induction ns as [|n ns IH]; intros m q D; [split; [exact D|reflexivity]|]. cbn [fold_left].
  destruct (IH (ddel m n) q (ddel_ok m n D)) as [A B]. split; [exact A|]. rewrite B, dget_ddel by exact D. unfold mem. cbn [existsb].
  destruct (text_eqb_spec q n) as [Q|Q].
  - subst q. rewrite text_eqb_refl. destruct (existsb _ ns); reflexivity.
  - destruct (text_eqb_spec n q); [congruence|reflexivity].
Qed.
Lemma drop_quiet_neat ns : forall m, neat_map m -> neat_map (drop_quiet ns m).
Proof. unfold drop_quiet. induction ns as [|n ns IH]; intros m N; [exact N|]. cbn [fold_left]. apply IH, neat_ddel, N. Qed.
Definition simple (s : shorthand) : bool := match s with SFontSynthesis | SOverflow | STextDecoration | SWhiteSpace => true | _ => false end.
Lemma simple_facts s : simple s = true -> is_longhand (sname s) = false /\ is_shorthand (sname s) = true /\ mem (sname s) font_sub_properties = false /\
  sname s <> lit "font" /\ sname s <> lit "mask" /\ sname s <> lit "mask-border" /\ longhands (sname s) = leaves s /\ neat (sname s) /\
  mem (sname s) (leaves s) = false.
Proof. destruct s; try discriminate; intros _; repeat split; try (vm_compute; reflexivity); try (vm_compute; discriminate); apply free_forallb; vm_compute; reflexivity. Qed.
Lemma attr_set_short c d s w a : simple s = true -> neat w -> w <> [] -> sh_value depth c d (sname s) = w ->
  forall q, dget (style_to_dict (attr_update c d (sname s) w a)) q =
    if text_eqb (sname s) q then Some w else if mem q (leaves s) then None else after_font a q.
Proof.
  intros Ss W NE V. destruct (simple_facts s Ss) as (L & S & X & N1 & N2 & N3 & LL & NN & NL).
  rewrite attr_update_form. unfold style_update. cbv zeta. assert (Ew : nonempty w = true) by (destruct w; [congruence|reflexivity]).
  rewrite Ew, X. cbn [negb andb].
  destruct (text_eqb_spec (sname s) (lit "mask")); [contradiction|]. destruct (text_eqb_spec (sname s) (lit "mask-border")); [contradiction|]. cbn [andb].
  set (m := drop_quiet (leaves s) (dset (style_to_dict a) (sname s) w)).
  assert (E : or_upd (style_to_dict a, false) (style_set c d (sname s) w false) = (m, true)).
  { unfold or_upd, style_set. rewrite L, S. unfold set_shorthand. rewrite V. cbn [fst snd negb andb]. rewrite Ew, LL. reflexivity. }
  repeat match goal with |- context [or_upd ?x (style_set c d (sname s) w false)] =>
    replace (or_upd x (style_set c d (sname s) w false)) with (m, true) by (symmetry; exact E) end.
  cbn [fst snd andb]. assert (Nm : neat_map m) by (apply drop_quiet_neat, neat_dset; [apply neat_style|assumption|assumption]).
  assert (G : forall q, dget m q = if text_eqb (sname s) q then Some w else if mem q (leaves s) then None else dget (style_to_dict a) q).
  { intros q. unfold m. rewrite (proj2 (drop_quiet_get _ _ q (dset_ok _ _ _ (style_ok a)))), dget_dset.
    destruct (text_eqb_spec (sname s) q) as [Q|Q]; [|reflexivity]. rewrite <- Q, NL. reflexivity. }
  assert (Fd : dhas m (lit "font") = font_there a).
  { unfold dhas. rewrite G. destruct (text_eqb_spec (sname s) (lit "font")); [contradiction|].
    replace (mem (lit "font") (leaves s)) with false by (destruct s; try discriminate Ss; vm_compute; reflexivity). reflexivity. }
  rewrite Fd. unfold after_font. intros q. destruct (font_there a) eqn:FT; cbn [andb].
  - destruct (drop_extras c d font_sub_properties extras_flat (m, true) Nm) as (A & B & C).
    cbv zeta in A, B, C. rewrite (B eq_refl), put_map_get by exact A. rewrite C. cbn [fst]. rewrite G.
    destruct (text_eqb_spec (sname s) q) as [Q|Q]; [rewrite <- Q, X; reflexivity|].
    destruct (mem q font_sub_properties), (mem q (leaves s)); reflexivity.
  - cbn [snd fst]. rewrite put_map_get by exact Nm. apply G.
Qed.
