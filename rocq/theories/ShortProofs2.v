(** Removal, priorities, histories of a declaration block. *)
From Verif Require Import PyBase PyText PySplit PyDict PyCase ShortModel ShortSpec ShortProofs.
From Coq Require Import Lia.
Local Open Scope nat_scope.

Lemma find_some n s l : find_shorthand n = Some (s, l) -> custom n = false /\ lower n = sname s.
Proof.
  unfold find_shorthand. destruct (custom n); [discriminate|]. intros H. split; [reflexivity|].
  apply dget_in in H. unfold shorthand_map in H. cbn [In] in H.
  repeat (destruct H as [H|H]; [injection H as <- <- <-; reflexivity|]). destruct H.
Qed.
Lemma find_key n s l : find_shorthand (key n) = Some (s, l) -> key n = sname s.
Proof.
  intros H. apply find_some in H as [C E]. unfold key in *. destruct (custom n) eqn:Cn; [congruence|].
  rewrite lower_lower in E. exact E.
Qed.
Lemma find_sname s : exists l, find_shorthand (sname s) = Some (s, l) /\ key (sname s) = sname s.
Proof. destruct s; eexists; split; reflexivity. Qed.
Lemma is_shorthand_find n : is_shorthand n = true <-> exists s l, find_shorthand n = Some (s, l).
Proof. unfold is_shorthand. destruct (find_shorthand n) as [[s l]|]; split; intros H; try discriminate; eauto. destruct H as (? & ? & ?); discriminate. Qed.

(** removal *)
Definition expand (n : text) : list text := if is_shorthand n then longhands n else [n].
Lemma fold_ddel_spec ns : forall d : decls, dict_ok d ->
  dict_ok (fold_left ddel ns d) /\
  (forall k, dget (fold_left ddel ns d) k = if mem k ns then None else dget d k) /\
  dkeys (fold_left ddel ns d) = filter (fun x => negb (mem x ns)) (dkeys d).
Proof.
  induction ns as [|n ns IH]; intros d D; cbn [fold_left].
  - split; [exact D|]. split; [reflexivity|]. cbn. induction (dkeys d) as [|x r IHr]; cbn; congruence.
  - destruct (IH (ddel d n) (ddel_ok d n D)) as (A & B & C). split; [exact A|]. split.
    + intros k. rewrite B, dget_ddel by exact D. cbn. destruct (text_eqb_spec n k) as [->|N].
      * rewrite text_eqb_refl. cbn. destruct (mem k ns); reflexivity.
      * destruct (text_eqb_spec k n); [congruence|]. reflexivity.
    + rewrite C, ddel_keys by exact D. clear. induction (dkeys d) as [|x r IHr]; cbn; [reflexivity|].
      destruct (text_eqb x n); cbn; [exact IHr|]. unfold mem in *. destruct (existsb (text_eqb x) ns); cbn; [exact IHr|f_equal; exact IHr].
Qed.
Lemma rem_fold (f : nat) ns : forall acc : decls * bool,
  (forall n d, In n ns -> is_shorthand n = true -> fst (sh_remove f d n) = fold_left ddel (longhands n) d) ->
  fst (fold_left (fun (acc : decls * bool) n =>
        if is_shorthand n then let '(d', r) := sh_remove f (fst acc) n in (d', snd acc || r)
        else if dhas (fst acc) n then (ddel (fst acc) n, true) else acc) ns acc)
  = fold_left ddel (flat_map expand ns) (fst acc).
Proof.
  induction ns as [|n ns IH]; intros acc H; [reflexivity|]. cbn [fold_left flat_map].
  rewrite fold_left_app. rewrite IH by (intros m d Hm; apply H; right; exact Hm). f_equal.
  unfold expand. destruct (is_shorthand n) eqn:E.
  - specialize (H n (fst acc) (or_introl eq_refl) E). destruct (sh_remove f (fst acc) n) as [d' r]. exact H.
  - cbn [fold_left]. unfold dhas. destruct (dget (fst acc) n) eqn:G; cbn [fst]; [reflexivity|].
    apply dget_keys in G. rewrite ddel_absent by exact G. reflexivity.
Qed.
Lemma expand_flat ns : (forall n, In n ns -> is_shorthand n = false) -> flat_map expand ns = ns.
Proof.
  induction ns as [|n ns IH]; intros H; [reflexivity|]. cbn. unfold expand at 1. rewrite (H n) by (now left).
  cbn. f_equal. apply IH. intros m Hm. apply H. now right.
Qed.
Lemma sh_remove_flat f d n : (forall m, In m (longhands n) -> is_shorthand m = false) ->
  fst (sh_remove (S f) d n) = fold_left ddel (longhands n) d.
Proof.
  intros H. cbn [sh_remove]. rewrite rem_fold.
  - cbn [fst]. rewrite expand_flat by exact H. reflexivity.
  - intros m d0 Hm E. rewrite H in E by exact Hm. discriminate.
Qed.
Lemma variant_flat m : In m (longhands (lit "font-variant")) -> is_shorthand m = false.
Proof.
  intros H. assert (G : forallb (fun x => negb (is_shorthand x)) (longhands (lit "font-variant")) = true) by (vm_compute; reflexivity).
  rewrite forallb_forall in G. apply G in H. destruct (is_shorthand m); [discriminate|reflexivity].
Qed.
Lemma nested_only s m : In m (longhands (sname s)) -> is_shorthand m = true -> m = lit "font-variant".
Proof.
  intros H E.
  assert (G : forallb (fun x => negb (is_shorthand x) || text_eqb x (lit "font-variant")) (longhands (sname s)) = true)
    by (destruct s; vm_compute; reflexivity).
  rewrite forallb_forall in G. apply G in H. rewrite E in H. cbn [negb orb] in H. destruct (text_eqb_spec m (lit "font-variant")); [assumption|discriminate].
Qed.
Lemma mem_same (l1 l2 : list text) : forallb (fun x => mem x l2) l1 = true -> forallb (fun x => mem x l1) l2 = true ->
  forall k, mem k l1 = mem k l2.
Proof.
  rewrite !forallb_forall. intros A B k.
  destruct (mem k l1) eqn:E1, (mem k l2) eqn:E2; try reflexivity.
  - rewrite mem_in in E1. apply A in E1. congruence.
  - rewrite mem_in in E2. apply B in E2. congruence.
Qed.
Lemma expand_leaves s k : mem k (flat_map expand (longhands (sname s))) = mem k (leaves s).
Proof. apply mem_same; destruct s; vm_compute; reflexivity. Qed.
Lemma sh_remove_spec d s : dict_ok d ->
  let d' := fst (sh_remove depth d (sname s)) in
  dict_ok d' /\ (forall k, dget d' k = if mem k (leaves s) then None else dget d k) /\
  dkeys d' = filter (fun x => negb (mem x (leaves s))) (dkeys d).
Proof.
  intros D d'.
  assert (E : d' = fold_left ddel (flat_map expand (longhands (sname s))) d).
  { unfold d', depth. cbn [sh_remove]. rewrite (rem_fold 2).
    - reflexivity.
    - intros n d0 Hn En. rewrite (nested_only s n Hn En). apply sh_remove_flat. exact variant_flat. }
  rewrite E. destruct (fold_ddel_spec (flat_map expand (longhands (sname s))) d D) as (A & B & C).
  split; [exact A|]. split; [intros k; rewrite B, expand_leaves; reflexivity|].
  rewrite C. clear. induction (dkeys d) as [|x r IH]; cbn; [reflexivity|]. rewrite expand_leaves, IH. reflexivity.
Qed.

(** priorities *)
Lemma common_all p ps : common ps = Some p -> forall q, In q ps -> q = p.
Proof.
  destruct ps as [|x r]; [discriminate|]. cbn [common]. destruct (all_same (x :: r)) eqn:E; [|discriminate].
  intros H q. injection H as ->. cbn in E. rewrite forallb_forall in E. intros [<-|I]; [reflexivity|].
  apply E in I. destruct (text_eqb_spec p q); [congruence|discriminate].
Qed.
Lemma common_same p ps : ps <> [] -> (forall q, In q ps -> q = p) -> common ps = Some p.
Proof.
  destruct ps as [|x r]; intros N H; [congruence|]. cbn [common].
  rewrite (H x) in * by (now left). replace (all_same (p :: r)) with true; [reflexivity|].
  symmetry. cbn. apply forallb_forall. intros q Hq. rewrite (H q) by (now right). apply text_eqb_refl.
Qed.
Definition prios (f : nat) (d : decls) (ns : list text) : list text :=
  flat_map (fun n => if is_shorthand n then [sh_priority f d n]
                     else match dget d n with Some (_, p) => [p] | None => [] end) ns.
Lemma sh_priority_S f d n : sh_priority (S f) d n = match common (prios f d (longhands n)) with Some p => p | None => [] end.
Proof. reflexivity. Qed.
Lemma prios_in f d ns k v p : In k ns -> is_shorthand k = false -> dget d k = Some (v, p) -> In p (prios f d ns).
Proof. intros I E G. apply in_flat_map. exists k. split; [exact I|]. rewrite E, G. now left. Qed.
Lemma flat_priority f d n k v p : In k (longhands n) -> is_shorthand k = false -> dget d k = Some (v, p) ->
  sh_priority (S f) d n = [] \/ sh_priority (S f) d n = p.
Proof.
  intros I E G. rewrite sh_priority_S. destruct (common (prios f d (longhands n))) as [q|] eqn:C; [|now left].
  right. symmetry. apply (common_all q _ C). apply (prios_in f d _ k v); assumption.
Qed.
Lemma leaves_split s k : In k (leaves s) ->
  (In k (longhands (sname s)) /\ is_shorthand k = false) \/
  (In (lit "font-variant") (longhands (sname s)) /\ In k (longhands (lit "font-variant"))).
Proof.
  intros H. apply mem_in in H. rewrite <- expand_leaves in H. apply mem_in in H. apply in_flat_map in H as (m & Hm & Hk).
  unfold expand in Hk. destruct (is_shorthand m) eqn:E.
  - assert (Em := nested_only s m Hm E). subst m. right. split; assumption.
  - destruct Hk as [<-|[]]. left. split; assumption.
Qed.
Lemma priority_shared d s k v p : In k (leaves s) -> dget d k = Some (v, p) ->
  sh_priority depth d (sname s) = [] \/ sh_priority depth d (sname s) = p.
Proof.
  intros H G. destruct (leaves_split s k H) as [[I E]|[I1 I2]].
  - apply (flat_priority 2 d _ k v p I E G).
  - unfold depth. rewrite sh_priority_S. destruct (common (prios 2 d (longhands (sname s)))) as [q|] eqn:C; [|now left].
    assert (Q : sh_priority 2 d (lit "font-variant") = q).
    { apply (common_all q _ C). apply in_flat_map. exists (lit "font-variant"). split; [exact I1|].
      replace (is_shorthand (lit "font-variant")) with true by reflexivity. now left. }
    destruct (flat_priority 1 d _ k v p I2 (variant_flat k I2) G) as [X|X]; rewrite Q in X; tauto.
Qed.
Lemma longhands_nonempty s : longhands (sname s) <> [].
Proof. destruct s; vm_compute; discriminate. Qed.
Lemma longhand_leaf s n : In n (longhands (sname s)) -> is_shorthand n = false -> In n (leaves s).
Proof.
  intros I E. apply mem_in. rewrite <- expand_leaves. apply mem_in. apply in_flat_map. exists n. split; [exact I|].
  unfold expand. rewrite E. now left.
Qed.
Lemma nested_leaf s n k : In n (longhands (sname s)) -> is_shorthand n = true -> In k (longhands n) -> In k (leaves s).
Proof.
  intros I E K. apply mem_in. rewrite <- expand_leaves. apply mem_in. apply in_flat_map. exists n. split; [exact I|].
  unfold expand. rewrite E. exact K.
Qed.
Lemma flat_priority_same f d n p : longhands n <> [] ->
  (forall k, In k (longhands n) -> is_shorthand k = false) ->
  (forall k, In k (longhands n) -> exists v, dget d k = Some (v, p)) ->
  sh_priority (S f) d n = p.
Proof.
  intros N F H. rewrite sh_priority_S, (common_same p); [reflexivity| |].
  - destruct (longhands n) as [|m r]; [congruence|]. destruct (H m) as [v G]; [now left|].
    unfold prios. cbn [flat_map]. rewrite (F m), G by (now left). discriminate.
  - intros q Hq. apply in_flat_map in Hq as (m & Hm & Hq). rewrite (F m Hm) in Hq. destruct (H m Hm) as [v G]. rewrite G in Hq.
    destruct Hq as [<-|[]]. reflexivity.
Qed.
Lemma priority_all d s p : (forall k, In k (leaves s) -> exists v, dget d k = Some (v, p)) ->
  sh_priority depth d (sname s) = p.
Proof.
  intros H. unfold depth. rewrite sh_priority_S, (common_same p); [reflexivity| |].
  - destruct (longhands (sname s)) as [|m r] eqn:L; [destruct (longhands_nonempty s L)|].
    unfold prios. cbn [flat_map]. destruct (is_shorthand m) eqn:E; [discriminate|].
    destruct (H m) as [v G]; [apply longhand_leaf; [rewrite L; now left|exact E]|]. rewrite G. discriminate.
  - intros q Hq. apply in_flat_map in Hq as (m & Hm & Hq). destruct (is_shorthand m) eqn:E.
    + destruct Hq as [<-|[]]. assert (Em := nested_only s m Hm E). subst m.
      apply flat_priority_same; [vm_compute; discriminate|exact variant_flat|].
      intros k Hk. apply H. apply (nested_leaf s _ k Hm E Hk).
    + destruct (H m (longhand_leaf s m Hm E)) as [v G]. rewrite G in Hq. destruct Hq as [<-|[]]. reflexivity.
Qed.
(* a shorthand without a shorthand inside: the priority its declared
   longhands share *)
Lemma priority_flat d s p : s <> SFont -> (exists k, In k (leaves s) /\ dhas d k = true) ->
  (forall k v q, In k (leaves s) -> dget d k = Some (v, q) -> q = p) ->
  sh_priority depth d (sname s) = p.
Proof.
  intros NF [k0 [I0 P0]] H. unfold depth. rewrite sh_priority_S.
  assert (F : forall m, In m (longhands (sname s)) -> is_shorthand m = false).
  { intros m Hm. destruct (is_shorthand m) eqn:E; [|reflexivity]. exfalso.
    assert (Em := nested_only s m Hm E). subst m.
    assert (G : mem (lit "font-variant") (longhands (sname s)) = false) by (destruct s; try congruence; vm_compute; reflexivity).
    apply mem_not_in in G. contradiction. }
  rewrite (common_same p); [reflexivity| |].
  - unfold dhas in P0. destruct (dget d k0) as [[v q]|] eqn:G0; [|discriminate].
    destruct (leaves_split s k0 I0) as [[I E]|[I1 I2]].
    + intros N. assert (X := prios_in 2 d _ k0 v q I E G0). rewrite N in X. destruct X.
    + assert (X := F _ I1). discriminate X.
  - intros q Hq. apply in_flat_map in Hq as (m & Hm & Hq). rewrite (F m Hm) in Hq.
    destruct (dget d m) as [[v q']|] eqn:G; [|destruct Hq]. destruct Hq as [<-|[]].
    apply (H m v); [apply longhand_leaf; [exact Hm|exact (F m Hm)]|exact G].
Qed.

(** one operation *)
Lemma set_longhand_spec d n comps p d' : dict_ok d -> set_longhand d n comps p = Some d' ->
  dict_ok d' /\ (exists v, d' = dset_end d n (v, p)).
Proof.
  intros D. unfold set_longhand. destruct (nonempty _); [|discriminate]. intros H. injection H as <-.
  split; [apply dset_end_ok; exact D|]. eexists. reflexivity.
Qed.
Lemma set_internal_ok c d n v p d' : dict_ok d -> set_internal c d n v p = Ok (Some d') -> dict_ok d'.
Proof.
  intros D. unfold set_internal. destruct (cparse c v) as [|x r]; [discriminate|].
  destruct (find_shorthand n) as [[s l]|].
  - intros H. apply (sh_set_wrote c s d _ p d' D H).
  - destruct (set_longhand d n (x :: r) p) as [d1|] eqn:E; [|discriminate]. intros H. apply ok_some in H. subst.
    apply (set_longhand_spec d n _ p _ D E).
Qed.
Lemma remove_ok c b n b' v : block_ok b -> remove_property c b n = Ok (b', v) -> block_ok b'.
Proof.
  unfold remove_property, block_ok. intros B. destruct (breadonly b); [discriminate|]. intros H. injection H as <- <-. cbn [bdecls].
  destruct (is_shorthand (key n)) eqn:E; [|apply ddel_ok; exact B].
  apply is_shorthand_find in E as (s & l & E). rewrite (find_key n s l E). apply sh_remove_spec. exact B.
Qed.
Lemma set_ok c b n v p b' : block_ok b -> set_property c b n v p = Ok b' -> block_ok b'.
Proof.
  intros B. unfold set_property. destruct (breadonly b) eqn:R; [discriminate|].
  destruct (negb (nonempty (normalize_text v))).
  - destruct (remove_property c b n) as [[b1 v1]|] eqn:E; cbn [bind fst]; [|discriminate]. intros H. injection H as <-.
    apply (remove_ok c b n b1 v1 B E).
  - destruct (negb _); [intros H; injection H as <-; exact B|].
    destruct (set_internal c (bdecls b) (key n) (normalize_text v) _) as [[d'|]|] eqn:E; cbn [bind]; [| |discriminate];
      intros H; injection H as <-; [|exact B]. exact (set_internal_ok c _ _ _ _ _ B E).
Qed.
Lemma drun_ok c b o : block_ok b -> block_ok (drun c b o).
Proof.
  intros B. destruct o as [n v p|n]; cbn [drun].
  - destruct (set_property c b n v p) as [b'|] eqn:E; [|exact B]. exact (set_ok c b n v p b' B E).
  - destruct (remove_property c b n) as [[b' v]|] eqn:E; [|exact B]. exact (remove_ok c b n b' v B E).
Qed.
Lemma run_ok c h : forall b, block_ok b -> block_ok (fold_left (drun c) h b).
Proof. induction h as [|o h IH]; intros b B; [exact B|]. cbn. apply IH. apply drun_ok. exact B. Qed.

Lemma drun_readonly c b o : breadonly b = true -> drun c b o = b.
Proof. intros R. destruct o; cbn [drun]; unfold set_property, remove_property; rewrite R; reflexivity. Qed.
Lemma drun_writable c b o : breadonly b = false -> breadonly (drun c b o) = false.
Proof.
  intros R. destruct o as [n v p|n]; cbn [drun]; unfold set_property, remove_property; rewrite R; [|reflexivity].
  destruct (negb (nonempty _)); [reflexivity|]. destruct (negb _); [exact R|].
  destruct (set_internal _ _ _ _ _) as [[d|]|]; cbn; auto.
Qed.

Lemma stored_spec c v comps : cparse c (normalize_text v) = comps ->
  stored c v = (let w := strip (serialize comps) in
                if nonempty w then Some (if mem (lower w) color_keywords || is_wide (lower w) then lower w else w) else None).
Proof.
  intros E. unfold stored. rewrite E. cbv zeta. change (concat (map ctext comps)) with (serialize comps).
  destruct (nonempty (strip (serialize comps))); [|reflexivity].
  set (w := strip (serialize comps)). unfold is_wide.
  replace (mem (lower w) _) with (mem (lower w) color_keywords || mem (lower w) wide_keywords); [reflexivity|].
  unfold mem. rewrite <- existsb_app. reflexivity.
Qed.
Lemma key_key n : key (key n) = key n.
Proof.
  unfold key. destruct (custom n) eqn:C; [rewrite C; reflexivity|]. rewrite lower_lower. destruct (custom (lower n)); reflexivity.
Qed.
(* a declaration changes only as the operations on its property say *)
Lemma step_latest c b o q : block_ok b -> breadonly b = false -> is_shorthand q = false ->
  (is_shorthand (key (dop_name o)) = true -> ~ In q (written (dop_name o))) ->
  dget (bdecls (drun c b o)) q = latest_step c q (dget (bdecls b) q) o.
Proof.
  intros B R Q W. destruct o as [n v p|n]; cbn [drun latest_step dop_name] in *.
  - unfold set_property. rewrite R. unfold good_priority.
    destruct (nonempty (normalize_text v)) eqn:NV; cbn [negb].
    + destruct (is_shorthand (key n)) eqn:S.
      * assert (Nq : text_eqb (key n) q = false) by (destruct (text_eqb_spec (key n) q); congruence). rewrite Nq.
        destruct (negb _); [reflexivity|].
        destruct (set_internal c (bdecls b) (key n) (normalize_text v) _) as [[d'|]|] eqn:E; cbn [bind]; try reflexivity.
        cbn [bdecls]. unfold set_internal in E. destruct (cparse c (normalize_text v)) as [|x r]; [discriminate|].
        apply is_shorthand_find in S as (s & l & S). rewrite S in E.
        destruct (sh_set_wrote c s _ _ _ _ B E) as (_ & _ & F). apply F.
        assert (W' := W eq_refl). unfold written in W'. rewrite S in W'. exact W'.
      * assert (FN : find_shorthand (key n) = None).
        { unfold is_shorthand in S. destruct (find_shorthand (key n)); [discriminate|reflexivity]. }
        unfold get_property_priority. rewrite key_key, S.
        destruct (text_eqb_spec (key n) q) as [<-|Nq].
        -- set (pr := match p with None => _ | Some p0 => lower p0 end).
           replace (match p with Some p0 => lower p0 | None => match dget (bdecls b) (key n) with Some (_, p1) => p1 | None => [] end end)
             with pr by (unfold pr; destruct p; reflexivity).
           rewrite (stored_spec c v _ eq_refl). cbv zeta.
           destruct (text_eqb pr [] || text_eqb pr (lit "important")); cbn [negb].
           ++ unfold set_internal. rewrite FN. destruct (cparse c (normalize_text v)) as [|x r] eqn:E; cbn [bind].
              ** reflexivity.
              ** unfold set_longhand. destruct (nonempty (strip (serialize (x :: r)))); cbn [bind]; [|reflexivity].
                 cbn [bdecls]. rewrite dget_dset_end by exact B. rewrite text_eqb_refl. reflexivity.
           ++ destruct (nonempty (strip _)); reflexivity.
        -- destruct (negb _); [reflexivity|]. unfold set_internal. rewrite FN.
           destruct (cparse c (normalize_text v)) as [|x r]; cbn [bind]; [reflexivity|].
           unfold set_longhand. destruct (nonempty (strip (serialize (x :: r)))); cbn [bind]; [|reflexivity].
           cbn [bdecls]. rewrite dget_dset_end by exact B. destruct (text_eqb_spec (key n) q); [congruence|reflexivity].
    + unfold remove_property. rewrite R. cbn [bind fst bdecls].
      destruct (is_shorthand (key n)) eqn:S.
      * assert (Nq : text_eqb (key n) q = false) by (destruct (text_eqb_spec (key n) q); congruence). rewrite Nq.
        specialize (W eq_refl). unfold written in W.
        apply is_shorthand_find in S as (s & l & S). rewrite S in W. rewrite (find_key n s l S).
        destruct (sh_remove_spec (bdecls b) s B) as (_ & G & _). rewrite G.
        apply mem_not_in in W. rewrite W. reflexivity.
      * rewrite dget_ddel by exact B. reflexivity.
  - unfold remove_property. rewrite R. cbn [bdecls].
    destruct (is_shorthand (key n)) eqn:S.
    * assert (Nq : text_eqb (key n) q = false) by (destruct (text_eqb_spec (key n) q); congruence). rewrite Nq.
      specialize (W eq_refl). unfold written in W.
      apply is_shorthand_find in S as (s & l & S). rewrite S in W. rewrite (find_key n s l S).
      destruct (sh_remove_spec (bdecls b) s B) as (_ & G & _). rewrite G.
      apply mem_not_in in W. rewrite W. reflexivity.
    * rewrite dget_ddel by exact B. reflexivity.
Qed.
Lemma run_latest c q h : forall b, block_ok b -> breadonly b = false -> is_shorthand q = false ->
  (forall o, In o h -> is_shorthand (key (dop_name o)) = true -> ~ In q (written (dop_name o))) ->
  dget (bdecls (fold_left (drun c) h b)) q = latest c q h (dget (bdecls b) q).
Proof.
  induction h as [|o h IH]; intros b B R Q W; [reflexivity|]. cbn [fold_left]. unfold latest. cbn [fold_left].
  rewrite IH; [|apply drun_ok; exact B|apply drun_writable; exact R|exact Q|intros o' Ho; apply W; right; exact Ho].
  unfold latest. f_equal. apply step_latest; try assumption. apply W. left. reflexivity.
Qed.
