(** Proofs about inline styles. *)
From Coq Require Import Permutation.
From Verif Require Import PyBase PyText PySplit PyStrip PyDict PyCase UtilsModel UtilsSpec UtilsProofs ShortModel ShortSpec ShortProofs ShortProofs2 InlineModel InlineSpec.
Local Open Scope nat_scope.

Lemma kept_stored c v : stored c v = kept_as c (normalize_text v). Proof. reflexivity. Qed.
Lemma key_lower k : key k = k -> custom k = false -> lower k = k.
Proof. unfold key. intros E H. rewrite H in E. exact E. Qed.
Lemma plain_facts k : plain k -> is_longhand k = false /\ is_shorthand k = false /\ mem k font_sub_properties = false.
Proof.
  intros (K & L & S & F). split; [|split].
  - unfold is_longhand. destruct (custom k) eqn:C; [reflexivity|]. cbn [negb andb]. rewrite (key_lower k K C).
    unfold dhas. destruct (dget longhand_map k) as [l|] eqn:E; [|reflexivity]. exfalso.
    apply dget_in in E. apply (in_map fst) in E. cbn [fst] in E.
    assert (I : forallb (fun x => mem x (all_leaves ++ all_shorthands)) (map fst longhand_map) = true) by (vm_compute; reflexivity).
    rewrite forallb_forall in I. apply I in E. apply mem_in in E. apply in_app_or in E as [E|E]; tauto.
  - destruct (is_shorthand k) eqn:E; [|reflexivity]. exfalso. apply is_shorthand_find in E as (s & l & E).
    rewrite <- K in E. apply find_key in E. rewrite K in E. apply S. rewrite E. destruct s; vm_compute; tauto.
  - destruct (mem k font_sub_properties) eqn:E; [|reflexivity]. exfalso. apply F. apply mem_in. exact E.
Qed.
Lemma leaf_longhand s k : In k (leaves s) -> is_longhand k = true.
Proof.
  intros I. assert (A : forallb is_longhand (leaves s) = true) by (destruct s; vm_compute; reflexivity).
  rewrite forallb_forall in A. exact (A k I).
Qed.
Lemma shorthands_short n sh : In sh (shorthands_of n) -> is_shorthand sh = true.
Proof.
  unfold shorthands_of. destruct (dget longhand_map (lower n)) as [l|] eqn:E; [|intros []]. apply dget_in in E. intros I.
  assert (A : forallb (fun p => forallb is_shorthand (snd p)) longhand_map = true) by (vm_compute; reflexivity).
  rewrite forallb_forall in A. apply A in E. cbn [snd] in E. rewrite forallb_forall in E. exact (E sh I).
Qed.
Lemma all_none {V} (d : dict V) : (forall k, dget d k = None) -> d = [].
Proof. destruct d as [|[k v] d]; [reflexivity|]. intros H. specialize (H k). cbn [dget] in H. rewrite text_eqb_refl in H. discriminate. Qed.

(** The entries that agree *)
Lemma drop_agreeing_ok c d shs : forall pm, dict_ok pm -> dict_ok (drop_agreeing c d shs pm).
Proof.
  induction shs as [|sh shs IH]; intros pm D; [exact D|]. cbn [drop_agreeing].
  destruct (dget pm sh) as [v|]; [|auto]. destruct (text_eqb _ v); [apply ddel_ok; exact D|auto].
Qed.
Lemma drop_agreeing_other c d shs q : (forall sh, In sh shs -> sh <> q) -> forall pm, dict_ok pm -> dget (drop_agreeing c d shs pm) q = dget pm q.
Proof.
  induction shs as [|sh shs IH]; intros N pm D; [reflexivity|]. cbn [drop_agreeing].
  destruct (dget pm sh) as [v|]; [|apply IH; [intros; apply N; right; assumption|exact D]].
  destruct (text_eqb _ v); [|apply IH; [intros; apply N; right; assumption|exact D]].
  rewrite dget_ddel by exact D. destruct (text_eqb_spec sh q) as [E|_]; [|reflexivity]. destruct (N sh (or_introl eq_refl) E).
Qed.
Lemma agree_ok c d e pm : dict_ok pm -> dict_ok (agree_step c d pm e).
Proof.
  intros D. unfold agree_step. destruct (is_longhand _); [apply drop_agreeing_ok; exact D|].
  destruct (dget pm (fst e)) as [v|]; [|exact D]. destruct (text_eqb _ v); [apply ddel_ok|]; exact D.
Qed.
Lemma agree_fold_ok c d l : forall pm, dict_ok pm -> dict_ok (fold_left (agree_step c d) l pm).
Proof. induction l as [|e l IH]; intros pm D; [exact D|]. cbn [fold_left]. apply IH, agree_ok, D. Qed.
Definition left_over (e : entry) (a : option text) : option text :=
  match e, a with Some (w, _), Some v => if text_eqb w v then None else a | _, _ => a end.
Lemma agree_one c d q (e : text * (text * text)) pm : is_longhand q = false -> is_shorthand q = false -> dict_ok pm ->
  dget (agree_step c d pm e) q = if text_eqb (fst e) q then left_over (Some (snd e)) (dget pm q) else dget pm q.
Proof.
  intros L H D. destruct e as [n [w p]]. unfold agree_step. cbn [fst snd]. destruct (is_longhand n) eqn:Ln.
  - assert (Nq : n <> q) by congruence. destruct (text_eqb_spec n q); [contradiction|].
    apply drop_agreeing_other; [|exact D]. intros sh I E. apply shorthands_short in I. congruence.
  - destruct (dget pm n) as [v|] eqn:G.
    + destruct (text_eqb_spec w v) as [W|W].
      * rewrite dget_ddel by exact D. destruct (text_eqb_spec n q) as [Q|Q]; [|reflexivity].
        unfold left_over. rewrite <- Q, G. subst w. rewrite text_eqb_refl. reflexivity.
      * destruct (text_eqb_spec n q) as [Q|Q]; [|reflexivity]. unfold left_over. rewrite <- Q, G.
        destruct (text_eqb_spec w v); [contradiction|reflexivity].
    + destruct (text_eqb_spec n q) as [Q|Q]; [|reflexivity]. unfold left_over. rewrite <- Q, G. reflexivity.
Qed.
Lemma agree_fold c d q : is_longhand q = false -> is_shorthand q = false -> forall (l : decls) pm, dict_ok l -> dict_ok pm ->
  dget (fold_left (agree_step c d) l pm) q = left_over (dget l q) (dget pm q).
Proof.
  intros L H. induction l as [|e l IH]; intros pm D P; [reflexivity|]. cbn [fold_left].
  inversion D as [|x xs Nx Dx]; subst. rewrite IH; [|exact Dx|apply agree_ok; exact P]. rewrite agree_one by assumption.
  destruct e as [n [w p]]. cbn [fst snd dget] in *. destruct (text_eqb_spec n q) as [Q|Q].
  - subst n. apply dget_keys in Nx. rewrite Nx. unfold left_over at 1. reflexivity.
  - reflexivity.
Qed.

(** Declaring the others *)
Lemma put_value c d n v p r : is_shorthand n = false -> set_internal c d n v p = Ok r ->
  r = match kept_as c v with Some w => Some (dset_end d n (w, p)) | None => None end.
Proof.
  intros S. unfold set_internal, kept_as. assert (FN : find_shorthand n = None).
  { unfold is_shorthand in S. destruct (find_shorthand n); [discriminate|reflexivity]. }
  rewrite FN. destruct (cparse c v) as [|x comps]; [intros E; injection E as <-; reflexivity|].
  intros E. injection E as <-. unfold set_longhand, serialize. cbv zeta. destruct (nonempty _); [|reflexivity].
  f_equal. f_equal. f_equal. unfold is_wide. destruct (mem _ color_keywords) eqn:M; cbn [orb].
  - assert (M2 : forall t, mem t color_keywords = true -> mem t [lit "currentcolor"; lit "transparent"; lit "default"; lit "inherit";
      lit "initial"; lit "revert"; lit "unset"] = true).
    { intros t Ht. apply mem_in in Ht. apply mem_in. destruct Ht as [<-|[<-|[]]]; vm_compute; tauto. }
    rewrite (M2 _ M). reflexivity.
  - unfold mem, color_keywords, wide_keywords in *. cbn [existsb] in *.
    apply orb_false_iff in M as [M0 M]. apply orb_false_iff in M as [M1 _]. rewrite M0, M1. reflexivity.
Qed.
Lemma put_ok c d n v p : is_shorthand n = false ->
  set_internal c d n v p = Ok (match kept_as c v with Some w => Some (dset_end d n (w, p)) | None => None end).
Proof.
  intros S. destruct (set_internal c d n v p) as [r|e] eqn:E; [rewrite (put_value c d n v p r S E); reflexivity|].
  unfold set_internal in E. assert (FN : find_shorthand n = None).
  { unfold is_shorthand in S. destruct (find_shorthand n); [discriminate|reflexivity]. }
  rewrite FN in E. destruct (cparse c v); discriminate.
Qed.
Lemma sync_item_plain c d n v : is_shorthand n = false -> dict_ok d ->
  exists d', sync_item c d n v = Ok d' /\ dict_ok d' /\ (forall q, dget d' q = if text_eqb n q then seen c (dget d q) (Some v) else dget d q).
Proof.
  intros S D. unfold sync_item. rewrite S. unfold seen.
  destruct (dget d n) as [[w p]|] eqn:G.
  - destruct (text_eqb_spec v w) as [E|E].
    + exists d. split; [reflexivity|]. split; [exact D|]. intros q. destruct (text_eqb_spec n q) as [Q|Q]; [|reflexivity].
      rewrite <- Q, G. destruct (text_eqb_spec v w); [reflexivity|contradiction].
    + rewrite put_ok by exact S. cbn [bind]. destruct (kept_as c v) as [x|] eqn:K.
      * eexists. split; [reflexivity|]. split; [apply dset_end_ok; exact D|]. intros q. rewrite dget_dset_end by exact D.
        destruct (text_eqb_spec n q) as [Q|Q]; [|reflexivity]. rewrite <- Q, G. destruct (text_eqb_spec v w); [contradiction|reflexivity].
      * exists d. split; [reflexivity|]. split; [exact D|]. intros q. destruct (text_eqb_spec n q) as [Q|Q]; [|reflexivity].
        destruct (match dget d q with Some (w0, _) => _ | None => false end); reflexivity.
  - rewrite put_ok by exact S. cbn [bind]. destruct (kept_as c v) as [x|] eqn:K.
    + eexists. split; [reflexivity|]. split; [apply dset_end_ok; exact D|]. intros q. rewrite dget_dset_end by exact D.
      destruct (text_eqb_spec n q) as [Q|Q]; [|reflexivity]. rewrite <- Q, G. reflexivity.
    + exists d. split; [reflexivity|]. split; [exact D|]. intros q. destruct (text_eqb_spec n q) as [Q|Q]; [|reflexivity].
      rewrite <- Q, G. reflexivity.
Qed.
Lemma sync_item_short c d n v d' q : is_shorthand n = true -> is_longhand q = false -> dict_ok d -> sync_item c d n v = Ok d' ->
  dict_ok d' /\ dget d' q = dget d q.
Proof.
  intros S L D. unfold sync_item. rewrite S. destruct (text_eqb _ v); [intros E; injection E as <-; split; [exact D|reflexivity]|].
  destruct (set_internal c d n v _) as [r|e] eqn:E; cbn [bind]; [|discriminate]. intros Q. injection Q as <-.
  destruct r as [d1|]; [|split; [exact D|reflexivity]]. split; [eapply set_internal_ok; eassumption|].
  unfold set_internal in E. apply is_shorthand_find in S as (s & l & S). rewrite S in E.
  destruct (cparse c v) as [|x comps]; [discriminate|]. apply sh_set_wrote in E as (_ & _ & W); [|exact D]. apply W.
  intros I. apply leaf_longhand in I. congruence.
Qed.
Lemma sync_items_plain c q : is_longhand q = false -> is_shorthand q = false -> forall l d d', dict_ok l -> dict_ok d ->
  sync_items c d l = Ok d' -> dict_ok d' /\ dget d' q = seen c (dget d q) (dget l q).
Proof.
  intros L S. induction l as [|[n v] l IH]; intros d d' Dl D E; cbn [sync_items] in E.
  - injection E as <-. split; [exact D|reflexivity].
  - inversion Dl as [|x xs Nx Dx]; subst.
    destruct (sync_item c d n v) as [d1|e] eqn:E1; cbn [bind] in E; [|discriminate].
    assert (G : dict_ok d1 /\ dget d1 q = if text_eqb n q then seen c (dget d q) (Some v) else dget d q).
    { destruct (is_shorthand n) eqn:Sn.
      - destruct (sync_item_short c d n v d1 q Sn L D E1) as [A B]. split; [exact A|].
        destruct (text_eqb_spec n q); [congruence|exact B].
      - destruct (sync_item_plain c d n v Sn D) as (d2 & E2 & A & B). rewrite E1 in E2. injection E2 as <-. split; [exact A|apply B]. }
    destruct G as [D1 G]. destruct (IH d1 d' Dx D1 E) as [D' G']. split; [exact D'|]. rewrite G', G. cbn [dget].
    destruct (text_eqb_spec n q) as [Q|Q]; [|reflexivity]. subst n. apply dget_keys in Nx. rewrite Nx. reflexivity.
Qed.
Lemma style_ok a : dict_ok (style_to_dict a).
Proof. destruct a as [t|]; [rewrite style_pairs; apply dict_of_ok|constructor]. Qed.
Lemma seen_left c e a : seen c e (left_over e a) = seen c e a.
Proof.
  unfold seen, left_over. destruct e as [[w p]|]; [|reflexivity]. destruct a as [v|]; [|reflexivity].
  destruct (text_eqb_spec w v) as [E|E]; [|reflexivity]. subst w. rewrite text_eqb_refl. reflexivity.
Qed.
Lemma sync_plain c s s' q : inline_ok s -> is_longhand q = false -> is_shorthand q = false -> sync c s = Ok s' ->
  inline_ok s' /\ iattr s' = iattr s /\ dget (idecls s') q = seen c (dget (idecls s) q) (attr_of s q).
Proof.
  intros [D R] L S E. unfold sync in E. rewrite R in E.
  destruct (sync_items c (idecls s) _) as [d|e] eqn:E1; cbn [bind] in E; [|discriminate]. injection E as <-. cbn [idecls iattr ironly].
  apply (sync_items_plain c q L S) in E1 as [D1 G]; [|apply agree_fold_ok, style_ok|exact D].
  split; [split; [exact D1|reflexivity]|]. split; [reflexivity|]. rewrite G.
  rewrite (agree_fold c (idecls s) q L S _ _ D (style_ok _)). apply seen_left.
Qed.
Lemma seen_twice c e a : seen c (seen c e a) a = seen c e a.
Proof.
  unfold seen. destruct a as [v|]; [|reflexivity].
  destruct e as [[w p]|]; cbn [entry_priority].
  - destruct (text_eqb_spec v w) as [E|E].
    + destruct (text_eqb_spec v w); [reflexivity|contradiction].
    + destruct (kept_as c v) as [x|] eqn:K.
      * destruct (text_eqb_spec v x) as [Ex|Ex]; [reflexivity|]. reflexivity.
      * destruct (text_eqb_spec v w); [contradiction|]. reflexivity.
  - destruct (kept_as c v) as [x|] eqn:K.
    + destruct (text_eqb v x); reflexivity.
    + reflexivity.
Qed.
(* looking never fails when the attribute has no shorthand *)
Lemma sync_items_total c : forall l d, dict_ok d -> (forall k, In k (dkeys l) -> is_shorthand k = false) -> exists d', sync_items c d l = Ok d'.
Proof.
  induction l as [|[n v] l IH]; intros d D H; [eexists; reflexivity|]. cbn [sync_items].
  destruct (sync_item_plain c d n v (H n (or_introl eq_refl)) D) as (d1 & E & D1 & _). rewrite E. cbn [bind].
  apply IH; [exact D1|]. intros k I. apply H. right. exact I.
Qed.
Lemma drop_agreeing_incl c d shs k : forall pm, In k (dkeys (drop_agreeing c d shs pm)) -> In k (dkeys pm).
Proof.
  induction shs as [|sh shs IH]; intros pm I; [exact I|]. cbn [drop_agreeing] in I.
  destruct (dget pm sh) as [v|]; [|auto]. destruct (text_eqb _ v); [eapply ddel_keys_incl; exact I|auto].
Qed.
Lemma agree_incl c d (l : decls) k : forall pm, In k (dkeys (fold_left (agree_step c d) l pm)) -> In k (dkeys pm).
Proof.
  induction l as [|e l IH]; intros pm I; [exact I|]. cbn [fold_left] in I. apply IH in I. unfold agree_step in I.
  destruct (is_longhand _); [eapply drop_agreeing_incl; exact I|]. destruct (dget pm (fst e)) as [v|]; [|exact I].
  destruct (text_eqb _ v); [eapply ddel_keys_incl; exact I|exact I].
Qed.
Lemma sync_total c s : inline_ok s -> (forall k v, attr_of s k = Some v -> is_shorthand k = false) -> exists s', sync c s = Ok s'.
Proof.
  intros [D R] H. unfold sync. rewrite R.
  destruct (sync_items_total c (fold_left (agree_step c (idecls s)) (idecls s) (style_to_dict (iattr s))) (idecls s) D) as [d E].
  - intros k I. apply agree_incl in I. apply dget_some_keys in I as [v I]. exact (H k v I).
  - rewrite E. eexists. reflexivity.
Qed.

(** The attribute *)
Lemma dset_in {V} (d : dict V) k v p : In p (dset d k v) -> p = (k, v) \/ In p d.
Proof.
  induction d as [|[k' v'] d IH]; cbn [dset]; [intros [<-|[]]; left; reflexivity|].
  destruct (text_eqb_spec k' k) as [E|E]; cbn [In]; [intros [<-|I]; [left; subst k'; reflexivity|right; right; exact I]|].
  intros [<-|I]; [right; left; reflexivity|]. destruct (IH I); [left|right; right]; assumption.
Qed.
Lemma dict_of_in {V} (l : list (text * V)) p : In p (dict_of l) -> In p l.
Proof.
  induction l as [|[k v] l IH] using rev_ind; [intros []|]. rewrite dict_of_snoc. cbn [fst snd]. intros I.
  apply in_or_app. apply dset_in in I as [->|I]; [right; left; reflexivity|left; auto].
Qed.
Lemma strip_no c t : free c t -> free c (strip t).
Proof.
  intros F. apply free_forallb. apply strip_free. apply free_forallb. exact F.
Qed.
Lemma style_neat a : Forall (fun p => neat (fst p) /\ neat (snd p)) (style_to_dict a).
Proof.
  destruct a as [t|]; [|constructor]. rewrite style_pairs. apply Forall_forall. intros [k v] I. apply dict_of_in in I.
  unfold pairs in I. apply filter_some_in in I. apply in_map_iff in I as (x & E & I).
  assert (F := split_frees 59 t). rewrite Forall_forall in F. specialize (F x I).
  apply two_parts_iff in E as (a & b & -> & Fa & Fb & <- & <-). cbn [fst snd].
  apply free_app in F as [F1 F2]. apply free_app in F2 as [_ F2].
  split; (split; [apply strip_strip|split; apply strip_no; assumption]).
Qed.
Definition neat_map (m : smap) : Prop := dict_ok m /\ Forall (fun p => neat (fst p) /\ neat (snd p)) m.
Lemma neat_style a : neat_map (style_to_dict a). Proof. split; [apply style_ok|apply style_neat]. Qed.
Lemma neat_dset m k v : neat_map m -> neat k -> neat v -> neat_map (dset m k v).
Proof.
  intros [D F] K W. split; [apply dset_ok; exact D|]. rewrite Forall_forall in *. intros p I. apply dset_in in I as [->|I]; [split; assumption|auto].
Qed.
Lemma ddel_in {V} (m : dict V) k p : In p (ddel m k) -> In p m.
Proof. induction m as [|[k' v'] m IH]; cbn [ddel]; [intros []|]. destruct (text_eqb k' k); cbn [In]; [intros I; right; exact I|intros [<-|I]; auto]. Qed.
Lemma neat_ddel m k : neat_map m -> neat_map (ddel m k).
Proof. intros [D F]. split; [apply ddel_ok; exact D|]. rewrite Forall_forall in *. intros p I. apply ddel_in in I. auto. Qed.
Lemma neat_written m k : neat_map m -> dget (style_to_dict (Some (dict_to_style (Some m)))) k = dget m k.
Proof. intros [D F]. symmetry. apply dget_perm; [exact D|]. apply Permutation_sym, written_perm; assumption. Qed.
Definition put_map (m : smap) : option text := match m with [] => None | _ => Some (dict_to_style (Some m)) end.
Lemma put_map_get m k : neat_map m -> dget (style_to_dict (put_map m)) k = dget m k.
Proof. intros N. destruct m as [|e m]; [reflexivity|]. apply neat_written. exact N. Qed.
Lemma put_map_none m : put_map m = None <-> m = []. Proof. destruct m as [|e m]; split; intros Q; try reflexivity; discriminate Q. Qed.
Lemma attr_update_form c d n v a : attr_update c d n v a =
  if snd (style_update c d n v (style_to_dict a)) then put_map (fst (style_update c d n v (style_to_dict a))) else a.
Proof. unfold attr_update. destruct (style_update _ _ _ _ _) as [m b]. destruct m; reflexivity. Qed.

Lemma drop1_get n m b q : dict_ok m -> dget (fst (drop1 n (m, b))) q = if text_eqb n q then None else dget m q.
Proof.
  intros D. unfold drop1. cbn [fst]. destruct (dhas m n) eqn:E; cbn [fst].
  - apply dget_ddel. exact D.
  - destruct (text_eqb_spec n q) as [<-|]; [|reflexivity]. unfold dhas in E. destruct (dget m n); [discriminate|reflexivity].
Qed.
Lemma drop1_neat n u : neat_map (fst u) -> neat_map (fst (drop1 n u)).
Proof. intros N. unfold drop1. destruct (dhas _ n); [apply neat_ddel|]; exact N. Qed.
Lemma extras_flat n : In n font_sub_properties -> is_shorthand n = false.
Proof.
  intros I. assert (A : forallb (fun n => negb (is_shorthand n)) font_sub_properties = true) by (vm_compute; reflexivity).
  rewrite forallb_forall in A. apply negb_true_iff. exact (A n I).
Qed.
Lemma remove_force c d n m : is_shorthand n = false -> style_remove c d n true m = drop1 n (m, false).
Proof. intros S. unfold style_remove. rewrite S. reflexivity. Qed.
Lemma drop_extras c d ns : (forall n, In n ns -> is_shorthand n = false) -> forall u, neat_map (fst u) ->
  let u' := fold_left (fun u n => or_upd u (style_remove c d n true)) ns u in
  neat_map (fst u') /\ (snd u = true -> snd u' = true) /\ forall q, dget (fst u') q = if mem q ns then None else dget (fst u) q.
Proof.
  induction ns as [|n ns IH]; intros F u N; cbn zeta; cbn [fold_left].
  - split; [exact N|]. split; [auto|]. reflexivity.
  - assert (E : or_upd u (style_remove c d n true) = (fst (drop1 n (fst u, false)), snd u || snd (drop1 n (fst u, false)))).
    { unfold or_upd. rewrite remove_force by (apply F; left; reflexivity). destruct (drop1 n (fst u, false)); reflexivity. }
    rewrite E. destruct (IH (fun x I => F x (or_intror I)) (fst (drop1 n (fst u, false)), snd u || snd (drop1 n (fst u, false)))) as (A & B & C).
    { cbn [fst]. apply drop1_neat. exact N. }
    split; [exact A|]. split; [intros T; apply B; cbn [snd]; rewrite T; reflexivity|].
    intros q. rewrite C. cbn [fst]. rewrite drop1_get by apply N. unfold mem. cbn [existsb]. destruct (text_eqb_spec q n) as [Q|Q].
    + subst q. rewrite text_eqb_refl. destruct (existsb _ ns); reflexivity.
    + destruct (text_eqb_spec n q); [congruence|]. reflexivity.
Qed.
Definition font_there (a : option text) : bool := dhas (style_to_dict a) (lit "font").
Definition after_font (a : option text) (q : text) : option text :=
  if font_there a && mem q font_sub_properties then None else dget (style_to_dict a) q.
Lemma plain_not_font k : plain k -> k <> lit "font" /\ k <> lit "mask" /\ k <> lit "mask-border".
Proof. intros P. apply plain_facts in P as (_ & S & _). repeat split; intros ->; vm_compute in S; discriminate S. Qed.
Lemma attr_set_plain c d n w a : plain n -> neat n -> neat w -> w <> [] ->
  attr_update c d n w a <> None /\
  forall q, dget (style_to_dict (attr_update c d n w a)) q = if text_eqb n q then Some w else after_font a q.
Proof.
  intros P N W NE. assert (P0 := P). apply plain_facts in P0 as (L & S & X). apply plain_not_font in P as (N1 & N2 & N3).
  rewrite attr_update_form. unfold style_update. cbv zeta. assert (Ew : nonempty w = true) by (destruct w; [congruence|reflexivity]).
  rewrite Ew, X. cbn [negb andb].
  destruct (text_eqb_spec n (lit "mask")); [contradiction|]. destruct (text_eqb_spec n (lit "mask-border")); [contradiction|]. cbn [andb].
  assert (E : or_upd (style_to_dict a, false) (style_set c d n w false) = (dset (style_to_dict a) n w, true)).
  { unfold or_upd, style_set. rewrite L, S. cbn [fst snd negb andb]. rewrite Ew. reflexivity. }
  match goal with |- context [or_upd ?x (style_set c d n w false)] => change (or_upd x (style_set c d n w false)) with (or_upd (style_to_dict a, false) (style_set c d n w false)) end.
  repeat match goal with |- context [or_upd ?x (style_set c d n w false)] => replace (or_upd x (style_set c d n w false)) with (dset (style_to_dict a) n w, true) by (symmetry; exact E) end.
  cbn [fst snd andb]. assert (Nm : neat_map (dset (style_to_dict a) n w)) by (apply neat_dset; [apply neat_style|assumption|assumption]).
  assert (Fd : dhas (dset (style_to_dict a) n w) (lit "font") = font_there a).
  { unfold dhas, font_there. rewrite dget_dset. destruct (text_eqb_spec n (lit "font")); [contradiction|reflexivity]. }
  rewrite Fd. unfold after_font. destruct (font_there a) eqn:FT; cbn [andb].
  - destruct (drop_extras c d font_sub_properties extras_flat (dset (style_to_dict a) n w, true) Nm) as (A & B & C).
    cbv zeta in A, B, C. rewrite (B eq_refl).
    assert (G : forall q, dget (style_to_dict (put_map (fst (fold_left (fun u n0 => or_upd u (style_remove c d n0 true)) font_sub_properties
      (dset (style_to_dict a) n w, true))))) q = if text_eqb n q then Some w else if mem q font_sub_properties then None else dget (style_to_dict a) q).
    { intros q. rewrite put_map_get by exact A. rewrite C. cbn [fst]. rewrite dget_dset. destruct (text_eqb_spec n q) as [Q|Q]; [|reflexivity].
      rewrite <- Q, X. reflexivity. }
    split; [|exact G]. intros Z. specialize (G n). rewrite Z, text_eqb_refl in G. discriminate.
  - cbn [snd fst]. split; [rewrite put_map_none; intros Z; assert (Z2 := f_equal (fun m => dget m n) Z); cbn beta in Z2;
      rewrite dget_dset, text_eqb_refl in Z2; discriminate|].
    intros q. rewrite put_map_get by exact Nm. apply dget_dset.
Qed.
Lemma attr_remove_plain c d n a : plain n ->
  (forall q, dget (style_to_dict (attr_update c d n [] a)) q = if text_eqb n q then None else dget (style_to_dict a) q) /\
  (dhas (style_to_dict a) n = true -> (attr_update c d n [] a = None <-> ddel (style_to_dict a) n = [])) /\
  (dhas (style_to_dict a) n = false -> attr_update c d n [] a = a).
Proof.
  intros P. assert (P0 := P). apply plain_facts in P0 as (L & S & X). apply plain_not_font in P as (N1 & N2 & N3).
  rewrite attr_update_form. unfold style_update. cbv zeta. cbn [nonempty negb]. rewrite X.
  destruct (text_eqb_spec n (lit "font")); [contradiction|]. destruct (text_eqb_spec n (lit "mask-border")); [contradiction|].
  unfold style_remove. rewrite S, L. cbn [orb]. unfold drop1. cbn [fst snd]. destruct (dhas (style_to_dict a) n) eqn:E; cbn [fst snd].
  - split; [|split; [intros _; apply put_map_none|discriminate]].
    intros q. rewrite put_map_get by (apply neat_ddel, neat_style). apply dget_ddel, style_ok.
  - split; [|split; [discriminate|reflexivity]]. intros q. destruct (text_eqb_spec n q) as [Q|Q]; [|reflexivity].
    subst q. unfold dhas in E. destruct (dget (style_to_dict a) n); [discriminate|reflexivity].
Qed.
