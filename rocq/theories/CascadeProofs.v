(** Proofs about rules, the cascade and inheritance. *)
From Verif Require Import PyBase PyText PySplit PyDict UtilsModel UtilsProofs FontTextModel FontTextSpec FontTextProofs CascadeModel CascadeSpec.
#[local] Open Scope N_scope.

(** ** Rules *)
Section RuleInd.
  Context (P : rule -> Prop).
  Context (Hs : forall sel ds, P (RStyle sel ds)) (Hn : forall p u, P (RNamespace p u)) (Ho : forall i, P (ROther i)).
  Context (Hi : forall m rs, Forall P rs -> P (RImport m rs)) (Hm : forall m rs, Forall P rs -> P (RMedia m rs)).
  Fixpoint rule_ind' (r : rule) : P r :=
    let all := fix all (l : list rule) : Forall P l := match l with [] => Forall_nil P | x :: l' => Forall_cons x (rule_ind' x) (all l') end in
    match r with
    | RStyle sel ds => Hs sel ds
    | RNamespace p u => Hn p u
    | ROther i => Ho i
    | RImport m rs => Hi m rs (all rs)
    | RMedia m rs => Hm m rs (all rs)
    end.
End RuleInd.

Lemma media_iff win m : media_ok win m = true <-> holds win m.
Proof.
  unfold media_ok, holds. rewrite orb_true_iff, mem_in. split.
  - intros [[<-|[<-|[]]]|H]; [now left|right; now left|]. right. right. destruct win as [f|]; [now exists f|discriminate].
  - intros [->|[->|(f & -> & H)]]; [left; now left|left; right; now left|now right].
Qed.
Lemma kept_app {A} (P : A -> Prop) a b k l : kept P a k -> kept P b l -> kept P (a ++ b) (k ++ l).
Proof. induction 1; cbn; intros H'; [exact H'|constructor; auto|constructor; auto]. Qed.
Lemma kept_none {A} (P : A -> Prop) a : Forall (fun x => ~ P x) a -> kept P a [].
Proof. induction 1; [constructor|apply kept_no; auto]. Qed.
Definition fine (win : option (text -> bool)) (x : list text * rule) : Prop := Forall (holds win) (fst x).
Lemma leaves_cond m cs r : forall x, In x (leaves cs r) -> In m cs -> In m (fst x).
Proof.
  revert cs. induction r as [sel ds|p u|i|m0 rs IH|m0 rs IH] using rule_ind'; intros cs x I M; cbn in I;
    try (destruct I as [<-|[]]; exact M).
  - apply in_flat_map in I. destruct I as (r & R & I). rewrite Forall_forall in IH. apply (IH r R _ x I). now right.
  - apply in_flat_map in I. destruct I as (r & R & I). rewrite Forall_forall in IH. apply (IH r R _ x I). now right.
Qed.
Lemma flatten1_kept win r : forall cs, Forall (holds win) cs -> exists k, kept (fine win) (leaves cs r) k /\ map snd k = flatten1 win r.
Proof.
  assert (G : forall cs m rs, Forall (fun r => forall cs, Forall (holds win) cs -> exists k, kept (fine win) (leaves cs r) k /\ map snd k = flatten1 win r) rs ->
    Forall (holds win) cs ->
    exists k, kept (fine win) (flat_map (leaves (m :: cs)) rs) k /\ map snd k = if media_ok win m then flat_map (flatten1 win) rs else []).
  { intros cs m rs IH C. destruct (media_ok win m) eqn:M.
    - apply media_iff in M. induction IH as [|r1 rs H F IHF]; [exists []; split; [constructor|reflexivity]|].
      destruct (H (m :: cs)) as (k & K & E); [now constructor|]. destruct IHF as (l & L & E').
      exists (k ++ l). cbn [flat_map]. split; [now apply kept_app|]. now rewrite map_app, E, E'.
    - exists []. split; [|reflexivity]. apply kept_none. apply Forall_forall. intros x I Fx. apply in_flat_map in I. destruct I as (r1 & _ & I).
      assert (M' : In m (fst x)) by (apply (leaves_cond m (m :: cs) r1 x I); now left).
      unfold fine in Fx. rewrite Forall_forall in Fx. apply Fx, media_iff in M'. congruence. }
  induction r as [sel ds|p u|i|m0 rs IH|m0 rs IH] using rule_ind'; intros cs C; cbn [leaves flatten1];
    try (eexists; split; [apply kept_yes; [exact C|constructor]|reflexivity]); now apply G.
Qed.
Lemma flatten_kept win rs : exists k, kept (fine win) (flat_map (leaves []) rs) k /\ map snd k = flatten win rs.
Proof.
  induction rs as [|r rs (k & K & E)]; [exists []; split; [constructor|reflexivity]|].
  destruct (flatten1_kept win r []) as (l & L & E'); [constructor|]. exists (l ++ k). cbn [flat_map flatten]. split; [now apply kept_app|].
  unfold flatten in *. cbn [flat_map]. now rewrite map_app, E, E'.
Qed.
Lemma flatten1_leaf win r x : In x (flatten1 win r) -> ~ is_group x.
Proof.
  revert x. induction r as [sel ds|p u|i|m rs IH|m rs IH] using rule_ind'; intros x I; cbn in I; try (destruct I as [<-|[]]; intros []).
  - destruct (media_ok win m); [|destruct I]. apply in_flat_map in I. destruct I as (r & R & I). rewrite Forall_forall in IH. exact (IH r R x I).
  - destruct (media_ok win m); [|destruct I]. apply in_flat_map in I. destruct I as (r & R & I). rewrite Forall_forall in IH. exact (IH r R x I).
Qed.
Lemma flatten_app win a b : flatten win (a ++ b) = flatten win a ++ flatten win b.
Proof. apply flat_map_app. Qed.

(** ** The cascade *)
Lemma cascade_declared matches rs : forall ns s, snd (fold_left (cascade_step matches) rs (ns, s)) = fold_left declare (declared matches ns rs) s.
Proof.
  induction rs as [|r rs IH]; intros ns s; [reflexivity|]. destruct r as [sel ds|p u|i|m l|m l]; cbn [fold_left cascade_step declared fst snd]; try apply IH.
  - rewrite fold_left_app. destruct (matches ns sel) as [[|]|]; apply IH.
Qed.
Lemma declare_all ds : forall k v,
  (dget (fst (fold_left declare ds ([], []))) k = Some v <-> last_value (fun _ => True) ds k v) /\
  (dget (snd (fold_left declare ds ([], []))) k = Some v <-> last_value (fun p => p = lit "important") ds k v).
Proof.
  induction ds as [|[k0 [v0 p0]] ds IH] using rev_ind; intros k v.
  - split; (split; [discriminate|]); intros (a & p & b & E & _); destruct a; discriminate E.
  - rewrite fold_left_app. cbn [fold_left]. destruct (fold_left declare ds ([], [])) as [n i]. cbn [fst snd] in IH. unfold declare. cbn [fst snd].
    assert (Ext : forall P, last_value P (ds ++ [(k0, (v0, p0))]) k v <-> (k0 = k /\ P p0 /\ v0 = v) \/ (~ (k0 = k /\ P p0) /\ last_value P ds k v)).
    { intros P. unfold last_value. split.
      - intros (a & p & b & E & Hp & L). destruct b as [|q b _] using rev_ind.
        + apply app_inj_tail in E. destruct E as [_ E]. injection E as <- <- <-. left. auto.
        + rewrite app_comm_cons, app_assoc in E. apply app_inj_tail in E. destruct E as [-> <-]. right. split.
          * intros [-> H0]. apply (L v0 p0); [apply in_or_app; right; now left|exact H0].
          * exists a, p, b. split; [reflexivity|]. split; [exact Hp|]. intros v' p' I. apply (L v' p'). apply in_or_app. now left.
      - intros [(-> & H0 & ->)|(Nk & a & p & b & -> & Hp & L)].
        + exists ds, p0, []. split; [reflexivity|]. split; [exact H0|]. intros ? ? [].
        + exists a, p, (b ++ [(k0, (v0, p0))]). split; [now rewrite <- app_assoc|]. split; [exact Hp|].
          intros v' p' I H'. apply in_app_or in I. destruct I as [I|[I|[]]]; [exact (L v' p' I H')|]. injection I as -> -> ->. apply Nk. auto. }
    rewrite !Ext. destruct (IH k v) as [A B]. split.
    + rewrite dget_dset. destruct (text_eqb_spec k0 k) as [->|N].
      * split; [injection 1 as ->; now left|]. intros [(_ & _ & ->)|(N & _)]; [reflexivity|]. destruct N; auto.
      * rewrite A. split; [intros H; right; split; [intros [E _]; contradiction|exact H]|]. intros [(E & _)|(_ & H)]; [contradiction|exact H].
    + destruct (text_eqb_spec p0 important) as [->|Np].
      * rewrite dget_dset. destruct (text_eqb_spec k0 k) as [->|N].
        -- split; [injection 1 as ->; now left|]. intros [(_ & _ & ->)|(N & _)]; [reflexivity|]. destruct N; auto.
        -- rewrite B. split; [intros H; right; split; [intros [E _]; contradiction|exact H]|]. intros [(E & _)|(_ & H)]; [contradiction|exact H].
      * rewrite B. split; [intros H; right; split; [intros [_ E]; contradiction|exact H]|]. intros [(_ & E & _)|(_ & H)]; [contradiction|exact H].
Qed.
Lemma declare_ok ds : forall s, dict_ok (fst s) /\ dict_ok (snd s) -> dict_ok (fst (fold_left declare ds s)) /\ dict_ok (snd (fold_left declare ds s)).
Proof.
  induction ds as [|[k [v p]] ds IH]; intros s [A B]; [now split|]. cbn [fold_left]. apply IH. unfold declare. cbn [fst snd].
  split; [now apply dset_ok|]. destruct (text_eqb p important); [now apply dset_ok|exact B].
Qed.

(** ** One element's values *)
Lemma dget_dupdate {V} (d e : dict V) k : dict_ok e -> dget (dupdate d e) k = or_else (dget e k) (dget d k).
Proof.
  unfold dupdate. revert d. induction e as [|[a b] e IH]; intros d E; [reflexivity|]. inversion E as [|? ? Na E']; subst.
  cbn [fold_left fst snd]. rewrite IH by exact E'. rewrite dget_dset. cbn [dget]. destruct (text_eqb_spec a k) as [->|N].
  - destruct (dget e k) as [v|] eqn:G; [|reflexivity]. exfalso. apply Na. apply dget_in in G. exact (in_map fst _ _ G).
  - reflexivity.
Qed.
Lemma dupdate_ok {V} (d e : dict V) : dict_ok d -> dict_ok (dupdate d e).
Proof. unfold dupdate. revert d. induction e as [|[a b] e IH]; intros d D; [exact D|]. cbn. apply IH. now apply dset_ok. Qed.
Lemma style_dict_ok t : dict_ok (style_to_dict (Some t)).
Proof. rewrite style_pairs. apply dict_of_ok. Qed.
Lemma css_specified e k : el_ok e -> k <> lit "style" -> dget (css_style e) k = specified e k.
Proof.
  intros (A & I & R) N. unfold css_style, specified, style_text. rewrite dget_dupdate by exact I. f_equal.
  rewrite (dget_dupdate (e_rules e) (e_attr e)) by exact A.
  assert (O : dict_ok (dupdate (e_rules e) (e_attr e))) by now apply dupdate_ok.
  change (match dget (e_attr e) (lit "style") with Some t => Some t | None => dget (e_rules e) (lit "style") end)
    with (or_else (dget (e_attr e) (lit "style")) (dget (e_rules e) (lit "style"))).
  assert (D : dget (ddel (dupdate (e_rules e) (e_attr e)) (lit "style")) k = or_else (dget (e_attr e) k) (dget (e_rules e) k)).
  { rewrite dget_ddel by exact O. destruct (text_eqb_spec (lit "style") k) as [E|_]; [congruence|]. now apply dget_dupdate. }
  destruct (or_else (dget (e_attr e) (lit "style")) (dget (e_rules e) (lit "style"))) as [t|].
  - rewrite dget_dupdate by apply style_dict_ok. now rewrite D.
  - exact D.
Qed.
Definition css_wanted (css : dict text) (k : text) : option text :=
  match dget css k with Some v => if text_eqb v (lit "inherit") then None else Some v | None => None end.
Lemma css_wanted_eq e k : el_ok e -> k <> lit "style" -> css_wanted (css_style e) k = wanted k e.
Proof. intros O N. unfold css_wanted, wanted. now rewrite css_specified. Qed.
Lemma take_key_wanted shlex css k st : take_key shlex css k st = match css_wanted css k with None => Ok st | Some v => take_value shlex k v st end.
Proof. unfold take_key, css_wanted. destruct (dget css k) as [v|]; [|reflexivity]. destruct (text_eqb v (lit "inherit")); reflexivity. Qed.

(** ** What one key does *)
Lemma dhas_dget {V} (d : dict V) k : dhas d k = is_some (dget d k).
Proof. unfold dhas. destruct (dget d k); reflexivity. Qed.
Lemma fill_get s other k : dget (fill s other) k = or_else (dget s k) (dget other k).
Proof.
  unfold fill. revert s. induction other as [|[a b] o IH]; intros s; [cbn; destruct (dget s k); reflexivity|].
  cbn [fold_left fst snd dget]. rewrite IH. unfold dhas. destruct (dget s a) as [v|] eqn:G.
  - destruct (text_eqb_spec a k) as [->|]; [now rewrite G|reflexivity].
  - rewrite dget_dset. destruct (text_eqb_spec a k) as [->|]; [rewrite G; reflexivity|reflexivity].
Qed.
Lemma pops_ok ks : forall i, dict_ok i -> dict_ok (pops i ks).
Proof. induction ks as [|a ks IH]; intros i O; [exact O|]. cbn. apply IH. now apply ddel_ok. Qed.
Lemma pops_get ks : forall i k, dict_ok i -> dget (pops i ks) k = if mem k ks then None else dget i k.
Proof.
  induction ks as [|a ks IH]; intros i k O; [reflexivity|]. cbn [pops fold_left]. change (fold_left ddel ks (ddel i a)) with (pops (ddel i a) ks).
  rewrite IH by now apply ddel_ok. rewrite dget_ddel by exact O. cbn [mem existsb]. fold (mem k ks).
  destruct (text_eqb_spec a k) as [->|N].
  - rewrite text_eqb_refl. cbn. destruct (mem k ks); reflexivity.
  - destruct (text_eqb_spec k a); [congruence|]. reflexivity.
Qed.
Lemma pops_keys ks : forall i, dict_ok i -> dkeys (pops i ks) = filter (fun k => negb (mem k ks)) (dkeys i).
Proof.
  induction ks as [|a ks IH]; intros i O; [cbn; symmetry; apply filter_true|].
  change (pops i (a :: ks)) with (pops (ddel i a) ks). rewrite IH by now apply ddel_ok. rewrite ddel_keys by exact O.
  assert (G : forall l, filter (fun k => negb (mem k ks)) (filter (fun x => negb (text_eqb x a)) l) = filter (fun k => negb (mem k (a :: ks))) l).
  { induction l as [|x l IHl]; [reflexivity|]. cbn [filter mem existsb]. fold (mem x ks). destruct (text_eqb x a); cbn [negb orb filter]; [exact IHl|].
    destruct (mem x ks); cbn [negb]; [exact IHl|]. now rewrite IHl. }
  apply G.
Qed.
Definition six : list text := variant_props.
Lemma variant_dict_none t k : ~ In k six -> dget (parse_font_variant t) k = None.
Proof.
  intros N. apply dget_keys. intros I. apply N. unfold parse_font_variant in I. destruct (text_eqb t normal), (text_eqb t (lit "none")); exact I.
Qed.
Lemma variant_dict_some t k : In k six -> exists v, dget (parse_font_variant t) k = Some v.
Proof.
  intros I. apply dget_some_keys. unfold parse_font_variant. destruct (text_eqb t normal), (text_eqb t (lit "none")); exact I.
Qed.
(* the keys of a parsed font *)
Definition ten : list text := dkeys font_defaults.
Lemma dset_in_keys {V} (d : dict V) k v : In k (dkeys d) -> dkeys (dset d k v) = dkeys d.
Proof. intros I. rewrite dset_keys. apply dget_some_keys in I. destruct I as (x & E). unfold dhas. now rewrite E. Qed.
Ltac inten := apply mem_in; vm_compute; reflexivity.
Lemma font_words_keys ws : forall d, dkeys d = ten -> dkeys (font_words ws d) = ten.
Proof.
  induction ws as [|w ws IH]; intros d D; [exact D|]. cbn [font_words]. destruct (text_eqb w normal); [now apply IH|].
  destruct (mem w style_words); [apply IH; rewrite dset_in_keys; [exact D|rewrite D; inten]|].
  destruct (text_eqb w (lit "small-caps")); [apply IH; rewrite dset_in_keys; [exact D|rewrite D; inten]|].
  destruct (mem w weight_words); [apply IH; rewrite dset_in_keys; [exact D|rewrite D; inten]|].
  destruct (mem w stretch_words); [apply IH; rewrite dset_in_keys; [exact D|rewrite D; inten]|exact D].
Qed.
Lemma font_items_keys items : dkeys (parse_font_items items) = [] \/ dkeys (parse_font_items items) = ten.
Proof.
  unfold parse_font_items. destruct (rev items) as [|l r]; [now left|]. destruct (existsb _ items); [now left|].
  destruct (take_family r false [l]) as [fam rest]. destruct rest as [|size before]; [now left|]. right. apply font_words_keys.
  destruct (split_on 47 size) as [|a [|b l']]; rewrite !dset_in_keys; try reflexivity; rewrite ?dset_in_keys; inten.
Qed.
Lemma font_items_none items k : ~ In k ten -> dget (parse_font_items items) k = None.
Proof. intros N. apply dget_keys. destruct (font_items_keys items) as [->| ->]; [intros []|exact N]. Qed.

(* the shorthand loops *)
Lemma font_fill_get other : forall st k, ~ In k six -> dget (fst (fold_left font_fill other st)) k = or_else (dget (fst st) k) (dget other k).
Proof.
  induction other as [|[a b] o IH]; intros st k N; [cbn; destruct (dget (fst st) k); reflexivity|].
  cbn [fold_left dget]. rewrite IH by exact N. unfold font_fill. cbn [fst snd]. unfold dhas. destruct (dget (fst st) a) as [v|] eqn:G.
  - destruct (text_eqb_spec a k) as [->|]; [now rewrite G|reflexivity].
  - assert (E : dget (fst match b with
                     | ST v => if text_eqb a (lit "font-variant") then update_font_variant v (dset (fst st) a b, snd st) else (dset (fst st) a b, snd st)
                     | SL _ => (dset (fst st) a b, snd st) end) k = dget (dset (fst st) a b) k).
    { destruct b as [v|l]; [|reflexivity]. destruct (text_eqb a (lit "font-variant")); [|reflexivity].
      unfold update_font_variant. cbn [fst]. rewrite fill_get, variant_dict_none by exact N. destruct (dget (dset (fst st) a (ST v)) k); reflexivity. }
    etransitivity; [apply (f_equal (fun x => or_else x (dget o k))); exact E|]. rewrite dget_dset.
    destruct (text_eqb_spec a k) as [->|]; [rewrite G; reflexivity|reflexivity].
Qed.
Lemma font_fill_inh other : forall st, dict_ok (snd st) -> dict_ok (snd (fold_left font_fill other st)) /\
  exists p, dkeys (snd (fold_left font_fill other st)) = filter p (dkeys (snd st)) /\ (forall k, ~ In k variant_keys -> p k = true) /\
  (forall k, dget (snd (fold_left font_fill other st)) k = if p k then dget (snd st) k else None).
Proof.
  induction other as [|[a b] o IH]; intros st O.
  - split; [exact O|]. exists (fun _ => true). split; [symmetry; apply filter_true|]. split; reflexivity.
  - cbn [fold_left]. assert (H : dict_ok (snd (font_fill st (a, b))) /\ (snd (font_fill st (a, b)) = snd st \/ snd (font_fill st (a, b)) = pops (snd st) variant_keys)).
    { unfold font_fill. cbn [fst snd]. destruct (dhas (fst st) a); [auto|]. destruct b as [v|l]; [|auto].
      destruct (text_eqb a (lit "font-variant")); [|auto]. split; [now apply pops_ok|right; reflexivity]. }
    destruct H as [O' E]. destruct (IH _ O') as (O'' & p & K & Pk & G). split; [exact O''|]. destruct E as [E|E].
    + rewrite E in *. exists p. auto.
    + rewrite E, pops_keys in K by exact O. exists (fun k => negb (mem k variant_keys) && p k). split; [|split].
      * rewrite K. clear. induction (dkeys (snd st)) as [|x l IHl]; [reflexivity|]. cbn [filter]. destruct (mem x variant_keys); cbn [negb andb filter]; [exact IHl|].
        destruct (p x); rewrite IHl; reflexivity.
      * intros k Nk. rewrite Pk by exact Nk. apply mem_not_in in Nk. now rewrite Nk.
      * intros k. rewrite G, E, pops_get by exact O. destruct (mem k variant_keys), (p k); reflexivity.
Qed.
(* the remaining keys keep their order and values *)
Definition inh_ok (i : dict (option sval)) : Prop := dict_ok i /\ exists p, dkeys i = filter p (dkeys inherited_props) /\
  forall k, dget i k = if p k then dget inherited_props k else None.
Lemma filter_filter {A} (p q : A -> bool) l : filter p (filter q l) = filter (fun x => q x && p x) l.
Proof. induction l as [|x l IH]; [reflexivity|]. cbn. destruct (q x); cbn; [destruct (p x); now rewrite IH|exact IH]. Qed.
Lemma inh_pops i ks : inh_ok i -> inh_ok (pops i ks).
Proof.
  intros (O & p & K & G). split; [now apply pops_ok|]. exists (fun k => p k && negb (mem k ks)). split.
  - rewrite pops_keys by exact O. now rewrite K, filter_filter.
  - intros k. rewrite pops_get by exact O. rewrite G. destruct (p k), (mem k ks); reflexivity.
Qed.
Lemma inh_ddel i k : inh_ok i -> inh_ok (ddel i k).
Proof. apply (inh_pops i [k]). Qed.
Lemma inh_font_fill other st : inh_ok (snd st) -> inh_ok (snd (fold_left font_fill other st)).
Proof.
  intros (O & p & K & G). destruct (font_fill_inh other st O) as (O' & q & K' & _ & G'). split; [exact O'|].
  exists (fun k => p k && q k). split; [now rewrite K', K, filter_filter|]. intros k. rewrite G', G. destruct (p k), (q k); reflexivity.
Qed.
Lemma take_value_inh shlex k v st st' : inh_ok (snd st) -> take_value shlex k v st = Ok st' -> inh_ok (snd st').
Proof.
  intros I. unfold take_value. destruct (text_eqb k (lit "font")).
  - destruct (parse_font shlex v) as [o|]; [|discriminate]. intros [= <-]. unfold update_font. cbn [snd]. apply inh_pops. now apply inh_font_fill.
  - destruct (text_eqb k (lit "font-family")).
    + destruct (parse_font_family shlex v) as [f|]; [|discriminate]. cbn [bind]. destruct (dhas (snd st) k); [|discriminate]. intros [= <-]. now apply inh_ddel.
    + destruct (text_eqb k (lit "font-variant")); [intros [= <-]; now apply inh_pops|].
      destruct (text_eqb k (lit "marker")); [discriminate|]. intros [= <-]. now apply inh_ddel.
Qed.
Lemma take_key_inh shlex css k st st' : inh_ok (snd st) -> take_key shlex css k st = Ok st' -> inh_ok (snd st').
Proof. rewrite take_key_wanted. destruct (css_wanted css k); [apply take_value_inh|intros I [= <-]; exact I]. Qed.
Lemma take_keys_inh shlex css ks : forall st st', inh_ok (snd st) -> take_keys shlex css ks st = Ok st' -> inh_ok (snd st').
Proof.
  induction ks as [|k ks IH]; intros st st' I; cbn [take_keys]; [intros [= <-]; exact I|].
  destruct (take_key shlex css k st) as [s|] eqn:E; [|discriminate]. cbn [bind]. apply IH. exact (take_key_inh _ _ _ _ _ I E).
Qed.
Lemma inh_start : inh_ok inherited_props.
Proof.
  split.
  - unfold dict_ok. assert (H : forallb (fun x => (length (filter (text_eqb x) (dkeys inherited_props)) =? 1)%nat) (dkeys inherited_props) = true) by (vm_compute; reflexivity).
    revert H. generalize (dkeys inherited_props) as l. clear. intros l H. 
    assert (G : forall l', (forall x, In x l' -> (length (filter (text_eqb x) l') <= 1)%nat) -> NoDup l').
    { clear. induction l' as [|x l IH]; intros H; [constructor|]. constructor.
      - intros I. specialize (H x (or_introl eq_refl)). cbn [filter] in H. rewrite text_eqb_refl in H. cbn [length] in H.
        assert (J : In x (filter (text_eqb x) l)) by (apply filter_In; split; [exact I|apply text_eqb_refl]).
        destruct (filter (text_eqb x) l); [destruct J|cbn in H; lia].
      - apply IH. intros y I. specialize (H y (or_intror I)). cbn [filter] in H. destruct (text_eqb y x); cbn in H; lia. }
    apply G. intros x I. rewrite forallb_forall in H. specialize (H x I). apply Nat.eqb_eq in H. lia.
  - exists (fun _ => true). split; [symmetry; apply filter_true|reflexivity].
Qed.
