(** Proofs about inheritance, key by key. *)
From Verif Require Import PyBase PyText PySplit PyDict UtilsModel UtilsProofs FontTextModel FontTextSpec FontTextProofs CascadeModel CascadeSpec CascadeProofs.
#[local] Open Scope N_scope.

Notation K_font := (lit "font") (only parsing).
Notation K_fv := (lit "font-variant") (only parsing).
Notation K_fam := (lit "font-family") (only parsing).
Definition same (k : text) (st st' : state) : Prop := dget (fst st') k = dget (fst st) k /\ dget (snd st') k = dget (snd st) k.
Lemma same_refl k st : same k st st. Proof. now split. Qed.
Lemma same_trans k a b c : same k a b -> same k b c -> same k a c.
Proof. intros [A B] [C D]. split; congruence. Qed.
Lemma dset_other {V} (d : dict V) x k v : x <> k -> dget (dset d x v) k = dget d k.
Proof. intros N. rewrite dget_dset. destruct (text_eqb_spec x k); [contradiction|reflexivity]. Qed.
Lemma dset_here {V} (d : dict V) k v : dget (dset d k v) k = Some v.
Proof. rewrite dget_dset. now rewrite text_eqb_refl. Qed.
Lemma ddel_other {V} (d : dict V) x k : dict_ok d -> x <> k -> dget (ddel d x) k = dget d k.
Proof. intros O N. rewrite dget_ddel by exact O. destruct (text_eqb_spec x k); [contradiction|reflexivity]. Qed.
Lemma ddel_here {V} (d : dict V) k : dict_ok d -> dget (ddel d k) k = None.
Proof. intros O. rewrite dget_ddel by exact O. now rewrite text_eqb_refl. Qed.
Lemma variant_keys_six k : In k variant_keys -> In k six \/ k = K_fv.
Proof. intros [<-|[<-|[<-|[<-|[<-|[<-|[<-|[]]]]]]]]; auto; left; inten. Qed.
Lemma font_keys_ten k : In k font_keys <-> In k ten \/ k = K_font.
Proof.
  split.
  - intros I. destruct I as [<-|[<-|[<-|[<-|[<-|[<-|[<-|[<-|[<-|[<-|[<-|[]]]]]]]]]]]]; auto; left; inten.
  - intros [I| ->]; [|inten]. destruct I as [<-|[<-|[<-|[<-|[<-|[<-|[<-|[<-|[<-|[<-|[]]]]]]]]]]]; inten.
Qed.

Lemma take_value_other shlex x v k st st' : inh_ok (snd st) -> x <> k ->
  (x = K_font -> ~ In k ten /\ ~ In k six) -> (x = K_fv -> ~ In k six) ->
  take_value shlex x v st = Ok st' -> same k st st'.
Proof.
  intros (O & _) N F V. unfold take_value. destruct (text_eqb_spec x K_font) as [E|_].
  - destruct (F E) as [Nt Ns]. destruct (parse_font shlex v) as [o|] eqn:P; [|discriminate]. intros [= <-]. unfold update_font.
    assert (Pn : dget o k = None).
    { unfold parse_font in P. destruct (shlex v) as [it|]; [|discriminate]. injection P as <-. now apply font_items_none. }
    split; cbn [fst snd].
    + rewrite font_fill_get by exact Ns. cbn [fst]. rewrite dset_other by exact N. rewrite Pn. destruct (dget (fst st) k); reflexivity.
    + destruct (font_fill_inh o (dset (fst st) x (ST v), snd st) O) as (O' & p & _ & Pk & G). rewrite pops_get by exact O'. rewrite G.
      rewrite Pk.
      * destruct (mem k font_keys) eqn:M; [|reflexivity]. apply mem_in, font_keys_ten in M. destruct M as [M| ->]; [contradiction|congruence].
      * intros I. apply variant_keys_six in I. destruct I as [I| ->]; [contradiction|]. apply Nt. inten.
  - destruct (text_eqb_spec x K_fam) as [E|_].
    + destruct (parse_font_family shlex v) as [f|]; [|discriminate]. cbn [bind]. destruct (dhas (snd st) x); [|discriminate]. intros [= <-].
      split; [now apply dset_other|now apply ddel_other].
    + destruct (text_eqb_spec x K_fv) as [E|_].
      * specialize (V E). intros [= <-]. unfold update_font_variant. split; cbn [fst snd].
        -- rewrite fill_get, variant_dict_none by exact V. rewrite dset_other by exact N. destruct (dget (fst st) k); reflexivity.
        -- rewrite pops_get by exact O. destruct (mem k variant_keys) eqn:M; [|reflexivity].
           apply mem_in, variant_keys_six in M. destruct M as [M| ->]; [contradiction|congruence].
      * destruct (text_eqb x (lit "marker")); [discriminate|]. intros [= <-]. split; [now apply dset_other|now apply ddel_other].
Qed.
Lemma take_key_other shlex css x k st st' : inh_ok (snd st) -> x <> k ->
  (x = K_font -> ~ In k ten /\ ~ In k six) -> (x = K_fv -> ~ In k six) ->
  take_key shlex css x st = Ok st' -> same k st st'.
Proof.
  intros I N F V. rewrite take_key_wanted. destruct (css_wanted css x); [|intros [= <-]; apply same_refl]. now apply take_value_other.
Qed.
(* a run of keys that do not concern k *)
Definition away (k : text) (ks : list text) : Prop := forall x, In x ks -> x <> k /\ (x = K_font -> ~ In k ten /\ ~ In k six) /\ (x = K_fv -> ~ In k six).
Lemma take_keys_away shlex css k ks : away k ks -> forall st st', inh_ok (snd st) -> take_keys shlex css ks st = Ok st' -> same k st st'.
Proof.
  induction ks as [|x ks IH]; intros A st st' I; cbn [take_keys]; [intros [= <-]; apply same_refl|].
  destruct (take_key shlex css x st) as [s|] eqn:E; [|discriminate]. cbn [bind]. intros T.
  destruct (A x (or_introl eq_refl)) as (N & F & V). apply (same_trans k st s st').
  - exact (take_key_other _ _ _ _ _ _ I N F V E).
  - apply IH; [intros y Hy; apply A; now right|exact (take_key_inh _ _ _ _ _ I E)|exact T].
Qed.
Lemma take_keys_app shlex css a : forall b st, take_keys shlex css (a ++ b) st = do st <- take_keys shlex css a st; take_keys shlex css b st.
Proof.
  induction a as [|x a IH]; intros b st; [reflexivity|]. cbn [app take_keys]. destruct (take_key shlex css x st); [|reflexivity]. cbn [bind]. apply IH.
Qed.
Lemma away_filter k p l : away k l -> away k (filter p l).
Proof. intros A x I. apply filter_In in I. now apply A. Qed.

(** ** The end of the walk *)
Lemma finish_fold i : forall (s : dict sval) k, dict_ok i ->
  dget (fold_left (fun s p => match snd p with None => s | Some v => dset s (fst p) v end) i s) k =
  match dget i k with Some (Some v) => Some v | _ => dget s k end.
Proof.
  induction i as [|[a b] i IH]; intros s k O; [reflexivity|]. inversion O as [|? ? Na O']; subst. cbn [fold_left snd fst]. rewrite IH by exact O'. cbn [dget].
  destruct (text_eqb_spec a k) as [->|N].
  - assert (E : dget i k = None) by now apply dget_keys. rewrite E. destruct b; [apply dset_here|reflexivity].
  - destruct b as [v|]; [|reflexivity]. rewrite dset_other by exact N. reflexivity.
Qed.
Lemma finish_get st k : dict_ok (snd st) -> k <> K_fam -> dget (finish st) k = match dget (snd st) k with Some (Some v) => Some v | _ => dget (fst st) k end.
Proof.
  intros O N. unfold finish. match goal with |- context [dget ?s K_fam] => destruct (dget s K_fam) end.
  - now apply finish_fold.
  - rewrite dset_other by congruence. now apply finish_fold.
Qed.
Lemma finish_family st : dict_ok (snd st) -> dget (finish st) K_fam =
  or_else (match dget (snd st) K_fam with Some (Some v) => Some v | _ => dget (fst st) K_fam end) (Some (SL [lit "sans-serif"])).
Proof.
  intros O. unfold finish. match goal with |- context [match dget ?s K_fam with _ => _ end] => remember s as z eqn:Z end.
  assert (E := finish_fold (snd st) (fst st) K_fam O). rewrite <- Z in E. rewrite <- E. destruct (dget z K_fam) as [v|] eqn:G; [exact G|].
  rewrite dset_here. reflexivity.
Qed.

(** ** One element *)
Lemma element_split shlex e st st' : element_step shlex e st = Ok st' -> exists s, take_keys shlex (css_style e) (dkeys (snd st)) st = Ok s /\
  snd st' = snd s /\ (forall k, k <> lit "display" -> dget (fst st') k = dget (fst s) k) /\
  dget (fst st') (lit "display") = match dget (css_style e) (lit "display") with
    | Some d => if text_eqb d (lit "none") then Some (ST (lit "none")) else dget (fst s) (lit "display") | None => dget (fst s) (lit "display") end.
Proof.
  unfold element_step. destruct (take_keys _ _ _ _) as [s|]; [|discriminate]. cbn [bind]. intros [= <-]. exists s. split; [reflexivity|].
  destruct (dget (css_style e) (lit "display")) as [d|]; [|now repeat split]. destruct (text_eqb d (lit "none")); [|now repeat split].
  split; [reflexivity|]. split; [|apply dset_here]. intros k N. cbn [fst]. apply dset_other. congruence.
Qed.
Lemma element_inh shlex e st st' : inh_ok (snd st) -> element_step shlex e st = Ok st' -> inh_ok (snd st').
Proof. intros I E. apply element_split in E. destruct E as (s & T & -> & _). exact (take_keys_inh _ _ _ _ _ I T). Qed.
(* an invariant of the walk and what it gives: [Q] while nothing is found, [R v] after *)
Lemma walk_nearest {A} shlex (f : el -> option A) (Q : state -> Prop) (R : A -> state -> Prop) chain :
  (forall e, In e chain -> forall st st', inh_ok (snd st) -> Q st -> element_step shlex e st = Ok st' -> match f e with Some v => R v st' | None => Q st' end) ->
  (forall v e st st', In e chain -> inh_ok (snd st) -> R v st -> element_step shlex e st = Ok st' -> R v st') ->
  forall st st', inh_ok (snd st) -> Q st -> walk shlex chain st = Ok st' -> inh_ok (snd st') /\ match nearest f chain with Some v => R v st' | None => Q st' end.
Proof.
  intros HQ HR.
  assert (W : forall v c st st', incl c chain -> inh_ok (snd st) -> R v st -> walk shlex c st = Ok st' -> inh_ok (snd st') /\ R v st').
  { induction c as [|e c IH]; intros st st' L I H; cbn [walk]; [intros [= <-]; now split|].
    destruct (element_step shlex e st) as [s|] eqn:E; [|discriminate]. cbn [bind]. apply IH.
    - intros x Hx. apply L. now right.
    - exact (element_inh _ _ _ _ I E).
    - exact (HR v e st s (L e (or_introl eq_refl)) I H E). }
  assert (G : forall c st st', incl c chain -> inh_ok (snd st) -> Q st -> walk shlex c st = Ok st' -> inh_ok (snd st') /\ match nearest f c with Some v => R v st' | None => Q st' end).
  { induction c as [|e c IH]; intros st st' L I H; cbn [walk nearest]; [intros [= <-]; now split|].
    destruct (element_step shlex e st) as [s|] eqn:E; [|discriminate]. cbn [bind].
    assert (H' := HQ e (L e (or_introl eq_refl)) st s I H E). assert (I' := element_inh _ _ _ _ I E).
    assert (L' : incl c chain) by (intros x Hx; apply L; now right).
    destruct (f e) as [v|]; cbn [or_else]; [|now apply IH]. intros T. exact (W v c s st' L' I' H' T). }
  intros st st'. apply G. apply incl_refl.
Qed.

Lemma all_nodup : NoDup (dkeys inherited_props).
Proof. exact (proj1 inh_start). Qed.
Lemma inh_nodup i : inh_ok i -> NoDup (dkeys i). Proof. now intros [O _]. Qed.
Lemma own_get self k : dget (own_props self) k = option_map (fun d => ST (match dget self k with Some v => v | None => d end)) (dget non_inherited k).
Proof.
  unfold own_props. induction non_inherited as [|[a b] l IH]; [reflexivity|]. cbn [map dget fst snd].
  destruct (text_eqb_spec a k) as [->|]; [reflexivity|exact IH].
Qed.
Lemma disjoint_props k : In k (dkeys inherited_props) -> dget non_inherited k = None /\ k <> lit "display" /\ k <> lit "style".
Proof.
  intros I. assert (H : forallb (fun k => negb (dhas non_inherited k) && negb (text_eqb k (lit "display")) && negb (text_eqb k (lit "style"))) (dkeys inherited_props) = true)
    by (vm_compute; reflexivity).
  rewrite forallb_forall in H. specialize (H k I). rewrite !andb_true_iff, !negb_true_iff in H. destruct H as ((A & B) & C).
  rewrite dhas_dget in A. split; [destruct (dget non_inherited k); [discriminate|reflexivity]|].
  split; intros ->; [rewrite text_eqb_refl in B|rewrite text_eqb_refl in C]; discriminate.
Qed.

(** ** Keys that no shorthand touches *)
Definition plain (k : text) : Prop := In k (dkeys inherited_props) /\ ~ In k ten /\ ~ In k six.
Definition k_value (k : text) (v : text) : sval := if mem k list_keys then SL (split_ws v) else ST v.
Lemma plain_away k l : plain k -> ~ In k l -> away k l.
Proof. intros (_ & T & S) N x I. split; [congruence|]. auto. Qed.
(* taking the key itself *)
Lemma take_value_self shlex k v st st' : inh_ok (snd st) -> k <> K_font -> k <> K_fam -> k <> K_fv -> take_value shlex k v st = Ok st' ->
  k <> lit "marker" /\ dget (fst st') k = Some (k_value k v) /\ dget (snd st') k = None.
Proof.
  intros (O & _) A B C. unfold take_value. destruct (text_eqb_spec k K_font); [contradiction|]. destruct (text_eqb_spec k K_fam); [contradiction|].
  destruct (text_eqb_spec k K_fv); [contradiction|]. destruct (text_eqb_spec k (lit "marker")); [discriminate|]. intros [= <-].
  split; [assumption|]. split; [apply dset_here|now apply ddel_here].
Qed.
Lemma take_value_font_self shlex v st st' : inh_ok (snd st) -> take_value shlex K_font v st = Ok st' ->
  dget (fst st') K_font = Some (ST v) /\ dget (snd st') K_font = None.
Proof.
  intros (O & _). unfold take_value. destruct (text_eqb_spec K_font K_font); [|contradiction]. destruct (parse_font shlex v) as [o|] eqn:P; [|discriminate].
  intros [= <-]. unfold update_font. cbn [fst snd]. split.
  - rewrite font_fill_get; [cbn [fst]; now rewrite dset_here|]. intros I. apply mem_in in I. vm_compute in I. discriminate.
  - destruct (font_fill_inh o (dset (fst st) K_font (ST v), snd st) O) as (O' & _). rewrite pops_get by exact O'.
    assert (M : mem K_font font_keys = true) by (vm_compute; reflexivity). now rewrite M.
Qed.
Lemma plain_not k : plain k -> k <> K_fam /\ k <> K_fv.
Proof. intros (_ & T & _). split; intros ->; apply T; inten. Qed.
Lemma plain_values k v : plain k -> k_value k v = ST v.
Proof.
  intros (_ & _ & S). unfold k_value. destruct (mem k list_keys) eqn:M; [|reflexivity]. apply mem_in in M. exfalso. apply S.
  destruct M as [<-|[<-|[<-|[<-|[]]]]]; inten.
Qed.
Definition open_plain (k : text) (st : state) : Prop := dget (fst st) k = None /\ dget (snd st) k = dget inherited_props k.
Definition shut (k : text) (v : option sval) (st : state) : Prop := dget (fst st) k = v /\ dget (snd st) k = None.
Lemma inh_in i k : inh_ok i -> (In k (dkeys i) <-> dget i k <> None).
Proof.
  intros _. split.
  - intros I. apply dget_some_keys in I. destruct I as (v & ->). discriminate.
  - intros H. destruct (dget i k) as [v|] eqn:G; [|congruence]. apply dget_in in G. exact (in_map fst _ _ G).
Qed.
Lemma plain_open_step shlex k e : plain k -> el_ok e -> forall st st', inh_ok (snd st) -> open_plain k st -> element_step shlex e st = Ok st' ->
  match wanted k e with Some v => k <> lit "marker" /\ shut k (Some (ST v)) st' | None => open_plain k st' end.
Proof.
  intros Pk Eo st st' I [S H] E. destruct (disjoint_props k (proj1 Pk)) as (_ & Nd & Ns).
  destruct (element_split _ _ _ _ E) as (s & T & Si & Ss & _). specialize (Ss k Nd).
  assert (Ik : In k (dkeys (snd st))).
  { apply inh_in; [exact I|]. rewrite H. destruct (dget_some_keys inherited_props k) as [_ G]. destruct (G (proj1 Pk)) as (v & ->). discriminate. }
  assert (ND := inh_nodup _ I). destruct (in_split _ _ Ik) as (a & b & Eq). rewrite Eq in T, ND. apply NoDup_remove_2 in ND.
  assert (Na : ~ In k a /\ ~ In k b) by (split; intros J; apply ND; apply in_or_app; auto). destruct Na as [Na Nb].
  rewrite take_keys_app in T. destruct (take_keys shlex (css_style e) a st) as [s1|] eqn:T1; [|discriminate]. cbn [bind take_keys] in T.
  destruct (take_key shlex (css_style e) k s1) as [s2|] eqn:T2; [|discriminate]. cbn [bind] in T.
  assert (I1 := take_keys_inh _ _ _ _ _ I T1). assert (I2 := take_key_inh _ _ _ _ _ I1 T2).
  destruct (take_keys_away _ _ k a (plain_away k a Pk Na) _ _ I T1) as [A1 A2].
  destruct (take_keys_away _ _ k b (plain_away k b Pk Nb) _ _ I2 T) as [B1 B2].
  rewrite take_key_wanted, (css_wanted_eq e k Eo Ns) in T2. destruct (wanted k e) as [v|].
  - destruct (text_eqb_spec k K_font) as [->|Nf].
    + destruct (take_value_font_self _ _ _ _ I1 T2) as (V1 & V2). split; [discriminate|]. split; [now rewrite Ss, B1|now rewrite Si, B2].
    + destruct (plain_not k Pk) as [N1 N2]. destruct (take_value_self _ _ _ _ _ I1 Nf N1 N2 T2) as (Nm & V1 & V2).
      split; [exact Nm|]. rewrite plain_values in V1 by exact Pk. split; [now rewrite Ss, B1|now rewrite Si, B2].
  - injection T2 as <-. split; [rewrite Ss, B1, A1; exact S|rewrite Si, B2, A2; exact H].
Qed.
Lemma plain_shut_step shlex k v e : plain k -> forall st st', inh_ok (snd st) -> shut k v st -> element_step shlex e st = Ok st' -> shut k v st'.
Proof.
  intros Pk st st' I [S H] E. destruct (disjoint_props k (proj1 Pk)) as (_ & Nd & _). destruct (element_split _ _ _ _ E) as (s & T & Si & Ss & _). specialize (Ss k Nd).
  assert (Nk : ~ In k (dkeys (snd st))) by (rewrite inh_in by exact I; rewrite H; intros X; now apply X).
  destruct (take_keys_away _ _ k _ (plain_away k _ Pk Nk) _ _ I T) as [A B]. split; [rewrite Ss, A; exact S|rewrite Si, B; exact H].
Qed.
Lemma start_none self k : In k (dkeys inherited_props) -> dget (own_props self) k = None.
Proof. intros I. rewrite own_get. destruct (disjoint_props k I) as (-> & _). reflexivity. Qed.
Lemma plain_main shlex self anc s k : Forall el_ok (self :: anc) -> plain k -> get_inherited_style shlex self anc = Ok s ->
  dget s k = match nearest (wanted k) (self :: anc) with Some v => Some (ST v) | None => match dget inherited_props k with Some d => d | None => None end end.
Proof.
  intros Eo Pk. unfold get_inherited_style. destruct (walk shlex (self :: anc) (own_props (e_attr self), inherited_props)) as [st|] eqn:W; [|discriminate]. cbn [bind]. intros [= <-].
  rewrite Forall_forall in Eo. destruct (plain_not k Pk) as [N1 _].
  destruct (walk_nearest shlex (wanted k) (open_plain k) (fun v st => shut k (Some (ST v)) st) (self :: anc)) with (st := (own_props (e_attr self), inherited_props)) (st' := st) as [I H].
  - intros e Ie st1 st2 I Q E. assert (H := plain_open_step shlex k e Pk (Eo e Ie) st1 st2 I Q E). destruct (wanted k e); [apply H|exact H].
  - intros v e st1 st2 _ I Q E. exact (plain_shut_step shlex k _ e Pk st1 st2 I Q E).
  - exact inh_start.
  - split; [apply start_none; apply Pk|reflexivity].
  - exact W.
  - rewrite finish_get by (exact (proj1 I) || exact N1). destruct (nearest (wanted k) (self :: anc)) as [v|]; destruct H as [S H]; rewrite H, S; [reflexivity|].
    destruct (dget inherited_props k) as [[d|]|]; reflexivity.
Qed.
(* no element of a chain that succeeds wants a marker *)
Lemma marker_main shlex self anc s : Forall el_ok (self :: anc) -> get_inherited_style shlex self anc = Ok s -> forall e, In e (self :: anc) -> wanted (lit "marker") e = None.
Proof.
  intros Eo. unfold get_inherited_style. destruct (walk shlex (self :: anc) (own_props (e_attr self), inherited_props)) as [st|] eqn:W; [|discriminate]. intros _.
  assert (Pk : plain (lit "marker")) by (split; [inten|split; intros I; apply mem_in in I; vm_compute in I; discriminate]).
  assert (G : forall c st st', Forall el_ok c -> inh_ok (snd st) -> open_plain (lit "marker") st -> walk shlex c st = Ok st' -> forall e, In e c -> wanted (lit "marker") e = None).
  { induction c as [|e c IH]; intros s0 s' F I Q; cbn [walk]; [intros _ ? []|]. inversion F as [|? ? Fe Fc]; subst.
    destruct (element_step shlex e s0) as [s1|] eqn:E; [|discriminate]. cbn [bind]. intros W' x.
    assert (H := plain_open_step shlex _ e Pk Fe s0 s1 I Q E). destruct (wanted (lit "marker") e) as [v|] eqn:We; [destruct H as [H _]; now destruct H|].
    intros [<-|J]; [exact We|]. exact (IH s1 s' Fc (element_inh _ _ _ _ I E) H W' x J). }
  apply (G _ (own_props (e_attr self), inherited_props) st Eo inh_start); [|exact W]. split; [apply start_none; inten|reflexivity].
Qed.

(** ** Keys outside the inherited properties *)
Lemma outside_step shlex k e : ~ In k (dkeys inherited_props) -> ~ In k ten -> ~ In k six -> forall st s, inh_ok (snd st) ->
  take_keys shlex (css_style e) (dkeys (snd st)) st = Ok s -> dget (fst s) k = dget (fst st) k.
Proof.
  intros N T S st s I E. assert (Nk : ~ In k (dkeys (snd st))).
  { destruct I as (_ & p & -> & _). intros J. apply filter_In in J. now apply N. }
  assert (A : away k (dkeys (snd st))) by (intros x J; split; [congruence|auto]).
  exact (proj1 (take_keys_away _ _ k _ A _ _ I E)).
Qed.
Lemma outside_main shlex self anc s k d : dget non_inherited k = Some d -> k <> lit "display" -> get_inherited_style shlex self anc = Ok s ->
  dget s k = Some (ST (match dget (e_attr self) k with Some v => v | None => d end)).
Proof.
  intros D Nd. unfold get_inherited_style. destruct (walk shlex (self :: anc) (own_props (e_attr self), inherited_props)) as [st|] eqn:W; [|discriminate]. cbn [bind]. intros [= <-].
  assert (X : ~ In k (dkeys inherited_props) /\ ~ In k ten /\ ~ In k six).
  { assert (H : forallb (fun k => negb (mem k (dkeys inherited_props)) && negb (mem k ten) && negb (mem k six)) (dkeys non_inherited) = true) by (vm_compute; reflexivity).
    rewrite forallb_forall in H. specialize (H k). rewrite !andb_true_iff, !negb_true_iff, !mem_not_in in H.
    apply dget_in, (in_map fst) in D. specialize (H D). tauto. }
  destruct X as (X1 & X2 & X3).
  assert (G : forall c st st', inh_ok (snd st) -> walk shlex c st = Ok st' -> inh_ok (snd st') /\ dget (fst st') k = dget (fst st) k).
  { induction c as [|e c IH]; intros s0 s' I; cbn [walk]; [intros [= <-]; now split|].
    destruct (element_step shlex e s0) as [s1|] eqn:E; [|discriminate]. cbn [bind]. intros W'.
    destruct (IH s1 s' (element_inh _ _ _ _ I E) W') as [I' G]. split; [exact I'|]. rewrite G.
    destruct (element_split _ _ _ _ E) as (s2 & T & _ & Ss & _). rewrite (Ss k Nd). exact (outside_step shlex k e X1 X2 X3 s0 s2 I T). }
  destruct (G _ (own_props (e_attr self), inherited_props) st inh_start W) as [I E]. rewrite finish_get; [|exact (proj1 I)|intros ->; apply X1; inten].
  assert (H : dget (snd st) k = None).
  { destruct I as (_ & p & _ & Gi). rewrite Gi. assert (Z : dget inherited_props k = None) by now apply dget_keys. rewrite Z. destruct (p k); reflexivity. }
  rewrite H, E. cbn [fst]. rewrite own_get, D. reflexivity.
Qed.
Lemma display_main shlex self anc s : Forall el_ok (self :: anc) -> get_inherited_style shlex self anc = Ok s ->
  dget s (lit "display") = Some (ST (if existsb (fun e => match specified e (lit "display") with Some d => text_eqb d (lit "none") | None => false end) (self :: anc)
    then lit "none" else match dget (e_attr self) (lit "display") with Some v => v | None => lit "inline" end)).
Proof.
  intros Eo. unfold get_inherited_style. destruct (walk shlex (self :: anc) (own_props (e_attr self), inherited_props)) as [st|] eqn:W; [|discriminate]. cbn [bind]. intros [= <-].
  set (none e := match specified e (lit "display") with Some d => text_eqb d (lit "none") | None => false end).
  assert (X : ~ In (lit "display") (dkeys inherited_props) /\ ~ In (lit "display") ten /\ ~ In (lit "display") six).
  { repeat split; intros I; apply mem_in in I; vm_compute in I; discriminate. }
  destruct X as (X1 & X2 & X3).
  assert (G : forall c st st', Forall el_ok c -> inh_ok (snd st) -> walk shlex c st = Ok st' -> inh_ok (snd st') /\
    dget (fst st') (lit "display") = if existsb none c then Some (ST (lit "none")) else dget (fst st) (lit "display")).
  { induction c as [|e c IH]; intros s0 s' F I; cbn [walk]; [intros [= <-]; now split|]. inversion F as [|? ? Fe Fc]; subst.
    destruct (element_step shlex e s0) as [s1|] eqn:E; [|discriminate]. cbn [bind]. intros W'.
    destruct (IH s1 s' Fc (element_inh _ _ _ _ I E) W') as [I' G]. split; [exact I'|]. rewrite G. cbn [existsb].
    destruct (element_split _ _ _ _ E) as (s2 & T & _ & _ & Sd). rewrite Sd. rewrite css_specified by (exact Fe || discriminate).
    rewrite (outside_step shlex _ e X1 X2 X3 s0 s2 I T). unfold none at 2. destruct (specified e (lit "display")) as [d|]; [|destruct (existsb none c); reflexivity].
    destruct (text_eqb d (lit "none")), (existsb none c); reflexivity. }
  destruct (G _ (own_props (e_attr self), inherited_props) st Eo inh_start W) as [I E]. rewrite finish_get; [|exact (proj1 I)|discriminate].
  assert (H : dget (snd st) (lit "display") = None).
  { destruct I as (_ & p & _ & Gi). rewrite Gi. assert (Z : dget inherited_props (lit "display") = None) by now apply dget_keys. rewrite Z. destruct (p (lit "display")); reflexivity. }
  rewrite H, E. cbn [fst]. rewrite own_get. destruct (existsb none (self :: anc)); [reflexivity|].
  assert (Z : dget non_inherited (lit "display") = Some (lit "inline")) by (vm_compute; reflexivity). rewrite Z. reflexivity.
Qed.
