(** Proofs about inheritance: the font shorthands, and when the walk succeeds. *)
From Verif Require Import PyBase PyText PySplit PyDict UtilsModel UtilsProofs FontTextModel FontTextSpec FontTextProofs CascadeModel CascadeSpec CascadeProofs CascadeProofs2.
#[local] Open Scope N_scope.

Ltac absent := let I := fresh in intros I; apply mem_in in I; vm_compute in I; discriminate.
Lemma font_plain : plain K_font.
Proof. split; [inten|split; absent]. Qed.
Lemma ten_inherited k : In k ten -> In k (dkeys inherited_props) /\ k <> K_font /\ ~ In k six.
Proof.
  intros I. assert (H : forallb (fun k => mem k (dkeys inherited_props) && negb (text_eqb k K_font) && negb (mem k six)) ten = true) by (vm_compute; reflexivity).
  rewrite forallb_forall in H. specialize (H k I). rewrite !andb_true_iff, !negb_true_iff, mem_in, mem_not_in in H. destruct H as ((A & B) & C).
  repeat split; auto. intros ->. now rewrite text_eqb_refl in B.
Qed.
Lemma six_inherited k : In k six -> In k (dkeys inherited_props) /\ k <> K_font /\ k <> K_fv /\ k <> K_fam /\ ~ In k ten /\ k <> lit "marker".
Proof.
  intros I. assert (H : forallb (fun k => mem k (dkeys inherited_props) && negb (text_eqb k K_font) && negb (text_eqb k K_fv) && negb (text_eqb k K_fam) && negb (mem k ten) && negb (text_eqb k (lit "marker"))) six = true)
    by (vm_compute; reflexivity).
  rewrite forallb_forall in H. specialize (H k I). rewrite !andb_true_iff, !negb_true_iff, mem_in, mem_not_in in H. destruct H as (((((A & B) & C) & D) & E) & F).
  repeat split; auto; intros ->; rewrite text_eqb_refl in *; discriminate.
Qed.
(* the order of the keys *)
Lemma order_font k : In k ten -> exists A B C, dkeys inherited_props = A ++ K_font :: B ++ k :: C.
Proof.
  intros I. assert (E : dkeys inherited_props = firstn 9 (dkeys inherited_props) ++ K_font :: skipn 10 (dkeys inherited_props)) by (vm_compute; reflexivity).
  assert (H : forallb (fun k => mem k (skipn 10 (dkeys inherited_props))) ten = true) by (vm_compute; reflexivity).
  rewrite forallb_forall in H. specialize (H k I). apply mem_in, in_split in H. destruct H as (B & C & H). rewrite H in E. eauto.
Qed.
Lemma order_variant k : In k six -> exists A B C D, dkeys inherited_props = A ++ K_font :: B ++ K_fv :: C ++ k :: D.
Proof.
  intros I. assert (E : dkeys inherited_props = firstn 9 (dkeys inherited_props) ++ K_font :: firstn 9 (skipn 10 (dkeys inherited_props)) ++ K_fv :: skipn 20 (dkeys inherited_props)) by (vm_compute; reflexivity).
  assert (H : forallb (fun k => mem k (skipn 20 (dkeys inherited_props))) six = true) by (vm_compute; reflexivity).
  rewrite forallb_forall in H. specialize (H k I). apply mem_in, in_split in H. destruct H as (C & D & H). rewrite H in E. eauto 6.
Qed.
Lemma inh_p i k : inh_ok i -> dget i k <> None -> exists p, dkeys i = filter p (dkeys inherited_props) /\ p k = true.
Proof. intros (_ & p & K & G) H. exists p. split; [exact K|]. rewrite G in H. destruct (p k); congruence. Qed.
Lemma nodup_parts {A} (x : A) a b : NoDup (a ++ x :: b) -> ~ In x a /\ ~ In x b.
Proof. intros H. apply NoDup_remove_2 in H. split; intros I; apply H, in_or_app; auto. Qed.

(** ** The 'font' key *)
Lemma take_value_font shlex v k st st' : In k ten -> inh_ok (snd st) -> take_value shlex K_font v st = Ok st' ->
  exists o, parse_font shlex v = Ok o /\ dget (fst st') k = or_else (dget (fst st) k) (dget o k) /\ dget (snd st') k = None /\ dget (snd st') K_font = None.
Proof.
  intros T (O & _). destruct (ten_inherited k T) as (_ & Nf & Ns). unfold take_value. destruct (text_eqb_spec K_font K_font); [|contradiction].
  destruct (parse_font shlex v) as [o|]; [|discriminate]. intros [= <-]. exists o. split; [reflexivity|]. unfold update_font. cbn [fst snd].
  destruct (font_fill_inh o (dset (fst st) K_font (ST v), snd st) O) as (O' & _). rewrite !pops_get by exact O'. split; [|split].
  - rewrite font_fill_get by exact Ns. cbn [fst]. now rewrite dset_other by congruence.
  - assert (M : mem k font_keys = true) by (apply mem_in, font_keys_ten; now left). now rewrite M.
  - assert (M : mem K_font font_keys = true) by (vm_compute; reflexivity). now rewrite M.
Qed.
Lemma take_value_fv_self shlex v st st' : inh_ok (snd st) -> take_value shlex K_fv v st = Ok st' -> dget (fst st') K_fv = Some (ST v) /\ dget (snd st') K_fv = None.
Proof.
  intros (O & _) E. assert (U : take_value shlex K_fv v st = Ok (update_font_variant v (dset (fst st) K_fv (ST v), snd st))) by reflexivity.
  rewrite U in E. injection E as <-. unfold update_font_variant. cbn [fst snd]. split.
  - rewrite fill_get, dset_here. reflexivity.
  - rewrite pops_get by exact O. assert (M : mem K_fv variant_keys = true) by (vm_compute; reflexivity). now rewrite M.
Qed.
Lemma take_value_fam_self shlex v st st' : inh_ok (snd st) -> take_value shlex K_fam v st = Ok st' ->
  dget (snd st) K_fam <> None /\ exists f, parse_font_family shlex v = Ok f /\ dget (fst st') K_fam = Some (SL f) /\ dget (snd st') K_fam = None.
Proof.
  intros (O & _) E.
  assert (U : take_value shlex K_fam v st = do fam <- parse_font_family shlex v; if dhas (snd st) K_fam then Ok (dset (fst st) K_fam (SL fam), ddel (snd st) K_fam) else Err KeyError) by reflexivity.
  rewrite U in E. destruct (parse_font_family shlex v) as [f|]; [|discriminate]. cbn [bind] in E. rewrite dhas_dget in E. destruct (dget (snd st) K_fam) as [d|]; [|discriminate].
  cbn [is_some] in E. injection E as <-. split; [discriminate|]. exists f. split; [reflexivity|]. split; [apply dset_here|now apply ddel_here].
Qed.
Definition holds_value (shlex : text -> result (list text)) (k v : text) (x : sval) : Prop :=
  if text_eqb k K_fam then exists f, parse_font_family shlex v = Ok f /\ x = SL f else x = ST v.
Lemma ten_self shlex k v st st' : In k ten -> inh_ok (snd st) -> take_value shlex k v st = Ok st' ->
  (k = K_fam -> dget (snd st) k <> None) /\ exists x, holds_value shlex k v x /\ dget (fst st') k = Some x /\ dget (snd st') k = None.
Proof.
  intros T I E. unfold holds_value. destruct (text_eqb_spec k K_fam) as [->|Nfam].
  - destruct (take_value_fam_self _ _ _ _ I E) as (H & f & P & A & B). split; [auto|]. exists (SL f). eauto.
  - split; [contradiction|]. exists (ST v). split; [reflexivity|]. destruct (text_eqb_spec k K_fv) as [->|Nfv]; [exact (take_value_fv_self _ _ _ _ I E)|].
    destruct (ten_inherited k T) as (_ & Nf & Ns). destruct (take_value_self _ _ _ _ _ I Nf Nfam Nfv E) as (_ & A & B). split; [|exact B].
    rewrite A. unfold k_value. destruct (mem k list_keys) eqn:M; [|reflexivity]. apply mem_in in M. exfalso. apply Ns. destruct M as [<-|[<-|[<-|[<-|[]]]]]; inten.
Qed.
Definition open_font (k : text) (st : state) : Prop := open_plain k st /\ dget (snd st) K_font = Some None.
Lemma ten_away k l : In k ten -> ~ In k l -> ~ In K_font l -> away k l.
Proof. intros T N F x I. split; [congruence|]. split; [intros ->; contradiction|]. intros _. apply ten_inherited in T. tauto. Qed.
Lemma nf l p : ~ In K_font l -> ~ In K_font (filter p l).
Proof. intros N I. apply filter_In in I. now apply N. Qed.
Lemma nfk (k : text) l p : ~ In k l -> ~ In k (filter p l).
Proof. intros N I. apply filter_In in I. now apply N. Qed.
Lemma not_in_app_cons {A} (x y : A) a b : ~ In x (a ++ y :: b) -> ~ In x a /\ x <> y /\ ~ In x b.
Proof. intros H. repeat split; [intros I; apply H, in_or_app; auto|intros ->; apply H, in_or_app; right; now left|intros I; apply H, in_or_app; right; now right]. Qed.

Lemma font_open_step shlex k e : In k ten -> el_ok e -> forall st st', inh_ok (snd st) -> open_font k st -> element_step shlex e st = Ok st' ->
  match wanted K_font e with
  | Some w => exists o, parse_font shlex w = Ok o /\ dget (snd st') k = None /\ dget (snd st') K_font = None /\
      match wanted k e with Some v => k <> K_fam /\ exists x, holds_value shlex k v x /\ dget (fst st') k = Some x | None => dget (fst st') k = dget o k end
  | None => match wanted k e with Some v => exists x, holds_value shlex k v x /\ dget (fst st') k = Some x /\ dget (snd st') k = None | None => open_font k st' end
  end.
Proof.
  intros T Eo st st' I [[S H] F] E. destruct (ten_inherited k T) as (Ik & Nf & Ns). destruct (disjoint_props k Ik) as (_ & Nd & Nst).
  destruct (element_split _ _ _ _ E) as (s & Tk & Si & Ss & _). specialize (Ss k Nd).
  destruct (order_font k T) as (A & B & C & Eq). assert (ND := all_nodup). rewrite Eq in ND.
  destruct (nodup_parts _ _ _ ND) as [FA FBC]. destruct (not_in_app_cons _ _ _ _ FBC) as (FB & _ & FC).
  assert (ND' : NoDup ((A ++ K_font :: B) ++ k :: C)) by (rewrite <- app_assoc; exact ND). destruct (nodup_parts _ _ _ ND') as [KAB KC].
  destruct (not_in_app_cons _ _ _ _ KAB) as (KA & _ & KB).
  assert (Hk : exists d, dget inherited_props k = Some d) by (apply dget_some_keys; exact Ik).
  destruct I as (O & p & Kp & G). assert (I : inh_ok (snd st)) by (split; [exact O|exists p; split; [exact Kp|exact G]]).
  assert (pf : p K_font = true) by (specialize (G K_font); rewrite F in G; destruct (p K_font); [reflexivity|discriminate G]).
  assert (pk : p k = true) by (specialize (G k); rewrite H in G; destruct Hk as (d & Hk); rewrite Hk in G; destruct (p k); [reflexivity|discriminate G]).
  assert (Ek : dkeys (snd st) = filter p A ++ K_font :: filter p B ++ k :: filter p C).
  { rewrite Kp, Eq, filter_app. cbn [filter]. rewrite pf, filter_app. cbn [filter]. now rewrite pk. }
  rewrite Ek in Tk. rewrite take_keys_app in Tk. destruct (take_keys shlex (css_style e) (filter p A) st) as [s1|] eqn:T1; [|discriminate]. cbn [bind take_keys] in Tk.
  destruct (take_key shlex (css_style e) K_font s1) as [s2|] eqn:T2; [|discriminate]. cbn [bind] in Tk.
  rewrite take_keys_app in Tk. destruct (take_keys shlex (css_style e) (filter p B) s2) as [s3|] eqn:T3; [|discriminate]. cbn [bind take_keys] in Tk.
  destruct (take_key shlex (css_style e) k s3) as [s4|] eqn:T4; [|discriminate]. cbn [bind] in Tk.
  assert (I1 := take_keys_inh _ _ _ _ _ I T1). assert (I2 := take_key_inh _ _ _ _ _ I1 T2).
  assert (I3 := take_keys_inh _ _ _ _ _ I2 T3). assert (I4 := take_key_inh _ _ _ _ _ I3 T4).
  destruct (take_keys_away _ _ k _ (ten_away k _ T (nfk k A p KA) (nf A p FA)) _ _ I T1) as [A1 A2].
  destruct (take_keys_away _ _ K_font _ (plain_away _ _ font_plain (nf A p FA)) _ _ I T1) as [_ A3].
  destruct (take_keys_away _ _ k _ (ten_away k _ T (nfk k B p KB) (nf B p FB)) _ _ I2 T3) as [B1 B2].
  destruct (take_keys_away _ _ K_font _ (plain_away _ _ font_plain (nf B p FB)) _ _ I2 T3) as [_ B3].
  destruct (take_keys_away _ _ k _ (ten_away k _ T (nfk k C p KC) (nf C p FC)) _ _ I4 Tk) as [C1 C2].
  destruct (take_keys_away _ _ K_font _ (plain_away _ _ font_plain (nf C p FC)) _ _ I4 Tk) as [_ C3].
  assert (D3 : dget (snd s4) K_font = dget (snd s3) K_font).
  { apply (take_key_other shlex (css_style e) k K_font s3 s4 I3 Nf (fun X => match Nf X with end)); [intros _; absent|exact T4]. }
  rewrite take_key_wanted, (css_wanted_eq e K_font Eo ltac:(discriminate)) in T2.
  rewrite take_key_wanted, (css_wanted_eq e k Eo Nst) in T4.
  destruct (wanted K_font e) as [w|].
  - destruct (take_value_font _ _ _ _ _ T I1 T2) as (o & P & V1 & V2 & V3). exists o. split; [exact P|].
    assert (X : dget (snd s3) k = None) by (rewrite B2; exact V2).
    assert (Y : dget (snd st') K_font = None) by (rewrite Si, C3, D3, B3; exact V3).
    destruct (wanted k e) as [v|].
    + destruct (ten_self _ _ _ _ _ T I3 T4) as (Hf & x & Hx & W1 & W2). split; [rewrite Si, C2; exact W2|]. split; [exact Y|].
      split; [intros Q; apply (Hf Q); exact X|]. exists x. split; [exact Hx|]. now rewrite Ss, C1.
    + injection T4 as <-. split; [rewrite Si, C2; exact X|]. split; [exact Y|]. rewrite Ss, C1, B1, V1, A1, S. reflexivity.
  - injection T2 as <-. destruct (wanted k e) as [v|].
    + destruct (ten_self _ _ _ _ _ T I3 T4) as (Hf & x & Hx & W1 & W2). exists x. split; [exact Hx|]. split; [now rewrite Ss, C1|now rewrite Si, C2].
    + injection T4 as <-. split; [split; [now rewrite Ss, C1, B1, A1|now rewrite Si, C2, B2, A2]|]. now rewrite Si, C3, B3, A3.
Qed.

(** ** Values once found stay *)
Lemma fill_keeps other : forall st k v, dget (fst st) k = Some v -> dget (fst (fold_left font_fill other st)) k = Some v.
Proof.
  induction other as [|[a b] o IH]; intros st k v E; [exact E|]. cbn [fold_left]. apply IH. unfold font_fill. cbn [fst snd].
  unfold dhas. destruct (dget (fst st) a) as [w|] eqn:G; [exact E|]. assert (N : a <> k) by (intros ->; congruence).
  destruct b as [t|l]; [|cbn [fst]; now rewrite dset_other]. destruct (text_eqb a K_fv); [|cbn [fst]; now rewrite dset_other].
  unfold update_font_variant. cbn [fst]. rewrite fill_get, dset_other by exact N. now rewrite E.
Qed.
Lemma take_value_keeps shlex x w k v st st' : inh_ok (snd st) -> x <> k -> take_value shlex x w st = Ok st' ->
  (dget (fst st) k = Some v -> dget (fst st') k = Some v) /\ (dget (snd st) k = None -> dget (snd st') k = None).
Proof.
  intros (O & _) N. unfold take_value. destruct (text_eqb x K_font).
  - destruct (parse_font shlex w) as [o|]; [|discriminate]. intros [= <-]. unfold update_font. cbn [fst snd]. split.
    + intros E. apply fill_keeps. cbn [fst]. now rewrite dset_other.
    + intros E. destruct (font_fill_inh o (dset (fst st) x (ST w), snd st) O) as (O' & p & _ & _ & G). rewrite pops_get by exact O'. rewrite G. cbn [snd]. rewrite E.
      destruct (mem k font_keys), (p k); reflexivity.
  - destruct (text_eqb x K_fam).
    + destruct (parse_font_family shlex w) as [f|]; [|discriminate]. cbn [bind]. destruct (dhas (snd st) x); [|discriminate]. intros [= <-]. cbn [fst snd].
      rewrite dset_other, ddel_other by assumption. auto.
    + destruct (text_eqb x K_fv).
      * intros [= <-]. unfold update_font_variant. cbn [fst snd]. split.
        -- intros E. rewrite fill_get, dset_other by exact N. now rewrite E.
        -- intros E. rewrite pops_get by exact O. rewrite E. destruct (mem k variant_keys); reflexivity.
      * destruct (text_eqb x (lit "marker")); [discriminate|]. intros [= <-]. cbn [fst snd]. rewrite dset_other, ddel_other by assumption. auto.
Qed.
Lemma take_keys_keeps shlex css k v ks : ~ In k ks -> forall st st', inh_ok (snd st) -> take_keys shlex css ks st = Ok st' ->
  (dget (fst st) k = Some v -> dget (fst st') k = Some v) /\ (dget (snd st) k = None -> dget (snd st') k = None).
Proof.
  induction ks as [|x ks IH]; intros Nk st st' I; cbn [take_keys]; [intros [= <-]; auto|].
  destruct (take_key shlex css x st) as [s|] eqn:E; [|discriminate]. cbn [bind]. intros T.
  assert (I' := take_key_inh _ _ _ _ _ I E). destruct (IH (fun J => Nk (or_intror J)) s st' I' T) as [A B].
  rewrite take_key_wanted in E. destruct (css_wanted css x) as [w|].
  - assert (N : x <> k) by (intros ->; apply Nk; now left). destruct (take_value_keeps shlex x w k v st s I N E) as [C D]. auto.
  - injection E as <-. auto.
Qed.
Lemma shut_keeps shlex k v e : In k (dkeys inherited_props) -> forall st st', inh_ok (snd st) -> shut k (Some v) st -> element_step shlex e st = Ok st' -> shut k (Some v) st'.
Proof.
  intros Ik st st' I [S H] E. destruct (disjoint_props k Ik) as (_ & Nd & _). destruct (element_split _ _ _ _ E) as (s & T & Si & Ss & _). specialize (Ss k Nd).
  assert (Nk : ~ In k (dkeys (snd st))) by (rewrite inh_in by exact I; rewrite H; intros X; now apply X).
  destruct (take_keys_keeps shlex _ k v _ Nk _ _ I T) as [A B]. split; [rewrite Ss; auto|rewrite Si; auto].
Qed.
Definition shut_font (k : text) (v : option sval) (st : state) : Prop := shut k v st /\ (v <> None \/ dget (snd st) K_font = None).
Lemma font_shut_step shlex k v e : In k ten -> forall st st', inh_ok (snd st) -> shut_font k v st -> element_step shlex e st = Ok st' -> shut_font k v st'.
Proof.
  intros T st st' I [S N] E. destruct (ten_inherited k T) as (Ik & Nf & Ns). destruct v as [v|].
  - split; [exact (shut_keeps shlex k v e Ik st st' I S E)|left; discriminate].
  - destruct N as [N|N]; [congruence|]. destruct S as [S H]. destruct (disjoint_props k Ik) as (_ & Nd & _).
    destruct (element_split _ _ _ _ E) as (s & Tk & Si & Ss & _). specialize (Ss k Nd).
    assert (Nk : ~ In k (dkeys (snd st))) by (rewrite inh_in by exact I; rewrite H; intros X; now apply X).
    assert (Nff : ~ In K_font (dkeys (snd st))) by (rewrite inh_in by exact I; rewrite N; intros X; now apply X).
    destruct (take_keys_away _ _ k _ (ten_away k _ T Nk Nff) _ _ I Tk) as [A B].
    destruct (take_keys_away _ _ K_font _ (plain_away _ _ font_plain Nff) _ _ I Tk) as [_ B'].
    split; [split; [rewrite Ss, A; exact S|rewrite Si, B; exact H]|right; rewrite Si, B'; exact N].
Qed.
Lemma font_main_k shlex self anc s k : Forall el_ok (self :: anc) -> In k ten -> k <> K_fam -> get_inherited_style shlex self anc = Ok s ->
  dget s k = match nearest (longhand_at shlex k) (self :: anc) with Some v => v | None => match dget inherited_props k with Some d => d | None => None end end.
Proof.
  intros Eo T Nfam. unfold get_inherited_style. destruct (walk shlex (self :: anc) (own_props (e_attr self), inherited_props)) as [st|] eqn:W; [|discriminate]. cbn [bind]. intros [= <-].
  rewrite Forall_forall in Eo. destruct (ten_inherited k T) as (Ik & _).
  destruct (walk_nearest shlex (longhand_at shlex k) (open_font k) (shut_font k) (self :: anc)) with (st := (own_props (e_attr self), inherited_props)) (st' := st) as [I H].
  - intros e Ie st1 st2 I Q E. assert (H := font_open_step shlex k e T (Eo e Ie) st1 st2 I Q E). unfold longhand_at, font_of.
    assert (HV : forall v x, holds_value shlex k v x -> x = ST v) by (intros v x; unfold holds_value; destruct (text_eqb_spec k K_fam); [contradiction|auto]).
    destruct (wanted K_font e) as [w|].
    + destruct H as (o & -> & H1 & H2 & H3). destruct (wanted k e) as [v|]; cbn [option_map or_else].
      * destruct H3 as (_ & x & Hx & H3). rewrite (HV _ _ Hx) in H3. split; [now split|left; discriminate].
      * split; [now split|now right].
    + destruct (wanted k e) as [v|]; cbn [option_map]; [|exact H]. destruct H as (x & Hx & H1 & H2). rewrite (HV _ _ Hx) in H1. split; [now split|left; discriminate].
  - intros v e st1 st2 _ I Q E. exact (font_shut_step shlex k v e T st1 st2 I Q E).
  - exact inh_start.
  - split; [split; [now apply start_none|reflexivity]|reflexivity].
  - exact W.
  - rewrite finish_get by (exact (proj1 I) || exact Nfam). destruct (nearest (longhand_at shlex k) (self :: anc)) as [v|].
    + destruct H as [[S H] _]. now rewrite H, S.
    + destruct H as [[S H] _]. rewrite H, S. destruct (dget inherited_props k) as [[d|]|]; reflexivity.
Qed.
Lemma family_main shlex self anc s : Forall el_ok (self :: anc) -> get_inherited_style shlex self anc = Ok s ->
  dget s K_fam = or_else (match nearest (family_at shlex) (self :: anc) with Some v => v | None => None end) (Some (SL [lit "sans-serif"])) /\
  forall e, nearest (family_at shlex) (self :: anc) = None -> In e (self :: anc) -> wanted K_font e = None /\ wanted K_fam e = None.
Proof.
  intros Eo. unfold get_inherited_style. destruct (walk shlex (self :: anc) (own_props (e_attr self), inherited_props)) as [st|] eqn:W; [|discriminate]. cbn [bind]. intros [= <-].
  rewrite Forall_forall in Eo. assert (T : In K_fam ten) by inten.
  assert (St : forall e, In e (self :: anc) -> forall st1 st2, inh_ok (snd st1) -> open_font K_fam st1 -> element_step shlex e st1 = Ok st2 ->
    match family_at shlex e with Some v => shut_font K_fam v st2 | None => open_font K_fam st2 /\ wanted K_font e = None /\ wanted K_fam e = None end).
  { intros e Ie st1 st2 I Q E. assert (H := font_open_step shlex K_fam e T (Eo e Ie) st1 st2 I Q E). unfold family_at, font_of.
    destruct (wanted K_font e) as [w|].
    + destruct H as (o & -> & H1 & H2 & H3). destruct (wanted K_fam e) as [v|]; [destruct H3 as [H3 _]; now destruct H3|].
      split; [now split|now right].
    + destruct (wanted K_fam e) as [v|]; [|auto]. destruct H as (x & (f & P & ->) & H1 & H2). rewrite P. split; [now split|left; discriminate]. }
  destruct (walk_nearest shlex (family_at shlex) (open_font K_fam) (shut_font K_fam) (self :: anc)) with (st := (own_props (e_attr self), inherited_props)) (st' := st) as [I H].
  - intros e Ie st1 st2 I Q E. assert (H := St e Ie st1 st2 I Q E). destruct (family_at shlex e); [exact H|exact (proj1 H)].
  - intros v e st1 st2 _ I Q E. exact (font_shut_step shlex _ v e T st1 st2 I Q E).
  - exact inh_start.
  - split; [split; [apply start_none; inten|reflexivity]|reflexivity].
  - exact W.
  - split.
    + rewrite finish_family by exact (proj1 I). destruct (nearest (family_at shlex) (self :: anc)) as [v|]; destruct H as [[S H] _]; rewrite H, S; [reflexivity|].
      assert (Z : dget inherited_props K_fam = Some None) by reflexivity. now rewrite Z.
    + assert (G : forall c, incl c (self :: anc) -> forall st st', inh_ok (snd st) -> open_font K_fam st -> walk shlex c st = Ok st' -> forall e, nearest (family_at shlex) c = None -> In e c -> wanted K_font e = None /\ wanted K_fam e = None).
      { induction c as [|x c IH]; intros L s0 s' I0 Q; cbn [walk nearest]; [intros _ ? _ []|]. destruct (element_step shlex x s0) as [s1|] eqn:E; [|discriminate]. cbn [bind]. intros W' e.
        assert (H' := St x (L x (or_introl eq_refl)) s0 s1 I0 Q E). destruct (family_at shlex x); cbn [or_else]; [discriminate|]. intros Nn [<-|J]; [tauto|].
        apply (IH (fun y Hy => L y (or_intror Hy)) s1 s' (element_inh _ _ _ _ I0 E) (proj1 H') W' e Nn J). }
      intros e. apply (G (self :: anc) (incl_refl _) (own_props (e_attr self), inherited_props) st inh_start); [split; [split; [apply start_none; inten|reflexivity]|reflexivity]|exact W].
Qed.

(** ** font-variant longhands *)
Lemma font_variant_text items t : dget (parse_font_items items) K_fv = Some t -> exists v, t = ST v.
Proof.
  unfold parse_font_items. destruct (rev items) as [|l r]; [discriminate|]. destruct (existsb _ items); [discriminate|].
  destruct (take_family r false [l]) as [fam rest]. destruct rest as [|size before]; [discriminate|].
  assert (W : forall ws d, (exists v, dget d K_fv = Some (ST v)) -> exists v, dget (font_words ws d) K_fv = Some (ST v)).
  { clear. induction ws as [|w ws IH]; intros d D; [exact D|]. cbn [font_words]. destruct (text_eqb w normal); [now apply IH|].
    assert (N : forall k x, k <> K_fv -> exists v, dget (dset d k x) K_fv = Some (ST v)) by (intros k x Nk; rewrite dset_other by exact Nk; exact D).
    destruct (mem w style_words); [apply IH, N; discriminate|].
    destruct (text_eqb w (lit "small-caps")); [apply IH; eexists; apply dset_here|].
    destruct (mem w weight_words); [apply IH, N; discriminate|]. destruct (mem w stretch_words); [apply IH, N; discriminate|exact D]. }
  intros E. destruct (W (rev before) (match split_on 47 size with
     | a :: b :: _ => dset (dset (dset font_defaults (lit "font-family") (SL (family_names fam))) (lit "font-size") (ST a)) (lit "line-height") (ST b)
     | _ => dset (dset font_defaults (lit "font-family") (SL (family_names fam))) (lit "font-size") (ST size) end)) as (v & V).
  - destruct (split_on 47 size) as [|a [|b l']]; exists normal; rewrite !dset_other by discriminate; reflexivity.
  - rewrite V in E. injection E as <-. eauto.
Qed.
Lemma font_fill_skip o : forall st k, In k six -> (forall p, In p o -> fst p <> K_fv /\ ~ In (fst p) six) ->
  dget (fst (fold_left font_fill o st)) k = dget (fst st) k /\ snd (fold_left font_fill o st) = snd st /\
  dget (fst (fold_left font_fill o st)) K_fv = dget (fst st) K_fv.
Proof.
  induction o as [|[a b] o IH]; intros st k S H; [auto|]. cbn [fold_left]. destruct (H (a, b) (or_introl eq_refl)) as [N1 N2]. cbn [fst] in N1, N2.
  destruct (IH (font_fill st (a, b)) k S (fun p J => H p (or_intror J))) as (A & B & C). rewrite A, B, C. unfold font_fill. cbn [fst snd].
  destruct (dhas (fst st) a); [auto|]. assert (Nk : a <> k) by (intros ->; contradiction).
  destruct b as [v|l]; [|cbn [fst snd]; rewrite !dset_other by assumption; auto].
  destruct (text_eqb_spec a K_fv); [contradiction|]. cbn [fst snd]. rewrite !dset_other by assumption. auto.
Qed.
Lemma take_value_font_variant shlex v k o st st' : In k six -> inh_ok (snd st) -> parse_font shlex v = Ok o -> dget o K_fv <> None ->
  dget (fst st) k = None -> dget (fst st) K_fv = None -> take_value shlex K_font v st = Ok st' ->
  exists t, dget o K_fv = Some (ST t) /\ dget (fst st') k = dget (parse_font_variant t) k /\ dget (snd st') k = None.
Proof.
  intros S (O & _) P Hv Sk Sv. unfold take_value. destruct (text_eqb_spec K_font K_font); [|contradiction]. rewrite P. cbn [bind]. intros [= <-].
  assert (Ok_ : exists t, dget o K_fv = Some (ST t)) by (unfold parse_font in P; destruct (shlex v) as [it|]; [|discriminate]; injection P as <-;
    destruct (dget (parse_font_items it) K_fv) as [x|] eqn:G; [|congruence]; destruct (font_variant_text it x G) as (t & ->); eauto).
  destruct Ok_ as (t & Gt). exists t. split; [exact Gt|].
  assert (Kt : dkeys o = ten).
  { unfold parse_font in P. destruct (shlex v) as [it|]; [|discriminate]. injection P as <-. destruct (font_items_keys it) as [K|K]; [|exact K].
    exfalso. apply Hv. apply dget_keys. rewrite K. intros []. }
  destruct (in_split _ _ (dget_in _ _ _ Gt)) as (o1 & o2 & Eo).
  assert (ND : NoDup (dkeys o)) by (rewrite Kt; repeat constructor; absent).
  assert (Hn : forall p, In p (o1 ++ o2) -> fst p <> K_fv /\ ~ In (fst p) six).
  { intros q J. unfold dkeys in ND, Kt. rewrite Eo, map_app in ND. cbn [map fst] in ND. apply NoDup_remove_2 in ND. rewrite <- map_app in ND. split.
    - intros X. apply ND. rewrite <- X. now apply in_map.
    - assert (Jt : In (fst q) ten). { rewrite <- Kt, Eo. apply in_map. apply in_app_or in J. apply in_or_app. destruct J; [now left|right; now right]. }
      apply ten_inherited in Jt. tauto. }
  assert (Nfv : K_font <> k) by (intros <-; revert S; absent).
  unfold update_font. rewrite Eo, fold_left_app. cbn [fold_left].
  destruct (font_fill_skip o1 (dset (fst st) K_font (ST v), snd st) k S) as (A1 & A2 & A3); [intros q J; apply Hn, in_or_app; now left|].
  remember (fold_left font_fill o1 (dset (fst st) K_font (ST v), snd st)) as z eqn:Z. clear Z. cbn [fst snd] in A1, A2, A3.
  rewrite dset_other in A1 by exact Nfv. rewrite dset_other in A3 by discriminate. rewrite Sk in A1. rewrite Sv in A3.
  assert (F : font_fill z (K_fv, ST t) = update_font_variant t (dset (fst z) K_fv (ST t), snd z)).
  { unfold font_fill. cbn [fst snd]. unfold dhas. now rewrite A3. }
  rewrite F. destruct (font_fill_skip o2 (update_font_variant t (dset (fst z) K_fv (ST t), snd z)) k S) as (B1 & B2 & _); [intros q J; apply Hn, in_or_app; now right|].
  cbn [fst snd]. rewrite B1, B2. unfold update_font_variant. cbn [fst snd]. destruct (six_inherited k S) as (_ & _ & N2 & _). split.
  - rewrite fill_get, dset_other by congruence. now rewrite A1.
  - rewrite pops_get; [|apply pops_ok; rewrite A2; exact O]. rewrite pops_get by (rewrite A2; exact O).
    assert (M : mem k variant_keys = true).
    { apply mem_in. destruct S as [<-|[<-|[<-|[<-|[<-|[<-|[]]]]]]]; inten. }
    rewrite M. destruct (mem k font_keys); reflexivity.
Qed.
Lemma take_value_variant shlex v k st st' : In k six -> inh_ok (snd st) -> take_value shlex K_fv v st = Ok st' ->
  dget (fst st') k = or_else (dget (fst st) k) (dget (parse_font_variant v) k) /\ dget (snd st') k = None.
Proof.
  intros S (O & _) E. assert (U : take_value shlex K_fv v st = Ok (update_font_variant v (dset (fst st) K_fv (ST v), snd st))) by reflexivity.
  rewrite U in E. injection E as <-. destruct (six_inherited k S) as (_ & _ & N2 & _). unfold update_font_variant. cbn [fst snd]. split.
  - now rewrite fill_get, dset_other by congruence.
  - rewrite pops_get by exact O. assert (M : mem k variant_keys = true) by (apply mem_in; destruct S as [<-|[<-|[<-|[<-|[<-|[<-|[]]]]]]]; inten). now rewrite M.
Qed.
Lemma six_away k l : In k six -> ~ In k l -> ~ In K_font l -> ~ In K_fv l -> away k l.
Proof. intros T N F V x I. split; [congruence|]. split; intros ->; contradiction. Qed.
Definition open_var (k : text) (st : state) : Prop := open_plain k st /\ open_font K_fv st.
Lemma var_open_step shlex k e : In k six -> el_ok e -> ~ system_font_at shlex e -> forall st st', inh_ok (snd st) -> open_var k st -> element_step shlex e st = Ok st' ->
  match variant_at shlex k e with Some x => shut k (Some x) st' | None => open_var k st' end.
Proof.
  intros T Eo Nsys st st' I [[S H] OF] E. assert (OF' := font_open_step shlex K_fv e ltac:(inten) Eo st st' I OF E).
  destruct OF as [[Sv Hv] F].
  destruct (six_inherited k T) as (Ik & Nf & Nv & Nfam & Nt & Nm). destruct (disjoint_props k Ik) as (_ & Nd & Nst).
  destruct (element_split _ _ _ _ E) as (s & Tk & Si & Ss & _). specialize (Ss k Nd).
  destruct (order_variant k T) as (A & B & C & D & Eq). assert (ND := all_nodup). rewrite Eq in ND.
  destruct (nodup_parts _ _ _ ND) as [FA FR]. destruct (not_in_app_cons _ _ _ _ FR) as (FB & _ & FCD). destruct (not_in_app_cons _ _ _ _ FCD) as (FC & _ & FD).
  assert (ND2 : NoDup ((A ++ K_font :: B) ++ K_fv :: C ++ k :: D)) by (rewrite <- app_assoc; exact ND).
  destruct (nodup_parts _ _ _ ND2) as [VAB VCD]. destruct (not_in_app_cons _ _ _ _ VAB) as (VA & _ & VB). destruct (not_in_app_cons _ _ _ _ VCD) as (VC & _ & VD).
  assert (ND3 : NoDup ((A ++ K_font :: B ++ K_fv :: C) ++ k :: D)).
  { rewrite <- app_assoc. cbn [app]. rewrite <- app_assoc. cbn [app]. exact ND. }
  destruct (nodup_parts _ _ _ ND3) as [KABC KD]. destruct (not_in_app_cons _ _ _ _ KABC) as (KA & _ & KBC). destruct (not_in_app_cons _ _ _ _ KBC) as (KB & _ & KC).
  assert (Hk : exists d, dget inherited_props k = Some d) by (apply dget_some_keys; exact Ik).
  destruct I as (O & p & Kp & G). assert (I : inh_ok (snd st)) by (split; [exact O|exists p; split; [exact Kp|exact G]]).
  assert (pf : p K_font = true) by (specialize (G K_font); rewrite F in G; destruct (p K_font); [reflexivity|discriminate G]).
  assert (pv : p K_fv = true).
  { specialize (G K_fv). rewrite Hv in G. assert (Z : exists d, dget inherited_props K_fv = Some d) by (eexists; reflexivity). destruct Z as (d & Z). rewrite Z in G. destruct (p K_fv); [reflexivity|discriminate G]. }
  assert (pk : p k = true) by (specialize (G k); rewrite H in G; destruct Hk as (d & Hk); rewrite Hk in G; destruct (p k); [reflexivity|discriminate G]).
  assert (Ek : dkeys (snd st) = filter p A ++ K_font :: filter p B ++ K_fv :: filter p C ++ k :: filter p D).
  { rewrite Kp, Eq, filter_app. cbn [filter]. rewrite pf, filter_app. cbn [filter]. rewrite pv, filter_app. cbn [filter]. now rewrite pk. }
  rewrite Ek in Tk. rewrite take_keys_app in Tk. destruct (take_keys shlex (css_style e) (filter p A) st) as [s1|] eqn:T1; [|discriminate]. cbn [bind take_keys] in Tk.
  destruct (take_key shlex (css_style e) K_font s1) as [s2|] eqn:T2; [|discriminate]. cbn [bind] in Tk.
  rewrite take_keys_app in Tk. destruct (take_keys shlex (css_style e) (filter p B) s2) as [s3|] eqn:T3; [|discriminate]. cbn [bind take_keys] in Tk.
  destruct (take_key shlex (css_style e) K_fv s3) as [s4|] eqn:T4; [|discriminate]. cbn [bind] in Tk.
  rewrite take_keys_app in Tk. destruct (take_keys shlex (css_style e) (filter p C) s4) as [s5|] eqn:T5; [|discriminate]. cbn [bind take_keys] in Tk.
  destruct (take_key shlex (css_style e) k s5) as [s6|] eqn:T6; [|discriminate]. cbn [bind] in Tk.
  assert (I1 := take_keys_inh _ _ _ _ _ I T1). assert (I2 := take_key_inh _ _ _ _ _ I1 T2).
  assert (I3 := take_keys_inh _ _ _ _ _ I2 T3). assert (I4 := take_key_inh _ _ _ _ _ I3 T4).
  assert (I5 := take_keys_inh _ _ _ _ _ I4 T5). assert (I6 := take_key_inh _ _ _ _ _ I5 T6).
  destruct (take_keys_away _ _ k _ (six_away k _ T (nfk k A p KA) (nf A p FA) (nfk _ A p VA)) _ _ I T1) as [A1 A2].
  destruct (take_keys_away _ _ K_fv _ (ten_away K_fv _ ltac:(inten) (nfk _ A p VA) (nf A p FA)) _ _ I T1) as [A3 _].
  destruct (take_keys_away _ _ k _ (six_away k _ T (nfk k B p KB) (nf B p FB) (nfk _ B p VB)) _ _ I2 T3) as [B1 B2].
  destruct (take_keys_away _ _ k _ (six_away k _ T (nfk k C p KC) (nf C p FC) (nfk _ C p VC)) _ _ I4 T5) as [C1 C2].
  destruct (take_keys_away _ _ k _ (six_away k _ T (nfk k D p KD) (nf D p FD) (nfk _ D p VD)) _ _ I6 Tk) as [D1 D2].
  rewrite take_key_wanted, (css_wanted_eq e K_font Eo ltac:(discriminate)) in T2.
  rewrite take_key_wanted, (css_wanted_eq e K_fv Eo ltac:(discriminate)) in T4.
  rewrite take_key_wanted, (css_wanted_eq e k Eo Nst) in T6.
  assert (Self : forall v, take_value shlex k v s5 = Ok s6 -> shut k (Some (variant_value k v)) st').
  { intros v X. destruct (take_value_self _ _ _ _ _ I5 Nf Nfam Nv X) as (_ & V1 & V2). split; [rewrite Ss, D1; exact V1|rewrite Si, D2; exact V2]. }
  unfold variant_at. destruct (wanted k e) as [v|] eqn:Wk; cbn [option_map or_else]; [now apply Self|]. injection T6 as <-.
  unfold variant_text, font_of. destruct (wanted K_font e) as [w|] eqn:Wf.
  - assert (P : exists o, parse_font shlex w = Ok o).
    { unfold take_value in T2. destruct (text_eqb_spec K_font K_font); [|contradiction]. destruct (parse_font shlex w); [eauto|discriminate]. }
    destruct P as (o & P). rewrite P.
    assert (Hn : dget o K_fv <> None). { intros X. apply Nsys. exists o. unfold font_of. rewrite Wf, P. split; [reflexivity|exact X]. }
    destruct (take_value_font_variant shlex w k o s1 s2 T I1 P Hn) as (t & Gt & V1 & V2); [rewrite A1; exact S|rewrite A3; exact Sv|exact T2|].
    rewrite Gt. destruct (variant_dict_some t k T) as (x & Gx). rewrite Gx in *.
    assert (X : dget (fst s4) k = Some x /\ dget (snd s4) k = None).
    { destruct (wanted K_fv e) as [w'|].
      - destruct (take_value_variant _ _ _ _ _ T I3 T4) as [U1 U2]. split; [rewrite U1, B1, V1; reflexivity|exact U2].
      - injection T4 as <-. split; [rewrite B1; exact V1|rewrite B2; exact V2]. }
    destruct X as [X1 X2]. split; [rewrite Ss, D1, C1; exact X1|rewrite Si, D2, C2; exact X2].
  - injection T2 as <-. destruct (wanted K_fv e) as [w'|].
    + destruct (take_value_variant _ _ _ _ _ T I3 T4) as [U1 U2]. rewrite B1, A1, S in U1. cbn [or_else] in U1.
      destruct (variant_dict_some w' k T) as (x & Gx). rewrite Gx in *. split; [rewrite Ss, D1, C1; exact U1|rewrite Si, D2, C2; exact U2].
    + injection T4 as <-. split; [|exact OF']. split; [rewrite Ss, D1, C1, B1, A1; exact S|rewrite Si, D2, C2, B2, A2; exact H].
Qed.
Lemma var_main shlex self anc s k : Forall el_ok (self :: anc) -> In k six -> (forall e, In e (self :: anc) -> ~ system_font_at shlex e) -> get_inherited_style shlex self anc = Ok s ->
  dget s k = match nearest (variant_at shlex k) (self :: anc) with Some v => Some v | None => match dget inherited_props k with Some d => d | None => None end end.
Proof.
  intros Eo T Ns. unfold get_inherited_style. destruct (walk shlex (self :: anc) (own_props (e_attr self), inherited_props)) as [st|] eqn:W; [|discriminate]. cbn [bind]. intros [= <-].
  rewrite Forall_forall in Eo. destruct (six_inherited k T) as (Ik & _ & _ & Nfam & _).
  destruct (walk_nearest shlex (variant_at shlex k) (open_var k) (fun v st => shut k (Some v) st) (self :: anc)) with (st := (own_props (e_attr self), inherited_props)) (st' := st) as [I H].
  - intros e Ie st1 st2 I Q E. exact (var_open_step shlex k e T (Eo e Ie) (Ns e Ie) st1 st2 I Q E).
  - intros v e st1 st2 _ I Q E. exact (shut_keeps shlex k v e Ik st1 st2 I Q E).
  - exact inh_start.
  - split; [split; [now apply start_none|reflexivity]|]. split; [split; [apply start_none; inten|reflexivity]|reflexivity].
  - exact W.
  - rewrite finish_get by (exact (proj1 I) || exact Nfam). destruct (nearest (variant_at shlex k) (self :: anc)) as [v|].
    + destruct H as [S H]. now rewrite H, S.
    + destruct H as [[S H] _]. rewrite H, S. destruct (dget inherited_props k) as [[d|]|]; reflexivity.
Qed.

(** ** When the walk succeeds *)
Definition readable (shlex : text -> result (list text)) (e : el) : Prop :=
  wanted (lit "marker") e = None /\ (wanted K_font e = None \/ wanted K_fam e = None) /\
  (forall v, wanted K_font e = Some v -> is_ok (shlex v) = true) /\
  (forall v, wanted K_fam e = Some v -> is_ok (parse_font_family shlex v) = true).
Lemma take_value_total shlex k v st : k <> lit "marker" -> (k = K_font -> is_ok (shlex v) = true) ->
  (k = K_fam -> is_ok (parse_font_family shlex v) = true /\ dget (snd st) K_fam <> None) -> exists st', take_value shlex k v st = Ok st'.
Proof.
  intros Nm Hf Hm. unfold take_value. destruct (text_eqb_spec k K_font) as [E|_].
  - specialize (Hf E). unfold parse_font. destruct (shlex v); [cbn [bind]; eauto|discriminate].
  - destruct (text_eqb_spec k K_fam) as [->|_].
    + destruct (Hm eq_refl) as [A B]. destruct (parse_font_family shlex v); [|discriminate]. cbn [bind]. rewrite dhas_dget. destruct (dget (snd st) K_fam); [cbn; eauto|congruence].
    + destruct (text_eqb k K_fv); [eauto|]. destruct (text_eqb_spec k (lit "marker")); [contradiction|eauto].
Qed.
Lemma take_keys_total shlex e ks : el_ok e -> readable shlex e -> NoDup ks -> incl ks (dkeys inherited_props) -> forall st, inh_ok (snd st) ->
  (In K_fam ks -> wanted K_fam e <> None -> dget (snd st) K_fam <> None) -> exists st', take_keys shlex (css_style e) ks st = Ok st'.
Proof.
  intros Eo (Rm & Rx & Rf & Rv). induction ks as [|k ks IH]; intros ND L st I Hf; [cbn; eauto|]. inversion ND as [|? ? Nk ND']; subst. cbn [take_keys].
  destruct (disjoint_props k (L k (or_introl eq_refl))) as (_ & _ & Nst).
  assert (X : exists s, take_key shlex (css_style e) k st = Ok s).
  { rewrite take_key_wanted, (css_wanted_eq e k Eo Nst). destruct (wanted k e) as [v|] eqn:Wk; [|eauto]. apply take_value_total.
    - intros ->. congruence.
    - intros ->. exact (Rf v Wk).
    - intros ->. split; [exact (Rv v Wk)|]. apply Hf; [now left|congruence]. }
  destruct X as (s & X). rewrite X. cbn [bind]. apply IH; [exact ND'|intros x Hx; apply L; now right|exact (take_key_inh _ _ _ _ _ I X)|].
  intros J Wm. assert (N : k <> K_fam) by (intros ->; contradiction).
  assert (Sm : dget (snd s) K_fam = dget (snd st) K_fam).
  { destruct (text_eqb_spec k K_font) as [->|Nf].
    - rewrite take_key_wanted, (css_wanted_eq e K_font Eo Nst) in X. destruct Rx as [Rx|Rx]; [|congruence]. rewrite Rx in X. now injection X as <-.
    - apply (take_key_other shlex (css_style e) k K_fam st s I N (fun Z => match Nf Z with end)); [intros _; absent|exact X]. }
  rewrite Sm. apply Hf; [now right|exact Wm].
Qed.
Lemma walk_total shlex c : Forall el_ok c -> Forall (readable shlex) c -> forall st, inh_ok (snd st) -> exists st', walk shlex c st = Ok st'.
Proof.
  induction c as [|e c IH]; intros F R st I; [cbn; eauto|]. inversion F as [|? ? Fe Fc]; inversion R as [|? ? Re Rc]; subst. cbn [walk].
  assert (X : exists s, take_keys shlex (css_style e) (dkeys (snd st)) st = Ok s).
  { apply take_keys_total; [exact Fe|exact Re|exact (inh_nodup _ I)| |exact I|].
    - destruct I as (_ & p & -> & _). intros x Hx. now apply filter_In in Hx.
    - intros J _. now apply (inh_in _ _ I). }
  destruct X as (s & X). assert (Y : exists s', element_step shlex e st = Ok s') by (unfold element_step; rewrite X; cbn [bind]; eauto).
  destruct Y as (s' & Y). rewrite Y. cbn [bind]. exact (IH Fc Rc s' (element_inh _ _ _ _ I Y)).
Qed.

(** ** get_value *)
Definition given (attr : dict text) (key : text) (default : option text) : option text := or_else (dget attr key) default.
Lemma get_value_spec key default chain : forall n r, get_value_at n chain key default = Ok r ->
  (fst r = None /\ snd r = 0%nat /\ forall x, In x chain -> given (snd x) key default = None \/ given (snd x) key default = Some (lit "inherit")) \/
  (exists pre name attr post w, chain = pre ++ (name, attr) :: post /\ snd r = (n + length pre)%nat /\
     (forall x, In x pre -> given (snd x) key default = None \/ given (snd x) key default = Some (lit "inherit")) /\
     given attr key default = Some w /\ w <> lit "inherit" /\
     fst r = Some (if text_eqb w (lit "auto") && mem key [lit "width"; lit "height"] then if text_eqb name (lit "svg") then lit "100%" else lit "0" else w)).
Proof.
  induction chain as [|[name attr] c IH]; intros n r; cbn [get_value_at].
  - intros [= <-]. left. repeat split. intros ? [].
  - assert (Step : given attr key default = None \/ given attr key default = Some (lit "inherit") -> get_value_at (S n) c key default = Ok r ->
      (fst r = None /\ snd r = 0%nat /\ forall x, In x ((name, attr) :: c) -> given (snd x) key default = None \/ given (snd x) key default = Some (lit "inherit")) \/
      (exists pre name0 attr0 post w, (name, attr) :: c = pre ++ (name0, attr0) :: post /\ snd r = (n + length pre)%nat /\
     (forall x, In x pre -> given (snd x) key default = None \/ given (snd x) key default = Some (lit "inherit")) /\
     given attr0 key default = Some w /\ w <> lit "inherit" /\
     fst r = Some (if text_eqb w (lit "auto") && mem key [lit "width"; lit "height"] then if text_eqb name0 (lit "svg") then lit "100%" else lit "0" else w))).
    { intros Gn E. destruct (IH _ _ E) as [(A & B & C)|(pre & nm & at_ & post & w & -> & B & C & D)].
      - left. split; [exact A|]. split; [exact B|]. intros x [<-|J]; [exact Gn|now apply C].
      - right. exists ((name, attr) :: pre), nm, at_, post, w. split; [reflexivity|]. split; [rewrite B; cbn [length]; lia|].
        split; [intros x [<-|J]; [exact Gn|now apply C]|exact D]. }
    unfold given in Step. change (match dget attr key with Some v => Some v | None => default end) with (or_else (dget attr key) default).
    destruct (or_else (dget attr key) default) as [v|] eqn:Gv; [|apply Step; now left].
    destruct (text_eqb_spec v (lit "inherit")) as [->|Ni].
    + intros E. apply Step; [now right|exact E].
    + intros E. right. exists [], name, attr, c, v. split; [reflexivity|]. rewrite Nat.add_0_r.
      assert (X : snd r = n /\ fst r = Some (if text_eqb v (lit "auto") && mem key [lit "width"; lit "height"] then if text_eqb name (lit "svg") then lit "100%" else lit "0" else v)).
      { destruct (text_eqb v (lit "auto") && mem key [lit "width"; lit "height"]); [|injection E as <-; auto].
        change svg with (lit "svg") in E. destruct (text_eqb name (lit "svg")); [injection E as <-; auto|].
        destruct (text_eqb name (lit "image")); [discriminate|injection E as <-; auto]. }
      destruct X as [X1 X2]. split; [exact X1|]. split; [intros ? []|]. auto.
Qed.
