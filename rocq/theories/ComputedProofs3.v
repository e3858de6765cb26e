(** Lemmas on computed style: the texts it starts from, and its values. *)
From Coq Require Import Lia Lqa Qpower.
From Verif Require Import PyBase PyText PySplit PyStrip PyDict NumScan FormatModel FormatSpec FontTextModel CascadeModel CascadeSpec CascadeProofs CascadeProofs2 CascadeProofs3 CascadeProps
  FeatModel LengthModel LengthSpec LengthProofs FontSizeModel FontSizeSpec FontSizeProofs GeomModel GeomSpec GeomProofs ComputedModel ComputedSpec ComputedProofs ComputedProofs2.
#[local] Open Scope Q_scope.

(** ** The entries of the result *)
Lemma geo_keys shlex k chain r (p : parts shlex k chain r) : exists n anc, chain = n :: anc /\ dkeys (p_geo p) = map lit (geometry_keys (g_name (s_geo n))).
Proof.
  assert (H := q_geo _ _ _ _ p). destruct chain as [|n anc]; [discriminate H|]. exists n, anc. split; [reflexivity|]. exact (keys_are _ _ _ H).
Qed.
Lemma parts_get shlex k chain r (p : parts shlex k chain r) key : dget r key =
  or_else (option_map CGeo (dget (p_geo p) key)) (or_else (dget
     [(lit "font-feature-settings", CFeat (p_feat p)); (lit "font-size", CNum (p_size p)); (lit "font-size-adjust", p_adjust p);
      (lit "font-synthesis", CList (synthesis (p_synth_t p))); (lit "font-weight", CInt (p_weight p)); (lit "line-height", CNum (p_line p));
      (lit "inline-size", CNum (p_inline p)); (lit "stroke-width", CNum (p_stroke p)); (lit "tab-size", CNum (p_tab p))] key) (option_map cval_of (dget (p_s p) key))).
Proof.
  destruct (geo_keys _ _ _ _ p) as (n & anc & _ & G). rewrite (q_r _ _ _ _ p) at 1.
  rewrite dget_dupdate.
  - rewrite dget_dupdate.
    + rewrite !map_get. reflexivity.
    + unfold dict_ok. cbn. repeat (constructor; [vm_compute; intuition discriminate|]). constructor.
  - unfold dict_ok. rewrite map_keys, G. apply geometry_nodup.
Qed.
Lemma nine_get shlex k chain r (p : parts shlex k chain r) key : In key nine -> dget r key = dget
     [(lit "font-feature-settings", CFeat (p_feat p)); (lit "font-size", CNum (p_size p)); (lit "font-size-adjust", p_adjust p);
      (lit "font-synthesis", CList (synthesis (p_synth_t p))); (lit "font-weight", CInt (p_weight p)); (lit "line-height", CNum (p_line p));
      (lit "inline-size", CNum (p_inline p)); (lit "stroke-width", CNum (p_stroke p)); (lit "tab-size", CNum (p_tab p))] key.
Proof.
  intros I. rewrite (parts_get _ _ _ _ p). assert (Z : dget (p_geo p) key = None).
  { apply dget_keys. destruct (geo_keys _ _ _ _ p) as (n & anc & _ & ->). intros J. exact (proj1 (geometry_fresh _ _ J) I). }
  rewrite Z. cbn [option_map or_else]. repeat destruct I as [<- |I]; try destruct I; reflexivity.
Qed.

(** ** The texts *)
Lemma said_is shlex chain s k init : chain_ok chain -> In (lit k, Some (lit init)) plain_props -> inherited_style shlex chain = Ok s -> style_at s (lit k) = Ok (said chain k init).
Proof.
  intros [Ne O] I E. destruct chain as [|n anc]; [congruence|]. cbn [inherited_style] in E.
  assert (O' : Forall el_ok (s_el n :: map s_el anc)) by (apply (proj2 (Forall_map s_el el_ok (n :: anc))); exact O).
  unfold style_at. rewrite (c36_plain shlex _ _ s _ _ O' I E). unfold said. cbn [map]. destruct (nearest _ _); reflexivity.
Qed.
Lemma font_said_is shlex chain s k init t : chain_ok chain -> In (lit k, lit init) font_props -> inherited_style shlex chain = Ok s ->
  (style_at s (lit k) = Ok t <-> font_said shlex chain k init = Some t).
Proof.
  intros [Ne O] I E. destruct chain as [|n anc]; [congruence|]. cbn [inherited_style] in E.
  assert (O' : Forall el_ok (s_el n :: map s_el anc)) by (apply (proj2 (Forall_map s_el el_ok (n :: anc))); exact O).
  unfold style_at. rewrite (c36_font shlex _ _ s _ _ O' I E). unfold font_said. cbn [map]. destruct (nearest _ _) as [[[x|x]|]|]; split; congruence.
Qed.
Lemma inline_said shlex n anc s : inherited_style shlex (n :: anc) = Ok s ->
  style_at s (lit "inline-size") = Ok (match dget (s_attr n) (lit "inline-size") with Some t => t | None => lit "0" end).
Proof.
  intros E. unfold style_at. rewrite (c36_not_inherited shlex (s_el n) (map s_el anc) s (lit "inline-size") (lit "0")); [reflexivity| |exact E].
  - assert (H : existsb (fun p => text_eqb (fst p) (lit "inline-size") && text_eqb (snd p) (lit "0")) standing = true) by (vm_compute; reflexivity).
    apply existsb_exists in H. destruct H as ([a b] & J & H). cbn [fst snd] in H. apply andb_prop in H. destruct H as [A B].
    destruct (text_eqb_spec a (lit "inline-size")) as [-> |]; [|discriminate]. destruct (text_eqb_spec b (lit "0")) as [-> |]; [|discriminate]. exact J.
Qed.
Ltac inside := vm_compute; repeat (first [left; reflexivity|right]).
Lemma in_size : In (lit "font-size", lit "medium") font_props. Proof. inside. Qed.
Lemma in_adjust : In (lit "font-size-adjust", lit "none") font_props. Proof. inside. Qed.
Lemma in_weight : In (lit "font-weight", lit "normal") font_props. Proof. inside. Qed.
Lemma in_line : In (lit "line-height", lit "normal") font_props. Proof. inside. Qed.
Lemma in_feat : In (lit "font-feature-settings", Some (lit "normal")) plain_props. Proof. inside. Qed.
Lemma in_synth : In (lit "font-synthesis", Some (lit "weight style")) plain_props. Proof. inside. Qed.
Lemma in_stroke : In (lit "stroke-width", Some (lit "1")) plain_props. Proof. inside. Qed.
Lemma in_tab : In (lit "tab-size", Some (lit "8")) plain_props. Proof. inside. Qed.
Lemma in_mode : In (lit "writing-mode", Some (lit "horizontal-tb")) plain_props. Proof. inside. Qed.

(** ** Lengths and keywords *)
Lemma amount_word t n u : amount t n u -> keyword_size 16 t = None /\ relative_size t = false /\ text_eqb t (lit "normal") = false /\ text_eqb t (lit "none") = false.
Proof.
  intros A. destruct (amount_parse t n u A) as (m & P & _).
  assert (X : forall w, parse w = Err ValueError -> text_eqb t w = false). { intros w W. destruct (text_eqb_spec t w) as [-> |]; [congruence|reflexivity]. }
  assert (Y : forall w, parse w = Err ValueError -> text_eqb w t = false). { intros w W. destruct (text_eqb_spec w t) as [<- |]; [congruence|reflexivity]. }
  split; [|split; [|split]].
  - unfold keyword_size, assoc, size_map. rewrite !Y by reflexivity. reflexivity.
  - unfold relative_size, mem. cbn [existsb]. rewrite ?X, ?Y by reflexivity. reflexivity.
  - apply X. reflexivity.
  - apply X. reflexivity.
Qed.
Lemma at_least_max q : at_least q == Qmax 10 q.
Proof. unfold at_least. destruct (Qltb_spec q 10) as [L|L]; [rewrite Q.max_l by lra|rewrite Q.max_r by lra]; reflexivity. Qed.
Lemma size_of_length k chain s t q n u : style_at s (lit "font-size") = Ok t -> amount t n u ->
  (size_from k chain s = Ok q <-> exists v, length_at k chain None t = Ok v /\ q = at_least v).
Proof.
  intros S A. destruct (amount_word t n u A) as (K & R & _ & _). unfold size_from. rewrite S. cbn [bind]. unfold compute_font_size. rewrite R. unfold absolute_size. rewrite K.
  destruct (length_at k chain None t) as [v|e]; cbn [bind].
  - split; [intros [= <-]; eauto|]. intros (w & [= ->] & ->). reflexivity.
  - split; [discriminate|]. intros (w & [=] & _).
Qed.
Lemma font_size_unfold shlex f chain s : inherited_style shlex chain = Ok s -> font_size shlex (S f) chain = size_from (level shlex f) chain s.
Proof. intros E. unfold font_size. cbn [level fst]. unfold font_size_with. now rewrite E. Qed.
Lemma computed_unfold shlex f chain : computed_style shlex (S f) chain = computed_style_with shlex (level shlex f) chain.
Proof. reflexivity. Qed.

(** ** Elements that say nothing *)
Lemma silent_longhand shlex e k : silent e -> In k (dkeys inherited_props) -> longhand_at shlex k e = None.
Proof.
  intros [S _] I. unfold longhand_at, font_of. rewrite (S (lit "font")), (S k); [reflexivity|exact I|].
  apply mem_in. vm_compute. reflexivity.
Qed.
Lemma nearest_skip {A} (f : el -> option A) a b : Forall (fun e => f e = None) a -> nearest f (a ++ b) = nearest f b.
Proof. induction 1 as [|e a H F IH]; [reflexivity|]. cbn [app nearest]. rewrite H. exact IH. Qed.
Lemma silent_take shlex e ks : el_ok e -> silent e -> (forall k, In k ks -> In k (dkeys inherited_props)) -> forall st, take_keys shlex (css_style e) ks st = Ok st.
Proof.
  intros O [S _]. induction ks as [|k ks IH]; intros L st; [reflexivity|]. cbn [take_keys]. rewrite take_key_wanted, css_wanted_eq.
  - rewrite (S k) by (apply L; now left). cbn [bind]. apply IH. intros x J. apply L. now right.
  - exact O.
  - apply disjoint_props. apply L. now left.
Qed.
Lemma silent_step shlex e st : el_ok e -> silent e -> (forall k, In k (dkeys (snd st)) -> In k (dkeys inherited_props)) -> element_step shlex e st = Ok st.
Proof.
  intros O Q L. unfold element_step. rewrite (silent_take shlex e _ O Q L). cbn [bind]. destruct Q as [_ D].
  rewrite (css_specified e (lit "display") O) by discriminate. destruct (specified e (lit "display")) as [d|]; [|reflexivity].
  destruct (text_eqb_spec d (lit "none")) as [-> |]; [congruence|reflexivity].
Qed.
Lemma inh_incl i k : inh_ok i -> In k (dkeys i) -> In k (dkeys inherited_props).
Proof.
  intros [_ (p & E & _)] I. rewrite E in I. apply filter_In in I. apply I.
Qed.
Lemma walk_skip shlex e b : el_ok e -> silent e -> forall a st, inh_ok (snd st) -> walk shlex (a ++ e :: b) st = walk shlex (a ++ b) st.
Proof.
  intros O Q. induction a as [|x a IH]; intros st I; cbn [app walk].
  - rewrite (silent_step shlex e st O Q); [reflexivity|]. intros k. apply inh_incl. exact I.
  - destruct (element_step shlex x st) as [st'|] eqn:E; [|reflexivity]. cbn [bind]. apply IH. exact (element_inh _ _ _ _ I E).
Qed.
Lemma style_skip shlex self a e b : el_ok e -> silent e -> get_inherited_style shlex self (a ++ e :: b) = get_inherited_style shlex self (a ++ b).
Proof. intros O Q. unfold get_inherited_style. rewrite !app_comm_cons. rewrite (walk_skip shlex e b O Q); [reflexivity|exact inh_start]. Qed.
Lemma walk_silent shlex l : Forall el_ok l -> Forall silent l -> forall st, inh_ok (snd st) -> walk shlex l st = Ok st.
Proof.
  induction l as [|e l IH]; intros O Q st I; [reflexivity|]. inversion O; inversion Q; subst. cbn [walk].
  rewrite (silent_step shlex e st); [cbn [bind]; now apply IH| | |]; auto. intros k. apply inh_incl. exact I.
Qed.
Lemma chain_silent_style shlex n anc : Forall (fun m => el_ok (s_el m)) (n :: anc) -> Forall (fun m => silent (s_el m)) (n :: anc) ->
  inherited_style shlex (n :: anc) = Ok (finish (own_props (s_attr n), inherited_props)).
Proof.
  intros O Q. cbn [inherited_style]. unfold get_inherited_style. change (s_el n :: map s_el anc) with (map s_el (n :: anc)).
  rewrite (walk_silent shlex (map s_el (n :: anc))); [reflexivity| | |exact inh_start].
  - now apply (proj2 (Forall_map s_el el_ok (n :: anc))).
  - now apply (proj2 (Forall_map s_el silent (n :: anc))).
Qed.

(** ** Units that compute the style *)
Lemma metric_fetch k n anc u : metric_unit u -> (forall r, snd k (n :: anc) <> Ok r) -> forall c, fetch k (n :: anc) u <> Ok c.
Proof.
  intros (v & -> & I) N c F. cbn [fetch] in F. inv_bind F. inv_bind F. inv_bind F.
  assert (M : uin (Some v) metric_units = true) by (apply uin_iff; exists v; split; [reflexivity|exact I]). rewrite M in E1. exact (N _ E1).
Qed.
Lemma metric_length k n anc t x u d : amount t x u -> metric_unit u -> (forall r, snd k (n :: anc) <> Ok r) -> forall q, length_at k (n :: anc) d t <> Ok q.
Proof.
  intros A M N q L. destruct (amount_parse t x u A) as (m & P & _). unfold length_at in L. rewrite P in L. cbn [bind snd fst] in L. inv_bind L.
  exact (metric_fetch k n anc u M N _ E).
Qed.
Lemma metric_line k n anc t x u : amount t x u -> metric_unit u -> (forall r, snd k (n :: anc) <> Ok r) -> forall q, line_at k (n :: anc) t <> Ok q.
Proof.
  intros A M N q L. destruct (amount_parse t x u A) as (m & P & _). unfold line_at in L. rewrite P in L. cbn [bind snd fst] in L.
  assert (Z : uin u [lit "%"] = false). { destruct M as (v & -> & I). repeat destruct I as [<- |I]; try destruct I; reflexivity. }
  rewrite Z in L. inv_bind L. exact (metric_fetch k n anc u M N _ E).
Qed.

(** ** Font sizes in em *)
Lemma em_step shlex f n anc s t x p : inherited_style shlex (n :: anc) = Ok s -> style_at s (lit "font-size") = Ok t -> amount t x (Some (lit "em")) ->
  match anc with [] => p = 16 | _ => font_size shlex f anc = Ok p end ->
  exists q, font_size shlex (S f) (n :: anc) = Ok q /\ q == Qmax 10 (x * p).
Proof.
  intros E T A P. rewrite (font_size_unfold shlex f (n :: anc) s E).
  destruct (amount_parse t x _ A) as (m & Pm & M).
  assert (F : exists c, fetch (level shlex f) (n :: anc) (Some (lit "em")) = Ok c /\ parent_size c = p).
  { cbn [fetch]. change (uin (Some (lit "em")) [lit "rem"]) with false. change (uin (Some (lit "em")) font_units) with true.
    change (uin (Some (lit "em")) metric_units) with false. cbn [bind]. change (fst (level shlex f) anc) with (font_size shlex f anc).
    destruct anc as [|a anc]; [subst p|rewrite P]; cbn [bind]; eexists; split; reflexivity. }
  destruct F as (c & F & Pc). assert (S := s_em c None). destruct (value_sized m _ c None _ S) as (v & V & Q).
  assert (L : length_at (level shlex f) (n :: anc) None t = Ok v). { unfold length_at. rewrite Pm. cbn [bind fst snd]. rewrite F. exact V. }
  exists (at_least v). split.
  - apply (size_of_length _ _ s t _ x (Some (lit "em")) T A). eauto.
  - rewrite at_least_max, Q, M, Pc. reflexivity.
Qed.
Lemma total_style shlex n anc : (forall t, is_ok (shlex t) = true) -> Forall (fun m => el_ok (s_el m)) (n :: anc) ->
  (forall m, In m (n :: anc) -> wanted (lit "marker") (s_el m) = None /\ wanted (lit "font") (s_el m) = None) -> exists s, inherited_style shlex (n :: anc) = Ok s.
Proof.
  intros X O H. cbn [inherited_style]. apply c36_total_partial; [|intros e I|exact X].
  - now apply (proj2 (Forall_map s_el el_ok (n :: anc))).
  - change (s_el n :: map s_el anc) with (map s_el (n :: anc)) in I. apply in_map_iff in I. destruct I as (m & <- & J). destruct (H m J). auto.
Qed.
Lemma em_compound shlex n t x : (forall t, is_ok (shlex t) = true) -> el_ok (s_el n) -> wanted (lit "marker") (s_el n) = None -> wanted (lit "font") (s_el n) = None ->
  wanted (lit "font-size") (s_el n) = Some t -> amount t x (Some (lit "em")) -> 1 <= x ->
  forall l, Forall (fun m => el_ok (s_el m)) l -> Forall (fun m => silent (s_el m)) l ->
  exists q, font_size shlex (S (length l)) (l ++ [n]) = Ok q /\ q == 16 * Qpower x (Z.of_nat (S (length l))).
Proof.
  intros X On Mn Fn Sn A G.
  assert (St : forall m l, Forall (fun m => el_ok (s_el m)) (m :: l) -> m :: l = [n] \/ (exists a, m :: l = a ++ [n] /\ Forall (fun m => silent (s_el m)) a) ->
     exists s, inherited_style shlex (m :: l) = Ok s /\ style_at s (lit "font-size") = Ok t).
  { intros m l O C. assert (C' : exists a, m :: l = a ++ [n] /\ Forall (fun m => silent (s_el m)) a).
    { destruct C as [C|C]; [exists []; now split|exact C]. } clear C. destruct C' as (a & C & Q).
    destruct (total_style shlex m l X O) as (s & E).
    - intros z I. rewrite C in I. apply in_app_iff in I. destruct I as [I|[<- |[]]]; [|now split].
      rewrite Forall_forall in Q. destruct (Q z I) as [W _]. split; apply W; apply mem_in; vm_compute; reflexivity.
    - exists s. split; [exact E|]. apply (proj2 (font_said_is shlex (m :: l) s "font-size" "medium" t (conj (fun X => nil_cons (eq_sym X)) O) in_size E)).
      unfold font_said. rewrite C, map_app. rewrite nearest_skip.
      + cbn [map nearest]. unfold longhand_at, font_of. rewrite Fn, Sn. reflexivity.
      + apply Forall_map. revert Q. apply Forall_impl. intros z Q. apply silent_longhand; [exact Q|]. apply mem_in. vm_compute. reflexivity. }
  induction l as [|m l IH]; intros O Q.
  - destruct (St n [] ltac:(constructor; [exact On|constructor]) (or_introl eq_refl)) as (s & E & T).
    destruct (em_step shlex 0 n [] s t x 16 E T A eq_refl) as (q & F & V). exists q. split; [exact F|]. rewrite V. cbn [length]. change (Z.of_nat 1) with 1%Z.
    rewrite Q.max_r by lra. cbn. ring.
  - inversion O as [|? ? Om Ol]; inversion Q as [|? ? Qm Ql]; subst. destruct (IH Ol Ql) as (p & F & V). clear IH.
    destruct (St m (l ++ [n])) as (s & E & T).
    { constructor; [exact Om|]. apply Forall_app. split; [exact Ol|]. constructor; [exact On|constructor]. }
    { right. exists (m :: l). split; [reflexivity|exact Q]. }
    cbn [app length]. destruct (em_step shlex (S (length l)) m (l ++ [n]) s t x p E T A) as (q & F' & V'); [destruct l; exact F|].
    exists q. split; [exact F'|]. rewrite V'. assert (P : 1 <= Qpower x (Z.of_nat (S (length l)))).
    { generalize (S (length l)). intros k. induction k as [|k IHk]; [cbn; lra|]. rewrite Nat2Z.inj_succ, <- Z.add_1_r, Qpower_plus by lra. change (x ^ 1) with x. revert IHk. generalize (x ^ Z.of_nat k). intros y Y. nra. }
    rewrite Q.max_r.
    + rewrite V. rewrite (Nat2Z.inj_succ (S (length l))), <- Z.add_1_r, Qpower_plus by lra. change (x ^ 1) with x. ring.
    + rewrite V. revert P. generalize (x ^ Z.of_nat (S (length l))). intros y Y. nra.
Qed.
Lemma settled_length k chain d t : settled t -> exists v, length_at k chain d t = Ok v.
Proof. intros (n & u & A & U). destruct (absolute_sized u U) as (s & S). destruct (absolute_length k chain d t n u s A U S) as (v & L & _). eauto. Qed.
Lemma digit_amount (t : text) n : numeral t = Some n -> amount t n None.
Proof. intros N. exists [], t, []. cbn [app]. rewrite app_nil_r. repeat split; try reflexivity. exact N. Qed.
Lemma digit_settled (t : text) n : numeral t = Some n -> settled t.
Proof. intros N. exists n, None. split; [now apply digit_amount|exact I]. Qed.
Lemma keyword_done t len l i : In t size_keywords -> exists q, compute_font_size 16 len t l i = Ok q.
Proof. intros K. cbn [size_keywords map In] in K. repeat destruct K as [<- |K]; try destruct K; eexists; reflexivity. Qed.
Lemma done_parts shlex k chain s ts tw tln tf ty ti tm tk tt feats weight geo : inherited_style shlex chain = Ok s ->
  style_at s (lit "font-feature-settings") = Ok tf -> parse_font_feature_settings tf = Ok feats ->
  style_at s (lit "font-size") = Ok ts -> In ts size_keywords \/ settled ts ->
  style_at s (lit "font-size-adjust") = Ok (lit "none") -> style_at s (lit "font-synthesis") = Ok ty ->
  style_at s (lit "font-weight") = Ok tw -> compute_font_weight tw (map (fun n => dget (s_attr n) (lit "font-weight")) (tl chain)) None = Ok weight ->
  style_at s (lit "line-height") = Ok tln -> tln = lit "normal" \/ settled tln \/ (exists n, amount tln n (Some (lit "%"))) ->
  style_at s (lit "inline-size") = Ok ti -> style_at s (lit "writing-mode") = Ok tm -> settled ti ->
  style_at s (lit "stroke-width") = Ok tk -> settled tk -> style_at s (lit "tab-size") = Ok tt -> settled tt ->
  (match map s_geo chain with [] => Err AttributeError | g :: l => computed_geometry g l end) = Ok geo ->
  exists r, computed_style_with shlex k chain = Ok r.
Proof.
  intros Es Ef Pf Ez Hz Ea Ey Ew Pw El Hl Ei Em Hi Ek Hk Et Ht Eg.
  assert (Z : exists size, size_from k chain s = Ok size).
  { unfold size_from. rewrite Ez. cbn [bind]. destruct Hz as [Hz|Hz]; [now apply keyword_done|]. destruct (settled_length k chain None ts Hz) as (v & L). destruct Hz as (n & u & A & _).
    destruct (amount_word ts n u A) as (W & R & _). unfold compute_font_size. rewrite R. unfold absolute_size. rewrite W, L. cbn. eauto. }
  destruct Z as (size & Z).
  assert (Y : exists line, compute_line_height (line_at k chain) tln size = Ok line).
  { unfold compute_line_height. destruct (text_eqb_spec tln (lit "normal")) as [|N]; [eauto|]. destruct Hl as [Hl|[(n & u & A & U)|(n & A)]]; [contradiction| |].
    - destruct (absolute_sized u U) as (x & S). destruct (absolute_fetch k chain u U) as (c & F & _). destruct (amount_parse tln n u A) as (m & P & _). unfold line_at. rewrite P. cbn [bind fst snd].
      destruct (uin u [lit "%"]); [cbn; eauto|]. rewrite F. cbn [bind]. destruct (value_sized m u c None x (S c None)) as (v & V & _). rewrite V. cbn. eauto.
    - destruct (amount_parse tln n _ A) as (m & P & _). unfold line_at. rewrite P. cbn [bind fst snd]. change (uin (Some (lit "%")) [lit "%"]) with true. cbn. eauto. }
  destruct Y as (line & Y). destruct (settled_length k [] (Some (line_direction tm)) ti Hi) as (vi & Li).
  destruct (settled_length k chain (Some Unspecified) tk Hk) as (vk & Lk). destruct (settled_length k chain (Some Unspecified) tt Ht) as (vt & Lt).
  unfold computed_style_with. rewrite Es. cbn [bind]. rewrite Ef. cbn [bind]. rewrite Pf. cbn [bind]. rewrite Z. cbn [bind]. unfold size_adjust. rewrite Ea. cbn [bind].
  rewrite text_eqb_refl. cbn [bind]. rewrite Ey. cbn [bind]. rewrite Ew. cbn [bind]. rewrite Pw. cbn [bind]. rewrite El. cbn [bind]. rewrite Y. cbn [bind]. rewrite Ei. cbn [bind]. rewrite Em. cbn [bind].
  rewrite Li. cbn [bind]. rewrite Ek. cbn [bind]. rewrite Lk. cbn [bind]. rewrite Et. cbn [bind]. rewrite Lt. cbn [bind]. rewrite Eg. cbn [bind]. eauto.
Qed.
Lemma parts_nine shlex k chain r (p : parts shlex k chain r) : map (dget r) nine = map Some
  [CFeat (p_feat p); CNum (p_size p); p_adjust p; CList (synthesis (p_synth_t p)); CInt (p_weight p); CNum (p_line p); CNum (p_inline p); CNum (p_stroke p); CNum (p_tab p)].
Proof. rewrite (map_ext_in _ _ nine (nine_get shlex k chain r p)). reflexivity. Qed.
Lemma medium_size len l : compute_font_size 16 len (lit "medium") l None = Ok 16. Proof. reflexivity. Qed.
Lemma normal_weight l : compute_font_weight (lit "normal") l None = Ok 400%Z. Proof. reflexivity. Qed.
Lemma normal_line p : compute_line_height p (lit "normal") 16 = Ok ((6#5) * 16). Proof. reflexivity. Qed.
Lemma normal_features : parse_font_feature_settings (lit "normal") = Ok []. Proof. reflexivity. Qed.
Lemma initial_synthesis : synthesis (lit "weight style") = [lit "weight"; lit "style"]. Proof. reflexivity. Qed.
Lemma plain_number k ch d t n : parse t = Ok (n, None) -> length_at k ch d t = Ok n.
Proof. intros P. unfold length_at. rewrite P. cbn [bind fst snd]. destruct (absolute_fetch k ch None I) as (c & -> & _). reflexivity. Qed.
Lemma parse_0 : parse (lit "0") = Ok (0, None). Proof. reflexivity. Qed.
Lemma parse_1 : parse (lit "1") = Ok (1, None). Proof. reflexivity. Qed.
Lemma parse_8 : parse (lit "8") = Ok (8, None). Proof. reflexivity. Qed.
