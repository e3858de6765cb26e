(** Shorthands given and read back as groups of words. *)
From Coq Require Import Lia.
From Verif Require Import PyBase PyText PySplit PyStrip PyDict PyCase ShortModel ShortSpec ShortProofs ShortProofs2 ShortProofs3 ShortProofs4 ShortProofs5.
Local Open Scope nat_scope.

Lemma dget_pairs (v : text -> text) l k : In k l -> dget (map (fun n => (n, v n)) l) k = Some (v k).
Proof.
  induction l as [|x l IH]; cbn; [tauto|]. destruct (text_eqb_spec x k) as [->|N]; [reflexivity|]. intros [E|I]; [congruence|now apply IH].
Qed.
Lemma all_some_pairs (v : text -> text) l m : (forall k, In k m -> In k l) -> all_some (map (dget (map (fun n => (n, v n)) l)) m) = Some (map v m).
Proof.
  induction m as [|x m IH]; intros H; [reflexivity|]. cbn [map all_some]. rewrite dget_pairs by (apply H; now left).
  rewrite IH by (intros k Hk; apply H; now right). reflexivity.
Qed.
Definition or_else (d : text) (o : option text) : text := match o with Some v => v | None => d end.
Lemma filter_given gs d ps : (forall p v, given gs p = Some v -> v <> d) ->
  filter (fun x => negb (text_eqb x d)) (map (fun p => or_else d (given gs p)) ps) =
  flat_map (fun p => match given gs p with Some v => [v] | None => [] end) ps.
Proof.
  intros H. induction ps as [|p ps IH]; [reflexivity|]. cbn [map filter flat_map]. rewrite IH. specialize (H p). unfold or_else at 1 2.
  destruct (given gs p) as [v|]; [|rewrite text_eqb_refl; reflexivity]. destruct (text_eqb_spec v d) as [->|]; [|reflexivity].
  destruct (H d eq_refl eq_refl).
Qed.

Lemma given_plain c ps gs p v : sorted_out c ps gs -> given gs p = Some v ->
  exists ws, In (p, ws) gs /\ v = join [32%N] ws /\ ws <> [] /\ Forall plain ws.
Proof.
  intros S H. rewrite given_words in H. destruct (ggiven gs p) as [ws|] eqn:E; [|discriminate]. injection H as <-.
  apply ggiven_in in E. exists ws. destruct S as (_ & A & _). destruct (A p ws E) as (_ & NE & F). repeat split; try assumption.
Qed.
Lemma given_facts c ps gs p v : sorted_out c ps gs -> given gs p = Some v -> nonempty v = true /\ is_wide v = false /\ v <> lit "initial".
Proof.
  intros S H. destruct (given_plain c ps gs p v S H) as (ws & _ & -> & NE & F). split; [now apply join_nonempty|].
  assert (W := join_not_wide ws F). split; [exact W|]. intros E. rewrite E in W. vm_compute in W. discriminate.
Qed.
Lemma given_exists c ps gs : sorted_out c ps gs -> gs <> [] -> exists p v, In p ps /\ given gs p = Some v.
Proof.
  intros (_ & A & _) NE. destruct gs as [|[p ws] gs]; [congruence|]. exists p, (join [32%N] ws). destruct (A p ws (or_introl eq_refl)) as (I & _).
  split; [exact I|]. unfold given. cbn [find fst]. rewrite text_eqb_refl. reflexivity.
Qed.
Lemma value_text_facts c ps gs : css_ok c -> sorted_out c ps gs -> gs <> [] ->
  normalize_text (value_text gs) = value_text gs /\ value_text gs <> [] /\ cparse c (value_text gs) = tailed false (value_words gs) /\
  tailed false (value_words gs) <> [].
Proof.
  intros O S NE. assert (F := sorted_plain _ _ _ S). unfold value_text. split; [now apply normalize_join|].
  assert (NW : value_words gs <> []).
  { destruct S as (_ & A & _). destruct gs as [|[p ws] gs]; [congruence|]. destruct (A p ws (or_introl eq_refl)) as (_ & N & _).
    cbn [value_words flat_map snd]. destruct ws; [congruence|discriminate]. }
  split; [intros E; assert (X := join_nonempty _ F NW); rewrite E in X; discriminate|].
  destruct (tailed_nonempty false _ NW) as (x & l & E). split; [|rewrite E; discriminate].
  rewrite tailed_interleave. apply (ok_words c O). eapply Forall_impl; [|exact F]. intros w [W _]. exact W.
Qed.

(* entries of the declarations after [set_map] on a filled map *)
Lemma filled_get c d ps gs cm dflt p : sorted_out c ps gs -> dict_ok d -> dict_ok cm -> cparse c dflt = [mkC CIdent dflt] -> word dflt = true ->
  (forall k, match ggiven gs k with Some ws => exists b', dget cm k = Some (tailed b' ws) | None => dget cm k = None end) ->
  let d' := set_map d (fill ps (fun _ => cparse c dflt) cm) p in
  dict_ok d' /\ forall k, In k ps -> dget d' k = Some (or_else dflt (given gs k), p).
Proof.
  intros S D C PD W K d'. destruct (fill_spec ps (fun _ => cparse c dflt) cm C) as [FC FG].
  destruct (set_map_spec _ d p D FC) as (A & B & _). fold d' in A, B. split; [exact A|]. intros k Hk. rewrite B, FG. specialize (K k).
  apply mem_in in Hk. rewrite given_words. destruct (ggiven gs k) as [ws|] eqn:E.
  - destruct K as [b' ->]. rewrite strip_tailed; [reflexivity|]. apply ggiven_in in E. destruct S as (_ & X & _). apply (X k ws E).
  - rewrite K, Hk, PD, serialize_one, strip_word by exact W. reflexivity.
Qed.
Lemma get_longhand c d k v p : is_shorthand k = false -> key k = k -> dget d k = Some (v, p) -> get_property_value c (mkB d false) k = v.
Proof. intros S K G. unfold get_property_value. rewrite K, S. cbn [bdecls]. rewrite G. reflexivity. Qed.

Lemma read_text_decoration_words c b gs p : css_ok c -> block_ok b -> breadonly b = false -> good_priority (lower p) = true ->
  sorted_out c l_text_decoration gs -> gs <> [] -> (forall q v, given gs q = Some v -> csupports c q v = true) ->
  exists b', set_property c b (lit "text-decoration") (value_text gs) (Some p) = Ok b' /\
    get_property_value c b' (lit "text-decoration") = given_in_order gs l_text_decoration /\
    forall q, In q l_text_decoration -> get_property_value c b' q = or_else (lit "initial") (given gs q).
Proof.
  intros O B R G S NE SU. destruct (value_text_facts c _ gs O S NE) as (NT & NV & PV & NP).
  assert (PI : cparse c (lit "initial") = [mkC CIdent (lit "initial")]) by (apply (ok_word c O); reflexivity).
  destruct (parse_each_sorted c l_text_decoration gs [] false S) as (rest & cm & E & CM & K).
  { unfold l_text_decoration. nodup_lits. }
  { destruct S as (_ & A & _). intros q Hq. apply in_map_iff in Hq as ([q' ws] & <- & Hq). destruct (A q' ws Hq) as (I & _). cbn [fst].
    unfold l_text_decoration in I. cbn [In] in I. destruct I as [<-|[<-|[<-|[]]]]; reflexivity. }
  { constructor. }
  eexists. split.
  - apply (set_block c b STextDecoration); auto.
    + rewrite PV. exact NP.
    + rewrite PV. cbn [sh_set]. rewrite E. cbn [bind finish_wide]. reflexivity.
  - destruct (filled_get c (bdecls b) l_text_decoration gs cm (lit "initial") (lower p) S B CM PI eq_refl K) as [D' GD]. cbv zeta in D', GD.
    set (d' := set_map _ _ _) in *. split.
    + rewrite (get_block c d' false STextDecoration : get_property_value c _ (lit "text-decoration") = _). unfold depth.
      rewrite (sh_value_all c d' 2 (sname STextDecoration) STextDecoration l_text_decoration (fun q => or_else (lit "initial") (given gs q)) (lower p)).
      * change (longhands (sname STextDecoration)) with l_text_decoration. cbn [tostring]. unfold text_decoration_tostring.
        rewrite all_some_pairs by tauto.
        assert (AW : all_wide_same (map (fun q => or_else (lit "initial") (given gs q)) l_text_decoration) = false).
        { destruct (given_exists c _ gs S NE) as (q & v & I & Gv). unfold all_wide_same. apply Bool.andb_false_iff. left.
          apply Bool.not_true_iff_false. intros X. rewrite forallb_forall in X. specialize (X (or_else (lit "initial") (given gs q))).
          rewrite Gv in X. cbn [or_else] in X. destruct (given_facts c _ gs q v S Gv) as (_ & W & _). rewrite X in W; [discriminate|].
          apply in_map_iff. exists q. rewrite Gv. split; [reflexivity|exact I]. }
        rewrite AW.
        assert (EX : existsb is_wide_not_initial (map (fun q => or_else (lit "initial") (given gs q)) l_text_decoration) = false).
        { apply Bool.not_true_iff_false. intros X. apply existsb_exists in X as (x & I & X). apply in_map_iff in I as (q & <- & _).
          destruct (given gs q) as [v|] eqn:Gv; cbn [or_else] in X; [|vm_compute in X; discriminate].
          destruct (given_facts c _ gs q v S Gv) as (_ & W & _). unfold is_wide_not_initial in X. rewrite W in X. discriminate. }
        rewrite EX. rewrite filter_given; [reflexivity|]. intros q v Gv. apply (given_facts c _ gs q v S Gv).
      * reflexivity.
      * vm_compute. discriminate.
      * intros n Hn. change (longhands (sname STextDecoration)) with l_text_decoration in Hn. left.
        split; [unfold l_text_decoration in Hn; cbn [In] in Hn; destruct Hn as [<-|[<-|[<-|[]]]]; reflexivity|].
        split; [now apply GD|]. destruct (given gs n) as [v|] eqn:Gv; cbn [or_else].
        -- split; [apply (given_facts c _ gs n v S Gv)|now apply SU].
        -- split; [reflexivity|apply (ok_wide c O); reflexivity].
    + intros q Hq. apply (get_longhand c d' q _ (lower p)); [| |now apply GD]; unfold l_text_decoration in Hq; cbn [In] in Hq; destruct Hq as [<-|[<-|[<-|[]]]]; reflexivity.
Qed.

Lemma fill_ext ps f g cm : (forall p, In p ps -> f p = g p) -> fill ps f cm = fill ps g cm.
Proof.
  unfold fill. revert cm. induction ps as [|p ps IH]; intros cm H; [reflexivity|]. cbn [fold_left]. rewrite (H p) by (now left).
  apply IH. intros q Hq. apply H. now right.
Qed.
Lemma read_font_variant_words c b gs p : css_ok c -> block_ok b -> breadonly b = false -> good_priority (lower p) = true ->
  sorted_out c l_font_variant gs -> gs <> [] -> (forall q v, given gs q = Some v -> csupports c q v = true) ->
  (forall q, In q l_font_variant -> cinitial c q = lit "normal" /\ csupports c q (lit "normal") = true) ->
  (forall w, In w (value_words gs) -> w <> lit "normal" /\ w <> lit "none") ->
  exists b', set_property c b (lit "font-variant") (value_text gs) (Some p) = Ok b' /\
    get_property_value c b' (lit "font-variant") = given_in_order gs l_font_variant /\
    forall q, In q l_font_variant -> get_property_value c b' q = or_else (lit "normal") (given gs q).
Proof.
  intros O B R G S NE SU IN NN. destruct (value_text_facts c _ gs O S NE) as (NT & NV & PV & NP). assert (PL := sorted_plain _ _ _ S).
  assert (PN : cparse c (lit "normal") = [mkC CIdent (lit "normal")]) by (apply (ok_word c O); reflexivity).
  assert (KW : forall ws k, Forall plain ws -> (forall w, In w ws -> w <> k) -> word k = true -> text_eqb (join [32%N] ws) k = false).
  { intros ws k F H W. destruct (text_eqb_spec (join [32%N] ws) k) as [X|]; [|reflexivity]. apply join_word in X; [|exact F|exact W].
    subst ws. destruct (H k (or_introl eq_refl) eq_refl). }
  assert (GN : forall q v, given gs q = Some v -> v <> lit "normal" /\ v <> lit "none").
  { intros q v Gv. destruct (given_plain c _ gs q v S Gv) as (ws & I & -> & _ & F).
    assert (H : forall w, In w ws -> w <> lit "normal" /\ w <> lit "none") by (intros w Hw; apply NN; apply value_words_in; eauto).
    split; intros X.
    - assert (Y := KW ws (lit "normal") F (fun w Hw => proj1 (H w Hw)) eq_refl). rewrite X, text_eqb_refl in Y. discriminate.
    - assert (Y := KW ws (lit "none") F (fun w Hw => proj2 (H w Hw)) eq_refl). rewrite X, text_eqb_refl in Y. discriminate. }
  destruct (parse_each_sorted c l_font_variant gs [] false S) as (rest & cm & E & CM & K).
  { unfold l_font_variant. nodup_lits. }
  { destruct S as (_ & A & _). intros q Hq. apply in_map_iff in Hq as ([q' ws] & <- & Hq). destruct (A q' ws Hq) as (I & _). cbn [fst].
    unfold l_font_variant in I. cbn [In] in I. destruct I as [<-|[<-|[<-|[<-|[<-|[<-|[]]]]]]]; reflexivity. }
  { constructor. }
  eexists. split.
  - apply (set_block c b SFontVariant); auto.
    + rewrite PV. exact NP.
    + rewrite PV. cbn [sh_set]. unfold font_variant_map. rewrite strip_tailed by exact PL.
      rewrite (KW _ (lit "normal") PL (fun w Hw => proj1 (NN w Hw)) eq_refl), (KW _ (lit "none") PL (fun w Hw => proj2 (NN w Hw)) eq_refl). cbn [orb].
      unfold parse_css_declaration. rewrite E. cbn [bind].
      rewrite (fill_ext l_font_variant (fun q => cparse c (cinitial c q)) (fun _ => cparse c (lit "normal"))).
      * reflexivity.
      * intros q Hq. destruct (IN q Hq) as [-> _]. reflexivity.
  - destruct (filled_get c (bdecls b) l_font_variant gs cm (lit "normal") (lower p) S B CM PN eq_refl K) as [D' GD]. cbv zeta in D', GD.
    set (d' := set_map _ _ _) in *. split.
    + rewrite (get_block c d' false SFontVariant : get_property_value c _ (lit "font-variant") = _). unfold depth.
      rewrite (sh_value_all c d' 2 (sname SFontVariant) SFontVariant l_font_variant (fun q => or_else (lit "normal") (given gs q)) (lower p)).
      * change (longhands (sname SFontVariant)) with l_font_variant. cbn [tostring]. unfold font_variant_tostring.
        rewrite all_some_pairs by tauto. set (vs := map _ l_font_variant).
        assert (AN : forallb (text_eqb (lit "normal")) vs = false).
        { destruct (given_exists c _ gs S NE) as (q & v & I & Gv). apply Bool.not_true_iff_false. intros X. rewrite forallb_forall in X.
          specialize (X v). destruct (text_eqb_spec (lit "normal") v) as [Y|]; [destruct (GN q v Gv) as [Z _]; congruence|].
          discriminate X. unfold vs. apply in_map_iff. exists q. rewrite Gv. split; [reflexivity|exact I]. }
        rewrite AN.
        assert (HN : text_eqb (hd_text vs) (lit "none") = false).
        { unfold vs, l_font_variant. cbn [map hd_text]. destruct (given gs (lit "font-variant-ligatures")) as [v|] eqn:Gv; cbn [or_else]; [|reflexivity].
          destruct (text_eqb_spec v (lit "none")) as [Y|]; [destruct (GN _ _ Gv); congruence|reflexivity]. }
        rewrite HN.
        assert (EX : existsb is_wide vs = false).
        { apply Bool.not_true_iff_false. intros X. apply existsb_exists in X as (x & I & X). apply in_map_iff in I as (q & <- & _).
          destruct (given gs q) as [v|] eqn:Gv; cbn [or_else] in X; [|vm_compute in X; discriminate].
          destruct (given_facts c _ gs q v S Gv) as (_ & W & _). rewrite W in X. discriminate. }
        rewrite EX. unfold vs. rewrite filter_given; [reflexivity|]. intros q v Gv. apply (GN q v Gv).
      * reflexivity.
      * vm_compute. discriminate.
      * intros n Hn. change (longhands (sname SFontVariant)) with l_font_variant in Hn. left.
        split; [unfold l_font_variant in Hn; cbn [In] in Hn; destruct Hn as [<-|[<-|[<-|[<-|[<-|[<-|[]]]]]]]; reflexivity|].
        split; [now apply GD|]. destruct (given gs n) as [v|] eqn:Gv; cbn [or_else].
        -- split; [apply (given_facts c _ gs n v S Gv)|now apply SU].
        -- split; [reflexivity|apply IN; exact Hn].
    + intros q Hq. apply (get_longhand c d' q _ (lower p)); [| |now apply GD]; unfold l_font_variant in Hq; cbn [In] in Hq; destruct Hq as [<-|[<-|[<-|[<-|[<-|[<-|[]]]]]]]; reflexivity.
Qed.

(** The text of mask and mask-border from their longhands; None stands for 'initial'. *)
Definition opt (o : option text) : list text := match o with Some v => [v] | None => [] end.
Definition slashed (o : option text) : list text := match o with Some v => [lit "/"; v] | None => [] end.
Definition is_none (o : option text) : bool := match o with None => true | _ => false end.
Definition no_initial (o : option text) : Prop := match o with Some v => is_wide v = false | None => True end.
Lemma opt_initial o : no_initial o -> text_eqb (or_else (lit "initial") o) (lit "initial") = is_none o.
Proof.
  destruct o as [v|]; cbn [or_else is_none no_initial]; [|intros; reflexivity]. intros H. destruct (text_eqb_spec v (lit "initial")) as [->|]; [vm_compute in H; discriminate|reflexivity].
Qed.
Lemma opt_wide o : no_initial o -> is_wide (or_else (lit "initial") o) = is_none o.
Proof. destruct o as [v|]; cbn [or_else is_none no_initial]; [intros H; exact H|intros; reflexivity]. Qed.
Lemma opt_wni o : no_initial o -> is_wide_not_initial (or_else (lit "initial") o) = false.
Proof. intros H. unfold is_wide_not_initial. rewrite opt_wide, opt_initial by exact H. destruct o; reflexivity. Qed.

Ltac lit_eqs := repeat match goal with |- context [text_eqb (lit ?a) (lit ?b)] =>
  let r := eval vm_compute in (text_eqb (lit a) (lit b)) in change (text_eqb (lit a) (lit b)) with r end.
Definition entry_text (v : text -> option text) (k : text) : text := or_else (lit "initial") (v k).
Definition mask_text (v : text -> option text) : text :=
  if is_none (v (lit "mask-position")) && negb (is_none (v (lit "mask-size"))) then []
  else join [32%N] (opt (v (lit "mask-image")) ++ opt (v (lit "mask-position")) ++ slashed (v (lit "mask-size")) ++ opt (v (lit "mask-repeat"))
    ++ opt (v (lit "mask-origin"))
    ++ (match v (lit "mask-origin"), v (lit "mask-clip") with Some o, Some k => if text_eqb o k then [] else [k] | _, k => opt k end)
    ++ opt (v (lit "mask-composite")) ++ opt (v (lit "mask-mode"))).
Definition mask_border_text (v : text -> option text) : text :=
  let present k := negb (is_none (v k)) in
  if present (lit "mask-border-width") && negb (present (lit "mask-border-slice"))
     || present (lit "mask-border-outset") && negb (present (lit "mask-border-slice") && present (lit "mask-border-width")) then []
  else join [32%N] (opt (v (lit "mask-border-source")) ++ opt (v (lit "mask-border-slice")) ++ slashed (v (lit "mask-border-width"))
    ++ slashed (v (lit "mask-border-outset")) ++ opt (v (lit "mask-border-repeat")) ++ opt (v (lit "mask-border-mode"))).

Lemma not_all_wide v ps : (forall k, In k ps -> no_initial (v k)) -> (exists k, In k ps /\ v k <> None) ->
  all_wide_same (map (entry_text v) ps) = false.
Proof.
  intros NI (k & Ik & Nk). unfold all_wide_same. apply Bool.andb_false_iff. left. apply Bool.not_true_iff_false. intros X.
  rewrite forallb_forall in X. specialize (X (entry_text v k) (in_map _ _ _ Ik)). unfold entry_text in X. rewrite opt_wide in X by (now apply NI).
  destruct (v k); [discriminate|congruence].
Qed.
Lemma no_wide_entry v ps : (forall k, In k ps -> no_initial (v k)) -> existsb is_wide_not_initial (map (entry_text v) ps) = false.
Proof.
  intros NI. apply Bool.not_true_iff_false. intros X. apply existsb_exists in X as (x & I & X). apply in_map_iff in I as (k & <- & Ik).
  unfold entry_text in X. rewrite opt_wni in X by (now apply NI). discriminate.
Qed.
Lemma opt_opt o : (if is_none o then [] else [or_else (lit "initial") o]) = opt o.
Proof. destruct o; reflexivity. Qed.
Lemma opt_slashed o : (if is_none o then [] else [lit "/"; or_else (lit "initial") o]) = slashed o.
Proof. destruct o; reflexivity. Qed.
Lemma opt_clip og cl : no_initial cl ->
  (if is_none cl then [] else if text_eqb (or_else (lit "initial") og) (or_else (lit "initial") cl) then [] else [or_else (lit "initial") cl]) =
  match og, cl with Some o, Some k => if text_eqb o k then [] else [k] | _, k => opt k end.
Proof.
  intros N. destruct cl as [k|]; [|destruct og; reflexivity]. cbn [is_none or_else opt no_initial] in *. destruct og as [o|]; cbn [or_else]; [reflexivity|].
  destruct (text_eqb_spec (lit "initial") k) as [E|]; [|reflexivity]. rewrite <- E in N. vm_compute in N. discriminate.
Qed.
Lemma mask_print d v : order_ok true d l_mask l_mask_border = true ->
  (forall k, In k l_mask -> no_initial (v k)) -> (exists k, In k l_mask /\ v k <> None) ->
  mask_tostring d (map (fun n => (n, entry_text v n)) l_mask) = mask_text v.
Proof.
  intros OK NI EX. unfold mask_tostring. rewrite OK. cbn [negb]. rewrite all_some_pairs by tauto.
  rewrite not_all_wide, no_wide_entry by assumption.
  assert (G : forall k, In k l_mask -> dget (map (fun n => (n, entry_text v n)) l_mask) k = Some (entry_text v k)) by (intros k Hk; now apply dget_pairs).
  assert (I : forall k, In k l_mask -> text_eqb (entry_text v k) (lit "initial") = is_none (v k)) by (intros k Hk; apply opt_initial; now apply NI).
  unfold mask_text. set (pm := map _ _) in *.
  rewrite !G by (unfold l_mask; cbn [In]; tauto). rewrite !I by (unfold l_mask; cbn [In]; tauto).
  destruct (is_none (v (lit "mask-position")) && negb (is_none (v (lit "mask-size")))); [reflexivity|]. f_equal.
  unfold l_mask at 1. cbn [flat_map]. rewrite !G by (unfold l_mask; cbn [In]; tauto). rewrite !I by (unfold l_mask; cbn [In]; tauto).
  lit_eqs. cbn [andb]. unfold entry_text.
  rewrite !opt_opt, opt_slashed, opt_clip by (apply NI; unfold l_mask; cbn [In]; tauto). rewrite app_nil_r.
  destruct (v (lit "mask-origin")), (v (lit "mask-clip")); reflexivity.
Qed.
Lemma mask_border_print d v : order_ok false d l_mask_border l_mask = true ->
  (forall k, In k l_mask_border -> no_initial (v k)) -> (exists k, In k l_mask_border /\ v k <> None) ->
  mask_border_tostring d (map (fun n => (n, entry_text v n)) l_mask_border) = mask_border_text v.
Proof.
  intros OK NI EX. unfold mask_border_tostring. rewrite OK. cbn [negb]. rewrite all_some_pairs by tauto.
  rewrite not_all_wide, no_wide_entry by assumption.
  assert (G : forall k, In k l_mask_border -> dget (map (fun n => (n, entry_text v n)) l_mask_border) k = Some (entry_text v k)) by (intros k Hk; now apply dget_pairs).
  assert (I : forall k, In k l_mask_border -> text_eqb (entry_text v k) (lit "initial") = is_none (v k)) by (intros k Hk; apply opt_initial; now apply NI).
  unfold mask_border_text. set (pm := map _ _) in *.
  rewrite !G by (unfold l_mask_border; cbn [In]; tauto). rewrite !I by (unfold l_mask_border; cbn [In]; tauto).
  match goal with |- (if ?a then _ else ?x) = (if ?b then _ else ?y) => assert (E1 : a = b); [|rewrite E1; destruct b; [reflexivity|]] end.
  { destruct (v (lit "mask-border-slice")), (v (lit "mask-border-width")), (v (lit "mask-border-outset")); reflexivity. }
  f_equal. unfold l_mask_border at 1. cbn [flat_map]. rewrite !G by (unfold l_mask_border; cbn [In]; tauto). rewrite !I by (unfold l_mask_border; cbn [In]; tauto).
  lit_eqs. cbn [orb]. unfold entry_text. rewrite !opt_opt, !opt_slashed. rewrite app_nil_r. reflexivity.
Qed.

(* every longhand of [ps] declared, with the value [v] gives or 'initial', the same priority *)
Definition declared (c : css) (d : decls) (ps : list text) (v : text -> option text) (p : text) : Prop :=
  forall k, In k ps -> dget d k = Some (entry_text v k, p) /\ no_initial (v k) /\ (forall x, v k = Some x -> x <> [] /\ csupports c k x = true).
Lemma flat_l ps k : In k ps -> (ps = l_mask \/ ps = l_mask_border) -> is_shorthand k = false.
Proof.
  intros I [->| ->]; unfold l_mask, l_mask_border in I; cbn [In] in I;
  repeat match type of I with _ \/ _ => destruct I as [<-|I]; [reflexivity|] end; destruct I.
Qed.
Lemma mask_value c d v p pre post : css_ok c -> declared c d l_mask v p -> (exists k, In k l_mask /\ v k <> None) ->
  dkeys d = pre ++ post -> (forall k, In k l_mask -> In k post /\ ~ In k pre) -> (forall k, In k l_mask_border -> ~ In k post) ->
  sh_value depth c d (lit "mask") = mask_text v.
Proof.
  intros O H EX K K1 K2. unfold depth. rewrite (sh_value_all c d 2 (lit "mask") SMask l_mask (entry_text v) p).
  - change (longhands (lit "mask")) with l_mask. cbn [tostring]. apply mask_print; [|intros k Hk; apply (H k Hk)|exact EX].
    apply (order_tail true d l_mask l_mask_border pre post K); [discriminate|exact K1|exact K2].
  - reflexivity.
  - vm_compute. discriminate.
  - intros n Hn. change (longhands (lit "mask")) with l_mask in Hn. left. destruct (H n Hn) as (G & NI & SU).
    split; [apply (flat_l l_mask); auto|]. split; [exact G|]. unfold entry_text. destruct (v n) as [x|]; cbn [or_else].
    + destruct (SU x eq_refl) as [NE S]. split; [destruct x; [congruence|reflexivity]|exact S].
    + split; [reflexivity|apply (ok_wide c O); reflexivity].
Qed.
Lemma mask_border_value c d v p pre post : css_ok c -> declared c d l_mask_border v p -> (exists k, In k l_mask_border /\ v k <> None) ->
  dkeys d = pre ++ post -> (forall k, In k l_mask_border -> In k post /\ ~ In k pre) -> (forall k, In k l_mask -> ~ In k post) ->
  sh_value depth c d (lit "mask-border") = mask_border_text v.
Proof.
  intros O H EX K K1 K2. unfold depth. rewrite (sh_value_all c d 2 (lit "mask-border") SMaskBorder l_mask_border (entry_text v) p).
  - change (longhands (lit "mask-border")) with l_mask_border. cbn [tostring]. apply mask_border_print; [|intros k Hk; apply (H k Hk)|exact EX].
    apply (order_tail false d l_mask_border l_mask pre post K); [discriminate|exact K1|exact K2].
  - reflexivity.
  - vm_compute. discriminate.
  - intros n Hn. change (longhands (lit "mask-border")) with l_mask_border in Hn. left. destruct (H n Hn) as (G & NI & SU).
    split; [apply (flat_l l_mask_border); auto|]. split; [exact G|]. unfold entry_text. destruct (v n) as [x|]; cbn [or_else].
    + destruct (SU x eq_refl) as [NE S]. split; [destruct x; [congruence|reflexivity]|exact S].
    + split; [reflexivity|apply (ok_wide c O); reflexivity].
Qed.

(** mask: the words for mask-origin stand for mask-origin and mask-clip *)
Definition mask_given (gs : list group) (k : text) : option text :=
  if text_eqb k (lit "mask-origin") then match ggiven gs (lit "mask-origin") with Some (a :: _) => Some a | _ => None end
  else if text_eqb k (lit "mask-clip") then
    match ggiven gs (lit "mask-origin") with Some [a] => Some a | Some [_; b] => Some b | _ => None end
  else given gs k.
Lemma idents_of b ws : filter not_ws (tailed b ws) = map (mkC CIdent) ws.
Proof.
  induction ws as [|w r IH]; [reflexivity|]. cbn [tailed map]. destruct r as [|x r]; [destruct b; reflexivity|].
  change (filter not_ws (mkC CIdent w :: sp :: ?l)) with (mkC CIdent w :: filter not_ws l). rewrite IH. reflexivity.
Qed.
Lemma join_merge (a b : text) l1 l2 : join [32%N] (l1 ++ [a; b] ++ l2) = join [32%N] (l1 ++ [a ++ [32%N] ++ b] ++ l2).
Proof.
  induction l1 as [|x l1 IH].
  - cbn [app]. destruct l2 as [|y l2]; [reflexivity|]. change (join [32%N] (a :: b :: y :: l2)) with (a ++ [32%N] ++ b ++ [32%N] ++ join [32%N] (y :: l2)).
    change (join [32%N] ((a ++ 32%N :: b) :: y :: l2)) with ((a ++ 32%N :: b) ++ [32%N] ++ join [32%N] (y :: l2)). rewrite <- app_assoc. reflexivity.
  - cbn [app] in *. assert (J : forall l, join [32%N] (x :: l) = match l with [] => x | _ => x ++ [32%N] ++ join [32%N] l end) by (intros [|? ?]; reflexivity).
    rewrite !J. rewrite IH. destruct l1; reflexivity.
Qed.
Lemma read_mask_words c b gs p : css_ok c -> block_ok b -> breadonly b = false -> good_priority (lower p) = true ->
  sorted_out c l_mask gs -> gs <> [] -> (forall q v, In q l_mask -> mask_given gs q = Some v -> csupports c q v = true) ->
  ggiven gs (lit "mask-size") = None -> ggiven gs (lit "mask-clip") = None ->
  (forall ws, ggiven gs (lit "mask-origin") = Some ws -> exists x, ws = [x] \/ exists y, ws = [x; y] /\ x <> y) ->
  exists b', set_property c b (lit "mask") (value_text gs) (Some p) = Ok b' /\
    get_property_value c b' (lit "mask") = given_in_order gs l_mask /\
    forall q, In q l_mask -> get_property_value c b' q = or_else (lit "initial") (mask_given gs q).
Proof.
  intros O B R G S NE SU NS NC OR. destruct (value_text_facts c _ gs O S NE) as (NT & NV & PV & NP).
  assert (PI : cparse c (lit "initial") = [mkC CIdent (lit "initial")]) by (apply (ok_word c O); reflexivity).
  destruct (parse_each_sorted c l_mask gs [] false S) as (rest & cm0 & E & CM & K).
  { unfold l_mask. nodup_lits. }
  { destruct S as (_ & A & _). intros q Hq. apply in_map_iff in Hq as ([q' ws] & <- & Hq). destruct (A q' ws Hq) as (I & _). cbn [fst].
    unfold l_mask in I. cbn [In] in I. repeat match type of I with _ \/ _ => destruct I as [<-|I]; [reflexivity|] end; destruct I. }
  { constructor. }
  set (cm := match dget cm0 (lit "mask-origin") with
                | Some o =>
                    match filter not_ws o, dget cm0 (lit "mask-clip") with
                    | [a], None => dset cm0 (lit "mask-clip") [a]
                    | [a; b], None => dset (dset cm0 (lit "mask-origin") [a]) (lit "mask-clip") [b]
                    | _ :: _ :: _, _ => ddel cm0 (lit "mask-origin")
                    | _, _ => cm0
                    end
                | None => cm0
                end).
  assert (KC : dget cm0 (lit "mask-clip") = None) by (assert (X := K (lit "mask-clip")); rewrite NC in X; exact X).
  assert (PW : forall q ws, ggiven gs q = Some ws -> Forall plain ws).
  { intros q ws Gq. apply ggiven_in in Gq. destruct S as (_ & A & _). apply (A q ws Gq). }
  assert (CMK : dict_ok cm /\ forall k, match mask_given gs k with
     | Some t => exists l, dget cm k = Some l /\ strip (serialize l) = t | None => dget cm k = None end).
  { assert (OTH : forall k, k <> lit "mask-origin" -> k <> lit "mask-clip" ->
      match mask_given gs k with Some t => exists l, dget cm0 k = Some l /\ strip (serialize l) = t | None => dget cm0 k = None end).
    { intros k N1 N2. unfold mask_given. destruct (text_eqb_spec k (lit "mask-origin")); [contradiction|]. destruct (text_eqb_spec k (lit "mask-clip")); [contradiction|].
      rewrite given_words. assert (Kk := K k). destruct (ggiven gs k) as [ws|] eqn:Gk; [|exact Kk]. destruct Kk as [b' Kk].
      exists (tailed b' ws). split; [exact Kk|]. apply strip_tailed. exact (PW k ws Gk). }
    assert (KO := K (lit "mask-origin")). unfold cm. rewrite KC. unfold mask_given in *.
    destruct (ggiven gs (lit "mask-origin")) as [ws|] eqn:GO.
    - destruct KO as [b' KO]. rewrite KO, idents_of. assert (PP := PW _ _ GO). destruct (OR ws eq_refl) as (x & [-> |(y & -> & NXY)]); cbn [map].
      + inversion PP as [|? ? [Wx _] _]; subst. split; [apply dset_ok; exact CM|]. intros k. rewrite dget_dset.
        destruct (text_eqb_spec k (lit "mask-origin")) as [->|N1].
        * destruct (text_eqb_spec (lit "mask-clip") (lit "mask-origin")) as [X|]; [discriminate X|]. exists (tailed b' [x]). split; [exact KO|]. now apply (strip_tailed b' [x]).
        * destruct (text_eqb_spec k (lit "mask-clip")) as [->|N2].
          -- rewrite text_eqb_refl. exists [mkC CIdent x]. split; [reflexivity|]. rewrite serialize_one. now apply strip_word.
          -- destruct (text_eqb_spec (lit "mask-clip") k) as [X|]; [congruence|]. specialize (OTH k N1 N2).
             destruct (text_eqb_spec k (lit "mask-origin")); [contradiction|]. destruct (text_eqb_spec k (lit "mask-clip")); [contradiction|]. exact OTH.
      + inversion PP as [|? ? [Wx _] PP2]; subst. inversion PP2 as [|? ? [Wy _] _]; subst.
        split; [apply dset_ok, dset_ok; exact CM|]. intros k. rewrite !dget_dset.
        destruct (text_eqb_spec k (lit "mask-origin")) as [->|N1].
        * destruct (text_eqb_spec (lit "mask-clip") (lit "mask-origin")) as [X|]; [discriminate X|]. rewrite text_eqb_refl. exists [mkC CIdent x]. split; [reflexivity|].
          rewrite serialize_one. now apply strip_word.
        * destruct (text_eqb_spec k (lit "mask-clip")) as [->|N2].
          -- rewrite text_eqb_refl. exists [mkC CIdent y]. split; [reflexivity|]. rewrite serialize_one. now apply strip_word.
          -- destruct (text_eqb_spec (lit "mask-clip") k) as [X|]; [congruence|]. destruct (text_eqb_spec (lit "mask-origin") k) as [X|]; [congruence|].
             specialize (OTH k N1 N2).
             destruct (text_eqb_spec k (lit "mask-origin")); [contradiction|]. destruct (text_eqb_spec k (lit "mask-clip")); [contradiction|]. exact OTH.
    - cbn [dget] in KO. rewrite KO. split; [exact CM|]. intros k. destruct (text_eqb_spec k (lit "mask-origin")) as [->|N1]; [exact KO|].
      destruct (text_eqb_spec k (lit "mask-clip")) as [->|N2]; [exact KC|]. specialize (OTH k N1 N2).
      destruct (text_eqb_spec k (lit "mask-origin")); [contradiction|]. destruct (text_eqb_spec k (lit "mask-clip")); [contradiction|]. exact OTH. }
  destruct CMK as [CMD CMG].
  destruct (fill_spec l_mask (fun _ => cparse c (lit "initial")) cm CMD) as [FC FG].
  destruct (set_map_spec _ (bdecls b) (lower p) B FC) as (D' & GD & KD).
  assert (GV : forall k, In k l_mask -> dget (set_map (bdecls b) (fill l_mask (fun _ => cparse c (lit "initial")) cm) (lower p)) k = Some (entry_text (mask_given gs) k, lower p)).
  { intros k Hk. rewrite GD, FG. specialize (CMG k). unfold entry_text. destruct (mask_given gs k) as [t|].
    - destruct CMG as (l & -> & <-). reflexivity.
    - rewrite CMG. apply mem_in in Hk. rewrite Hk, PI. reflexivity. }
  set (d' := set_map _ _ _) in *.
  assert (NI : forall k t, mask_given gs k = Some t -> is_wide t = false /\ t <> []).
  { intros k t. unfold mask_given. assert (GW : forall q ws, ggiven gs q = Some ws -> forall w, In w ws -> is_wide w = false /\ w <> []).
    { intros q ws Gq w Hw. assert (F := PW q ws Gq). rewrite Forall_forall in F. destruct (F w Hw) as [A1 A2]. split; [exact A2|]. intros ->. discriminate. }
    destruct (text_eqb k (lit "mask-origin")).
    - destruct (ggiven gs (lit "mask-origin")) as [[|x r]|] eqn:GO; try discriminate. intros X. injection X as <-. apply (GW _ _ GO). now left.
    - destruct (text_eqb k (lit "mask-clip")).
      + destruct (ggiven gs (lit "mask-origin")) as [[|x [|y [|z r]]]|] eqn:GO; try discriminate; intros X; injection X as <-; apply (GW _ _ GO); cbn; tauto.
      + intros X. destruct (given_facts c _ gs k t S X) as (A1 & A2 & _). split; [exact A2|]. intros ->. discriminate. }
  exists (mkB d' false). split; [|split].
  - apply (set_block c b SMask); auto.
    + rewrite PV. exact NP.
    + rewrite PV. cbn [sh_set]. rewrite E. cbn [bind]. fold cm. cbn [finish_wide]. reflexivity.
  - change (lit "mask") with (sname SMask). rewrite (get_block c d' false SMask). change (sname SMask) with (lit "mask").
    assert (IN : forall k, In k (dkeys (fill l_mask (fun _ => cparse c (lit "initial")) cm)) <-> In k l_mask).
    { intros k. split.
      - intros Hk. apply dget_some_keys in Hk as [l Hk]. rewrite FG in Hk. specialize (CMG k). destruct (mask_given gs k) as [t|] eqn:MG.
        + unfold mask_given in MG. destruct (text_eqb_spec k (lit "mask-origin")) as [->|]; [unfold l_mask; cbn [In]; tauto|].
          destruct (text_eqb_spec k (lit "mask-clip")) as [->|]; [unfold l_mask; cbn [In]; tauto|].
          destruct (given_plain c _ gs k t S MG) as (ws & I & _). destruct S as (_ & A & _). apply (A k ws I).
        + rewrite CMG in Hk. destruct (mem k l_mask) eqn:Mk; [now apply mem_in|discriminate].
      - intros Hk. apply dget_some_keys. rewrite FG. destruct (dget cm k); [eauto|]. apply mem_in in Hk. rewrite Hk. eauto. }
    assert (TX : mask_text (mask_given gs) = given_in_order gs l_mask); [|rewrite <- TX; eapply (mask_value c d' (mask_given gs) (lower p) _ _ O); [| |exact KD| |]].
    + unfold mask_text. assert (MS : mask_given gs (lit "mask-size") = None).
      { change (mask_given gs (lit "mask-size")) with (given gs (lit "mask-size")). rewrite given_words, NS. reflexivity. }
      rewrite MS. cbn [is_none negb]. rewrite Bool.andb_false_r. unfold given_in_order, l_mask. cbn [flat_map slashed app].
      change (mask_given gs (lit "mask-image")) with (given gs (lit "mask-image")).
      change (mask_given gs (lit "mask-position")) with (given gs (lit "mask-position")).
      change (mask_given gs (lit "mask-repeat")) with (given gs (lit "mask-repeat")).
      change (mask_given gs (lit "mask-composite")) with (given gs (lit "mask-composite")).
      change (mask_given gs (lit "mask-mode")) with (given gs (lit "mask-mode")).
      assert (G2 : given gs (lit "mask-size") = None) by (rewrite given_words, NS; reflexivity).
      assert (G3 : given gs (lit "mask-clip") = None) by (rewrite given_words, NC; reflexivity). rewrite G2, G3.
      rewrite (given_words gs (lit "mask-origin")).
      change (mask_given gs (lit "mask-origin")) with (match ggiven gs (lit "mask-origin") with Some (a :: _) => Some a | _ => None end).
      change (mask_given gs (lit "mask-clip")) with (match ggiven gs (lit "mask-origin") with Some [a] => Some a | Some [_; b] => Some b | _ => None end).
      cbn [app]. rewrite app_nil_r.
      destruct (ggiven gs (lit "mask-origin")) as [ws|]; [|reflexivity].
      destruct (OR ws eq_refl) as (x & [-> |(y & -> & NXY)]); cbn [opt join].
      * rewrite text_eqb_refl. reflexivity.
      * destruct (text_eqb_spec x y) as [X|_]; [contradiction|]. unfold opt.
        set (l2 := (match given gs (lit "mask-composite") with Some v => [v] | None => [] end ++ match given gs (lit "mask-mode") with Some v => [v] | None => [] end)).
        rewrite !(app_assoc _ _ ([x] ++ _)), !(app_assoc _ _ ([x ++ [32%N] ++ y] ++ _)). apply join_merge.
    + intros k Hk. split; [now apply GV|]. split.
      * destruct (mask_given gs k) as [t|] eqn:MG; [|exact I]. cbn. apply (NI k t MG).
      * intros t MG. split; [apply (NI k t MG)|apply SU; assumption].
    + destruct (given_exists c _ gs S NE) as (q & t & I & Gq). exists q. split; [exact I|]. unfold mask_given.
      destruct (text_eqb_spec q (lit "mask-origin")) as [->|].
      * rewrite given_words in Gq. destruct (ggiven gs (lit "mask-origin")) as [ws|]; [|discriminate]. destruct (OR ws eq_refl) as (x & [-> |(y & -> & _)]); discriminate.
      * destruct (text_eqb_spec q (lit "mask-clip")) as [->|]; [rewrite given_words, NC in Gq; discriminate|congruence].
    + intros k Hk. split; [now apply IN|]. intros X. apply filter_In in X as [_ X]. apply IN in Hk. apply mem_in in Hk. rewrite Hk in X. discriminate.
    + intros k Hk X. apply IN in X. unfold l_mask_border, l_mask in *. cbn [In] in *.
      repeat match type of Hk with _ \/ _ => destruct Hk as [<-|Hk]; [repeat match type of X with _ \/ _ => destruct X as [X|X]; [discriminate X|] end; destruct X|] end; destruct Hk.
  - intros q Hq. unfold entry_text in GV. apply (get_longhand c d' q _ (lower p)); [apply (flat_l l_mask); auto| |now apply GV].
    unfold l_mask in Hq. cbn [In] in Hq. repeat match type of Hq with _ \/ _ => destruct Hq as [<-|Hq]; [reflexivity|] end; destruct Hq.
Qed.
