(** Properties of style rules (C44), the cascade (C45) and inheritance (C36). *)
From Verif Require Import PyBase PyText PySplit PyDict UtilsModel FontTextModel CascadeModel CascadeSpec CascadeProofs CascadeProofs2 CascadeProofs3.
#[local] Open Scope N_scope.

(** * C44 *)
(** The flattened rules are the rules that are no import or media rule, in
    document order, each kept exactly when all the media conditions around it hold. *)
Theorem c44_flatten win rs : exists k, kept (fun x => Forall (holds win) (fst x)) (flat_map (leaves []) rs) k /\ map snd k = flatten win rs.
Proof. apply flatten_kept. Qed.
Print Assumptions c44_flatten.
Example c44_flatten_case : flatten (Some (fun m => text_eqb m (lit "screen"))) [ROther 1; RMedia (lit "screen") [ROther 2; RImport (lit "print") [ROther 3]; RMedia [] [ROther 4]]; ROther 5]
  = [ROther 1; ROther 2; ROther 4; ROther 5].
Proof. vm_compute. reflexivity. Qed.
(** No group is left, and lists of rules are flattened independently. *)
Theorem c44_no_group win rs r : In r (flatten win rs) -> ~ is_group r.
Proof. intros I. apply in_flat_map in I. destruct I as (x & _ & I). exact (flatten1_leaf win x r I). Qed.
Print Assumptions c44_no_group.
Theorem c44_append win a b : flatten win (a ++ b) = flatten win a ++ flatten win b.
Proof. apply flatten_app. Qed.
Print Assumptions c44_append.
(** The rules of several sheets are those of each, in order. *)
Theorem c44_sheets win sheets : get_css_rules win sheets = concat (map (flatten win) sheets).
Proof.
  unfold get_css_rules. induction sheets as [|s l IH]; [reflexivity|]. cbn [concat map]. now rewrite flatten_app, IH.
Qed.
Print Assumptions c44_sheets.
(** Rules without groups are unchanged, so flattening twice changes nothing. *)
Theorem c44_flat_id win rs : Forall (fun r => ~ is_group r) rs -> flatten win rs = rs.
Proof.
  induction 1 as [|r rs H F IH]; [reflexivity|]. unfold flatten in *. cbn [flat_map]. rewrite IH. destruct r; try reflexivity; exfalso; now apply H.
Qed.
Print Assumptions c44_flat_id.
Theorem c44_idempotent win win' rs : flatten win' (flatten win rs) = flatten win rs.
Proof. apply c44_flat_id. apply Forall_forall. intros r I. exact (c44_no_group win rs r I). Qed.
Print Assumptions c44_idempotent.
Example c44_idempotent_case : flatten None (flatten (Some (fun _ => true)) [RMedia (lit "print") [ROther 1]]) = [ROther 1] /\ flatten None [RMedia (lit "print") [ROther 1]] = [].
Proof. now vm_compute. Qed.
(** A 'link' contributes its sheet exactly when it is a used style sheet link
    whose media hold; a 'style' when its type is text/css and it has text. *)
Theorem c44_link win rel as_ h media sheet : h <> [] ->
  (source_sheet win (SLink rel as_ (Some h) media sheet) = Ok (Some sheet) <-> sheet_link rel as_ h /\ holds win media) /\
  (source_sheet win (SLink rel as_ (Some h) media sheet) = Ok None <-> ~ (sheet_link rel as_ h /\ holds win media)).
Proof.
  intros Hn. destruct h as [|c h]; [contradiction|]. clear Hn.
  assert (G : exists b, (b = true <-> sheet_link rel as_ (c :: h) /\ holds win media) /\ source_sheet win (SLink rel as_ (Some (c :: h)) media sheet) = Ok (if b then Some sheet else None)).
  { exists (negb (mem (lit "alternate") rel || (negb (mem (lit "stylesheet") rel) && negb (mem (lit "preload") rel && text_eqb as_ (lit "style")))
         || (mem (lit "preload") rel && negb (text_eqb as_ (lit "style")))) && negb (c =? 35) && media_ok win media). split.
    - rewrite !andb_true_iff, !negb_true_iff, !orb_false_iff, media_iff. unfold sheet_link. rewrite mem_not_in.
      assert (Hh : (c =? 35) = false <-> forall r, c :: h <> lit "#" ++ r).
      { rewrite N.eqb_neq. split; [intros X r E; injection E as -> _; now apply X|intros X ->; now apply (X h)]. }
      rewrite Hh. rewrite <- (mem_in (lit "stylesheet")), <- (mem_in (lit "preload")).
      destruct (text_eqb_spec as_ (lit "style")) as [Es|Es]; destruct (mem (lit "stylesheet") rel), (mem (lit "preload") rel); cbn; intuition congruence.
    - cbn [source_sheet].
      destruct (mem (lit "alternate") rel || (negb (mem (lit "stylesheet") rel) && negb (mem (lit "preload") rel && text_eqb as_ (lit "style")))
         || (mem (lit "preload") rel && negb (text_eqb as_ (lit "style")))); [reflexivity|]. destruct (c =? 35); [reflexivity|]. reflexivity. }
  destruct G as (b & Hb & ->). destruct b; split; split; intros H; try discriminate H; try reflexivity.
  - now apply Hb.
  - exfalso. now apply H, Hb.
  - apply Hb in H. discriminate.
  - intros X. apply Hb in X. discriminate.
Qed.
Print Assumptions c44_link.
Example c44_link_case : source_sheet None (SLink [lit "preload"; lit "stylesheet"] (lit "style") (Some (lit "a.css")) [] [ROther 1]) = Ok (Some [ROther 1])
  /\ source_sheet None (SLink [lit "stylesheet"; lit "alternate"] [] (Some (lit "a.css")) [] [ROther 1]) = Ok None
  /\ source_sheet None (SLink [lit "preload"] [] (Some (lit "a.css")) [] [ROther 1]) = Ok None.
Proof. now vm_compute. Qed.
Theorem c44_style win type content media sheet :
  source_sheet win (SStyle type (Some content) media sheet) = Ok (Some sheet) <-> type = lit "text/css" /\ holds win media.
Proof.
  cbn [source_sheet is_some negb]. rewrite orb_false_r. rewrite <- media_iff. destruct (text_eqb_spec type (lit "text/css")) as [E|N]; cbn [negb].
  - destruct (media_ok win media); split; auto; try discriminate. intros [_ X]. discriminate.
  - split; [discriminate|]. intros [X _]. contradiction.
Qed.
Print Assumptions c44_style.
(** The claim that a link with an empty target is skipped is false. *)
Theorem c44_empty_href_refuted : exists win media sheet, source_sheet win (SLink [lit "stylesheet"] [] (Some []) media sheet) = Err IndexError.
Proof. exists None, [], []. reflexivity. Qed.
Print Assumptions c44_empty_href_refuted.

(** * C45 *)
(** Each property has the value of its last declaration among the matching
    rules; the important ones are those of the last important declaration. *)
Theorem c45_last matches nsmap default rules k v :
  dget (fst (get_css_style matches nsmap default rules)) k = Some v <->
  last_value (fun _ => True) (declared matches (match default with None => nsmap | Some u => dset nsmap (lit "svg") u end) rules) k v.
Proof. unfold get_css_style. rewrite cascade_declared. apply declare_all. Qed.
Print Assumptions c45_last.
Theorem c45_important matches nsmap default rules k v :
  dget (snd (get_css_style matches nsmap default rules)) k = Some v <->
  last_value (fun p => p = lit "important") (declared matches (match default with None => nsmap | Some u => dset nsmap (lit "svg") u end) rules) k v.
Proof. unfold get_css_style. rewrite cascade_declared. apply declare_all. Qed.
Print Assumptions c45_important.
Example c45_case :
  let decl k v p := (lit k, (lit v, lit p)) in
  let rules := [RStyle (lit "a") [decl "fill" "red" "important"; decl "stroke" "blue" ""]; RStyle (lit "b") [decl "fill" "green" "important"]; RStyle (lit "a") [decl "fill" "black" ""]]%string in
  get_css_style (fun _ s => Some (text_eqb s (lit "a"))) [] None rules =
  ([(lit "fill", lit "black"); (lit "stroke", lit "blue")], [(lit "fill", lit "red")]).
Proof. vm_compute. reflexivity. Qed.
(** A property without a matching declaration has no value, and no property occurs twice. *)
Theorem c45_absent matches nsmap default rules k :
  dget (fst (get_css_style matches nsmap default rules)) k = None <->
  forall v p, ~ In (k, (v, p)) (declared matches (match default with None => nsmap | Some u => dset nsmap (lit "svg") u end) rules).
Proof.
  set (ds := declared _ _ _). split.
  - intros E v p I. unfold get_css_style in E. rewrite cascade_declared in E. fold ds in E.
    assert (X : exists v', last_value (fun _ => True) ds k v').
    { clear E. induction ds as [|[k0 [v0 p0]] l IH] using rev_ind; [destruct I|]. destruct (text_eqb_spec k0 k) as [->|N].
      - exists v0, l, p0, []. split; [reflexivity|]. split; [exact Logic.I|]. intros ? ? [].
      - apply in_app_or in I. destruct I as [J|[J|[]]]; [|congruence]. destruct (IH J) as (v' & a & q & b & -> & _ & L).
        exists v', a, q, (b ++ [(k0, (v0, p0))]). split; [now rewrite <- app_assoc|]. split; [exact Logic.I|].
        intros v1 p1 J1. apply in_app_or in J1. destruct J1 as [J1|[J1|[]]]; [exact (L v1 p1 J1)|congruence]. }
    destruct X as (v' & X). apply declare_all in X. pose proof (eq_trans (eq_sym E) X) as Z. discriminate Z.
  - intros H. destruct (dget (fst (get_css_style matches nsmap default rules)) k) as [v|] eqn:E; [|reflexivity]. apply c45_last in E. fold ds in E.
    destruct E as (a & p & b & E & _). exfalso. apply (H v p). rewrite E. apply in_or_app. right. now left.
Qed.
Print Assumptions c45_absent.
(** An important value is never there without a value, and no property occurs twice. *)
Theorem c45_important_declared matches nsmap default rules k v :
  dget (snd (get_css_style matches nsmap default rules)) k = Some v -> exists v', dget (fst (get_css_style matches nsmap default rules)) k = Some v'.
Proof.
  intros E. apply c45_important in E. destruct (dget (fst (get_css_style matches nsmap default rules)) k) as [v'|] eqn:G; [eauto|].
  destruct E as (a & p & b & E & _). apply (proj1 (c45_absent matches nsmap default rules k)) with (v := v) (p := p) in G. exfalso. apply G. rewrite E. apply in_or_app. right. now left.
Qed.
Print Assumptions c45_important_declared.
Theorem c45_unique matches nsmap default rules :
  NoDup (dkeys (fst (get_css_style matches nsmap default rules))) /\ NoDup (dkeys (snd (get_css_style matches nsmap default rules))).
Proof. unfold get_css_style. rewrite cascade_declared. apply declare_ok. split; constructor. Qed.
Print Assumptions c45_unique.
(** A rule whose selector does not match, or that is of another kind, plays no part. *)
Theorem c45_unmatched matches nsmap default a sel ds b :
  (forall ns, matches ns sel <> Some true) ->
  get_css_style matches nsmap default (a ++ RStyle sel ds :: b) = get_css_style matches nsmap default (a ++ b).
Proof.
  intros H. unfold get_css_style. rewrite !fold_left_app. cbn [fold_left]. do 2 f_equal. unfold cascade_step at 1.
  match goal with |- context [matches ?n sel] => specialize (H n); destruct (matches n sel) as [[|]|]; [congruence|reflexivity|reflexivity] end.
Qed.
Print Assumptions c45_unmatched.
(** Selectors of a namespace's prefix see the namespaces declared before them. *)
Example c45_namespace_case :
  let matches ns (s : text) := match dget ns s with Some u => Some (text_eqb u (lit "urn:x")) | None => None end in
  get_css_style matches [] None [RStyle (lit "p") [(lit "fill", (lit "red", []))]; RNamespace (lit "p") (lit "urn:x"); RStyle (lit "p") [(lit "stroke", (lit "blue", []))]]
  = ([(lit "stroke", lit "blue")], []).
Proof. vm_compute. reflexivity. Qed.
Theorem c45_namespace matches nsmap default a p u sel ds : u <> [] ->
  (forall ns, dget ns (prefix_of p) = Some u -> matches ns sel = Some true) ->
  forall k v, last_value (fun _ => True) ds k v -> dget (fst (get_css_style matches nsmap default (a ++ [RNamespace p u; RStyle sel ds]))) k = Some v.
Proof.
  intros Hu Hm k v L. unfold get_css_style. rewrite fold_left_app. cbn [fold_left cascade_step fst snd].
  remember (fold_left (cascade_step matches) a (start_namespaces nsmap default, ([], []))) as z eqn:Z.
  rewrite Hm; [|unfold namespace_rule, prefix_of; destruct u; [contradiction|]; destruct p; apply dset_here]. cbn [snd].
  destruct L as (x & q & y & -> & _ & L). rewrite fold_left_app. cbn [fold_left].
  assert (G : forall y s, (forall v' p', In (k, (v', p')) y -> False) -> dget (fst s) k = Some v -> dget (fst (fold_left declare y s)) k = Some v).
  { clear. induction y as [|[k0 [v0 p0]] y IH]; intros s N E; [exact E|]. cbn [fold_left]. apply IH; [intros v' p' I; apply (N v' p'); now right|].
    unfold declare. cbn [fst snd]. rewrite dset_other; [exact E|]. intros ->. apply (N v0 p0). now left. }
  apply G; [intros v' p' I; exact (L v' p' I Logic.I)|]. unfold declare. cbn [fst snd]. apply dset_here.
Qed.
Print Assumptions c45_namespace.

(** * C36 *)
(** An element's value of a property: an important rule, else its style
    attribute, else its attribute, else a rule. *)
Theorem c36_specified e k : el_ok e -> k <> lit "style" -> dget (css_style e) k = specified e k.
Proof. apply css_specified. Qed.
Print Assumptions c36_specified.
Example c36_specified_case :
  let e := mkEl [(lit "fill", lit "a"); (lit "stroke", lit "b"); (lit "color", lit "c")] [(lit "color", lit "i")] [(lit "stroke", lit "d"); (lit "style", lit "fill: e; color: f")] in
  el_ok e /\ map (dget (css_style e)) [lit "fill"; lit "stroke"; lit "color"; lit "x"] = [Some (lit "e"); Some (lit "d"); Some (lit "i"); None].
Proof. cbv zeta. split; [repeat split; repeat constructor; absent|vm_compute; reflexivity]. Qed.

(** A property no shorthand touches has the value of the nearest element that
    specifies one other than 'inherit', else its initial value. *)
Theorem c36_plain shlex self ancestors s k init : Forall el_ok (self :: ancestors) -> In (k, init) plain_props -> get_inherited_style shlex self ancestors = Ok s ->
  dget s k = option_map ST (or_else (nearest (wanted k) (self :: ancestors)) init).
Proof.
  intros Eo I E.
  assert (H : forallb (fun p => mem (fst p) (dkeys inherited_props) && negb (mem (fst p) ten) && negb (mem (fst p) six) &&
     match dget inherited_props (fst p), snd p with Some (Some (ST x)), Some y => text_eqb x y | Some None, None => true | _, _ => false end) plain_props = true) by (vm_compute; reflexivity).
  rewrite forallb_forall in H. specialize (H _ I). cbn [fst snd] in H. rewrite !andb_true_iff, !negb_true_iff, mem_in, !mem_not_in in H. destruct H as (((A & B) & C) & D).
  rewrite (plain_main shlex self ancestors s k Eo (conj A (conj B C)) E). destruct (nearest (wanted k) (self :: ancestors)) as [v|]; [reflexivity|]. cbn [or_else].
  revert D. destruct (dget inherited_props k) as [[[x|l]|]|]; destruct init as [y|]; intros D; try discriminate; [|reflexivity].
  destruct (text_eqb_spec x y) as [Exy|]; [now rewrite Exy|discriminate].
Qed.
Print Assumptions c36_plain.
Definition demo_chain : list el := [mkEl [] [] [(lit "fill", lit "inherit"); (lit "style", lit "stroke: red")];
  mkEl [(lit "fill", lit "green")] [] [(lit "font", lit "x")]; mkEl [] [] [(lit "fill", lit "blue"); (lit "lang", lit "en"); (lit "font-variant-caps", lit "unicase")]].
Definition demo_shlex (t : text) : result (list text) := Ok (split_ws (lit "italic 12px serif")).
Definition demo_style : dict sval := match get_inherited_style demo_shlex (hd (mkEl [] [] []) demo_chain) (tl demo_chain) with Ok s => s | Err _ => [] end.
Example c36_demo : Forall el_ok demo_chain /\ is_ok (get_inherited_style demo_shlex (hd (mkEl [] [] []) demo_chain) (tl demo_chain)) = true /\
  map (dget demo_style) (map lit ["fill"; "stroke"; "lang"; "color"; "font-style"; "font-weight"; "font-family"; "font-variant-caps"; "display"; "opacity"]%string)
  = [Some (ST (lit "green")); Some (ST (lit "red")); Some (ST (lit "en")); Some (ST (lit "black")); Some (ST (lit "italic")); Some (ST (lit "normal"));
     Some (SL [lit "serif"]); Some (ST (lit "normal")); Some (ST (lit "inline")); Some (ST (lit "1"))].
Proof. split; [repeat constructor; absent|]. split; vm_compute; reflexivity. Qed.

(** A longhand of 'font': the nearest element specifying the longhand or
    'font' decides, and on one element the longhand wins. *)
Theorem c36_font shlex self ancestors s k init : Forall el_ok (self :: ancestors) -> In (k, init) font_props -> get_inherited_style shlex self ancestors = Ok s ->
  dget s k = match nearest (longhand_at shlex k) (self :: ancestors) with Some v => v | None => Some (ST init) end.
Proof.
  intros Eo I E.
  assert (H : forallb (fun p => mem (fst p) ten && negb (text_eqb (fst p) (lit "font-family")) &&
     match dget inherited_props (fst p) with Some (Some (ST x)) => text_eqb x (snd p) | _ => false end) font_props = true) by (vm_compute; reflexivity).
  rewrite forallb_forall in H. specialize (H _ I). cbn [fst snd] in H. rewrite !andb_true_iff, !negb_true_iff, mem_in in H. destruct H as ((A & B) & D).
  assert (N : k <> lit "font-family") by (intros ->; rewrite text_eqb_refl in B; discriminate).
  rewrite (font_main_k shlex self ancestors s k Eo A N E). destruct (nearest (longhand_at shlex k) (self :: ancestors)) as [v|]; [reflexivity|].
  revert D. destruct (dget inherited_props k) as [[[x|l]|]|]; intros D; try discriminate. destruct (text_eqb_spec x init) as [Exy|]; [now rewrite Exy|discriminate].
Qed.
Print Assumptions c36_font.
(** The family is a list of names, by default the generic one. *)
Theorem c36_family shlex self ancestors s : Forall el_ok (self :: ancestors) -> get_inherited_style shlex self ancestors = Ok s ->
  dget s (lit "font-family") = or_else (match nearest (family_at shlex) (self :: ancestors) with Some v => v | None => None end) (Some (SL [lit "sans-serif"])).
Proof. intros Eo E. apply (proj1 (family_main shlex self ancestors s Eo E)). Qed.
Print Assumptions c36_family.
Theorem c36_family_default shlex self ancestors s : Forall el_ok (self :: ancestors) -> get_inherited_style shlex self ancestors = Ok s ->
  (forall e, In e (self :: ancestors) -> wanted (lit "font") e = None /\ wanted (lit "font-family") e = None) <-> nearest (family_at shlex) (self :: ancestors) = None.
Proof.
  intros Eo E. split.
  - intros H. clear E Eo. revert H. generalize (self :: ancestors). induction l as [|e l IH]; intros H; [reflexivity|]. cbn [nearest].
    destruct (H e (or_introl eq_refl)) as [A B]. unfold family_at at 1, font_of at 1. rewrite A, B. cbn [or_else]. apply IH. intros x J. apply H. now right.
  - intros N e I. exact (proj2 (family_main shlex self ancestors s Eo E) e N I).
Qed.
Print Assumptions c36_family_default.
(** The parts of font-variant, when no element of the chain uses a system font:
    the part itself, else the font-variant of 'font', else font-variant. *)
Theorem c36_variants_partial shlex self ancestors s k : Forall el_ok (self :: ancestors) -> In k variant_props ->
  (forall e, In e (self :: ancestors) -> ~ system_font_at shlex e) -> get_inherited_style shlex self ancestors = Ok s ->
  dget s k = or_else (nearest (variant_at shlex k) (self :: ancestors)) (Some (variant_value k (lit "normal"))).
Proof.
  intros Eo I Ns E. rewrite (var_main shlex self ancestors s k Eo I Ns E). destruct (nearest (variant_at shlex k) (self :: ancestors)) as [v|]; [reflexivity|].
  destruct I as [<-|[<-|[<-|[<-|[<-|[<-|[]]]]]]]; reflexivity.
Qed.
Print Assumptions c36_variants_partial.
(** 'font' itself, and 'marker', which no readable chain may use. *)
Theorem c36_font_itself shlex self ancestors s : Forall el_ok (self :: ancestors) -> get_inherited_style shlex self ancestors = Ok s ->
  dget s (lit "font") = option_map ST (nearest (wanted (lit "font")) (self :: ancestors)).
Proof. intros Eo E. rewrite (plain_main shlex self ancestors s _ Eo font_plain E). destruct (nearest _ _); reflexivity. Qed.
Print Assumptions c36_font_itself.
(** Nothing is displayed inside an element whose display is none. *)
Theorem c36_display shlex self ancestors s : Forall el_ok (self :: ancestors) -> get_inherited_style shlex self ancestors = Ok s ->
  ((exists e, In e (self :: ancestors) /\ specified e (lit "display") = Some (lit "none")) -> dget s (lit "display") = Some (ST (lit "none"))) /\
  ((forall e, In e (self :: ancestors) -> specified e (lit "display") <> Some (lit "none")) ->
   dget s (lit "display") = Some (ST (match or_else (dget (e_attr self) (lit "display")) (Some (lit "inline")) with Some v => v | None => [] end))).
Proof.
  intros Eo E. rewrite (display_main shlex self ancestors s Eo E). split.
  - intros (e & I & D). assert (X : existsb (fun e => match specified e (lit "display") with Some d => text_eqb d (lit "none") | None => false end) (self :: ancestors) = true).
    { apply existsb_exists. exists e. split; [exact I|]. now rewrite D, text_eqb_refl. }
    now rewrite X.
  - intros H. destruct (existsb _ (self :: ancestors)) eqn:X.
    + apply existsb_exists in X. destruct X as (e & I & X). exfalso. apply (H e I). destruct (specified e (lit "display")) as [d|]; [|discriminate].
      destruct (text_eqb_spec d (lit "none")) as [Ed|]; [now rewrite Ed|discriminate].
    + destruct (dget (e_attr self) (lit "display")); reflexivity.
Qed.
Print Assumptions c36_display.
Example c36_display_case : map (fun d => match get_inherited_style demo_shlex (mkEl [] [] [(lit "display", lit "block")]) [mkEl [] [] [(lit "style", lit "display:" ++ d)]] with Ok s => dget s (lit "display") | Err _ => None end) [lit "none"; lit "x"]
  = [Some (ST (lit "none")); Some (ST (lit "block"))].
Proof. vm_compute. reflexivity. Qed.
(** The other properties come from the element's own attribute alone. *)
Theorem c36_not_inherited shlex self ancestors s k d : In (k, d) standing -> get_inherited_style shlex self ancestors = Ok s ->
  dget s k = Some (ST (match dget (e_attr self) k with Some v => v | None => d end)).
Proof.
  intros I E. assert (N : k <> lit "display") by (intros ->; revert I; cbn; intuition discriminate). apply (outside_main shlex self ancestors s k d); [|exact N|exact E].
  assert (H : forallb (fun p => match dget non_inherited (fst p) with Some x => text_eqb x (snd p) | None => false end) standing = true) by (vm_compute; reflexivity).
  rewrite forallb_forall in H. specialize (H _ I). cbn [fst snd] in H. revert H. destruct (dget non_inherited k) as [x|]; intros H; [|discriminate]. destruct (text_eqb_spec x d) as [Exy|]; [now rewrite Exy|discriminate].
Qed.
Print Assumptions c36_not_inherited.
(** It succeeds when no element wants 'marker', none wants both 'font' and
    'font-family', and the quotes of those two are balanced. *)
Theorem c36_total_partial shlex self ancestors : Forall el_ok (self :: ancestors) ->
  (forall e, In e (self :: ancestors) -> wanted (lit "marker") e = None /\ (wanted (lit "font") e = None \/ wanted (lit "font-family") e = None)) ->
  (forall t, is_ok (shlex t) = true) -> exists s, get_inherited_style shlex self ancestors = Ok s.
Proof.
  intros Eo H S. unfold get_inherited_style. destruct (walk_total shlex (self :: ancestors) Eo) with (st := (own_props (e_attr self), inherited_props)) as (st & ->).
  - apply Forall_forall. intros e I. destruct (H e I) as [A B]. split; [exact A|]. split; [exact B|]. split; [auto|]. intros v _. unfold parse_font_family.
    destruct (existsb _ v); [|reflexivity]. specialize (S v). destruct (shlex v); [reflexivity|discriminate].
  - exact inh_start.
  - cbn [bind]. eauto.
Qed.
Print Assumptions c36_total_partial.
(** What is false of the code: 'font' with 'font-family' on one element fails,
    'marker' fails, a font-variant next to 'font' does not reach its parts, a
    system font loses the longhands, and a style attribute does not reach the
    properties that are not inherited. *)
Theorem c36_font_and_family_refuted : exists shlex e, el_ok e /\ get_inherited_style shlex e [] = Err KeyError.
Proof.
  exists (fun t => Ok (split_ws t)), (mkEl [] [] [(lit "font", lit "12px serif"); (lit "font-family", lit "monospace")]). split; [repeat split; repeat constructor; absent|vm_compute; reflexivity].
Qed.
Print Assumptions c36_font_and_family_refuted.
Theorem c36_marker_refuted : exists shlex e, el_ok e /\ get_inherited_style shlex e [] = Err NotImplementedError_.
Proof. exists (fun t => Ok (split_ws t)), (mkEl [] [] [(lit "marker", lit "none")]). split; [repeat split; repeat constructor; absent|vm_compute; reflexivity]. Qed.
Print Assumptions c36_marker_refuted.
Theorem c36_font_variant_refuted : exists shlex e s, el_ok e /\ get_inherited_style shlex e [] = Ok s /\
  specified e (lit "font-variant") = Some (lit "small-caps") /\ dget s (lit "font-variant") = Some (ST (lit "small-caps")) /\ dget s (lit "font-variant-caps") = Some (ST (lit "normal")).
Proof.
  exists (fun t => Ok (split_ws t)), (mkEl [] [] [(lit "font", lit "12px serif"); (lit "font-variant", lit "small-caps")]). eexists. split; [repeat split; repeat constructor; absent|].
  split; [vm_compute; reflexivity|]. repeat split; vm_compute; reflexivity.
Qed.
Print Assumptions c36_font_variant_refuted.
Theorem c36_system_font_refuted : exists shlex e s, el_ok e /\ get_inherited_style shlex e [] = Ok s /\ dget s (lit "font-size") = None /\ dget s (lit "font-weight") = None.
Proof.
  exists (fun t => Ok (split_ws t)), (mkEl [] [] [(lit "font", lit "caption")]). eexists. split; [repeat split; repeat constructor; absent|].
  split; [vm_compute; reflexivity|]. repeat split; vm_compute; reflexivity.
Qed.
Print Assumptions c36_system_font_refuted.
Theorem c36_style_opacity_refuted : exists shlex e s, el_ok e /\ get_inherited_style shlex e [] = Ok s /\ specified e (lit "opacity") = Some (lit "0.5") /\ dget s (lit "opacity") = Some (ST (lit "1")).
Proof.
  exists (fun t => Ok (split_ws t)), (mkEl [] [] [(lit "style", lit "opacity: 0.5")]). eexists. split; [repeat split; repeat constructor; absent|].
  split; [vm_compute; reflexivity|]. repeat split; vm_compute; reflexivity.
Qed.
Print Assumptions c36_style_opacity_refuted.
(** CSSUtils.get_value: the first element giving the attribute a value (or a
    default) other than 'inherit' decides; 'auto' lengths are 100% of an svg, else 0. *)
Theorem c36_get_value chain key default r : get_value chain key default = Ok r ->
  (fst r = None /\ snd r = 0%nat /\ forall x, In x chain -> given (snd x) key default = None \/ given (snd x) key default = Some (lit "inherit")) \/
  (exists pre name attr post w, chain = pre ++ (name, attr) :: post /\ snd r = length pre /\
     (forall x, In x pre -> given (snd x) key default = None \/ given (snd x) key default = Some (lit "inherit")) /\
     given attr key default = Some w /\ w <> lit "inherit" /\
     fst r = Some (if text_eqb w (lit "auto") && mem key [lit "width"; lit "height"] then if text_eqb name (lit "svg") then lit "100%" else lit "0" else w)).
Proof. apply (get_value_spec key default chain 0). Qed.
Print Assumptions c36_get_value.
Example c36_get_value_case : get_value [(lit "rect", [(lit "width", lit "inherit")]); (lit "g", []); (lit "svg", [(lit "width", lit "auto")])] (lit "width") None = Ok (Some (lit "100%"), 2%nat).
Proof. vm_compute. reflexivity. Qed.
