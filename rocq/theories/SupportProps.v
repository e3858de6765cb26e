(** C66: a property supports exactly the values built from the terms of its syntax. *)
From Coq Require Import ZArith NArith List Lia.
From Verif Require Import PyBase PyText PySplit PyDict PyCase DatasetModel SupportModel SupportTable SupportSpec SupportProofs SupportProofs2 SupportProofs3.
#[local] Open Scope N_scope.
Import ListNotations.

Definition some_colors (w : text) : bool := mem (lower w) [lit "black"; lit "white"].
(* fill: none | <color> | <url> [ none | <color> ]? | context-fill *)
Definition word (w : string) : item := (Some (TWord (lit w)), Once).
Definition ty (n : string) : item := (Some (TType (lit n)), Once).
Definition gap : item := (None, Once).
Definition paint : syntax :=
  ([(word "none", Blank); (gap, Bar); (gap, Blank); (ty "color", Blank); (gap, Bar); (gap, Blank); (ty "url", Blank); (gap, Open); (gap, Blank); (word "none", Blank); (gap, Bar); (gap, Blank); (ty "color", Blank); (gap, Close);
    ((None, Marked Optional), Blank); (gap, Bar); (gap, Blank)], word "context-fill").
Definition lengths : syntax := ([(gap, Open); (gap, Blank); (ty "length-percentage", Bar); (word "auto", Blank); (gap, Close); ((None, Twice Hash Star), Bars)], (Some (TFun (lit "fit-content") (lit "<x>#")), Ranged (Between 1 4))).
Example ex_paint : render paint = lit "none | <color> | <url> [ none | <color> ]? | context-fill" /\ wf paint /\ render lengths = lit "[ <length-percentage>|auto ]#*||<fit-content(<x>#)>{1,4}" /\ wf lengths.
Proof. split; [reflexivity|]. split; [unfold wf; repeat constructor|]. split; [reflexivity|unfold wf; repeat constructor]. Qed.

(** ** One token *)
(* a token is supported when it is universal or some term of the syntax accepts it, whatever the
   combinators and multipliers *)
Theorem c66_support cw s k : wf s -> render s <> lit "*" -> broken k = None ->
  exists o, support cw (descriptor (render s)) k = Ok (accepted cw s k, o).
Proof.
  intros W A B. assert (X := support_render cw s k W). rewrite B in X. destruct X as (o & X & _); [|eauto]. destruct (text_eqb_spec (render s) ANY); [now elim A|reflexivity].
Qed.
Print Assumptions c66_support.
Example ex_support : support some_colors (descriptor (render paint)) (KIdent (lit "Black")) = Ok (true, Some COLOR) /\ support some_colors (descriptor (render paint)) (KIdent (lit "nothing")) = Ok (false, None) /\
  support some_colors (descriptor (render paint)) KUrl = Ok (true, Some URL) /\ support some_colors (descriptor (render lengths)) (KFun (lit "fit-content")) = Ok (true, None) /\ support some_colors (descriptor (render lengths)) (KNum true) = Ok (true, Some LENGTH_PERCENTAGE).
Proof. vm_compute. auto. Qed.
(* the type named in the answer is a type of the syntax the token belongs to; "<custom-ident>" also
   stands for a word of the syntax, for "<string>" and for currentcolor *)
Theorem c66_type cw s k n : wf s -> render s <> lit "*" -> support cw (descriptor (render s)) k = Ok (true, Some n) ->
  (exists m, n = term_text (TType m) /\ In (TType m) (terms s) /\ accepts cw (TType m) k = true) \/
  n = lit "<custom-ident>" /\ (In (TType (lit "string")) (terms s) \/ In (TType (lit "color")) (terms s) \/ exists w, In (TWord w) (terms s) /\ accepts cw (TWord w) k = true).
Proof.
  intros W A H. assert (X := support_render cw s k W). destruct (broken k) as [e|] eqn:B.
  - rewrite X in H; [discriminate|]. destruct (text_eqb_spec (render s) ANY); [now elim A|reflexivity].
  - destruct X as (o & X & T); [destruct (text_eqb_spec (render s) ANY); [now elim A|reflexivity]|]. rewrite H in X. injection X as Y <-. specialize (T (eq_sym Y)).
    assert (HT : forall m, has_type s m = true -> In (TType m) (terms s)) by (intros m; unfold has_type; rewrite existsb_exists; intros (t & I & E); destruct t as [x| |]; try discriminate; destruct (text_eqb_spec x m) as [->|]; [exact I|discriminate]).
    assert (HW : forall v, has_word s v = true -> In (TWord v) (terms s) /\ reserved v = false).
    { intros v. unfold has_word. rewrite existsb_exists. intros (t & I & E). destruct t as [| |x]; try discriminate. destruct (text_eqb_spec v x) as [->|]; [|discriminate]. split; [exact I|]. cbn [andb] in E. now apply negb_true_iff. }
    destruct T as [(m & -> & T & I)|[-> T]].
    + left. exists m. split; [reflexivity|]. split; [auto|]. cbn [accepts]. now apply mem_in.
    + right. split; [reflexivity|]. destruct k as [| | |v|v|v| | | | |]; try contradiction.
      * destruct T as [T|[T|[T _]]]; auto. apply HW in T as [T R]. right; right. exists v. split; [exact T|]. cbn [accepts]. now rewrite text_eqb_refl, R.
      * destruct T as [T|[T|[T _]]]; auto. apply HW in T as [T R]. right; right. exists v. split; [exact T|]. cbn [accepts]. now rewrite text_eqb_refl, R.
      * apply HW in T as [T R]. right; right. exists v. split; [exact T|]. cbn [accepts]. now rewrite text_eqb_refl, R.
      * auto.
Qed.
Print Assumptions c66_type.
(* whatever text the syntax is: only an error token and a token of an unknown kind raise *)
Theorem c66_support_raises cw t k : match broken k with Some e => support cw (descriptor t) k = Err e | None => exists a, support cw (descriptor t) k = Ok a end.
Proof. apply support_total. Qed.
Print Assumptions c66_support_raises.
Example ex_raises : support some_colors (descriptor (lit "*")) (KNum false) = Ok (true, Some NUMBER) /\ support some_colors (descriptor (lit "|[<length>]]&")) KOther = Err NotImplementedError_. Proof. vm_compute. auto. Qed.

(** ** A value *)
(* all tokens are fine, a comma needs a list or the word ",", a CSS-wide keyword stands alone;
   otherwise False, or an exception when the first token that is not fine cannot be read *)
Theorem c66_supports cw s ks : wf s -> render s <> lit "*" -> supports cw (descriptor (render s)) ks = verdict cw s ks.
Proof. intros W A. apply supports_render; [exact W|]. destruct (text_eqb_spec (render s) ANY); [now elim A|reflexivity]. Qed.
Print Assumptions c66_supports.
Theorem c66_supports_iff cw s ks : wf s -> render s <> lit "*" ->
  supports cw (descriptor (render s)) ks = Ok true <->
  Forall (fun k => fine cw s k = true) ks /\ (existsb keyword ks = true -> length ks = 1%nat).
Proof. intros W A. rewrite c66_supports by assumption. apply verdict_true. Qed.
Print Assumptions c66_supports_iff.
Example ex_supports : supports some_colors (descriptor (render paint)) [KUrl; KIdent (lit "none")] = Ok true /\ supports some_colors (descriptor (render paint)) [KUrl; KIdent (lit "inherit")] = Ok false /\
  supports some_colors (descriptor (render paint)) [KUrl; KLit (lit ","); KUrl] = Ok false /\ supports some_colors (descriptor (render lengths)) [KPct; KLit (lit ","); KIdent (lit "auto")] = Ok true /\
  supports some_colors (descriptor (render paint)) [KUrl; KError; KNum true] = Err ValueError /\ supports some_colors (descriptor (render paint)) [KNum true; KError] = Ok false.
Proof. vm_compute. auto 10. Qed.
(* more alternatives support more *)
Theorem c66_alternatives cw s s' ks : wf s -> wf s' -> render s <> lit "*" ->
  supports cw (descriptor (render s)) ks = Ok true -> supports cw (descriptor (render s ++ lit "|" ++ render s')) ks = Ok true.
Proof.
  intros W W' A H. change (lit "|" ++ render s') with (124 :: render s'). rewrite <- render_alternative.
  rewrite c66_supports_iff in H by assumption. apply c66_supports_iff.
  - unfold wf. rewrite terms_alternative. apply Forall_app. now split.
  - rewrite render_alternative. change (lit "*") with [42]. destruct (render s) as [|c [|c' t]]; discriminate.
  - destruct H as [H K]. split; [|exact K]. revert H. apply Forall_impl. intros k. apply fine_incl; [rewrite terms_alternative; now apply incl_appl|]. rewrite render_alternative, existsb_app. now intros ->.
Qed.
Print Assumptions c66_alternatives.
Example ex_alternatives : supports some_colors (descriptor (render lengths)) [KIdent (lit "none")] = Ok false /\ supports some_colors (descriptor (render lengths ++ lit "|" ++ render paint)) [KIdent (lit "none")] = Ok true. Proof. vm_compute. auto. Qed.
(* only the set of terms and the presence of a hash count *)
Theorem c66_order cw s s' ks : wf s -> wf s' -> render s <> lit "*" -> render s' <> lit "*" ->
  (forall t, In t (terms s) <-> In t (terms s')) -> existsb (N.eqb 35) (render s) = existsb (N.eqb 35) (render s') ->
  supports cw (descriptor (render s)) ks = supports cw (descriptor (render s')) ks.
Proof.
  intros W W' A A' T H. rewrite !c66_supports by assumption. unfold verdict. rewrite (first_bad_same cw s s'); [reflexivity|].
  intros k. apply eq_iff_eq_true. split; apply fine_incl; try (intros t; apply T); rewrite H; auto.
Qed.
Print Assumptions c66_order.
Definition paint2 : syntax := ([(ty "color", Bars); ((Some (TType (lit "url")), Marked Plus), Amps); (word "context-fill", Blank)], word "none").
Example ex_order : (forall t, In t (terms paint) <-> In t (terms paint2)) /\ render paint2 = lit "<color>||<url>+&&context-fill none". Proof. split; [intros t; vm_compute; tauto|reflexivity]. Qed.
(* for any syntax text *)
Theorem c66_wide cw t : (forall v, wide v = true -> supports cw (descriptor t) [KIdent v] = Ok true) /\
  (forall ks, existsb keyword ks = true -> (1 < length ks)%nat -> supports cw (descriptor t) ks <> Ok true).
Proof. split; intros; [now apply wide_alone|now apply wide_never]. Qed.
Print Assumptions c66_wide.
Example ex_wide : supports some_colors (descriptor (lit "<number>")) [KIdent (lit "INHERIT")] = Ok true /\ supports some_colors (descriptor (lit "<number>")) [KNum true; KIdent (lit "inherit")] = Ok false. Proof. vm_compute. auto. Qed.

(** ** The syntax "*" *)
Theorem c66_any cw k : broken k = None -> exists o, support cw (descriptor (lit "*")) k = Ok
  (match k with
   | KDim u => match unit_types u with [] => false | _ => true end
   | KFun f => text_eqb f (lit "var") || match builtin f with [] => false | _ => true end
   | KHash v => forallb hex_digit v && hex_lengths v
   | _ => true
   end, o).
Proof.
  assert (D : descriptor (lit "*") = mkD (lit "*") [(ANY, true)] [lit "var"] []) by reflexivity. rewrite D. clear D.
  set (d := mkD _ _ _ _). assert (F : flag d ANY = Ok true) by reflexivity. assert (V : d_functions d = [lit "var"]) by reflexivity. assert (W : d_identifiers d = []) by reflexivity. clearbody d.
  intros B. destruct k as [u|f|v|v|v|v|i| | | |]; try discriminate B; cbn [support]; unfold when, flags; rewrite ?F, ?W; cbn [bind andb mem existsb]; try (eexists; reflexivity).
  - unfold unit_types. change (words ["deg"; "grad"; "rad"; "turn"]%string) with angle_units. change (words ["s"; "ms"]%string) with time_units. change (words ["dpi"; "dpcm"; "dppx"]%string) with resolution_units.
    destruct (mem u angle_units) eqn:E1; [eexists; reflexivity|]. destruct (mem u time_units) eqn:E2; [eexists; reflexivity|]. destruct (mem u resolution_units) eqn:E3; [eexists; reflexivity|].
    rewrite <- (length_units_split u E1 E2 E3). destruct (mem u length_units); eexists; reflexivity.
  - rewrite V. unfold builtin.
    change (words ["rgb"; "rgba"; "hsl"; "hsla"; "hwb"; "gray"; "device-cmyk"]%string) with color_functions.
    change (words ["cross-fade"; "image"; "image-set"; "conic-gradient"; "linear-gradient"; "radial-gradient"; "repeating-conic-gradient"; "repeating-linear-gradient"; "repeating-radial-gradient"]%string) with image_functions.
    change (words ["calc"; "min"; "max"; "clamp"]%string) with math_functions.
    change (words ["matrix"; "translate"; "translatex"; "translatey"; "scale"; "scalex"; "scaley"; "rotate"; "skew"; "skewx"; "skewy"]%string) with transform_functions.
    destruct (mem f color_functions); [rewrite orb_true_r; eexists; reflexivity|]. destruct (mem f image_functions); [rewrite orb_true_r; eexists; reflexivity|]. destruct (mem f math_functions); [rewrite orb_true_r; eexists; reflexivity|]. destruct (mem f transform_functions); [rewrite orb_true_r; eexists; reflexivity|].
    unfold mem. cbn [existsb]. rewrite orb_false_r. destruct (text_eqb f (lit "var")); eexists; reflexivity.
  - rewrite hex_same. destruct (forallb hex_digit v && hex_lengths v); eexists; reflexivity.
  - destruct (mem (lower v) wide_keywords); [eexists; reflexivity|]. destruct (text_eqb (lower v) _); [eexists; reflexivity|]. destruct (cw v); eexists; reflexivity.
  - destruct (mem (lower v) wide_keywords); [eexists; reflexivity|]. destruct (text_eqb (lower v) _); [eexists; reflexivity|]. destruct (cw v); eexists; reflexivity.
  - destruct i; eexists; reflexivity.
Qed.
Print Assumptions c66_any.

(** ** The descriptor table and CSS.supports *)
Definition syntax_of (r : string * string * option (list stok)) : syntax := read [] (lit (snd (fst r))) [].
Lemma table_structured : forallb (fun r : string * string * option (list stok) => structured (lit (snd (fst r))) && negb (text_eqb (lit (snd (fst r))) (lit "*"))) descriptors = true.
Proof. vm_compute. reflexivity. Qed.
Lemma table_row r : In r descriptors -> render (syntax_of r) = lit (snd (fst r)) /\ wf (syntax_of r) /\ render (syntax_of r) <> lit "*".
Proof.
  intros I. assert (X := proj1 (forallb_forall _ _) table_structured r I). cbv beta in X. apply andb_true_iff in X as [X Z]. unfold structured in X. apply andb_true_iff in X as [X Y].
  fold (syntax_of r) in X, Y. destruct (text_eqb_spec (render (syntax_of r)) (lit (snd (fst r)))) as [E|]; [|discriminate]. split; [exact E|]. split; [now apply Forall_forall, forallb_forall|]. rewrite E. now destruct (text_eqb_spec (lit (snd (fst r))) (lit "*")).
Qed.
Lemma table_get : forallb (fun r : string * string * option (list stok) => match dget css_property_descriptor_map (lit (fst (fst r))) with Some d => text_eqb (d_syntax d) (lit (snd (fst r))) | None => false end && text_eqb (lower (lit (fst (fst r)))) (lit (fst (fst r)))) descriptors = true.
Proof. vm_compute. reflexivity. Qed.
Lemma map_descriptors l : forall m, (forall k d, dget m k = Some d -> d = descriptor (d_syntax d)) -> forall k d,
  dget (fold_left (fun m (r : string * string * option (list stok)) => dset m (lit (fst (fst r))) (descriptor (lit (snd (fst r))))) l m) k = Some d -> d = descriptor (d_syntax d).
Proof.
  induction l as [|r l IH]; intros m H k d; cbn [fold_left]; [apply H|]. apply IH. intros k' d'. rewrite dget_dset. destruct (text_eqb _ k'); [intros [= <-]; reflexivity|apply H].
Qed.
(* every property of the table, by its name in any letter case, and every list of tokens *)
Theorem c66_css_supports cw r name ks : In r descriptors -> lower name = lower (lit (fst (fst r))) ->
  css_supports cw css_property_descriptor_map name ks = verdict cw (syntax_of r) ks.
Proof.
  intros I N0. assert (X := proj1 (forallb_forall _ _) table_get r I). cbv beta in X. apply andb_true_iff in X as [X L]. destruct (text_eqb_spec (lower (lit (fst (fst r)))) (lit (fst (fst r)))) as [E|]; [|discriminate].
  unfold css_supports. rewrite N0, E. destruct (dget css_property_descriptor_map (lit (fst (fst r)))) as [d|] eqn:G; [|discriminate].
  assert (D : d = descriptor (d_syntax d)) by (revert G; apply map_descriptors; discriminate).
  destruct (text_eqb_spec (d_syntax d) (lit (snd (fst r)))) as [S0|]; [|discriminate]. destruct (table_row r I) as (R & W & A). rewrite D, S0, <- R. now apply c66_supports.
Qed.
Print Assumptions c66_css_supports.
Theorem c66_unknown cw name ks : ~ In (lower name) (map (fun r : string * string * option (list stok) => lit (fst (fst r))) descriptors) -> css_supports cw css_property_descriptor_map name ks = Ok false.
Proof.
  intros H. unfold css_supports. destruct (dget css_property_descriptor_map (lower name)) as [d|] eqn:G; [|reflexivity]. elim H.
  assert (K : In (lower name) (dkeys css_property_descriptor_map)) by (apply dget_some_keys; eauto).
  assert (T : dkeys css_property_descriptor_map = map (fun r : string * string * option (list stok) => lit (fst (fst r))) descriptors) by (vm_compute; reflexivity). now rewrite <- T.
Qed.
Print Assumptions c66_unknown.
(* every initial value is a value of its own property *)
Theorem c66_initial cw r ts : (forall w, some_colors w = true -> cw w = true) -> In r descriptors -> snd r = Some ts -> css_supports cw css_property_descriptor_map (lit (fst (fst r))) ts = Ok true.
Proof.
  intros C I S0. rewrite (c66_css_supports cw r) by auto. apply verdict_true.
  assert (T : forallb (fun r => match snd r with Some ts => forallb (fine some_colors (syntax_of r)) ts && (negb (existsb keyword ts) || Nat.eqb (length ts) 1) | None => true end) descriptors = true) by (vm_compute; reflexivity).
  assert (X := proj1 (forallb_forall _ _) T r I). cbv beta in X. rewrite S0 in X. apply andb_true_iff in X as [X Y]. split.
  - apply Forall_forall. intros k K. assert (Z := proj1 (forallb_forall _ _) X k K). revert Z. unfold fine. destruct (is_comma k); [auto|]. unfold accepted. rewrite !accepts_split.
    assert (M : existsb (has_type (syntax_of r)) (fits some_colors k) = true -> existsb (has_type (syntax_of r)) (fits cw k) = true).
    { destruct k as [| | |v|v| | | | | |]; cbn [fits]; auto; rewrite !existsb_app, !orb_true_iff; intros [A|A]; auto; right; (destruct (text_eqb (lower v) (lit "currentcolor")) eqn:E; cbn [orb] in *; [exact A|]); destruct (some_colors v) eqn:E'; try discriminate A; now rewrite (C v E'). }
    rewrite !orb_true_iff. intros [A|[A|A]]; auto.
  - intros E. rewrite E in Y. cbn [negb orb] in Y. now apply Nat.eqb_eq.
Qed.
Print Assumptions c66_initial.
Example ex_css : css_supports some_colors css_property_descriptor_map (lit "Stroke-Width") [KDim (lit "px")] = Ok true /\ css_supports some_colors css_property_descriptor_map (lit "stroke-width") [KIdent (lit "wide")] = Ok false /\
  css_supports some_colors css_property_descriptor_map (lit "--x") [KNum true] = Ok false /\ length descriptors = 143%nat.
Proof. vm_compute. auto. Qed.

(** ** Registering custom properties *)
Definition reg (set : dict descr) (p : text * descr) : dict descr := match register_property set (fst p) (snd p) with Ok s => s | Err _ => set end.
Fixpoint first_of (n : text) (l : list (text * descr)) : option descr := match l with [] => None | (m, d) :: r => if text_eqb m n then Some d else first_of n r end.
(* over any history: the first registration of a custom name stays, and nothing else is there *)
Theorem c66_register l n : dget (fold_left reg l []) n = (if starts_with (lit "--") n then first_of n l else None) /\ dict_ok (fold_left reg l []).
Proof.
  assert (G : forall l set, dict_ok set -> (forall n, starts_with (lit "--") n = false -> dget set n = None) ->
    dget (fold_left reg l set) n = match dget set n with Some d => Some d | None => if starts_with (lit "--") n then first_of n l else None end /\ dict_ok (fold_left reg l set)).
  { clear l. induction l as [|[m d] l IH]; intros set D P; cbn [fold_left first_of].
    - split; [|exact D]. destruct (dget set n); [reflexivity|]. destruct (starts_with _ n); reflexivity.
    - unfold reg at 2 4. unfold register_property. cbn [fst snd]. destruct (starts_with (lit "--") m) eqn:M; cbn [negb]; [unfold dhas; destruct (dget set m) as [d0|] eqn:H0|].
      + destruct (IH set D P) as [-> O]. split; [|exact O]. destruct (dget set n) eqn:Hn; [reflexivity|]. destruct (text_eqb_spec m n) as [->|]; [congruence|reflexivity].
      + destruct (IH (dset set m d)) as [-> O]; [now apply dset_ok| |split; [|exact O]].
        * intros x X. rewrite dget_dset. destruct (text_eqb_spec m x) as [->|]; [congruence|auto].
        * rewrite dget_dset. destruct (text_eqb_spec m n) as [->|]; [now rewrite H0, M|reflexivity].
      + destruct (IH set D P) as [-> O]. split; [|exact O]. destruct (dget set n) eqn:Hn; [reflexivity|]. destruct (text_eqb_spec m n) as [->|]; [now rewrite M|reflexivity]. }
  apply (G l []); [constructor|reflexivity].
Qed.
Print Assumptions c66_register.
Theorem c66_register_raises set n d : register_property set n d = Err ValueError <-> starts_with (lit "--") n = false \/ exists d', dget set n = Some d'.
Proof.
  unfold register_property, dhas. destruct (starts_with (lit "--") n); cbn [negb]; [|split; auto]. destruct (dget set n) as [d'|]; split; eauto; [discriminate|]. intros [H|[d' H]]; discriminate.
Qed.
Print Assumptions c66_register_raises.
Example ex_register : let a := descriptor (lit "<length>") in let b := descriptor (lit "*") in fold_left reg [(lit "--x", a); (lit "x", b); (lit "--X", b); (lit "--x", b)] [] = [(lit "--x", a); (lit "--X", b)]. Proof. reflexivity. Qed.

(** ** What CSS says and the code does not *)
(* keywords are compared with their letter case *)
Theorem c66_case_refuted : ~ (forall cw s v ks, wf s -> supports cw (descriptor (render s)) (KIdent v :: ks) = supports cw (descriptor (render s)) (KIdent (lower v) :: ks)).
Proof. intros H. specialize (H (fun _ => false) ([], word "auto") (lit "AUTO") [] ltac:(unfold wf; repeat constructor)). vm_compute in H. discriminate. Qed.
Print Assumptions c66_case_refuted.
(* a quoted keyword is taken for the keyword *)
Theorem c66_quoted_refuted : ~ (forall cw v, supports cw (descriptor (lit "none | <number>")) [KString v] = Ok false).
Proof. intros H. specialize (H (fun _ => false) (lit "none")). vm_compute in H. discriminate. Qed.
Print Assumptions c66_quoted_refuted.
(* frequencies and flexible lengths are taken for lengths *)
Theorem c66_length_refuted : ~ (forall cw u o, support cw (descriptor (lit "<length>")) (KDim u) = Ok (true, o) -> u <> lit "hz" /\ u <> lit "khz" /\ u <> lit "fr").
Proof. intros H. destruct (H (fun _ => false) (lit "hz") _ eq_refl) as [X _]. now apply X. Qed.
Print Assumptions c66_length_refuted.
(* calc() is no length, number, angle or percentage *)
Theorem c66_calc_refuted : ~ (exists cw s, wf s /\ ~ In (TType (lit "length-percentage")) (terms s) /\ render s <> lit "*" /\ supports cw (descriptor (render s)) [KFun (lit "calc")] = Ok true).
Proof.
  intros (cw & s & W & N0 & A & H). rewrite c66_supports_iff in H by assumption. destruct H as [H _]. inversion H as [|? ? X _]; subst. unfold fine, accepted in X. cbn [is_comma universal] in X. change (text_eqb (lit "calc") (lit "var")) with false in X. cbn [orb] in X.
  rewrite existsb_exists in X. destruct X as (t & I & X). destruct t as [n|n a|w]; cbn [accepts] in X; [|rewrite andb_false_r in X; discriminate|discriminate]. apply mem_in in X. vm_compute in X. destruct X as [<-|[]]. now apply N0.
Qed.
Print Assumptions c66_calc_refuted.
(* "*" does not support everything: unknown functions, units and lists *)
Theorem c66_any_refuted : ~ (forall cw ks, Forall (fun k => broken k = None) ks -> supports cw (descriptor (lit "*")) ks = Ok true).
Proof. intros H. specialize (H (fun _ => false) [KNum true; KLit (lit ","); KNum true] ltac:(repeat constructor)). vm_compute in H. discriminate. Qed.
Print Assumptions c66_any_refuted.
(* CSS.supports can raise *)
Theorem c66_total_refuted : ~ (forall cw name ks, exists b, css_supports cw css_property_descriptor_map name ks = Ok b).
Proof. intros H. destruct (H (fun _ => false) (lit "x") [KOther]) as [b X]. vm_compute in X. discriminate. Qed.
Print Assumptions c66_total_refuted.
(* commas are supported by a syntax that is no list: the hash of <styleset()> *)
Theorem c66_comma_refuted : ~ (forall cw s ks, wf s -> (forall i, In i (items s) -> existsb (N.eqb 35) (mult_text (snd i)) = false) -> ~ In (TWord (lit ",")) (terms s) -> existsb is_comma ks = true -> supports cw (descriptor (render s)) ks <> Ok true).
Proof.
  intros H. apply (H (fun _ => false) ([(word "normal", Bar)], (Some (TFun (lit "styleset") (lit "<feature-value-name>#")), Once)) [KIdent (lit "normal"); KLit (lit ","); KIdent (lit "normal")]); try reflexivity.
  - unfold wf. repeat constructor.
  - cbn. intuition (subst; reflexivity).
  - cbn. intuition discriminate.
Qed.
Print Assumptions c66_comma_refuted.
