(** C67: typed style values and property maps. *)
From Coq Require Import ZArith NArith List Lia.
From Verif Require Import PyBase PyText PySplit PyDict PyCase DatasetModel DatasetProofs SupportModel SupportTable SupportSpec SupportProps ShortModel ShortSpec ShortProofs ShortProofs2 ShortProofs3 ShortProofs4 ShortProps TypedTable TypedModel TypedSpec TypedProofs TypedProofs2 TypedProofs3 TypedProofs4.
#[local] Open Scope N_scope.
Import ListNotations.

(* a library for the examples: words, numbers and commas *)
Definition word_token (w : text) : token :=
  match w with
  | [44] => (KLit w, w)
  | c :: _ => if is_digit c then if forallb is_digit w then (KNum true, w) else if real_number w then (KNum false, w) else (KDim (dropwhile is_digit w), w)
              else if starts_with (lit "url(") w then (KUrl, w) else if starts_with (lit "var(") w then (KFun (lit "var"), w)
              else if starts_with (lit "rotate(") w then (KFun (lit "rotate"), w) else (KIdent w, w)
  | [] => (KOther, w)
  end.
Definition slib : lib := mkLib (fun t => map word_token (split_ws t)) (fun _ => None) some_colors wcss.
Definition table := css_property_descriptor_map.
Definition texts (r : result (list tvalue)) : result (list (vkind * text)) := do vs <- r; Ok (map (fun v => (vkind_of v, tostring v)) vs).

Lemma exists_or_not tb name : exists d, describes tb name d.
Proof. exists (describe tb name). now apply describe_spec. Qed.
(** ** Parsing *)
(* a property without a list of its own: one value for the texts between commas *)
Theorem c67_values L tb reg name t t' d pieces vs :
  folded t t' -> typed_text reg (key name) t' -> ~ In (key name) single_multi_valued_properties -> describes tb (key name) d -> between (ltokens L t') pieces ->
  parse_all L tb reg name t = Ok vs <->
  exists raw, Forall2 (represents L (key name) d) pieces raw /\ (Exists keyword_token (ltokens L t') -> length (ltokens L t') = 1%nat) /\ finished (key name) t' raw vs.
Proof.
  intros FO TY SM D B. apply folded_iff in FO. subst t'. apply describe_spec in D. rewrite parse_all_typed by exact TY. rewrite D. split.
  - destruct (raw_values L d (key name) (fold_keyword t)) as [raw|e] eqn:R; cbn [bind]; [|discriminate]. destruct (alone _) eqn:A; [|discriminate]. intros [= <-].
    exists raw. split; [now apply (raw_list L d (key name) (fold_keyword t))|]. split; [now apply alone_spec|now apply finish_spec].
  - intros (raw & F & A & FI). apply (raw_list L d (key name) (fold_keyword t) pieces raw SM B) in F. rewrite F. cbn [bind]. apply alone_spec in A. rewrite A. f_equal. now apply finish_spec.
Qed.
Print Assumptions c67_values.
(* the others: one value for the whole text *)
Theorem c67_whole L tb reg name t t' d vs :
  folded t t' -> typed_text reg (key name) t' -> In (key name) single_multi_valued_properties -> describes tb (key name) d ->
  parse_all L tb reg name t = Ok vs <->
  exists syns v r, Forall2 (accepted_as L d) (filter noncomma (ltokens L t')) syns /\ class (key name) [whole_type syns] t' (vkind_of r) /\ content L t' r /\
    (Exists keyword_token (ltokens L t') -> length (ltokens L t') = 1%nat) /\
    vs = [v] /\ vkind_of v = vkind_of r /\ vvalue v = vvalue r /\ vassoc v = Some (key name) /\ vcss v = Some t'.
Proof.
  intros FO TY SM D. apply folded_iff in FO. subst t'. apply describe_spec in D. rewrite parse_all_typed by exact TY. rewrite D. split.
  - destruct (raw_values L d (key name) (fold_keyword t)) as [raw|e] eqn:R; cbn [bind]; [|discriminate]. destruct (alone _) eqn:A; [|discriminate]. intros [= <-].
    apply raw_whole in R as (syns & r & F & -> & C & CO & _ & _); [|exact SM|apply fold_keyword_idem]. exists syns, (set_css (fold_keyword t) (set_assoc (key name) r)), r. rewrite alone_spec in A. split; [exact F|]. split; [exact C|]. split; [exact CO|]. split; [exact A|]. repeat split; reflexivity.
  - intros (syns & v & r & F & C & CO & A & -> & K & V & AS & CS).
    set (r0 := mkT (vkind_of r) (vvalue r) (match vkind_of r with VNumeric => Some (fold_keyword t) | _ => None end) None).
    assert (R : raw_values L d (key name) (fold_keyword t) = Ok [r0]).
    { apply raw_whole; [exact SM|apply fold_keyword_idem|]. exists syns, r0. split; [exact F|]. split; [reflexivity|]. unfold good, r0. cbn. auto. }
    rewrite R. cbn [bind]. apply alone_spec in A. rewrite A. f_equal. unfold finish. cbn. f_equal. destruct v. cbn in *. subst. reflexivity.
Qed.
Print Assumptions c67_whole.
Theorem c67_pieces ts : exists ps, between ts ps /\ forall ps', between ts ps' -> ps' = ps.
Proof. destruct (between_total ts) as [ps B]. exists ps. split; [exact B|]. intros ps' B'. symmetry. eapply between_unique; eauto. Qed.
Print Assumptions c67_pieces.
Example ex_values :
  texts (parse_all slib table [] (lit "Stroke-Width") (lit "2")) = Ok [(VNumeric, lit "2")] /\
  texts (parse_all slib table [] (lit "will-change") (lit "a b , c")) = Ok [(VKeyword, lit "a b"); (VKeyword, lit "c")] /\
  texts (parse_all slib table [] (lit "text-indent") (lit "1 hanging , 2em , 3")) = Ok [(VKeyword, lit "1px hanging"); (VNumeric, lit "2em"); (VNumeric, lit "3px")] /\
  texts (parse_all slib table [] (lit "mask-image") (lit "none , url(a)")) = Ok [(VStyle, lit "none , url(a)")] /\
  texts (parse_all slib table [] (lit "color") (lit "CurrentColor")) = Ok [(VKeyword, lit "currentcolor")] /\
  texts (parse_all slib table [] (lit "color") (lit "Black")) = Ok [(VStyle, lit "Black")] /\
  texts (parse_all slib table [] (lit "color") (lit "2")) = Err ValueError.
Proof. vm_compute. auto 10. Qed.
(* a variable, or a custom property nobody registered: one unparsed value, and nothing is raised *)
Theorem c67_unparsed L tb reg name t t' : folded t t' -> uses_var t' \/ (firstn 2 (key name) = lit "--" /\ ~ In (key name) reg) ->
  parse_all L tb reg name t = Ok [mkT VUnparsed t' (Some t') (Some (key name))].
Proof.
  intros FO H. apply folded_iff in FO. subst t'. unfold parse_all. cbv zeta.
  assert (E : (has_var (fold_keyword t) || (custom (key name) && negb (mem (key name) reg)))%bool = true).
  { destruct H as [H|[H H']]; [apply has_var_spec in H; now rewrite H|]. apply custom_spec in H. apply mem_false in H'. rewrite H, H'. apply orb_true_r. }
  rewrite E. reflexivity.
Qed.
Print Assumptions c67_unparsed.
Example ex_unparsed : texts (parse_all slib table [] (lit "width") (lit "bogus,var(--x) ;")) = Ok [(VUnparsed, lit "bogus,var(--x) ;")] /\ texts (parse_all slib table [lit "--y"] (lit "--x") (lit "Red")) = Ok [(VUnparsed, lit "Red")] /\
  texts (parse_all slib table [lit "--x"] (lit "--x") (lit "Red")) = Ok [(VKeyword, lit "Red")] /\ parse_all slib table [] (lit "width") (lit "1var(--x)") = Err ValueError.
Proof. vm_compute. auto. Qed.
(* a CSS-wide keyword, in any case *)
Theorem c67_wide L tb reg name t : In (lower t) wide_words -> ltokens L (lower t) = [(KIdent (lower t), lower t)] ->
  (firstn 2 (key name) = lit "--" -> In (key name) reg) ->
  parse_all L tb reg name t = Ok [mkT VKeyword (lower t) (Some (lower t)) (Some (key name))].
Proof.
  intros W T C. set (w := lower t) in *. assert (FO : folded t w) by (left; split; [cbn in W |- *; tauto|reflexivity]).
  assert (WW : forall x, In x wide_words -> ~ uses_var x) by (intros x I0 U; apply has_var_spec in U; cbn in I0; destruct I0 as [<-|[<-|[<-|[<-|[<-|[]]]]]]; discriminate U).
  assert (TY : typed_text reg (key name) w) by (split; auto).
  assert (LW : lower w = w) by apply lower_lower.
  assert (KT : keyword_token (KIdent w, w)) by (cbn [keyword_token fst]; now rewrite LW).
  destruct (exists_or_not tb (key name)) as [d D].
  assert (AC : accepted_as L d (KIdent w, w) None) by (unfold accepted_as; cbn [fst support]; rewrite LW; apply wide_mem in W; now rewrite W).
  assert (NE : w <> []) by (intros Z; rewrite Z in W; cbn in W; intuition discriminate).
  destruct (in_dec (list_eq_dec N.eq_dec) (key name) single_multi_valued_properties) as [S0|S0].
  - apply (c67_whole L tb reg name t w d); auto. exists [None], (mkT VKeyword w (Some w) (Some (key name))), (mkT VKeyword w None None). rewrite T. cbn [filter noncomma fst].
    split; [now repeat constructor|]. split; [now apply c_wide|]. split; [now split|]. repeat split; auto.
  - apply (c67_values L tb reg name t w d [[(KIdent w, w)]]); auto.
    { rewrite T. apply b_last; [discriminate|]. intros x [<-|[]] X. discriminate X. }
    exists [mkT VKeyword w None None]. split; [|split].
    + constructor; [|constructor]. exists [None], [w], w. split; [now repeat constructor|]. split; [constructor; [now apply w_same|constructor]|]. split; [cbn [join]; unfold folded; rewrite LW; left; split; [cbn in W |- *; tauto|reflexivity]|].
      split; [now apply c_wide|]. split; [now split|]. auto.
    + now rewrite T.
    + split; [reflexivity|]. intros [|[|i]] v r H H'; try discriminate. injection H as <-. injection H' as <-. cbn. auto.
Qed.
Print Assumptions c67_wide.
Example ex_wide_value : texts (parse_all slib table [] (lit "WIDTH") (lit "InHerit")) = Ok [(VKeyword, lit "inherit")] /\ parse_all slib table [] (lit "will-change") (lit "a , inherit") = Err ValueError. Proof. vm_compute. auto. Qed.
(* values know their property; a single value is written as the text it was read from and is read back *)
Theorem c67_property L tb reg name t vs v : parse_all L tb reg name t = Ok vs -> In v vs -> vassoc v = Some (key name).
Proof.
  unfold parse_all. cbv zeta. destruct (if (_ || _)%bool then _ else _) as [raw|e]; cbn [bind]; [|discriminate]. intros [= <-] I0.
  assert (X : forall v, In v (map (set_assoc (key name)) raw) -> vassoc v = Some (key name)) by (intros x I1; apply in_map_iff in I1 as (y & <- & _); reflexivity).
  destruct (map (set_assoc (key name)) raw) as [|a [|b r]]; [contradiction| |now apply X]. destruct I0 as [<-|[]]. cbn. apply X. now left.
Qed.
Print Assumptions c67_property.
Theorem c67_read_back L tb reg name t t' v : folded t t' -> parse_all L tb reg name t = Ok [v] -> tostring v = t' /\ parse_all L tb reg (key name) (tostring v) = Ok [v].
Proof.
  intros FO H. apply folded_iff in FO. subst t'.
  assert (E : tostring v = fold_keyword t).
  { revert H. unfold parse_all. cbv zeta. destruct (if (_ || _)%bool then _ else _) as [raw|e]; cbn [bind]; [|discriminate]. intros [= H]. destruct (map (set_assoc (key name)) raw) as [|a [|b r]]; try discriminate. injection H as <-. reflexivity. }
  split; [exact E|]. rewrite E, parse_all_key. rewrite <- H. unfold parse_all. now rewrite fold_keyword_idem.
Qed.
Print Assumptions c67_read_back.
Example ex_read_back : exists v, parse_all slib table [] (lit "Color") (lit "CURRENTCOLOR") = Ok [v] /\ tostring v = lit "currentcolor" /\ vassoc v = Some (lit "color"). Proof. eexists. split; [vm_compute; reflexivity|]. vm_compute. auto. Qed.
(* addresses *)
Theorem c67_url u : ~ In 41 u -> hd 0 u <> 34 ->
  (u <> [] -> url_value (lit "url(" ++ u ++ lit ")") = Ok u) /\ (last u 0 <> 34 -> url_value (lit "url(" ++ [34] ++ u ++ [34] ++ lit ")") = Ok u).
Proof.
  intros P Q.
  assert (IN : forall x, x <> [] -> ~ In 41 x -> url_inner (lit "url(" ++ x ++ [41]) = Some x).
  { intros x NE NP. unfold url_inner. assert (S0 : starts_with (lit "url(") (lit "url(" ++ x ++ [41]) = true) by (apply starts_with_spec; eauto). rewrite S0.
    rewrite app_assoc, last_last. cbn [N.eqb Pos.eqb andb]. rewrite <- app_assoc. change (skipn 4 (lit "url(" ++ x ++ [41])) with (x ++ [41]). rewrite removelast_last.
    assert (X : existsb (N.eqb 41) x = false) by (destruct (existsb (N.eqb 41) x) eqn:E; [|reflexivity]; apply existsb_exists in E as (y & I0 & Y); apply N.eqb_eq in Y; subst; contradiction).
    destruct x; [congruence|]. now rewrite X. }
  split.
  - intros NE. unfold url_value. change (lit ")") with [41]. rewrite (IN u NE P). destruct u as [|c r]; [congruence|]. cbn [hd] in Q. destruct (N.eqb_spec c 34); [congruence|reflexivity].
  - intros LA. unfold url_value. change (lit ")") with [41]. replace ([34] ++ u ++ [34] ++ [41]) with ((34 :: u ++ [34]) ++ [41]) by (cbn; now rewrite <- app_assoc).
    rewrite IN; [|discriminate|intros [X|X]; [discriminate|apply in_app_or in X as [X|[X|[]]]; [contradiction|discriminate]]].
    change (34 :: u ++ [34]) with ((34 :: u) ++ [34]) at 1. rewrite last_last. cbn [N.eqb Pos.eqb andb app]. f_equal. unfold strip_char. cbn [dropwhile N.eqb Pos.eqb].
    destruct u as [|c r]; [reflexivity|]. cbn [hd] in Q. cbn [app dropwhile]. destruct (N.eqb_spec 34 c); [congruence|].
    change (c :: r ++ [34]) with ((c :: r) ++ [34]). rewrite rdropwhile_app by reflexivity. apply rdropwhile_id.
    destruct (exists_last (l := c :: r)) as (m & z & E); [discriminate|]. rewrite E in *. rewrite last_last in LA. rewrite rev_app_distr. cbn [rev app head_not]. destruct (N.eqb_spec 34 z); [congruence|reflexivity].
Qed.
Print Assumptions c67_url.
Example ex_url : url_value (lit "url(#a)") = Ok (lit "#a") /\ url_value (lit "url(" ++ [34] ++ lit "b.svg" ++ [34] ++ lit ")") = Ok (lit "b.svg"). Proof. vm_compute. auto. Qed.

(** ** Parsing and CSS.supports *)
Theorem c67_parse_supported L reg name t t' vs : folded t t' -> typed_text reg (key name) t' -> In (lower name) (dkeys table) -> firstn 2 name <> lit "--" ->
  (forall x, In x (ltokens L t') -> ~ is_comma x) -> parse_all L table reg name t = Ok vs -> css_supports (lcolor L) table name (map fst (ltokens L t')) = Ok true.
Proof.
  intros FO TY KN NC C H. assert (K : key name = lower name) by (unfold key; destruct (custom name) eqn:E; [apply custom_spec in E; congruence|reflexivity]).
  apply dget_some_keys in KN as [d G]. assert (D : describes table (key name) d) by (left; now rewrite K).
  unfold css_supports. rewrite G. apply supports_iff; [exact C|].
  destruct (in_dec (list_eq_dec N.eq_dec) (key name) single_multi_valued_properties) as [S0|S0].
  - apply (c67_whole L table reg name t t' d) in H as (syns & v & r & F & _ & _ & A & _); auto. rewrite filter_all in F by exact C. split; [eauto|]. now apply alone_spec.
  - destruct (between_total (ltokens L t')) as [ps B]. apply (c67_values L table reg name t t' d ps) in H as (raw & F & A & _); auto. split; [|now apply alone_spec].
    destruct (ltokens L t') as [|x r] eqn:E; [exists []; constructor|].
    assert (B' : between (x :: r) [x :: r]) by (apply b_last; [discriminate|exact C]). rewrite (between_unique _ _ B _ B') in F. inversion F as [|? v ? l R F']; subst. destruct R as (syns & _ & _ & R & _). eauto.
Qed.
Print Assumptions c67_parse_supported.
Theorem c67_supported_parses L reg name t t' : folded t t' -> typed_text reg (key name) t' -> firstn 2 name <> lit "--" ->
  (forall x, In x (ltokens L t') -> ~ is_comma x /\ snd x <> []) -> ltokens L t' <> [] -> t' <> [] -> (forall x, lnumeric L x = None) ->
  css_supports (lcolor L) table name (map fst (ltokens L t')) = Ok true -> exists vs, parse_all L table reg name t = Ok vs.
Proof.
  intros FO TY NC C NE NT NU H. assert (K : key name = lower name) by (unfold key; destruct (custom name) eqn:E; [apply custom_spec in E; congruence|reflexivity]).
  unfold css_supports in H. destruct (dget table (lower name)) as [d|] eqn:G; [|discriminate]. assert (D : describes table (key name) d) by (left; now rewrite K).
  apply supports_iff in H as [[ss F] A]; [|intros x I0; now apply C]. rewrite alone_spec in A.
  assert (TR : In (key name) keyword_properties \/ In (key name) plain_properties \/ forall s, In (Some s) ss -> In s (map lit ["<color>"; "<custom-ident>"; "<image>"; "<url>"]%string) \/ In s numbers).
  { assert (X := proj1 (forallb_forall _ _) table_transforms (lower name, d)). cbv beta in X. rewrite !orb_true_iff, !mem_in in X. rewrite K. destruct X as [[X|X]|X]; auto; [now apply dget_in|].
    right. right. intros s I0. apply negb_true_iff in X. clear - F I0 X. cbn [snd] in X. induction F as [|x o ts ss S0 F IH]; [contradiction|]. destruct I0 as [->|I0]; [|auto]. eapply support_types; eauto. }
  destruct (in_dec (list_eq_dec N.eq_dec) (key name) single_multi_valued_properties) as [S0|S0].
  - assert (CL : exists k, class (key name) [whole_type ss] t' k) by (apply class_some; destruct TR as [TR|[TR|TR]]; auto; right; right; intros s [E|[]]; unfold whole_type in E; destruct ss as [|x [|y r]]; try discriminate; subst; apply TR; now left).
    destruct (good_some L (key name) _ t' NT NU CL) as (v & CV & CO & _). exists [mkT (vkind_of v) (vvalue v) (Some t') (Some (key name))]. apply (c67_whole L table reg name t t' d); auto.
    exists ss, (mkT (vkind_of v) (vvalue v) (Some t') (Some (key name))), v. rewrite filter_all by (intros x I0; now apply C). split; [exact F|]. split; [exact CV|]. split; [exact CO|]. split; [exact A|]. repeat split.
  - assert (B : between (ltokens L t') [ltokens L t']) by (apply b_last; [exact NE|intros x I0; now apply C]).
    assert (PA : exists ps, parts_of L d (ltokens L t') ps /\ map snd ps = ss).
    { assert (C' : forall x, In x (ltokens L t') -> ~ is_comma x) by (intros x I0; now apply C). clear - F C'. induction F as [|x s ts ss S0 F IH]; [exists []; split; constructor|]. destruct IH as (ps & P & E); [intros y I0; apply C'; now right|]. exists (part_of x s :: ps). split; [apply po_cons; auto; apply C'; now left|]. cbn. now rewrite E. }
    destruct PA as (ps & P & SS). set (u := fold_keyword (join [32] (map fst ps))).
    assert (UN : u <> []).
    { unfold u. clear u. inversion P as [E1 E2|x s g ps0 NCm AC P0 E1 E2]; [elim (NE (eq_sym E1))|]. clear P. subst ps. rename ps0 into ps. assert (SX : snd x <> []) by (apply C; rewrite <- E1; now left). intros Z. assert (J : join [32] (map fst (part_of x s :: ps)) = []).
      { revert Z. unfold fold_keyword. destruct (mem _ _); [|auto]. destruct (join [32] (map fst (part_of x s :: ps))); [auto|discriminate]. }
      unfold part_of, with_unit in J. cbn [map fst] in J. revert J.
      set (y := match s with Some s0 => _ | None => _ end). assert (Y : y <> []) by (unfold y; destruct s as [s0|]; [destruct (_ && _)%bool; [|exact SX]; destruct (snd x); [congruence|discriminate]|exact SX]).
      destruct y; [congruence|]. destruct (map fst ps); discriminate. }
    assert (CL : exists k, class (key name) ss u k) by (apply class_some; auto).
    destruct (good_some L (key name) ss u UN NU CL) as (v & GV). assert (R : reify L (key name) ps = Ok v) by (apply reify_spec; now rewrite SS).
    exists (finish (key name) t' [v]). apply (c67_values L table reg name t t' d [ltokens L t']); auto. exists [v]. split; [|split; [exact A|now apply finish_spec]].
    constructor; [|constructor]. apply represents_spec; [intros x I0; now apply C|eauto].
Qed.
Print Assumptions c67_supported_parses.
Example ex_supported : css_supports (lcolor slib) table (lit "Stroke-Width") (map fst (ltokens slib (lit "2px"))) = Ok true /\ texts (parse_all slib table [] (lit "Stroke-Width") (lit "2px")) = Ok [(VNumeric, lit "2px")] /\
  css_supports (lcolor slib) table (lit "clip-path") (map fst (ltokens slib (lit "url(#a) none"))) = Ok true /\ texts (parse_all slib table [] (lit "clip-path") (lit "url(#a) none")) = Ok [(VStyle, lit "url(#a) none")] /\
  css_supports (lcolor slib) table (lit "clip-path") (map fst (ltokens slib (lit "2px"))) = Ok false /\ parse_all slib table [] (lit "clip-path") (lit "2px") = Err ValueError.
Proof. vm_compute. auto 10. Qed.
(* otherwise one of these is raised *)
Theorem c67_raises L reg name t e : (forall x, lnumeric L x = None) -> parse_all L table reg name t = Err e -> In e [ValueError; NotImplementedError_; IndexError].
Proof. intros N0 H. apply parse_raises in H as [H|[x H]]; [exact H|congruence]. Qed.
Print Assumptions c67_raises.

(** ** Property maps *)
(* the declaration of a property is that of the last set or delete of it: a set that is allowed replaces value and
   priority, or leaves nothing when its text is no value; append, setdefault, get and "in" change nothing *)
Theorem c67_history L reg q h b : (forall x, lnumeric L x <> Some KeyError) -> block_ok b -> breadonly b = false -> is_shorthand q = false ->
  (forall o n, In o h -> In n (mop_names o) -> is_shorthand (key n) = true -> ~ In q (written n)) ->
  mhistory L table reg q (dget (bdecls b) q) h (dget (bdecls (fold_left (mrun L table reg) h b)) q).
Proof. intros N0 B R Q W. apply mhistory_run; auto. now apply quiet_table. Qed.
Print Assumptions c67_history.
Theorem c67_history_fun L tb reg q e h x y : mhistory L tb reg q e h x -> mhistory L tb reg q e h y -> x = y.
Proof. intros A. revert y. induction A as [e|e o e' h e'' S0 A IH]; intros y B; inversion B as [|? ? e1 ? ? S1 B']; subst; [reflexivity|]. rewrite (mstep_fun _ _ _ _ _ _ _ _ S0 S1) in IH. now apply IH. Qed.
Print Assumptions c67_history_fun.
Definition own (n x : text) : tvalue := mkT VKeyword x None (Some n).
Example ex_history : let h := [MSet (lit "Fill") [AText (lit "blue")]; MSet (lit "stroke") [AText (lit "lime")]; MSet (lit "stroke") [AValue (own (lit "fill") (lit "red"))]; MDelete (lit "FILL"); MSet (lit "--X") [AText (lit " ")]; MAppend (lit "x") [AText (lit "1")]; MSetdefault (lit "y") (AText (lit "1"));
    MSet (lit "x") [AText (lit "1"); AText (lit "2")]; MSet (lit "x") [AText (lit "3"); AOther]] in
  bdecls (fold_left (mrun slib table []) h sample) = [(lit "stroke", (lit "lime", [])); (lit "x", (lit "1 2", []))].
Proof. vm_compute. reflexivity. Qed.
(* what set refuses, with which exception, and that nothing has changed then *)
Theorem c67_set_refuses L b n l : breadonly b = false ->
  (~ may_set (key n) l -> exists e, sm_set L b n l = (b, Some e) /\ In e [TypeError; ValueError]) /\
  (forall l1 a l2, l = l1 ++ a :: l2 -> Forall (fits_name (key n)) l1 -> a = AOther -> sm_set L b n l = (b, Some TypeError)) /\
  (forall l1 v p l2, l = l1 ++ AValue v :: l2 -> Forall (fits_name (key n)) l1 -> vassoc v = Some p -> p <> key n -> sm_set L b n l = (b, Some ValueError)) /\
  (Forall (fits_name (key n)) l -> ~ lone l -> sm_set L b n l = (b, Some TypeError)).
Proof.
  intros R. assert (G : forall e, wrong_args (key n) l = Some e -> sm_set L b n l = (b, Some e)) by (intros e E; unfold sm_set; cbv zeta; now rewrite E).
  assert (PRE : forall l1 r, Forall (fits_name (key n)) l1 -> wrong_arg (key n) (l1 ++ r) = wrong_arg (key n) r).
  { induction l1 as [|a l1 IH]; intros r F; [reflexivity|]. inversion F as [|? ? FA FL]; subst. cbn [app wrong_arg]. destruct a as [t|v|]; [now apply IH| |now elim FA]. cbn in FA. destruct FA as [-> | ->]; [now apply IH|]. rewrite text_eqb_refl. now apply IH. }
  split; [|split; [|split]].
  - intros M. destruct (wrong_args (key n) l) as [e|] eqn:E; [|now apply wrong_args_none in E]. exists e. split; [now apply G|]. unfold wrong_args in E. destruct (wrong_arg (key n) l) as [e0|] eqn:X.
    + injection E as <-. clear - X. induction l as [|a r IH]; cbn [wrong_arg] in X; [discriminate|]. destruct a as [t|v|]; [auto| |injection X as <-; now left]. destruct (vassoc v) as [p|]; [|auto]. destruct (text_eqb (key n) p); [auto|]. injection X as <-. right. now left.
    + destruct (_ && _)%bool; [|discriminate]. injection E as <-. now left.
  - intros l1 a l2 -> F ->. apply G. unfold wrong_args. now rewrite PRE.
  - intros l1 v p l2 -> F A P. apply G. unfold wrong_args. rewrite PRE by exact F. cbn [wrong_arg]. rewrite A. destruct (text_eqb_spec (key n) p); [congruence|reflexivity].
  - intros F O. apply G. unfold wrong_args. apply wrong_arg_none in F. rewrite F. destruct (_ && _)%bool eqn:X; [reflexivity|]. apply lone_spec in X. contradiction.
Qed.
Print Assumptions c67_set_refuses.
Example ex_refuses : let u := AValue (mkT VUnparsed (lit "var(--x)") None None) in
  sm_set slib sample (lit "fill") [AText (lit "a"); AOther; AValue (own (lit "x") (lit "y"))] = (sample, Some TypeError) /\ sm_set slib sample (lit "fill") [AValue (own (lit "x") (lit "y")); AOther] = (sample, Some ValueError) /\
  sm_set slib sample (lit "fill") [AText (lit "a"); u] = (sample, Some TypeError) /\ snd (sm_set slib sample (lit "fill") [u]) = None.
Proof. vm_compute. auto. Qed.
(* what was parsed for a property can be set for it, and for no other *)
Theorem c67_set_parsed L reg n t vs v m b : breadonly b = false -> parse_all L table reg n t = Ok vs -> In v vs ->
  (key m = key n -> is_shorthand (key m) = false -> snd (sm_set L b m [AValue v]) = None) /\ (key m <> key n -> sm_set L b m [AValue v] = (b, Some ValueError)).
Proof.
  intros R H I0. assert (A := c67_property _ _ _ _ _ _ _ H I0). split.
  - intros K SH. assert (W : wrong_args (key m) [AValue v] = None) by (apply wrong_args_none; split; [constructor; [cbn; right; congruence|constructor]|left; cbn; lia]).
    unfold sm_set. cbv zeta. rewrite W. rewrite (delete_run L b (key m) R).
    set (b1 := fold_left _ _ _). assert (R1 : breadonly b1 = false) by (unfold b1, ops_of; destruct (contains b (key m)); [now apply drun_writable|exact R]).
    assert (F : find_shorthand (key m) = None) by (unfold is_shorthand in SH; destruct (find_shorthand (key m)); [discriminate|reflexivity]).
    unfold set_property. rewrite R1. destruct (nonempty _); cbn [negb].
    + destruct (_ || _)%bool; cbn [negb snd]; [|reflexivity]. unfold set_internal. rewrite key_key, F. destruct (cparse _ _); reflexivity.
    + unfold remove_property. now rewrite R1.
  - intros K. destruct (c67_set_refuses L b m [AValue v] R) as (_ & _ & X & _). apply (X [] v (key n) []); auto.
Qed.
Print Assumptions c67_set_parsed.
(* what was set is what is read *)
Theorem c67_set_get L reg b n l t w : block_ok b -> breadonly b = false -> is_shorthand (key n) = false -> may_set (key n) l -> joined (key n) l t -> nonempty (normalize_text t) = true -> stored (lcss L) t = Some w ->
  let b' := fst (sm_set L b n l) in sm_has b' n = true /\ sm_get_all L table reg b' n = parse_all L table reg n w /\
  (forall m, key m <> key n -> is_shorthand (key m) = false -> sm_has b' m = sm_has b m /\ sm_get_all L table reg b' m = sm_get_all L table reg b m).
Proof.
  intros B R SH M J NE S0 b'.
  assert (X : forall q, is_shorthand q = false -> (forall n0, In n0 [n] -> is_shorthand (key n0) = true -> ~ In q (written n0)) -> dget (bdecls b') q = if text_eqb (key n) q then Some (w, []) else dget (bdecls b) q).
  { intros q Q W. unfold b'. rewrite set_run by exact R. assert (WA := proj2 (wrong_args_none _ _) M). rewrite WA.
    destruct (text_eqb_spec (key n) q) as [K|K].
    - subst q. apply joined_spec in J. rewrite J. set (b1 := fold_left (drun (lcss L)) (ops_of L b (key n) []) b).
      assert (E : fold_left (drun (lcss L)) (ops_of L b (key n) [DSet (key n) t None]) b = drun (lcss L) b1 (DSet (key n) t None)) by (unfold b1, ops_of; destruct (contains b (key n)); reflexivity).
      assert (B1 : block_ok b1 /\ breadonly b1 = false) by (apply drun_list_ok; assumption). destruct B1 as [B1 R1].
      assert (D1 : dget (bdecls b1) (key n) = None) by (unfold b1; rewrite <- (key_key n) at 2; apply delete_at; auto; now rewrite key_key).
      rewrite E, step_latest; auto; [|cbn [dop_name]; rewrite key_key; congruence]. rewrite D1. cbn [latest_step]. rewrite key_key, text_eqb_refl, NE, S0. reflexivity.
    - apply (step_keep L b (key n)); auto; [now rewrite key_key|rewrite key_key; congruence|]. apply ops_names. intros o [<-|[]]. reflexivity. }
  assert (Y := X (key n) SH). rewrite text_eqb_refl in Y. specialize (Y ltac:(intros n0 [<-|[]]; congruence)).
  split; [unfold sm_has, contains, dhas; now rewrite Y|]. split.
  - unfold sm_get_all, contains, dhas, get_property_value. now rewrite SH, Y.
  - intros m K Q. assert (Z := X (key m) Q ltac:(intros n0 [<-|[]]; congruence)). destruct (text_eqb_spec (key n) (key m)); [congruence|]. unfold sm_has, sm_get_all, contains, dhas, get_property_value. rewrite Q, Z. auto.
Qed.
Print Assumptions c67_set_get.
Example ex_set_get : let b' := fst (sm_set slib sample (lit "Stroke-Width") [AText (lit "  2 ")]) in texts (sm_get_all slib table [] b' (lit "stroke-width")) = Ok [(VNumeric, lit "2")] /\ sm_size b' = 4%nat. Proof. vm_compute. auto. Qed.
(* a map over a read-only block raises or does nothing *)
Theorem c67_readonly L reg h b : (forall x, lnumeric L x <> Some KeyError) -> breadonly b = true -> fold_left (mrun L table reg) h b = b /\
  (forall n l, may_set (key n) l -> sm_set L b n l = (b, Some NoModificationAllowedError)) /\
  (forall n, sm_delete L b n = (b, if contains b n then Some NoModificationAllowedError else None)).
Proof.
  intros N0 R.
  assert (DEL : forall n, sm_delete L b n = (b, if contains b n then Some NoModificationAllowedError else None)) by (intros n; unfold sm_delete, remove_property; rewrite R; destruct (contains b n); reflexivity).
  assert (SET : forall n l, fst (sm_set L b n l) = b /\ (may_set (key n) l -> sm_set L b n l = (b, Some NoModificationAllowedError))).
  { intros n l. unfold sm_set. cbv zeta. destruct (wrong_args (key n) l) eqn:W; [split; [reflexivity|intros M; apply wrong_args_none in M; congruence]|]. rewrite DEL. destruct (contains b (key n)); [auto|]. unfold set_property. rewrite R. auto. }
  split; [|split; [intros; now apply SET|exact DEL]].
  induction h as [|o h IH]; [reflexivity|]. cbn [fold_left]. replace (mrun L table reg b o) with b; [exact IH|]. symmetry. destruct o as [n l|n|n l|n a|n|n|n]; cbn [mrun]; try reflexivity.
  - apply SET.
  - now rewrite DEL.
  - unfold sm_setdefault. destruct (sm_get_all L table reg b n) as [|[]]; try reflexivity. apply SET.
  - unfold sm_pop. destruct (sm_get_all L table reg b n); [|reflexivity]. rewrite DEL. destruct (contains b n); reflexivity.
Qed.
Print Assumptions c67_readonly.
Example ex_readonly : snd (sm_set slib (mkB (bdecls sample) true) (lit "x") [AText (lit "1")]) = Some NoModificationAllowedError /\ sm_delete slib (mkB (bdecls sample) true) (lit "x") = (mkB (bdecls sample) true, None). Proof. vm_compute. auto. Qed.

(** ** What a mapping should do and this one does not *)
(* "in" is never False *)
Theorem c67_in_refuted : ~ (forall L reg b n, sm_in L table reg b n = Ok (sm_has b n)).
Proof. intros H. specialize (H slib [] sample (lit "x")). vm_compute in H. discriminate. Qed.
Print Assumptions c67_in_refuted.
Theorem c67_in_true L reg b n : (forall x, lnumeric L x <> Some KeyError) -> sm_in L table reg b n <> Ok false.
Proof. intros N0. unfold sm_in, sm_get_all. destruct (contains b n); [|discriminate]. assert (X := quiet_table L reg N0 n (get_property_value (lcss L) b n)). destruct (parse_all _ _ _ _ _) as [|[]]; try discriminate. congruence. Qed.
Print Assumptions c67_in_true.
(* setdefault sets nothing: it returns the empty list for a missing property *)
Theorem c67_setdefault_refuted : ~ (forall L reg b n t, sm_has b n = false -> sm_has (fst (sm_setdefault L table reg b n (AText t))) n = true).
Proof. intros H. specialize (H slib [] sample (lit "x") (lit "1") eq_refl). vm_compute in H. discriminate. Qed.
Print Assumptions c67_setdefault_refuted.
Theorem c67_append_refuted : ~ (forall (L : lib) reg b n a, fst (sm_append b n [a]) <> b \/ exists v, sm_get_all L table reg b n = Ok v /\ (0 < length v)%nat).
Proof. intros H. destruct (H slib [] sample (lit "x") (AText (lit "1"))) as [X|[v [X Y]]]; [now apply X|]. vm_compute in X. injection X as <-. cbn in Y. lia. Qed.
Print Assumptions c67_append_refuted.
(* a shorthand that was set is not there, and cannot be deleted *)
Theorem c67_shorthand_refuted : ~ (forall L b n l, block_ok b -> breadonly b = false -> snd (sm_set L b n l) = None -> fst (sm_set L b n l) <> b -> sm_has (fst (sm_set L b n l)) n = true).
Proof.
  intros H. specialize (H slib empty_block (lit "overflow") [AText (lit "hidden")]). assert (X : sm_has (fst (sm_set slib empty_block (lit "overflow") [AText (lit "hidden")])) (lit "overflow") = true); [|vm_compute in X; discriminate].
  apply H; [constructor|reflexivity|vm_compute; reflexivity|vm_compute; discriminate].
Qed.
Print Assumptions c67_shorthand_refuted.
Theorem c67_shorthand_delete_refuted : ~ (forall L b n, block_ok b -> breadonly b = false -> get_property_value (lcss L) (fst (sm_delete L b n)) n = []).
Proof. intros H. specialize (H slib (mkB [(lit "overflow-x", (lit "hidden", [])); (lit "overflow-y", (lit "hidden", []))] false) (lit "overflow") ltac:(unfold block_ok, dict_ok; cbn [bdecls dkeys map fst]; nodup_lits) eq_refl). vm_compute in H. discriminate. Qed.
Print Assumptions c67_shorthand_delete_refuted.
(* parse reads lists where CSS.supports sees none, and empty values between commas *)
Theorem c67_comma_refuted : ~ (forall reg name t vs, firstn 2 name <> lit "--" -> typed_text reg (key name) t -> parse_all slib table reg name t = Ok vs -> css_supports (lcolor slib) table name (map fst (ltokens slib t)) = Ok true).
Proof.
  intros H. specialize (H [] (lit "stroke-width") (lit "1 , 2")). assert (X : exists vs, parse_all slib table [] (lit "stroke-width") (lit "1 , 2") = Ok vs) by (eexists; vm_compute; reflexivity). destruct X as [vs X].
  apply H in X; [vm_compute in X; discriminate|discriminate|]. apply typed_text_spec. reflexivity.
Qed.
Print Assumptions c67_comma_refuted.
Theorem c67_empty_value_refuted : ~ (forall reg name t vs v, parse_all slib table reg name t = Ok vs -> In v vs -> tostring v <> []).
Proof.
  intros H. assert (X : exists vs v, parse_all slib table [] (lit "stroke-width") (lit ", 2") = Ok vs /\ In v vs /\ tostring v = []) by (eexists; eexists; split; [vm_compute; reflexivity|]; split; [left; reflexivity|reflexivity]).
  destruct X as (vs & v & A & B & C). exact (H _ _ _ _ _ A B C).
Qed.
Print Assumptions c67_empty_value_refuted.
(* a transform function has every syntax of a registered custom property, but is not read as its value *)
Theorem c67_transform_refuted : ~ (forall reg name t, In name reg -> css_supports (lcolor slib) [(name, descriptor (lit "*"))] name (map fst (ltokens slib t)) <> Ok true \/ exists vs, parse_all slib table reg name t = Ok vs).
Proof. intros H. destruct (H [lit "--x"] (lit "--x") (lit "rotate(2)") (or_introl eq_refl)) as [X|[vs X]]; [apply X; vm_compute; reflexivity|vm_compute in X; discriminate]. Qed.
Print Assumptions c67_transform_refuted.
(* set forgets the priority *)
Theorem c67_priority_refuted : ~ (forall L b n l, block_ok b -> may_set (key n) l -> get_property_priority (fst (sm_set L b n l)) n = get_property_priority b n).
Proof. intros H. specialize (H slib sample (lit "stroke") [AText (lit "red")] sample_ok ltac:(split; [repeat constructor|left; cbn; lia])). vm_compute in H. discriminate. Qed.
Print Assumptions c67_priority_refuted.
