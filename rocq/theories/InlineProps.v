(** C61: the inline style of an element and its attribute 'style'. *)
From Verif Require Import PyBase PyText PySplit PyStrip PyDict PyCase UtilsModel UtilsSpec UtilsProofs ShortModel ShortSpec ShortProofs ShortProofs2 ShortProofs4 InlineModel InlineSpec InlineProofs InlineProofs2.
Local Open Scope nat_scope.

Ltac plain_lit := split; [vm_compute; reflexivity|]; repeat split; intros HI; vm_compute in HI;
  repeat (destruct HI as [HI|HI]; [discriminate HI|]); exact HI.
Ltac neat_lit := split; [vm_compute; reflexivity|split; apply free_forallb; vm_compute; reflexivity].

(** What the attribute says about a plain property is what is read, in the
    form values are kept; where it says nothing, the earlier declaration stands. *)
Theorem c61_read : forall c s n, inline_ok s -> plain (key n) ->
  (forall v, i_value c s n = Ok v -> v = entry_value (seen c (dget (idecls s) (key n)) (attr_of s (key n)))) /\
  (forall p, i_priority c s n = Ok p -> p = entry_priority (dget (idecls s) (key n))).
Proof.
  intros c s n O P. apply plain_facts in P as (L & S & _). unfold i_value, i_priority.
  destruct (sync c s) as [s'|e] eqn:E; cbn [bind]; [|split; intros; discriminate].
  destruct (sync_plain c s s' (key n) O L S E) as (_ & _ & G). rewrite value_plain, prio_plain by exact S. rewrite G.
  split; intros x Q; injection Q as <-; [reflexivity|]. unfold seen.
  destruct (attr_of s (key n)) as [v|]; [|reflexivity]. destruct (dget (idecls s) (key n)) as [[w p]|]; cbn [entry_priority].
  - destruct (text_eqb v w); [reflexivity|]. destruct (kept_as c v); reflexivity.
  - destruct (kept_as c v); reflexivity.
Qed.
Print Assumptions c61_read.
Definition was_red : inline := mkI [(lit "fill", (lit "red", lit "important")); (lit "stroke", (lit "gray", []))] (Some (lit "fill :  blue; overflow: hidden; FILL: white")) false.
Lemma was_red_ok : inline_ok was_red.
Proof.
  split; [|reflexivity]. unfold dict_ok. cbn [was_red idecls dkeys map fst]. constructor; [|constructor; [intros []|constructor]].
  intros [E|[]]. vm_compute in E. discriminate E.
Qed.
Example c61_read_case : inline_ok was_red /\ plain (key (lit "Fill")) /\
  i_value wcss was_red (lit "Fill") = Ok (lit "blue") /\ i_priority wcss was_red (lit "Fill") = Ok (lit "important") /\
  i_value wcss was_red (lit "stroke") = Ok (lit "gray") /\ i_value wcss was_red (lit "overflow-y") = Ok (lit "hidden").
Proof. split; [exact was_red_ok|]. split; [plain_lit|]. repeat split; vm_compute; reflexivity. Qed.
(** Reading does not fail when the attribute has no shorthand. *)
Theorem c61_read_total : forall c s n, inline_ok s -> (forall k v, attr_of s k = Some v -> is_shorthand k = false) ->
  exists v, i_value c s n = Ok v.
Proof. intros c s n O H. destruct (sync_total c s O H) as [s' E]. unfold i_value. rewrite E. eexists. reflexivity. Qed.
Print Assumptions c61_read_total.

(** A loaded element has the declarations of its attribute, in their order. *)
Theorem c61_load : forall c t, (forall k v, attr_of (mkI [] (Some t) false) k = Some v -> is_shorthand k = false) ->
  sync c (mkI [] (Some t) false) =
  Ok (mkI (flat_map (fun e => match kept_as c (snd e) with Some w => [(fst e, (w, []))] | None => [] end) (style_to_dict (Some t))) (Some t) false).
Proof.
  intros c t H. unfold sync. cbn [ironly idecls fold_left iattr]. rewrite load_items; [reflexivity|apply style_ok|constructor|].
  intros k I. split; [|intros []]. apply dget_some_keys in I as [v I]. exact (H k v I).
Qed.
Print Assumptions c61_load.
Example c61_load_case : exists s, sync wcss (mkI [] (Some (lit "stroke: RED; fill: Inherit;; stroke : blue; x")) false) = Ok s /\
  idecls s = [(lit "stroke", (lit "blue", [])); (lit "fill", (lit "inherit", []))].
Proof. eexists. split; vm_compute; reflexivity. Qed.
(** One shorthand in the attribute is read as if it were declared. *)
Theorem c61_load_shorthand : forall c t n v m, style_to_dict (Some t) = [(n, v)] -> is_shorthand n = true ->
  normalize_text v = v -> v <> [] ->
  i_value c (mkI [] (Some t) false) m =
  (do b <- set_property c (mkB [] false) n v (Some []); Ok (get_property_value c b m)).
Proof.
  intros c t n v m E S Nv Ne. unfold i_value, sync. cbn [ironly idecls fold_left iattr]. rewrite E. cbn [sync_items]. unfold sync_item. rewrite S.
  rewrite empty_value. destruct v as [|x v']; [congruence|]. set (v := x :: v') in *. cbn [text_eqb]. change (text_eqb [] v) with false. cbv iota.
  unfold set_property. cbn [breadonly]. rewrite Nv. change (nonempty v) with true. cbn [negb]. change (lower []) with (@nil N). cbn [text_eqb orb negb bdecls].
  assert (C : custom n = false /\ lower (key n) = lower n /\ custom (key n) = false).
  { apply is_shorthand_find in S as (s & l & S). apply find_some in S as [C E1]. split; [exact C|].
    unfold key. rewrite C. rewrite E1. split; [destruct s; reflexivity|destruct s; reflexivity]. }
  destruct C as (C1 & C2 & C3).
  assert (F : find_shorthand (key n) = find_shorthand n) by (unfold find_shorthand; rewrite C1, C2, C3; reflexivity).
  assert (Pr : sh_priority depth [] n = []).
  { apply is_shorthand_find in S as (s & l & S). assert (E2 : longhands n = longhands (sname s)).
    { unfold longhands. apply find_some in S as [_ E1]. rewrite E1. destruct s; reflexivity. }
    unfold depth. rewrite sh_priority_S. unfold prios. rewrite E2. destruct s; vm_compute; reflexivity. }
  rewrite Pr. unfold set_internal. rewrite F. destruct (cparse c v) as [|y comps]; [reflexivity|].
  destruct (find_shorthand n) as [[s l]|] eqn:FF; [|exfalso; unfold is_shorthand in S; rewrite FF in S; discriminate].
  destruct (sh_set c s [] (y :: comps) []) as [r|e]; [|reflexivity]. cbn [bind]. destruct r; reflexivity.
Qed.
Print Assumptions c61_load_shorthand.
Example c61_load_shorthand_case : exists t, style_to_dict (Some t) = [(lit "Overflow", lit "hidden scroll")] /\
  i_value wcss (mkI [] (Some t) false) (lit "overflow-y") = Ok (lit "scroll") /\ i_value wcss (mkI [] (Some t) false) (lit "OVERFLOW") = Ok (lit "hidden scroll").
Proof. exists (lit "Overflow:hidden scroll"). repeat split; vm_compute; reflexivity. Qed.

(** Declaring a plain property writes it into the attribute, keeps all other
    declarations there, and is read back. *)
Theorem c61_set_partial : forall c s n v p w pr s', inline_ok s -> plain (key n) -> neat (key n) -> neat w ->
  accepted c s n v p w pr -> i_set c s n v p = Ok s' ->
  attr_of s' (key n) = Some w /\
  (forall k, k <> key n -> ~ (In k font_extras /\ attr_of s (lit "font") <> None) -> attr_of s' k = attr_of s k) /\
  (forall r, i_value c s' n = Ok r -> r = w) /\ (forall r, i_priority c s' n = Ok r -> r = pr) /\
  (forall m r r', plain (key m) -> key m <> key n -> i_value c s m = Ok r -> i_value c s' m = Ok r' -> r' = r).
Proof.
  intros c s n v p w pr s' O P N W AC E. destruct (set_plain c s n v p w pr s' O P N W AC E) as (O' & A0 & A & D & OT).
  assert (AN : attr_of s' (key n) = Some w) by (rewrite A, text_eqb_refl; reflexivity).
  assert (AK : forall k, k <> key n -> ~ (In k font_extras /\ attr_of s (lit "font") <> None) -> attr_of s' k = attr_of s k).
  { intros k Nk F. rewrite A. destruct (text_eqb_spec (key n) k); [congruence|]. unfold after_font, font_there, dhas.
    unfold attr_of in F. destruct (dget (style_to_dict (iattr s)) (lit "font")) as [x|]; [|reflexivity].
    destruct (mem k font_sub_properties) eqn:M; [|reflexivity]. exfalso. apply F. split; [|discriminate]. apply mem_in in M. exact M. }
  split; [exact AN|]. split; [exact AK|]. destruct (c61_read c s' n O' P) as [RV RP]. rewrite D, AN in *. cbn [entry_priority] in RP.
  split; [intros r Hr; rewrite (RV r Hr); unfold seen; rewrite text_eqb_refl; reflexivity|].
  split; [exact RP|]. intros m r r' Pm Nm Er Er'. destruct (c61_read c s m O Pm) as [RM _]. destruct (c61_read c s' m O' Pm) as [RM' _].
  rewrite (RM r Er), (RM' r' Er'). rewrite (OT (key m) Pm Nm). rewrite AK; [rewrite seen_twice; reflexivity|exact Nm|].
  intros [I _]. destruct Pm as (_ & _ & _ & F). exact (F I).
Qed.
Print Assumptions c61_set_partial.
Example c61_set_case : exists s', i_set wcss was_red (lit "STROKE") (lit "  Transparent ") (Some (lit "IMPORTANT")) = Ok s' /\
  accepted wcss was_red (lit "STROKE") (lit "  Transparent ") (Some (lit "IMPORTANT")) (lit "transparent") (lit "important") /\
  plain (key (lit "STROKE")) /\ neat (key (lit "STROKE")) /\ neat (lit "transparent") /\
  iattr s' = Some (lit "FILL: white; fill: blue; overflow: hidden; stroke: transparent;") /\
  i_value wcss s' (lit "stroke") = Ok (lit "transparent").
Proof.
  eexists. split; [vm_compute; reflexivity|]. split; [repeat split; vm_compute; reflexivity|].
  split; [plain_lit|]. split; [neat_lit|]. split; [neat_lit|]. split; vm_compute; reflexivity.
Qed.

(** Removing it takes it out of both and returns the value it had. *)
Theorem c61_remove : forall c s n s' v, inline_ok s -> plain (key n) -> i_remove c s n = Ok (s', v) ->
  i_value c s n = Ok v /\ (v <> [] -> attr_of s' (key n) = None) /\ (forall k, k <> key n -> attr_of s' k = attr_of s k) /\
  (forall r, i_value c s' n = Ok r -> r = []) /\
  (forall m r r', plain (key m) -> key m <> key n -> i_value c s m = Ok r -> i_value c s' m = Ok r' -> r' = r).
Proof.
  intros c s n s' v O P E. destruct (remove_plain c s n s' v O P E) as (V & O' & D & OT & A).
  assert (IV : i_value c s n = Ok v).
  { unfold i_remove in E. rewrite (proj2 O) in E. unfold i_value. destruct (sync c s) as [s1|]; cbn [bind] in *; [|discriminate].
    destruct (sync c s1) as [s2|]; cbn [bind] in E; [|discriminate].
    match goal with H : (let '(_, _) := ?x in _) = _ |- _ => destruct x as [d b] end. injection E as _ <-. reflexivity. }
  split; [exact IV|]. split.
  { intros NV. rewrite A, text_eqb_refl. destruct (seen c _ _); [reflexivity|]. exfalso. apply NV. exact V. }
  assert (AK : forall k, k <> key n -> attr_of s' k = attr_of s k).
  { intros k Nk. rewrite A. destruct (text_eqb_spec (key n) k); [congruence|reflexivity]. }
  split; [exact AK|]. split.
  - intros r Hr. destruct (c61_read c s' n O' P) as [RV _]. rewrite (RV r Hr), D, A, text_eqb_refl.
    destruct (seen c (dget (idecls s) (key n)) (attr_of s (key n))) as [e|] eqn:SE; [reflexivity|]. cbn [andb is_some].
    unfold seen in *. destruct (attr_of s (key n)) as [a|]; [|reflexivity]. destruct (dget (idecls s) (key n)) as [[w p]|].
    + destruct (text_eqb a w); [discriminate|]. destruct (kept_as c a); discriminate.
    + destruct (kept_as c a); [discriminate|reflexivity].
  - intros m r r' Pm Nm Er Er'. destruct (c61_read c s m O Pm) as [RM _]. destruct (c61_read c s' m O' Pm) as [RM' _].
    rewrite (RM r Er), (RM' r' Er'). rewrite (OT (key m) Pm Nm), AK by exact Nm. rewrite seen_twice. reflexivity.
Qed.
Print Assumptions c61_remove.
Example c61_remove_case : exists s', i_remove wcss was_red (lit "FILL") = Ok (s', lit "blue") /\
  iattr s' = Some (lit "FILL: white; overflow: hidden;") /\ i_value wcss s' (lit "fill") = Ok [].
Proof. eexists. split; [vm_compute; reflexivity|]. split; vm_compute; reflexivity. Qed.

(** As long as only the style object is used, on plain properties, it is the
    declaration block of C23, and the attribute holds exactly its values. *)
Theorem c61_history_partial : forall c h s, in_step s -> Forall (fits c) h ->
  let s' := fold_left (irun c) h s in let b := fold_left (drun c) h (mkB (idecls s) false) in
  idecls s' = bdecls b /\
  (forall k, attr_of s' k = option_map fst (dget (bdecls b) k)) /\
  (iattr s' = None <-> bdecls b = []) /\
  (forall n, i_value c s' n = Ok (get_property_value c b n) /\ i_priority c s' n = Ok (get_property_priority b n)) /\
  i_keys c s' = Ok (keys b).
Proof.
  intros c h s T F s' b. assert (T0 := T). destruct T as ((D & R) & _).
  assert (B : mkB (idecls s) false = block_of s) by (unfold block_of; rewrite R; reflexivity).
  destruct (run_sim c h s T0 F) as [E T']. fold s' in E, T'. unfold b. rewrite B, <- E. cbn [block_of bdecls].
  split; [reflexivity|]. assert (T1 := T'). destruct T' as (_ & _ & A & Z1 & Z2). split; [exact A|]. split.
  - split; [intros Q; destruct (idecls s') eqn:Q2; [reflexivity|exfalso; apply Z2; [discriminate|exact Q]]|exact Z1].
  - unfold i_value, i_priority, i_keys. rewrite (sync_id c s' T1). cbn [bind]. split; [intros n; split; reflexivity|reflexivity].
Qed.
Print Assumptions c61_history_partial.
Lemma fresh_in_step : in_step fresh.
Proof.
  split; [split; [constructor|reflexivity]|]. split; [intros k []|]. split; [intros k; reflexivity|]. split; [reflexivity|]. intros Q. destruct (Q eq_refl).
Qed.
Example c61_history_case :
  let h := [DSet (lit "Stroke") (lit "blue") (Some (lit "important")); DSet (lit "fill") (lit " red") None; DSet (lit "--X") (lit "a  b") None;
            DRemove (lit "fill"); DSet (lit "fill") (lit "") None; DSet (lit "stroke") (lit "gray") None] in
  in_step fresh /\ Forall (fits wcss) h /\
  iattr (fold_left (irun wcss) h fresh) = Some (lit "--X: a b; stroke: gray;") /\
  i_priority wcss (fold_left (irun wcss) h fresh) (lit "stroke") = Ok (lit "important").
Proof.
  cbv zeta. split; [exact fresh_in_step|]. split; [|split; vm_compute; reflexivity].
  repeat (apply Forall_cons; [split; [cbn [dop_name]; plain_lit|split; [cbn [dop_name]; neat_lit|
    first [exact Logic.I | intros w E; vm_compute in E; first [discriminate E | injection E as <-; neat_lit]]]]|]). apply Forall_nil.
Qed.

(** A shorthand whose value can be written goes into the attribute under its
    own name, in the place of its longhands. *)
Theorem c61_shorthand_partial : forall c s s1 n sh v p d w, inline_ok s -> simple sh = true -> key n = sname sh ->
  nonempty (normalize_text v) = true -> good_priority (lower p) = true -> sync c s = Ok s1 ->
  set_internal c (idecls s1) (key n) (normalize_text v) (lower p) = Ok (Some d) ->
  get_property_value c (mkB d false) n = w -> w <> [] -> neat w ->
  exists s', i_set c s n v (Some p) = Ok s' /\ idecls s' = d /\ attr_of s' (sname sh) = Some w /\
    (forall k, In k (leaves sh) -> attr_of s' k = None) /\
    (forall k, k <> sname sh -> ~ In k (leaves sh) -> ~ (In k font_extras /\ attr_of s (lit "font") <> None) -> attr_of s' k = attr_of s k).
Proof.
  intros c s s1 n sh v p d w O Sh K NV G E1 E2 V NE W. destruct (simple_facts sh Sh) as (L & S & X & _ & _ & _ & _ & _ & NL).
  unfold i_set. rewrite (proj2 O), NV. cbn [negb bind]. unfold good_priority in G. rewrite G. cbn [negb]. rewrite E1. cbn [bind].
  rewrite E2. cbn [bind]. rewrite K, S. eexists. split; [reflexivity|]. split; [reflexivity|].
  unfold get_property_value in V. rewrite K, S in V. cbn [bdecls] in V. rewrite V.
  assert (A1 : iattr s1 = iattr s).
  { unfold sync in E1. rewrite (proj2 O) in E1. destruct (sync_items _ _ _); cbn [bind] in E1; [|discriminate]. injection E1 as <-. reflexivity. }
  assert (A := attr_set_short c d sh w (iattr s1) Sh W NE V). unfold attr_of. cbn [iattr]. rewrite A1 in *.
  split; [rewrite A, text_eqb_refl; reflexivity|]. split.
  - intros k I. rewrite A. apply mem_in in I. rewrite I. destruct (text_eqb_spec (sname sh) k) as [Q|Q]; [|reflexivity].
    exfalso. rewrite <- Q, NL in I. discriminate.
  - intros k N1 N2 F. rewrite A. destruct (text_eqb_spec (sname sh) k); [congruence|].
    destruct (mem k (leaves sh)) eqn:M; [apply mem_in in M; contradiction|]. unfold after_font, font_there, dhas.
    destruct (dget (style_to_dict (iattr s)) (lit "font")) as [x|]; [|reflexivity].
    destruct (mem k font_sub_properties) eqn:M2; [|reflexivity]. exfalso. apply F. split; [|discriminate]. apply mem_in in M2. exact M2.
Qed.
Print Assumptions c61_shorthand_partial.
Example c61_shorthand_case : exists s', i_set wcss (mkI [] (Some (lit "overflow-x: auto; fill: red")) false) (lit "Overflow") (lit "hidden  scroll") (Some []) = Ok s' /\
  iattr s' = Some (lit "fill: red; overflow: hidden scroll;") /\ i_value wcss s' (lit "overflow-y") = Ok (lit "scroll").
Proof. eexists. split; [vm_compute; reflexivity|]. split; vm_compute; reflexivity. Qed.

(** A read-only style refuses changes and does not look at the attribute. *)
Theorem c61_readonly : forall c d a n v p, let s := mkI d a true in
  i_set c s n v p = Err NoModificationAllowedError /\ i_remove c s n = Err NoModificationAllowedError /\
  i_value c s n = Ok (get_property_value c (mkB d true) n).
Proof. intros. repeat split. Qed.
Print Assumptions c61_readonly.

(** False in general: *)
(* what the attribute no longer says is still there; whether it is depends on reading before *)
Theorem c61_stale_refuted : exists s s1, s = mkI [] (Some (lit "fill: red")) false /\ sync wcss s = Ok s1 /\
  i_value wcss (i_attr s1 None) (lit "fill") = Ok (lit "red") /\ i_value wcss (i_attr s None) (lit "fill") = Ok [].
Proof. eexists. eexists. split; [reflexivity|]. split; [vm_compute; reflexivity|]. split; vm_compute; reflexivity. Qed.
Print Assumptions c61_stale_refuted.
(* names of the attribute in upper case cannot be read *)
Theorem c61_case_refuted : exists s, attr_of s (lit "FILL") = Some (lit "red") /\ i_keys wcss s = Ok [lit "FILL"] /\
  i_value wcss s (lit "FILL") = Ok [] /\ i_value wcss s (lit "fill") = Ok [].
Proof. exists (mkI [] (Some (lit "FILL: red")) false). repeat split; vm_compute; reflexivity. Qed.
Print Assumptions c61_case_refuted.
(* the priority is not written, and not read *)
Theorem c61_priority_refuted : exists s', i_set wcss fresh (lit "fill") (lit "red") (Some (lit "important")) = Ok s' /\
  iattr s' = Some (lit "fill: red;") /\
  i_value wcss (mkI [] (Some (lit "fill: red !important")) false) (lit "fill") = Ok (lit "red !important") /\
  i_priority wcss (mkI [] (Some (lit "fill: red !important")) false) (lit "fill") = Ok [].
Proof. eexists. split; [vm_compute; reflexivity|]. repeat split; vm_compute; reflexivity. Qed.
Print Assumptions c61_priority_refuted.
(* a value with a colon is lost from the attribute when another property is set *)
Theorem c61_colon_refuted : exists s1 s2, i_set wcss fresh (lit "fill") (lit "url(http://localhost/a)") None = Ok s1 /\
  iattr s1 = Some (lit "fill: url(http://localhost/a);") /\ i_set wcss s1 (lit "stroke") (lit "red") None = Ok s2 /\ iattr s2 = Some (lit "stroke: red;").
Proof. eexists. eexists. split; [vm_compute; reflexivity|]. split; [vm_compute; reflexivity|]. split; vm_compute; reflexivity. Qed.
Print Assumptions c61_colon_refuted.
(* reading moves declarations: the attribute says INHERIT, the declaration inherit *)
Theorem c61_order_refuted : exists s s1, s = mkI [] (Some (lit "fill: INHERIT; stroke: red")) false /\ sync wcss s = Ok s1 /\
  i_keys wcss s = Ok [lit "fill"; lit "stroke"] /\ i_keys wcss s1 = Ok [lit "stroke"; lit "fill"].
Proof. eexists. eexists. split; [reflexivity|]. split; [vm_compute; reflexivity|]. split; vm_compute; reflexivity. Qed.
Print Assumptions c61_order_refuted.
(* setting [fill] takes [font-kerning] out of an attribute that has [font] *)
Theorem c61_font_refuted : exists s', i_set wcss (mkI [] (Some (lit "font: inherit; font-kerning: none")) false) (lit "fill") (lit "red") None = Ok s' /\
  iattr s' = Some (lit "fill: red; font: inherit;").
Proof. eexists. split; vm_compute; reflexivity. Qed.
Print Assumptions c61_font_refuted.
