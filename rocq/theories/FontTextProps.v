(** The 'font-variant' (C48) and 'font' (C52) shorthands. *)
From Verif Require Import PyBase PyText PyStrip PySplit PyDict UtilsSpec UtilsProofs FontTextModel FontTextSpec FontTextProofs.
#[local] Open Scope N_scope.

(** ** C48 *)
Definition keyword (t : text) : Prop := In t [lit "normal"; lit "none"].
Lemma not_keyword t : ~ keyword t -> parse_font_variant t = variants_dict (fold_left variant_step (split_ws t) no_variants).
Proof.
  intros H. unfold parse_font_variant. destruct (text_eqb_spec t normal) as [->|]; [destruct H; left; reflexivity|].
  destruct (text_eqb_spec t (lit "none")) as [->|]; [destruct H; right; left; reflexivity|reflexivity].
Qed.
(* the list longhands hold exactly their words, in order; never empty *)
Theorem c48_lists t h : ~ keyword t -> In h list_longhands -> exists l, picked (belongs h) (split_ws t) l /\
  dget (parse_font_variant t) h = Some (SL (match l with [] => [lit "normal"] | _ => l end)).
Proof.
  intros K I. rewrite not_keyword by exact K. destruct (loop_list h (split_ws t) I no_variants) as (l & P & E).
  exists l. split; [exact P|]. rewrite dict_list by exact I. rewrite E.
  assert (V : vget h no_variants = []) by (unfold list_longhands in I; cbn [map In] in I; destruct I as [<-|[<-|[<-|[<-|[]]]]]; reflexivity).
  rewrite V. destruct l; reflexivity.
Qed.
Print Assumptions c48_lists.
(* the other two hold their last word *)
Theorem c48_words t h : ~ keyword t -> In h word_longhands -> exists l, picked (belongs h) (split_ws t) l /\
  dget (parse_font_variant t) h = Some (ST (last l (lit "normal"))).
Proof.
  intros K I. rewrite not_keyword by exact K. destruct (loop_word h (split_ws t) I no_variants) as (l & P & E).
  exists l. split; [exact P|]. rewrite dict_word by exact I. rewrite E. do 3 f_equal.
  unfold word_longhands in I; cbn [map In] in I; destruct I as [<-|[<-|[]]]; reflexivity.
Qed.
Print Assumptions c48_words.
(* no word belongs to two longhands *)
Theorem c48_disjoint h h' w : belongs h w -> belongs h' w -> h = h'.
Proof. apply belongs_one. Qed.
Print Assumptions c48_disjoint.
Theorem c48_keys t : dkeys (parse_font_variant t) = map lit ["font-variant-alternates"; "font-variant-caps"; "font-variant-east-asian";
  "font-variant-ligatures"; "font-variant-numeric"; "font-variant-position"]%string.
Proof. unfold parse_font_variant. destruct (text_eqb t normal), (text_eqb t (lit "none")); reflexivity. Qed.
Print Assumptions c48_keys.
Theorem c48_normal : parse_font_variant (lit "normal") = map (fun h => (h, if mem h word_longhands then ST (lit "normal") else SL [lit "normal"])) (dkeys (parse_font_variant []))
  /\ forall h, dget (parse_font_variant (lit "none")) h =
     if text_eqb h (lit "font-variant-ligatures") then Some (SL [lit "none"]) else dget (parse_font_variant (lit "normal")) h.
Proof.
  split; [reflexivity|]. intros h. destruct (text_eqb_spec h (lit "font-variant-ligatures")) as [->|N]; [reflexivity|].
  change (parse_font_variant (lit "none")) with (variants_dict (mkV [] normal [] [lit "none"] [] normal)).
  change (parse_font_variant (lit "normal")) with (variants_dict (mkV [] normal [] [] [] normal)).
  unfold variants_dict. cbn [dget valt vcaps vasian vlig vnum vpos].
  repeat match goal with |- context [text_eqb ?a h] => destruct (text_eqb_spec a h) as [<-|] end; try reflexivity. congruence.
Qed.
Print Assumptions c48_normal.
(* written word by word, every longhand reads back *)
Theorem c48_roundtrip lig alt asian num caps pos : Forall (belongs (lit "font-variant-ligatures")) lig -> Forall (belongs (lit "font-variant-alternates")) alt ->
  Forall (belongs (lit "font-variant-east-asian")) asian -> Forall (belongs (lit "font-variant-numeric")) num ->
  belongs (lit "font-variant-caps") caps -> belongs (lit "font-variant-position") pos -> lig <> [] -> alt <> [] -> asian <> [] -> num <> [] ->
  forall t, split_ws t = lig ++ alt ++ [caps] ++ asian ++ num ++ [pos] ->
  parse_font_variant t = [(lit "font-variant-alternates", SL alt); (lit "font-variant-caps", ST caps); (lit "font-variant-east-asian", SL asian);
    (lit "font-variant-ligatures", SL lig); (lit "font-variant-numeric", SL num); (lit "font-variant-position", ST pos)].
Proof.
  intros A B C D E F Na Nb Nc Nd t S.
  assert (K : ~ keyword t).
  { intros [<-|[<-|[]]]; (assert (L : (2 <= length (split_ws (lit "normal")))%nat \/ (2 <= length (split_ws (lit "none")))%nat); [|vm_compute in L; lia]);
    [left|right]; rewrite S, !app_length; destruct lig; [congruence| |congruence|]; cbn; lia. }
  assert (W : forall h, exists l, picked (belongs h) (split_ws t) l /\
     l = (if text_eqb h (lit "font-variant-ligatures") then lig else []) ++ (if text_eqb h (lit "font-variant-alternates") then alt else [])
         ++ (if text_eqb h (lit "font-variant-caps") then [caps] else []) ++ (if text_eqb h (lit "font-variant-east-asian") then asian else [])
         ++ (if text_eqb h (lit "font-variant-numeric") then num else []) ++ (if text_eqb h (lit "font-variant-position") then [pos] else [])).
  { intros h. eexists. split; [|reflexivity]. rewrite S.
    assert (G : forall g ws, Forall (belongs g) ws -> picked (belongs h) ws (if text_eqb h g then ws else [])).
    { intros g ws Fg. destruct (text_eqb_spec h g) as [->|N]; [now apply picked_all|]. apply picked_none. revert Fg. apply Forall_impl.
      intros w Bw. apply (belongs_not g h w Bw). congruence. }
    repeat apply picked_app; apply G; auto. }
  rewrite not_keyword by exact K.
  assert (P1 : forall h, In h list_longhands -> forall l, picked (belongs h) (split_ws t) l -> vget h (fold_left variant_step (split_ws t) no_variants) = l).
  { intros h I l P. destruct (loop_list h (split_ws t) I no_variants) as (l' & P' & ->). rewrite (picked_fun _ _ _ _ P' P).
    unfold list_longhands in I; cbn [map In] in I; destruct I as [<-|[<-|[<-|[<-|[]]]]]; reflexivity. }
  assert (P2 : forall h, In h word_longhands -> forall l, picked (belongs h) (split_ws t) l -> vword h (fold_left variant_step (split_ws t) no_variants) = last l normal).
  { intros h I l P. destruct (loop_word h (split_ws t) I no_variants) as (l' & P' & ->). rewrite (picked_fun _ _ _ _ P' P). f_equal.
    unfold word_longhands in I; cbn [map In] in I; destruct I as [<-|[<-|[]]]; reflexivity. }
  remember (fold_left variant_step (split_ws t) no_variants) as v eqn:Ev. clear Ev.
  assert (Q1 : valt v = alt).
  { destruct (W (lit "font-variant-alternates")) as (l & P & El). rewrite <- (P1 (lit "font-variant-alternates") ltac:(right; left; reflexivity) l P) in El.
    transitivity ([] ++ alt ++ [] ++ [] ++ [] ++ []); [exact El|cbn [app]; now rewrite app_nil_r]. }
  assert (Q2 : vasian v = asian).
  { destruct (W (lit "font-variant-east-asian")) as (l & P & El). rewrite <- (P1 (lit "font-variant-east-asian") ltac:(do 2 right; left; reflexivity) l P) in El.
    transitivity ([] ++ [] ++ [] ++ asian ++ [] ++ []); [exact El|cbn [app]; now rewrite app_nil_r]. }
  assert (Q3 : vlig v = lig).
  { destruct (W (lit "font-variant-ligatures")) as (l & P & El). rewrite <- (P1 (lit "font-variant-ligatures") ltac:(left; reflexivity) l P) in El.
    transitivity (lig ++ [] ++ [] ++ [] ++ [] ++ []); [exact El|cbn [app]; now rewrite app_nil_r]. }
  assert (Q4 : vnum v = num).
  { destruct (W (lit "font-variant-numeric")) as (l & P & El). rewrite <- (P1 (lit "font-variant-numeric") ltac:(do 3 right; left; reflexivity) l P) in El.
    transitivity ([] ++ [] ++ [] ++ [] ++ num ++ []); [exact El|cbn [app]; now rewrite app_nil_r]. }
  assert (Q5 : vcaps v = caps).
  { destruct (W (lit "font-variant-caps")) as (l & P & El). assert (Q := P2 (lit "font-variant-caps") ltac:(left; reflexivity) l P).
    rewrite El in Q. exact Q. }
  assert (Q6 : vpos v = pos).
  { destruct (W (lit "font-variant-position")) as (l & P & El). assert (Q := P2 (lit "font-variant-position") ltac:(right; left; reflexivity) l P).
    rewrite El in Q. exact Q. }
  unfold variants_dict. rewrite Q1, Q2, Q3, Q4, Q5, Q6. unfold or_normal. destruct alt, asian, lig, num; congruence || reflexivity.
Qed.
Print Assumptions c48_roundtrip.
(* the finding: a functional value containing a space is broken up *)
Theorem c48_function_refuted : exists t, parse_font_variant t = parse_font_variant (lit "styleset(a,") /\ t = lit "styleset(a, b)".
Proof. exists (lit "styleset(a, b)"). split; reflexivity. Qed.
Print Assumptions c48_function_refuted.
Example c48_ex1 : dget (parse_font_variant (lit "small-caps ruby contextual  common-ligatures foo sub")) (lit "font-variant-ligatures")
  = Some (SL [lit "contextual"; lit "common-ligatures"]) /\
  dget (parse_font_variant (lit "small-caps ruby contextual  common-ligatures foo sub")) (lit "font-variant-numeric") = Some (SL [lit "normal"]).
Proof. split; reflexivity. Qed.

(** ** C52 *)
(* words, size, comma-separated names: each word sets its longhand, the last of
   several wins, the rest is reset; a '/' divides size and line height *)
Theorem c52_shorthand_partial pre size names : Forall known_word pre -> size <> lit "," -> (forall a, size <> a ++ lit ",") ->
  Forall name_ok names -> names <> [] -> Forall (fun x => ~ system_font x) (pre ++ [size] ++ comma_items names) ->
  let d := parse_font_items (pre ++ [size] ++ comma_items names) in
  (forall h, In h (map lit ["font-style"; "font-variant"; "font-weight"; "font-stretch"]%string) ->
     exists l, picked (sets h) pre l /\ dget d h = Some (ST (last l (lit "normal")))) /\
  dget d (lit "font-family") = Some (SL names) /\
  (~ In 47 size -> dget d (lit "font-size") = Some (ST size) /\ dget d (lit "line-height") = Some (ST (lit "normal"))) /\
  (forall a b, size = a ++ lit "/" ++ b -> ~ In 47 a -> ~ In 47 b -> dget d (lit "font-size") = Some (ST a) /\ dget d (lit "line-height") = Some (ST b)) /\
  dget d (lit "font-kerning") = Some (ST (lit "auto")) /\ dget d (lit "font-size-adjust") = Some (ST (lit "none")) /\
  dget d (lit "font-language-override") = Some (ST (lit "normal")).
Proof.
  intros K S1 S2 F N Sy. assert (S1' : text_eqb size (lit ",") = false) by now destruct (text_eqb_spec size (lit ",")).
  assert (S2' : ends_comma size = false).
  { unfold ends_comma. destruct (rev size) as [|c r] eqn:R; [reflexivity|]. destruct (N.eqb_spec c 44) as [->|]; [|reflexivity].
    exfalso. apply (S2 (rev r)). rewrite <- (rev_involutive size), R. reflexivity. }
  cbv zeta. rewrite font_main by assumption. cbv zeta. clear Sy S1 S2 S1' S2' F N.
  assert (Fd : forall (d : dict sval) h, In h four -> dget font_defaults h = Some (ST (lit "normal")) /\
    dget match split_on 47 size with
         | a :: b :: _ => dset (dset (dset font_defaults (lit "font-family") (SL names)) (lit "font-size") (ST a)) (lit "line-height") (ST b)
         | _ => dset (dset font_defaults (lit "font-family") (SL names)) (lit "font-size") (ST size) end h = Some (ST (lit "normal"))).
  { intros _ h I. unfold four in I. cbn [In] in I. destruct I as [<-|[<-|[<-|[<-|[]]]]]; (split; [reflexivity|]); destruct (split_on 47 size) as [|a [|b l]]; reflexivity. }
  assert (Ot : forall h, ~ In h four -> forall d, dget (font_words pre d) h = dget d h) by (intros h Nh d; now apply words_other).
  split; [|split; [|split; [|split; [|split; [|split]]]]].
  - intros h I. apply words_get; [exact K|]. exact (proj2 (Fd [] h I)).
  - rewrite Ot by (vm_compute; intuition discriminate). destruct (split_on 47 size) as [|a [|b l]]; reflexivity.
  - intros Ns. rewrite !Ot by (vm_compute; intuition discriminate). rewrite split_on_single by now apply free_forallb. split; reflexivity.
  - intros a b -> Na Nb. rewrite !Ot by (vm_compute; intuition discriminate). change (a ++ lit "/" ++ b) with (join [47] [a; b]).
    rewrite split_of_join; [split; reflexivity|discriminate|]. constructor; [exact Na|]. constructor; [exact Nb|constructor].
  - rewrite Ot by (vm_compute; intuition discriminate). destruct (split_on 47 size) as [|a [|b l]]; reflexivity.
  - rewrite Ot by (vm_compute; intuition discriminate). destruct (split_on 47 size) as [|a [|b l]]; reflexivity.
  - rewrite Ot by (vm_compute; intuition discriminate). destruct (split_on 47 size) as [|a [|b l]]; reflexivity.
Qed.
Print Assumptions c52_shorthand_partial.
(* a system font sets nothing at all *)
Theorem c52_system items x : In x items -> system_font x -> parse_font_items items = [].
Proof.
  intros I S. unfold parse_font_items. destruct (rev items); [reflexivity|].
  replace (existsb (fun x => mem x system_fonts) items) with true; [reflexivity|]. symmetry. apply existsb_exists. exists x. split; [exact I|now apply mem_in].
Qed.
Print Assumptions c52_system.
(* comma-separated names *)
Theorem c52_family shlex names : names <> [] -> Forall name_ok names -> Forall (fun n => ~ In 34 n /\ ~ In 39 n) names ->
  parse_font_family shlex (join (lit ",") names) = Ok names.
Proof.
  intros N F Q. unfold parse_font_family. replace (existsb _ (join (lit ",") names)) with false.
  - change (lit ",") with [44]. now rewrite names_text.
  - symmetry. assert (G : forallb (fun c => negb ((c =? 34) || (c =? 39))) (join [44] names) = true).
    { clear N F. induction Q as [|n l [A B] Q IH]; [reflexivity|]. assert (Gn : forallb (fun c => negb ((c =? 34) || (c =? 39))) n = true).
      { apply forallb_forall. intros c I. apply negb_true_iff, orb_false_iff. split; apply N.eqb_neq; intros ->; contradiction. }
      destruct l as [|m l]; [exact Gn|]. change (join [44] (n :: m :: l)) with (n ++ [44] ++ join [44] (m :: l)). rewrite !forallb_app, Gn, IH. reflexivity. }
    change (lit ",") with [44]. rewrite forallb_forall in G. destruct (existsb _ _) eqn:E; [|reflexivity].
    apply existsb_exists in E. destruct E as (c & I & E). specialize (G c I). rewrite E in G. discriminate.
Qed.
Print Assumptions c52_family.
(* missing: names of several words, and words after an unknown one *)
Theorem c52_unquoted_refuted : dget (parse_font_items (map lit ["12px"; "Times"; "New"; "Roman"]%string)) (lit "font-size") = Some (ST (lit "New")).
Proof. reflexivity. Qed.
Print Assumptions c52_unquoted_refuted.
Theorem c52_comma_refuted : dget (parse_font_items (map lit ["12px"; "serif"; ",monospace"]%string)) (lit "font-size") = Some (ST (lit "serif")).
Proof. reflexivity. Qed.
Print Assumptions c52_comma_refuted.
Example c52_ex1 : dget (parse_font_items (map lit ["italic"; "bold"; "12px/14px"; "Arial,"; "serif"]%string)) (lit "font-family") = Some (SL [lit "Arial"; lit "serif"])
  /\ dget (parse_font_items (map lit ["italic"; "bold"; "12px/14px"; "Arial,"; "serif"]%string)) (lit "line-height") = Some (ST (lit "14px"))
  /\ dget (parse_font_items (map lit ["italic"; "bold"; "12px/14px"; "Arial,"; "serif"]%string)) (lit "font-weight") = Some (ST (lit "bold")).
Proof. repeat split. Qed.
Example c52_ex2 : map lit ["italic"; "bold"; "12px/14px"; "Arial,"; "serif"]%string = [lit "italic"; lit "bold"] ++ [lit "12px/14px"] ++ comma_items [lit "Arial"; lit "serif"]
  /\ Forall known_word [lit "italic"; lit "bold"] /\ Forall name_ok [lit "Arial"; lit "serif"].
Proof.
  split; [reflexivity|]. split.
  - constructor; [right; exists (lit "font-style"); constructor; now left|]. constructor; [|constructor].
    right. exists (lit "font-weight"). constructor. left. reflexivity.
  - repeat constructor; try discriminate; vm_compute; intuition discriminate.
Qed.
