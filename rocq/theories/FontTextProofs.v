(** Proofs about the words of 'font-variant' and 'font'. *)
From Verif Require Import PyBase PyText PyStrip PySplit PyDict DatasetModel DatasetProofs UtilsSpec UtilsProofs FontTextModel FontTextSpec.
#[local] Open Scope N_scope.

Lemma starts_call s w : starts_with (lit s ++ lit "(") w = true <-> call s w.
Proof.
  rewrite starts_with_spec. unfold call. split; intros (r & ->); exists r; now rewrite <- app_assoc.
Qed.
Lemma is_alt_iff w : is_alt w = true <-> belongs (lit "font-variant-alternates") w.
Proof.
  unfold is_alt. rewrite orb_true_iff. split.
  - intros H. constructor. destruct H as [H|H]; [left; now destruct (text_eqb_spec w (lit "historical-forms"))|right].
    apply existsb_exists in H. destruct H as (p & I & H). apply starts_with_spec in H. destruct H as (r & ->).
    unfold alt_prefixes, call in *. cbn [map In] in I.
    repeat (destruct I as [<-|I]; [try (left; exists r; reflexivity); try (right; left; exists r; reflexivity); try (right; right; left; exists r; reflexivity);
      try (right; right; right; left; exists r; reflexivity); try (right; right; right; right; left; exists r; reflexivity);
      try (right; right; right; right; right; exists r; reflexivity)|]). destruct I.
  - intros H. inversion H as [w0 I E1 E2|w0 I E1 E2|w0 I E1 E2|w0 I E1 E2|w0 I E1 E2|w0 I E1 E2]; try (vm_compute in E1; discriminate E1). subst w0.
    destruct I as [->|I]; [left; apply text_eqb_refl|right]. apply existsb_exists. unfold alt_prefixes.
    destruct I as [(r & ->)|[(r & ->)|[(r & ->)|[(r & ->)|[(r & ->)|(r & ->)]]]]].
    + exists (lit "stylistic("). split; [cbn [map]; cbn [In]; tauto|]. apply starts_with_spec. now exists r.
    + exists (lit "styleset("). split; [cbn [map]; cbn [In]; tauto|]. apply starts_with_spec. now exists r.
    + exists (lit "character-variant("). split; [cbn [map]; cbn [In]; tauto|]. apply starts_with_spec. now exists r.
    + exists (lit "swash("). split; [cbn [map]; cbn [In]; tauto|]. apply starts_with_spec. now exists r.
    + exists (lit "ornaments("). split; [cbn [map]; cbn [In]; tauto|]. apply starts_with_spec. now exists r.
    + exists (lit "annotation("). split; [cbn [map]; cbn [In]; tauto|]. apply starts_with_spec. now exists r.
Qed.
Ltac inv_belongs H := inversion H as [? I E1 E2|? I E1 E2|? I E1 E2|? I E1 E2|? I E1 E2|? I E1 E2]; try (vm_compute in E1; discriminate E1); subst.
Lemma lig_iff w : mem w lig_tokens = true <-> belongs (lit "font-variant-ligatures") w.
Proof. rewrite mem_in. split; [now constructor|]. intros H. inv_belongs H. exact I. Qed.
Lemma caps_iff w : mem w caps_tokens = true <-> belongs (lit "font-variant-caps") w.
Proof. rewrite mem_in. split; [now constructor|]. intros H. inv_belongs H. exact I. Qed.
Lemma asian_iff w : mem w asian_tokens = true <-> belongs (lit "font-variant-east-asian") w.
Proof. rewrite mem_in. split; [now constructor|]. intros H. inv_belongs H. exact I. Qed.
Lemma num_iff w : mem w num_tokens = true <-> belongs (lit "font-variant-numeric") w.
Proof. rewrite mem_in. split; [now constructor|]. intros H. inv_belongs H. exact I. Qed.
Lemma pos_iff w : mem w pos_tokens = true <-> belongs (lit "font-variant-position") w.
Proof.
  rewrite mem_in. split.
  - intros [<-|[<-|[]]]; constructor; [now left|now right].
  - intros H. inv_belongs H. destruct I as [->|I]; [left; reflexivity|right; left; symmetry; exact I].
Qed.
(* the word belongs to at most one longhand *)
Definition all_tokens : list (text * list text) :=
  [(lit "font-variant-ligatures", lig_tokens); (lit "font-variant-caps", caps_tokens); (lit "font-variant-east-asian", asian_tokens);
   (lit "font-variant-numeric", num_tokens); (lit "font-variant-position", pos_tokens)].
Lemma belongs_cases h w : belongs h w -> (h = lit "font-variant-alternates" /\ is_alt w = true) \/ exists l, In (h, l) all_tokens /\ In w l.
Proof.
  intros H. assert (H' := H). destruct H as [w I|w I|w I|w I|w I|w I]; [right|left|right|right|right|right].
  - exists lig_tokens. split; [left; reflexivity|exact I].
  - split; [reflexivity|now apply is_alt_iff].
  - exists caps_tokens. split; [right; left; reflexivity|exact I].
  - exists asian_tokens. split; [do 2 right; left; reflexivity|exact I].
  - exists num_tokens. split; [do 3 right; left; reflexivity|exact I].
  - exists pos_tokens. split; [do 4 right; left; reflexivity|]. apply mem_in. now apply pos_iff.
Qed.
Lemma tokens_not_alt : forallb (fun p => forallb (fun w => negb (is_alt w)) (snd p)) all_tokens = true.
Proof. vm_compute. reflexivity. Qed.
Lemma tokens_disjoint : forallb (fun p => forallb (fun q => text_eqb (fst p) (fst q) || forallb (fun w => negb (mem w (snd q))) (snd p)) all_tokens) all_tokens = true.
Proof. vm_compute. reflexivity. Qed.
Lemma belongs_one h h' w : belongs h w -> belongs h' w -> h = h'.
Proof.
  intros A B. apply belongs_cases in A, B.
  assert (Na : forall l h, In (h, l) all_tokens -> In w l -> is_alt w = false).
  { intros l h0 I J. assert (T := tokens_not_alt). rewrite forallb_forall in T. specialize (T _ I). cbn [snd] in T.
    rewrite forallb_forall in T. specialize (T _ J). now apply negb_true_iff in T. }
  destruct A as [[-> A]|(l & A1 & A2)], B as [[-> B]|(l' & B1 & B2)]; [reflexivity| | |].
  - rewrite (Na _ _ B1 B2) in A. discriminate.
  - rewrite (Na _ _ A1 A2) in B. discriminate.
  - assert (T := tokens_disjoint). rewrite forallb_forall in T. specialize (T _ A1). rewrite forallb_forall in T. specialize (T _ B1).
    cbn [fst snd] in T. destruct (text_eqb_spec h h') as [E|E]; [exact E|]. cbn [orb] in T. rewrite forallb_forall in T. specialize (T _ A2).
    apply negb_true_iff, mem_not_in in T. destruct (T B2).
Qed.
Lemma belongs_not h h' w : belongs h w -> h <> h' -> ~ belongs h' w.
Proof. intros A N B. apply N. exact (belongs_one h h' w A B). Qed.

(* the loop *)
Definition vget (h : text) (v : variants) : list text :=
  if text_eqb h (lit "font-variant-ligatures") then vlig v
  else if text_eqb h (lit "font-variant-alternates") then valt v
  else if text_eqb h (lit "font-variant-east-asian") then vasian v
  else vnum v.
Definition vword (h : text) (v : variants) : text := if text_eqb h (lit "font-variant-caps") then vcaps v else vpos v.
Lemma step_list h v w : In h list_longhands ->
  (belongs h w /\ vget h (variant_step v w) = vget h v ++ [w]) \/ (~ belongs h w /\ vget h (variant_step v w) = vget h v).
Proof.
  intros I. unfold variant_step.
  destruct (mem w lig_tokens) eqn:E1; [|destruct (is_alt w) eqn:E2; [|destruct (mem w caps_tokens) eqn:E3; [|destruct (mem w asian_tokens) eqn:E4;
    [|destruct (mem w num_tokens) eqn:E5; [|destruct (mem w pos_tokens) eqn:E6]]]]];
  [apply lig_iff in E1; rename E1 into B|apply is_alt_iff in E2; rename E2 into B|apply caps_iff in E3; rename E3 into B|apply asian_iff in E4; rename E4 into B
  |apply num_iff in E5; rename E5 into B|apply pos_iff in E6; rename E6 into B|];
  unfold list_longhands in I; cbn [map In] in I; destruct I as [<-|[<-|[<-|[<-|[]]]]];
  try (left; split; [exact B|reflexivity]);
  try (right; split; [apply (belongs_not _ _ w B); vm_compute; discriminate|reflexivity]);
  (right; split; [|reflexivity]); intros B; first [apply lig_iff in B|apply is_alt_iff in B|apply asian_iff in B|apply num_iff in B]; congruence.
Qed.
Lemma step_word h v w : In h word_longhands ->
  (belongs h w /\ vword h (variant_step v w) = w) \/ (~ belongs h w /\ vword h (variant_step v w) = vword h v).
Proof.
  intros I. unfold variant_step.
  destruct (mem w lig_tokens) eqn:E1; [|destruct (is_alt w) eqn:E2; [|destruct (mem w caps_tokens) eqn:E3; [|destruct (mem w asian_tokens) eqn:E4;
    [|destruct (mem w num_tokens) eqn:E5; [|destruct (mem w pos_tokens) eqn:E6]]]]];
  [apply lig_iff in E1; rename E1 into B|apply is_alt_iff in E2; rename E2 into B|apply caps_iff in E3; rename E3 into B|apply asian_iff in E4; rename E4 into B
  |apply num_iff in E5; rename E5 into B|apply pos_iff in E6; rename E6 into B|];
  unfold word_longhands in I; cbn [map In] in I; destruct I as [<-|[<-|[]]];
  try (left; split; [exact B|reflexivity]);
  try (right; split; [apply (belongs_not _ _ w B); vm_compute; discriminate|reflexivity]);
  (right; split; [|reflexivity]); intros B; first [apply caps_iff in B|apply pos_iff in B]; congruence.
Qed.
Lemma loop_list h ws : In h list_longhands -> forall v, exists l, picked (belongs h) ws l /\ vget h (fold_left variant_step ws v) = vget h v ++ l.
Proof.
  intros I. induction ws as [|w ws IH]; intros v; [exists []; split; [constructor|now rewrite app_nil_r]|].
  cbn [fold_left]. destruct (IH (variant_step v w)) as (l & P & E). rewrite E. destruct (step_list h v w I) as [[B ->]|[B ->]].
  - exists (w :: l). split; [now constructor|]. now rewrite <- app_assoc.
  - exists l. split; [now constructor|reflexivity].
Qed.
Lemma loop_word h ws : In h word_longhands -> forall v, exists l, picked (belongs h) ws l /\ vword h (fold_left variant_step ws v) = last l (vword h v).
Proof.
  intros I. induction ws as [|w ws IH]; intros v; [exists []; split; [constructor|reflexivity]|].
  cbn [fold_left]. destruct (IH (variant_step v w)) as (l & P & E). rewrite E. destruct (step_word h v w I) as [[B ->]|[B ->]].
  - exists (w :: l). split; [now constructor|]. destruct l as [|x l]; [reflexivity|]. cbn [last]. clear. revert x. induction l as [|y l IHl]; intros x; [reflexivity|].
    cbn [last] in *. apply IHl.
  - exists l. split; [now constructor|reflexivity].
Qed.
Lemma dict_list h v : In h list_longhands -> dget (variants_dict v) h = Some (SL (or_normal (vget h v))).
Proof. unfold list_longhands. cbn [map In]. intros [<-|[<-|[<-|[<-|[]]]]]; reflexivity. Qed.
Lemma dict_word h v : In h word_longhands -> dget (variants_dict v) h = Some (ST (vword h v)).
Proof. unfold word_longhands. cbn [map In]. intros [<-|[<-|[]]]; reflexivity. Qed.
Lemma picked_fun P ws l l' : picked P ws l -> picked P ws l' -> l = l'.
Proof.
  intros H. revert l'. induction H; intros l' H'; inversion H'; subst; try contradiction; [reflexivity|f_equal; auto|auto].
Qed.
Lemma picked_app P a b l m : picked P a l -> picked P b m -> picked P (a ++ b) (l ++ m).
Proof. induction 1; cbn; intros H'; [exact H'|constructor; auto|constructor; auto]. Qed.
Lemma picked_all (P : text -> Prop) a : Forall P a -> picked P a a.
Proof. induction 1; constructor; auto. Qed.
Lemma picked_none (P : text -> Prop) a : Forall (fun w => ~ P w) a -> picked P a [].
Proof. induction 1; [constructor|apply picked_no; auto]. Qed.

(** ** font *)
Lemma sets_one h h' w : sets h w -> sets h' w -> h = h'.
Proof.
  intros A B.
  assert (G : forall h w, sets h w -> exists l, In (h, l) [(lit "font-style", style_words); (lit "font-variant", [lit "small-caps"]); (lit "font-weight", weight_words); (lit "font-stretch", stretch_words)] /\ In w l).
  { clear. intros h w [w' [->| ->]| |w' I|w' I].
    - eexists. split; [left; reflexivity|left; reflexivity].
    - eexists. split; [left; reflexivity|right; left; reflexivity].
    - eexists. split; [right; left; reflexivity|left; reflexivity].
    - eexists. split; [do 2 right; left; reflexivity|exact I].
    - eexists. split; [do 3 right; left; reflexivity|exact I]. }
  destruct (G _ _ A) as (l & A1 & A2), (G _ _ B) as (l' & B1 & B2).
  set (tab := [(lit "font-style", style_words); (lit "font-variant", [lit "small-caps"]); (lit "font-weight", weight_words); (lit "font-stretch", stretch_words)]) in *.
  assert (T : forallb (fun p => forallb (fun q => text_eqb (fst p) (fst q) || forallb (fun w => negb (mem w (snd q))) (snd p)) tab) tab = true) by (vm_compute; reflexivity).
  rewrite forallb_forall in T. specialize (T _ A1). rewrite forallb_forall in T. specialize (T _ B1).
  cbn [fst snd] in T. destruct (text_eqb_spec h h') as [E|E]; [exact E|]. cbn [orb] in T. rewrite forallb_forall in T. specialize (T _ A2).
  apply negb_true_iff, mem_not_in in T. destruct (T B2).
Qed.
Definition four : list text := [lit "font-style"; lit "font-variant"; lit "font-weight"; lit "font-stretch"].
Lemma sets_normal h : ~ sets h (lit "normal").
Proof.
  intros H. remember (lit "normal") as w eqn:E. destruct H as [w [->| ->]| |w I|w I]; try (vm_compute in E; discriminate E);
  subst w; apply mem_in in I; vm_compute in I; discriminate I.
Qed.
Lemma word_step w ws d : known_word w -> exists d', font_words (w :: ws) d = font_words ws d' /\
  (forall h, sets h w -> d' = dset d h (ST w)) /\ (w = lit "normal" -> d' = d).
Proof.
  intros K. cbn [font_words]. destruct (text_eqb_spec w normal) as [->|N].
  - exists d. split; [reflexivity|]. split; [|reflexivity]. intros h H. destruct (sets_normal h H).
  - destruct K as [K|(h & K)]; [contradiction|].
    assert (G : forall d', d' = dset d h (ST w) -> (forall h', sets h' w -> d' = dset d h' (ST w)) /\ (w = lit "normal" -> d' = d)).
    { intros d' ->. split; [|intros E; contradiction]. intros h' H'. now rewrite (sets_one _ _ _ K H'). }
    destruct (mem w style_words) eqn:E1.
    { eexists. split; [reflexivity|]. apply G. f_equal. apply (sets_one _ _ w); [|exact K]. constructor. apply mem_in in E1. destruct E1 as [<-|[<-|[]]]; [now left|now right]. }
    destruct (text_eqb_spec w (lit "small-caps")) as [->|E2].
    { eexists. split; [reflexivity|]. apply G. f_equal. apply (sets_one _ _ (lit "small-caps")); [constructor|exact K]. }
    destruct (mem w weight_words) eqn:E3.
    { eexists. split; [reflexivity|]. apply G. f_equal. apply (sets_one _ _ w); [|exact K]. constructor. now apply mem_in. }
    destruct (mem w stretch_words) eqn:E4.
    { eexists. split; [reflexivity|]. apply G. f_equal. apply (sets_one _ _ w); [|exact K]. constructor. now apply mem_in. }
    exfalso. apply mem_not_in in E1, E3, E4. destruct K as [w [->| ->]| |w I|w I]; [apply E1; left; reflexivity|apply E1; right; left; reflexivity|contradiction|apply E3; exact I|apply E4; exact I].
Qed.
Lemma words_get h ws : Forall known_word ws -> forall d v, dget d h = Some (ST v) ->
  exists l, picked (sets h) ws l /\ dget (font_words ws d) h = Some (ST (last l v)).
Proof.
  induction 1 as [|w ws K F IH]; intros d v G; [exists []; split; [constructor|exact G]|].
  destruct (word_step w ws d K) as (d' & -> & S & N). destruct K as [->|(h' & K)].
  - rewrite (N eq_refl). destruct (IH d v G) as (l & P & E). exists l. split; [apply picked_no; [apply sets_normal|exact P]|exact E].
  - specialize (S h' K). subst d'. destruct (text_eqb_spec h' h) as [->|Ne].
    + destruct (IH (dset d h (ST w)) w) as (l & P & E); [now rewrite dget_dset, text_eqb_refl|].
      exists (w :: l). split; [now constructor|]. rewrite E. destruct l as [|x l]; [reflexivity|]. do 2 f_equal. clear. cbn [last]. revert x.
      induction l as [|y l IHl]; intros x; [reflexivity|]. cbn [last] in *. apply IHl.
    + destruct (IH (dset d h' (ST w)) v) as (l & P & E); [rewrite dget_dset; destruct (text_eqb_spec h' h); [contradiction|exact G]|].
      exists l. split; [|exact E]. apply picked_no; [|exact P]. intros H. apply Ne. exact (sets_one _ _ _ K H).
Qed.
Lemma words_other h ws : Forall known_word ws -> ~ In h four -> forall d, dget (font_words ws d) h = dget d h.
Proof.
  intros F N. induction F as [|w ws K F IH]; intros d; [reflexivity|]. destruct (word_step w ws d K) as (d' & -> & S & Nn). rewrite IH.
  destruct K as [->|(h' & K)]; [now rewrite (Nn eq_refl)|]. rewrite (S h' K), dget_dset. destruct (text_eqb_spec h' h) as [->|]; [|reflexivity].
  exfalso. apply N. destruct K; [left|do 1 right; left|do 2 right; left|do 3 right; left]; reflexivity.
Qed.

(* the family items *)
Lemma ends_comma_app a : ends_comma (a ++ lit ",") = true.
Proof. unfold ends_comma. rewrite rev_app_distr. reflexivity. Qed.
Lemma name_not_comma n : name_ok n -> text_eqb n (lit ",") = false.
Proof. intros (_ & _ & H). destruct (text_eqb_spec n (lit ",")) as [->|]; [|reflexivity]. exfalso. apply H. left. reflexivity. Qed.
Lemma with_comma_not n : n <> [] -> text_eqb (n ++ lit ",") (lit ",") = false.
Proof. intros H. destruct n as [|c n]; [congruence|]. destruct (text_eqb_spec ((c :: n) ++ lit ",") (lit ",")) as [E|]; [|reflexivity]. destruct n; discriminate E. Qed.
Lemma take_names l : Forall name_ok l -> forall r fam, take_family (rev (map (fun n => n ++ lit ",") l) ++ r) false fam =
  take_family r false (map (fun n => n ++ lit ",") l ++ fam).
Proof.
  intros F. induction l as [|n l IH] using rev_ind; intros r fam; [reflexivity|].
  apply Forall_app in F. destruct F as [F Fn]. inversion Fn as [|? ? On _]; subst.
  rewrite map_app, rev_app_distr. cbn [map rev app take_family]. rewrite with_comma_not by apply On. rewrite ends_comma_app. cbn [orb].
  rewrite IH by exact F. rewrite <- app_assoc. reflexivity.
Qed.
Lemma comma_items_snoc l n : comma_items (l ++ [n]) = map (fun n => n ++ lit ",") l ++ [n].
Proof.
  induction l as [|a l IH]; [reflexivity|]. cbn [app map]. rewrite <- IH. destruct l; reflexivity.
Qed.
Lemma names_of_one n : name_ok n -> filter (fun n => match n with [] => false | _ => true end) (map strip (split_on 44 n)) = [n].
Proof.
  intros (A & B & C). rewrite split_on_single by now apply free_forallb. cbn [map filter]. rewrite B. destruct n; [congruence|reflexivity].
Qed.
Lemma names_of_comma n : name_ok n -> filter (fun n => match n with [] => false | _ => true end) (map strip (split_on 44 (n ++ lit ","))) = [n].
Proof.
  intros (A & B & C). change (n ++ lit ",") with (join [44] [n; []]). rewrite split_of_join.
  - cbn [map filter]. rewrite B. destruct n; [congruence|reflexivity].
  - discriminate.
  - constructor; [exact C|]. constructor; [intros []|constructor].
Qed.
Lemma names_items l : Forall name_ok l -> family_names (comma_items l) = l.
Proof.
  intros F. destruct l as [|n l _] using rev_ind; [reflexivity|]. rewrite comma_items_snoc. apply Forall_app in F. destruct F as [F Fn]. inversion Fn as [|? ? On _]; subst.
  unfold family_names. rewrite flat_map_app. cbn [flat_map]. rewrite app_nil_r, names_of_one by exact On. f_equal. clear Fn On n.
  induction F as [|n l On F IH]; [reflexivity|]. cbn [map flat_map]. rewrite names_of_comma by exact On. cbn [app]. f_equal. exact IH.
Qed.
Lemma names_text l : Forall name_ok l -> l <> [] -> family_names [join [44] l] = l.
Proof.
  intros F N. unfold family_names. cbn [flat_map]. rewrite app_nil_r. rewrite split_of_join; [|exact N|].
  - clear N. induction F as [|n l (A & B & C) F IH]; [reflexivity|]. cbn [map filter]. rewrite B. destruct n; [congruence|]. f_equal. exact IH.
  - revert F. apply Forall_impl. intros a H. apply H.
Qed.
Lemma not_system items : Forall (fun x => ~ system_font x) items -> existsb (fun x => mem x system_fonts) items = false.
Proof.
  induction 1 as [|x l H F IH]; [reflexivity|]. cbn [existsb]. rewrite IH, orb_false_r. apply mem_not_in. exact H.
Qed.
Lemma font_main pre size names : Forall name_ok names -> names <> [] ->
  text_eqb size (lit ",") = false -> ends_comma size = false ->
  Forall (fun x => ~ system_font x) (pre ++ [size] ++ comma_items names) ->
  parse_font_items (pre ++ [size] ++ comma_items names) =
  font_words pre (let d := dset font_defaults (lit "font-family") (SL names) in
                  match split_on 47 size with
                  | a :: b :: _ => dset (dset d (lit "font-size") (ST a)) (lit "line-height") (ST b)
                  | _ => dset d (lit "font-size") (ST size)
                  end).
Proof.
  intros F N S1 S2 Sy. unfold parse_font_items. rewrite not_system by exact Sy. clear Sy.
  destruct names as [|n names _] using rev_ind; [congruence|]. clear N. assert (F' := F). apply Forall_app in F. destruct F as [F Fn].
  rewrite comma_items_snoc. rewrite !rev_app_distr. cbn [rev app].
  rewrite <- app_assoc. rewrite take_names by exact F. cbn [app take_family]. rewrite S1, S2. cbn [orb].
  rewrite <- comma_items_snoc, names_items by exact F'. now rewrite rev_involutive.
Qed.
