(** C65: the font feature settings and the font-variant keywords give exactly the OpenType
    features of the table. *)
From Coq Require Import ZArith NArith List Lia Permutation.
From Verif Require Import PyBase PyText PySplit PyStrip PyDict FontTextModel FeatModel FeatSpec FeatProofs FeatProofs2.
#[local] Open Scope N_scope.
Import ListNotations.

Definition plain : fstyle := mkF [] (lit "auto") [lit "normal"] (lit "normal") [lit "normal"] [lit "normal"] [lit "normal"] (lit "normal").
(** ** Reading font-feature-settings *)
Theorem c65_settings q l tag : is_quote q = true -> l <> [] -> Forall (fun p => tag_ok (fst p) = true) l ->
  exists d, parse_font_feature_settings (write q l) = Ok d /\ dict_ok d /\ dget d tag = last_value tag l.
Proof.
  intros Q Ne H. rewrite (parse_written q l Q Ne H). eexists. split; [reflexivity|]. split; [|rewrite fold_last; cbn [dget]; destruct (last_value tag l); reflexivity].
  assert (X : forall l (f : dict N), dict_ok f -> dict_ok (fold_left (fun f p => dset f (fst p) (value_of (snd p))) l f)) by (clear; induction l as [|p l IH]; intros f D; [exact D|]; apply IH; now apply dset_ok). apply X. constructor.
Qed.
Print Assumptions c65_settings.
Example ex_settings : parse_font_feature_settings (write 34 [(lit "smcp", Bare); (lit "swsh", Num 2); (lit "kern", Off); (lit "swsh", On)]) = Ok [(lit "smcp", 1); (lit "swsh", 1); (lit "kern", 0)] /\
  write 34 [(lit "smcp", Bare); (lit "swsh", Num 2)] = [34] ++ lit "smcp" ++ [34] ++ lit ", " ++ [34] ++ lit "swsh" ++ [34] ++ lit " 2".
Proof. vm_compute. auto. Qed.
Theorem c65_settings_keys t d : parse_font_feature_settings t = Ok d -> dict_ok d /\ forall k, In k (dkeys d) -> length k = 4%nat /\ forallb printable k = true.
Proof.
  unfold parse_font_feature_settings. destruct (text_eqb t (lit "normal")); [intros [= <-]; split; [constructor|intros k []]|]. intros H. apply (read_keys _ _ _ H); [constructor|intros k []].
Qed.
Print Assumptions c65_settings_keys.
(* blank parts between the commas, and nothing else, end the reading *)
Theorem c65_settings_error t : (exists d, parse_font_feature_settings t = Ok d) \/ parse_font_feature_settings t = Err IndexError.
Proof. unfold parse_font_feature_settings. destruct (text_eqb t (lit "normal")); [eauto|]. destruct (read_total (split_on 44 t) []) as [[A _]|[A _]]; auto. Qed.
Print Assumptions c65_settings_error.
Theorem c65_settings_blank t : parse_font_feature_settings t = Err IndexError <-> exists p, In p (split_on 44 t) /\ forallb is_space p = true.
Proof.
  unfold parse_font_feature_settings. destruct (text_eqb_spec t (lit "normal")) as [->|_].
  - split; [discriminate|]. intros (p & J & B). vm_compute in J. destruct J as [<-|[]]. discriminate B.
  - destruct (read_total (split_on 44 t) []) as [[(d & A) B]|[A (p & J & B)]]; rewrite A.
    + split; [discriminate|]. intros (p & J & S). elim (B p J). now apply split_nil.
    + split; [|reflexivity]. intros _. exists p. split; [exact J|now apply split_nil].
Qed.
Print Assumptions c65_settings_blank.
Example ex_blank : parse_font_feature_settings (lit "'kern' 0,") = Err IndexError /\ parse_font_feature_settings [] = Err IndexError /\ parse_font_feature_settings (lit "'kern' no, 'kernx', 'liga' 0") = Ok [(lit "liga", 0)]. Proof. vm_compute. auto. Qed.

(** ** The features *)
Theorem c65_features st tag v : turned st tag v -> dget (features st) tag = Some v.
Proof. apply features_turned. Qed.
Print Assumptions c65_features.
Theorem c65_features_else st tag : (forall v, ~ turned st tag v) -> dget (features st) tag = dget (settings st) tag.
Proof. apply features_else. Qed.
Print Assumptions c65_features_else.
Theorem c65_turned_once st tag v v' : turned st tag v -> turned st tag v' -> v = v'.
Proof. intros A B. apply features_turned in A, B. congruence. Qed.
Print Assumptions c65_turned_once.
Definition fancy : fstyle := mkF [(lit "swsh", 3); (lit "liga", 1)] (lit "none") [lit "historical-forms"] (lit "all-small-caps")
  [lit "ruby"; lit "jis90"; lit "jis83"] [lit "no-common-ligatures"; lit "contextual"] [lit "slashed-zero"; lit "tabular-nums"] (lit "super").
Example ex_features : features_from_style fancy = map lit ["swsh=3"; "liga=0"; "kern=0"; "vkrn=0"; "hist=1"; "c2sc=1"; "smcp=1"; "jp83=1"; "ruby=1"; "clig=0"; "calt=1"; "tnum=1"; "zero=1"; "sups=1"]%string.
Proof. vm_compute. reflexivity. Qed.
Example ex_turned : turned fancy (lit "jp83") 1 /\ ~ exists v, turned fancy (lit "jp90") v.
Proof.
  split.
  - exists (nth 3 table (Whole kerning, [])), ("jis83"%string, [("jp83"%string, 1)]), "jp83"%string. split; [cbn; auto 10|]. split; [|split; [now left|reflexivity]]. exists [("jis78"%string, [("jp78"%string, 1)])]. eexists. split; [reflexivity|]. split; [cbn; auto|]. intros q [<-|[]]. cbn. intros [Z|[Z|[Z|[]]]]; discriminate Z.
  - intros (v & T). apply features_turned in T. vm_compute in T. discriminate T.
Qed.
(* each tag once; and the texts say which and how much *)
Theorem c65_output st : dict_ok (settings st) -> (forall k, In k (dkeys (settings st)) -> length k = 4%nat) ->
  NoDup (map (firstn 4) (features_from_style st)) /\
  forall tag v, In (tag, v) (map read_feature (features_from_style st)) <-> dget (features st) tag = Some v.
Proof.
  intros D K. pose proof (features_ok st D) as DF. assert (L : forall k, In k (dkeys (features st)) -> length k = 4%nat).
  { intros k J. apply dget_some_keys in J. destruct J as (v & J). destruct (turned_dec st k) as [(v' & (g & r & t & G & C & Jt & ->))|N].
    - assert (X : forallb (fun g => forallb (fun r => forallb (fun p => Nat.eqb (length (lit (fst p))) 4) (snd r)) (snd g)) table = true) by (vm_compute; reflexivity). rewrite forallb_forall in X. specialize (X g G). rewrite forallb_forall in X. specialize (X r (counts_in st g r C)). rewrite forallb_forall in X. specialize (X (t, v') Jt). now apply Nat.eqb_eq in X.
    - rewrite (features_else st k N) in J. apply K. apply dget_some_keys. eauto. }
  assert (R : forall d : dict N, (forall k, In k (dkeys d) -> length k = 4%nat) -> map read_feature (map show d) = d).
  { clear. induction d as [|[k v] d IH]; intros H; [reflexivity|]. cbn [map]. rewrite read_show by (apply H; now left). f_equal. apply IH. intros x J. apply H. now right. }
  unfold features_from_style. split.
  - replace (map (firstn 4) (map show (features st))) with (dkeys (features st)); [exact DF|]. rewrite <- (R (features st) L) at 1. unfold dkeys. rewrite !map_map. reflexivity.
  - intros tag v. rewrite (R (features st) L). split; [now apply in_dget|apply dget_in].
Qed.
Print Assumptions c65_output.
(* the settings that are read meet the conditions *)
Theorem c65_whole t d st : parse_font_feature_settings t = Ok d -> settings st = d -> NoDup (map (firstn 4) (features_from_style st)).
Proof. intros P E. destruct (c65_settings_keys t d P) as [D K]. apply c65_output; rewrite E; [exact D|]. intros k J. now apply K. Qed.
Print Assumptions c65_whole.
Theorem c65_order st st' : settings st = settings st' -> kerning st = kerning st' -> caps st = caps st' -> position st = position st' ->
  Permutation (alternates st) (alternates st') -> Permutation (east_asian st) (east_asian st') -> Permutation (ligatures st) (ligatures st') -> Permutation (numeric st) (numeric st') ->
  features_from_style st = features_from_style st'.
Proof.
  intros E0 E1 E2 E3 P1 P2 P3 P4. unfold features_from_style. f_equal. rewrite !features_table, E0. apply groups_ext. intros g k G. now apply there_perm.
Qed.
Print Assumptions c65_order.
Example ex_order : features_from_style fancy = features_from_style (mkF (settings fancy) (kerning fancy) (alternates fancy) (caps fancy) [lit "jis83"; lit "ruby"; lit "jis90"] (rev (ligatures fancy)) (numeric fancy) (position fancy)).
Proof. vm_compute. reflexivity. Qed.
(** ** From the text of font-variant *)
Definition texts_at (d : dict sval) (h : string) : list text := match dget d (lit h) with Some (SL l) => l | _ => [] end.
Definition word_at (d : dict sval) (h : string) : text := match dget d (lit h) with Some (ST t) => t | _ => [] end.
Definition variant_style (f : dict N) (kern : text) (t : text) : fstyle :=
  let d := parse_font_variant t in
  mkF f kern (texts_at d "font-variant-alternates") (word_at d "font-variant-caps") (texts_at d "font-variant-east-asian")
    (texts_at d "font-variant-ligatures") (texts_at d "font-variant-numeric") (word_at d "font-variant-position").
Lemma lists_of f kern t : t <> lit "normal" -> t <> lit "none" -> let v := fold_left variant_step (split_ws t) no_variants in
  variant_style f kern t = mkF f kern (or_normal (valt v)) (vcaps v) (or_normal (vasian v)) (or_normal (vlig v)) (or_normal (vnum v)) (vpos v).
Proof.
  intros A B v. unfold variant_style, parse_font_variant. destruct (text_eqb_spec t normal) as [E|_]; [elim A; exact E|]. destruct (text_eqb_spec t (lit "none")) as [E|_]; [elim B; exact E|]. fold v. reflexivity.
Qed.
Lemma in_or_normal k l : k <> lit "normal" -> In k (or_normal l) <-> In k l.
Proof. intros Q. destruct l; cbn; [|tauto]. split; [intros [Z|[]]; elim Q; now rewrite <- Z|intros []]. Qed.
Definition kind_of_word (k : text) : N :=
  if mem k lig_tokens then 1 else if is_alt k then 2 else if mem k caps_tokens then 3 else if mem k asian_tokens then 4 else if mem k num_tokens then 5 else if mem k pos_tokens then 6 else 0.
Definition list_of (i : N) (v : variants) : list text := match i with 1 => vlig v | 2 => valt v | 4 => vasian v | 5 => vnum v | _ => [] end.
Lemma step_list v w k : In (kind_of_word k) [1; 2; 4; 5] -> In k (list_of (kind_of_word k) (variant_step v w)) <-> In k (list_of (kind_of_word k) v) \/ w = k.
Proof.
  intros K. assert (E : w = k -> In k (list_of (kind_of_word k) (variant_step v w))).
  { intros ->. unfold variant_step, kind_of_word in *. destruct (mem k lig_tokens); [cbn; rewrite in_app_iff; cbn; auto|]. destruct (is_alt k); [cbn; rewrite in_app_iff; cbn; auto|]. destruct (mem k caps_tokens); [exfalso; destruct K as [K|[K|[K|[K|[]]]]]; discriminate K|]. destruct (mem k asian_tokens); [cbn; rewrite in_app_iff; cbn; auto|]. destruct (mem k num_tokens); [cbn; rewrite in_app_iff; cbn; auto|]. destruct (mem k pos_tokens); exfalso; destruct K as [K|[K|[K|[K|[]]]]]; discriminate K. }
  split; [|intros [J|J]; [|auto]].
  - clear E. unfold variant_step. intros J. destruct (mem w lig_tokens); [destruct K as [K|[K|[K|[K|[]]]]]; rewrite <- K in *; cbn [list_of vlig valt vasian vnum] in *; try (now left); apply in_app_iff in J; destruct J as [J|[J|[]]]; auto|].
    destruct (is_alt w); [destruct K as [K|[K|[K|[K|[]]]]]; rewrite <- K in *; cbn [list_of vlig valt vasian vnum] in *; try (now left); apply in_app_iff in J; destruct J as [J|[J|[]]]; auto|].
    destruct (mem w caps_tokens); [destruct K as [K|[K|[K|[K|[]]]]]; rewrite <- K in *; cbn [list_of vlig valt vasian vnum] in *; now left|].
    destruct (mem w asian_tokens); [destruct K as [K|[K|[K|[K|[]]]]]; rewrite <- K in *; cbn [list_of vlig valt vasian vnum] in *; try (now left); apply in_app_iff in J; destruct J as [J|[J|[]]]; auto|].
    destruct (mem w num_tokens); [destruct K as [K|[K|[K|[K|[]]]]]; rewrite <- K in *; cbn [list_of vlig valt vasian vnum] in *; try (now left); apply in_app_iff in J; destruct J as [J|[J|[]]]; auto|].
    destruct (mem w pos_tokens); [destruct K as [K|[K|[K|[K|[]]]]]; rewrite <- K in *; cbn [list_of vlig valt vasian vnum] in *; now left|now left].
  - unfold variant_step. destruct K as [K|[K|[K|[K|[]]]]]; rewrite <- K in *; cbn [list_of] in *; repeat match goal with |- context [if ?b then _ else _] => destruct b end; cbn [vlig valt vasian vnum]; try exact J; apply in_app_iff; now left.
Qed.
Lemma fold_list ws k : In (kind_of_word k) [1; 2; 4; 5] -> forall v, In k (list_of (kind_of_word k) (fold_left variant_step ws v)) <-> In k (list_of (kind_of_word k) v) \/ In k ws.
Proof.
  intros K. induction ws as [|w ws IH]; intros v; [cbn; tauto|]. cbn [fold_left]. rewrite IH, (step_list v w k K). cbn [In]. tauto.
Qed.
Definition is_among (g : group) : bool := match fst g with Among _ => true | _ => false end.
Lemma there_words f kern t g r : t <> lit "normal" -> t <> lit "none" -> In g table -> is_among g = true -> In r (snd g) ->
  there (variant_style f kern t) (fst g) (lit (fst r)) <-> In (lit (fst r)) (split_ws t).
Proof.
  intros A B G Am R. rewrite (lists_of f kern t A B). set (ws := split_ws t).
  assert (X : forall k, In (kind_of_word k) [1; 2; 4; 5] -> k <> lit "normal" -> In k (or_normal (list_of (kind_of_word k) (fold_left variant_step ws no_variants))) <-> In k ws).
  { intros k K Q. rewrite (in_or_normal k _ Q), (fold_list ws k K no_variants). assert (E : list_of (kind_of_word k) no_variants = []) by (destruct K as [K|[K|[K|[K|[]]]]]; rewrite <- K; reflexivity). rewrite E. cbn. tauto. }
  assert (Y : forall i k, kind_of_word k = i -> In i [1; 2; 4; 5] -> k <> lit "normal" -> In k (or_normal (list_of i (fold_left variant_step ws no_variants))) <-> In k ws) by (intros i k <- K Q; now apply X).
  clearbody ws. clear X. cbn in G. repeat destruct G as [G|G]; try (destruct G; fail); subst g; try discriminate Am; cbn in R; repeat destruct R as [R|R]; try (destruct R; fail); subst r;
    cbn [fst there alternates east_asian ligatures numeric]; match goal with |- In ?k _ <-> _ => let i := eval vm_compute in (kind_of_word k) in apply (Y i k); [vm_compute; reflexivity|cbn; auto|vm_compute; discriminate] end.
Qed.
(* of each group of alternatives the first one in the text's set counts *)
Theorem c65_variant_text f kern t g a r b tag v : t <> lit "normal" -> t <> lit "none" -> In g table -> is_among g = true -> snd g = a ++ r :: b ->
  In (lit (fst r)) (split_ws t) -> (forall q, In q a -> ~ In (lit (fst q)) (split_ws t)) -> In (tag, v) (snd r) ->
  dget (features (variant_style f kern t)) (lit tag) = Some v.
Proof.
  intros A B G Am E J Bf T. assert (Rin : forall x, In x a \/ x = r -> In x (snd g)) by (intros x [X|X]; rewrite E, in_app_iff; cbn; auto). apply features_turned. exists g, r, tag. split; [exact G|]. split; [|auto]. exists a, b. split; [exact E|]. split.
  - apply there_words; auto.
  - intros q Q Z. apply (Bf q Q). apply (there_words f kern t g q) in Z; auto.
Qed.
Print Assumptions c65_variant_text.
Example ex_variant : features_from_style (variant_style [] (lit "auto") (lit "ruby no-contextual  tabular-nums common-ligatures jis90 small-caps swash(x)")) = map lit ["smcp=1"; "jp90=1"; "ruby=1"; "liga=1"; "clig=1"; "calt=0"; "tnum=1"]%string /\
  features_from_style (variant_style [] (lit "auto") (lit "none")) = map lit ["liga=0"; "clig=0"; "dlig=0"; "hlig=0"; "calt=0"]%string.
Proof. vm_compute. auto. Qed.
(* every word of font-variant without an argument turns something, save one *)
Definition all_words : list text := lig_tokens ++ [lit "historical-forms"] ++ caps_tokens ++ asian_tokens ++ num_tokens ++ pos_tokens.
Theorem c65_words_partial w : In w all_words -> w <> lit "jis04" -> features (variant_style [] (lit "auto") w) <> [].
Proof.
  intros J Q. cbn in J. repeat destruct J as [J|J]; try (destruct J; fail); subst w; try (elim Q; reflexivity); vm_compute; discriminate.
Qed.
Print Assumptions c65_words_partial.
Theorem c65_jis04_refuted : exists w, In w all_words /\ features (variant_style [] (lit "auto") w) = [].
Proof. exists (lit "jis04"). split; [unfold all_words; rewrite !in_app_iff; do 3 right; left; cbn; auto|vm_compute; reflexivity]. Qed.
Print Assumptions c65_jis04_refuted.
(* CSS lets font-feature-settings win; here font-variant and font-kerning do *)
Theorem c65_settings_win_refuted : exists st tag v, dget (settings st) tag = Some v /\ dget (features st) tag <> Some v.
Proof. exists fancy, (lit "liga"), 1. vm_compute. split; [reflexivity|discriminate]. Qed.
Print Assumptions c65_settings_win_refuted.
(* a tag with a comma or a space, though quoted, is not read *)
Theorem c65_tag_refuted : exists t, length t = 4%nat /\ forallb printable t = true /\ parse_font_feature_settings ([34] ++ t ++ [34]) = Ok [].
Proof. exists (lit "ab c"). vm_compute. auto. Qed.
Print Assumptions c65_tag_refuted.
