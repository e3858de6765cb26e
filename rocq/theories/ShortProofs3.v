(** Reading a shorthand back. *)
From Verif Require Import PyBase PyText PySplit PyDict PyCase ShortModel ShortSpec ShortProofs ShortProofs2.
From Coq Require Import Lia.
Local Open Scope nat_scope.

(** words are left alone by the normalisation of values *)
Lemma word_char_facts x : word_char x = true ->
  is_space x = false /\ N.eqb x 13 = false /\ N.eqb x 10 = false /\ N.eqb x 32 = false /\ to_low x = x.
Proof.
  unfold word_char. rewrite Bool.orb_true_iff, is_low_iff, N.eqb_eq. intros H.
  assert (S : is_space x = false).
  { unfold is_space. repeat rewrite Bool.orb_false_iff. rewrite !Bool.andb_false_iff, !N.leb_gt, !N.eqb_neq. lia. }
  split; [exact S|]. rewrite !N.eqb_neq. repeat split; try lia. apply to_low_id. apply is_up_false. lia.
Qed.
Lemma word_all w : word w = true -> forallb word_char w = true /\ w <> [].
Proof.
  destruct w as [|x r]; cbn; [discriminate|]. rewrite Bool.andb_true_iff. intros [A B]. split; [|discriminate].
  rewrite B. unfold word_char. rewrite A. reflexivity.
Qed.
Lemma lines_id t : forallb (fun x => negb (N.eqb x 13) && negb (N.eqb x 10)) t = true -> lines_to_spaces t = t.
Proof.
  induction t as [|x r IH]; [reflexivity|]. cbn [forallb lines_to_spaces]. rewrite !Bool.andb_true_iff, !Bool.negb_true_iff.
  intros [[A B] C]. rewrite A, B, IH by exact C. reflexivity.
Qed.
Lemma collapse_word w : forallb word_char w = true -> forall t, collapse (w ++ t) = w ++ collapse t.
Proof.
  induction w as [|x w IH]; intros H t; [reflexivity|]. cbn [forallb] in H. apply Bool.andb_true_iff in H as [Hx Hw].
  destruct (word_char_facts x Hx) as (_ & _ & _ & X & _).
  cbn [app]. rewrite <- IH by exact Hw. cbn [collapse]. rewrite X. cbn [andb].
  destruct (w ++ t); reflexivity.
Qed.
Lemma word_head w : forallb word_char w = true -> head_not is_space w = true.
Proof.
  destruct w as [|x r]; [reflexivity|]. cbn [forallb]. rewrite Bool.andb_true_iff. intros [A _].
  destruct (word_char_facts x A) as (S & _). cbn. rewrite S. reflexivity.
Qed.
Lemma head_app f (a b : text) : a <> [] -> head_not f (a ++ b) = head_not f a.
Proof. destruct a; [congruence|reflexivity]. Qed.
Lemma rev_words w : forallb word_char w = true -> forallb word_char (rev w) = true.
Proof. rewrite !forallb_forall. intros H x Hx. apply H. apply in_rev. exact Hx. Qed.
Lemma strip_word w : word w = true -> strip w = w.
Proof.
  intros H. apply word_all in H as [A _]. apply strip_id; apply word_head; [exact A|apply rev_words; exact A].
Qed.
Lemma strip_two a b : word a = true -> word b = true -> strip (a ++ [32%N] ++ b) = a ++ [32%N] ++ b.
Proof.
  intros Ha Hb. apply word_all in Ha as [A NA]. apply word_all in Hb as [B NB]. apply strip_id.
  - rewrite head_app by exact NA. apply word_head. exact A.
  - rewrite !rev_app_distr, <- app_assoc. rewrite head_app.
    + apply word_head. apply rev_words. exact B.
    + intros E. apply NB. rewrite <- (rev_involutive b), E. reflexivity.
Qed.
Lemma word_lines w : forallb word_char w = true -> forallb (fun x => negb (N.eqb x 13) && negb (N.eqb x 10)) w = true.
Proof.
  rewrite !forallb_forall. intros H x Hx. destruct (word_char_facts x (H x Hx)) as (_ & A & B & _). rewrite A, B. reflexivity.
Qed.
Lemma normalize_word w : word w = true -> normalize_text w = w.
Proof.
  intros H. unfold normalize_text. rewrite strip_word by exact H. apply word_all in H as [A _].
  rewrite lines_id by (apply word_lines; exact A). rewrite <- (app_nil_r w) at 1. rewrite collapse_word by exact A.
  apply app_nil_r.
Qed.
Lemma normalize_two a b : word a = true -> word b = true -> normalize_text (a ++ [32%N] ++ b) = a ++ [32%N] ++ b.
Proof.
  intros Ha Hb. unfold normalize_text. rewrite strip_two by assumption. apply word_all in Ha as [A _].
  apply word_all in Hb as [B NB]. rewrite lines_id.
  - rewrite collapse_word by exact A. f_equal. cbn [app].
    assert (E : collapse b = b) by (rewrite <- (app_nil_r b) at 1; rewrite collapse_word by exact B; apply app_nil_r).
    destruct b as [|y r]; [congruence|]. cbn [forallb] in B. apply Bool.andb_true_iff in B as [Y _].
    destruct (word_char_facts y Y) as (_ & _ & _ & X & _).
    change (collapse (32%N :: y :: r)) with (if N.eqb 32 32 && N.eqb y 32 then collapse (y :: r) else 32%N :: collapse (y :: r)).
    rewrite X, Bool.andb_false_r, E. reflexivity.
  - rewrite !forallb_app, (word_lines a A), (word_lines b B). reflexivity.
Qed.
Lemma wide_cases k : is_wide k = true -> In k wide_keywords.
Proof. apply mem_in. Qed.
Lemma wide_word k : is_wide k = true -> word k = true /\ lower k = k.
Proof.
  intros H. apply wide_cases in H. unfold wide_keywords in H. cbn [In] in H.
  repeat (destruct H as [<-|H]; [split; reflexivity|]). destruct H.
Qed.

(** what a CSS-wide keyword sets *)
Lemma scan_wide c p k w : is_wide k = true -> scan c p [mkC CIdent k] [] false None w = Ok ([], None, w ++ [k]).
Proof.
  intros H. destruct (wide_word k H) as [_ L]. cbn [scan ck ctext]. rewrite L, H. reflexivity.
Qed.
Lemma parse_each_nil c ps : forall cm w, parse_each c ps [] cm w = Ok ([], cm, w).
Proof. induction ps as [|p ps IH]; intros cm w; [reflexivity|]. cbn. apply IH. Qed.
Lemma parse_each_wide c p ps k : is_wide k = true -> parse_each c (p :: ps) [mkC CIdent k] [] [] = Ok ([], [], [k]).
Proof.
  intros H. cbn [parse_each]. unfold parse_component_list. rewrite scan_wide by exact H. cbn [bind app]. apply parse_each_nil.
Qed.
Definition const_map (ps : list text) (l : list comp) : dict (list comp) := map (fun p => (p, l)) ps.
Lemma const_map_get ps l k : dget (const_map ps l) k = if mem k ps then Some l else None.
Proof.
  unfold const_map. induction ps as [|p ps IH]; cbn; [reflexivity|]. destruct (text_eqb_spec p k) as [->|N].
  - rewrite text_eqb_refl. reflexivity.
  - destruct (text_eqb_spec k p); [congruence|]. cbn. exact IH.
Qed.
Lemma const_map_keys ps l : dkeys (const_map ps l) = ps.
Proof. unfold const_map, dkeys. rewrite map_map. apply map_id. Qed.
Lemma parse_css_wide c p ps k : css_ok c -> NoDup (p :: ps) -> is_wide k = true ->
  parse_css_declaration c (p :: ps) [mkC CIdent k] = Ok (const_map (p :: ps) [mkC CIdent k]).
Proof.
  intros O N H. unfold parse_css_declaration. rewrite parse_each_wide by exact H. cbn [bind].
  rewrite (ok_word c O) by (apply wide_word; exact H). rewrite fill_nil by exact N. reflexivity.
Qed.
Lemma finish_one c ps k : css_ok c -> NoDup ps -> is_wide k = true ->
  finish_wide c ps [] [k] = Some (const_map ps [mkC CIdent k]).
Proof.
  intros O N H. cbn [finish_wide]. rewrite (ok_word c O) by (apply wide_word; exact H). rewrite fill_nil by exact N. reflexivity.
Qed.

(* all longhands hold the same value, and come last *)
Definition uniform (d d' : decls) (s : shorthand) (v p : text) : Prop :=
  dict_ok d' /\ (forall k, In k (leaves s) -> dget d' k = Some (v, p)) /\
  exists B, dkeys d' = filter (fun x => negb (mem x B)) (dkeys d) ++ B /\ forall x, mem x B = mem x (leaves s).
Lemma set_map_uniform d s v p : dict_ok d -> NoDup (leaves s) -> word v = true ->
  uniform d (set_map d (const_map (leaves s) [mkC CIdent v]) p) s v p.
Proof.
  intros D N W. assert (C : dict_ok (const_map (leaves s) [mkC CIdent v])) by (unfold dict_ok; rewrite const_map_keys; exact N).
  destruct (set_map_spec _ d p D C) as (A & B & K). split; [exact A|]. split.
  - intros k Hk. rewrite B, const_map_get. apply mem_in in Hk. rewrite Hk. cbn [serialize map concat ctext]. rewrite app_nil_r.
    rewrite strip_word by exact W. reflexivity.
  - exists (leaves s). rewrite K, const_map_keys. split; [reflexivity|reflexivity].
Qed.
Ltac nodup_lits := repeat (constructor; [cbn [In]; intros HI; repeat (destruct HI as [HI|HI]; [vm_compute in HI; discriminate HI|]); exact HI|]); constructor.
Lemma leaves_nodup s : NoDup (leaves s).
Proof. destruct s; cbn [leaves font_variant_leaves app]; nodup_lits. Qed.
Lemma l_nodup : NoDup l_font.
Proof. unfold l_font. nodup_lits. Qed.

Lemma filter_filter_text (f g : text -> bool) l : filter f (filter g l) = filter (fun x => g x && f x) l.
Proof. induction l as [|x l IH]; cbn; [reflexivity|]. destruct (g x); cbn; [destruct (f x)|]; rewrite IH; reflexivity. Qed.

Lemma sh_set_wide c s d k p : css_ok c -> dict_ok d -> is_wide k = true ->
  exists d', sh_set c s d [mkC CIdent k] p = Ok (Some d') /\ uniform d d' s k p.
Proof.
  intros O D H. destruct (wide_word k H) as [W L].
  assert (NL := leaves_nodup).
  assert (SV : strip (serialize [mkC CIdent k]) = k) by (cbn [serialize map concat ctext]; rewrite app_nil_r; apply strip_word; exact W).
  assert (FV : font_variant_map c [mkC CIdent k] = Ok (const_map font_variant_leaves [mkC CIdent k])).
  { unfold font_variant_map. rewrite SV.
    assert (E1 : text_eqb k (lit "normal") || text_eqb k (lit "none") = false).
    { apply wide_cases in H. unfold wide_keywords in H. cbn [In] in H.
      repeat (destruct H as [<-|H]; [reflexivity|]). destruct H. }
    rewrite E1. apply parse_css_wide; [exact O|exact (NL SFontVariant)|exact H]. }
  destruct s; cbn [sh_set].
  - unfold l_font at 1. rewrite parse_css_wide; [|exact O|exact l_nodup|exact H]. cbn [bind].
    replace (match dget (const_map _ [mkC CIdent k]) (lit "font-variant-css2") with Some l => l | None => [] end) with [mkC CIdent k] by reflexivity.
    rewrite FV. cbn [bind]. eexists. split; [reflexivity|].
    match goal with |- uniform _ (set_map (set_map d ?vm p) ?m p) _ _ _ =>
      assert (Em : m = const_map [lit "font-style"; lit "font-weight"; lit "font-size"; lit "line-height"; lit "font-family"; lit "font-stretch"] [mkC CIdent k])
        by reflexivity; rewrite Em; clear Em; set (V := vm) end.
    set (F := const_map _ _).
    assert (CV : dict_ok V) by (unfold V, dict_ok; rewrite const_map_keys; exact (NL SFontVariant)).
    assert (CF : dict_ok F) by (unfold F, dict_ok; rewrite const_map_keys; nodup_lits).
    destruct (set_map_spec V d p D CV) as (A1 & B1 & K1). destruct (set_map_spec F _ p A1 CF) as (A2 & B2 & K2).
    split; [exact A2|]. split.
    + intros q Hq. rewrite B2. unfold F. rewrite const_map_get.
      destruct (mem q [lit "font-style"; lit "font-weight"; lit "font-size"; lit "line-height"; lit "font-family"; lit "font-stretch"]) eqn:M; [rewrite SV; reflexivity|].
      rewrite B1. unfold V. rewrite const_map_get. cbn [leaves] in Hq.
      destruct (mem q font_variant_leaves) eqn:M2; [rewrite SV; reflexivity|exfalso].
      apply mem_not_in in M. apply mem_not_in in M2. apply in_app_or in Hq as [Hq|Hq]; [|contradiction].
      apply M. cbn [In] in *. tauto.
    + exists (font_variant_leaves ++ [lit "font-style"; lit "font-weight"; lit "font-size"; lit "line-height"; lit "font-family"; lit "font-stretch"]).
      split.
      * rewrite K2, K1. unfold F, V. rewrite !const_map_keys, filter_app, filter_filter_text.
        replace (filter _ font_variant_leaves) with font_variant_leaves by reflexivity.
        rewrite <- app_assoc. f_equal. apply filter_ext. intros x. unfold mem. rewrite existsb_app, Bool.negb_orb. reflexivity.
      * apply mem_same; vm_compute; reflexivity.
  - assert (E : font_synthesis_values c [mkC CIdent k] = (k, k)).
    { unfold font_synthesis_values. cbn [filter not_ws ck map ctext].
      assert (E1 : text_eqb k (lit "none") = false /\ text_eqb k (lit "weight") = false /\ text_eqb k (lit "style") = false).
      { assert (H' := wide_cases k H). unfold wide_keywords in H'. cbn [In] in H'.
        repeat (destruct H' as [<-|H']; [repeat split|]). destruct H'. }
      destruct E1 as (E1 & E2 & E3). rewrite E1, E2, E3, L, H. reflexivity. }
    rewrite E. eexists. split; [reflexivity|]. rewrite (ok_word c O) by exact W. apply (set_map_uniform d SFontSynthesis); auto.
  - rewrite FV. cbn [bind]. eexists. split; [reflexivity|]. apply (set_map_uniform d SFontVariant); auto.
  - unfold l_mask at 1. rewrite parse_each_wide by exact H. cbn [bind dget]. rewrite finish_one; [|exact O|exact (NL SMask)|exact H].
    eexists. split; [reflexivity|]. apply (set_map_uniform d SMask); auto.
  - rewrite parse_each_wide by exact H. cbn [bind dhas dget]. rewrite parse_each_nil. cbn [bind].
    rewrite finish_one; [|exact O|exact (NL SMaskBorder)|exact H].
    eexists. split; [reflexivity|]. apply (set_map_uniform d SMaskBorder); auto.
  - unfold parse_component_list. rewrite scan_wide by exact H. cbn [bind app]. rewrite (ok_word c O) by exact W.
    eexists. split; [reflexivity|]. apply (set_map_uniform d SOverflow); auto.
  - unfold l_text_decoration at 1. rewrite parse_each_wide by exact H. cbn [bind]. rewrite finish_one; [|exact O|exact (NL STextDecoration)|exact H].
    eexists. split; [reflexivity|]. apply (set_map_uniform d STextDecoration); auto.
  - assert (E : white_space_values c [mkC CIdent k] = (k, k, k)).
    { unfold white_space_values. rewrite SV, L, H.
      assert (H' := wide_cases k H). unfold wide_keywords in H'. cbn [In] in H'.
      repeat (destruct H' as [<-|H']; [reflexivity|]). destruct H'. }
    rewrite E. eexists. split; [reflexivity|]. rewrite (ok_word c O) by exact W. apply (set_map_uniform d SWhiteSpace); auto.
Qed.

(** reading *)
Lemma sh_value_all c d f name s l v p : find_shorthand name = Some (s, l) -> longhands name <> [] ->
  (forall n, In n (longhands name) ->
     (is_shorthand n = false /\ dget d n = Some (v n, p) /\ nonempty (v n) = true /\ csupports c n (v n) = true) \/
     (is_shorthand n = true /\ sh_value f c d n = v n /\ sh_priority depth d n = p)) ->
  sh_value (S f) c d name = tostring c s d (map (fun n => (n, v n)) (longhands name)).
Proof.
  intros F N H. cbn [sh_value]. rewrite F.
  match goal with |- context [fold_right ?st _ _] => set (step := st) end.
  assert (G : fold_right step (Some []) (longhands name) = Some (map (fun n => (n, (v n, p))) (longhands name))).
  { clear N. induction (longhands name) as [|n ns IH]; [reflexivity|]. cbn [fold_right map].
    rewrite IH by (intros m Hm; apply H; now right). unfold step.
    destruct (H n (or_introl eq_refl)) as [(S & G & NE & SU)|(S & V & P)]; rewrite S.
    - rewrite G, NE, SU. reflexivity.
    - rewrite V, P. reflexivity. }
  rewrite G. rewrite !map_map. cbn [fst snd]. rewrite (common_same p); [reflexivity| |].
  - destruct (longhands name); [congruence|discriminate].
  - intros q Hq. apply in_map_iff in Hq as (? & <- & _). reflexivity.
Qed.
Lemma index_app_left k a b : In k a -> index_of k (a ++ b) < length a.
Proof.
  induction a as [|x a IH]; cbn; [tauto|]. destruct (text_eqb_spec x k) as [->|N]; [lia|]. intros [E|I]; [congruence|]. apply IH in I. lia.
Qed.
Lemma index_app_right k a b : ~ In k a -> length a <= index_of k (a ++ b).
Proof.
  induction a as [|x a IH]; cbn; [lia|]. destruct (text_eqb_spec x k) as [->|N]; [tauto|]. intros I. assert (length a <= index_of k (a ++ b)) by tauto. lia.
Qed.
Lemma order_tail li d names subs A B : dkeys d = A ++ B -> names <> [] ->
  (forall n, In n names -> In n B /\ ~ In n A) -> (forall n, In n subs -> ~ In n B) ->
  order_ok li d names subs = true.
Proof.
  intros K NE H1 H2. unfold order_ok. rewrite Bool.andb_true_iff. split.
  - apply forallb_forall. intros n Hn. apply mem_in. rewrite K. apply in_or_app. right. apply H1. exact Hn.
  - apply forallb_forall. intros n Hn. destruct (dget d n) as [[v p]|] eqn:G; [|reflexivity].
    assert (I : In n A).
    { assert (X : In n (dkeys d)) by (apply dget_some_keys; eexists; exact G). rewrite K in X. apply in_app_or in X as [X|X]; [exact X|].
      destruct (H2 n Hn X). }
    assert (L := index_app_left n A B I). rewrite K.
    assert (R : forall m, In m names -> length A <= index_of m (A ++ B)) by (intros m Hm; apply index_app_right; apply H1; exact Hm).
    assert (Mn : length A <= span_min (A ++ B) names).
    { unfold span_min. destruct names as [|m ms]; [congruence|]. cbn [map].
      assert (R0 := R m (or_introl eq_refl)). assert (R1 : forall x, In x ms -> length A <= index_of x (A ++ B)) by (intros x Hx; apply R; now right).
      clear -R0 R1. induction ms as [|x ms IH]; cbn; [exact R0|]. apply Nat.min_glb; [apply R1; now left|apply IH; intros y Hy; apply R1; now right]. }
    assert (Mx : length A <= span_max (A ++ B) names).
    { unfold span_max. destruct names as [|m ms]; [congruence|]. cbn. assert (R0 := R m (or_introl eq_refl)). lia. }
    rewrite (proj2 (Nat.ltb_ge _ _)) by lia. rewrite (proj2 (Nat.ltb_ge (span_max (A ++ B) names) _)) by lia. reflexivity.
Qed.

Lemma uniform_order d d' s v p li names subs : uniform d d' s v p -> names <> [] ->
  forallb (fun n => mem n (leaves s)) names = true -> forallb (fun n => negb (mem n (leaves s))) subs = true ->
  order_ok li d' names subs = true.
Proof.
  intros (_ & _ & B & K & M) NE H1 H2. rewrite forallb_forall in H1, H2. apply (order_tail li d' names subs _ B K NE).
  - intros n Hn. apply H1 in Hn. rewrite <- M in Hn. split; [apply mem_in; exact Hn|].
    intros I. apply filter_In in I as [_ I]. rewrite Hn in I. discriminate.
  - intros n Hn. apply H2 in Hn. rewrite <- M in Hn. apply mem_not_in. destruct (mem n B); [discriminate|reflexivity].
Qed.
Lemma uniform_value c d d' s k p : css_ok c -> is_wide k = true -> uniform d d' s k p ->
  sh_value depth c d' (sname s) = k.
Proof.
  intros O H U. assert (U' := U). destruct U' as (D' & G & _).
  assert (NEk : nonempty k = true) by (destruct (wide_word k H) as [W _]; destruct k; [discriminate|reflexivity]).
  assert (H' := wide_cases k H). unfold wide_keywords in H'. cbn [In] in H'.
  assert (FVv : forall f q, In (lit "font-variant") (longhands (sname s)) \/ s = SFontVariant ->
     (forall m, In m (longhands (lit "font-variant")) -> dget d' m = Some (k, q)) -> sh_value (S f) c d' (lit "font-variant") = k).
  { intros f q _ Hv.
    rewrite (sh_value_all c d' f (lit "font-variant") SFontVariant l_font_variant (fun _ => k) q).
    - cbn [tostring]. clear -H'. repeat (destruct H' as [<-|H']; [reflexivity|]). destruct H'.
    - reflexivity.
    - vm_compute. discriminate.
    - intros n Hn. left. split; [apply variant_flat; exact Hn|]. split; [apply Hv; exact Hn|]. split; [exact NEk|].
      apply (ok_wide c O). exact H. }
  assert (VL : forall m, In m (longhands (lit "font-variant")) -> s = SFont \/ s = SFontVariant -> dget d' m = Some (k, p)).
  { intros m Hm [E|E]; apply G; subst s; [apply (nested_leaf SFont (lit "font-variant")); [right; left; reflexivity|reflexivity|exact Hm]|].
    apply longhand_leaf; [exact Hm|apply variant_flat; exact Hm]. }
  destruct (find_sname s) as (l & Fs & _).
  unfold depth. rewrite (sh_value_all c d' 2 (sname s) s l (fun _ => k) p Fs).
  - destruct s; cbn [tostring].
    + unfold font_tostring. rewrite (uniform_order d d' SFont k p true _ _ U) by (vm_compute; congruence || reflexivity).
      cbn [negb]. clear -H'. repeat (destruct H' as [<-|H']; [reflexivity|]). destruct H'.
    + clear -H'. repeat (destruct H' as [<-|H']; [reflexivity|]). destruct H'.
    + clear -H'. repeat (destruct H' as [<-|H']; [reflexivity|]). destruct H'.
    + unfold mask_tostring. rewrite (uniform_order d d' SMask k p true _ _ U) by (vm_compute; congruence || reflexivity).
      cbn [negb]. clear -H'. repeat (destruct H' as [<-|H']; [reflexivity|]). destruct H'.
    + unfold mask_border_tostring. rewrite (uniform_order d d' SMaskBorder k p false _ _ U) by (vm_compute; congruence || reflexivity).
      cbn [negb]. clear -H'. repeat (destruct H' as [<-|H']; [reflexivity|]). destruct H'.
    + unfold overflow_tostring. cbn [longhands]. clear -H'. repeat (destruct H' as [<-|H']; [reflexivity|]). destruct H'.
    + clear -H'. repeat (destruct H' as [<-|H']; [reflexivity|]). destruct H'.
    + clear -H'. repeat (destruct H' as [<-|H']; [reflexivity|]). destruct H'.
  - apply longhands_nonempty.
  - intros n Hn. destruct (is_shorthand n) eqn:E.
    + right. split; [reflexivity|]. assert (En := nested_only s n Hn E). subst n.
      assert (Es : s = SFont).
      { destruct s; try reflexivity; exfalso; apply mem_in in Hn; vm_compute in Hn; discriminate. }
      split; [apply (FVv 1 p); [left; exact Hn|intros m Hm; apply VL; auto]|].
      unfold depth. apply flat_priority_same; [vm_compute; discriminate|exact variant_flat|].
      intros m Hm. exists k. apply VL; auto.
    + left. split; [reflexivity|]. split; [apply G; apply longhand_leaf; assumption|]. split; [exact NEk|]. apply (ok_wide c O). exact H.
Qed.
