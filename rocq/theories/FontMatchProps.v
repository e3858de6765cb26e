(** C47: choosing a font face. *)
From Coq Require Import Qabs Sorted.
From Verif Require Import PyBase PyText FontMatchModel FontMatchSpec FontMatchProofs.
#[local] Open Scope Q_scope.

(** The chosen face belongs to the first family in the list, in order and without
    repetition, one of whose best faces covers the text; it is a best face of that family
    (width first, then slant, weight and size; [better] says what closer means), covers the text,
    and its file is the first of those. *)
Theorem c47_choice fs st t f w : width_map (s_stretch st) = Some w -> find_face fs st t = Some f ->
  exists pre n post, firsts (matched fs (s_families st)) = pre ++ n :: post /\ fits st w (list_family fs n) f /\ covers fs t f = true
    /\ (forall g, fits st w (list_family fs n) g -> covers fs t g = true -> first_file f g)
    /\ (forall m g, In m pre -> fits st w (list_family fs m) g -> covers fs t g = false).
Proof.
  intros W. unfold find_face. rewrite families_spec. generalize (firsts (matched fs (s_families st))) as names.
  assert (K : forall n g, In g (candidates st (list_family fs n)) <-> fits st w (list_family fs n) g).
  { intros n g. unfold candidates. rewrite by_file_in. unfold fits. apply (narrowed_spec st w _ W). }
  induction names as [|n r IH]; cbn [search]; [discriminate|]. destruct (find (covers fs t) (candidates st (list_family fs n))) as [f'|] eqn:E.
  - intros [= <-]. exists [], n, r. apply find_sorted in E; [|apply by_file_sorted]. destruct E as (A & B & C). split; [reflexivity|]. split; [now apply K|]. split; [exact B|]. split; [|intros m g []].
    intros g G. apply C. now apply K.
  - intros H. destruct (IH H) as (pre & n' & post & -> & A & B & C & D). exists (n :: pre), n', post. split; [reflexivity|]. split; [exact A|]. split; [exact B|]. split; [exact C|].
    intros m g [<-|M] G; [|now apply (D m g M)]. apply (find_none _ _ E). now apply K.
Qed.
Print Assumptions c47_choice.
Definition fc (file : string) (slant : Z) (weight width : Q) : face := mkFace (lit file) 0 0 slant weight width.
Definition db : fonts := mkFonts (fun n => if text_eqb n (lit "nope") then None else Some n)
  (fun n => if text_eqb n (lit "A") then [fc "A1" 0 400 100; fc "A2" 0 700 100; fc "A0" 110 700 100; fc "A3" 100 700 75] else if text_eqb n (lit "B") then [fc "B2" 0 400 100; fc "B1" 0 400 100] else [])
  (fun f c => negb (text_eqb (f_file f) (lit "A0")) || negb (N.eqb c 65)).
Example c47_choice_ex : find_face db (mkFStyle [lit "nope"; lit "A"; lit "B"] (lit "normal") (lit "italic") 700 16) (Some (lit "b")) = Some (fc "A0" 110 700 100)
  /\ find_face db (mkFStyle [lit "nope"; lit "A"; lit "A"; lit "B"] (lit "normal") (lit "italic") 700 16) (Some (lit "A")) = Some (fc "B1" 0 400 100).
Proof. split; vm_compute; reflexivity. Qed.
(** The fallback font is used only if no best face of any family covers the text. *)
Theorem c47_fallback fs st t w : width_map (s_stretch st) = Some w -> find_face fs st t = None ->
  forall n g, In n (s_families st) -> forall m, match_family fs n = Some m -> fits st w (list_family fs m) g -> covers fs t g = false.
Proof.
  intros W. unfold find_face. rewrite families_spec. intros H n g N m M.
  assert (I : In m (firsts (matched fs (s_families st)))).
  { assert (J : In m (matched fs (s_families st))) by (apply in_flat_map; exists n; split; [exact N|rewrite M; now left]). revert J. generalize (matched fs (s_families st)) as l. clear.
    induction l as [|x l IH]; [tauto|]. cbn [firsts]. intros J. destruct (text_eqb_spec x m) as [E|E]; [now left|]. right. apply filter_In. destruct J as [J|J]; [congruence|]. split; [now apply IH|]. destruct (text_eqb_spec x m); [congruence|reflexivity]. }
  revert I H. generalize (firsts (matched fs (s_families st))) as names.
  assert (K : forall n g, In g (candidates st (list_family fs n)) <-> fits st w (list_family fs n) g).
  { clear - W. intros n g. unfold candidates. rewrite by_file_in. unfold fits. apply (narrowed_spec st w _ W). }
  induction names as [|x r IH]; [intros []|]. cbn [search]. destruct (find (covers fs t) (candidates st (list_family fs x))) eqn:E; [discriminate|]. intros [->|I] H G; [|now apply IH].
  apply (find_none _ _ E). now apply K.
Qed.
Print Assumptions c47_fallback.
Example c47_fallback_ex : find_face db (mkFStyle [lit "A"] (lit "normal") (lit "italic") 700 16) (Some (lit "A")) = None. Proof. vm_compute. reflexivity. Qed.
(** A family with faces has a best face, so some face is chosen when no text is given. *)
Lemma narrow_nonempty key u d l : l <> [] -> narrow key u d l <> [].
Proof.
  intros H. unfold narrow. destruct (exactly key d l) eqn:E; [|discriminate]. destruct l as [|f l]; [congruence|]. set (L := f :: l) in *.
  assert (S := table_sorted u (map key L)). set (tb := if u then rev (sort_up (map key L)) else sort_up (map key L)) in *. destruct tb as [|x r] eqn:T.
  - destruct (sort_up_has (map key L) (key f) (or_introl eq_refl)) as (y & A & _). assert (B : In y tb) by (unfold tb; destruct u; [now apply -> in_rev|exact A]). rewrite T in B. destruct B.
  - destruct (argmin_spec u d r x S) as [A _]. assert (B : In (argmin d x r) (sort_up (map key L))) by (rewrite <- T in A; unfold tb in A; destruct u; [now apply in_rev|exact A]).
    apply sort_up_in, in_map_iff in B. destruct B as (g & Q & G). intros Z. assert (J : In g []); [|destruct J]. rewrite <- Z. apply filter_In. split; [exact G|]. rewrite Q. destruct (Qeqb_spec (argmin d x r) (argmin d x r)) as [|NE]; [reflexivity|now destruct NE].
Qed.
Theorem c47_some fs st w n m : width_map (s_stretch st) = Some w -> In n (s_families st) -> match_family fs n = Some m -> list_family fs m <> [] -> exists f, find_face fs st None = Some f.
Proof.
  intros W N M L. destruct (find_face fs st None) as [f|] eqn:E; [eauto|]. exfalso.
  assert (C : candidates st (list_family fs m) <> []).
  { unfold candidates. set (k := by_size _ _). assert (K : k <> []).
    { unfold k, by_size, by_weight. apply narrow_nonempty, narrow_nonempty. assert (B : by_width st (list_family fs m) <> []) by (unfold by_width; rewrite W; now apply narrow_nonempty).
      revert B. generalize (by_width st (list_family fs m)) as b. induction (slants st) as [|s r IH]; intros b B; [exact B|]. cbn [by_slant]. destruct (filter _ b); [now apply IH|discriminate]. }
    clearbody k. destruct k as [|g k]; [congruence|]. intros Z. assert (J : In g (by_file (g :: k))) by (apply by_file_in; now left). rewrite Z in J. destruct J. }
  destruct (candidates st (list_family fs m)) as [|g r] eqn:Q; [congruence|]. assert (G : In g (candidates st (list_family fs m))) by (rewrite Q; now left). unfold candidates in G. apply (proj1 (by_file_in _ _)) in G. apply (narrowed_spec st w _ W) in G.
  assert (D := c47_fallback fs st None w W E n g N m M G). discriminate D.
Qed.
Print Assumptions c47_some.
Example c47_some_ex : find_face db (mkFStyle [lit "A"] (lit "ultra-condensed") (lit "normal") 900 0) None = Some (fc "A3" 100 700 75). Proof. vm_compute. reflexivity. Qed.
(** Where the CSS order is met: the weight chosen is the one CSS Fonts prefers if the desired
    weight is there, or if all weights lie on one side of it.  Missing: the other sets. *)
Theorem c47_weight_css_partial st l : (forall f, In f l -> f_weight f <= s_weight st) \/ (forall f, In f l -> s_weight st <= f_weight f) \/ (exists f, In f l /\ f_weight f == s_weight st) ->
  forall f, In f (by_weight st l) <-> In f l /\ forall g, In g l -> ~ css_weight_before (s_weight st) (f_weight g) (f_weight f).
Proof.
  set (d := s_weight st). intros H f. unfold by_weight. fold d. rewrite (narrow_spec f_weight (d <?q 400) d l f).
  assert (SIDE : forall x y, (x <= d /\ y <= d) \/ (d <= x /\ d <= y) -> (closer (d <?q 400) d x y <-> css_weight_before d x y)).
  { clear. intros x y S. unfold closer, css_weight_before.
    assert (AX : Qabs (x - d) == if x <=?q d then d - x else x - d) by (destruct (Qleb_spec x d); [rewrite Qabs_neg by lra|rewrite Qabs_pos by lra]; ring).
    assert (AY : Qabs (y - d) == if y <=?q d then d - y else y - d) by (destruct (Qleb_spec y d); [rewrite Qabs_neg by lra|rewrite Qabs_pos by lra]; ring).
    rewrite AX, AY. clear AX AY.
    destruct (Qleb_spec x d), (Qleb_spec y d), (Qltb_spec d 400), (Qleb_spec d 500), (Qleb_spec d x), (Qleb_spec d y), (Qltb_spec x d), (Qltb_spec y d), (Qleb_spec x 500), (Qleb_spec y 500); cbn [andb]; try (exfalso; lra);
      split; intros [A|[A B]]; first [left; lra | right; split; lra | exfalso; lra]. }
  destruct H as [H|[H|(e & E & Q)]].
  - split; intros [I M]; (split; [exact I|]); intros g G C; apply (M g G); apply SIDE; auto.
  - split; intros [I M]; (split; [exact I|]); intros g G C; apply (M g G); apply SIDE; auto.
  - assert (EX1 : forall x y, x == d -> ~ y == d -> closer (d <?q 400) d x y /\ css_weight_before d x y).
    { clear. intros x y X Y. split.
      - left. rewrite X. rewrite Qabs_pos by lra. assert (P := Qabs_nonneg (y - d)). destruct (Qlt_le_dec 0 (Qabs (y - d))) as [L|L]; [lra|]. exfalso. apply Y. assert (Z : Qabs (y - d) == 0) by lra. revert Z. apply Qabs_case; intros; lra.
      - unfold css_weight_before. assert (YY : y < d \/ d < y) by (destruct (Qlt_le_dec y d); [now left|right]; destruct (Qlt_le_dec d y); [assumption|exfalso; apply Y; lra]).
        destruct YY; destruct (Qltb_spec d 400), (Qleb_spec d 500), (Qleb_spec x d), (Qleb_spec y d), (Qleb_spec d x), (Qleb_spec d y), (Qltb_spec x d), (Qltb_spec y d), (Qleb_spec x 500), (Qleb_spec y 500); cbn [andb]; try (exfalso; lra);
          first [left; lra | right; split; lra]. }
    assert (EX2 : forall x y, x == d -> ~ closer (d <?q 400) d y x /\ ~ css_weight_before d y x).
    { clear - EX1. intros x y X. destruct (Qeq_dec y d) as [Y|Y].
      - split; [intros [A|[A B]]; [assert (Z : Qabs (y - d) == Qabs (x - d)) by (rewrite X, Y; reflexivity); lra|destruct (d <?q 400); lra]|]. unfold css_weight_before.
        destruct (Qltb_spec d 400), (Qleb_spec d 500), (Qleb_spec x d), (Qleb_spec y d), (Qleb_spec d x), (Qleb_spec d y), (Qltb_spec x d), (Qltb_spec y d), (Qleb_spec x 500), (Qleb_spec y 500); cbn [andb]; try (exfalso; lra);
          intros [A|[A B]]; lra.
      - destruct (EX1 x y X Y) as [A B]. split.
        + intros C. unfold closer in A, C. destruct A as [A|[A A']], C as [C|[C C']]; try lra. destruct (d <?q 400); lra.
        + clear A. revert B. unfold css_weight_before.
        destruct (Qltb_spec d 400), (Qleb_spec d 500), (Qleb_spec x d), (Qleb_spec y d), (Qleb_spec d x), (Qleb_spec d y), (Qltb_spec x d), (Qltb_spec y d), (Qleb_spec x 500), (Qleb_spec y 500); cbn [andb]; try (exfalso; lra);
          intros [A|[A B]] [C|[C D]]; lra. }
    split; intros [I M]; (split; [exact I|]); intros g G C.
    + destruct (Qeq_dec (f_weight f) d) as [F|F]; [exact (proj2 (EX2 (f_weight f) (f_weight g) F) C)|]. apply (M e E). exact (proj1 (EX1 _ _ Q F)).
    + destruct (Qeq_dec (f_weight f) d) as [F|F]; [exact (proj1 (EX2 (f_weight f) (f_weight g) F) C)|]. apply (M e E). exact (proj2 (EX1 _ _ Q F)).
Qed.
Print Assumptions c47_weight_css_partial.
Example c47_weight_css_ex : let st := mkFStyle [] (lit "normal") (lit "normal") 500 0 in let l := [fc "a" 0 600 100; fc "b" 0 700 100] in
  (forall f, In f l -> s_weight st <= f_weight f) /\ by_weight st l = [fc "a" 0 600 100].
Proof. split; [|vm_compute; reflexivity]. cbn. intros f [<-|[<-|[]]]; cbn; lra. Qed.
(* with weights on both sides CSS prefers the lighter below 400 (300 wanted; 200 and 400 there) *)
Theorem c47_light_refuted : exists st l f g, s_weight st == 300 /\ In f l /\ by_weight st l = [g] /\ css_weight_before (s_weight st) (f_weight f) (f_weight g).
Proof. exists (mkFStyle [] (lit "normal") (lit "normal") 300 0), [fc "a" 0 200 100; fc "b" 0 400 100], (fc "a" 0 200 100), (fc "b" 0 400 100). repeat split; [now left|]. left. vm_compute. reflexivity. Qed.
Print Assumptions c47_light_refuted.
(* and the bolder above 500 (600 wanted; 500 and 700 there) *)
Theorem c47_bold_refuted : exists st l f g, s_weight st == 600 /\ In f l /\ by_weight st l = [g] /\ css_weight_before (s_weight st) (f_weight f) (f_weight g).
Proof. exists (mkFStyle [] (lit "normal") (lit "normal") 600 0), [fc "a" 0 500 100; fc "b" 0 700 100], (fc "b" 0 700 100), (fc "a" 0 500 100). repeat split; [right; now left|]. left. vm_compute. reflexivity. Qed.
Print Assumptions c47_bold_refuted.
(* and 500 before 300 for 400 *)
Theorem c47_normal_refuted : exists st l f g, s_weight st == 400 /\ In f l /\ by_weight st l = [g] /\ css_weight_before (s_weight st) (f_weight f) (f_weight g).
Proof. exists (mkFStyle [] (lit "normal") (lit "normal") 400 0), [fc "a" 0 300 100; fc "b" 0 500 100], (fc "b" 0 500 100), (fc "a" 0 300 100). repeat split; [right; now left|]. left. vm_compute. reflexivity. Qed.
Print Assumptions c47_normal_refuted.
(* widths: normal wanted, 75 and 113 there *)
Theorem c47_width_refuted : exists st l f g, width_map (s_stretch st) = Some 100 /\ In f l /\ by_width st l = [g] /\ css_width_before 100 (f_width f) (f_width g).
Proof. exists (mkFStyle [] (lit "normal") (lit "normal") 400 0), [fc "a" 0 400 75; fc "b" 0 400 113], (fc "a" 0 400 75), (fc "b" 0 400 113). repeat split; [now left|]. left. vm_compute. reflexivity. Qed.
Print Assumptions c47_width_refuted.
(** A stretch that is none of the nine keywords (a percentage, say) finds no face at all. *)
Theorem c47_unknown_stretch fs st t : width_map (s_stretch st) = None -> find_face fs st t = None.
Proof. intros W. unfold find_face. induction (family_names fs (s_families st) []) as [|n r IH]; [reflexivity|]. cbn [search]. rewrite (width_unknown st _ W). exact IH. Qed.
Print Assumptions c47_unknown_stretch.
Example c47_unknown_stretch_ex : width_map (lit "75%") = None. Proof. reflexivity. Qed.
(** The chosen face has a glyph for every character of the text that is not a tab, a line end or a space. *)
Theorem c47_glyphs fs st t f : find_face fs st (Some t) = Some f ->
  forall ch, In ch t -> ch <> 9%N -> ch <> 10%N -> ch <> 13%N -> ch <> 32%N -> has_glyph fs f ch = true.
Proof.
  intros H ch I N1 N2 N3 N4. assert (C : covers fs (Some t) f = true).
  { revert H. unfold find_face. induction (family_names fs (s_families st) []) as [|n r IH]; cbn [search]; [discriminate|].
    destruct (find (covers fs (Some t)) (candidates st (list_family fs n))) eqn:E; [|exact IH]. intros H. injection H as <-. now apply find_some in E. }
  cbn [covers] in C. rewrite forallb_forall in C. specialize (C ch I). apply Bool.orb_true_iff in C as [C|C]; [|exact C].
  unfold is_blank_char in C. cbn [existsb] in C. rewrite !Bool.orb_true_iff, !N.eqb_eq in C. destruct C as [C|[C|[C|[C|C]]]]; congruence.
Qed.
Print Assumptions c47_glyphs.
(** A best face of a matched family is passed over for the fallback font only if it lacks the glyph
    of a character that is not a tab, a line end or a space. *)
Theorem c47_no_glyph fs st t w : width_map (s_stretch st) = Some w -> find_face fs st (Some t) = None ->
  forall n g m, In n (s_families st) -> match_family fs n = Some m -> fits st w (list_family fs m) g ->
  exists ch, In ch t /\ ch <> 9%N /\ ch <> 10%N /\ ch <> 13%N /\ ch <> 32%N /\ has_glyph fs g ch = false.
Proof.
  intros W H n g m I M F. assert (C := c47_fallback fs st (Some t) w W H n g I m M F). cbn [covers] in C.
  assert (X : exists ch, In ch t /\ is_blank_char ch || has_glyph fs g ch = false).
  { clear -C. induction t as [|x t IH]; cbn [forallb] in C; [discriminate|]. apply Bool.andb_false_iff in C as [C|C]; [exists x; split; [now left|exact C]|].
    destruct (IH C) as (ch & A & B). exists ch. split; [now right|exact B]. }
  destruct X as (ch & A & B). apply Bool.orb_false_iff in B as [B1 B2]. unfold is_blank_char in B1. cbn [existsb] in B1. rewrite !Bool.orb_false_iff, !N.eqb_neq in B1.
  exists ch. intuition.
Qed.
Print Assumptions c47_no_glyph.
Definition glyph_fonts : fonts := mkFonts (fun n => Some n) (fun n => if text_eqb n (lit "A") then [fc "a" 0 400 100] else []) (fun _ c => N.eqb c 97).
Example c47_glyphs_ex : find_face glyph_fonts (mkFStyle [lit "A"] (lit "normal") (lit "normal") 400 0) (Some (lit "a a")) = Some (fc "a" 0 400 100)
  /\ find_face glyph_fonts (mkFStyle [lit "A"] (lit "normal") (lit "normal") 400 0) (Some (lit "a b")) = None.
Proof. vm_compute. repeat split. Qed.
(** The width looked for is that of CSS Fonts (62.5%, 87.5% and 112.5% rounded to a whole number). *)
Definition css_widths : list (text * Q) :=
  [(lit "ultra-condensed", 50); (lit "extra-condensed", 125 # 2); (lit "condensed", 75); (lit "semi-condensed", 175 # 2); (lit "normal", 100);
   (lit "semi-expanded", 225 # 2); (lit "expanded", 125); (lit "extra-expanded", 150); (lit "ultra-expanded", 200)].
Theorem c47_widths k x : In (k, x) css_widths -> exists w, width_map k = Some w /\ Qabs (w - x) <= 1 # 2.
Proof.
  unfold css_widths. cbn [In]. intros H. repeat match type of H with _ \/ _ => destruct H as [H|H]; [injection H as <- <-; eexists; split; [reflexivity|vm_compute; discriminate]|] end. destruct H.
Qed.
Print Assumptions c47_widths.
