(** C46: white-space processing of text content. *)
From Verif Require Import PyBase PyText PyStrip PySplit TextModel TextSpec TextProofs TextProofs2.
#[local] Open Scope N_scope.

(* nothing to unescape, and the CJK ideographs wide *)
Definition lib0 : charlib := mkC (fun t => t) (fun c => (19968 <=? c) && (c <=? 40959)).

(** With 'normal' or 'nowrap' there is no tab and no line break in the result. *)
Theorem c46_flat lib ws t prev first tail c : wrapping ws -> In c (normalize_text lib ws t prev first tail) -> c <> 9 /\ c <> 10 /\ c <> 13.
Proof. intros W I. eapply settled_chars; [apply (normalize_flat lib ws t prev first tail W)|exact I]. Qed.
Print Assumptions c46_flat.
Example c46_flat_ex : normalize_text lib0 (lit "normal") (lit "a" ++ [9; 13; 10] ++ lit " b") None false false = lit "a b". Proof. reflexivity. Qed.

(** Unless white space is kept, no two spaces stand side by side, in the result or where
    it meets the text before it. *)
Theorem c46_runs lib ws t prev first tail : wrapping ws \/ ws = lit "pre-line" -> no_run (normalize_text lib ws t prev first tail).
Proof. intros W. apply normalize_no_run. unfold collapsing, wrapping in *. tauto. Qed.
Print Assumptions c46_runs.
Theorem c46_boundary lib ws t p first tail : wrapping ws \/ ws = lit "pre-line" -> no_run p -> no_run (p ++ normalize_text lib ws t (Some p) first tail).
Proof. intros W. apply boundary. unfold collapsing, wrapping in *. tauto. Qed.
Print Assumptions c46_boundary.
Example c46_boundary_ex : normalize_text lib0 (lit "normal") ([10] ++ lit "  b   c") (Some (lit "a ")) false false = lit "b c". Proof. reflexivity. Qed.

(** Every character that is not white space is kept, in order, in every mode. *)
Theorem c46_visible lib ws t prev first tail : visible (normalize_text lib ws t prev first tail) = visible (c_unescape lib t).
Proof. apply visible_keeps. Qed.
Print Assumptions c46_visible.
(** Every character but space, tab, CR and LF is kept, unless the text before ends with a
    space and this one starts with one.  Without that condition it is false. *)
Theorem c46_kept_partial lib ws t prev first tail : match prev with None => True | Some p => ends_space p = false \/ starts_space (processed lib ws t) = false end ->
  kept (normalize_text lib ws t prev first tail) = kept (c_unescape lib t).
Proof. apply kept_keeps. Qed.
Print Assumptions c46_kept_partial.
Example c46_kept_ex : normalize_text lib0 (lit "normal") ([160] ++ lit "x  y") (Some (lit "a")) false false = lit " " ++ [160] ++ lit "x y". Proof. reflexivity. Qed.
Theorem c46_kept_refuted : exists t p, kept (normalize_text lib0 (lit "normal") t (Some p) false false) <> kept t.
Proof. exists ([10; 160] ++ lit "x"), (lit "a "). vm_compute. discriminate. Qed.
Print Assumptions c46_kept_refuted.

(** For a text on its own, 'normal' gives its words with one space between, when it has
    no zero width space and no wide characters (where a line break may vanish). *)
Theorem c46_words lib ws t : wrapping ws -> narrow lib (c_unescape lib t) = true ->
  normalize_text lib ws t None true true = join [32] (fields (fun c => existsb (N.eqb c) [32; 9; 13; 10]) (c_unescape lib t)).
Proof. apply words_exact. Qed.
Print Assumptions c46_words.
Example c46_words_ex : normalize_text lib0 (lit "nowrap") ([10] ++ lit "  one" ++ [13; 10; 9] ++ lit "two  three" ++ [10]) None true true = lit "one two three".
Proof. reflexivity. Qed.
(** A break beside a zero width space, or between two wide characters that are not
    Hangul, leaves nothing; any other run of breaks between two characters leaves one
    space. *)
Theorem c46_break lib ws a b brk : wrapping ws -> (forall t, c_unescape lib t = t) -> collapsible a = false -> collapsible b = false -> brk <> [] ->
  forallb is_break brk = true ->
  normalize_text lib ws (a :: brk ++ [b]) None false false =
    if (a =? zwsp) || (b =? zwsp) || (c_wide lib a && negb (is_hangul a) && (c_wide lib b && negb (is_hangul b))) then [a; b] else [a; 32; b].
Proof.
  intros W U A B NE F. unfold normalize_text. cbn [after]. rewrite processed_wrapping by exact W. rewrite U.
  assert (BL : forall c, collapsible c = false -> is_blank c = false /\ is_break c = false /\ c <> 32 /\ c <> 9).
  { intros c C. repeat split.
    - destruct (is_blank c) eqn:E; [|reflexivity]. apply blank_collapsible in E. congruence.
    - destruct (is_break c) eqn:E; [|reflexivity]. apply break_collapsible in E. congruence.
    - intros ->. discriminate C.
    - intros ->. discriminate C. }
  destruct (BL a A) as (A1 & A2 & A3 & A4). destruct (BL b B) as (B1 & B2 & B3 & B4).
  assert (S : strip_trailing (strip_leading (a :: brk ++ [b])) = a :: brk ++ [b]).
  { assert (L : Forall (fun l => dropwhile is_blank l = l /\ rdropwhile is_blank l = l) (split_on 10 (a :: brk ++ [b]))).
    { assert (NB : forallb (fun c => negb (is_blank c)) (a :: brk ++ [b]) = true).
      { cbn [forallb]. rewrite A1, forallb_app. cbn [forallb]. rewrite B1. rewrite (proj2 (forallb_forall _ brk)); [reflexivity|]. intros c I. rewrite forallb_forall in F. specialize (F c I).
        apply break_cases in F. destruct F as [->| ->]; reflexivity. }
      apply forallb_lines in NB. eapply Forall_impl; [|exact NB]. cbn beta. intros l H. split.
      - apply dropwhile_head. destruct l as [|c l]; [reflexivity|]. cbn [forallb] in H. now apply andb_true_iff in H.
      - apply rdropwhile_id. rewrite <- forallb_rev in H. destruct (rev l) as [|c r]; [reflexivity|]. cbn [forallb] in H. now apply andb_true_iff in H. }
    assert (E1 : strip_leading (a :: brk ++ [b]) = a :: brk ++ [b]).
    { unfold strip_leading. rewrite (map_ext_in _ (fun l => l)); [rewrite map_id; apply join_split_on|]. intros l I. rewrite Forall_forall in L. now apply L. }
    rewrite E1. unfold strip_trailing. rewrite (map_ext_in _ (fun l => l)); [rewrite map_id; apply join_split_on|]. intros l I. rewrite Forall_forall in L. now apply L. }
  rewrite S. cbn [breaks]. rewrite A2. cbn [app].
  assert (Z : forall l run, forallb is_break l = true -> (l <> [] \/ run = true) -> breaks lib (Some a) run (l ++ [b]) = broken lib (Some a) (Some b) ++ [b]).
  { induction l as [|c l IH]; intros run Fl H.
    - destruct H as [H| ->]; [congruence|]. cbn [app breaks]. rewrite B2. reflexivity.
    - cbn [forallb] in Fl. apply andb_true_iff in Fl. destruct Fl as [F1 F2]. cbn [app breaks]. rewrite F1. apply IH; [exact F2|now right]. }
  rewrite Z; [|exact F|now left]. unfold broken. apply N.eqb_neq in A3, A4, B3, B4.
  destruct (a =? zwsp), (b =? zwsp), (c_wide lib a && negb (is_hangul a)), (c_wide lib b && negb (is_hangul b)); cbn [orb andb app map]; unfold tab_space; rewrite A4, B4; cbn [collapse]; rewrite A3, B3; reflexivity.
Qed.
Print Assumptions c46_break.
Example c46_break_ex : normalize_text lib0 (lit "normal") [26085; 10; 10; 26412] None false false = [26085; 26412] /\
  normalize_text lib0 (lit "normal") [26085; 10; 97] None false false = [26085; 32; 97].
Proof. split; reflexivity. Qed.

(** Processing a text trimmed at both ends a second time changes nothing, when there is
    nothing more to unescape.  Without the trimming, or the condition, it is false. *)
Theorem c46_idempotent_partial lib ws t prev first tail : wrapping ws ->
  let u := normalize_text lib ws t prev true true in c_unescape lib u = u -> normalize_text lib ws u None first tail = u.
Proof. intros W u U. now apply settled_fixed; [|apply normalize_settled|]. Qed.
Print Assumptions c46_idempotent_partial.
Theorem c46_idempotent_refuted : exists t, let u := normalize_text lib0 (lit "normal") t None false false in normalize_text lib0 (lit "normal") u None false false <> u.
Proof. exists (10 :: lit "a"). vm_compute. discriminate. Qed.
Print Assumptions c46_idempotent_refuted.

(** 'pre' and 'pre-wrap' keep everything, with every line ended by LF. *)
Theorem c46_pre lib ws t : keeping ws -> normalize_text lib ws t None false false = join [10] (lines (c_unescape lib t)).
Proof. apply keeping_exact. Qed.
Print Assumptions c46_pre.
Example c46_pre_ex : normalize_text lib0 (lit "pre") (lit "  a" ++ [13; 10; 13; 10; 9] ++ lit "b ") None false false = lit "  a" ++ [10; 10; 9] ++ lit "b ".
Proof. reflexivity. Qed.
(** False: they keep the spaces of the first text. *)
Theorem c46_pre_first_refuted : normalize_text lib0 (lit "pre") (lit "  a") None true false = lit "a". Proof. reflexivity. Qed.
Print Assumptions c46_pre_first_refuted.

(** 'pre-line' keeps the lines and collapses each to its words, when no line ends with CR. *)
Theorem c46_pre_line_partial lib t : forallb (fun c => negb (c =? 13)) (c_unescape lib t) = true ->
  normalize_text lib (lit "pre-line") t None false false = join [10] (map (fun l => join [32] (fields is_blank l)) (split_on 10 (c_unescape lib t))).
Proof. apply pre_line_exact. Qed.
Print Assumptions c46_pre_line_partial.
Example c46_pre_line_ex : normalize_text lib0 (lit "pre-line") (lit " a  b " ++ [10; 9; 10] ++ lit " c") None false false = lit "a b" ++ [10; 10] ++ lit "c".
Proof. reflexivity. Qed.
Theorem c46_pre_line_refuted : normalize_text lib0 (lit "pre-line") (lit "a" ++ [13] ++ lit "  b") None false false = lit "a" ++ [10] ++ lit " b". Proof. reflexivity. Qed.
Print Assumptions c46_pre_line_refuted.

(** ** The chunks of a text element *)

(** Whatever the tree, the chunks have the visible characters of the drawn texts in
    document order. *)
Theorem c46_chunks_visible lib d e cs out : chunks_of lib d e None true = Ok (cs, out) ->
  visible (concat cs) = visible (concat (map (fun x => c_unescape lib (snd x)) (texts_of d e))).
Proof. intros H. apply chunks_ok in H; [|reflexivity]. now destruct H as (L & _ & _ & V & _). Qed.
Print Assumptions c46_chunks_visible.
(** The text as a whole has no two spaces side by side when no text keeps white space. *)
Theorem c46_chunks_runs lib d e cs out : chunks_of lib d e None true = Ok (cs, out) ->
  (forall ws t, In (ws, t) (texts_of d e) -> wrapping ws \/ ws = lit "pre-line") -> no_run (concat cs).
Proof.
  intros H F. apply chunks_ok in H; [|reflexivity]. destruct H as (L & _ & _ & _ & R). apply (linked_no_run _ _ L). apply R. apply Forall_forall. intros [ws t] I.
  specialize (F ws t I). unfold collapsing, wrapping in *. cbn. tauto.
Qed.
Print Assumptions c46_chunks_runs.
(** The first chunk does not start with a space, and exactly one space stands between
    two chunks; none is empty. *)
Theorem c46_chunks_linked lib d e cs out : chunks_of lib d e None true = Ok (cs, out) -> linked None cs.
Proof. intros H. apply chunks_ok in H; [|reflexivity]. now destruct H as (L & _ & _ & V & _). Qed.
Print Assumptions c46_chunks_linked.
Definition tspan (t : option text) (tl : option text) : telem * option text := (TE true true true (lit "normal") t [], tl).
Definition text_elem (t : option text) (ks : list (telem * option text)) : telem := TE true true false (lit "normal") t ks.
Example c46_chunks_ex : chunks_of lib0 true (text_elem (Some (lit "  one ")) [tspan (Some (lit " two ")) (Some (lit " three")); (TE true false true (lit "normal") (Some (lit "no")) [], None)]) None true
  = Ok ([lit "one"; lit " two"; lit " three"], Some (lit " three")).
Proof. reflexivity. Qed.
(** False: text that is not separated stays together. *)
Theorem c46_chunks_together_refuted : chunks_of lib0 true (text_elem (Some (lit "f")) [tspan (Some (lit "oo")) None]) None true = Ok ([lit "f"; lit " oo"], Some (lit " oo")).
Proof. reflexivity. Qed.
Print Assumptions c46_chunks_together_refuted.
(** Once there is some text the chunks can be found; it is false of every tree. *)
Theorem c46_chunks_total_partial lib d ws t kids child shown : (d = false \/ shown = true) -> normalize_text lib ws t None true false <> [] ->
  exists cs out, chunks_of lib d (TE true shown child ws (Some t) kids) None true = Ok (cs, out).
Proof.
  intros D NE. assert (X := chunks_total lib d (TE true shown child ws None kids) _ NE). destruct X as (cs & q & _ & X). rewrite chunks_eq in *.
  assert (G : negb true || (d && negb shown) = false) by (destruct D as [->| ->]; [reflexivity|now rewrite andb_false_r]). rewrite G in *. cbn [add_chunk] in *.
  destruct (normalize_text lib ws t None true false) as [|c u]; [congruence|].
  assert (Y : forall ks cs1 cs2 p f r, kids_go lib d ws ks (cs1, p, f) = Ok r -> exists r', kids_go lib d ws ks (cs2, p, f) = Ok r').
  { clear. induction ks as [|[[ki kb kc w x y] tl] ks IH]; intros cs1 cs2 p f r; cbn [kids_go fst snd]; [eauto|].
    assert (T : forall cs1 cs2 p f, snd (fst (add_chunk lib ws tl (cs1, p, f))) = snd (fst (add_chunk lib ws tl (cs2, p, f))) /\ snd (add_chunk lib ws tl (cs1, p, f)) = snd (add_chunk lib ws tl (cs2, p, f))).
    { intros. unfold add_chunk. destruct tl as [tl|]; [|split; reflexivity]. destruct (normalize_text lib ws tl p0 f0 false); split; reflexivity. }
    assert (N : forall cs1 cs2 p f r, kids_go lib d ws ks (if kc then add_chunk lib ws tl (cs1, p, f) else (cs1, p, f)) = Ok r -> exists r', kids_go lib d ws ks (if kc then add_chunk lib ws tl (cs2, p, f) else (cs2, p, f)) = Ok r').
    { intros a b p0 f0 r0. destruct kc; [|apply IH]. destruct (T a b p0 f0) as [T1 T2]. destruct (add_chunk lib ws tl (a, p0, f0)) as [[a1 a2] a3], (add_chunk lib ws tl (b, p0, f0)) as [[b1 b2] b3].
      cbn in T1, T2. subst. apply IH. }
    destruct (ki && (negb d || kb)); [|cbn [bind]; apply N].
    destruct (chunks_of lib d (TE ki kb kc w x y) p f) as [[c1 o1]|]; [|discriminate]. cbn [bind]. destruct o1 as [[|z zs]|]; [cbn [bind]; apply N| |discriminate]. cbn [bind]. apply N. }
  destruct (Y _ _ ([] ++ [c :: u]) _ _ _ X) as [[r1 r2] E]. eauto.
Qed.
Print Assumptions c46_chunks_total_partial.
Theorem c46_chunks_total_refuted : chunks_of lib0 true (text_elem None [tspan None None; tspan (Some (lit "a")) None]) None true = Err TypeError.
Proof. reflexivity. Qed.
Print Assumptions c46_chunks_total_refuted.
