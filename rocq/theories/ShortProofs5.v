(** Values made of several words. *)
From Coq Require Import Lia.
From Verif Require Import PyBase PyText PySplit PyStrip PyDict PyCase ShortModel ShortSpec ShortProofs ShortProofs2 ShortProofs3 ShortProofs4.
Local Open Scope nat_scope.

Definition sp : comp := mkC CWs [32%N].
(* words with a space between, and after the last one if [b] *)
Fixpoint tailed (b : bool) (ws : list text) : list comp :=
  match ws with
  | [] => []
  | w :: r => mkC CIdent w :: (match r with [] => if b then [sp] else [] | _ => sp :: tailed b r end)
  end.
Lemma tailed_interleave ws : tailed false ws = interleave ws.
Proof. induction ws as [|w [|x r] IH]; try reflexivity. cbn [tailed interleave] in *. rewrite <- IH. reflexivity. Qed.
Lemma tailed_app b a g : g <> [] -> tailed b (a ++ g) = tailed true a ++ tailed b g.
Proof.
  intros N. induction a as [|w a IH]; [reflexivity|]. cbn [app tailed]. rewrite IH.
  destruct a as [|x r]; cbn [app]; [destruct g; [congruence|reflexivity]|reflexivity].
Qed.
Lemma tailed_nonempty b ws : ws <> [] -> exists x l, tailed b ws = x :: l.
Proof. destruct ws as [|w r]; [congruence|]. intros _. cbn [tailed]. eauto. Qed.

Definition plain (w : text) : Prop := word w = true /\ is_wide w = false.

Lemma scan_pass c p ws : Forall plain ws ->
  (mem p with_solidus = true \/ forall w, In w ws -> exists f, csupport c p (mkC CIdent w) = Ok (false, f)) ->
  forall b todo kept wd, scan c p (tailed b ws ++ todo) kept false None wd = scan c p todo (kept ++ tailed b ws) false None wd.
Proof.
  intros F. induction F as [|w ws [W NW] F IH]; intros H b todo kept wd; [cbn [tailed app]; now rewrite app_nil_r|].
  assert (E : forall todo' kept', scan c p (mkC CIdent w :: todo') kept' false None wd = scan c p todo' (kept' ++ [mkC CIdent w]) false None wd).
  { intros t k. cbn [scan ck ctext]. rewrite (not_wide_lower w W), NW.
    change (is_lit (lit ",") (mkC CIdent w)) with false. change (is_lit (lit "/") (mkC CIdent w)) with false. cbv iota.
    destruct H as [H|H]; [rewrite H; reflexivity|]. destruct (mem p with_solidus); [reflexivity|].
    destruct (H w (or_introl eq_refl)) as [f Hf]. rewrite Hf. cbn [andb bind fst started orb]. reflexivity. }
  assert (H' : mem p with_solidus = true \/ forall w', In w' ws -> exists f, csupport c p (mkC CIdent w') = Ok (false, f)).
  { destruct H as [H|H]; [now left|right; intros w' Hw; apply H; now right]. }
  cbn [tailed]. destruct ws as [|x r].
  - destruct b; cbn [app]; rewrite E; [|reflexivity]. change (scan c p (sp :: todo) ?k false None wd) with (scan c p todo (k ++ [sp]) false None wd).
    rewrite <- app_assoc. reflexivity.
  - change ((mkC CIdent w :: sp :: tailed b (x :: r)) ++ todo) with (mkC CIdent w :: sp :: (tailed b (x :: r) ++ todo)).
    rewrite E. change (scan c p (sp :: ?t) ?k false None wd) with (scan c p t (k ++ [sp]) false None wd).
    rewrite (IH H'). rewrite <- !app_assoc. reflexivity.
Qed.
Lemma remove_ident w l : remove_lit (mkC CIdent w) l = None.
Proof. induction l as [|y l IH]; [reflexivity|]. cbn [remove_lit]. unfold lit_eqb. cbn [ck]. destruct (ck y); rewrite IH; reflexivity. Qed.
Definition tail_of (t : option (list comp)) : list comp := match t with Some l => l | None => [] end.
Lemma scan_take c p ws : Forall plain ws -> mem p with_solidus = false ->
  (forall w, In w ws -> csupport c p (mkC CIdent w) = Ok (true, false)) -> ws <> [] ->
  forall b todo kept t wd, scan c p (tailed b ws ++ todo) kept false t wd = scan c p todo kept false (Some (tail_of t ++ tailed b ws)) wd.
Proof.
  intros F M. induction F as [|w ws [W NW] F IH]; intros H NE b todo kept t wd; [congruence|].
  assert (E : forall todo' t', scan c p (mkC CIdent w :: todo') kept false t' wd = scan c p todo' kept false (Some (tail_of t' ++ [mkC CIdent w])) wd).
  { intros u t'. cbn [scan ck ctext]. rewrite (not_wide_lower w W), NW.
    change (is_lit (lit ",") (mkC CIdent w)) with false. change (is_lit (lit "/") (mkC CIdent w)) with false. cbv iota. rewrite M.
    cbn [andb]. rewrite (H w (or_introl eq_refl)). cbn [bind fst snd]. rewrite Bool.andb_false_r. unfold take_out. rewrite remove_ident.
    destruct t' as [l|]; reflexivity. }
  assert (E2 : forall todo' l, scan c p (sp :: todo') kept false (Some l) wd = scan c p todo' kept false (Some (l ++ [sp])) wd) by reflexivity.
  cbn [tailed]. destruct ws as [|x r].
  - destruct b; cbn [app]; rewrite E; [|reflexivity]. rewrite E2, <- app_assoc. reflexivity.
  - change ((mkC CIdent w :: sp :: tailed b (x :: r)) ++ todo) with (mkC CIdent w :: sp :: (tailed b (x :: r) ++ todo)).
    rewrite E, E2. rewrite IH; [|intros; apply H; now right|discriminate]. cbn [tail_of]. rewrite <- !app_assoc. reflexivity.
Qed.
Lemma scan_stop c p w todo kept x l wd : plain w -> mem p with_solidus = false ->
  (exists f, csupport c p (mkC CIdent w) = Ok (false, f)) ->
  scan c p (mkC CIdent w :: todo) kept false (Some (x :: l)) wd = Ok (kept ++ mkC CIdent w :: todo, Some (x :: l), wd).
Proof.
  intros [W NW] M [f H]. cbn [scan ck ctext]. rewrite (not_wide_lower w W), NW.
  change (is_lit (lit ",") (mkC CIdent w)) with false. change (is_lit (lit "/") (mkC CIdent w)) with false. cbv iota. rewrite M.
  cbn [andb]. rewrite H. reflexivity.
Qed.

Lemma parse_none c p ws cm b : Forall plain ws ->
  (mem p with_solidus = true \/ forall w, In w ws -> exists f, csupport c p (mkC CIdent w) = Ok (false, f)) ->
  parse_component_list c p (tailed b ws) cm [] = Ok (tailed b ws, cm, []).
Proof.
  intros F H. unfold parse_component_list. rewrite <- (app_nil_r (tailed b ws)) at 1. rewrite scan_pass by assumption. reflexivity.
Qed.
Lemma parse_group c p pre ws post cm b : Forall plain (pre ++ ws ++ post) -> mem p with_solidus = false -> ws <> [] ->
  (forall w, In w (pre ++ post) -> exists f, csupport c p (mkC CIdent w) = Ok (false, f)) ->
  (forall w, In w ws -> csupport c p (mkC CIdent w) = Ok (true, false)) ->
  exists b1 b2, parse_component_list c p (tailed b (pre ++ ws ++ post)) cm [] = Ok (tailed b1 (pre ++ post), dset cm p (tailed b2 ws), []).
Proof.
  intros F M NE HN HS. apply Forall_app in F as [F1 F]. apply Forall_app in F as [F2 F3]. unfold parse_component_list.
  assert (NE2 : ws ++ post <> []) by (destruct ws; [congruence|discriminate]).
  rewrite (tailed_app b pre) by exact NE2.
  rewrite scan_pass by (try assumption; right; intros w Hw; apply HN; apply in_or_app; now left). cbn [app].
  destruct post as [|x post].
  - rewrite !app_nil_r. rewrite <- (app_nil_r (tailed b ws)). rewrite scan_take by assumption. cbn [scan tail_of app bind].
    destruct (tailed_nonempty b ws NE) as (y & l & E). rewrite E. exists true, b. rewrite E. reflexivity.
  - rewrite (tailed_app b ws) by discriminate. rewrite scan_take by assumption. cbn [tail_of app].
    destruct (tailed_nonempty true ws NE) as (y & l & E). rewrite E.
    assert (T : exists r, tailed b (x :: post) = mkC CIdent x :: r) by (cbn [tailed]; eauto).
    destruct T as [r T]. rewrite T. inversion F3; subst. rewrite scan_stop; [|assumption|assumption|apply HN; apply in_or_app; right; now left].
    cbn [bind]. exists b, true. rewrite <- T, <- E, <- tailed_app by discriminate. reflexivity.
Qed.

Definition ggiven (gs : list group) (p : text) : option (list text) :=
  match find (fun g => text_eqb (fst g) p) gs with Some g => Some (snd g) | None => None end.
Lemma given_words gs p : given gs p = match ggiven gs p with Some ws => Some (join [32%N] ws) | None => None end.
Proof. unfold given, ggiven. destruct (List.find (fun g => text_eqb (fst g) p) gs); reflexivity. Qed.
Lemma ggiven_app a b p : ggiven (a ++ b) p = match ggiven a p with Some w => Some w | None => ggiven b p end.
Proof.
  unfold ggiven. induction a as [|g a IH]; cbn [app find]; [reflexivity|]. destruct (text_eqb (fst g) p); [reflexivity|exact IH].
Qed.
Lemma ggiven_in gs p ws : ggiven gs p = Some ws -> In (p, ws) gs.
Proof.
  unfold ggiven. destruct (List.find (fun g => text_eqb (fst g) p) gs) as [[q v]|] eqn:E; [|discriminate]. intros H. injection H as <-. apply List.find_some in E as [I T].
  cbn [fst] in T. destruct (text_eqb_spec q p) as [->|]; [exact I|discriminate].
Qed.
Lemma ggiven_none gs p : ~ In p (map fst gs) -> ggiven gs p = None.
Proof.
  intros N. destruct (ggiven gs p) eqn:E; [|reflexivity]. apply ggiven_in in E. destruct N. apply in_map_iff. exists (p, l). split; [reflexivity|exact E].
Qed.
Lemma ggiven_some gs p : In p (map fst gs) -> exists ws, ggiven gs p = Some ws.
Proof.
  induction gs as [|[q v] gs IH]; cbn; [tauto|]. unfold ggiven. cbn [find fst]. destruct (text_eqb_spec q p) as [->|N]; [eauto|].
  intros [E|I]; [congruence|]. apply IH. exact I.
Qed.
Lemma value_words_app a b : value_words (a ++ b) = value_words a ++ value_words b.
Proof. unfold value_words. apply flat_map_app. Qed.
Lemma value_words_in gs w : In w (value_words gs) <-> exists p ws, In (p, ws) gs /\ In w ws.
Proof.
  unfold value_words. rewrite in_flat_map. split.
  - intros ([p ws] & I & H). exists p, ws. split; assumption.
  - intros (p & ws & I & H). exists (p, ws). split; assumption.
Qed.
Lemma sorted_plain c ps gs : sorted_out c ps gs -> Forall plain (value_words gs).
Proof.
  intros (_ & A & _). apply Forall_forall. intros w Hw. apply value_words_in in Hw as (p & ws & I & J).
  destruct (A p ws I) as (_ & _ & F). rewrite Forall_forall in F. apply F. exact J.
Qed.

Lemma parse_each_sorted c ps : forall gs cm b, sorted_out c ps gs -> NoDup ps ->
  (forall p, In p (map fst gs) -> mem p with_solidus = false) -> dict_ok cm ->
  exists rest cm', parse_each c ps (tailed b (value_words gs)) cm [] = Ok (rest, cm', []) /\ dict_ok cm' /\
    forall k, match ggiven gs k with
              | Some ws => exists b', dget cm' k = Some (tailed b' ws)
              | None => dget cm' k = dget cm k
              end.
Proof.
  induction ps as [|p ps IH]; intros gs cm b S ND M D.
  - destruct gs as [|[q ws] gs].
    + exists [], cm. split; [reflexivity|]. split; [exact D|]. intros k. reflexivity.
    + destruct S as (_ & A & _). destruct (A q ws (or_introl eq_refl)) as ([] & _).
  - inversion ND as [|? ? Np ND']; subst. cbn [parse_each].
    assert (PL := sorted_plain _ _ _ S). destruct S as (S1 & S2 & S3 & S4).
    destruct (in_dec (list_eq_dec N.eq_dec) p (map fst gs)) as [I|I].
    + assert (J := I). apply in_map_iff in J as ([p' ws] & E & J). cbn in E. subst p'. apply in_split in J as (g1 & g2 & ->).
      destruct (S2 p ws) as (_ & NE & _); [apply in_or_app; right; now left|].
      rewrite map_app in S1. cbn [map fst] in S1.
      assert (P12 : ~ In p (map fst (g1 ++ g2))) by (rewrite map_app; apply NoDup_remove_2 in S1; exact S1).
      assert (SN : forall q v w, In (q, v) (g1 ++ g2) -> In w v -> exists f, csupport c p (mkC CIdent w) = Ok (false, f)).
      { intros q v w Iq Iw. assert (Iq' : In (q, v) (g1 ++ (p, ws) :: g2)) by (apply in_app_or in Iq as [Iq|Iq]; apply in_or_app; [now left|right; now right]).
        apply (S4 q v w p [] ps Iq' Iw eq_refl). destruct (S2 q v Iq') as ([E|X] & _); [|exact X].
        subst q. destruct P12. apply in_map_iff. exists (p, v). split; [reflexivity|exact Iq]. }
      assert (SO : sorted_out c ps (g1 ++ g2)).
      { assert (INC : forall q v, In (q, v) (g1 ++ g2) -> In (q, v) (g1 ++ (p, ws) :: g2)).
        { intros q v Iq. apply in_app_or in Iq as [Iq|Iq]; apply in_or_app; [now left|right; now right]. }
        split; [rewrite map_app; apply NoDup_remove_1 in S1; exact S1|]. split; [|split].
        - intros q v Iq. destruct (S2 q v (INC q v Iq)) as ([E|X] & Y); [|split; assumption].
          subst q. destruct P12. apply in_map_iff. exists (p, v). split; [reflexivity|exact Iq].
        - intros q v w Iq. apply S3. apply INC. exact Iq.
        - intros q v w r l1 l2 Iq Iw E. apply (S4 q v w r (p :: l1) l2 (INC q v Iq) Iw). rewrite E. reflexivity. }
      rewrite value_words_app in *. change (value_words ((p, ws) :: g2)) with (ws ++ value_words g2) in *.
      destruct (parse_group c p (value_words g1) ws (value_words g2) cm b PL (M p I) NE) as (b1 & b2 & E).
      { intros w Hw. rewrite <- value_words_app in Hw. apply value_words_in in Hw as (q & v & Iq & Iw). exact (SN q v w Iq Iw). }
      { intros w Hw. apply (S3 p ws w); [apply in_or_app; right; now left|exact Hw]. }
      rewrite E. cbn [bind]. rewrite <- value_words_app.
      destruct (IH (g1 ++ g2) (dset cm p (tailed b2 ws)) b1 SO ND') as (rest & cm' & R & D' & K).
      { intros q Hq. apply M. rewrite map_app in *. cbn [map fst]. apply in_app_or in Hq as [Hq|Hq]; apply in_or_app; [now left|right; now right]. }
      { apply dset_ok. exact D. }
      exists rest, cm'. split; [exact R|]. split; [exact D'|]. intros k. specialize (K k).
      rewrite ggiven_app in *. assert (GP : ggiven ((p, ws) :: g2) k = if text_eqb p k then Some ws else ggiven g2 k).
      { unfold ggiven. cbn [find fst]. destruct (text_eqb p k); reflexivity. }
      rewrite GP. destruct (text_eqb_spec p k) as [<-|Nk].
      * assert (N1 : ggiven g1 p = None) by (apply ggiven_none; intros X; apply P12; rewrite map_app; apply in_or_app; now left).
        assert (N2 : ggiven g2 p = None) by (apply ggiven_none; intros X; apply P12; rewrite map_app; apply in_or_app; now right).
        rewrite N1, N2 in K. rewrite N1. exists b2. rewrite K, dget_dset, text_eqb_refl. reflexivity.
      * destruct (ggiven g1 k); [exact K|]. destruct (ggiven g2 k); [exact K|]. rewrite K, dget_dset.
        destruct (text_eqb_spec p k); [congruence|reflexivity].
    + assert (SO : sorted_out c ps gs).
      { split; [exact S1|]. split; [|split; [exact S3|]].
        - intros q v Iq. destruct (S2 q v Iq) as ([E|X] & Y); [|split; assumption].
          subst q. destruct I. apply in_map_iff. exists (p, v). split; [reflexivity|exact Iq].
        - intros q v w r l1 l2 Iq Iw E. apply (S4 q v w r (p :: l1) l2 Iq Iw). rewrite E. reflexivity. }
      rewrite parse_none; [|exact PL|].
      * cbn [bind]. apply IH; try assumption.
      * right. intros w Hw. apply value_words_in in Hw as (q & v & Iq & Iw). apply (S4 q v w p [] ps Iq Iw eq_refl).
        destruct (S2 q v Iq) as ([E|X] & _); [|exact X]. subst q. destruct I. apply in_map_iff. exists (p, v). split; [reflexivity|exact Iq].
Qed.

(** texts *)
Lemma serialize_tailed b ws : serialize (tailed b ws) = join [32%N] ws ++ (match ws with [] => [] | _ => if b then [32%N] else [] end).
Proof.
  unfold serialize. induction ws as [|w r IH]; [reflexivity|]. cbn [tailed]. destruct r as [|x r].
  - destruct b; cbn; [reflexivity|]. now rewrite !app_nil_r.
  - cbn [map concat ctext]. rewrite IH. cbn [join]. rewrite <- !app_assoc. reflexivity.
Qed.
Lemma plain_clean ws : Forall plain ws -> Forall (fun x => clean x = true) ws.
Proof. intros F. eapply Forall_impl; [|exact F]. intros w [W _]. now apply word_clean. Qed.
Lemma strip_tailed b ws : Forall plain ws -> strip (serialize (tailed b ws)) = join [32%N] ws.
Proof.
  intros F. rewrite serialize_tailed. rewrite strip_right; [apply join_clean_strip; now apply plain_clean|].
  destruct ws; [reflexivity|]. destruct b; reflexivity.
Qed.
Lemma join_cons_ne (w : text) r : r <> [] -> join [32%N] (w :: r) = w ++ 32%N :: join [32%N] r.
Proof. destruct r; [congruence|reflexivity]. Qed.
Lemma join_head ws : Forall plain ws -> ws <> [] -> exists x r, join [32%N] ws = x :: r /\ N.eqb x 32 = false.
Proof.
  intros F NE. destruct F as [|w ws [W _] F]; [congruence|]. apply word_all in W as [A N]. destruct w as [|x w]; [congruence|].
  cbn [forallb] in A. apply Bool.andb_true_iff in A as [Hx _]. destruct (word_char_facts x Hx) as (_ & _ & _ & X & _).
  destruct ws; cbn [join app]; eauto.
Qed.
Lemma collapse_join ws : Forall plain ws -> collapse (join [32%N] ws) = join [32%N] ws.
Proof.
  intros F. induction F as [|w ws [W _] F IH]; [reflexivity|]. apply word_all in W as [A N].
  destruct ws as [|x r].
  - cbn [join]. rewrite <- (app_nil_r w) at 1. rewrite collapse_word by exact A. cbn [collapse]. now rewrite app_nil_r.
  - rewrite join_cons_ne by discriminate. rewrite collapse_word by exact A. f_equal.
    destruct (join_head (x :: r) F) as (y & t & E & Y); [discriminate|]. rewrite E in *.
    change (collapse (32%N :: y :: t)) with (if N.eqb 32 32 && N.eqb y 32 then collapse (y :: t) else 32%N :: collapse (y :: t)).
    rewrite Y. cbn [N.eqb andb]. rewrite IH. reflexivity.
Qed.
Lemma join_lines ws : Forall plain ws -> forallb (fun x => negb (N.eqb x 13) && negb (N.eqb x 10)) (join [32%N] ws) = true.
Proof.
  intros F. induction F as [|w ws [W _] F IH]; [reflexivity|]. apply word_all in W as [A N].
  destruct ws as [|x r]; [cbn [join]; now apply word_lines|]. rewrite join_cons_ne by discriminate. rewrite forallb_app.
  rewrite word_lines by exact A. cbn [forallb]. rewrite IH. reflexivity.
Qed.
Lemma normalize_join ws : Forall plain ws -> normalize_text (join [32%N] ws) = join [32%N] ws.
Proof.
  intros F. unfold normalize_text. rewrite join_clean_strip by (now apply plain_clean). rewrite lines_id by (now apply join_lines). now apply collapse_join.
Qed.
Lemma join_word ws k : Forall plain ws -> word k = true -> join [32%N] ws = k -> ws = [k].
Proof.
  intros F W E. rewrite <- (split_join ws) by (now apply plain_clean). rewrite E.
  rewrite <- (split_join [k]); [reflexivity|]. constructor; [now apply word_clean|constructor].
Qed.
Lemma join_not_wide ws : Forall plain ws -> is_wide (join [32%N] ws) = false.
Proof.
  intros F. destruct (is_wide (join [32%N] ws)) eqn:E; [|reflexivity]. destruct (wide_word _ E) as [W _].
  assert (X := join_word ws _ F W eq_refl). rewrite X in F. inversion F as [|? ? [_ P] _]; subst. congruence.
Qed.
Lemma join_nonempty ws : Forall plain ws -> ws <> [] -> nonempty (join [32%N] ws) = true.
Proof. intros F NE. destruct (join_head ws F NE) as (x & r & E & _). rewrite E. reflexivity. Qed.
