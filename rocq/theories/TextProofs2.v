(** Proofs about preserved white space, lines and chunks. *)
From Verif Require Import PyBase PyText PyStrip PySplit TextModel TextSpec TextProofs.
#[local] Open Scope N_scope.

(** ** Preserved white space *)
Lemma lines_acc_ne t : forall w, lines_acc w t <> [].
Proof.
  induction t as [|c t IH]; intros w; cbn [lines_acc]; [discriminate|]. destruct (c =? 10); [discriminate|]. destruct (c =? 13); [|apply IH].
  destruct t as [|d t]; [discriminate|]. destruct (d =? 10); discriminate.
Qed.
Lemma join_cons x l : l <> [] -> join [10] (x :: l) = x ++ 10 :: join [10] l. Proof. destruct l; [congruence|reflexivity]. Qed.
Lemma lines_exact n : forall t w, (length t <= n)%nat -> join [10] (lines_acc w t) = w ++ map cr_lf (crlf t).
Proof.
  induction n as [|n IH]; intros t w L; [destruct t; [cbn; now rewrite app_nil_r|cbn in L; lia]|].
  destruct t as [|c t]; [cbn; now rewrite app_nil_r|]. cbn [lines_acc]. cbn [length] in L. destruct (N.eqb_spec c 10) as [->|N10].
  - rewrite join_cons by apply lines_acc_ne. rewrite IH by lia. reflexivity.
  - destruct (N.eqb_spec c 13) as [->|N13].
    + cbn [crlf]. rewrite N.eqb_refl. cbn [andb]. destruct t as [|d t].
      * reflexivity.
      * destruct (N.eqb_spec d 10) as [->|Nd].
        -- rewrite join_cons by apply lines_acc_ne. cbn [length] in L. rewrite IH by lia. reflexivity.
        -- rewrite join_cons by apply lines_acc_ne. rewrite IH by lia. reflexivity.
    + rewrite IH by lia. cbn [crlf]. apply N.eqb_neq in N13. rewrite N13. cbn [andb map]. unfold cr_lf at 2. rewrite N13. now rewrite <- app_assoc.
Qed.
Lemma keeping_exact lib ws t : keeping ws -> normalize_text lib ws t None false false = join [10] (lines (c_unescape lib t)).
Proof.
  intros K. unfold normalize_text, processed, segment_breaks. cbn [after].
  assert (A : mem ws [lit "normal"; lit "nowrap"; lit "pre-line"] = false) by (destruct K as [->| ->]; reflexivity).
  assert (B : mem ws [lit "pre"; lit "pre-wrap"] = true) by (destruct K as [->| ->]; reflexivity).
  assert (C : mem ws [lit "pre"; lit "pre-wrap"; lit "pre-line"] = true) by (destruct K as [->| ->]; reflexivity).
  rewrite A, B, C. unfold lines. rewrite (lines_exact (length (c_unescape lib t))) by lia. reflexivity.
Qed.

(** ** Lines of words *)
Lemma collapse_lf a b : collapse (a ++ 10 :: b) = collapse a ++ 10 :: collapse b.
Proof.
  induction a as [|c a IH]; [reflexivity|]. cbn [app collapse]. destruct a as [|d a].
  - cbn [app]. change (10 =? 32) with false. rewrite andb_false_r. destruct (c =? 32); reflexivity.
  - cbn [app] in *. destruct ((c =? 32) && (d =? 32)); rewrite IH; reflexivity.
Qed.
Lemma collapse_join ls : collapse (join [10] ls) = join [10] (map collapse ls).
Proof.
  induction ls as [|x ls IH]; [reflexivity|]. destruct ls as [|y ls]; [reflexivity|]. cbn [map]. rewrite !join_cons by discriminate. rewrite collapse_lf. now rewrite IH.
Qed.
Lemma map_join f ls : f 10 = 10 -> map f (join [10] ls) = join [10] (map (map f) ls).
Proof.
  intros H. induction ls as [|x ls IH]; [reflexivity|]. destruct ls as [|y ls]; [reflexivity|]. cbn [map]. rewrite !join_cons by discriminate. rewrite map_app. cbn [map]. rewrite H. now rewrite IH.
Qed.
Lemma crlf_id t : forallb (fun c => negb (c =? 13)) t = true -> map cr_lf (crlf t) = t.
Proof.
  induction t as [|c t IH]; [reflexivity|]. cbn [forallb crlf]. intros H. apply andb_true_iff in H. destruct H as [A B]. apply negb_true_iff in A. rewrite A. cbn [andb map].
  unfold cr_lf at 1. rewrite A. now rewrite IH.
Qed.
Lemma line_words l : forallb (fun c => negb (10 =? c)) l = true -> forallb (fun c => negb (c =? 13)) l = true ->
  collapse (map tab_space (rdropwhile is_blank (dropwhile is_blank l))) = join [32] (fields is_blank l).
Proof.
  intros A B. set (u := rdropwhile is_blank (dropwhile is_blank l)).
  assert (F : fields is_blank l = fields is_blank (collapse (map tab_space u))).
  { unfold fields. rewrite fields_acc_collapse by reflexivity. rewrite fields_acc_map.
    - fold (fields is_blank u). unfold u. rewrite fields_rdropwhile, fields_dropwhile by auto. reflexivity.
    - intros c. unfold tab_space. destruct (N.eqb_spec c 9) as [->|]; reflexivity.
    - intros c P. unfold tab_space. destruct (N.eqb_spec c 9) as [->|]; [discriminate P|reflexivity]. }
  rewrite F. symmetry. unfold fields.
  assert (S : head_not is_blank u = true) by (apply rdropwhile_head, dropwhile_stop).
  assert (E : head_not is_blank (rev u) = true) by apply rdropwhile_stop.
  rewrite join_fields; [reflexivity| |reflexivity|reflexivity| |apply collapse_no_run|].
  - intros c I P. assert (T := forallb_collapse _ _ (map_tab u)). rewrite forallb_forall in T. specialize (T c I). apply blank_cases in P. destruct P as [->| ->]; [reflexivity|discriminate T].
  - intros _. rewrite collapse_head. destruct u as [|c u']; [reflexivity|]. cbn [map starts_space head_not] in *. unfold tab_space. apply negb_true_iff in S.
    destruct (N.eqb_spec c 9) as [->|]; [discriminate S|]. unfold is_blank in S. now apply orb_false_iff in S.
  - (* the end: reverse the collapse *)
    assert (Z : forall v, head_not is_blank (rev v) = true -> ends_space (collapse (map tab_space v)) = false).
    { clear. induction v as [|c v IH]; [reflexivity|]. intros H. cbn [map collapse]. destruct v as [|d v].
      - cbn [map]. cbn in H. apply negb_true_iff in H. rewrite andb_false_r. unfold ends_space. cbn [collapse rev app starts_space]. unfold tab_space.
        destruct (N.eqb_spec c 9) as [->|]; [discriminate H|]. unfold is_blank in H. now apply orb_false_iff in H.
      - assert (H' : head_not is_blank (rev (d :: v)) = true).
        { cbn [rev] in *. destruct (rev v) as [|x r] eqn:R; [exact H|exact H]. }
        specialize (IH H'). destruct ((tab_space c =? 32) && match map tab_space (d :: v) with d0 :: _ => d0 =? 32 | [] => false end); [exact IH|].
        unfold ends_space in *. cbn [rev]. destruct (collapse (map tab_space (d :: v))) as [|x r] eqn:K.
        + exfalso. assert (K' := without_collapse is_blank (map tab_space (d :: v)) eq_refl). rewrite K in K'. rewrite without_map in K'.
          * cbn [without filter] in K'. symmetry in K'. clear - H' K'. assert (Q : forall w, head_not is_blank (rev w) = true -> without is_blank w = [] -> w = []).
            { intros w. destruct (rev w) as [|y r] eqn:R; [intros _ _; apply (f_equal (@rev N)) in R; now rewrite rev_involutive in R|]. intros G0 G1. exfalso.
              apply (f_equal (@rev N)) in R. rewrite rev_involutive in R. subst w. cbn [rev] in G1. rewrite without_app in G1. apply app_eq_nil in G1. destruct G1 as [_ G1].
              cbn in G0, G1. apply negb_true_iff in G0. rewrite G0 in G1. discriminate G1. }
            specialize (Q (d :: v) H' K'). discriminate Q.
          * intros y P. unfold tab_space. destruct (y =? 9); [reflexivity|exact P].
          * intros y P. unfold tab_space. destruct (N.eqb_spec y 9) as [->|]; [discriminate P|reflexivity].
        + destruct (rev (x :: r)) as [|y s] eqn:V; [apply (f_equal (@rev N)) in V; rewrite rev_involutive in V; discriminate V|]. cbn in *. exact IH. }
    apply Z. exact E.
Qed.
Lemma forallb_lines (g : N -> bool) t : forallb g t = true -> Forall (fun l => forallb g l = true) (split_on 10 t).
Proof.
  intros H. rewrite <- (join_split_on 10 t) in H. revert H. generalize (split_on 10 t). induction l as [|x l IH]; intros H; [constructor|].
  destruct l as [|y l]; [constructor; [exact H|constructor]|]. rewrite join_cons in H by discriminate. rewrite forallb_app in H. apply andb_true_iff in H. destruct H as [A B].
  constructor; [exact A|]. apply IH. cbn [forallb] in B. now apply andb_true_iff in B.
Qed.
Lemma pre_line_exact lib t : forallb (fun c => negb (c =? 13)) (c_unescape lib t) = true ->
  normalize_text lib (lit "pre-line") t None false false = join [10] (map (fun l => join [32] (fields is_blank l)) (split_on 10 (c_unescape lib t))).
Proof.
  intros H. unfold normalize_text, processed. cbn [after]. change (mem (lit "pre-line") [lit "normal"; lit "nowrap"; lit "pre-line"]) with true.
  change (mem (lit "pre-line") [lit "pre"; lit "pre-wrap"]) with false. cbn iota. unfold segment_breaks. change (mem (lit "pre-line") [lit "pre"; lit "pre-wrap"; lit "pre-line"]) with true. cbn iota.
  set (u := c_unescape lib t) in *. assert (F := split_on_free 10 u). assert (G := forallb_lines _ _ H). assert (NE := split_on_nonempty 10 u).
  assert (L : strip_trailing (strip_leading u) = join [10] (map (fun l => rdropwhile is_blank (dropwhile is_blank l)) (split_on 10 u))).
  { unfold strip_trailing, strip_leading. rewrite split_on_join; [now rewrite map_map|destruct (split_on 10 u); [congruence|discriminate]|].
    apply Forall_map. eapply Forall_impl; [|exact F]. intros l Hl. now apply forallb_dropwhile. }
  rewrite L. rewrite crlf_id.
  - rewrite map_join by reflexivity. rewrite collapse_join, !map_map. f_equal. apply map_ext_in. intros l I. rewrite Forall_forall in F, G. now apply line_words; [apply F|apply G].
  - clear L NE F. revert G. generalize (split_on 10 u). induction l as [|x l IH]; intros G; [reflexivity|]. inversion G as [|? ? Gx Gl]; subst.
    assert (X : forallb (fun c => negb (c =? 13)) (rdropwhile is_blank (dropwhile is_blank x)) = true) by now apply forallb_rdropwhile, forallb_dropwhile.
    destruct l as [|y l]; [exact X|]. cbn [map]. rewrite join_cons by discriminate. rewrite forallb_app, X. cbn [forallb]. now apply IH.
Qed.

(** ** Chunks *)
Lemma telem_ind' (P : telem -> Prop) : (forall a b c ws t kids, Forall (fun k => P (fst k)) kids -> P (TE a b c ws t kids)) -> forall e, P e.
Proof.
  intros H. fix F 1. intros [a b c ws t kids]. apply H. induction kids as [|[k tl] r IH]; constructor; [apply F|exact IH].
Qed.
Fixpoint kids_go (lib : charlib) (d : bool) (ws : text) (ks : list (telem * option text)) (s : list text * option text * bool) : result (list text * option text) :=
  match ks with
  | [] => Ok (fst (fst s), snd (fst s))
  | (TE ki ks_ kc _ _ _ as k, tl) :: r =>
      do s <- (if ki && (negb d || ks_) then
                 do (cs, out) <- chunks_of lib d k (snd (fst s)) (snd s);
                 match out with None => Err TypeError | Some [] => Ok s | Some out => Ok (fst (fst s) ++ cs, Some out, false) end
               else Ok s);
      kids_go lib d ws r (if kc then add_chunk lib ws tl s else s)
  end.
Lemma chunks_eq lib d a b c ws t kids prev first : chunks_of lib d (TE a b c ws t kids) prev first =
  if negb a || (d && negb b) then Ok ([], prev) else kids_go lib d ws kids (add_chunk lib ws t ([], prev, first)).
Proof.
  cbn [chunks_of]. destruct (negb a || (d && negb b)); [reflexivity|]. generalize (add_chunk lib ws t ([], prev, first)). induction kids as [|[[ki ks kc w x y] tl] r IH]; intros s; [reflexivity|].
  cbn [kids_go]. destruct (if ki && (negb d || ks) then _ else _) as [s'|]; [|reflexivity]. cbn [bind]. apply IH.
Qed.
Definition tail_text (ws : text) (k : telem) (tl : option text) : list (text * text) :=
  match k with TE _ _ child _ _ _ => match tl with Some t => if child then [(ws, t)] else [] | None => [] end end.
Lemma texts_eq d a b c ws t kids : texts_of d (TE a b c ws t kids) =
  if a && (negb d || b) then match t with Some t => [(ws, t)] | None => [] end ++ flat_map (fun k => texts_of d (fst k) ++ tail_text ws (fst k) (snd k)) kids else [].
Proof.
  cbn [texts_of]. destruct (a && (negb d || b)); [|reflexivity]. f_equal. induction kids as [|[k tl] r IH]; [reflexivity|]. cbn [flat_map fst snd]. rewrite IH. unfold tail_text. now rewrite app_assoc.
Qed.
Definition final (prev : option text) (cs : list text) : option text := fold_left (fun _ t => Some t) cs prev.
Lemma linked_app prev a b : linked prev (a ++ b) <-> linked prev a /\ linked (final prev a) b.
Proof. revert prev. induction a as [|t a IH]; intros prev; cbn [app linked final fold_left]; [tauto|]. rewrite IH. unfold final. tauto. Qed.
Definition start_ok (prev : option text) (first : bool) : Prop := match prev with None => first = true | Some p => first = false /\ p <> [] end.
(* what holds after some chunks [cs] that came from the texts [ts] *)
Definition after_texts (lib : charlib) (prev : option text) (ts : list (text * text)) (s : list text * option text * bool) : Prop :=
  let '(cs, out, first) := s in
  linked prev cs /\ out = final prev cs /\ start_ok out first /\
  visible (concat cs) = visible (concat (map (fun x => c_unescape lib (snd x)) ts)) /\
  (Forall (fun x => collapsing (fst x)) ts -> Forall no_run cs).
Lemma visible_app a b : visible (a ++ b) = visible a ++ visible b. Proof. apply filter_app. Qed.
Lemma add_chunk_ok lib prev ts ws t s : after_texts lib prev ts s ->
  after_texts lib prev (ts ++ match t with Some t => [(ws, t)] | None => [] end) (add_chunk lib ws t s).
Proof.
  destruct t as [t|]; [|now rewrite app_nil_r]. destruct s as [[cs out] first]. cbn [add_chunk after_texts]. intros (L & O & S & V & R).
  assert (X := visible_keeps lib ws t out first false).
  assert (Y : collapsing ws -> no_run (normalize_text lib ws t out first false)) by apply normalize_no_run.
  assert (K : normalize_text lib ws t out first false <> [] -> match out with None => starts_space (normalize_text lib ws t out first false) = false | Some p => ends_space p = negb (starts_space (normalize_text lib ws t out first false)) end).
  { unfold normalize_text. destruct out as [p|]; cbn [start_ok] in S.
    - destruct S as [-> _]. apply after_linked.
    - subst first. intros _. apply dropwhile_32_start. }
  destruct (normalize_text lib ws t out first false) as [|c u] eqn:E.
  - cbn [after_texts]. split; [exact L|]. split; [exact O|]. split; [exact S|]. split.
    + rewrite map_app, concat_app, visible_app. cbn [map concat snd]. rewrite app_nil_r, <- X. cbn. rewrite app_nil_r. exact V.
    + intros F. apply Forall_app in F. now apply R.
  - cbn [after_texts]. split; [apply linked_app; rewrite <- O; split; [exact L|]; split; [discriminate|]; split; [apply K; discriminate|exact I]|].
    split; [unfold final; rewrite fold_left_app; reflexivity|]. split; [cbn; split; [reflexivity|discriminate]|]. split.
    + rewrite map_app, !concat_app, !visible_app. cbn [map concat snd]. rewrite !app_nil_r. rewrite X, V. reflexivity.
    + intros F. apply Forall_app in F. destruct F as [F1 F2]. apply Forall_app. split; [now apply R|]. constructor; [|constructor]. apply Y. now inversion F2.
Qed.
Lemma after_texts_trans lib prev ts ts' cs out first cs' out' : after_texts lib prev ts (cs, out, first) -> after_texts lib out ts' (cs', out', match out' with None => true | Some _ => false end) ->
  after_texts lib prev (ts ++ ts') (cs ++ cs', out', match out' with None => true | Some _ => false end).
Proof.
  intros (L & O & S & V & R) (L' & O' & S' & V' & R'). cbn [after_texts]. subst out. split; [now apply linked_app|].
  split; [rewrite O'; unfold final; now rewrite fold_left_app|]. split; [exact S'|]. split.
  - rewrite map_app, !concat_app, !visible_app. now rewrite V, V'.
  - intros F. apply Forall_app in F. apply Forall_app. split; [now apply R|now apply R'].
Qed.
Lemma start_first prev first : start_ok prev first -> first = match prev with None => true | Some _ => false end.
Proof. destruct prev; cbn; tauto. Qed.
Lemma chunks_ok lib d e : forall prev first cs out, start_ok prev first -> chunks_of lib d e prev first = Ok (cs, out) ->
  after_texts lib prev (texts_of d e) (cs, out, match out with None => true | Some _ => false end).
Proof.
  induction e as [a b c ws t kids IH] using telem_ind'. intros prev first cs out S. rewrite chunks_eq, texts_eq.
  destruct (negb a || (d && negb b)) eqn:E.
  - assert (Z : a && (negb d || b) = false) by (destruct a, b, d; cbn in *; congruence). rewrite Z. intros [= <- <-]. cbn. repeat split; try reflexivity; [|constructor].
    destruct prev; cbn in S |- *; tauto.
  - assert (Z : a && (negb d || b) = true) by (destruct a, b, d; cbn in *; congruence). rewrite Z. clear Z E.
    assert (B : after_texts lib prev (match t with Some t => [(ws, t)] | None => [] end) (add_chunk lib ws t ([], prev, first))).
    { apply (add_chunk_ok lib prev []). cbn. repeat split; try reflexivity; [exact S|constructor]. }
    revert B. generalize (match t with Some t => [(ws, t)] | None => [] end) as ts. generalize (add_chunk lib ws t ([], prev, first)). clear S.
    induction IH as [|[k tl] r Hk Hr IHr]; intros s ts B G.
    + cbn [kids_go] in G. destruct s as [[cs0 out0] f0]. injection G as <- <-. cbn [flat_map]. rewrite app_nil_r. destruct B as (L & O & S & V & R). rewrite <- (start_first _ _ S). cbn. tauto.
    + cbn [kids_go] in G. cbn [flat_map fst snd] in *. destruct k as [ki ks kc w x y].
      set (k := TE ki ks kc w x y) in *.
      assert (N : exists s', after_texts lib prev (ts ++ texts_of d k) s' /\ kids_go lib d ws r (if kc then add_chunk lib ws tl s' else s') = Ok (cs, out)).
      { destruct s as [[cs0 out0] f0]. cbn [fst snd] in G. destruct (ki && (negb d || ks)) eqn:K.
        - destruct (chunks_of lib d k out0 f0) as [[cs1 out1]|] eqn:C; [|discriminate G]. cbn [bind] in G. assert (S0 := proj1 (proj2 (proj2 B))). cbn in S0.
          specialize (Hk out0 f0 cs1 out1 S0 C). destruct out1 as [[|z zs]|]; [exfalso; destruct Hk as (_ & _ & F & _); cbn in F; tauto| |discriminate G].
          cbn [bind] in G. eexists. split; [|exact G]. exact (after_texts_trans lib prev ts _ cs0 out0 f0 cs1 (Some (z :: zs)) B Hk).
        - cbn [bind] in G. eexists. split; [|exact G]. assert (X : texts_of d k = []) by (unfold k; rewrite texts_eq, K; reflexivity). rewrite X, app_nil_r. exact B. }
      destruct N as (s' & B' & G'). rewrite app_assoc. rewrite (app_assoc ts). rewrite <- (app_assoc (ts ++ texts_of d k)).
      rewrite app_assoc. apply (IHr (if kc then add_chunk lib ws tl s' else s')); [|exact G'].
      unfold tail_text, k. destruct kc.
      * apply (add_chunk_ok lib prev (ts ++ texts_of d (TE ki ks true w x y)) ws tl s' B').
      * destruct tl; rewrite app_nil_r; exact B'.
Qed.
Lemma linked_no_run l : forall prev, linked prev l -> Forall no_run l -> no_run (concat l).
Proof.
  induction l as [|t l IH]; intros prev L F; [exact I|]. cbn [linked concat] in *. destruct L as (NE & S & L). inversion F as [|? ? Ft Fl]; subst.
  apply no_run_app. split; [exact Ft|]. split; [now apply (IH (Some t))|]. intros [A B]. destruct l as [|u l]; [discriminate B|]. cbn [linked] in L. destruct L as (NU & LU & _).
  destruct u as [|x u]; [congruence|]. change (starts_space (concat ((x :: u) :: l))) with (starts_space (x :: u)) in B. rewrite A, B in LU. discriminate LU.
Qed.
(* no error once there is some text *)
Lemma chunks_total lib d e : forall p : text, p <> [] -> exists cs (q : text), q <> [] /\ chunks_of lib d e (Some p) false = Ok (cs, Some q).
Proof.
  assert (A : forall ws t cs (p : text), p <> [] -> exists cs' (q : text), q <> [] /\ add_chunk lib ws t (cs, Some p, false) = (cs', Some q, false)).
  { intros ws t cs p NE. destruct t as [t|]; [|exists cs, p; auto]. cbn [add_chunk]. destruct (normalize_text lib ws t (Some p) false false) as [|c u]; [exists cs, p; auto|].
    eexists _, (c :: u). split; [discriminate|reflexivity]. }
  induction e as [a b c ws t kids IH] using telem_ind'. intros p NE. rewrite chunks_eq. destruct (negb a || (d && negb b)); [exists [], p; auto|].
  destruct (A ws t [] p NE) as (cs0 & q0 & N0 & ->). revert cs0 q0 N0. induction IH as [|[k tl] r Hk Hr IHr]; intros cs0 q0 N0; cbn [kids_go].
  - exists cs0, q0. auto.
  - cbn [fst snd] in *. destruct k as [ki ks kc w x y]. destruct (ki && (negb d || ks)).
    + destruct (Hk q0 N0) as (cs1 & q1 & N1 & ->). cbn [bind]. destruct q1 as [|z zs]; [congruence|]. cbn [bind]. destruct kc; [|now apply IHr]. destruct (A ws tl (cs0 ++ cs1) (z :: zs) N1) as (cs2 & q2 & N2 & E2).
      cbn [bind]. rewrite E2. now apply IHr.
    + cbn [bind]. destruct kc; [|now apply IHr]. destruct (A ws tl cs0 q0 N0) as (cs2 & q2 & N2 & ->). now apply IHr.
Qed.
