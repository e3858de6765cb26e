From Verif Require Import PyBase PyText PyCase PyDict PySplit PyStrip UrlModel UrlSpec UrlProofs.
#[local] Open Scope N_scope.

(** ** Quoting *)
Lemma is_in_iff c t : is_in c t = true <-> In c t.
Proof. unfold is_in. rewrite existsb_exists. split; [intros (x & I & E); apply N.eqb_eq in E; now subst|]. intros I. exists c. now rewrite N.eqb_refl. Qed.
Lemma is_in_not c t : is_in c t = false <-> ~ In c t.
Proof. rewrite <- is_in_iff. destruct (is_in c t); split; congruence. Qed.
Definition qchar (safe : text) (c : N) : bool := safe_char safe c || (c =? 37).
Lemma hexdigit_alnum d : is_alnum (hexdigit d) = true.
Proof.
  unfold is_alnum, hexdigit. destruct (d <? 10) eqn:E; [apply N.ltb_lt in E; rewrite is_digit_48 by exact E; now rewrite orb_true_r|].
  destruct (d <? 16) eqn:F; [|reflexivity]. apply N.ltb_lt in F. apply N.ltb_ge in E. replace (is_up (55 + d)) with true; [reflexivity|]. symmetry. apply is_up_iff. lia.
Qed.
Lemma qchar_alnum safe c : is_alnum c = true -> qchar safe c = true.
Proof. intros H. unfold qchar, safe_char. now rewrite H. Qed.
Lemma percent_qchar safe b : forallb (qchar safe) (percent b) = true.
Proof. unfold percent. cbn [forallb]. rewrite (qchar_alnum safe (hexdigit _) (hexdigit_alnum _)), (qchar_alnum safe (hexdigit (b mod 16)) (hexdigit_alnum _)). unfold qchar. now rewrite N.eqb_refl, orb_true_r. Qed.
Lemma forallb_flat {A} (f : N -> bool) (g : A -> text) l : (forall x, forallb f (g x) = true) -> forallb f (flat_map g l) = true.
Proof. intros H. induction l as [|x l IH]; [reflexivity|]. cbn. now rewrite forallb_app, H. Qed.
Lemma quote_char_qchar safe c : forallb (qchar safe) (quote_char safe c) = true.
Proof.
  unfold quote_char. destruct (safe_char safe c) eqn:E; [cbn; unfold qchar; now rewrite E|]. apply forallb_flat. intros x. apply percent_qchar.
Qed.
Lemma quote_qchar safe t : forallb (qchar safe) (quote safe t) = true.
Proof. apply forallb_flat. intros c. apply quote_char_qchar. Qed.
Lemma utf8_nonempty c : utf8 c <> [].
Proof. unfold utf8. destruct (c <? 128), (c <? 2048), (c <? 65536); discriminate. Qed.
Lemma quote_char_cases safe c : (safe_char safe c = true /\ quote_char safe c = [c]) \/ (safe_char safe c = false /\ exists a b r, quote_char safe c = 37 :: a :: b :: r).
Proof.
  unfold quote_char. destruct (safe_char safe c); [left; now split|]. right. split; [reflexivity|]. pose proof (utf8_nonempty c) as U. destruct (utf8 c) as [|b r]; [contradiction|].
  cbn. eexists _, _, _. reflexivity.
Qed.
Lemma quote_app safe a b : quote safe (a ++ b) = quote safe a ++ quote safe b.
Proof. apply flat_map_app. Qed.
Lemma quote_cons safe c t : quote safe (c :: t) = quote_char safe c ++ quote safe t.
Proof. reflexivity. Qed.
Lemma quote_safe_char safe c : safe_char safe c = true -> quote_char safe c = [c].
Proof. intros H. unfold quote_char. now rewrite H. Qed.
Lemma quote_nil safe t : quote safe t = [] <-> t = [].
Proof. split; [|now intros ->]. destruct t as [|c t]; [reflexivity|]. rewrite quote_cons. destruct (quote_char_cases safe c) as [[_ ->]|(_ & a & b & r & ->)]; discriminate. Qed.
(* a text of safe characters other than '%' comes from itself only *)
Lemma quote_head safe c x t r : ~ In 37 safe -> safe_char safe c = true -> quote safe (x :: t) = c :: r -> x = c /\ quote safe t = r.
Proof.
  intros P S. rewrite quote_cons. destruct (quote_char_cases safe x) as [[_ ->]|(_ & a & b & r' & ->)]; cbn; [intros [= -> ->]; now split|].
  intros [= <- _]. unfold safe_char in S. apply is_in_not in P. now rewrite P in S.
Qed.
Lemma dot_safe safe : safe_char safe 46 = true.
Proof. reflexivity. Qed.
Lemma quote_dot safe t : ~ In 37 safe -> (quote safe t = lit "." <-> t = lit ".").
Proof.
  intros P. split; [|now intros ->]. destruct t as [|x t]; [discriminate|]. intros H. apply quote_head in H as [-> H]; [|exact P|apply dot_safe].
  apply quote_nil in H. now subst.
Qed.
Lemma quote_dotdot safe t : ~ In 37 safe -> (quote safe t = lit ".." <-> t = lit "..").
Proof.
  intros P. split; [|now intros ->]. destruct t as [|x t]; [discriminate|]. intros H. apply quote_head in H as [-> H]; [|exact P|apply dot_safe].
  apply quote_dot in H; [|exact P]. now subst.
Qed.

(** ** normpath *)
Lemma split_on_cons_sep c t : split_on c (c :: t) = [] :: split_on c t.
Proof. unfold split_on. cbn. now rewrite N.eqb_refl. Qed.
Lemma split_on_cons c x t : c <> x -> exists y l, split_on c t = y :: l /\ split_on c (x :: t) = (x :: y) :: l.
Proof.
  intros N. unfold split_on. cbn. destruct (N.eqb_spec c x) as [|_]; [contradiction|]. cbn.
  assert (G : forall t w, exists y l, split_on_acc (N.eqb c) [] t = y :: l /\ split_on_acc (N.eqb c) w t = (w ++ y) :: l).
  { clear. induction t as [|z t IH]; intros w; cbn; [exists [], []; now rewrite app_nil_r|]. destruct (c =? z); [eexists [], _; rewrite app_nil_r; now split|].
    destruct (IH [z]) as (y & l & A & B). destruct (IH (w ++ [z])) as (y' & l' & A' & B'). rewrite A' in A. injection A as -> ->. exists (z :: y), l. split; [exact B|]. now rewrite B', <- app_assoc. }
  exact (G t [x]).
Qed.
Definition comp_ok (s : text) : Prop := ~ In 47 s.
Lemma split_comp t : Forall comp_ok (split_on 47 t).
Proof.
  pose proof (split_on_free 47 t) as F. apply Forall_forall. intros s I. rewrite Forall_forall in F. specialize (F s I). rewrite forallb_forall in F.
  intros J. specialize (F 47 J). discriminate.
Qed.
Lemma comp_free l : Forall comp_ok l -> Forall (fun w => forallb (fun x => negb (47 =? x)) w = true) l.
Proof. intros H. eapply Forall_impl; [|exact H]. intros s J. apply forallb_forall. intros x I. apply negb_true_iff, N.eqb_neq. intros <-. now apply J. Qed.
Definition nf (slash : bool) (l : list text) : Prop := exists k s, l = repeat (lit "..") k ++ s /\ Forall plain_segment s /\ (slash = true -> k = 0%nat).
Lemma plain_not_dots s : plain_segment s -> text_eqb s [] = false /\ text_eqb s (lit ".") = false /\ text_eqb s (lit "..") = false.
Proof. intros (A & B & C & _). destruct (text_eqb_spec s []), (text_eqb_spec s (lit ".")), (text_eqb_spec s (lit "..")); try contradiction. tauto. Qed.
Lemma snoc_inv {A} (l : list A) : l = [] \/ exists a x, l = a ++ [x].
Proof. destruct l as [|x l] using rev_ind; [now left|]. right. eauto. Qed.
Lemma repeat_snoc {A} (x : A) k : repeat x k ++ [x] = x :: repeat x k.
Proof. induction k as [|k IH]; [reflexivity|]. cbn. now rewrite IH. Qed.
Lemma rev_repeat {A} (x : A) k : rev (repeat x k) = repeat x k.
Proof. induction k as [|k IH]; [reflexivity|]. cbn. now rewrite IH, repeat_snoc. Qed.
Lemma norm_nf slash l : forall acc, nf slash (rev acc) -> Forall comp_ok l -> nf slash (norm_comps slash l acc).
Proof.
  induction l as [|x l IH]; intros acc A L; [exact A|]. inversion_clear L as [|? ? X L']. cbn [norm_comps].
  destruct (text_eqb_spec x []) as [|X1]; [now apply IH|]. destruct (text_eqb_spec x (lit ".")) as [|X2]; [now apply IH|]. cbn [orb].
  destruct A as (k & s & E & S & K). destruct (text_eqb_spec x (lit "..")) as [->|X3].
  - cbn [negb orb]. destruct (snoc_inv s) as [->|(s' & y & ->)].
    + rewrite app_nil_r in E. destruct k as [|k].
      * apply (f_equal (@rev _)) in E. rewrite rev_involutive in E. cbn in E. subst acc. rewrite orb_false_r. destruct slash; cbn [negb andb].
        -- apply IH; [|exact L']. exists 0%nat, []. now repeat split.
        -- apply IH; [|exact L']. exists 1%nat, []. repeat split; [constructor|discriminate].
      * destruct slash; [specialize (K eq_refl); discriminate|].
        assert (A : acc = lit ".." :: repeat (lit "..") k).
        { apply (f_equal (@rev _)) in E. rewrite rev_involutive, rev_repeat in E. exact E. }
        rewrite A. cbn [negb andb orb]. rewrite text_eqb_refl. apply IH; [|exact L']. exists (Datatypes.S (Datatypes.S k)), []. split; [|split; [constructor|discriminate]].
        rewrite app_nil_r. exact (rev_repeat (lit "..") (Datatypes.S (Datatypes.S k))).
    + assert (A : acc = y :: rev (repeat (lit "..") k ++ s')).
      { apply (f_equal (@rev _)) in E. rewrite rev_involutive in E. rewrite E, app_assoc, rev_app_distr. reflexivity. }
      apply Forall_app in S as [S' Y]. inversion_clear Y as [|? ? Y' _]. destruct (plain_not_dots y Y') as (_ & _ & D).
      rewrite A. cbv beta iota. rewrite andb_false_r, D. cbn [orb tl]. apply IH; [|exact L']. exists k, s'. rewrite rev_involutive. now repeat split.
  - cbn [negb orb]. apply IH; [|exact L']. exists k, (s ++ [x]). cbn [rev]. rewrite E, app_assoc. repeat split; [|exact K]. apply Forall_app. split; [exact S|]. constructor; [|constructor]. now repeat split.
Qed.
Lemma norm_plain slash l : forall acc, Forall plain_segment l -> norm_comps slash l acc = rev acc ++ l.
Proof.
  induction l as [|x l IH]; intros acc L; [cbn; now rewrite app_nil_r|]. inversion_clear L as [|? ? X L']. cbn [norm_comps]. destruct (plain_not_dots x X) as (-> & -> & ->). cbn [negb orb].
  rewrite IH by exact L'. cbn. now rewrite <- app_assoc.
Qed.
Lemma norm_id slash l : nf slash l -> norm_comps slash l [] = l.
Proof.
  intros (k & s & -> & S & K). destruct slash; [rewrite (K eq_refl); cbn; now apply norm_plain|].
  assert (G : forall k acc, (acc = [] \/ exists r, acc = lit ".." :: r) -> norm_comps false (repeat (lit "..") k ++ s) acc = rev acc ++ repeat (lit "..") k ++ s).
  { clear k K. induction k as [|k IH]; intros acc A; [now apply norm_plain|]. cbn [repeat app norm_comps].
    replace (text_eqb (lit "..") [] || text_eqb (lit "..") (lit ".")) with false by reflexivity. rewrite text_eqb_refl. cbn [negb orb andb].
    replace ((match acc with [] => true | _ => false end) || match acc with [] => false | y :: _ => text_eqb y (lit "..") end) with true by (destruct A as [->|(r & ->)]; reflexivity).
    rewrite IH by (right; eauto). cbn [rev]. now rewrite <- app_assoc. }
  rewrite G by now left. reflexivity.
Qed.
Lemma norm_trail slash l : forall acc, norm_comps slash (l ++ [[]]) acc = norm_comps slash l acc.
Proof. induction l as [|x l IH]; intros acc; [reflexivity|]. cbn [app norm_comps]. destruct (_ || _); [apply IH|]. destruct (_ || _); apply IH. Qed.
Lemma split_on_trail c t : split_on c (t ++ [c]) = split_on c t ++ [[]].
Proof.
  unfold split_on. assert (G : forall t w, split_on_acc (N.eqb c) w (t ++ [c]) = split_on_acc (N.eqb c) w t ++ [[]]); [|apply G].
  clear t. induction t as [|x t IH]; intros w; cbn; [now rewrite N.eqb_refl|]. destruct (c =? x); [cbn; now rewrite IH|apply IH].
Qed.
(* the slashes in front *)
Definition lead (p : text) : text := match p with 47 :: 47 :: 47 :: _ => [47] | 47 :: 47 :: _ => [47; 47] | 47 :: _ => [47] | _ => [] end.
Definition comps (p : text) : list text := norm_comps (nonempty (lead p)) (split_on 47 p) [].
Lemma normpath_eq p : normpath p = match lead p ++ join [47] (comps p) with [] => lit "." | q => q end.
Proof. reflexivity. Qed.
Lemma lead_other c t : c <> 47 -> lead (c :: t) = [].
Proof. intros H. unfold lead. destruct c as [|q]; [reflexivity|]. do 6 (destruct q as [q|q|]; try reflexivity). contradiction. Qed.
Lemma lead1 c t : c <> 47 -> lead (47 :: c :: t) = [47].
Proof. intros H. unfold lead. destruct c as [|q]; [reflexivity|]. do 6 (destruct q as [q|q|]; try reflexivity). contradiction. Qed.
Lemma lead2 c t : c <> 47 -> lead (47 :: 47 :: c :: t) = [47; 47].
Proof. intros H. unfold lead. destruct c as [|q]; [reflexivity|]. do 6 (destruct q as [q|q|]; try reflexivity). contradiction. Qed.
Lemma lead_cases p : (lead p = [] /\ starts_slash p = false) \/ (starts_slash p = true /\ (lead p = [47] \/ lead p = [47; 47])).
Proof.
  destruct p as [|a p]; [now left|]. destruct (N.eq_dec a 47) as [->|A]; [|left; rewrite lead_other by exact A; split; [reflexivity|]; unfold starts_slash; destruct a as [|q]; [reflexivity|]; do 6 (destruct q as [q|q|]; try reflexivity); contradiction].
  right. split; [reflexivity|]. destruct p as [|b p]; [now left|]. destruct (N.eq_dec b 47) as [->|B]; [|rewrite lead1 by exact B; now left].
  destruct p as [|c p]; [now right|]. destruct (N.eq_dec c 47) as [->|C]; [now left|rewrite lead2 by exact C; now right].
Qed.
Lemma starts_slash_iff p : starts_slash p = true <-> exists r, p = 47 :: r.
Proof.
  destruct p as [|a p]; [split; [discriminate|intros (r & H); discriminate]|]. destruct (N.eq_dec a 47) as [->|A]; [split; eauto|].
  split; [|intros (r & [= -> _]); contradiction]. unfold starts_slash. destruct a as [|q]; [discriminate|]. do 6 (destruct q as [q|q|]; try discriminate). contradiction.
Qed.
Lemma comps_nf p : nf (nonempty (lead p)) (comps p).
Proof. apply norm_nf; [exists 0%nat, []; now repeat split|apply split_comp]. Qed.
Lemma nf_comp slash (l : list text) : nf slash l -> Forall (fun s : text => s <> [] /\ comp_ok s) l.
Proof.
  intros (k & s & -> & S & _). apply Forall_app. split.
  - apply Forall_forall. intros x I. apply repeat_spec in I as ->. split; [discriminate|]. intros [E|[E|[]]]; discriminate.
  - eapply Forall_impl; [|exact S]. intros x (A & _ & _ & B). now split.
Qed.
Lemma join_cons_head (sep s : text) (l : list text) : exists r, join sep (s :: l) = s ++ r.
Proof. destruct l as [|y l]; [exists []; cbn; now rewrite app_nil_r|eexists; reflexivity]. Qed.
Lemma join_head (l : list text) c r : Forall (fun s : text => s <> [] /\ comp_ok s) l -> join [47] l = c :: r -> c <> 47.
Proof.
  intros F E. destruct l as [|s l]; [discriminate|]. inversion_clear F as [|? ? [A B] _]. destruct (join_cons_head [47] s l) as (r' & R). rewrite R in E. destruct s as [|x s]; [contradiction|]. injection E as -> _.
  intros ->. apply B. now left.
Qed.
Lemma norm_split_lead slash a p : (a = [] \/ a = [47] \/ a = [47; 47]) -> norm_comps slash (split_on 47 (a ++ p)) [] = norm_comps slash (split_on 47 p) [].
Proof. intros [->|[->| ->]]; cbn [app]; rewrite ?split_on_cons_sep; reflexivity. Qed.
Lemma norm_split_join slash l : nf slash l -> norm_comps slash (split_on 47 (join [47] l)) [] = l.
Proof.
  intros F. destruct l as [|s l]; [reflexivity|]. rewrite split_on_join; [now apply norm_id|discriminate|]. apply comp_free. eapply Forall_impl; [|apply (nf_comp slash), F]. now intros x [].
Qed.
Lemma lead_join a l slash : (a = [] \/ a = [47] \/ a = [47; 47]) -> nf slash l -> lead (a ++ join [47] l) = a.
Proof.
  intros A F. destruct (join [47] l) as [|c r] eqn:E; [destruct A as [->|[->| ->]]; reflexivity|]. pose proof (join_head l c r (nf_comp slash l F) E) as C.
  destruct A as [->|[->| ->]]; cbn [app]; [now apply lead_other|now apply lead1|now apply lead2].
Qed.
Lemma normpath_nf a l : (a = [] \/ a = [47] \/ a = [47; 47]) -> nf (nonempty a) l -> normpath (a ++ join [47] l) = match a ++ join [47] l with [] => lit "." | q => q end.
Proof.
  intros A F. rewrite normpath_eq. unfold comps. rewrite (lead_join a l (nonempty a) A F), norm_split_lead, norm_split_join by assumption. reflexivity.
Qed.
Lemma lead_any p : lead p = [] \/ lead p = [47] \/ lead p = [47; 47].
Proof. destruct (lead_cases p) as [[-> _]|(_ & [->| ->])]; tauto. Qed.
Lemma normpath_idem p : normpath (normpath p) = normpath p.
Proof.
  rewrite (normpath_eq p). destruct (lead p ++ join [47] (comps p)) as [|c r] eqn:E; [reflexivity|]. rewrite <- E.
  rewrite (normpath_nf (lead p) (comps p) (lead_any p) (comps_nf p)). now rewrite E.
Qed.
Lemma normpath_nonempty p : normpath p <> [].
Proof. rewrite normpath_eq. now destruct (_ ++ _). Qed.
Lemma ends_slash_iff p : ends_slash p = true <-> exists r, p = r ++ [47].
Proof.
  unfold ends_slash. rewrite starts_slash_iff. split; intros (r & E).
  - exists (rev r). apply (f_equal (@rev _)) in E. now rewrite rev_involutive in E.
  - exists (rev r). now rewrite E, rev_app_distr.
Qed.
Lemma ends_slash_false p : ends_slash p = false <-> ~ exists r, p = r ++ [47].
Proof. rewrite <- ends_slash_iff. destruct (ends_slash p); split; congruence. Qed.
Lemma lead_snoc q : q <> [] -> ends_slash q = false -> lead (q ++ [47]) = lead q.
Proof.
  intros N E. destruct q as [|a q]; [contradiction|]. destruct (N.eq_dec a 47) as [->|A]; [|cbn [app]; now rewrite !lead_other].
  destruct q as [|b q]; [discriminate|]. destruct (N.eq_dec b 47) as [->|B]; [|cbn [app]; now rewrite !lead1].
  destruct q as [|c q]; [discriminate|]. destruct (N.eq_dec c 47) as [->|C]; [reflexivity|cbn [app]; now rewrite !lead2].
Qed.
Lemma normpath_snoc q : q <> [] -> ends_slash q = false -> normpath (q ++ [47]) = normpath q.
Proof. intros N E. rewrite !normpath_eq. unfold comps. rewrite lead_snoc, split_on_trail, norm_trail by assumption. reflexivity. Qed.
(* the same with the slash at the end kept *)
Definition clean_raw (x : text) : text := let q := normpath x in if ((2 <=? length x)%nat && ends_slash x) && negb (ends_slash q) then q ++ [47] else q.
Lemma clean_raw_idem x : clean_raw (clean_raw x) = clean_raw x.
Proof.
  unfold clean_raw at 2 3. cbv zeta. pose proof (normpath_nonempty x) as N. destruct (((2 <=? length x)%nat && ends_slash x) && negb (ends_slash (normpath x))) eqn:E.
  - apply andb_true_iff in E as [_ E]. apply negb_true_iff in E. unfold clean_raw. cbv zeta. rewrite normpath_snoc, normpath_idem by assumption. rewrite E.
    replace (2 <=? length (normpath x ++ [47%N]))%nat with true; [|symmetry; apply Nat.leb_le; rewrite app_length; cbn; destruct (normpath x); [contradiction|cbn; lia]].
    replace (ends_slash (normpath x ++ [47])) with true by (symmetry; apply ends_slash_iff; eauto). reflexivity.
  - unfold clean_raw. cbv zeta. rewrite normpath_idem. destruct (ends_slash (normpath x)); now rewrite ?andb_false_r.
Qed.
(* absolute paths come out normal *)
Lemma normpath_normal x : starts_slash x = true -> exists segs, normpath x = lead x ++ join [47] segs /\ Forall plain_segment segs /\ (lead x = [47] \/ lead x = [47; 47]).
Proof.
  intros H. destruct (lead_cases x) as [[_ E]|[_ L]]; [congruence|]. exists (comps x). pose proof (comps_nf x) as (k & s & E & S & K).
  replace (nonempty (lead x)) with true in K by (destruct L as [-> | ->]; reflexivity). rewrite (K eq_refl) in E. cbn in E. rewrite E. split; [|now split].
  rewrite normpath_eq, E. destruct L as [-> | ->]; reflexivity.
Qed.
Lemma clean_raw_normal x : starts_slash x = true -> normal_path (clean_raw x).
Proof.
  intros H. destruct (normpath_normal x H) as (segs & E & S & L). unfold clean_raw. cbv zeta. destruct (_ && _).
  - exists (lead x), segs, [47]. rewrite E, <- app_assoc. repeat split; auto.
  - exists (lead x), segs, []. rewrite E, app_nil_r. repeat split; auto.
Qed.
Lemma normal_starts p : normal_path p -> starts_slash p = true.
Proof. intros (l & s & t & -> & [->| ->] & _); reflexivity. Qed.

(** ** Quoting and normpath *)
Definition path_safe : text := lit "&/:;=@[]_~".
Lemma path_safe_percent : ~ In 37 path_safe.
Proof. apply is_in_not. reflexivity. Qed.
Notation Q := (quote path_safe).
Lemma Q_slash t : Q (47 :: t) = 47 :: Q t.
Proof. reflexivity. Qed.
Lemma Q_free s : comp_ok s -> comp_ok (Q s).
Proof.
  intros F I. apply in_flat_map in I as (c & C & I). unfold quote_char in I. destruct (safe_char path_safe c).
  - destruct I as [->|[]]. now apply F.
  - apply in_flat_map in I as (b & _ & I). assert (A : forall d, hexdigit d <> 47) by (intros d E; pose proof (hexdigit_alnum d) as H; rewrite E in H; discriminate).
    destruct I as [|[I|[I|[]]]]; [discriminate|now apply A in I|now apply A in I].
Qed.
Lemma Q_join l : Q (join [47] l) = join [47] (map Q l).
Proof. induction l as [|s l IH]; [reflexivity|]. destruct l as [|y l]; [reflexivity|]. cbn [map] in *. change (join [47] (s :: y :: l)) with (s ++ [47] ++ join [47] (y :: l)). rewrite !quote_app, IH. reflexivity. Qed.
Lemma Q_split t : split_on 47 (Q t) = map Q (split_on 47 t).
Proof.
  rewrite <- (join_split_on 47 t) at 1. rewrite Q_join. apply split_on_join.
  - pose proof (split_on_nonempty 47 t) as N. destruct (split_on 47 t); [contradiction|discriminate].
  - apply comp_free, Forall_map. eapply Forall_impl; [|apply split_comp]. intros s. apply Q_free.
Qed.
Lemma Q_eqb s k : (Q s = k <-> s = k) -> text_eqb (Q s) k = text_eqb s k.
Proof. intros H. destruct (text_eqb_spec (Q s) k), (text_eqb_spec s k); tauto. Qed.
Lemma Q_comps slash l : forall acc, norm_comps slash (map Q l) (map Q acc) = map Q (norm_comps slash l acc).
Proof.
  pose proof path_safe_percent as P. induction l as [|x l IH]; intros acc; cbn [map norm_comps]; [now rewrite map_rev|].
  rewrite (Q_eqb x [] (quote_nil _ x)), (Q_eqb x (lit ".") (quote_dot _ x P)), (Q_eqb x (lit "..") (quote_dotdot _ x P)).
  replace (match map Q acc with [] => true | _ => false end) with (match acc with [] => true | _ => false end) by now destruct acc.
  replace (match map Q acc with [] => false | y :: _ => text_eqb y (lit "..") end) with (match acc with [] => false | y :: _ => text_eqb y (lit "..") end)
    by (destruct acc as [|y acc]; [reflexivity|]; cbn [map]; symmetry; apply Q_eqb, quote_dotdot, P).
  destruct (_ || _); [apply IH|]. destruct (_ || _); [exact (IH (x :: acc))|]. rewrite <- IH. now destruct acc.
Qed.
Lemma Q_head c t : c <> 47 -> exists d r, Q (c :: t) = d :: r /\ d <> 47.
Proof.
  intros C. rewrite quote_cons. destruct (quote_char_cases path_safe c) as [[_ ->]|(_ & a & b & r & ->)]; [now exists c, (Q t)|]. eexists 37, _. split; [reflexivity|discriminate].
Qed.
Lemma Q_lead t : lead (Q t) = lead t.
Proof.
  destruct t as [|a t]; [reflexivity|]. destruct (N.eq_dec a 47) as [->|A]; [|destruct (Q_head a t A) as (d & r & -> & D); now rewrite !lead_other].
  rewrite Q_slash. destruct t as [|b t]; [reflexivity|]. destruct (N.eq_dec b 47) as [->|B]; [|destruct (Q_head b t B) as (d & r & -> & D); now rewrite !lead1].
  rewrite Q_slash. destruct t as [|c t]; [reflexivity|]. destruct (N.eq_dec c 47) as [->|C]; [reflexivity|destruct (Q_head c t C) as (d & r & -> & D); now rewrite !lead2].
Qed.
Lemma Q_lead_id t : Q (lead t) = lead t.
Proof. destruct (lead_any t) as [->|[->| ->]]; reflexivity. Qed.
Lemma Q_normpath t : normpath (Q t) = Q (normpath t).
Proof.
  rewrite !normpath_eq. unfold comps. rewrite Q_lead, Q_split. change (@nil text) with (map Q []) at 1. rewrite Q_comps, <- Q_join, <- (Q_lead_id t) at 1. rewrite <- quote_app.
  fold (comps t). destruct (lead t ++ join [47] (comps t)) as [|c r] eqn:E; [reflexivity|].
  rewrite quote_cons. destruct (quote_char_cases path_safe c) as [[_ ->]|(_ & x & y & z & ->)]; reflexivity.
Qed.
Lemma Q_last_head a : a <> 47 -> ends_slash (quote_char path_safe a) = false.
Proof.
  intros A. apply ends_slash_false. intros (r & E). assert (I : In 47 (Q [a])) by (rewrite quote_cons, E; apply in_or_app; left; apply in_or_app; right; now left).
  revert I. apply Q_free. intros [->|[]]. contradiction.
Qed.
Lemma Q_ends t : ends_slash (Q t) = ends_slash t.
Proof.
  destruct (snoc_inv t) as [->|(r & a & ->)]; [reflexivity|]. rewrite quote_app. destruct (N.eq_dec a 47) as [->|A].
  - transitivity true; [|symmetry]; apply ends_slash_iff; eauto.
  - transitivity false; [|symmetry; apply ends_slash_false; intros (z & E); apply app_inj_tail in E as [_ E]; contradiction].
    replace (Q [a]) with (quote_char path_safe a) by (rewrite quote_cons; symmetry; apply app_nil_r). pose proof (Q_last_head a A) as H. unfold ends_slash in *. rewrite rev_app_distr.
    destruct (rev (quote_char path_safe a)) as [|x y] eqn:E; [|destruct (N.eq_dec x 47) as [->|X]; [discriminate H|]].
    + apply (f_equal (@rev _)) in E. rewrite rev_involutive in E. destruct (quote_char_cases path_safe a) as [[_ F]|(_ & p & q & s & F)]; rewrite F in E; discriminate.
    + exact H.
Qed.
Lemma Q_long t : ends_slash t = true -> ((2 <=? length (Q t)) = (2 <=? length t))%nat.
Proof.
  intros E. apply ends_slash_iff in E as (r & ->). rewrite quote_app, !app_length. change (length (Q [47])) with 1%nat. change (length [47]) with 1%nat.
  destruct r as [|c r]; [reflexivity|]. rewrite quote_cons, app_length.
  assert (1 <= length (quote_char path_safe c))%nat by (destruct (quote_char_cases path_safe c) as [[_ ->]|(_ & p & q & s & ->)]; cbn; lia).
  transitivity true; [|symmetry]; apply Nat.leb_le; cbn [length]; lia.
Qed.
Lemma fix_id t : ~ In 92 t -> fix_backslash t = t.
Proof. intros H. unfold fix_backslash. rewrite <- (map_id t) at 2. apply map_ext_in. intros c I. destruct (N.eqb_spec c 92) as [->|]; [contradiction|reflexivity]. Qed.
Lemma fix_free t : ~ In 92 (fix_backslash t).
Proof. intros I. apply in_map_iff in I as (c & E & _). destruct (N.eqb_spec c 92); congruence. Qed.
Lemma qchar_not safe c t : qchar safe c = false -> ~ In c (quote safe t).
Proof. intros H I. pose proof (quote_qchar safe t) as F. rewrite forallb_forall in F. rewrite (F c I) in H. discriminate. Qed.
Lemma clean_path_raw w t : clean_path w t = Q (clean_raw (fix_backslash (unquote w t))).
Proof.
  unfold clean_path, clean_raw. fold path_safe. cbv zeta. set (x := fix_backslash (unquote w t)). rewrite Q_normpath, fix_id by (now apply qchar_not).
  rewrite !Q_ends. destruct (ends_slash x) eqn:E; [rewrite (Q_long x E)|rewrite !andb_false_r; reflexivity].
  destruct (_ && _); [|reflexivity]. now rewrite quote_app.
Qed.
Lemma join_in c l : In c (join [47] l) -> c = 47 \/ exists s, In s l /\ In c s.
Proof.
  induction l as [|s l IH]; [intros []|]. destruct l as [|y l]; [intros I; right; exists s; split; [now left|exact I]|].
  change (join [47] (s :: y :: l)) with (s ++ [47] ++ join [47] (y :: l)). rewrite !in_app_iff. intros [I|[[->|[]]|I]]; [right; exists s; split; [now left|exact I]|now left|].
  destruct (IH I) as [->|(z & Z & J)]; [now left|]. right. exists z. split; [now right|exact J].
Qed.
Lemma norm_comps_in slash l : forall acc s, In s (norm_comps slash l acc) -> In s acc \/ In s l.
Proof.
  induction l as [|x l IH]; intros acc s; cbn [norm_comps]; [intros I; left; now apply in_rev|]. destruct (_ || _); [intros I; destruct (IH _ _ I); [now left|right; now right]|].
  destruct (_ || _); intros I; destruct (IH _ _ I) as [J|J].
  - destruct J as [->|J]; [right; now left|now left].
  - right; now right.
  - left. destruct acc; [destruct J|now right].
  - right; now right.
Qed.
Lemma split_in s t c : In s (split_on 47 t) -> In c s -> In c t.
Proof.
  intros I J. rewrite <- (join_split_on 47 t). revert I. generalize (split_on 47 t) as l. induction l as [|y l IH]; [intros []|]. intros [->|I].
  - destruct l; [exact J|]. cbn. apply in_or_app. now left.
  - destruct l; [destruct I|]. change (join [47] (y :: t0 :: l)) with (y ++ [47] ++ join [47] (t0 :: l)). apply in_or_app. right. apply in_or_app. right. now apply IH.
Qed.
Lemma clean_raw_in c x : In c (clean_raw x) -> c = 47 \/ c = 46 \/ In c x.
Proof.
  assert (H : In c (normpath x) -> c = 47 \/ c = 46 \/ In c x).
  { rewrite normpath_eq. assert (G : In c (lead x ++ join [47] (comps x)) -> c = 47 \/ c = 46 \/ In c x).
    { rewrite in_app_iff. intros [I|I]; [left; destruct (lead_any x) as [E|[E|E]]; rewrite E in I; cbn in I; intuition congruence|]. apply join_in in I as [->|(s & S & I)]; [now left|].
      right. right. unfold comps in S. apply norm_comps_in in S as [[]|S]. eapply split_in; eassumption. }
    destruct (lead x ++ join [47] (comps x)); [intros [<-|[]]; tauto|exact G]. }
  unfold clean_raw. cbv zeta. destruct (_ && _); [|exact H]. rewrite in_app_iff. intros [I|[<-|[]]]; [now apply H|now left].
Qed.
Lemma clean_path_idem w t : decodes w -> unicode t -> clean_path w (clean_path w t) = clean_path w t.
Proof.
  intros [D U] T. rewrite !clean_path_raw. set (x := fix_backslash (unquote w t)). assert (X : unicode x).
  { apply Forall_forall. intros c I. apply in_map_iff in I as (d & E & J). pose proof (U t T) as UU. unfold unicode in UU. rewrite Forall_forall in UU. specialize (UU d J). cbv beta in UU. destruct (N.eqb_spec d 92); lia. }
  assert (CX : unicode (clean_raw x)).
  { apply Forall_forall. intros c I. apply clean_raw_in in I as [->|[->|I]]; [lia|lia|]. unfold unicode in X. rewrite Forall_forall in X. now apply X. }
  rewrite D by (exact path_safe_percent || exact CX). rewrite fix_id, clean_raw_idem; [reflexivity|]. intros I. apply clean_raw_in in I as [E|[E|I]]; [discriminate|discriminate|]. revert I. apply fix_free.
Qed.
(* the segments of the path that is stored *)
Lemma plain_Q s : plain_segment s -> plain_segment (Q s).
Proof.
  intros (A & B & C & D). pose proof path_safe_percent as P. repeat split; [now rewrite quote_nil|now rewrite quote_dot|now rewrite quote_dotdot|]. now apply Q_free.
Qed.
Lemma normal_Q p : normal_path p -> normal_path (Q p).
Proof.
  intros (l & s & t & -> & L & S & T). exists l, (map Q s), t. rewrite !quote_app. change (lit "/") with [47]. rewrite Q_join. replace (Q l) with l by (destruct L as [->| ->]; reflexivity). replace (Q t) with t by (destruct T as [->| ->]; reflexivity).
  repeat split; auto. apply Forall_map. eapply Forall_impl; [|exact S]. intros x. apply plain_Q.
Qed.
Lemma clean_path_normal w t : absolute w t -> normal_path (clean_path w t).
Proof. intros (r & H). rewrite clean_path_raw. apply normal_Q, clean_raw_normal, starts_slash_iff. exists (fix_backslash r). destruct H as [-> | ->]; reflexivity. Qed.
(* which segments are left *)
Lemma shortens_comps l : forall acc, Forall plain_segment acc -> Forall comp_ok l -> shortens (rev acc ++ l) (norm_comps true l acc).
Proof.
  induction l as [|x l IH]; intros acc A L; cbn [norm_comps]; [rewrite app_nil_r; constructor|]. inversion_clear L as [|? ? X L'].
  destruct (text_eqb_spec x []) as [X1|X1]; [cbn [orb]; apply sh_drop; [now left|now apply IH]|]. destruct (text_eqb_spec x (lit ".")) as [X2|X2]; [cbn [orb]; apply sh_drop; [now right|now apply IH]|]. cbn [orb].
  destruct (text_eqb_spec x (lit "..")) as [->|X3]; cbn [negb orb andb].
  - destruct acc as [|y acc]; cbn [tl].
    + cbn [rev app]. apply sh_root. now apply (IH []).
    + inversion_clear A as [|? ? Y A']. destruct (plain_not_dots y Y) as (_ & _ & ->). cbn [rev]. rewrite <- app_assoc. cbn [app]. apply sh_up; [exact Y|now apply IH].
  - replace (rev acc ++ x :: l) with (rev (x :: acc) ++ l) by (cbn [rev]; now rewrite <- app_assoc). apply IH; [|exact L']. constructor; [|exact A]. now repeat split.
Qed.
Lemma clean_path_shortens w t : absolute w t -> exists lead segs trail, clean_path w t = lead ++ join [47] (map Q segs) ++ trail /\ (lead = [47] \/ lead = [47; 47]) /\ (trail = [] \/ trail = [47]) /\
  Forall plain_segment segs /\ shortens (split_on 47 (fix_backslash (unquote w t))) segs.
Proof.
  intros (r & H). rewrite clean_path_raw. set (x := fix_backslash (unquote w t)). assert (SX : starts_slash x = true) by (apply starts_slash_iff; exists (fix_backslash r); unfold x; destruct H as [-> | ->]; reflexivity).
  destruct (lead_cases x) as [[_ E]|[_ L]]; [congruence|]. pose proof (comps_nf x) as (k & s & E & S & K).
  assert (NT : nonempty (lead x) = true) by (destruct L as [-> | ->]; reflexivity). rewrite NT in K. rewrite (K eq_refl) in E. cbn in E.
  assert (SH : shortens (split_on 47 x) (comps x)) by (unfold comps; rewrite NT; apply (shortens_comps _ []); [constructor|apply split_comp]).
  assert (NP : normpath x = lead x ++ join [47] (comps x)) by (rewrite normpath_eq; destruct L as [-> | ->]; reflexivity).
  exists (lead x), (comps x). rewrite E in *. unfold clean_raw. cbv zeta. rewrite NP. destruct (_ && _).
  - exists [47]. rewrite !quote_app, Q_lead_id, Q_join, <- app_assoc. repeat split; auto.
  - exists []. rewrite quote_app, Q_lead_id, Q_join, app_nil_r. repeat split; auto.
Qed.
