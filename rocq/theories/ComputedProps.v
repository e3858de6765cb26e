(** C76: the computed style of an element. *)
From Coq Require Import Lia Lqa.
From Verif Require Import PyBase PyText PySplit PyStrip PyDict NumScan PyInt FormatModel FormatSpec FontTextModel CascadeModel CascadeSpec CascadeProofs CascadeProofs2 CascadeProofs3 CascadeProps
  FeatModel FeatSpec FeatProofs FeatProps LengthModel LengthSpec LengthProofs FontSizeModel FontSizeSpec FontSizeProofs FontSizeProps GeomModel GeomSpec GeomProofs ComputedModel ComputedSpec ComputedProofs ComputedProofs2 ComputedProofs3.
#[local] Open Scope Q_scope.

(* for the examples: an element with attributes in a view of 400 x 300 (the
   diagonal would be 250 * sqrt 2, rounded here) *)
Definition tag (name : string) (attrs : list (string * string)) : snode :=
  mkS [] [] (mkG (lit name) (map (fun p => (lit (fst p), lit (snd p))) attrs) (mkC 16 16 400 300 354 None (fun _ _ => 0)) (Err OtherError)).
Definition words_only (t : text) : result (list text) := Ok (split_ws t).
Definition at_key (r : result (dict cval)) (k : string) : option cval := match r with Ok d => dget d (lit k) | Err _ => None end.

(** ** Nested calls *)

(** Whatever is computed within some depth of calls is the value within any greater depth. *)
Theorem c76_depth shlex f g chain : (f <= g)%nat ->
  (forall r, computed_style shlex f chain = Ok r -> computed_style shlex g chain = Ok r) /\ (forall q, font_size shlex f chain = Ok q -> font_size shlex g chain = Ok q).
Proof. intros L. destruct (level_le shlex f g L) as [A B]. split; [apply B|apply A]. Qed.
Print Assumptions c76_depth.
Example c76_depth_ex : font_size words_only 1 [tag "g" [("font-size", "20px")]%string] = Ok 20 /\ font_size words_only 0 [tag "g" []] = Err OtherError.
Proof. split; vm_compute; reflexivity. Qed.

(** ** The entries *)

(** Geometry entries are the computed geometry; the entries that are neither
    geometry nor one of the nine are those of the inherited style. *)
Theorem c76_geometry shlex f n anc r g k : computed_style shlex f (n :: anc) = Ok r -> computed_geometry (s_geo n) (map s_geo anc) = Ok g ->
  In k (dkeys g) -> dget r k = option_map CGeo (dget g k).
Proof.
  destruct f as [|f]; [discriminate|]. rewrite computed_unfold. intros H G I. apply computed_parts in H. rename H into p. assert (E := q_geo _ _ _ _ p). cbn [map] in E. rewrite G in E. injection E as E.
  rewrite (parts_get _ _ _ _ p), <- E. apply dget_some_keys in I. destruct I as (v & I). rewrite I. reflexivity.
Qed.
Print Assumptions c76_geometry.
Theorem c76_inherited shlex f n anc r s k : computed_style shlex f (n :: anc) = Ok r -> get_inherited_style shlex (s_el n) (map s_el anc) = Ok s ->
  ~ In k nine -> ~ In k (map lit (geometry_keys (g_name (s_geo n)))) -> dget r k = option_map cval_of (dget s k).
Proof.
  destruct f as [|f]; [discriminate|]. rewrite computed_unfold. intros H E N G. apply computed_parts in H. rename H into p. assert (E' := q_s _ _ _ _ p). cbn [inherited_style] in E'. rewrite E in E'. injection E' as E'.
  rewrite (parts_get _ _ _ _ p). destruct (geo_keys _ _ _ _ p) as (n' & anc' & X & K). injection X as <- <-.
  assert (Z : dget (p_geo p) k = None) by (apply dget_keys; now rewrite K). rewrite Z. cbn [option_map or_else]. rewrite <- E'.
  rewrite (proj2 (dget_keys _ _)); [reflexivity|]. exact N.
Qed.
Print Assumptions c76_inherited.
Theorem c76_keys shlex f n anc r s k : computed_style shlex f (n :: anc) = Ok r -> get_inherited_style shlex (s_el n) (map s_el anc) = Ok s ->
  (In k (dkeys r) <-> In k (dkeys s) \/ In k (map lit (geometry_keys (g_name (s_geo n))))).
Proof.
  destruct f as [|f]; [discriminate|]. rewrite computed_unfold. intros H E. apply computed_parts in H. rename H into p. assert (E' := q_s _ _ _ _ p). cbn [inherited_style] in E'. rewrite E in E'. injection E' as E'.
  destruct (geo_keys _ _ _ _ p) as (n' & anc' & X & K). injection X as <- <-.
  rewrite <- !dget_some_keys, (parts_get _ _ _ _ p), <- E', <- K.
  assert (S : In k nine -> exists v, dget s k = Some v).
  { intros I. assert (T : exists t, style_at s k = Ok t).
    { rewrite E'. assert (Z := q_size _ _ _ _ p). assert (Y := q_adjust _ _ _ _ p). unfold size_from in Z. unfold size_adjust in Y. inv_bind Z. inv_bind Y.
      repeat destruct I as [<- |I]; try destruct I; eexists; first [exact E0|exact E1|exact (q_feat_t _ _ _ _ p)|exact (q_synth_t _ _ _ _ p)|exact (q_weight_t _ _ _ _ p)|exact (q_line_t _ _ _ _ p)|exact (q_inline_t _ _ _ _ p)|exact (q_stroke_t _ _ _ _ p)|exact (q_tab_t _ _ _ _ p)]. }
    destruct T as (t & T). unfold style_at in T. destruct (dget s k); [eauto|discriminate]. }
  rewrite <- dget_some_keys. destruct (dget (p_geo p) k) as [g|] eqn:Dg; cbn [option_map or_else].
  - split; [intros _; right; eauto|eauto].
  - match goal with |- (exists v, or_else (dget ?l k) _ = _) <-> _ => destruct (dget l k) as [c|] eqn:D end; cbn [or_else].
    + split; [|eauto]. intros _. left. apply S. apply (proj1 (dget_some_keys _ k) (ex_intro _ c D)).
    + split.
      * intros (v & V). left. destruct (dget s k); [eauto|discriminate].
      * intros [(v & ->)|(v & V)]; [cbn; eauto|discriminate].
Qed.
Print Assumptions c76_keys.
Example c76_keys_ex : let r := computed_style words_only 1 [tag "circle" [("r", "5"); ("fill", "red")]%string; tag "svg" [("width", "9")]%string] in
  (at_key r "r", at_key r "fill", at_key r "cx", at_key r "width") = (Some (CGeo (GNum 5)), Some (CText (lit "red")), Some (CGeo (GNum 0)), None).
Proof. vm_compute. reflexivity. Qed.

(** ** Font size *)

(** The entry is the font size of the element, never below 10. *)
Theorem c76_font_size shlex f chain r : computed_style shlex f chain = Ok r -> exists q, dget r (lit "font-size") = Some (CNum q) /\ font_size shlex f chain = Ok q /\ 10 <= q.
Proof.
  destruct f as [|f]; [discriminate|]. rewrite computed_unfold. intros H. apply computed_parts in H. rename H into p. exists (p_size p).
  rewrite (nine_get _ _ _ _ p) by (cbn; tauto). split; [reflexivity|]. assert (E := q_size _ _ _ _ p). split.
  - rewrite (font_size_unfold shlex f chain _ (q_s _ _ _ _ p)). exact E.
  - unfold size_from in E. inv_bind E. exact (c37_size_min _ _ _ _ _ _ E).
Qed.
Print Assumptions c76_font_size.
(** A keyword has its size at any depth of the tree. *)
Theorem c76_size_keyword shlex f chain s i t px : chain_ok chain -> inherited_style shlex chain = Ok s -> font_said shlex chain "font-size" "medium" = Some t ->
  nth_error size_keywords i = Some t -> nth_error [10; 10; 13; 16; 18; 24; 32] i = Some px -> font_size shlex (S f) chain = Ok px.
Proof.
  intros O E T K P. apply (font_said_is shlex chain s "font-size" "medium" t O in_size E) in T. rewrite (font_size_unfold shlex f chain s E). unfold size_from. rewrite T. cbn [bind].
  assert (M := c37_keyword_sizes (length_at (level shlex f) chain None) (size_nodes (level shlex f) (tl chain)) None).
  apply (f_equal (fun l => nth_error l i)) in M. rewrite !nth_error_map, K, P in M. cbn [option_map] in M. now injection M.
Qed.
Print Assumptions c76_size_keyword.
Example c76_size_keyword_ex : font_said words_only [tag "text" []; tag "g" [("font-size", "large")]%string] "font-size" "medium" = Some (lit "large") /\
  font_size words_only 1 [tag "text" []; tag "g" [("font-size", "large")]%string] = Ok 18.
Proof. split; vm_compute; reflexivity. Qed.
(** A length: em and % are of the parent's font size, rem of the root's; the text
    is that of the nearest element that has one, and what it refers to is that
    of the element itself. *)
Theorem c76_size_length shlex f chain t v q : chain_ok chain -> font_said shlex chain "font-size" "medium" = Some t -> font_size shlex (S f) chain = Ok v ->
  reads (font_size shlex f) chain None t q -> v == Qmax 10 q.
Proof.
  intros O T V R. assert (W := V). unfold font_size in W. cbn [level fst] in W. unfold font_size_with in W. inv_bind W. rename a into s.
  apply (font_said_is shlex chain s "font-size" "medium" t O in_size E) in T. assert (R' := R). destruct R' as (n & u & _ & _ & A & _).
  apply (proj1 (size_of_length _ chain s t v n u T A)) in W. destruct W as (w & L & ->). rewrite at_least_max. rewrite (length_reads _ _ _ _ _ _ L R). reflexivity.
Qed.
Print Assumptions c76_size_length.
Example c76_size_length_ex : exists q, font_size words_only 3 [tag "text" [("font-size", "150%")]; tag "g" [("font-size", "1.5em")]; tag "svg" [("font-size", "20px")]]%string = Ok q /\ q == 45.
Proof. eexists. split; [vm_compute; reflexivity|reflexivity]. Qed.
(** A length in an absolute unit is inherited as such, at any depth. *)
Theorem c76_size_absolute shlex f chain s t n u one : chain_ok chain -> inherited_style shlex chain = Ok s -> font_said shlex chain "font-size" "medium" = Some t ->
  amount t n u -> absolute_unit u -> (forall c d, sized c d u Length one) -> exists v, font_size shlex (S f) chain = Ok v /\ v == Qmax 10 (n * one).
Proof.
  intros O E T A U S. apply (font_said_is shlex chain s "font-size" "medium" t O in_size E) in T.
  destruct (absolute_length (level shlex f) chain None t n u one A U S) as (v & L & V). exists (at_least v). split.
  - rewrite (font_size_unfold shlex f chain s E). apply (size_of_length _ chain s t _ n u T A). eauto.
  - now rewrite at_least_max, V.
Qed.
Print Assumptions c76_size_absolute.
Example c76_size_absolute_ex : amount (lit "1.5in") (15#10) (Some (lit "in")) /\ absolute_unit (Some (lit "in")) /\ (forall c d, sized c d (Some (lit "in")) Length 96) /\
  exists v, font_size words_only 1 [tag "text" []; tag "g" []; tag "svg" [("font-size", "1.5in")]%string] = Ok v /\ v == 144.
Proof.
  split; [exists [], (lit "1.5"), []; repeat split; try reflexivity; apply mem_in; reflexivity|]. split; [cbn; tauto|]. split; [constructor|]. eexists. split; [vm_compute; reflexivity|reflexivity].
Qed.
(** The text in em is inherited, not the size: under an element of x em, each
    further level of elements that say nothing multiplies by x again. *)
Theorem c76_em_compounds shlex l n t x : (forall t, is_ok (shlex t) = true) -> Forall (fun m => el_ok (s_el m)) (n :: l) -> Forall (fun m => silent (s_el m)) l ->
  wanted (lit "marker") (s_el n) = None -> wanted (lit "font") (s_el n) = None -> wanted (lit "font-size") (s_el n) = Some t -> amount t x (Some (lit "em")) -> 1 <= x ->
  exists q, font_size shlex (S (length l)) (l ++ [n]) = Ok q /\ q == 16 * Qpower x (Z.of_nat (S (length l))).
Proof. intros X O Q M F T A G. inversion O; subst. now apply (em_compound shlex n t x). Qed.
Print Assumptions c76_em_compounds.
(** False: an element that says nothing has the font size of its parent. *)
Theorem c76_size_inherited_refuted : exists shlex child parent p c, silent (s_el child) /\ el_ok (s_el child) /\ el_ok (s_el parent) /\
  font_size shlex 2 [parent] = Ok p /\ font_size shlex 2 [child; parent] = Ok c /\ p == 32 /\ c == 64.
Proof.
  exists words_only, (tag "text" []), (tag "svg" [("font-size", "2em")]%string). do 2 eexists.
  split; [split; [intros k _; reflexivity|discriminate]|]. split; [repeat split; constructor|]. split; [repeat split; repeat constructor; absent|].
  split; [vm_compute; reflexivity|]. split; [vm_compute; reflexivity|]. split; reflexivity.
Qed.
Print Assumptions c76_size_inherited_refuted.

(** 'larger' and 'smaller' start from the nearest ancestor whose font-size
    attribute is a length, read at that ancestor, and change it once for every
    nearer ancestor with either word (C37 on why that is not the claim). *)
Theorem c76_size_relative shlex f n near a far t w q v : chain_ok (n :: near ++ a :: far) -> font_said shlex (n :: near ++ a :: far) "font-size" "medium" = Some t -> relative_size_word t ->
  Forall (fun m => match dget (s_attr m) (lit "font-size") with None => True | Some x => relative_size_word x end) near -> dget (s_attr a) (lit "font-size") = Some w ->
  reads (font_size shlex f) (a :: far) None w q -> font_size shlex (S f) (n :: near ++ a :: far) = Ok v ->
  v == Qmax 10 (Qmax 10 q * Qpower (if text_eqb t (lit "larger") then 6#5 else 5#6) (Z.of_nat (length (filter (fun m => is_some (dget (s_attr m) (lit "font-size"))) near)))).
Proof.
  intros O T Rt Sh W R V. assert (X := V). unfold font_size in X. cbn [level fst] in X. unfold font_size_with in X. inv_bind X. rename a0 into s.
  apply (font_said_is shlex _ s "font-size" "medium" t O in_size E) in T. unfold size_from in X. rewrite T in X. cbn [bind tl] in X.
  assert (Sp : forall k, exists N, size_nodes k (near ++ a :: far) = N ++ mkF (Some w) (length_at k (a :: far) None) :: size_nodes k far /\ map f_attr N = map (fun m => dget (s_attr m) (lit "font-size")) near).
  { intros k. clear - W. induction near as [|m near IH]; cbn [app size_nodes]; [exists []; rewrite W; split; reflexivity|]. destruct IH as (N & E & M). rewrite E.
    exists (mkF (dget (s_attr m) (lit "font-size")) (length_at k (m :: near ++ a :: far) None) :: N). split; [reflexivity|]. cbn [map f_attr]. now rewrite M. }
  destruct (Sp (level shlex f)) as (N & E1 & M). rewrite E1 in X.
  assert (R' := R). destruct R' as (x & u & c & y & A & _). destruct (amount_word w x u A) as (Aw & Ak & _).
  apply (c37_relative_partial 16 _ t N _ _ w None v Rt) in X.
  2: { clear - Sh M. revert N M. induction Sh as [|m near Hm _ IH]; intros [|b N] M; try discriminate; constructor; cbn [map] in M; injection M as M1 M2; [unfold size_shift; now rewrite M1|now apply IH]. }
  2: reflexivity.
  2: { intros Z. apply relative_size_iff in Z. congruence. }
  destruct X as (base & B & Q). rewrite Q. clear Q. cbn [f_len] in B. unfold compute_font_size in B. rewrite Ak in B. unfold absolute_size in B. rewrite Aw in B.
  destruct (length_at (level shlex f) (a :: far) None w) as [l|] eqn:L; [|discriminate]. cbn [bind] in B. injection B as <-.
  assert (Le : length (filter (fun n => is_some (f_attr n)) N) = length (filter (fun m => is_some (dget (s_attr m) (lit "font-size"))) near)).
  { clear - M. revert N M. induction near as [|m near IH]; intros [|b N] M; try discriminate; [reflexivity|]. cbn [map] in M. injection M as M1 M2. cbn [filter]. rewrite M1. destruct (is_some _); cbn [length]; now rewrite (IH N M2). }
  rewrite Le, at_least_max, (length_reads _ _ _ _ _ _ L R). reflexivity.
Qed.
Print Assumptions c76_size_relative.
Example c76_size_relative_ex : exists q, font_size words_only 3 [tag "tspan" [("font-size", "larger")]; tag "text" []; tag "g" [("font-size", "smaller")]; tag "g" [("font-size", "2em")]; tag "svg" [("font-size", "20px")]]%string = Ok q /\ q == 48.
Proof. eexists. split; vm_compute; reflexivity. Qed.

(** ** Units that never come to an end *)

(** A length in ex, cap, ch or ic builds a font for the element, which computes
    its style, which needs the length: no depth of calls is enough. *)
Theorem c76_metric_endless shlex chain t x u k init : chain_ok chain -> amount t x u -> metric_unit u ->
  (In (k, init) [("font-size", "medium"); ("line-height", "normal")]%string /\ font_said shlex chain k init = Some t \/
   In (k, init) [("stroke-width", "1"); ("tab-size", "8")]%string /\ said chain k init = t) ->
  forall f r, computed_style shlex f chain <> Ok r.
Proof.
  intros O A M H. destruct chain as [|n anc]; [now destruct O|]. induction f as [|f IH]; intros r C; [discriminate|]. rewrite computed_unfold in C. apply computed_parts in C. rename C into p.
  assert (E := q_s _ _ _ _ p). change (forall r, snd (level shlex f) (n :: anc) <> Ok r) in IH. destruct H as [[I S]|[I S]].
  - destruct I as [[= <- <-]|[[= <- <-]|[]]].
    + apply (font_said_is shlex _ _ "font-size" "medium" t O in_size E) in S. assert (Z := q_size _ _ _ _ p). apply (size_of_length _ _ _ t _ x u S A) in Z. destruct Z as (v & L & _).
      exact (metric_length _ n anc t x u _ A M IH v L).
    + apply (font_said_is shlex _ _ "line-height" "normal" t O in_line E) in S. assert (Z := q_line _ _ _ _ p). rewrite (q_line_t _ _ _ _ p) in S. injection S as S. rewrite S in Z.
      unfold compute_line_height in Z. destruct (amount_word t x u A) as (_ & _ & N & _). rewrite N in Z. inv_bind Z. exact (metric_line _ n anc t x u A M IH _ E0).
  - destruct I as [[= <- <-]|[[= <- <-]|[]]].
    + assert (T := said_is shlex _ _ "stroke-width" "1" O in_stroke E). rewrite S in T. assert (Z := q_stroke _ _ _ _ p). rewrite (q_stroke_t _ _ _ _ p) in T. injection T as T. rewrite T in Z.
      exact (metric_length _ n anc t x u _ A M IH _ Z).
    + assert (T := said_is shlex _ _ "tab-size" "8" O in_tab E). rewrite S in T. assert (Z := q_tab _ _ _ _ p). rewrite (q_tab_t _ _ _ _ p) in T. injection T as T. rewrite T in Z.
      exact (metric_length _ n anc t x u _ A M IH _ Z).
Qed.
Print Assumptions c76_metric_endless.
Example c76_metric_endless_ex : amount (lit "2ex") 2 (Some (lit "ex")) /\ metric_unit (Some (lit "ex")) /\ said [tag "path" [("stroke-width", "2ex")]%string] "stroke-width" "1" = lit "2ex" /\
  computed_style words_only 9 [tag "path" [("stroke-width", "2ex")]%string] = Err OtherError.
Proof.
  split; [exists [], (lit "2"), []; repeat split; try reflexivity; apply mem_in; reflexivity|]. split; [exists (lit "ex"); split; [reflexivity|now left]|]. split; vm_compute; reflexivity.
Qed.
(** So does rem as the font size of the root. *)
Theorem c76_rem_root_endless shlex n t x : chain_ok [n] -> font_said shlex [n] "font-size" "medium" = Some t -> amount t x (Some (lit "rem")) ->
  forall f q, font_size shlex f [n] <> Ok q.
Proof.
  intros O T A. induction f as [|f IH]; intros q V; [discriminate|]. unfold font_size in V. cbn [level fst] in V. unfold font_size_with in V. inv_bind V. rename a into s.
  apply (font_said_is shlex [n] s "font-size" "medium" t O in_size E) in T. apply (size_of_length _ [n] s t q x _ T A) in V. destruct V as (v & L & _).
  unfold length_at in L. destruct (amount_parse t x _ A) as (m & P & _). rewrite P in L. cbn [bind snd fst] in L. inv_bind L. cbn [fetch] in E0. inv_bind E0. exact (IH _ E1).
Qed.
Print Assumptions c76_rem_root_endless.
Example c76_rem_root_ex : font_said words_only [tag "svg" [("font-size", "2rem")]%string] "font-size" "medium" = Some (lit "2rem") /\ font_size words_only 50 [tag "svg" [("font-size", "2rem")]%string] = Err OtherError.
Proof. split; vm_compute; reflexivity. Qed.

(** ** The other computed entries *)

(** Stroke width and tab size: the text of the nearest element, as a length of the element. *)
Theorem c76_stroke_width shlex f chain r : chain_ok chain -> computed_style shlex (S f) chain = Ok r ->
  exists v, dget r (lit "stroke-width") = Some (CNum v) /\ forall q, reads (font_size shlex f) chain (Some Unspecified) (said chain "stroke-width" "1") q -> v == q.
Proof.
  intros O. rewrite computed_unfold. intros H. apply computed_parts in H. rename H into p. exists (p_stroke p). rewrite (nine_get _ _ _ _ p) by (cbn; tauto). split; [reflexivity|]. intros q R.
  assert (T := said_is shlex _ _ "stroke-width" "1" O in_stroke (q_s _ _ _ _ p)). rewrite (q_stroke_t _ _ _ _ p) in T. injection T as T. rewrite <- T in R.
  exact (length_reads _ _ _ _ _ _ (q_stroke _ _ _ _ p) R).
Qed.
Print Assumptions c76_stroke_width.
Theorem c76_tab_size shlex f chain r : chain_ok chain -> computed_style shlex (S f) chain = Ok r ->
  exists v, dget r (lit "tab-size") = Some (CNum v) /\ forall q, reads (font_size shlex f) chain (Some Unspecified) (said chain "tab-size" "8") q -> v == q.
Proof.
  intros O. rewrite computed_unfold. intros H. apply computed_parts in H. rename H into p. exists (p_tab p). rewrite (nine_get _ _ _ _ p) by (cbn; tauto). split; [reflexivity|]. intros q R.
  assert (T := said_is shlex _ _ "tab-size" "8" O in_tab (q_s _ _ _ _ p)). rewrite (q_tab_t _ _ _ _ p) in T. injection T as T. rewrite <- T in R.
  exact (length_reads _ _ _ _ _ _ (q_tab _ _ _ _ p) R).
Qed.
Print Assumptions c76_tab_size.
Example c76_stroke_width_ex : exists v, at_key (computed_style words_only 2 [tag "path" []; tag "g" [("stroke-width", "10%"); ("tab-size", "2em")]%string]) "stroke-width" = Some (CNum v) /\ v == 354 / 10 /\
  reads (font_size words_only 1) [tag "path" []; tag "g" [("stroke-width", "10%"); ("tab-size", "2em")]%string] (Some Unspecified) (lit "10%") (354 / 10).
Proof.
  eexists. split; [vm_compute; reflexivity|]. split; [reflexivity|]. exists 10, (Some (lit "%")), (mkC 16 16 400 300 354 None (fun _ _ => 0)), (354 / 100). split.
  { exists [], (lit "10"), []. repeat split; try reflexivity. apply mem_in. reflexivity. }
  split; [|split; [now constructor|reflexivity]]. cbn [looks_up]. do 4 (split; [reflexivity|]). split; [discriminate|]. intros _. vm_compute. reflexivity.
Qed.
(** Line height: normal is 1.2 font sizes; percentages are of the element's own
    computed font size; anything else is a length. *)
Theorem c76_line_height shlex f chain r t : chain_ok chain -> computed_style shlex (S f) chain = Ok r -> font_said shlex chain "line-height" "normal" = Some t ->
  exists v size, dget r (lit "line-height") = Some (CNum v) /\ dget r (lit "font-size") = Some (CNum size) /\
    (t = lit "normal" -> v == (6#5) * size) /\ (forall n, amount t n (Some (lit "%")) -> v == n / 100 * size) /\
    (forall n u q, amount t n u -> u <> Some (lit "%") -> reads (font_size shlex f) chain None t q -> v == q).
Proof.
  intros O. rewrite computed_unfold. intros H T. apply computed_parts in H. rename H into p. exists (p_line p), (p_size p). rewrite !(nine_get _ _ _ _ p) by (cbn; tauto). split; [reflexivity|]. split; [reflexivity|].
  apply (font_said_is shlex _ _ "line-height" "normal" t O in_line (q_s _ _ _ _ p)) in T. rewrite (q_line_t _ _ _ _ p) in T. injection T as T. assert (L := q_line _ _ _ _ p). rewrite T in L.
  unfold compute_line_height in L. split; [|split].
  - intros ->. injection L as <-. reflexivity.
  - intros n A. destruct (amount_word t n _ A) as (_ & _ & N & _). rewrite N in L. inv_bind L. destruct (amount_parse t n _ A) as (m & P & M). unfold line_at in E. rewrite P in E.
    cbn [bind snd fst] in E. change (uin (Some (lit "%")) [lit "%"]) with true in E. injection E as <-. injection L as <-. now rewrite M.
  - intros n u q A U R. destruct (amount_word t n _ A) as (_ & _ & N & _). rewrite N in L. inv_bind L. destruct (amount_parse t n _ A) as (m & P & M). unfold line_at in E. rewrite P in E.
    cbn [bind snd fst] in E. destruct (uin u [lit "%"]) eqn:X. { apply uin_iff in X. destruct X as (v & -> & [<- |[]]). congruence. }
    inv_bind E. inv_bind E. injection E as <-. injection L as <-. apply (length_reads (level shlex f) chain None t a1 q); [|exact R].
    unfold length_at. rewrite P. cbn [bind snd fst]. rewrite E0. exact E1.
Qed.
Print Assumptions c76_line_height.
Example c76_line_height_ex : map (fun h => at_key (computed_style words_only 1 [tag "text" [("font-size", "20px"); ("line-height", h)]%string]) "line-height") ["normal"; "150%"; "30px"]%string
  = [Some (CNum (120 # 5)); Some (CNum (3000 # 100)); Some (CNum 30)].
Proof. vm_compute. reflexivity. Qed.
(** Font weight: the keywords and the numbers; the relative ones count from 400
    through the ancestors that have the attribute. *)
Theorem c76_font_weight shlex f n anc r t : chain_ok (n :: anc) -> computed_style shlex f (n :: anc) = Ok r -> font_said shlex (n :: anc) "font-weight" "normal" = Some t ->
  exists w, dget r (lit "font-weight") = Some (CInt w) /\ (t = lit "normal" -> w = 400%Z) /\ (t = lit "bold" -> w = 700%Z) /\ (forall m, t = digits m -> w = Z.of_N m) /\
    (relative_weight_word t -> (forall a, In a anc -> weight_shift (dget (s_attr a) (lit "font-weight"))) ->
     w = fold_left shift_weight (rev (flat_map (fun a => match dget (s_attr a) (lit "font-weight") with Some v => [v] | None => [] end) anc)) 400%Z).
Proof.
  intros O. destruct f as [|f]; [discriminate|]. rewrite computed_unfold. intros H T. apply computed_parts in H. rename H into p. exists (p_weight p). rewrite !(nine_get _ _ _ _ p) by (cbn; tauto). split; [reflexivity|].
  apply (font_said_is shlex _ _ "font-weight" "normal" t O in_weight (q_s _ _ _ _ p)) in T. rewrite (q_weight_t _ _ _ _ p) in T. injection T as T. assert (W := q_weight _ _ _ _ p). rewrite T in W. cbn [tl] in W.
  set (l := map (fun n => dget (s_attr n) (lit "font-weight")) anc) in *. destruct (c37_weight_absolute l None 0) as (A & B & _).
  split; [|split; [|split]].
  - intros ->. rewrite A in W. congruence.
  - intros ->. rewrite B in W. congruence.
  - intros m ->. rewrite (proj2 (proj2 (c37_weight_absolute l None m))) in W. congruence.
  - intros R S. assert (F : Forall weight_shift l). { apply Forall_forall. intros x I. apply in_map_iff in I. destruct I as (a & <- & J). now apply S. }
    rewrite (c37_weight_relative_default t l R F) in W. injection W as <-. do 2 f_equal. unfold l. rewrite flat_map_concat_map, flat_map_concat_map, map_map. reflexivity.
Qed.
Print Assumptions c76_font_weight.
Example c76_font_weight_ex : at_key (computed_style words_only 1 [tag "text" [("font-weight", "lighter")]; tag "g" []; tag "svg" [("font-weight", "bolder")]]%string) "font-weight" = Some (CInt 700).
Proof. vm_compute. reflexivity. Qed.
(** Inline size: the element's own attribute, in a view of 100 x 100 and a font of 16. *)
Theorem c76_inline_size shlex f n anc r : chain_ok (n :: anc) -> computed_style shlex f (n :: anc) = Ok r ->
  exists v, dget r (lit "inline-size") = Some (CNum v) /\
    forall q size, reads size [] (Some (if mem (said (n :: anc) "writing-mode" "horizontal-tb") (map lit ["horizontal-tb"; "lr"; "lr-tb"; "rl"; "rl-tb"]%string) then Horizontal else Vertical))
      (match dget (s_attr n) (lit "inline-size") with Some t => t | None => lit "0" end) q -> v == q.
Proof.
  intros O. destruct f as [|f]; [discriminate|]. rewrite computed_unfold. intros H. apply computed_parts in H. rename H into p. exists (p_inline p). rewrite !(nine_get _ _ _ _ p) by (cbn; tauto). split; [reflexivity|].
  intros q size R. assert (L := q_inline _ _ _ _ p).
  assert (T := said_is shlex _ _ "writing-mode" "horizontal-tb" O in_mode (q_s _ _ _ _ p)). rewrite (q_mode_t _ _ _ _ p) in T. injection T as T.
  assert (I := inline_said shlex n anc _ (q_s _ _ _ _ p)). rewrite (q_inline_t _ _ _ _ p) in I. injection I as I. rewrite T, I in L. exact (length_reads _ _ _ _ _ _ L R).
Qed.
Print Assumptions c76_inline_size.
Example c76_inline_size_ex : map (fun m => at_key (computed_style words_only 1 [tag "text" [("inline-size", "25px"); ("writing-mode", m)]%string]) "inline-size") ["tb"; "lr"]%string = [Some (CNum 25); Some (CNum 25)].
Proof. vm_compute. reflexivity. Qed.
(** False: percentages refer to the view; here it is 400 wide. *)
Theorem c76_inline_percent_refuted : exists n v, cvw (g_ctx (s_geo n)) == 400 /\ dget (s_attr n) (lit "inline-size") = Some (lit "50%") /\
  at_key (computed_style words_only 1 [n]) "inline-size" = Some (CNum v) /\ v == 50.
Proof. exists (tag "text" [("inline-size", "50%")]%string). eexists. split; [reflexivity|]. split; [reflexivity|]. split; [vm_compute; reflexivity|reflexivity]. Qed.
Print Assumptions c76_inline_percent_refuted.
(** False: the style of every element can be computed; 'inherit' for the inline size cannot, nor 'auto'. *)
Theorem c76_inline_inherit_refuted : computed_style words_only 1 [tag "text" [("inline-size", "inherit")]%string; tag "g" [("inline-size", "10")]%string] = Err ValueError /\
  computed_style words_only 1 [tag "text" [("inline-size", "auto")]%string] = Err ValueError.
Proof. split; vm_compute; reflexivity. Qed.
Print Assumptions c76_inline_inherit_refuted.
(** False: an em of a stroke is the element's own font size. *)
Theorem c76_em_own_refuted : exists v w, let r := computed_style words_only 2 [tag "text" [("font-size", "40px"); ("stroke-width", "1em")]; tag "g" [("font-size", "20px")]]%string in
  at_key r "font-size" = Some (CNum v) /\ v == 40 /\ at_key r "stroke-width" = Some (CNum w) /\ w == 20.
Proof. do 2 eexists. cbv zeta. split; [vm_compute; reflexivity|]. split; [reflexivity|]. split; [vm_compute; reflexivity|reflexivity]. Qed.
Print Assumptions c76_em_own_refuted.
(** Font size adjustment: none or a number. *)
Theorem c76_size_adjust shlex f chain r t : chain_ok chain -> computed_style shlex f chain = Ok r -> font_said shlex chain "font-size-adjust" "none" = Some t ->
  exists v, dget r (lit "font-size-adjust") = Some v /\ (t = lit "none" -> v = CText (lit "none")) /\
    (forall size q, reads size [] None t q -> exists w, v = CNum w /\ w == q).
Proof.
  intros O. destruct f as [|f]; [discriminate|]. rewrite computed_unfold. intros H T. apply computed_parts in H. rename H into p. exists (p_adjust p). rewrite !(nine_get _ _ _ _ p) by (cbn; tauto). split; [reflexivity|].
  apply (font_said_is shlex _ _ "font-size-adjust" "none" t O in_adjust (q_s _ _ _ _ p)) in T. assert (A := q_adjust _ _ _ _ p). unfold size_adjust in A. rewrite T in A. cbn [bind] in A. split.
  - intros ->. rewrite text_eqb_refl in A. congruence.
  - intros size q (n & u & c & s & Am & -> & S & Q). destruct (amount_word t n u Am) as (_ & _ & _ & N). rewrite N in A. unfold of_text in A. destruct (amount_parse t n u Am) as (m & P & M). rewrite P in A.
    cbn [bind fst snd] in A. destruct (value_sized m u no_context None s S) as (w & W & V). rewrite W in A. cbn [bind] in A. injection A as <-. exists w. split; [reflexivity|]. now rewrite V, M.
Qed.
Print Assumptions c76_size_adjust.
Example c76_size_adjust_ex : map (fun h => at_key (computed_style words_only 1 [tag "text" []; tag "g" [("font-size-adjust", h)]%string]) "font-size-adjust") ["none"; "0.5"]%string = [Some (CText (lit "none")); Some (CNum (5#10))].
Proof. vm_compute. reflexivity. Qed.
(** Font synthesis: 'none' excludes the rest; otherwise the words 'weight' and 'style' as written. *)
Theorem c76_synthesis shlex f chain r : chain_ok chain -> computed_style shlex f chain = Ok r ->
  exists l, dget r (lit "font-synthesis") = Some (CList l) /\ let words := split_ws (said chain "font-synthesis" "weight style") in
    (In (lit "none") words -> l = [lit "none"]) /\ (~ In (lit "none") words -> kept (fun w => w = lit "weight" \/ w = lit "style") words l).
Proof.
  intros O. destruct f as [|f]; [discriminate|]. rewrite computed_unfold. intros H. apply computed_parts in H. rename H into p. eexists. rewrite !(nine_get _ _ _ _ p) by (cbn; tauto). split; [reflexivity|].
  assert (T := said_is shlex _ _ "font-synthesis" "weight style" O in_synth (q_s _ _ _ _ p)). rewrite (q_synth_t _ _ _ _ p) in T. injection T as T. rewrite T. cbv zeta. unfold synthesis.
  generalize (split_ws (said chain "font-synthesis" "weight style")). clear. intros l. set (P := fun x => mem x [lit "weight"; lit "style"; lit "none"]). split.
  - intros I. assert (J : In (lit "none") (filter P l)) by (apply filter_In; now split). rewrite (proj2 (mem_in (lit "none") (filter P l)) J). cbn [andb].
    destruct (filter P l) as [|a [|b m]]; [destruct J|destruct J as [-> |[]]; reflexivity|reflexivity].
  - intros N. assert (J : mem (lit "none") (filter P l) = false) by (apply mem_not_in; intros J; apply filter_In in J; now apply N). rewrite J. cbn [andb]. clear J.
    induction l as [|x l IH]; [constructor|]. cbn [filter]. assert (N' : ~ In (lit "none") l) by (intros J; apply N; now right). unfold P at 1. destruct (mem x [lit "weight"; lit "style"; lit "none"]) eqn:M.
    + apply kept_yes; [|now apply IH]. apply mem_in in M. destruct M as [<- |[<- |[<- |[]]]]; auto. exfalso. apply N. now left.
    + apply kept_no; [|now apply IH]. apply mem_not_in in M. intros [-> | ->]; apply M; cbn; auto.
Qed.
Print Assumptions c76_synthesis.
Example c76_synthesis_ex : map (fun h => at_key (computed_style words_only 1 [tag "text" [("font-synthesis", h)]%string]) "font-synthesis") ["style x"; "weight none"; "none"]%string
  = [Some (CList [lit "style"]); Some (CList [lit "none"]); Some (CList [lit "none"])].
Proof. vm_compute. reflexivity. Qed.
(** Font features: none for 'normal', otherwise those written, the last of each tag. *)
Theorem c76_features shlex f chain r : chain_ok chain -> computed_style shlex f chain = Ok r ->
  exists d, dget r (lit "font-feature-settings") = Some (CFeat d) /\ (said chain "font-feature-settings" "normal" = lit "normal" -> d = []) /\
    (forall q l tag, is_quote q = true -> l <> [] -> Forall (fun p => tag_ok (fst p) = true) l -> said chain "font-feature-settings" "normal" = write q l -> dget d tag = FeatSpec.last_value tag l).
Proof.
  intros O. destruct f as [|f]; [discriminate|]. rewrite computed_unfold. intros H. apply computed_parts in H. rename H into p. exists (p_feat p). rewrite !(nine_get _ _ _ _ p) by (cbn; tauto). split; [reflexivity|].
  assert (T := said_is shlex _ _ "font-feature-settings" "normal" O in_feat (q_s _ _ _ _ p)). rewrite (q_feat_t _ _ _ _ p) in T. injection T as T. assert (F := q_feat _ _ _ _ p). rewrite T in F. split.
  - intros E. rewrite E in F. injection F as F. now symmetry.
  - intros q l tg Q L K E. destruct (c65_settings q l tg Q L K) as (d & D & _ & G). rewrite E, D in F. injection F as <-. exact G.
Qed.
Print Assumptions c76_features.
Example c76_features_ex : at_key (computed_style words_only 1 [tag "text" [("font-feature-settings", "'liga' off, 'swsh' 2")]%string]) "font-feature-settings" = Some (CFeat [(lit "liga", 0%N); (lit "swsh", 2%N)]).
Proof. vm_compute. reflexivity. Qed.

(** ** When it succeeds *)

(** Sizes that are keywords or absolute lengths, a weight and features that can
    be read, and a geometry: then one level of calls is enough. *)
Theorem c76_total_partial shlex f n anc s g ts tw tln feats weight : chain_ok (n :: anc) -> inherited_style shlex (n :: anc) = Ok s ->
  parse_font_feature_settings (said (n :: anc) "font-feature-settings" "normal") = Ok feats ->
  font_said shlex (n :: anc) "font-size" "medium" = Some ts -> In ts size_keywords \/ settled ts ->
  font_said shlex (n :: anc) "font-size-adjust" "none" = Some (lit "none") ->
  font_said shlex (n :: anc) "font-weight" "normal" = Some tw -> absolute_weight tw = Ok weight ->
  font_said shlex (n :: anc) "line-height" "normal" = Some tln -> tln = lit "normal" \/ settled tln \/ (exists x, amount tln x (Some (lit "%"))) ->
  settled (match dget (s_attr n) (lit "inline-size") with Some t => t | None => lit "0" end) -> settled (said (n :: anc) "stroke-width" "1") -> settled (said (n :: anc) "tab-size" "8") ->
  computed_geometry (s_geo n) (map s_geo anc) = Ok g -> exists r, computed_style shlex (S f) (n :: anc) = Ok r.
Proof.
  intros O E F Z Hz A W Pw L Hl Hi Hk Ht G. rewrite computed_unfold.
  apply (font_said_is shlex _ _ "font-size" "medium" ts O in_size E) in Z. apply (font_said_is shlex _ _ "font-size-adjust" "none" _ O in_adjust E) in A.
  assert (X : exists w, compute_font_weight tw (map (fun n => dget (s_attr n) (lit "font-weight")) (tl (n :: anc))) None = Ok w).
  { unfold compute_font_weight. destruct (relative_weight tw) eqn:R; [|eauto]. apply mem_in in R. exfalso. destruct R as [<- |[<- |[]]]; discriminate Pw. }
  destruct X as (w & X). apply (font_said_is shlex _ _ "font-weight" "normal" tw O in_weight E) in W. apply (font_said_is shlex _ _ "line-height" "normal" tln O in_line E) in L.
  eapply (done_parts shlex (level shlex f) (n :: anc) s); eauto using said_is, in_feat, in_synth, in_stroke, in_tab, in_mode, inline_said.
Qed.
Print Assumptions c76_total_partial.
Example c76_total_ex : settled (lit "3px") /\ settled (lit "1.5in") /\ amount (lit "120%") 120 (Some (lit "%")) /\
  exists r, computed_style words_only 1 [tag "text" [("x", "3")]; tag "g" [("font-size", "20px"); ("line-height", "120%"); ("stroke-width", "3px")]]%string = Ok r.
Proof.
  split; [exists 3, (Some (lit "px")); split; [exists [], (lit "3"), []; repeat split; try reflexivity; apply mem_in; reflexivity|cbn; tauto]|].
  split; [exists (15#10), (Some (lit "in")); split; [exists [], (lit "1.5"), []; repeat split; try reflexivity; apply mem_in; reflexivity|cbn; tauto]|].
  split; [exists [], (lit "120"), []; repeat split; try reflexivity; apply mem_in; reflexivity|]. eexists. vm_compute. reflexivity.
Qed.
(** Where no element of the chain says anything, the initial values. *)
Theorem c76_initial shlex f n anc g : Forall (fun m => el_ok (s_el m)) (n :: anc) -> Forall (fun m => silent (s_el m)) (n :: anc) -> dget (s_attr n) (lit "inline-size") = None ->
  computed_geometry (s_geo n) (map s_geo anc) = Ok g ->
  exists r line, computed_style shlex (S f) (n :: anc) = Ok r /\ line == 96 # 5 /\
    map (dget r) nine = map Some [CFeat []; CNum 16; CText (lit "none"); CList [lit "weight"; lit "style"]; CInt 400; CNum line; CNum 0; CNum 1; CNum 8].
Proof.
  intros O Q I G. assert (E := chain_silent_style shlex n anc O Q). set (s := finish _) in *.
  assert (C : forall k init, In (lit k, init) font_props -> style_at s (lit k) = Ok init).
  { assert (Ck : chain_ok (n :: anc)) by (split; [discriminate|exact O]). intros k init J. destruct (in_split _ _ J) as (? & ? & _).
    assert (Hs := c36_font shlex (s_el n) (map s_el anc) s (lit k) init). unfold style_at. rewrite Hs; [|apply (proj2 (Forall_map s_el el_ok (n :: anc))); exact O|exact J|exact E].
    replace (nearest (longhand_at shlex (lit k)) (s_el n :: map s_el anc)) with (@None (option sval)); [reflexivity|]. symmetry.
    rewrite <- (app_nil_r (s_el n :: map s_el anc)). rewrite nearest_skip; [reflexivity|]. apply (proj2 (Forall_map s_el (fun e => longhand_at shlex (lit k) e = None) (n :: anc))).
    revert Q. apply Forall_impl. intros m S. apply silent_longhand; [exact S|].
    assert (V : forallb (fun p => mem (fst p) (dkeys inherited_props)) font_props = true) by (vm_compute; reflexivity). rewrite forallb_forall in V. specialize (V _ J). now apply mem_in in V. }
  assert (D : forall k init, In (lit k, Some init) plain_props -> style_at s (lit k) = Ok init).
  { intros k init J. unfold style_at. rewrite (c36_plain shlex (s_el n) (map s_el anc) s (lit k) (Some init)); [|apply (proj2 (Forall_map s_el el_ok (n :: anc))); exact O|exact J|exact E].
    replace (nearest (wanted (lit k)) (s_el n :: map s_el anc)) with (@None text); [reflexivity|]. symmetry.
    rewrite <- (app_nil_r (s_el n :: map s_el anc)). rewrite nearest_skip; [reflexivity|]. apply (proj2 (Forall_map s_el (fun e => wanted (lit k) e = None) (n :: anc))).
    revert Q. apply Forall_impl. intros m S. apply S.
    assert (V : forallb (fun p => mem (fst p) (dkeys inherited_props)) plain_props = true) by (vm_compute; reflexivity). rewrite forallb_forall in V. specialize (V _ J). now apply mem_in in V. }
  assert (Ei := inline_said shlex n anc s E). rewrite I in Ei. clearbody s.
  assert (Z : size_from (level shlex f) (n :: anc) s = Ok 16) by (unfold size_from; rewrite (C _ _ in_size); apply medium_size).
  assert (A : size_adjust s = Ok (CText (lit "none"))) by (unfold size_adjust; rewrite (C _ _ in_adjust); reflexivity).
  pose (p := mkParts shlex (level shlex f) (n :: anc) _ s [] 16 (CText (lit "none")) 400%Z ((6#5) * 16) 0 1 8 g (lit "normal") (lit "weight style") (lit "normal") (lit "normal") (lit "0") (lit "horizontal-tb") (lit "1") (lit "8")
    E (D _ _ in_feat) normal_features Z A (D _ _ in_synth) (C _ _ in_weight) (normal_weight _) (C _ _ in_line) (normal_line _) Ei (D _ _ in_mode) (plain_number _ _ _ _ _ parse_0)
    (D _ _ in_stroke) (plain_number _ _ _ _ _ parse_1) (D _ _ in_tab) (plain_number _ _ _ _ _ parse_8) G eq_refl).
  eexists. exists ((6#5) * 16). split; [exact (parts_computed _ _ _ _ p)|]. split; [reflexivity|].
  rewrite (parts_nine _ _ _ _ p). cbn [p p_feat p_size p_adjust p_synth_t p_weight p_line p_inline p_stroke p_tab]. now rewrite initial_synthesis.
Qed.
Print Assumptions c76_initial.
Example c76_initial_ex : silent (s_el (tag "rect" [("width", "5")]%string)) /\ at_key (computed_style words_only 1 [tag "rect" [("width", "5")]; tag "svg" []]%string) "width" = Some (CGeo (GNum 5)).
Proof.
  split; [|vm_compute; reflexivity]. split; [|discriminate]. intros k J.
  assert (V : forallb (fun k => match wanted k (s_el (tag "rect" [("width", "5")]%string)) with None => true | Some _ => false end) (dkeys inherited_props) = true) by (vm_compute; reflexivity).
  rewrite forallb_forall in V. specialize (V k J). destruct (wanted k _); [discriminate|reflexivity].
Qed.
(** An ancestor that says nothing does not change the inherited style, wherever it stands. *)
Theorem c76_silent_ancestor shlex n a e b : el_ok (s_el e) -> silent (s_el e) -> inherited_style shlex (n :: a ++ e :: b) = inherited_style shlex (n :: a ++ b).
Proof. intros O Q. cbn [inherited_style]. rewrite !map_app. cbn [map]. now apply style_skip. Qed.
Print Assumptions c76_silent_ancestor.
Example c76_silent_ancestor_ex : let e := tag "a" [] in silent (s_el e) /\ inherited_style words_only [tag "path" []; e; tag "svg" [("fill", "red")]%string] = inherited_style words_only [tag "path" []; tag "svg" [("fill", "red")]%string].
Proof. split; [split; [intros k _; reflexivity|discriminate]|vm_compute; reflexivity]. Qed.
(** False: every element has a computed style; with a system font it has no font size. *)
Theorem c76_system_font_refuted : forall f, computed_style words_only (S f) [tag "text" [("font", "caption")]%string] = Err KeyError.
Proof.
  intros f. rewrite computed_unfold. unfold computed_style_with.
  assert (X : exists s, inherited_style words_only [tag "text" [("font", "caption")]%string] = Ok s /\ style_at s (lit "font-feature-settings") = Ok (lit "normal") /\ style_at s (lit "font-size") = Err KeyError).
  { eexists. split; [vm_compute; reflexivity|]. split; vm_compute; reflexivity. }
  destruct X as (s & E & A & B). rewrite E. cbn [bind]. rewrite A. cbn [bind]. change (parse_font_feature_settings (lit "normal")) with (Ok (@nil (text * N))). cbn [bind]. unfold size_from. rewrite B. reflexivity.
Qed.
Print Assumptions c76_system_font_refuted.
