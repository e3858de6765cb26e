(** C37: font size, weight and line height. *)
From Coq Require Import Qround Qminmax.
From Verif Require Import PyBase PyText PySplit PyInt FontSizeModel FontSizeSpec FontSizeProofs.
#[local] Open Scope Q_scope.

(* a reader of "NNpx" for the examples *)
Definition px_only (t : text) : result Q := match py_int (firstn (length t - 2) t) with Some z => Ok (inject_Z z) | None => Err ValueError end.
Definition node (v : string) : fnode := mkF (Some (lit v)) px_only.
Definition plain : fnode := mkF None px_only.

(** No computed size is under ten pixels. *)
Theorem c37_size_min d len v l i px : compute_font_size d len v l i = Ok px -> 10 <= px.
Proof. apply size_min. Qed.
Print Assumptions c37_size_min.
Example c37_size_min_ex : compute_font_size 16 px_only (lit "3px") [node "20px"] None = Ok 10. Proof. reflexivity. Qed.

(** Whatever the default size, a later absolute keyword never gives a smaller size, and
    neither the ancestors nor the inherited size matter. *)
Theorem c37_keywords_monotone d len l l' i i' m n a b : (m <= n)%nat ->
  nth_error size_keywords m = Some a -> nth_error size_keywords n = Some b ->
  exists x y, compute_font_size d len a l i = Ok x /\ compute_font_size d len b l' i' = Ok y /\ x <= y.
Proof.
  intros H A B. destruct (keyword_column d m a A) as [Ka Ra]. destruct (keyword_column d n b B) as [Kb Rb].
  exists (at_least (column m d)), (at_least (column n d)). rewrite !size_absolute by assumption. unfold absolute_size. rewrite Ka, Kb.
  split; [reflexivity|]. split; [reflexivity|]. apply column_mono; [exact H|]. assert (n < length size_keywords)%nat by (apply nth_error_Some; congruence). cbn in *. lia.
Qed.
Print Assumptions c37_keywords_monotone.
Example c37_keywords_monotone_ex : compute_font_size 14 px_only (lit "small") [] None = Ok 11 /\ compute_font_size 14 px_only (lit "large") [] None = Ok 17.
Proof. split; reflexivity. Qed.

(** 'medium' is the default size itself when that is whole, and at least ten. *)
Theorem c37_medium d len l i : inject_Z (trunc d) == d -> 10 <= d -> exists px, compute_font_size d len (lit "medium") l i = Ok px /\ px == d.
Proof.
  intros W T. rewrite size_absolute by reflexivity. unfold absolute_size, keyword_size. cbn [assoc size_map].
  change (text_eqb (lit "xx-small") (lit "medium")) with false. change (text_eqb (lit "x-small") (lit "medium")) with false. change (text_eqb (lit "small") (lit "medium")) with false.
  change (text_eqb (lit "medium") (lit "medium")) with true. cbn [bind].
  destruct (Qleb_spec 9 d) as [A|A]; [|lra]. destruct (Qleb_spec d 16) as [B|B]; cbn [andb bind].
  - assert (L : (10 <= trunc d <= 16)%Z) by (rewrite (Zle_Qle 10), (Zle_Qle _ 16), W; split; assumption).
    assert (E : trunc (d - 9) = (trunc d - 9)%Z). { rewrite (trunc_proper (d - 9) (inject_Z (trunc d - 9))); [apply trunc_Z|]. unfold Zminus. rewrite inject_Z_plus, W. reflexivity. }
    rewrite E. eexists. split; [reflexivity|]. rewrite <- W at 2. remember (trunc d) as z eqn:Z0. clear - L.
    assert (C : z = 10%Z \/ z = 11%Z \/ z = 12%Z \/ z = 13%Z \/ z = 14%Z \/ z = 15%Z \/ z = 16%Z) by lia.
    destruct C as [->|[->|[->|[->|[->|[->| ->]]]]]]; vm_compute; reflexivity.
  - eexists. split; [reflexivity|]. rewrite at_least_id; lra.
Qed.
Print Assumptions c37_medium.
Example c37_medium_ex : compute_font_size 13 px_only (lit "medium") [node "40px"] None = Ok 13. Proof. reflexivity. Qed.

(** At the usual default of sixteen pixels the keywords give these sizes. *)
Theorem c37_keyword_sizes len l i :
  map (fun k => compute_font_size 16 len k l i) size_keywords = map Ok [10; 10; 13; 16; 18; 24; 32].
Proof. reflexivity. Qed.
Print Assumptions c37_keyword_sizes.

(** For every default from nine to sixteen pixels, whole or not (the fraction
    is dropped), the keywords give the sizes of the usual table, and elsewhere
    the default times the usual factors; never less than ten. *)
Theorem c37_table d len l i :
  (forall z row, In (z, row) usual_sizes -> inject_Z z <= d < inject_Z z + 1 -> d <= 16 ->
     map (fun k => compute_font_size d len k l i) size_keywords = map (fun s => Ok (if s <?q 10 then 10 else s)) row) /\
  (d < 9 \/ 16 < d -> map (fun k => compute_font_size d len k l i) size_keywords = map (fun f => Ok (if f * d <?q 10 then 10 else f * d)) usual_factors).
Proof.
  split.
  - intros z row I B L. assert (N : 9 <= d). { assert (Z9 : (9 <= z)%Z) by (cbn in I; repeat (destruct I as [I|I]; [injection I as <- _; lia|]); destruct I). rewrite Zle_Qle in Z9. change (inject_Z 9) with 9 in Z9. lra. }
    assert (T : trunc (d - 9) = (z - 9)%Z).
    { assert (F : Qfloor (d - 9) = (z - 9)%Z). { assert (G1 := Qfloor_le (d - 9)). assert (G2 := Qlt_floor (d - 9)). destruct (Z.lt_trichotomy (Qfloor (d - 9)) (z - 9)) as [X|[X|X]]; [exfalso| exact X|exfalso].
        - assert (Y : (Qfloor (d - 9) + 1 <= z - 9)%Z) by lia. rewrite Zle_Qle in Y. unfold Zminus in Y. rewrite (inject_Z_plus z) in Y. change (inject_Z (- (9))) with (-9 # 1) in Y. lra.
        - assert (Y : (z - 9 + 1 <= Qfloor (d - 9))%Z) by lia. rewrite Zle_Qle in Y. unfold Zminus in Y. rewrite !inject_Z_plus in Y. change (inject_Z (- (9))) with (-9 # 1) in Y. change (inject_Z 1) with 1 in Y. lra. }
      rewrite <- F. assert (P : 0 <= d - 9) by lra. destruct (d - 9) as [p q]. unfold trunc, Qfloor, Qle in *. cbn [Qnum Qden] in *. apply Z.quot_div_nonneg; lia. }
    unfold size_keywords. cbn [map]. unfold compute_font_size, absolute_size, keyword_size. rewrite T.
    destruct (Qleb_spec 9 d); [|lra]. destruct (Qleb_spec d 16); [|lra].
    cbn in I. repeat (destruct I as [I|I]; [injection I as <- <-; reflexivity|]). destruct I.
  - intros O. assert (E : (9 <=?q d) && (d <=?q 16) = false) by (destruct (Qleb_spec 9 d), (Qleb_spec d 16); cbn; try reflexivity; lra).
    unfold size_keywords, usual_factors. cbn [map]. unfold compute_font_size, absolute_size, keyword_size. rewrite E. reflexivity.
Qed.
Print Assumptions c37_table.
Example c37_table_ex : inject_Z 12 <= 25#2 < inject_Z 12 + 1 /\
  map (fun k => compute_font_size (25#2) px_only k [] None) size_keywords = [Ok 10; Ok 10; Ok 10; Ok 12; Ok 14; Ok 18; Ok 24].
Proof. split; [split; [vm_compute; discriminate|reflexivity]|reflexivity]. Qed.

(** A length is the pixels it stands for at the element, not under ten. *)
Theorem c37_length d len v l i px : ~ In v size_keywords -> ~ relative_size_word v -> len v = Ok px ->
  exists r, compute_font_size d len v l i = Ok r /\ (10 <= px -> r = px) /\ (px < 10 -> r == 10).
Proof.
  intros K R L. rewrite size_absolute by (destruct (relative_size v) eqn:E; [apply relative_size_iff in E; contradiction|reflexivity]).
  unfold absolute_size. assert (N : keyword_size d v = None).
  { unfold keyword_size. assert (A : assoc v size_map = None); [|now rewrite A]. cbn in K. unfold size_map. cbn [assoc].
    repeat match goal with |- context [text_eqb ?a v] => destruct (text_eqb_spec a v) as [E|]; [exfalso; apply K; rewrite <- E; tauto|] end. reflexivity. }
  rewrite N, L. cbn [bind]. eexists. split; [reflexivity|]. destruct (at_least_max px) as [[A B]|[A B]]; split; intros; try lra; assumption.
Qed.
Print Assumptions c37_length.
Example c37_length_ex : compute_font_size 16 px_only (lit "25px") [node "20px"] None = Ok 25. Proof. reflexivity. Qed.

(** With 'larger' or 'smaller' on the element, the size is that of the nearest ancestor
    with a size of its own, scaled once per relative word in between.  That an element's
    own word scales its parent's size is false, as is each word scaling its own way: see
    the two refutations. *)
Theorem c37_relative_partial d len v near n far w i px : relative_size_word v -> Forall size_shift near -> f_attr n = Some w -> ~ relative_size_word w ->
  compute_font_size d len v (near ++ n :: far) i = Ok px ->
  exists base, compute_font_size d (f_len n) w far None = Ok base /\
    px == Qmax 10 (base * Qpower (if text_eqb v (lit "larger") then 6#5 else 5#6) (Z.of_nat (length (filter (fun n => is_some (f_attr n)) near)))).
Proof.
  intros R F A N E. destruct (size_relative d len v near n far w i px R F A N E) as (b & B & C). exists b. split; [rewrite size_absolute by (destruct (relative_size w) eqn:Q; [apply relative_size_iff in Q; contradiction|reflexivity]); exact B|]. unfold size_factor, shifts in C.
  rewrite C, <- at_least_qmax. apply at_least_eq. replace (filter (fun n => is_some (f_attr n)) near) with (filter (fun n => match f_attr n with Some _ => true | None => false end) near); [reflexivity|].
  apply filter_ext. intros m. now destruct (f_attr m).
Qed.
Print Assumptions c37_relative_partial.
Example c37_relative_ex : compute_font_size 16 px_only (lit "larger") [node "larger"; plain; node "larger"; node "50px"; node "30px"] None = Ok (50 * (6#5) * (6#5)).
Proof. reflexivity. Qed.

(** No ancestor with a size: the inherited size, or the default, is scaled. *)
Theorem c37_relative_default d len v near i : relative_size_word v -> Forall size_shift near ->
  exists px, compute_font_size d len v near i = Ok px /\
    px == Qmax 10 (match i with Some s => s | None => d end * Qpower (if text_eqb v (lit "larger") then 6#5 else 5#6) (Z.of_nat (length (filter (fun n => is_some (f_attr n)) near)))).
Proof.
  intros R F. destruct (size_relative_default d len v near i R F) as (px & B & C). exists px. split; [exact B|]. unfold size_factor, shifts in C.
  rewrite C, <- at_least_qmax. apply at_least_eq. replace (filter (fun n => is_some (f_attr n)) near) with (filter (fun n => match f_attr n with Some _ => true | None => false end) near); [reflexivity|].
  apply filter_ext. intros m. now destruct (f_attr m).
Qed.
Print Assumptions c37_relative_default.
Example c37_relative_default_ex : compute_font_size 36 px_only (lit "smaller") [node "smaller"] None = Ok (36 * (5#6)). Proof. reflexivity. Qed.

(** 'larger' never gives less, and 'smaller' never more, than the size it starts from. *)
Theorem c37_larger_up d len near n far w i px base : Forall size_shift near -> f_attr n = Some w -> ~ relative_size_word w ->
  compute_font_size d (f_len n) w far None = Ok base -> compute_font_size d len (lit "larger") (near ++ n :: far) i = Ok px -> base <= px.
Proof.
  intros F A N B E. rewrite size_absolute in B by (destruct (relative_size w) eqn:Q; [apply relative_size_iff in Q; contradiction|reflexivity]). destruct (size_relative d len _ near n far w i px (or_introl eq_refl) F A N E) as (b & B' & C). rewrite B in B'. injection B' as <-.
  rewrite C. change (size_factor (lit "larger")) with (6#5). assert (P := power_ge (shifts near)). assert (G : 10 <= base).
  { unfold absolute_size in B. destruct (match keyword_size d w with Some p => Ok p | None => f_len n w end); [|discriminate]. cbn [bind] in B. injection B as <-. apply at_least_min. }
  eapply Qle_trans; [|apply at_least_ge]. nra.
Qed.
Print Assumptions c37_larger_up.
Theorem c37_smaller_down d len near n far w i px base : Forall size_shift near -> f_attr n = Some w -> ~ relative_size_word w ->
  compute_font_size d (f_len n) w far None = Ok base -> compute_font_size d len (lit "smaller") (near ++ n :: far) i = Ok px -> px <= base.
Proof.
  intros F A N B E. rewrite size_absolute in B by (destruct (relative_size w) eqn:Q; [apply relative_size_iff in Q; contradiction|reflexivity]). destruct (size_relative d len _ near n far w i px (or_intror eq_refl) F A N E) as (b & B' & C). rewrite B in B'. injection B' as <-.
  rewrite C. change (size_factor (lit "smaller")) with (5#6). assert (P := power_le (shifts near)). assert (G : 10 <= base).
  { unfold absolute_size in B. destruct (match keyword_size d w with Some p => Ok p | None => f_len n w end); [|discriminate]. cbn [bind] in B. injection B as <-. apply at_least_min. }
  apply Qle_trans with (at_least base); [|rewrite (at_least_id base G); lra]. apply at_least_mono. revert P. generalize (Qpower (5#6) (Z.of_nat (shifts near))). intros p P. destruct P. clear - G H H0. nra.
Qed.
Print Assumptions c37_smaller_down.
Example c37_direction_ex : compute_font_size 16 px_only (lit "larger") [node "larger"; node "50px"] None = Ok (50 * (6#5)) /\
  compute_font_size 16 px_only (lit "smaller") [node "smaller"; node "60px"] None = Ok (60 * (5#6)).
Proof. split; reflexivity. Qed.

(** False: "larger" on an element is larger than its parent's size. *)
Theorem c37_own_larger_refuted : exists d parent px, f_attr parent = Some (lit "20px") /\ compute_font_size d px_only (lit "larger") [parent] None = Ok px /\ px == 20.
Proof. exists 16, (node "20px"), 20. split; [reflexivity|]. split; reflexivity. Qed.
Print Assumptions c37_own_larger_refuted.
(** False: each word scales its own way; a 'smaller' parent of a 'larger' element scales up. *)
Theorem c37_ancestor_word_refuted : exists px, compute_font_size 16 px_only (lit "larger") [node "smaller"; node "20px"] None = Ok px /\ px == 24.
Proof. eexists. split; [reflexivity|]. reflexivity. Qed.
Print Assumptions c37_ancestor_word_refuted.

(** ** Weights *)

(** The two tables of the specification, at the nine weights. *)
Theorem c37_step_tables z : In z nine_weights ->
  step_weight (lit "bolder") (inject_Z z) == inject_Z (bolder_of z) /\ step_weight (lit "lighter") (inject_Z z) == inject_Z (lighter_of z).
Proof. intros I. split; [apply (step_nine (lit "bolder") z); [now left|exact I]|apply (step_nine (lit "lighter") z); [now right|exact I]]. Qed.
Print Assumptions c37_step_tables.
Example c37_step_tables_ex : In 500%Z nine_weights /\ bolder_of 500 = 700%Z /\ lighter_of 500 = 100%Z. Proof. cbn. tauto. Qed.

(** A bolder parent never lowers an inherited weight up to 900, a lighter one never
    raises one from 100, and both keep order and stay between 100 and 900. *)
Theorem c37_bolder_up_partial w : w <= 900 -> w <= step_weight (lit "bolder") w.
Proof. apply bolder_up. Qed.
Print Assumptions c37_bolder_up_partial.
Theorem c37_lighter_down_partial w : 100 <= w -> step_weight (lit "lighter") w <= w.
Proof. apply lighter_down. Qed.
Print Assumptions c37_lighter_down_partial.
Theorem c37_step_monotone v x y : x <= y -> step_weight v x <= step_weight v y.
Proof. apply step_mono. Qed.
Print Assumptions c37_step_monotone.
Theorem c37_step_range v x : 100 <= step_weight v x <= 900.
Proof. apply step_range. Qed.
Print Assumptions c37_step_range.
Example c37_step_ex : step_weight (lit "bolder") 350 == 550 /\ step_weight (lit "lighter") 550 == 250. Proof. split; reflexivity. Qed.

(** Over the whole range of weights neither direction holds. *)
Theorem c37_bolder_lowers_refuted : exists w, 1 <= w <= 1000 /\ step_weight (lit "bolder") w < w.
Proof. exists 950. split; [lra|reflexivity]. Qed.
Print Assumptions c37_bolder_lowers_refuted.
Theorem c37_lighter_raises_refuted : exists w, 1 <= w <= 1000 /\ w < step_weight (lit "lighter") w.
Proof. exists 50. split; [lra|reflexivity]. Qed.
Print Assumptions c37_lighter_raises_refuted.

(** With a relative weight on the element, the weight is that of the nearest ancestor
    with a weight of its own, changed by each relative word in between, nearest last.
    The element's own word is not counted: see the refutation. *)
Theorem c37_weight_relative_partial v near n far i w : relative_weight_word v -> Forall weight_shift near -> ~ relative_weight_word n ->
  (exists z, absolute_weight n = Ok z /\ In z nine_weights) -> compute_font_weight v (near ++ Some n :: far) i = Ok w ->
  exists z, absolute_weight n = Ok z /\ w = fold_left shift_weight (rev (flat_map (fun a => match a with Some v => [v] | None => [] end) near)) z /\ In w nine_weights.
Proof. apply weight_relative. Qed.
Print Assumptions c37_weight_relative_partial.
Example c37_weight_relative_ex : compute_font_weight (lit "bolder") [Some (lit "lighter"); None; Some (lit "bolder"); Some (lit "bold"); Some (lit "100")] None = Ok 700%Z.
Proof. reflexivity. Qed.
Theorem c37_weight_relative_default v near : relative_weight_word v -> Forall weight_shift near ->
  compute_font_weight v near None = Ok (fold_left shift_weight (rev (flat_map (fun a => match a with Some v => [v] | None => [] end) near)) 400%Z).
Proof. apply weight_relative_default. Qed.
Print Assumptions c37_weight_relative_default.
Example c37_weight_default_ex : compute_font_weight (lit "lighter") [Some (lit "bolder"); None; Some (lit "bolder")] None = Ok 900%Z. Proof. reflexivity. Qed.

(** normal is 400, bold is 700 and a whole number is itself. *)
Theorem c37_weight_absolute l i n : compute_font_weight (lit "normal") l i = Ok 400%Z /\ compute_font_weight (lit "bold") l i = Ok 700%Z /\
  compute_font_weight (digits n) l i = Ok (Z.of_N n).
Proof.
  split; [reflexivity|]. split; [reflexivity|]. unfold compute_font_weight. assert (D := digits_digits n). assert (P := py_int_digits n).
  assert (X : forall c s, is_digit c = false -> digits n <> c :: s). { intros c s F G. rewrite G in D. cbn [forallb] in D. rewrite F in D. discriminate D. }
  assert (R : relative_weight (digits n) = false). { destruct (relative_weight (digits n)) eqn:R; [|reflexivity]. apply relative_weight_iff in R. destruct R as [R|R]; now apply X in R. }
  rewrite R. unfold absolute_weight.
  destruct (text_eqb_spec (digits n) (lit "normal")) as [E|]; [now apply X in E|]. destruct (text_eqb_spec (digits n) (lit "bold")) as [E|]; [now apply X in E|]. now rewrite P.
Qed.
Print Assumptions c37_weight_absolute.

(** Weights between 1 and 1000 all the way give a weight between 1 and 1000. *)
Theorem c37_weight_range_partial v l i w : weight_ok v -> (forall u, In (Some u) l -> weight_ok u) -> match i with Some x => 1 <= x <= 1000 | None => True end ->
  compute_font_weight v l i = Ok w -> (1 <= w <= 1000)%Z.
Proof. apply weight_range. Qed.
Print Assumptions c37_weight_range_partial.
Example c37_weight_range_ex : weight_ok (lit "bolder") /\ weight_ok (lit "950") /\ compute_font_weight (lit "bolder") [Some (lit "bolder"); Some (lit "950")] None = Ok 900%Z.
Proof. split; [now left; left|]. split; [right; exists 950%Z; split; [reflexivity|lia]|reflexivity]. Qed.
Theorem c37_weight_range_refuted : exists v w, compute_font_weight v [] None = Ok w /\ (1000 < w)%Z.
Proof. exists (lit "5000"), 5000%Z. split; [reflexivity|lia]. Qed.
Print Assumptions c37_weight_range_refuted.
(** False: a bolder element is bolder than its parent. *)
Theorem c37_own_bolder_refuted : compute_font_weight (lit "bolder") [Some (lit "400")] None = Ok 400%Z. Proof. reflexivity. Qed.
Print Assumptions c37_own_bolder_refuted.
(** False: the weight can always be found; 'inherit' on an ancestor is read as a number. *)
Theorem c37_weight_inherit_refuted : compute_font_weight (lit "bolder") [Some (lit "inherit"); Some (lit "700")] None = Err ValueError. Proof. reflexivity. Qed.
Print Assumptions c37_weight_inherit_refuted.

(** ** Line height *)

(** normal is 1.2 of the font size, a percentage is of the font size and a length is itself. *)
Theorem c37_line_height parse v fs : compute_line_height parse (lit "normal") fs = Ok ((6#5) * fs) /\
  (v <> lit "normal" -> forall x, (parse v = Ok (true, x) -> exists r, compute_line_height parse v fs = Ok r /\ r * 100 == x * fs) /\
    (parse v = Ok (false, x) -> compute_line_height parse v fs = Ok x) /\ (forall e, parse v = Err e -> compute_line_height parse v fs = Err e)).
Proof.
  split; [reflexivity|]. intros N x. unfold compute_line_height. destruct (text_eqb_spec v (lit "normal")) as [E|_]; [contradiction|].
  split; [intros ->; cbn [bind]; eexists; split; [reflexivity|field]|]. split; [now intros ->|now intros e ->].
Qed.
Print Assumptions c37_line_height.
Example c37_line_height_ex : compute_line_height (fun _ => Ok (true, 150)) (lit "150%") 20 = Ok (150 / 100 * 20). Proof. reflexivity. Qed.
(** False: a bare number multiplies the font size. *)
Theorem c37_line_number_refuted : exists parse, parse (lit "2") = Ok (false, 2) /\ compute_line_height parse (lit "2") 20 = Ok 2.
Proof. exists (fun _ => Ok (false, 2)). split; reflexivity. Qed.
Print Assumptions c37_line_number_refuted.
