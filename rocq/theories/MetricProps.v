(** C83: font metrics and the units that follow them. *)
From Coq Require Import Qround Qabs Lia Lqa.
From Verif Require Import PyBase PyText PySplit LengthModel FontMatchModel ScreenModel MetricModel MetricSpec MetricProofs.
#[local] Open Scope Q_scope.

(* a face whose glyphs grow with the em: x is half an em, H has an advance of
   5/4 em, 0 of 3/5 em across and 1 em down; it has no water ideograph *)
Definition grown (r : request) (i : nat) : option glyph :=
  let e := em_of r * 64 in
  match i with
  | 1%nat => Some (mkG (e / 2) (e / 2) e)
  | 2%nat => Some (mkG (e * (7 # 10)) (e * (3 # 4)) (e * (5 # 4)))
  | 3%nat => Some (mkG (e * (7 # 10)) (e * (3 # 5)) e)
  | _ => Some (mkG 0 (e / 2) e)
  end.
Definition sample : ftface := mkFt (fun c => if N.eqb c 120 then 1 else if N.eqb c 72 then 2 else if N.eqb c 48 then 3 else 0)%nat grown 1900 (-500)
  (fun r => em_of r) (fun r => em_of r * 64 * (6 # 5)) true (fun r => Z.ltb 0 (rq_height r)).
Definition plain_style (size : Q) : cstyle := mkCs (mkFStyle [lit "A"] (lit "normal") (lit "normal") 400 size) None (lit "horizontal-tb") (lit "mixed").
Definition one_font : fontsys := mkSys (mkFonts (fun t => Some t) (fun _ => []) (fun _ _ => true)) (fun _ => Some sample).

(** ** Reading *)
(** Whatever has been read before, with or without success, every metric is
    that of the face at the size that was accepted last. *)
Theorem c83_history : forall fo os,
  tells (fo_face fo) (fo_style fo) (fo_size fo) [] os (fst (fsteps fo os)) /\
  fo_size (snd (fsteps fo os)) = size_now (fo_face fo) (fo_size fo) os.
Proof.
  intros fo os. destruct (steps_tell os fo (fo_face fo) (fo_style fo) (fo_size fo) []) as (A & _ & _ & B); auto.
Qed.
Print Assumptions c83_history.
(** An answer is decided by the face, the style and the size. *)
Theorem c83_answer : forall f st r o a b, says f st r o a -> says f st r o b -> a = b.
Proof. exact says_det. Qed.
Print Assumptions c83_answer.
Example c83_history_case : exists fo, new_font one_font (plain_style 16) None None = Ok fo /\
  map (fun a => match a with Ok (Some q) => Some (Qred q) | _ => None end)
    (fst (fsteps fo [XHeight; ChAdvance; XHeight; SetPointSize 0 0 96 96; XHeight; SetPointSize 0 1536 96 96; XHeight; IcAdvance; CapHeight])) =
  [Some 8; Some (48 # 5); Some 8; None; Some 8; None; Some 16; Some 0; Some 40].
Proof. eexists. split; [reflexivity|vm_compute; reflexivity]. Qed.

(** ** The size of a font *)
(** A font is requested at the largest multiple of 1/64 point that is not more
    than the font size, at the resolution of the screen, and its face is the
    one found for the style and the text. *)
Theorem c83_request : forall sys st s t fo, new_font sys st s t = Ok fo -> 0 <= s_size (c_font st) ->
  sys_open sys (find_face (sys_fonts sys) (c_font st) t) = Some (fo_face fo) /\ fo_style fo = st /\
  ft_unicode (fo_face fo) = true /\ ft_accepts (fo_face fo) (fo_size fo) = true /\ rq_width (fo_size fo) = 0%Z /\
  rq_hres (fo_size fo) = match s with Some s => s_hres s | None => 96%Z end /\
  rq_vres (fo_size fo) = match s with Some s => s_vres s | None => 96%Z end /\
  inject_Z (rq_height (fo_size fo)) / 64 <= s_size (c_font st) * (72 # 96) < inject_Z (rq_height (fo_size fo) + 1) / 64.
Proof.
  intros sys st s t fo. unfold new_font. destruct (get_face sys (c_font st) s t) as [[f r]|e] eqn:G; [|discriminate].
  cbn [bind fst snd]. intros [= <-] H. destruct (get_face_spec _ _ _ _ _ _ G) as (A & U & V & R). cbn [fo_face fo_style fo_size].
  split; [exact A|]. split; [reflexivity|]. split; [exact U|]. split; [exact V|]. rewrite R. cbn [rq_vres rq_hres rq_width rq_height].
  split; [reflexivity|]. split; [destruct s; reflexivity|]. split; [destruct s; reflexivity|].
  rewrite to_int_floor by lra. assert (B := Qfloor_le (48 * s_size (c_font st))). assert (C := Qlt_floor (48 * s_size (c_font st))).
  revert B C. generalize (Qfloor (48 * s_size (c_font st))) as z. intros z B C. rewrite inject_Z_plus in C. rewrite inject_Z_plus. change (inject_Z 1) with 1 in *.
  revert B C. generalize (inject_Z z) as y, (s_size (c_font st)) as x. clear. intros x y B C. unfold Qdiv. change (/ 64) with (1 # 64). split; lra.
Qed.
Print Assumptions c83_request.
(** It is refused only where the face cannot be opened, has no Unicode
    characters or does not have the size. *)
Theorem c83_refused : forall sys st s t e, new_font sys st s t = Err e -> 0 <= s_size (c_font st) ->
  e = OtherError /\ forall f, sys_open sys (find_face (sys_fonts sys) (c_font st) t) = Some f -> ft_unicode f = true ->
    exists h, ft_accepts f (mkRq 0 h (match s with Some s => s_hres s | None => 96%Z end) (match s with Some s => s_vres s | None => 96%Z end)) = false /\
      inject_Z h / 64 <= s_size (c_font st) * (72 # 96) < inject_Z (h + 1) / 64.
Proof.
  intros sys st s t e N H. unfold new_font, get_face in N. destruct (sys_open _ _) as [f|] eqn:O; [|injection N as <-; split; [reflexivity|discriminate]].
  destruct (ft_unicode f) eqn:U; [|injection N as <-; split; [reflexivity|intros g [= <-]; congruence]].
  destruct (pt_value (s_size (c_font st))) as (q & E & Q1). rewrite E in N. cbn [bind] in N.
  rewrite (to_int_comp (q * 64) (48 * s_size (c_font st))) in N by (rewrite Q1; ring).
  destruct (ft_accepts f _) eqn:A; [discriminate|]. injection N as <-. split; [reflexivity|]. intros g [= <-] _.
  exists (to_int (48 * s_size (c_font st))). split; [destruct s; exact A|].
  rewrite to_int_floor by lra. assert (B := Qfloor_le (48 * s_size (c_font st))). assert (C := Qlt_floor (48 * s_size (c_font st))).
  revert B C. generalize (Qfloor (48 * s_size (c_font st))) as z. intros z B C. rewrite inject_Z_plus in C. rewrite inject_Z_plus. change (inject_Z 1) with 1 in *.
  revert B C. generalize (inject_Z z) as y, (s_size (c_font st)) as x. clear. intros x y B C. unfold Qdiv. change (/ 64) with (1 # 64). split; lra.
Qed.
Print Assumptions c83_refused.
Example c83_refused_case : new_font one_font (plain_style (1 # 49)) None None = Err OtherError /\ ft_accepts sample (mkRq 0 0 96 96) = false.
Proof. split; reflexivity. Qed.
(** At 96 pixels per inch the em is the font size, less at most 1/48 pixel. *)
Theorem c83_em_partial : forall sys st s t fo, new_font sys st s t = Ok fo -> 0 <= s_size (c_font st) ->
  match s with Some s => s_vres s = 96%Z | None => True end ->
  em_of (fo_size fo) <= s_size (c_font st) < em_of (fo_size fo) + (1 # 48).
Proof.
  intros sys st s t fo N H V. destruct (c83_request _ _ _ _ _ N H) as (_ & _ & _ & _ & _ & _ & R & B). unfold em_of. rewrite R.
  assert (V' : match s with Some s => s_vres s | None => 96%Z end = 96%Z) by (destruct s; auto). rewrite V'.
  rewrite inject_Z_plus in B. change (inject_Z 1) with 1 in B. change (inject_Z 96) with 96. revert B.
  generalize (inject_Z (rq_height (fo_size fo))) as y, (s_size (c_font st)) as x. clear. intros x y B. unfold Qdiv in *.
  change (/ 64) with (1 # 64) in *. change (/ 72) with (1 # 72). split; lra.
Qed.
Print Assumptions c83_em_partial.
Example c83_em_case : exists fo, new_font one_font (plain_style (33 # 7)) None None = Ok fo /\ em_of (fo_size fo) == 226 # 48.
Proof. eexists. split; [reflexivity|vm_compute; reflexivity]. Qed.
(** At another resolution it is not: glyphs are drawn in the coordinates of the
    document, but twice as large on a screen of 192 pixels per inch. *)
Theorem c83_em_refuted : exists sys st s fo, new_font sys st (Some s) None = Ok fo /\ s_size (c_font st) == 16 /\ em_of (fo_size fo) == 32.
Proof.
  exists one_font, (plain_style 16), (sstep (sstep new_screen (SHres 192)) (SVres 192)). eexists.
  split; [reflexivity|]. split; [reflexivity|vm_compute; reflexivity].
Qed.
Print Assumptions c83_em_refuted.
(** The ascent and the descent do not follow the size at all. *)
Theorem c83_ascent : forall fo os o a b, o = Ascent \/ o = Descent ->
  fst (fstep fo o) = a -> fst (fstep (snd (fsteps fo os)) o) = b -> a = b.
Proof.
  intros fo os o a b O A B. destruct (steps_tell os fo (fo_face fo) (fo_style fo) (fo_size fo) []) as (_ & F & _); auto.
  destruct O; subst o; cbn in A, B; subst; rewrite F; reflexivity.
Qed.
Print Assumptions c83_ascent.
Theorem c83_ascent_refuted : exists fo os x y, fst (fstep fo LineHeight) = Ok (Some x) /\ fst (fstep (snd (fsteps fo os)) LineHeight) = Ok (Some y) /\
  y == 2 * x /\ ~ x == 0 /\ fst (fstep (snd (fsteps fo os)) Ascent) = fst (fstep fo Ascent) /\ fst (fstep fo Ascent) = Ok (Some (1900 / 64)).
Proof.
  exists (mkFont sample (mkRq 0 768 96 96) None (plain_style 16)), [SetPointSize 0 1536 96 96]. eexists _, _.
  split; [reflexivity|]. split; [reflexivity|]. split; [vm_compute; reflexivity|]. split; [vm_compute; discriminate|]. split; reflexivity.
Qed.
Print Assumptions c83_ascent_refuted.

(** ** The units *)
(** A number of ex, cap, ch or ic is that many times the metric; where that is
    zero, the font size of the parent; without a context, half of it. *)
Theorem c83_pixels : forall parent fo n u k, In u [lit "ex"; lit "cap"; lit "ch"; lit "ic"] ->
  says (fo_face fo) (fo_style fo) (fo_size fo) (metric_op u) (Ok (Some k)) ->
  exists fo', metric_to_px parent (Some fo) n u = (Ok (n * (if k =?q 0 then parent else k)), Some fo') /\
    fo_face fo' = fo_face fo /\ fo_size fo' = fo_size fo /\ fo_style fo' = fo_style fo.
Proof.
  intros parent fo n u k _ S. destruct (unit_metric_says fo u) as (a & A & (F1 & F2 & F3) & B). unfold metric_to_px.
  assert (E := says_det _ _ _ _ _ _ A S). destruct (unit_metric fo u) as [[q|e] fo'] eqn:M; cbn [fst snd] in *.
  - assert (q = k) by congruence. subst q. exists fo'. auto.
  - congruence.
Qed.
Print Assumptions c83_pixels.
Theorem c83_pixels_error : forall parent fo n u e, In u [lit "ex"; lit "cap"; lit "ch"; lit "ic"] ->
  says (fo_face fo) (fo_style fo) (fo_size fo) (metric_op u) (Err e) -> fst (metric_to_px parent (Some fo) n u) = Err e.
Proof.
  intros parent fo n u e _ S. destruct (unit_metric_says fo u) as (a & A & _ & B). unfold metric_to_px.
  assert (E := says_det _ _ _ _ _ _ A S). destruct (unit_metric fo u) as [[q|e'] fo'] eqn:M; cbn [fst snd] in *; congruence.
Qed.
Print Assumptions c83_pixels_error.
Example c83_pixels_case : exists fo, new_font one_font (plain_style 20) None None = Ok fo /\
  match metric_to_px 16 (Some fo) 3 (lit "ex") with (Ok q, _) => q == 30 | _ => False end /\
  match metric_to_px 16 (Some fo) 3 (lit "ic") with (Ok q, _) => q == 48 | _ => False end /\
  match metric_to_px 16 None 3 (lit "ex") with (Ok q, _) => q == 24 | _ => False end.
Proof. eexists. split; [reflexivity|]. vm_compute. auto. Qed.
(** These are the numbers that SVGLength reads of its context (C33). *)
Theorem c83_refines : forall c d parent fo s n u m, In u font_relative -> parent_size c == parent -> metric c = Some m ->
  says (fo_face fo) (fo_style fo) (fo_size fo) (metric_op u) (Ok (Some (m u))) ->
  exists q, to_pixels c d n (Some u) = Ok q /\
    match metric_to_px parent (Some fo) n u with (Ok p, _) => p == q | _ => False end /\
    forall px k, ft_accepts (fo_face fo) (mkRq 0 (to_int (px / (96 / 72) * 64)) (fst (resolutions s)) (snd (resolutions s))) = true ->
      says (fo_face fo) (fo_style fo) (mkRq 0 (to_int (px / (96 / 72) * 64)) (fst (resolutions s)) (snd (resolutions s))) (metric_op u) (Ok (Some k)) ->
      metric_at c px u = k ->
      match from_pixels c d px (Some u), px_to_metric parent (Some fo) s px u with
      | Ok x, Ok y => x == y | Err x, Err y => x = y | _, _ => False end.
Proof.
  intros c d parent fo s n u m U P M S.
  assert (NP : is_px (Some u) = false /\ text_eqb u (lit "rem") = false /\ text_eqb u (lit "em") = false /\ text_eqb u (lit "%") = false /\ mem u metric_units = true).
  { cbn in U. destruct U as [ <- |[ <- |[ <- |[ <- |[]]]]]; repeat split. }
  destruct NP as (N1 & N2 & N3 & N4 & N5).
  exists (n * (if m u =?q 0 then parent_size c else m u)). split; [|split].
  - unfold to_pixels. rewrite N1, N2, N3, N4, N5, M. reflexivity.
  - destruct (c83_pixels parent fo n u (m u) U S) as (fo' & E & _). rewrite E. destruct (m u =?q 0); [rewrite P; reflexivity|reflexivity].
  - intros px k A K E. unfold from_pixels, px_to_metric. rewrite N1, N2, N3, N4, N5, M, E. cbv zeta.
    unfold set_point_size. rewrite A.
    set (fo1 := mkFont _ _ _ _). destruct (unit_metric_says fo1 u) as (a & A1 & _ & B). cbn [fo1 fo_face fo_style fo_size] in A1.
    assert (X := says_det _ _ _ _ _ _ A1 K). destruct (fst (unit_metric fo1 u)) as [q|e]; [|congruence].
    assert (q = k) by congruence. subst q. unfold div. destruct (k =?q 0).
    + rewrite (qeqb_comp _ _ 0 P). destruct (parent =?q 0); [reflexivity|]. rewrite P. reflexivity.
    + destruct (k =?q 0); reflexivity.
Qed.
Print Assumptions c83_refines.

(** Without a context both ways take half the font size. *)
Theorem c83_no_context : forall c d parent n u, In u font_relative -> parent_size c == parent -> metric c = None ->
  match to_pixels c d n (Some u), metric_to_px parent None n u with Ok x, (Ok y, None) => x == y /\ x == n * (parent / 2) | _, _ => False end /\
  match from_pixels c d n (Some u), px_to_metric parent None None n u with
  | Ok x, Ok y => x == y /\ x * (parent / 2) == n
  | Err x, Err y => x = y /\ parent == 0
  | _, _ => False end.
Proof.
  intros c d parent n u U P M.
  assert (NP : is_px (Some u) = false /\ text_eqb u (lit "rem") = false /\ text_eqb u (lit "em") = false /\ text_eqb u (lit "%") = false /\ mem u metric_units = true).
  { cbn in U. destruct U as [ <- |[ <- |[ <- |[ <- |[]]]]]; repeat split. }
  destruct NP as (N1 & N2 & N3 & N4 & N5). split.
  - unfold to_pixels, metric_to_px. rewrite N1, N2, N3, N4, N5, M. rewrite P. split; field.
  - unfold from_pixels, px_to_metric, div. rewrite N1, N2, N3, N4, N5, M. rewrite (qeqb_comp (parent_size c / 2) (parent / 2) 0) by (rewrite P; reflexivity).
    destruct (Qeqb_spec (parent / 2) 0) as [Z|Z].
    + split; [reflexivity|]. assert (X : parent == parent / 2 * 2) by field. rewrite X, Z. reflexivity.
    + rewrite P. assert (~ parent == 0) by (intros E; apply Z; rewrite E; reflexivity). split; field; assumption.
Qed.
Print Assumptions c83_no_context.

(** ** Back to the units *)
(** The other way the metric is taken at the size being converted, not at the
    font size.  So with a font whose glyphs grow with the em every length
    (of whole 1/64 points) is the same number of ex. *)
Theorem c83_to_constant : forall parent fo s des p u, scales (fo_face fo) (fo_style fo) des -> In u [lit "ex"; lit "cap"; lit "ch"; lit "ic"] ->
  (0 < p)%Z -> (0 < snd (resolutions s))%Z -> 0 < design_of des u ->
  ft_accepts (fo_face fo) (mkRq 0 p (fst (resolutions s)) (snd (resolutions s))) = true ->
  match px_to_metric parent (Some fo) s (inject_Z p / 48) u with
  | Ok q => q * (design_of des u * (inject_Z (snd (resolutions s)) / 96)) == 1
  | Err _ => False
  end.
Proof.
  intros parent fo s des p u SC U P R D A.
  assert (T : to_int (inject_Z p / 48 / (96 / 72) * 64) = p).
  { rewrite (to_int_comp _ (inject_Z p)) by field. unfold to_int. cbn. apply Z.quot_1_r. }
  unfold px_to_metric. cbv zeta. rewrite T. unfold set_point_size. rewrite A.
  set (r := mkRq 0 p _ _) in *. set (fo1 := mkFont _ _ _ _). destruct (unit_metric_says fo1 u) as (a & A1 & _ & B). cbn [fo1 fo_face fo_style fo_size] in A1.
  destruct (SC r u a U A1) as (k & -> & K). destruct (fst (unit_metric fo1 u)) as [q|e]; [|congruence].
  assert (q = k) by congruence. subst q.
  assert (EM : em_of r == inject_Z p * inject_Z (snd (resolutions s)) / 4608) by (unfold em_of, r; cbn [rq_height rq_vres]; field).
  assert (PP : 0 < inject_Z p) by (unfold inject_Z, Qlt; cbn; lia).
  assert (RR : 0 < inject_Z (snd (resolutions s))) by (unfold inject_Z, Qlt; cbn; lia).
  assert (E0 : 0 < em_of r).
  { rewrite EM. apply Qlt_shift_div_l; [reflexivity|]. rewrite Qmult_0_l. apply Qmult_lt_0_compat; assumption. }
  assert (K0 : 0 < k) by (rewrite K; apply Qmult_lt_0_compat; assumption).
  destruct (Qeqb_spec k 0) as [Z0|Z0]; [exfalso; lra|]. unfold div. destruct (Qeqb_spec k 0) as [Z1|Z1]; [exfalso; lra|].
  rewrite K, EM. field. split; [|split]; lra.
Qed.
Print Assumptions c83_to_constant.
Lemma sample_scales : scales sample (plain_style 16) (mkD (1 # 2) (5 # 4) (3 # 5) 0).
Proof.
  intros r u a U S.
  assert (X : forall b, says sample (plain_style 16) r (metric_op u) b -> a = b) by (intros b B; exact (says_det _ _ _ _ _ _ S B)).
  cbn in U. destruct U as [ <- |[ <- |[ <- |[ <- |[]]]]].
  - eexists. split; [apply X; change (metric_op (lit "ex")) with XHeight; eapply Says_x; reflexivity|]. cbn [g_height]. change (design_of _ _) with (1 # 2). field.
  - eexists. split; [apply X; change (metric_op (lit "cap")) with CapHeight; eapply (Says_cap _ _ _ 72); [now left|discriminate|reflexivity]|]. cbn [g_vadv]. change (design_of _ _) with (5 # 4). field.
  - eexists. split; [apply X; change (metric_op (lit "ch")) with ChAdvance; eapply Says_ch; [reflexivity|apply Pen_across; now left]|]. cbn [g_hadv]. change (design_of _ _) with (3 # 5). field.
  - eexists. split; [apply X; change (metric_op (lit "ic")) with IcAdvance; apply Says_ic_none; reflexivity|]. change (design_of _ _) with 0. ring.
Qed.
Example c83_to_constant_case : exists fo, new_font one_font (plain_style 16) None None = Ok fo /\ scales (fo_face fo) (fo_style fo) (mkD (1 # 2) (5 # 4) (3 # 5) 0) /\
  match px_to_metric 16 (Some fo) None 40 (lit "ex"), px_to_metric 16 (Some fo) None 7 (lit "ex") with Ok x, Ok y => x == 2 /\ y == 2 | _, _ => False end.
Proof. eexists. split; [reflexivity|]. split; [exact sample_scales|]. vm_compute. auto. Qed.
(** So a length does not come back from pixels: 5ex are 40 pixels, and these
    are 2ex. *)
Theorem c83_back_refuted : exists parent fo n px, fst (metric_to_px parent (Some fo) n (lit "ex")) = Ok px /\ px == 40 /\ n == 5 /\
  match metric_convert parent (Some fo) None n (lit "ex") (lit "ex") with Ok q => q == 2 | Err _ => False end.
Proof.
  exists 16, (mkFont sample (mkRq 0 768 96 96) None (plain_style 16)), 5. eexists.
  split; [reflexivity|]. split; [vm_compute; reflexivity|]. split; [reflexivity|vm_compute; reflexivity].
Qed.
Print Assumptions c83_back_refuted.
(** It does where the length is as long as the font is large. *)
Theorem c83_back_partial : forall parent fo s n u k, In u [lit "ex"; lit "cap"; lit "ch"; lit "ic"] -> ~ k == 0 ->
  says (fo_face fo) (fo_style fo) (fo_size fo) (metric_op u) (Ok (Some k)) ->
  ft_accepts (fo_face fo) (fo_size fo) = true -> fo_size fo = mkRq 0 (to_int (n * k * 48)) (fst (resolutions s)) (snd (resolutions s)) ->
  match metric_convert parent (Some fo) s n u u with Ok q => q == n | Err _ => False end.
Proof.
  intros parent fo s n u k U K S A R. unfold metric_convert. destruct (c83_pixels parent fo n u k U S) as (fo' & E & F1 & F2 & F3). rewrite E.
  destruct (Qeqb_spec k 0) as [Z|Z]; [contradiction|]. unfold px_to_metric. cbv zeta.
  rewrite (to_int_comp (n * k / (96 / 72) * 64) (n * k * 48)) by field. unfold set_point_size. rewrite <- R, F1, A.
  set (fo1 := mkFont _ _ _ _). destruct (unit_metric_says fo1 u) as (a & A1 & _ & B). cbn [fo1 fo_face fo_style fo_size] in A1. rewrite F3 in A1.
  assert (X := says_det _ _ _ _ _ _ A1 S). destruct (fst (unit_metric fo1 u)) as [q|e]; [|congruence]. assert (q = k) by congruence. subst q.
  destruct (Qeqb_spec k 0) as [Z1|Z1]; [contradiction|]. unfold div. destruct (Qeqb_spec k 0) as [Z2|Z2]; [contradiction|]. field. exact K.
Qed.
Print Assumptions c83_back_partial.
Example c83_back_case : let fo := mkFont sample (mkRq 0 768 96 96) None (plain_style 16) in fo_size fo = mkRq 0 (to_int (2 * 8 * 48)) 96 96.
Proof. reflexivity. Qed.

(** ** Capital letters *)
(** With neither 'H' nor 'h' the height of capitals cannot be had: the fallback
    reads an attribute that does not exist.  Otherwise it is the vertical
    advance of the letter, not its height. *)
Theorem c83_cap_missing : forall fo parent n, ft_index (fo_face fo) 72 = 0%nat -> ft_index (fo_face fo) 104 = 0%nat ->
  fst (metric_to_px parent (Some fo) n (lit "cap")) = Err AttributeError.
Proof.
  intros fo parent n H1 H2. apply c83_pixels_error; [cbn; auto|]. change (metric_op (lit "cap")) with CapHeight. apply Says_cap_none; assumption.
Qed.
Print Assumptions c83_cap_missing.
Theorem c83_cap_refuted : exists fo g q, glyph_of (fo_face fo) (fo_size fo) 72 = Some g /\ fst (fstep fo CapHeight) = Ok (Some q) /\ ~ q == g_height g / 64.
Proof.
  exists (mkFont sample (mkRq 0 768 96 96) None (plain_style 16)). eexists _, _. split; [reflexivity|]. split; [reflexivity|]. vm_compute. discriminate.
Qed.
Print Assumptions c83_cap_refuted.

(** ** Equality of fonts *)
Theorem c83_eq : forall x y, font_eqb x y = true <->
    (s_families (c_font (fo_style x)) = s_families (c_font (fo_style y)) /\ s_size (c_font (fo_style x)) == s_size (c_font (fo_style y)) /\
     match c_adjust (fo_style x), c_adjust (fo_style y) with None, None => True | Some p, Some q => p == q | _, _ => False end /\
     s_stretch (c_font (fo_style x)) = s_stretch (c_font (fo_style y)) /\ s_style (c_font (fo_style x)) = s_style (c_font (fo_style y)) /\
     s_weight (c_font (fo_style x)) == s_weight (c_font (fo_style y))).
Proof.
  assert (AS : forall a b, reflect (match a, b with None, None => True | Some x, Some y => x == y | _, _ => False end) (adjust_eqb a b)).
  { intros [x|] [y|]; cbn; try (constructor; auto). apply Qeqb_spec. }
  intros x y. unfold font_eqb. cbv zeta.
  destruct (texts_eqb_spec (s_families (c_font (fo_style x))) (s_families (c_font (fo_style y))));
  destruct (Qeqb_spec (s_size (c_font (fo_style x))) (s_size (c_font (fo_style y))));
  destruct (AS (c_adjust (fo_style x)) (c_adjust (fo_style y)));
  destruct (text_eqb_spec (s_stretch (c_font (fo_style x))) (s_stretch (c_font (fo_style y))));
  destruct (text_eqb_spec (s_style (c_font (fo_style x))) (s_style (c_font (fo_style y))));
  destruct (Qeqb_spec (s_weight (c_font (fo_style x))) (s_weight (c_font (fo_style y)))); cbn [andb]; split; try discriminate; tauto.
Qed.
Print Assumptions c83_eq.
Theorem c83_eq_equivalence : (forall x, font_eqb x x = true) /\ (forall x y, font_eqb x y = font_eqb y x) /\
  (forall x y z, font_eqb x y = true -> font_eqb y z = true -> font_eqb x z = true).
Proof.
  assert (SP := c83_eq).
  split; [|split].
  - intros x. apply SP. repeat split; try reflexivity. destruct (c_adjust (fo_style x)); [reflexivity|exact I].
  - assert (G : forall x y, font_eqb x y = true -> font_eqb y x = true).
    { intros x y H. apply SP in H as (A & B & C & D & E & F). apply SP. repeat split; try (symmetry; assumption).
      destruct (c_adjust (fo_style x)), (c_adjust (fo_style y)); try exact C. symmetry. exact C. }
    intros x y. destruct (font_eqb x y) eqn:E1, (font_eqb y x) eqn:E2; try reflexivity.
    + apply G in E1. congruence.
    + apply G in E2. congruence.
  - intros x y z H1 H2. apply SP in H1 as (A & B & C & D & E & F). apply SP in H2 as (A' & B' & C' & D' & E' & F'). apply SP.
    split; [congruence|]. split; [lra|]. split; [|split; [congruence|split; [congruence|lra]]].
    destruct (c_adjust (fo_style x)), (c_adjust (fo_style y)), (c_adjust (fo_style z)); try contradiction; try exact I. lra.
Qed.
Print Assumptions c83_eq_equivalence.
(** Equal fonts made for the same text and screen have the same face and size. *)
Theorem c83_equal_partial : forall sys a b s t x y, new_font sys a s t = Ok x -> new_font sys b s t = Ok y -> font_eqb x y = true ->
  fo_face x = fo_face y /\ fo_size x = fo_size y.
Proof.
  intros sys a b s t x y X Y E. unfold new_font in X, Y.
  destruct (get_face sys (c_font a) s t) as [[f r]|] eqn:G1; [|discriminate]. destruct (get_face sys (c_font b) s t) as [[g q]|] eqn:G2; [|discriminate].
  cbn [bind fst snd] in X, Y. injection X as <-. injection Y as <-. cbn [fo_face fo_size].
  unfold font_eqb in E. cbv zeta in E. cbn [fo_style] in E. rewrite !andb_true_iff in E. destruct E as (((((E1 & E2) & _) & E4) & E5) & E6).
  destruct (texts_eqb_spec (s_families (c_font a)) (s_families (c_font b))); [|discriminate].
  destruct (Qeqb_spec (s_size (c_font a)) (s_size (c_font b))) as [Q1|]; [|discriminate].
  destruct (text_eqb_spec (s_stretch (c_font a)) (s_stretch (c_font b))); [|discriminate].
  destruct (text_eqb_spec (s_style (c_font a)) (s_style (c_font b))); [|discriminate].
  destruct (Qeqb_spec (s_weight (c_font a)) (s_weight (c_font b))) as [Q2|]; [|discriminate].
  destruct (get_face_spec _ _ _ _ _ _ G1) as (O1 & _ & _ & R1). destruct (get_face_spec _ _ _ _ _ _ G2) as (O2 & _ & _ & R2).
  rewrite (find_face_comp _ (c_font a) (c_font b) t) in O1 by assumption. split; [congruence|].
  rewrite R1, R2. f_equal. apply to_int_comp. rewrite Q1. reflexivity.
Qed.
Print Assumptions c83_equal_partial.
Example c83_equal_case : exists x y, new_font one_font (plain_style 16) None None = Ok x /\ new_font one_font (plain_style (32 # 2)) None None = Ok y /\ font_eqb x y = true.
Proof. eexists _, _. split; [reflexivity|]. split; reflexivity. Qed.
(** For different texts they may have different faces. *)
Theorem c83_equal_refuted : exists sys st t u x y, new_font sys st None (Some t) = Ok x /\ new_font sys st None (Some u) = Ok y /\
  font_eqb x y = true /\ ft_index (fo_face x) 120 <> ft_index (fo_face y) 120.
Proof.
  set (fa := mkFace (lit "a.ttf") 0 16 0 400 100).
  exists (mkSys (mkFonts (fun t => Some t) (fun _ => [fa]) (fun _ c => N.eqb c 97))
     (fun o => match o with Some _ => Some sample | None => Some (mkFt (fun _ => 0%nat) grown 0 0 (fun _ => 0) (fun _ => 0) true (fun _ => true)) end)),
    (plain_style 16), (lit "a"), (lit "b").
  eexists _, _. split; [reflexivity|]. split; [reflexivity|]. split; [reflexivity|]. discriminate.
Qed.
Print Assumptions c83_equal_refuted.
