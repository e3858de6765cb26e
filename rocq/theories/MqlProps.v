(** C80: media query lists of a window. *)
From Coq Require Import Qabs Qminmax Lqa Lia.
From Verif Require Import PyBase PyText PyStrip PySplit PyDict NumScan FormatModel FormatSpec FormatProofs CssUnitModel LengthModel LengthSpec LengthProofs ScreenModel
  MediaQueryModel MediaQuerySpec MqParseModel MqParseSpec MqParseProofs4 MqParseProps MqlModel MqlSpec MqlProofs.
#[local] Open Scope Q_scope.

(** a window of 640 x 480 without a document, a screen of 1920 x 1080, and the
    same with a root element of 300.5 x 200 *)
Definition sample_screen : screen := mkS 1920 1080 24 96 96 0 (3 # 2) 0.
Definition sample : situation := mkSit None (640%Z, 480%Z) sample_screen (lit "screen") (lit "progressive") (lit "fast") (lit "srgb") 2.
Definition rooted : situation :=
  mkSit (Some (601 # 2, 200, no_context)) (640%Z, 480%Z) sample_screen (lit "screen") (lit "progressive") (lit "fast") (lit "srgb") 2.
Definition six : printing := mkPr (format_number 6) (fun _ => Err ValueError).
Lemma six_prints x : rounded 6 x == x -> prints six x.
Proof.
  intros E u I. destruct (parse_printed 6 x (Some u)) as (v & P & V); [repeat constructor|right; exists u; split; [reflexivity|]|exists v; split; [exact P|now rewrite V]].
  cbn [In] in I. destruct I as [<-|[<-|[]]]; apply mem_in; reflexivity.
Qed.
Lemma sample_faithful : faithful six sample /\ faithful six rooted.
Proof. split; (split; [apply six_prints; reflexivity|]); [exact Logic.I|split; apply six_prints; reflexivity]. Qed.

(** C80.  A list of queries matches a window when one of its queries says
    something true of it: the lengths are those of the viewport (of the window
    without a root element) and of the screen, in pixels, the resolution that
    of the screen times the zoom, the colours those of the screen.
    All lists of the grammar of MqParseSpec, with any lengths and units, of any
    window whose heights are not zero and whose colour depth is not negative.
    Missing: 'not' about several conditions (c57_not_type_refuted), '=' and '<'
    for aspect-ratio (c27_aspect_ratio_refuted), device-aspect-ratio
    (c80_device_ratio_refuted), numbers closer than the tolerance. *)
Theorem c80_matches_partial : forall p s v l, faithful p s -> settled s ->
  Forall good_item l -> Forall lawful (queries l) -> Forall single_not (queries l) -> Forall (right s v) (queries l) ->
  matches p s (list_text l) = Ok (existsb (says v) (queries l)).
Proof.
  intros p s v l F St G L N R. destruct (conditions_made p s St) as (ar & dar & E & Ar & _).
  destruct (c57_says_partial (env_of p s (made p s ar dar)) v l G L N) as (md & M).
  { revert R. apply Forall_impl. intros q. apply right_sincere; [exact F|apply St|exact Ar]. }
  unfold matches. unfold match_text in M. destruct (MqParseModel.parse (list_text l)) as [ns|]; [|discriminate]. cbn [bind] in *. rewrite E. cbn [bind].
  fold (env_of p s (made p s ar dar)). rewrite M. reflexivity.
Qed.
Print Assumptions c80_matches_partial.
(* "screen and (min-width: 4.25in) and (300px < width <= 1000px),, not  (scan)" of the window of 640 pixels *)
Definition the_min := FPlain 0 (lit "min-width") 0 1 (lit "4.25in") 0.
Definition the_between := FRange2 0 (lit "300px") 1 OpLt 1 (lit "width") 1 OpLe 1 (lit "1000px") 0.
Definition the_list : list item :=
  [(0%nat, Some (QTypeAnd NoPrefix (lit "screen") 0 0 the_min [mkLink 0 BAnd 0 the_between]), 0%nat);
   (0%nat, None, 0%nat); (1%nat, Some (QFeatures (Some 1%nat) (FBool (lit "scan")) []), 0%nat)].
Definition the_truth : truths := mkTruths (fun t => text_eqb t (lit "screen")) (fun f => true).
Lemma amounts_px s v n : LengthModel.parse v = Ok (n, Some (lit "px")) -> amounts s v Length 1 n.
Proof. intros E. exists n, (Some (lit "px")). split; [exact E|]. split; [constructor|]. split; [reflexivity|]. split; [apply steady_px|ring]. Qed.
Lemma far a b : tol * Qmax (Qmax (Qabs a) (Qabs b)) 1 < Qabs (a - b) -> clear 1 a b.
Proof. now right. Qed.
Lemma width_min : bound_name (lit "min-width") (lit "width") OpGe.
Proof. apply (bn_min (lit "width")). apply mem_not_in. reflexivity. Qed.
Example c80_matches_case : settled sample /\ Forall good_item the_list /\ Forall lawful (queries the_list) /\ Forall single_not (queries the_list) /\
  Forall (right sample the_truth) (queries the_list) /\ existsb (says the_truth) (queries the_list) = true /\ matches six sample (list_text the_list) = Ok true.
Proof.
  split; [repeat split; vm_compute; intros H; discriminate H|]. split.
  { apply Forall_cons; [|apply Forall_cons; [exact Logic.I|apply Forall_cons; [|apply Forall_nil]]]; cbn [good_item fst snd good_query].
    + split; [apply good_word; [discriminate|reflexivity]|]. split; [intros [H|[H|[H|[H|[]]]]]; discriminate H|].
      split; [split; apply good_word; (discriminate || reflexivity)|]. apply Forall_cons; [|apply Forall_nil].
      cbn [l_feature the_between good_feature]. repeat split; try discriminate; try (apply Forall_forall; apply forallb_forall; reflexivity). repeat constructor.
    + split; [apply good_word; (discriminate || reflexivity)|apply Forall_nil]. }
  split. { apply Forall_cons; [reflexivity|]. apply Forall_cons; [left; reflexivity|apply Forall_nil]. }
  split. { apply Forall_cons; [exact Logic.I|]. apply Forall_cons; [reflexivity|apply Forall_nil]. }
  split; [|split; [reflexivity|vm_compute; reflexivity]].
  apply Forall_cons; [|apply Forall_cons; [|apply Forall_nil]].
  - split; [split; [apply mem_in; reflexivity|split; [intros _; right; reflexivity|intros _; reflexivity]]|]. split.
    + assert (E : true = holds OpGe (inject_Z 640) ((17 # 4) * 96)) by reflexivity. cbn [t_feature the_truth]. rewrite E.
      apply (f_plain sample 0 (lit "min-width") 0 1 (lit "4.25in") 0 (lit "width") OpGe Length _ 96); [exact width_min|exact (m_width sample)| |right; reflexivity].
      eexists _, (Some (lit "in")). split; [reflexivity|]. split; [constructor|]. split; [reflexivity|]. split; [|vm_compute; reflexivity].
      intros t m q [= <-] I. exfalso. cbn in I. decompose [or] I; discriminate || assumption.
    + apply Forall_cons; [|apply Forall_nil]. cbn [l_feature t_feature the_truth].
      assert (E : true = holds OpLt 300 (inject_Z 640) && holds OpLe (inject_Z 640) 1000) by reflexivity. rewrite E.
      apply (f_between sample 0 (lit "300px") 1 OpLt 1 (lit "width") 1 OpLe 1 (lit "1000px") 0 Length _ 1 _ 1 _); try reflexivity; [exact (m_width sample)|apply amounts_px; reflexivity|right; reflexivity|apply amounts_px; reflexivity|right; reflexivity].
  - split; [|apply Forall_nil]. cbn [t_feature the_truth]. apply f_bool; [apply mem_not_in; reflexivity|discriminate|].
    split; [intros _; left; apply mem_in; reflexivity|reflexivity].
Qed.

(** One feature alone, for lengths: "(min-width: v)" matches when the viewport
    is at least as wide, "(max-width: v)" when at most, and so on. *)
Theorem c80_feature : forall p s n v x o kd a z b, faithful p s -> settled s -> word n -> word v ->
  bound_name n x o -> measured s x kd a -> amounts s v kd z b -> clear 1 a b ->
  matches p s (lit "(" ++ n ++ lit ": " ++ v ++ lit ")") = Ok (holds o a b).
Proof.
  intros p s n v x o kd a z b F St Wn Wv Bn M Am C.
  set (f := FPlain 0 n 0 1 v 0). assert (T : lit "(" ++ n ++ lit ": " ++ v ++ lit ")" = list_text [(0%nat, Some (QFeatures None f []), 0%nat)]).
  { unfold list_text. cbn [map join item_text query_text neg_text links_text concat]. unfold f, feature_text, inner, sp. cbn [repeat]. cbn [app]. rewrite !app_nil_r, <- !app_assoc. reflexivity. }
  rewrite T. rewrite (c80_matches_partial p s (mkTruths (fun _ => true) (fun _ => holds o a b))); try assumption.
  - cbn [queries flat_map snd fst app existsb says all_of t_feature only_ands forallb]. unfold says, all_of. cbn [t_feature only_ands forallb]. now destruct (holds o a b).
  - apply Forall_cons; [|apply Forall_nil]. split; [split; assumption|apply Forall_nil].
  - apply Forall_cons; [left; reflexivity|apply Forall_nil].
  - apply Forall_cons; [reflexivity|apply Forall_nil].
  - apply Forall_cons; [|apply Forall_nil]. split; [|apply Forall_nil]. apply (f_plain s 0 n 0 1 v 0 x o kd a z b); assumption.
Qed.
Print Assumptions c80_feature.
Example c80_feature_case : matches six sample (lit "(min-width: 40em)") = Ok true /\ matches six sample (lit "(min-width: 41em)") = Ok false /\
  matches six rooted (lit "(width: 300.5px)") = Ok true /\ matches six sample (lit "(max-resolution: 2dppx)") = Ok false /\
  matches six sample (lit "(resolution: 288dpi)") = Ok true /\ measured sample (lit "resolution") Resolution ((3 # 2) * 2) /\
  amounts sample (lit "288dpi") Resolution (1 / 96) 3 /\ clear 1 ((3 # 2) * 2) 3.
Proof.
  do 5 (split; [vm_compute; reflexivity|]). split; [exact (m_resolution sample)|]. split.
  - exists 288, (Some (lit "dpi")). split; [reflexivity|]. split; [constructor|]. split; [reflexivity|]. split; [|reflexivity].
    intros t m q [= <-] I. exfalso. cbn in I. decompose [or] I; discriminate || assumption.
  - left. reflexivity.
Qed.
(** so that a window between two bounds is one that both of them match *)
Theorem c80_bounds : forall p s v w z b z' b', faithful p s -> settled s -> word v -> word w ->
  amounts s v Length z b -> amounts s w Length z' b' -> clear 1 (fst (view s)) b -> clear 1 (fst (view s)) b' ->
  (matches p s (lit "(" ++ lit "min-width" ++ lit ": " ++ v ++ lit ")") = Ok true /\
   matches p s (lit "(" ++ lit "max-width" ++ lit ": " ++ w ++ lit ")") = Ok true <-> b <= fst (view s) <= b').
Proof.
  intros p s v w z b z' b' F St Wv Ww Av Aw Cv Cw.
  rewrite (c80_feature p s (lit "min-width") v (lit "width") OpGe Length (fst (view s)) z b F St); [|apply good_word; (discriminate || reflexivity)|exact Wv|exact width_min|exact (m_width s)|exact Av|exact Cv].
  rewrite (c80_feature p s (lit "max-width") w (lit "width") OpLe Length (fst (view s)) z' b' F St); [|apply good_word; (discriminate || reflexivity)|exact Ww|apply (bn_max (lit "width")); apply mem_not_in; reflexivity|exact (m_width s)|exact Aw|exact Cw].
  cbn [holds]. rewrite <- !Qle_bool_iff. split; [intros [H1 H2]; injection H1; injection H2; auto|intros [-> ->]; auto].
Qed.
Print Assumptions c80_bounds.

(** With a root element, the size of the window does not matter; the other way
    round, without one, lengths are those of the window and nothing is read of
    a document. *)
Theorem c80_root : forall p s q w h c i, st_root s = Some (w, h, c) ->
  matches p (mkSit (st_root s) i (st_screen s) (st_media s) (st_scan s) (st_update s) (st_gamut s) (st_zoom s)) q = matches p s q.
Proof. intros p s q w h c i E. unfold matches, conditions, view, view_text, st_ctx, device_pixel_ratio. cbn [st_root st_screen st_media st_scan st_update st_gamut st_zoom]. rewrite E. reflexivity. Qed.
Print Assumptions c80_root.
Example c80_root_case : matches six rooted (lit "(min-width: 600px)") = Ok false /\ matches six sample (lit "(min-width: 600px)") = Ok true.
Proof. split; vm_compute; reflexivity. Qed.

(** Comparing lengths raises nothing but ValueError (which counts as false),
    when no unit has the size zero. *)
Theorem c80_no_other_error : forall c l r e, (forall u k z, sized c None u k z -> ~ z == 0) -> (forall u, steady c u) ->
  mql_compare c l r = Err e -> e = ValueError.
Proof. exact compare_errors. Qed.
Print Assumptions c80_no_other_error.
Example c80_no_other_error_case : (forall u k z, sized no_context None u k z -> ~ z == 0) /\ (forall u, steady no_context u) /\
  mql_compare no_context (VText (lit "2dppx")) (VInt 3) = Err ValueError.
Proof.
  split; [|split; [intros u t m q _ _ E; discriminate E|reflexivity]]. intros u k z H. inversion H; subst; try (intros X; discriminate X); try discriminate.
Qed.

(** When the viewport or the screen is less than one pixel high, no query has
    an answer, not even "all": ZeroDivisionError; and ValueError when the
    colour depth is negative. *)
Theorem c80_answers_refuted : forall p s q, is_ok (MqParseModel.parse q) = true -> ~ settled s -> exists e, matches p s q = Err e /\
  (e = ZeroDivisionError \/ e = ValueError /\ (s_depth (st_screen s) < 0)%Z).
Proof.
  intros p s q P N. unfold matches. destruct (MqParseModel.parse q) as [ns|]; [|discriminate]. cbn [bind]. unfold conditions, ratio_text.
  destruct (Z.eqb_spec (to_int (snd (view s))) 0) as [E1|E1]; [cbn [bind]; eauto|]. cbn [bind].
  destruct (Z.eqb_spec (s_height (st_screen s)) 0) as [E2|E2]; [cbn [bind]; eauto|]. cbn [bind]. unfold shifted.
  destruct (Z.ltb_spec (s_depth (st_screen s)) 0) as [E3|E3]; [cbn [bind]; eauto|]. exfalso. apply N. repeat split; auto.
Qed.
Print Assumptions c80_answers_refuted.
Example c80_answers_case : let s := mkSit (Some (100, 1 # 2, no_context)) (640%Z, 480%Z) sample_screen (lit "screen") (lit "interlace") (lit "fast") (lit "srgb") 1 in
  ~ settled s /\ matches six s (lit "all") = Err ZeroDivisionError.
Proof. split; [intros (H & _); apply H; reflexivity|vm_compute; reflexivity]. Qed.

(** device-aspect-ratio compares the numerators alone (SVGLength('16/9') is
    16): a screen of 16/9 is also one of 16/1, and one of 4/3 at most 5/4. *)
Theorem c80_device_ratio_refuted : exists s t, settled s /\ faithful six s /\ settled t /\ faithful six t /\
  inject_Z (s_width (st_screen s)) / inject_Z (s_height (st_screen s)) == 16 # 9 /\ matches six s (lit "(device-aspect-ratio: 16/1)") = Ok true /\
  inject_Z (s_width (st_screen t)) / inject_Z (s_height (st_screen t)) == 4 # 3 /\ matches six t (lit "(max-device-aspect-ratio: 5/4)") = Ok true.
Proof.
  exists sample, (mkSit None (640%Z, 480%Z) (mkS 800 600 24 96 96 0 1 0) (lit "screen") (lit "progressive") (lit "fast") (lit "srgb") 1).
  split; [repeat split; vm_compute; intros H; discriminate H|]. split; [apply sample_faithful|]. split; [repeat split; vm_compute; intros H; discriminate H|].
  split; [split; [apply six_prints; reflexivity|exact Logic.I]|]. repeat split; vm_compute; reflexivity.
Qed.
Print Assumptions c80_device_ratio_refuted.
(** orientation is that of the screen: a viewport that is higher than wide is
    not in portrait. *)
Theorem c80_orientation_refuted : exists s, settled s /\ faithful six s /\ fst (view s) < snd (view s) /\ matches six s (lit "(orientation: portrait)") = Ok false.
Proof.
  exists (mkSit (Some (100, 200, no_context)) (640%Z, 480%Z) sample_screen (lit "screen") (lit "progressive") (lit "fast") (lit "srgb") 1).
  split; [repeat split; vm_compute; intros H; discriminate H|]. split; [split; [apply six_prints; reflexivity|split; apply six_prints; reflexivity]|]. split; vm_compute; reflexivity.
Qed.
Print Assumptions c80_orientation_refuted.
Example c80_bounds_case : word (lit "40em") /\ amounts sample (lit "40em") Length 16 (40 * 16) /\ clear 1 (fst (view sample)) (40 * 16) /\
  matches six sample (lit "(min-width: 40em)") = Ok true /\ matches six sample (lit "(max-width: 50em)") = Ok true.
Proof.
  split; [apply good_word; (discriminate || reflexivity)|]. split.
  - exists 40, (Some (lit "em")). split; [reflexivity|]. split; [apply (s_em no_context)|]. split; [reflexivity|]. split; [|reflexivity].
    intros t m q [= <-] I. exfalso. cbn in I. decompose [or] I; discriminate || assumption.
  - split; [left; reflexivity|]. split; vm_compute; reflexivity.
Qed.
