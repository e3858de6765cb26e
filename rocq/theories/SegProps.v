(** C78: every character of a text reaches the shaper once, in pieces that ICU's
    breaks and the directions decide. *)
From Coq Require Import NArith ZArith List Bool Lia Permutation.
From Verif Require Import PyBase PyText PyCase LayoutModel SegModel SegSpec SegProofs SegProofs2.
Import ListNotations.
#[local] Open Scope N_scope.

(* breaks after every space; a Hebrew letter makes a run of its own level *)
Fixpoint words (w : text) (t : text) : list text :=
  match t with
  | [] => match w with [] => [] | _ => [rev w] end
  | c :: r => if c =? 32 then rev (c :: w) :: words [] r else words (c :: w) r
  end.
Definition hebrew (c : N) : bool := (1424 <=? c) && (c <=? 1535).
Fixpoint levels (i : nat) (ltr : bool) (last : option bool) (u : list N) : list (nat * N) :=
  match u with
  | [] => match last with None => [] | Some h => [(i, if h then 1 else if ltr then 0 else 2)] end
  | c :: r => let h := hebrew c in
      match last with
      | Some h' => if Bool.eqb h h' then levels (S i) ltr (Some h) r else (i, if h' then 1 else if ltr then 0 else 2) :: levels (S i) ltr (Some h) r
      | None => levels (S i) ltr (Some h) r
      end
  end.
Definition spaces : engine := mkE (fun u => ends 0 (words [] (chars u))) (fun ltr u => levels 0 ltr None u) (fun u => [(0%nat, length u, 0)]).
Definition by_words : text -> list text := words [].
Lemma words_ok t : forall w, concat (words w t) = rev w ++ t /\ Forall (fun p => p <> []) (words w t).
Proof.
  induction t as [|c t IH]; intros w; cbn [words].
  - destruct w as [|x w]; [split; [reflexivity|constructor]|]. split; [cbn [concat]; reflexivity|]. constructor; [|constructor]. cbn [rev]. now destruct (rev w).
  - destruct (N.eqb_spec c 32) as [->|_].
    + destruct (IH []) as [E F]. split; [cbn [concat rev]; rewrite E; cbn [rev app]; now rewrite <- app_assoc|]. constructor; [|exact F]. cbn [rev]. now destruct (rev w).
    + destruct (IH (c :: w)) as [E F]. split; [rewrite E; cbn [rev]; now rewrite <- app_assoc|exact F].
Qed.
Lemma spaces_honest : honest spaces by_words.
Proof. intros t F. destruct (words_ok t []) as [E G]. split; [split; [exact E|exact G]|]. cbn [e_breaks spaces]. now rewrite chars_utf16. Qed.

(** ** Strings *)
(** A string of scalar values comes back from the C side as it was. *)
Theorem c78_string t : Forall scalar t -> ffi_string (utf16 t) = t.
Proof. apply string_utf16. Qed.
Print Assumptions c78_string.
Definition smiley : N := 128512.
Example c78_string_ex : Forall scalar [97; smiley; 1488] /\ utf16 [97; smiley; 1488] = [97; 55357; 56832; 1488].
Proof. split; [|reflexivity]. repeat constructor; unfold scalar, smiley; lia. Qed.
(** U+0000 ends it, and two halves become one character. *)
Theorem c78_string_refuted : ffi_string (utf16 [97; 0; 98]) = [97] /\ ffi_string (utf16 [55357; 56832]) = [smiley].
Proof. split; reflexivity. Qed.
Print Assumptions c78_string_refuted.

(** ** The break iterator *)
(** Whatever is called, in whatever order, the answers are those of a cursor
    between the pieces of the text; no assertion fails. *)
Theorem c78_history e cut o cs : honest e cut -> match o with Some t => Forall scalar t | None => True end -> Forall sets_scalar cs ->
  fst (bi_calls e (bi_open o) cs) = map Ok (fst (z_steps cut (z_open cut o) cs)).
Proof. intros Ho F G. destruct (steps_ok e cut Ho cs _ _ _ (rep_open e cut o Ho F) G) as (b & -> & _). reflexivity. Qed.
Print Assumptions c78_history.
Example c78_history_ex : honest spaces by_words /\
  fst (bi_calls spaces (bi_open (Some (lit "to be"))) [Next; PyNext; PyNext; Previous; Reversed; Current; SetText [smiley; 32; 98]; ForAll; Previous; Last])
  = map Ok [Offset 3; Piece (lit "be"); Stop; Offset 3; Pieces [lit "be"; lit "to "]; Offset 5; Nothing; Pieces [[smiley; 32]; [98]]; Offset 3; Offset 4].
Proof. split; [apply spaces_honest|vm_compute; reflexivity]. Qed.
(** A loop over it takes the pieces of the text that was set last, all of them,
    whatever was called before, be it within another loop; reversed() gives
    them backwards.  They are never empty and together the text. *)
Theorem c78_pieces e cut o cs : honest e cut -> match o with Some t => Forall scalar t | None => True end -> Forall sets_scalar cs ->
  let t := text_now (match o with Some t => t | None => [] end) cs in let b := snd (bi_calls e (bi_open o) cs) in
  fst (bi_list e b) = Ok (cut t) /\ fst (bi_reversed e b) = Ok (rev (cut t)) /\ concat (cut t) = t /\ Forall (fun p => p <> []) (cut t).
Proof.
  intros Ho F G. destruct (steps_ok e cut Ho cs _ _ _ (rep_open e cut o Ho F) G) as (b & E & R). cbv zeta. rewrite E. cbn [snd]. unfold bi_reversed. rewrite (rep_list e cut Ho _ _ _ R), (r_whole _ _ _ _ R).
  split; [reflexivity|]. split; [reflexivity|]. apply (Ho _ (r_scalar _ _ _ _ R)).
Qed.
Print Assumptions c78_pieces.
(** next() alone goes on from where it is, to the end of the text. *)
Theorem c78_rest e cut o cs : honest e cut -> match o with Some t => Forall scalar t | None => True end -> Forall sets_scalar cs ->
  let t := text_now (match o with Some t => t | None => [] end) cs in let b := snd (bi_calls e (bi_open o) cs) in
  exists l r, cut t = l ++ r /\ b_pos b = width (concat l) /\ fst (bi_take e (bi_fuel b) b) = Ok r.
Proof.
  intros Ho F G. destruct (steps_ok e cut Ho cs _ _ _ (rep_open e cut o Ho F) G) as (b & E & R). cbv zeta. rewrite E. cbn [snd].
  destruct (snd (z_steps cut (z_open cut o) cs)) as [l r]. exists (rev l), r. split; [symmetry; exact (r_whole _ _ _ _ R)|]. split; [exact (r_pos _ _ _ _ R)|].
  rewrite (rep_take e cut Ho _ r _ _ l R); [reflexivity|]. unfold bi_fuel. rewrite (r_text _ _ _ _ R), utf16_length. apply Nat.lt_succ_r.
  pose proof (rep_concat Ho R) as C. pose proof (rep_full Ho R) as Fu. cbn [fst snd] in C, Fu. rewrite <- C, concat_app, width_app. apply Forall_app in Fu as [_ Fu]. pose proof (pieces_few r Fu). unfold text in *. lia.
Qed.
Print Assumptions c78_rest.
Example c78_rest_ex : let b := snd (bi_calls spaces (bi_open None) [SetText (lit "to be or"); Next; Next; Previous]) in b_pos b = 3%nat /\ fst (bi_take spaces (bi_fuel b) b) = Ok [lit "be "; lit "or"].
Proof. split; vm_compute; reflexivity. Qed.
(** Nothing is asked of the breaks but to climb to the end and not to fall
    within a character. *)
Theorem c78_any_breaks ms t : climbs 0 ms (width t) -> Forall (fun m => exists k, m = width (firstn k t)) ms ->
  exists ps, concat ps = t /\ Forall (fun p => p <> []) ps /\ ms = ends 0 ps.
Proof. intros C F. now apply cut_exists. Qed.
Print Assumptions c78_any_breaks.
Example c78_any_breaks_ex : climbs 0 [2; 3]%nat (width [smiley; 98]) /\ Forall (fun m => exists k, m = width (firstn k [smiley; 98])) [2; 3]%nat.
Proof. split; [cbn; lia|]. constructor; [now exists 1%nat|]. constructor; [now exists 2%nat|constructor]. Qed.
(** Two loops over one object share its position: taking two at a time from
    iter() and iter() gives each piece to one of them only. *)
Theorem c78_two_loops_refuted : ~ (forall e cut t, honest e cut -> Forall scalar t -> forall p, hd_error (cut t) = Some p ->
  fst (bi_calls e (bi_open (Some t)) [Iter; Iter; PyNext; PyNext]) = [Ok Nothing; Ok Nothing; Ok (Piece p); Ok (Piece p)]).
Proof. intros X. specialize (X spaces by_words (lit "to be") spaces_honest ltac:(repeat constructor; unfold scalar; cbn; lia) _ eq_refl). vm_compute in X. discriminate. Qed.
Print Assumptions c78_two_loops_refuted.

(** ** Runs and lines of a text *)
(** All the characters are shaped, once each: the lines of the runs, those of
    runs against the direction of the element turned back, make up the text,
    and no line is empty. *)
Theorem c78_all_shaped e cut ltr t : honest e cut -> Forall scalar t -> climbs 0 (map fst (e_runs e ltr (utf16 t))) (width t) ->
  exists ps, parts e ltr t = Ok ps /\ concat (concat (map (logical ltr) ps)) = t /\ Forall (fun p => Forall (fun l => l <> []) (pt_lines p)) ps.
Proof.
  intros Ho F C. eexists. split; [exact (parts_ok e cut Ho ltr t F C)|]. split; [now apply (loop_joined e cut Ho ltr t F _ 0)|]. apply Forall_forall. intros p. now apply (loop_lines e cut Ho ltr t F).
Qed.
Print Assumptions c78_all_shaped.
(** The layout counts each of them (LayoutModel). *)
Theorem c78_counted e cut ltr t shape ps : honest e cut -> Forall scalar t -> climbs 0 (map fst (e_runs e ltr (utf16 t))) (width t) -> parts e ltr t = Ok ps ->
  list_sum (map (fun r => list_sum (map l_chars (r_lines (shaped shape r)))) ps) = length t.
Proof.
  intros Ho F C E. destruct (c78_all_shaped e cut ltr t Ho F C) as (qs & E1 & E2 & _). rewrite E in E1. injection E1 as <-. rewrite <- E2. clear. induction ps as [|p ps IH]; [reflexivity|].
  cbn [map list_sum concat]. change (list_sum (?x :: ?l)) with (x + list_sum l)%nat. rewrite concat_app, app_length, IH, lines_of_logical. f_equal. cbn [shaped r_lines]. rewrite map_map. cbn [l_chars].
  induction (pt_lines p) as [|l ls IHl]; [reflexivity|]. cbn [map concat]. change (list_sum (?x :: ?l)) with (x + list_sum l)%nat. now rewrite app_length, IHl.
Qed.
Print Assumptions c78_counted.
Definition shalom : text := [1513; 1500; 32; 1493].
Example c78_all_shaped_ex : climbs 0 (map fst (e_runs spaces true (utf16 (lit "say " ++ [1513; 1500] ++ lit " now")))) (width (lit "say " ++ [1513; 1500] ++ lit " now")) /\
  parts spaces true (lit "say " ++ [1513; 1500] ++ lit " now") = Ok [mkPart 0 false [lit "say "]; mkPart 4 true [[1513; 1500]]; mkPart 6 false [lit " "; lit "now"]] /\
  parts spaces false (lit "to be") = Ok [mkPart 0 false [lit "be"; lit "to "]].
Proof. split; [vm_compute; lia|]. split; vm_compute; reflexivity. Qed.
(** Without characters above U+FFFF the runs are those of ICU, each with its
    level and cut within itself.  Missing: texts with such characters. *)
Theorem c78_runs_partial e cut ltr t : honest e cut -> Forall scalar t -> Forall (fun c => c < 65536) t -> climbs 0 (map fst (e_runs e ltr (utf16 t))) (width t) ->
  parts e ltr t = Ok (proper_parts cut ltr t 0 (e_runs e ltr (utf16 t))).
Proof. intros Ho F B C. rewrite (parts_ok e cut Ho ltr t F C). f_equal. now apply loop_proper. Qed.
Print Assumptions c78_runs_partial.
(** With them they are not: ICU counts code units and the text is cut by
    characters. *)
Theorem c78_runs_refuted : ~ (forall e cut ltr t, honest e cut -> Forall scalar t -> climbs 0 (map fst (e_runs e ltr (utf16 t))) (width t) ->
  parts e ltr t = Ok (proper_parts cut ltr t 0 (e_runs e ltr (utf16 t)))).
Proof.
  intros X. specialize (X spaces by_words true [smiley; 1513; 1500; 97] spaces_honest). assert (F : Forall scalar [smiley; 1513; 1500; 97]) by (repeat constructor; unfold scalar, smiley; lia).
  specialize (X F ltac:(vm_compute; lia)). vm_compute in X. discriminate.
Qed.
Print Assumptions c78_runs_refuted.
Example c78_runs_refuted_ex : parts spaces true [smiley; 1513; 1500; 97] = Ok [mkPart 0 false [[smiley; 1513]]; mkPart 2 true [[1500; 97]]; mkPart 4 false []].
Proof. vm_compute. reflexivity. Qed.

(** ** Visual order *)
(** visual_iter gives the runs in the order in which they are seen, those from
    right to left turned round: a rearrangement of the text. *)
Theorem c78_visual e rs is_ : let t := concat (map fst rs) in Forall scalar t -> Permutation is_ (seq 0 (length rs)) -> e_visual e (utf16 t) = map (told rs) is_ ->
  visual_iter e t = map (fun i => seen (nth_run rs i)) is_ /\ Permutation (concat (visual_iter e t)) t.
Proof.
  cbv zeta. intros F P E. assert (A : visual_iter e (concat (map fst rs)) = map (fun i => seen (nth_run rs i)) is_).
  { unfold visual_iter. rewrite E, map_map. apply map_ext_in. intros i J. unfold told, seen. assert (L : (i < length rs)%nat) by (apply (Permutation_in _ P), in_seq in J; lia).
    destruct (nth_error rs i) as [p|] eqn:N; [|apply nth_error_None in N; lia]. unfold nth_run. rewrite (nth_error_nth _ _ _ N).
    pose proof (concat_nth rs i p N) as X. unfold text in *. rewrite X in *. rewrite cut_out_utf16, string_utf16; [destruct p as [q []]; reflexivity|].
    apply Forall_app in F as [_ F]. now apply Forall_app in F as [F _]. }
  split; [exact A|]. rewrite A. transitivity (concat (map (fun i => fst (nth_run rs i)) is_)).
  - apply perm_each. intros i. unfold seen. destruct (snd (nth_run rs i)); [symmetry; apply Permutation_rev|reflexivity].
  - transitivity (concat (map (fun i => fst (nth_run rs i)) (seq 0 (length rs)))); [now apply perm_concat, Permutation_map|].
    rewrite <- (map_map (nth_run rs) fst). unfold nth_run. rewrite map_nth_seq. reflexivity.
Qed.
Print Assumptions c78_visual.
Example c78_visual_ex : let rs := [(lit "one ", false); ([1513; 1500; smiley], true); (lit " two", false)] in
  let e := mkE (fun _ => []) (fun _ _ => []) (fun _ => [(8%nat, 4%nat, 0); (4%nat, 4%nat, 1); (0%nat, 4%nat, 0)]) in
  e_visual e (utf16 (concat (map fst rs))) = map (told rs) [2; 1; 0]%nat /\ visual_iter e (concat (map fst rs)) = [lit " two"; [smiley; 1500; 1513]; lit "one "] /\
  Permutation [2; 1; 0]%nat (seq 0 3).
Proof. split; [vm_compute; reflexivity|]. split; [vm_compute; reflexivity|]. exact (Permutation_rev [2; 1; 0]%nat). Qed.

(** ** What the style decides *)
(** A face is emboldened exactly when a bold one is asked for, synthesis of the
    weight is allowed and the face is not bold; likewise for slanting. *)
Lemma among_spec t l : among t l = true <-> In t l.
Proof.
  unfold among. rewrite existsb_exists. split.
  - intros (x & J & E). destruct (text_eqb_spec t x); [now subst|discriminate].
  - intros J. exists t. split; [exact J|apply text_eqb_refl].
Qed.
Theorem c78_synthesis k flags :
  (force_embolden k flags = true <-> (400 < k_weight k)%Z /\ In (lit "weight") (k_synthesis k) /\ N.testbit flags 1 = false) /\
  (force_oblique k flags = true <-> k_style k <> lit "normal" /\ In (lit "style") (k_synthesis k) /\ N.testbit flags 0 = false).
Proof.
  assert (B : forall i, N.land flags (2 ^ i) =? 0 = negb (N.testbit flags i)).
  { intros i. destruct (N.testbit flags i) eqn:T.
    - apply N.eqb_neq. intros Z. assert (X : N.testbit (N.land flags (2 ^ i)) i = false) by (rewrite Z; apply N.bits_0). rewrite N.land_spec, T, N.pow2_bits_true in X. discriminate.
    - apply N.eqb_eq, N.bits_inj. intros j. rewrite N.land_spec, N.bits_0, N.pow2_bits_eqb. destruct (N.eqb_spec i j) as [<-|_]; [now rewrite T|apply andb_false_r]. }
  split.
  - unfold force_embolden. change flag_bold with (2 ^ 1). rewrite !andb_true_iff, B, negb_true_iff, among_spec, Z.ltb_lt. tauto.
  - unfold force_oblique. change flag_italic with (2 ^ 0). rewrite !andb_true_iff, B, !negb_true_iff, among_spec. destruct (text_eqb_spec (k_style k) (lit "normal")); intuition congruence.
Qed.
Print Assumptions c78_synthesis.
Definition plain_look : look := mkLook (lit "ltr") 700 (lit "italic") [lit "weight"; lit "style"] (lit "lr") (lit "normal") (Some (lit "ja")) (Some (lit "en")).
Example c78_synthesis_ex : force_embolden plain_look 1 = true /\ force_oblique plain_look 1 = false /\ force_embolden plain_look 2 = false /\ force_oblique plain_look 2 = true.
Proof. repeat split. Qed.
(** The locale is that of font-language-override, else of xml:lang, else of
    lang, else the default; an override that is not in the table hides both
    languages. *)
Theorem c78_locale codes default k :
  (k_override k = lit "normal" -> look_locale codes default k = match k_xml_lang k with Some l => l | None => match k_lang k with Some l => l | None => default end end) /\
  (k_override k <> lit "normal" -> look_locale codes default k = match codes (upper (k_override k)) with Some l => l | None => default end).
Proof. unfold look_locale. destruct (text_eqb_spec (k_override k) (lit "normal")) as [E|E]; split; intros Z; try contradiction; cbn [negb]; [|reflexivity]. destruct (k_xml_lang k); reflexivity. Qed.
Print Assumptions c78_locale.
(** Vertical text goes from top to bottom whatever its direction; the writing
    modes of SVG 1.1 for right-to-left do not by themselves turn the text. *)
Theorem c78_direction k : (look_hb k = HbTtb <-> ~ In (k_mode k) [lit "horizontal-tb"; lit "lr"; lit "lr-tb"; lit "rl"; lit "rl-tb"]) /\
  (In (k_mode k) [lit "horizontal-tb"; lit "lr"; lit "lr-tb"; lit "rl"; lit "rl-tb"] -> (look_hb k = HbLtr <-> k_direction k = lit "ltr")) /\
  (look_sideways k = true <-> exists r, k_mode k = lit "sideways" ++ r).
Proof.
  unfold look_hb, look_horizontal, look_ltr. split; [|split].
  - destruct (among (k_mode k) _) eqn:E; [|rewrite <- among_spec; rewrite E; now split]. apply among_spec in E. destruct (text_eqb _ _); split; intros X; try discriminate; contradiction.
  - intros J. apply among_spec in J. rewrite J. destruct (text_eqb_spec (k_direction k) (lit "ltr")); split; congruence.
  - unfold look_sideways. destruct (text_eqb_spec (firstn 8 (k_mode k)) (lit "sideways")) as [E|E].
    + split; [|reflexivity]. intros _. exists (skipn 8 (k_mode k)). rewrite <- E. symmetry. apply firstn_skipn.
    + split; [discriminate|]. intros (r & X). rewrite X in E. now elim E.
Qed.
Print Assumptions c78_direction.
Example c78_direction_ex : look_hb plain_look = HbLtr /\ look_hb (mkLook (lit "ltr") 400 (lit "normal") [] (lit "rl-tb") (lit "normal") None None) = HbLtr /\
  look_hb (mkLook (lit "rtl") 400 (lit "normal") [] (lit "tb-rl") (lit "JAN") None (Some (lit "en"))) = HbTtb /\
  look_locale (fun t => if text_eqb t (lit "JAN") then Some (lit "jpn") else None) (lit "de") (mkLook (lit "rtl") 400 (lit "normal") [] (lit "tb-rl") (lit "Jan") None (Some (lit "en"))) = lit "jpn" /\
  look_locale (fun _ => None) (lit "de") (mkLook (lit "rtl") 400 (lit "normal") [] (lit "tb-rl") (lit "XYZ") None (Some (lit "en"))) = lit "de".
Proof. repeat split. Qed.
