(** Block level: setting and reading shorthands; a sample descriptor table. *)
From Verif Require Import PyBase PyText PySplit PyDict PyCase ShortModel ShortSpec ShortProofs ShortProofs2 ShortProofs3.
From Coq Require Import Lia.
Local Open Scope nat_scope.

Lemma set_block c b s w p d' : breadonly b = false -> normalize_text w = w -> w <> [] -> good_priority (lower p) = true ->
  cparse c w <> [] -> sh_set c s (bdecls b) (cparse c w) (lower p) = Ok (Some d') ->
  set_property c b (sname s) w (Some p) = Ok (mkB d' false).
Proof.
  intros R N W G C H. unfold set_property. rewrite R, N. destruct w as [|x w]; [congruence|]. cbn [nonempty negb].
  unfold good_priority in G. rewrite G. cbn [negb]. unfold set_internal.
  destruct (find_sname s) as (l & F & K). rewrite K, F. destruct (cparse c (x :: w)); [congruence|]. rewrite H. reflexivity.
Qed.
Lemma get_block c d r s : get_property_value c (mkB d r) (sname s) = sh_value depth c d (sname s).
Proof. destruct s; reflexivity. Qed.
Lemma priority_block d r s : get_property_priority (mkB d r) (sname s) = sh_priority depth d (sname s).
Proof. destruct s; reflexivity. Qed.

Lemma serialize_one v : serialize [mkC CIdent v] = v.
Proof. cbn [serialize map concat ctext]. apply app_nil_r. Qed.

Lemma read_wide c b s k p : css_ok c -> block_ok b -> breadonly b = false -> good_priority (lower p) = true -> is_wide k = true ->
  exists b', set_property c b (sname s) k (Some p) = Ok b' /\ get_property_value c b' (sname s) = k.
Proof.
  intros O B R G H. destruct (wide_word k H) as [W L].
  destruct (sh_set_wide c s (bdecls b) k (lower p) O B H) as (d' & E & U).
  exists (mkB d' false). split.
  - apply set_block; auto using normalize_word.
    + intros ->. discriminate.
    + rewrite (ok_word c O) by exact W. discriminate.
    + rewrite (ok_word c O) by exact W. exact E.
  - rewrite get_block. apply (uniform_value c _ _ _ _ _ O H U).
Qed.

(* three and two longhands *)
Lemma white_space_get d a b t p : dict_ok d ->
  let d' := set_map d [(lit "text-space-collapse", a); (lit "text-wrap", b); (lit "text-space-trim", t)] p in
  dget d' (lit "text-space-collapse") = Some (strip (serialize a), p) /\
  dget d' (lit "text-wrap") = Some (strip (serialize b), p) /\
  dget d' (lit "text-space-trim") = Some (strip (serialize t), p).
Proof.
  intros D d'.
  assert (C : dict_ok [(lit "text-space-collapse", a); (lit "text-wrap", b); (lit "text-space-trim", t)]).
  { unfold dict_ok. cbn [dkeys map fst]. nodup_lits. }
  destruct (set_map_spec _ d p D C) as (_ & B & _). unfold d'. rewrite !B. repeat split.
Qed.
Lemma two_get d x y a b p : dict_ok d -> x <> y ->
  let d' := set_map d [(x, a); (y, b)] p in
  dget d' x = Some (strip (serialize a), p) /\ dget d' y = Some (strip (serialize b), p).
Proof.
  intros D N d'. assert (C : dict_ok [(x, a); (y, b)]).
  { unfold dict_ok. cbn. repeat constructor; cbn; intuition congruence. }
  destruct (set_map_spec _ d p D C) as (_ & B & _). unfold d'. rewrite !B. cbn. rewrite text_eqb_refl.
  destruct (text_eqb_spec x y); [congruence|]. rewrite text_eqb_refl. split; reflexivity.
Qed.

Definition white_space_table : list (text * (text * text)) :=
  [(lit "normal", (lit "collapse", lit "wrap")); (lit "pre", (lit "preserve", lit "nowrap"));
   (lit "nowrap", (lit "collapse", lit "nowrap")); (lit "pre-wrap", (lit "preserve", lit "wrap"));
   (lit "pre-line", (lit "preserve-breaks", lit "wrap"))].
Lemma white_space_row w x y : In (w, (x, y)) white_space_table ->
  word w = true /\ word x = true /\ word y = true /\
  (forall c, white_space_values c [mkC CIdent w] = (x, y, lit "none")) /\
  forall d, tostring {| cparse := fun _ => []; csupport := fun _ _ => Ok (true, true); csupports := fun _ _ => true; cinitial := fun _ => []; ccomma := fun _ => true; cslash := fun _ => true |}
     SWhiteSpace d [(lit "text-space-collapse", x); (lit "text-wrap", y); (lit "text-space-trim", lit "none")] = w.
Proof.
  unfold white_space_table. cbn [In]. intros H.
  repeat (destruct H as [H|H]; [injection H as <- <- <-; repeat split; reflexivity|]). destruct H.
Qed.
Lemma read_white_space c b w x y p : css_ok c -> block_ok b -> breadonly b = false -> good_priority (lower p) = true ->
  In (w, (x, y)) white_space_table ->
  csupports c (lit "text-space-collapse") x = true -> csupports c (lit "text-wrap") y = true ->
  csupports c (lit "text-space-trim") (lit "none") = true ->
  exists b', set_property c b (lit "white-space") w (Some p) = Ok b' /\
    get_property_value c b' (lit "white-space") = w /\
    get_property_value c b' (lit "text-space-collapse") = x /\ get_property_value c b' (lit "text-wrap") = y /\
    get_property_value c b' (lit "text-space-trim") = lit "none".
Proof.
  intros O B R G H S1 S2 S3. destruct (white_space_row w x y H) as (W & Wx & Wy & V & T).
  eexists. split.
  - apply (set_block c b SWhiteSpace w p); auto using normalize_word.
    + intros ->. discriminate.
    + rewrite (ok_word c O) by exact W. discriminate.
    + rewrite (ok_word c O) by exact W. cbn [sh_set]. rewrite V. reflexivity.
  - destruct (white_space_get (bdecls b) (cparse c x) (cparse c y) (cparse c (lit "none")) (lower p) B) as (G1 & G2 & G3).
    rewrite (ok_word c O x), (ok_word c O y), (ok_word c O (lit "none")) in * by (try assumption; reflexivity).
    rewrite !serialize_one, ?strip_word in G1, G2, G3 by (try assumption; reflexivity).
    set (d' := set_map _ _ _) in *.
    split; [|unfold get_property_value; change (is_shorthand (key (lit "text-space-collapse"))) with false;
      change (is_shorthand (key (lit "text-wrap"))) with false; change (is_shorthand (key (lit "text-space-trim"))) with false;
      change (key (lit "text-space-collapse")) with (lit "text-space-collapse"); change (key (lit "text-wrap")) with (lit "text-wrap");
      change (key (lit "text-space-trim")) with (lit "text-space-trim"); cbn [bdecls]; rewrite G1, G2, G3; repeat split].
    rewrite (get_block c d' false SWhiteSpace : get_property_value c _ (lit "white-space") = _). unfold depth.
    rewrite (sh_value_all c d' 2 (sname SWhiteSpace) SWhiteSpace l_white_space
       (fun n => if text_eqb n (lit "text-space-collapse") then x else if text_eqb n (lit "text-wrap") then y else lit "none") (lower p)).
    + exact (T d').
    + reflexivity.
    + vm_compute. discriminate.
    + intros n Hn. left. change (longhands (sname SWhiteSpace)) with l_white_space in Hn.
      assert (NE : forall t, word t = true -> nonempty t = true) by (intros [|? ?]; [discriminate|reflexivity]).
      unfold l_white_space in Hn. cbn [In] in Hn.
      destruct Hn as [<-|[<-|[<-|[]]]]; split; try reflexivity.
      * split; [exact G1|]. split; [apply NE; exact Wx|exact S1].
      * split; [exact G2|]. split; [apply NE; exact Wy|exact S2].
      * split; [exact G3|]. split; [reflexivity|exact S3].
Qed.

(* overflow *)
Definition ov_x : text := lit "overflow-x".
Definition ov_y : text := lit "overflow-y".
Lemma overflow_value c d' x y p : word x = true -> word y = true -> is_wide x = false -> is_wide y = false ->
  dget d' ov_x = Some (x, p) -> dget d' ov_y = Some (y, p) -> csupports c ov_x x = true -> csupports c ov_y y = true ->
  sh_value depth c d' (lit "overflow") = if text_eqb x y then x else x ++ [32%N] ++ y.
Proof.
  intros Wx Wy Nx Ny G1 G2 S1 S2. unfold depth.
  assert (NE : forall t, word t = true -> nonempty t = true) by (intros [|? ?]; [discriminate|reflexivity]).
  rewrite (sh_value_all c d' 2 (lit "overflow") SOverflow l_overflow (fun n => if text_eqb n ov_x then x else y) p).
  - change (map _ (longhands (lit "overflow"))) with [(ov_x, x); (ov_y, y)]. cbn [tostring]. unfold overflow_tostring.
    change (dget [(ov_x, x); (ov_y, y)] (lit "overflow-x")) with (Some x). change (dget [(ov_x, x); (ov_y, y)] (lit "overflow-y")) with (Some y).
    cbv iota. rewrite Nx, Ny. reflexivity.
  - reflexivity.
  - vm_compute. discriminate.
  - intros n Hn. left. change (longhands (lit "overflow")) with [ov_x; ov_y] in Hn. cbn [In] in Hn.
    destruct Hn as [<-|[<-|[]]]; split; try reflexivity.
    + split; [exact G1|]. split; [apply NE; exact Wx|exact S1].
    + split; [exact G2|]. split; [apply NE; exact Wy|exact S2].
Qed.
Lemma not_wide_lower x : word x = true -> lower x = x.
Proof.
  intros W. apply word_all in W as [A _]. unfold lower. clear -A. induction x as [|c x IH]; [reflexivity|]. cbn [forallb] in A.
  apply Bool.andb_true_iff in A as [C A]. cbn [map]. destruct (word_char_facts c C) as (_ & _ & _ & _ & E). rewrite E, IH by exact A. reflexivity.
Qed.
Lemma read_overflow c b x y p cx cy : css_ok c -> block_ok b -> breadonly b = false -> good_priority (lower p) = true ->
  word x = true -> word y = true -> is_wide x = false -> is_wide y = false ->
  csupport c ov_x (mkC CIdent x) = Ok (true, cx) -> csupport c ov_x (mkC CIdent y) = Ok (true, cy) ->
  csupports c ov_x x = true -> csupports c ov_y y = true ->
  exists b', set_property c b (lit "overflow") (x ++ [32%N] ++ y) (Some p) = Ok b' /\
    get_property_value c b' (lit "overflow") = (if text_eqb x y then x else x ++ [32%N] ++ y) /\
    get_property_value c b' ov_x = x /\ get_property_value c b' ov_y = y.
Proof.
  intros O B R G Wx Wy Nx Ny P1 P2 S1 S2.
  assert (P : cparse c (x ++ [32%N] ++ y) = [mkC CIdent x; mkC CWs [32%N]; mkC CIdent y]) by (apply (ok_two c O); assumption).
  eexists. split.
  - apply (set_block c b SOverflow); auto using normalize_two.
    + intros E. apply word_all in Wx as [_ N]. destruct x; [congruence|discriminate].
    + rewrite P. discriminate.
    + rewrite P. cbn [sh_set]. unfold parse_component_list. fold ov_x. cbn [scan ck ctext].
      rewrite (not_wide_lower x Wx), Nx. change (is_lit (lit ",") (mkC CIdent x)) with false. change (is_lit (lit "/") (mkC CIdent x)) with false.
      change (mem ov_x with_solidus) with false. cbn [andb]. rewrite P1. cbn [bind fst snd].
      change (text_eqb ov_x (lit "mask-border-slice")) with false. cbn [andb app_target scan ck ctext].
      rewrite (not_wide_lower y Wy), Ny. change (is_lit (lit ",") (mkC CIdent y)) with false. change (is_lit (lit "/") (mkC CIdent y)) with false.
      cbn [andb]. rewrite P2. cbn [bind fst snd app]. reflexivity.
  - change (lit "overflow-x") with ov_x. change (lit "overflow-y") with ov_y.
    destruct (two_get (bdecls b) ov_x ov_y [mkC CIdent x] [mkC CIdent y] (lower p) B) as (G1 & G2); [vm_compute; discriminate|].
    rewrite !serialize_one, !strip_word in G1, G2 by assumption. set (d' := set_map _ _ _) in *.
    split; [|unfold get_property_value; change (is_shorthand (key ov_x)) with false; change (is_shorthand (key ov_y)) with false;
      change (key ov_x) with ov_x; change (key ov_y) with ov_y; cbn [bdecls]; rewrite G1, G2; split; reflexivity].
    rewrite (get_block c d' false SOverflow : get_property_value c _ (lit "overflow") = _).
    apply (overflow_value c d' x y (lower p)); assumption.
Qed.

(* text-decoration, one word that text-decoration-line accepts *)
Lemma read_text_decoration c b x p cx : css_ok c -> block_ok b -> breadonly b = false -> good_priority (lower p) = true ->
  word x = true -> is_wide x = false ->
  csupport c (lit "text-decoration-line") (mkC CIdent x) = Ok (true, cx) ->
  csupports c (lit "text-decoration-line") x = true ->
  exists b', set_property c b (lit "text-decoration") x (Some p) = Ok b' /\
    get_property_value c b' (lit "text-decoration") = x /\ get_property_value c b' (lit "text-decoration-line") = x.
Proof.
  intros O B R G Wx Nx P1 S1.
  assert (P : cparse c x = [mkC CIdent x]) by (apply (ok_word c O); assumption).
  assert (PI : cparse c (lit "initial") = [mkC CIdent (lit "initial")]) by (apply (ok_word c O); reflexivity).
  eexists. split.
  - apply (set_block c b STextDecoration); auto using normalize_word.
    + intros ->. discriminate.
    + rewrite P. discriminate.
    + rewrite P. cbn [sh_set]. unfold l_text_decoration at 1. cbn [parse_each]. unfold parse_component_list. cbn [scan ck ctext].
      rewrite (not_wide_lower x Wx), Nx. change (is_lit (lit ",") (mkC CIdent x)) with false. change (is_lit (lit "/") (mkC CIdent x)) with false.
      change (mem (lit "text-decoration-line") with_solidus) with false. cbn [andb]. rewrite P1. cbn [bind fst snd].
      change (text_eqb (lit "text-decoration-line") (lit "mask-border-slice")) with false. cbn [andb app_target scan take_out remove_lit bind dset].
      cbn [finish_wide]. rewrite PI. reflexivity.
  - set (cm := fill _ _ _).
    assert (C : dict_ok cm /\ forall k, dget cm k = if mem k l_text_decoration then Some (if text_eqb k (lit "text-decoration-line") then [mkC CIdent x] else [mkC CIdent (lit "initial")]) else None).
    { assert (Ecm : cm = [(lit "text-decoration-line", [mkC CIdent x]); (lit "text-decoration-style", [mkC CIdent (lit "initial")]); (lit "text-decoration-color", [mkC CIdent (lit "initial")])]) by reflexivity.
      rewrite Ecm. split; [unfold dict_ok; cbn [dkeys map fst]; nodup_lits|]. intros k. cbn [dget]. unfold l_text_decoration, mem. cbn [existsb].
      destruct (text_eqb_spec (lit "text-decoration-line") k) as [<-|N1]; [reflexivity|].
      destruct (text_eqb_spec k (lit "text-decoration-line")); [congruence|]. cbn [orb].
      destruct (text_eqb_spec (lit "text-decoration-style") k) as [<-|N2]; [reflexivity|].
      destruct (text_eqb_spec k (lit "text-decoration-style")); [congruence|]. cbn [orb].
      destruct (text_eqb_spec (lit "text-decoration-color") k) as [<-|N3]; [reflexivity|].
      destruct (text_eqb_spec k (lit "text-decoration-color")); [congruence|]. reflexivity. }
    destruct C as [C1 C2]. destruct (set_map_spec cm (bdecls b) (lower p) B C1) as (_ & G0 & _). set (d' := set_map _ _ _) in *.
    assert (G1 : dget d' (lit "text-decoration-line") = Some (x, lower p)).
    { rewrite G0, C2. change (mem (lit "text-decoration-line") l_text_decoration) with true. cbv iota. rewrite text_eqb_refl, serialize_one, strip_word by exact Wx. reflexivity. }
    assert (G2 : dget d' (lit "text-decoration-style") = Some (lit "initial", lower p)) by (rewrite G0, C2; reflexivity).
    assert (G3 : dget d' (lit "text-decoration-color") = Some (lit "initial", lower p)) by (rewrite G0, C2; reflexivity).
    split; [|unfold get_property_value; change (is_shorthand (key (lit "text-decoration-line"))) with false;
      change (key (lit "text-decoration-line")) with (lit "text-decoration-line"); cbn [bdecls]; rewrite G1; reflexivity].
    rewrite (get_block c d' false STextDecoration : get_property_value c _ (lit "text-decoration") = _). unfold depth.
    rewrite (sh_value_all c d' 2 (sname STextDecoration) STextDecoration l_text_decoration (fun n => if text_eqb n (lit "text-decoration-line") then x else lit "initial") (lower p)).
    + change (map _ (longhands (sname STextDecoration))) with
        [(lit "text-decoration-line", x); (lit "text-decoration-style", lit "initial"); (lit "text-decoration-color", lit "initial")].
      cbn [tostring]. unfold text_decoration_tostring.
      change (all_some _) with (Some [x; lit "initial"; lit "initial"]). cbv iota.
      unfold all_wide_same. cbn [forallb existsb]. unfold is_wide_not_initial. rewrite Nx. cbn [andb].
      change (is_wide (lit "initial") && negb (text_eqb (lit "initial") (lit "initial"))) with false. cbn [orb filter].
      assert (E : text_eqb x (lit "initial") = false).
      { destruct (text_eqb_spec x (lit "initial")) as [->|]; [vm_compute in Nx; discriminate|reflexivity]. }
      rewrite E. reflexivity.
    + reflexivity.
    + vm_compute. discriminate.
    + intros n Hn. left. change (longhands (sname STextDecoration)) with l_text_decoration in Hn. unfold l_text_decoration in Hn. cbn [In] in Hn.
      assert (NE : nonempty x = true) by (destruct x; [discriminate|reflexivity]).
      destruct Hn as [<-|[<-|[<-|[]]]]; split; try reflexivity.
      * split; [exact G1|]. split; [exact NE|exact S1].
      * split; [exact G2|]. split; [reflexivity|apply (ok_wide c O); reflexivity].
      * split; [exact G3|]. split; [reflexivity|apply (ok_wide c O); reflexivity].
Qed.

(* font-synthesis *)
Definition fsw : text := lit "font-synthesis-weight".
Definition fss : text := lit "font-synthesis-style".
Definition synthesis_table : list (text * (text * text)) :=
  [(lit "none", (lit "none", lit "none")); (lit "weight", (lit "auto", lit "none")); (lit "style", (lit "none", lit "auto"));
   (lit "weight style", (lit "auto", lit "auto"))].
Lemma synthesis_row c w x y : css_ok c -> In (w, (x, y)) synthesis_table ->
  normalize_text w = w /\ w <> [] /\ cparse c w <> [] /\ word x = true /\ word y = true /\
  font_synthesis_values c (cparse c w) = (x, y) /\
  font_synthesis_tostring [(fsw, x); (fss, y)] = w.
Proof.
  intros O. unfold synthesis_table. cbn [In]. intros H.
  destruct H as [H|[H|[H|[H|[]]]]]; injection H as <- <- <-.
  1-3: rewrite (ok_word c O) by reflexivity; split; [apply normalize_word; reflexivity|]; repeat split; discriminate.
  change (lit "weight style") with (lit "weight" ++ [32%N] ++ lit "style").
  rewrite (ok_two c O) by reflexivity. split; [apply normalize_two; reflexivity|]. repeat split; discriminate.
Qed.
Lemma read_font_synthesis c b w x y p : css_ok c -> block_ok b -> breadonly b = false -> good_priority (lower p) = true ->
  In (w, (x, y)) synthesis_table -> csupports c fsw x = true -> csupports c fss y = true ->
  exists b', set_property c b (lit "font-synthesis") w (Some p) = Ok b' /\
    get_property_value c b' (lit "font-synthesis") = w /\
    get_property_value c b' fsw = x /\ get_property_value c b' fss = y.
Proof.
  intros O B R G H S1 S2. destruct (synthesis_row c w x y O H) as (N & NE & PE & Wx & Wy & V & T).
  eexists. split.
  - apply (set_block c b SFontSynthesis w p); auto. cbn [sh_set]. rewrite V. reflexivity.
  - rewrite (ok_word c O x), (ok_word c O y) by assumption. fold fsw fss.
    destruct (two_get (bdecls b) fsw fss [mkC CIdent x] [mkC CIdent y] (lower p) B) as (G1 & G2); [vm_compute; discriminate|].
    rewrite !serialize_one, !strip_word in G1, G2 by assumption. set (d' := set_map _ _ _) in *.
    split; [|unfold get_property_value; change (is_shorthand (key fsw)) with false; change (is_shorthand (key fss)) with false;
      change (key fsw) with fsw; change (key fss) with fss; cbn [bdecls]; rewrite G1, G2; split; reflexivity].
    rewrite (get_block c d' false SFontSynthesis : get_property_value c _ (lit "font-synthesis") = _). unfold depth.
    rewrite (sh_value_all c d' 2 (sname SFontSynthesis) SFontSynthesis l_font_synthesis (fun n => if text_eqb n fsw then x else y) (lower p)).
    + exact T.
    + reflexivity.
    + vm_compute. discriminate.
    + intros n Hn. left. change (longhands (sname SFontSynthesis)) with [fsw; fss] in Hn. cbn [In] in Hn.
      assert (NEw : forall t, word t = true -> nonempty t = true) by (intros [|? ?]; [discriminate|reflexivity]).
      destruct Hn as [<-|[<-|[]]]; split; try reflexivity.
      * split; [exact G1|]. split; [apply NEw; exact Wx|exact S1].
      * split; [exact G2|]. split; [apply NEw; exact Wy|exact S2].
Qed.

(** a sample [css]: words separated by spaces, every word supported except
    for the text-wrap property, initial values as in props.py for white-space *)
Definition wcss : css := mkCss
  (fun t => interleave (split_ws t))
  (fun p x => Ok (negb (text_eqb p (lit "text-wrap")) && negb (text_eqb (ctext x) (lit "bogus")), false))
  (fun p v => true)
  (fun p => if text_eqb p (lit "text-space-collapse") then lit "collapse" else if text_eqb p (lit "text-wrap") then lit "wrap"
            else if text_eqb p (lit "text-space-trim") then lit "none" else lit "normal")
  (fun _ => false) (fun _ => false).
Lemma word_clean w : word w = true -> clean w = true.
Proof.
  intros H. apply word_all in H as [A N]. unfold clean. destruct w as [|x r]; [congruence|].
  rewrite forallb_forall in A. apply forallb_forall. intros y Hy. destruct (word_char_facts y (A y Hy)) as (S & _). rewrite S. reflexivity.
Qed.
Lemma wcss_ok : css_ok wcss.
Proof.
  constructor; [|reflexivity]. intros l H. cbn [cparse wcss]. rewrite split_join; [reflexivity|]. eapply Forall_impl; [|exact H]. intros w W. now apply word_clean.
Qed.
