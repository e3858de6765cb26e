(** C85: text, directions and tags given to HarfBuzz (svgpy/harfbuzz.py 35-36, 51-92, 221-229, 466-486). *)
From Coq Require Import Lia ZArith.
From Verif Require Import PyBase PyText UrlModel SegModel FtModel FtProofs2 BufModel BufSpec BufProofs BufProofs2.
#[local] Open Scope N_scope.

(** Whatever the buffer holds, a text of characters is added by [add_utf8] up to
    its first U+0000, every character with the number of bytes before it. *)
Theorem c85_utf8 b t : Forall character t -> exists a l, before_nul t a /\ placed units8 0 a l /\ bstep b (AddUtf8 t) = (b ++ l, Ok tt).
Proof. exact (add8_text b t). Qed.
Print Assumptions c85_utf8.
Example c85_utf8_ex : Forall character [97; 233; 8364; 128512; 98; 0; 99] /\
  bstep [] (AddUtf8 [97; 233; 8364; 128512; 98; 0; 99]) = ([(97, 0%nat); (233, 1%nat); (8364, 3%nat); (128512, 6%nat); (98, 10%nat)], Ok tt).
Proof. split; [repeat constructor; unfold character; lia|reflexivity]. Qed.

(** [add_utf16] and [add_utf32] add the whole text, and a byte order mark before it. *)
Theorem c85_utf16 b t : Forall character t -> exists l, placed units16 0 (65279 :: t) l /\ bstep b (AddUtf16 t) = (b ++ l, Ok tt).
Proof. exact (add16_text b t). Qed.
Print Assumptions c85_utf16.
Example c85_utf16_ex : bstep [(120, 0%nat)] (AddUtf16 [97; 128512; 0; 98]) = ([(120, 0%nat); (65279, 0%nat); (97, 1%nat); (128512, 2%nat); (0, 4%nat); (98, 5%nat)], Ok tt).
Proof. reflexivity. Qed.
Theorem c85_utf32 b t : Forall character t -> exists l, placed units32 0 (65279 :: t) l /\ bstep b (AddUtf32 t) = (b ++ l, Ok tt).
Proof. exact (add32_text b t). Qed.
Print Assumptions c85_utf32.
Example c85_utf32_ex : bstep [] (AddUtf32 [97; 128512; 98]) = ([(65279, 0%nat); (97, 1%nat); (128512, 2%nat); (98, 3%nat)], Ok tt).
Proof. reflexivity. Qed.

(** A text with a lone surrogate is refused by all three, and the buffer stays as it is. *)
Theorem c85_surrogate b t : (exists c, In c t /\ lone c) ->
  bstep b (AddUtf8 t) = (b, Err UnicodeError_) /\ bstep b (AddUtf16 t) = (b, Err UnicodeError_) /\ bstep b (AddUtf32 t) = (b, Err UnicodeError_).
Proof. exact (add_lone b t). Qed.
Print Assumptions c85_surrogate.
Example c85_surrogate_ex : (exists c, In c [97; 55357] /\ lone c) /\ bstep [(98, 0%nat)] (AddUtf8 [97; 55357]) = ([(98, 0%nat)], Err UnicodeError_).
Proof. split; [exists 55357; split; [right; now left|unfold lone; lia]|reflexivity]. Qed.

(** The three do not add the same characters: because of the mark, and of U+0000. *)
Theorem c85_same_refuted : exists t, Forall character t /\ ~ In 0 t /\
  map fst (fst (bstep [] (AddUtf8 t))) <> map fst (fst (bstep [] (AddUtf16 t))).
Proof. exists [97]. split; [repeat constructor; unfold character; lia|]. split; [intros [E|[]]; discriminate|discriminate]. Qed.
Print Assumptions c85_same_refuted.
Theorem c85_nul_refuted : exists t, Forall character t /\ map fst (fst (bstep [] (AddUtf8 t))) <> t.
Proof. exists [97; 0; 98]. split; [repeat constructor; unfold character; lia|discriminate]. Qed.
Print Assumptions c85_nul_refuted.
(** They do apart from the mark, for texts without U+0000: the characters of the text, all of them, in order. *)
Theorem c85_same_partial b t : Forall character t -> ~ In 0 t ->
  map fst (fst (bstep b (AddUtf8 t))) = map fst b ++ t /\
  map fst (fst (bstep b (AddUtf16 t))) = map fst b ++ 65279 :: t /\
  map fst (fst (bstep b (AddUtf32 t))) = map fst b ++ 65279 :: t.
Proof.
  intros F Z. destruct (add8_text b t F) as (a & l & Ha & Hl & ->), (add16_text b t F) as (l1 & H1 & ->), (add32_text b t F) as (l2 & H2 & ->). cbn [fst]. rewrite !map_app.
  apply placed_chars in Hl, H1, H2. rewrite Hl, H1, H2. split; [|split; reflexivity]. f_equal. destruct Ha as [t _|a r _]; [reflexivity|]. exfalso. apply Z, in_or_app. right. now left.
Qed.
Print Assumptions c85_same_partial.
Example c85_same_ex : Forall character [97; 233; 128512] /\ ~ In 0 [97; 233; 128512].
Proof. split; [repeat constructor; unfold character; lia|]. intros [E|[E|[E|[]]]]; discriminate. Qed.

(** After any history, whatever the texts: what was added since contents were
    last cleared, one after the other, and nothing of what was refused. *)
Theorem c85_history b before since : ~ In Clear since -> Forall (fun o => Forall (fun c => c < 1114112) (op_text o)) since ->
  exists ls, Forall2 brings since ls /\ brun b (before ++ Clear :: since) = concat ls.
Proof. intros C F. rewrite run_app. unfold brun at 1. cbn [fold_left bstep fst]. exact (run_brings since [] C F). Qed.
Print Assumptions c85_history.
Theorem c85_history_kept b os : ~ In Clear os -> Forall (fun o => Forall (fun c => c < 1114112) (op_text o)) os ->
  exists ls, Forall2 brings os ls /\ brun b os = b ++ concat ls.
Proof. exact (run_brings os b). Qed.
Print Assumptions c85_history_kept.
Example c85_history_ex : brun [] [AddUtf8 (lit "old"); Clear; AddUtf8 (lit "ab"); AddUtf16 [55296]; AddUtf32 (lit "c")] =
  [(97, 0%nat); (98, 1%nat); (65279, 0%nat); (99, 1%nat)].
Proof. reflexivity. Qed.

(** The clusters of one text increase, so that they tell characters apart ... *)
Theorem c85_clusters t : Forall character t -> forall i j p q, (i < j)%nat ->
  nth_error (fst (bstep [] (AddUtf8 t))) i = Some p -> nth_error (fst (bstep [] (AddUtf8 t))) j = Some q -> (snd p < snd q)%nat.
Proof. intros F. destruct (add8_text [] t F) as (a & l & _ & Hl & ->). cbn [fst app]. exact (placed_increasing units8 0 a l units8_pos Hl). Qed.
Print Assumptions c85_clusters.
Example c85_clusters_ex : map snd (fst (bstep [] (AddUtf8 [233; 97; 128512; 98]))) = [0; 2; 3; 7]%nat. Proof. reflexivity. Qed.
(** ... but those of two texts do not. *)
Theorem c85_clusters_refuted : exists t u i j p q, i <> j /\
  nth_error (brun [] [AddUtf8 t; AddUtf8 u]) i = Some p /\ nth_error (brun [] [AddUtf8 t; AddUtf8 u]) j = Some q /\ snd p = snd q.
Proof. exists (lit "a"), (lit "b"), 0%nat, 1%nat, (97, 0%nat), (98, 0%nat). repeat split; discriminate. Qed.
Print Assumptions c85_clusters_refuted.
(** A cluster is the index of its character in the text just when every
    character before the last is ASCII. *)
Theorem c85_indices t : Forall character t -> ~ In 0 t ->
  (map snd (fst (bstep [] (AddUtf8 t))) = seq 0 (length t) <-> Forall (fun c => c < 128) (removelast t)).
Proof.
  intros F Z. destruct (add8_text [] t F) as (a & l & Ha & Hl & ->). cbn [fst app]. destruct Ha as [t _|a r _]; [|exfalso; apply Z, in_or_app; right; now left].
  exact (placed_indices t 0 l Hl).
Qed.
Print Assumptions c85_indices.
Example c85_indices_ex : map snd (fst (bstep [] (AddUtf8 (lit "ab" ++ [233])))) = [0; 1; 2]%nat /\ map snd (fst (bstep [] (AddUtf8 (233 :: lit "ab")))) = [0; 2; 3]%nat.
Proof. split; reflexivity. Qed.

(** ** Directions: for every integer *)
Theorem c85_direction d :
  (is_valid d = true <-> (d = 4 \/ d = 5 \/ d = 6 \/ d = 7)%Z) /\
  (is_horizontal d = true <-> (d = 4 \/ d = 5)%Z) /\ (is_vertical d = true <-> (d = 6 \/ d = 7)%Z) /\
  (is_forward d = true <-> (d = 4 \/ d = 6)%Z) /\ (is_backward d = true <-> (d = 5 \/ d = 7)%Z).
Proof.
  assert (M2 : forall k, Z.land d (Z.lnot 2) = k -> (4 <= k < 6)%Z -> (d = 4 \/ d = 5 \/ d = 6 \/ d = 7)%Z).
  { intros k E K. assert (E4 : Z.land d (Z.lnot 3) = Z.land k (Z.lnot 3)) by (rewrite <- E, <- Z.land_assoc; reflexivity).
    change 3%Z with (Z.ones 2) in E4. rewrite !land_not_mod in E4 by lia. change (2 ^ 2)%Z with 4%Z in E4.
    assert (B := Z.mod_pos_bound d 4 ltac:(lia)). assert (Kk : k = 4%Z \/ k = 5%Z) by lia. destruct Kk as [-> | ->]; [change (4 - 4 mod 4)%Z with 4%Z in E4|change (5 - 5 mod 4)%Z with 4%Z in E4]; lia. }
  unfold is_valid, is_horizontal, is_vertical, is_forward, is_backward. rewrite !Z.eqb_eq. split; [|split; [|split; [|split]]].
  - change 3%Z with (Z.ones 2). rewrite land_not_mod by lia. change (2 ^ 2)%Z with 4%Z. split; [assert (B := Z.mod_pos_bound d 4 ltac:(lia)); lia|intros [-> | [-> | [-> | ->]]]; reflexivity].
  - change 1%Z with (Z.ones 1). rewrite land_not_mod by lia. change (2 ^ 1)%Z with 2%Z. split; [assert (B := Z.mod_pos_bound d 2 ltac:(lia)); lia|intros [-> | ->]; reflexivity].
  - change 1%Z with (Z.ones 1). rewrite land_not_mod by lia. change (2 ^ 1)%Z with 2%Z. split; [assert (B := Z.mod_pos_bound d 2 ltac:(lia)); lia|intros [-> | ->]; reflexivity].
  - split; [|intros [-> | ->]; reflexivity]. intros E. destruct (M2 _ E ltac:(lia)) as [-> | [-> | [-> | ->]]]; auto; discriminate E.
  - split; [|intros [-> | ->]; reflexivity]. intros E. destruct (M2 _ E ltac:(lia)) as [-> | [-> | [-> | ->]]]; auto; discriminate E.
Qed.
Print Assumptions c85_direction.
Example c85_direction_ex : map is_valid [-4; 0; 3; 4; 7; 8; 12]%Z = [false; false; false; true; true; false; false]. Proof. reflexivity. Qed.
(** Reversing twice gives the direction back; once, it exchanges forward and
    backward and keeps validity, horizontal and vertical. *)
Theorem c85_reverse d : reverse (reverse d) = d /\ reverse d <> d /\ is_valid (reverse d) = is_valid d /\
  is_forward (reverse d) = is_backward d /\ is_backward (reverse d) = is_forward d /\
  is_horizontal (reverse d) = is_horizontal d /\ is_vertical (reverse d) = is_vertical d.
Proof.
  assert (R : reverse (reverse d) = d) by (unfold reverse; rewrite Z.lxor_assoc; apply Z.lxor_0_r).
  assert (K : forall e k, (k = 4 \/ k = 5 \/ k = 6 \/ k = 7)%Z -> reverse e = k -> (e = reverse k)%Z).
  { intros e k _ E. unfold reverse in *. rewrite <- E, Z.lxor_assoc. symmetry. apply Z.lxor_0_r. }
  split; [exact R|]. split; [intros E; unfold reverse in E; apply (f_equal (Z.lxor d)) in E; rewrite <- Z.lxor_assoc, Z.lxor_nilpotent, Z.lxor_0_l in E; discriminate|].
  assert (D : forall e, (e = 4 \/ e = 5 \/ e = 6 \/ e = 7)%Z \/ (is_valid e = false /\ is_forward e = false /\ is_backward e = false /\ is_horizontal e = false /\ is_vertical e = false)).
  { intros e. destruct (c85_direction e) as (V & H & W & F & G).
    destruct (is_valid e); [left; now apply V|]. destruct (is_horizontal e); [left; destruct (proj1 H eq_refl); auto|]. destruct (is_vertical e); [left; destruct (proj1 W eq_refl); auto|].
    destruct (is_forward e); [left; destruct (proj1 F eq_refl); auto|]. destruct (is_backward e); [left; destruct (proj1 G eq_refl); auto|]. right. auto. }
  destruct (D d) as [[-> | [-> | [-> | ->]]]|(V & F & G & H & W)]; [repeat split..|].
  destruct (D (reverse d)) as [L|(V' & F' & G' & H' & W')]; [|rewrite V, F, G, H, W, V', F', G', H', W'; auto].
  exfalso. assert (E := K d (reverse d) L eq_refl). destruct L as [L|[L|[L|L]]]; rewrite L in E; cbn in E; subst d; discriminate V.
Qed.
Print Assumptions c85_reverse.
Example c85_reverse_ex : map reverse [4; 5; 6; 7; 0]%Z = [5; 4; 7; 6; 1]%Z. Proof. reflexivity. Qed.
(** The name of a direction reads back as that direction, and everything else as no direction. *)
Theorem c85_names d : from_string (to_string d) = Ok (if is_valid d then d else 0%Z).
Proof.
  destruct (c85_direction d) as (V & _). destruct (is_valid d).
  - destruct (proj1 V eq_refl) as [-> | [-> | [-> | ->]]]; reflexivity.
  - unfold to_string. repeat match goal with |- context [(d =? ?k)%Z] => destruct (Z.eqb_spec d k); [subst; exfalso; assert (false = true) by (apply V; auto); discriminate|] end. reflexivity.
Qed.
Print Assumptions c85_names.
Example c85_names_ex : from_string (lit "ltr") = Ok 4%Z /\ from_string (to_string 7) = Ok 7%Z /\ from_string (to_string 9) = Ok 0%Z. Proof. repeat split. Qed.
(** Only the first letter counts: other words are taken for directions. *)
Theorem c85_names_refuted : exists t, (forall d, to_string d <> t) /\ from_string t = Ok 4%Z.
Proof.
  exists (lit "lrt"). split; [|reflexivity]. intros d. unfold to_string. destruct (d =? 4)%Z, (d =? 5)%Z, (d =? 6)%Z, (d =? 7)%Z; discriminate.
Qed.
Print Assumptions c85_names_refuted.
Theorem c85_first_letter c t : Forall character (c :: t) ->
  from_string (c :: t) = Ok (if (c =? 76) || (c =? 108) then 4%Z else if (c =? 82) || (c =? 114) then 5%Z else if (c =? 84) || (c =? 116) then 6%Z else if (c =? 66) || (c =? 98) then 7%Z else 0%Z).
Proof.
  intros F. unfold from_string. rewrite (encode_ok utf8 _ F). cbn [bind flat_map]. unfold utf8 at 1. destruct (N.ltb_spec c 128) as [L|L].
  - cbn [app]. destruct (N.leb_spec 65 c), (N.leb_spec c 90); cbn [andb];
      repeat match goal with |- context [?a =? ?b] => destruct (N.eqb_spec a b); try lia end; cbn [orb]; reflexivity.
  - assert (B : forall x, 128 <= x -> (let y := if (65 <=? x) && (x <=? 90) then x + 32 else x in
      Ok (if y =? 108 then 4%Z else if y =? 114 then 5%Z else if y =? 116 then 6%Z else if y =? 98 then 7%Z else 0%Z)) = Ok 0%Z).
    { intros x Lx. cbv zeta. destruct (N.leb_spec 65 x), (N.leb_spec x 90); cbn [andb]; try lia. repeat match goal with |- context [?a =? ?b] => destruct (N.eqb_spec a b); try lia end. reflexivity. }
    repeat match goal with |- context [(c =? ?k)] => destruct (N.eqb_spec c k); try lia end. cbn [orb].
    destruct (c <? 2048), (c <? 65536); cbn [app]; apply B; generalize (c / 64) (c / 4096) (c / 262144); intros; lia.
Qed.
Print Assumptions c85_first_letter.
Example c85_first_letter_ex : Forall character (lit "Left") /\ from_string (lit "Left") = Ok 4%Z /\ from_string [233] = Ok 0%Z.
Proof. split; [repeat constructor|split; reflexivity]. Qed.

(** ** Tags: the four bytes are the digits in base 256, so different tags differ *)
Theorem c85_tag a b c d : b < 256 -> c < 256 -> d < 256 -> hb_tag a b c d = ((a * 256 + b) * 256 + c) * 256 + d.
Proof. exact (tag_value a b c d). Qed.
Print Assumptions c85_tag.
Theorem c85_tag_injective a b c d a' b' c' d' : b < 256 -> c < 256 -> d < 256 -> b' < 256 -> c' < 256 -> d' < 256 ->
  hb_tag a b c d = hb_tag a' b' c' d' -> a = a' /\ b = b' /\ c = c' /\ d = d'.
Proof. intros. rewrite !c85_tag in * by assumption. lia. Qed.
Print Assumptions c85_tag_injective.
Theorem c85_scripts : hb_tag 90 121 121 121 = script_common /\ hb_tag 90 105 110 104 = script_inherited /\ hb_tag 90 122 122 122 = script_unknown /\
  lit "Zyyy" = [90; 121; 121; 121] /\ lit "Zinh" = [90; 105; 110; 104] /\ lit "Zzzz" = [90; 122; 122; 122].
Proof. repeat split. Qed.
Print Assumptions c85_scripts.
Theorem c85_tag_refuted : exists a b c d b', b <> b' /\ hb_tag a b c d = hb_tag a b' c d.
Proof. exists 1, 0, 0, 0, 256. split; [discriminate|reflexivity]. Qed.
Print Assumptions c85_tag_refuted.

(** ** Features: as many bytes are read as there are characters, so that the
    text of a feature is read whole just when it is ASCII *)
Theorem c85_feature t : Forall character t -> (feature_bytes t = encode utf8 t <-> Forall (fun c => c < 128) t).
Proof.
  intros F. unfold feature_bytes. rewrite (encode_ok utf8 t F). cbn [bind].
  assert (G : forall u, (length u <= length (flat_map utf8 u))%nat /\ (length (flat_map utf8 u) = length u <-> Forall (fun c => c < 128) u)).
  { induction u as [|c u (L & E)]; [split; [apply le_n|split; [constructor|reflexivity]]|]. cbn [flat_map length]. rewrite app_length.
    unfold utf8 at 1 3. destruct (N.ltb_spec c 128) as [C|C].
    - cbn [length]. split; [lia|]. split; intros Q; [constructor; [exact C|]; apply E; lia|apply Forall_inv_tail, E in Q; lia].
    - destruct (c <? 2048), (c <? 65536); cbn [length]; (split; [lia|]); (split; intros Q; [exfalso; lia|inversion Q; subst; exfalso; lia]). }
  destruct (G t) as (L & E). rewrite <- E. split.
  - intros Q. injection Q as Q. apply (f_equal (@length N)) in Q. rewrite firstn_length in Q. lia.
  - intros Q. f_equal. rewrite <- Q. apply firstn_all.
Qed.
Print Assumptions c85_feature.
Example c85_feature_ex : feature_bytes (lit "kern=0") = Ok (lit "kern=0") /\ feature_bytes [233; 61] = Ok [195; 169] /\ encode utf8 [233; 61] = Ok [195; 169; 61].
Proof. repeat split. Qed.
