(** C62: addressable characters of text content and the lengths of their sub-strings. *)
From Coq Require Import QArith Lia Setoid.
From Verif Require Import PyBase PyText PyList PySplit LookupModel TextModel TextSpec TextProofs TextProofs2 CharsModel CharsSpec CharsProofs CharsProofs2.
#[local] Open Scope N_scope.

Definition lib1 : charlib := mkC (fun t => t) (fun _ => false).
Definition nl : text := lit "normal".
Definition tx (k : N) (t : option text) kids : celem := CE k (lit "text") true nl t kids.
Definition ts (k : N) (t : option text) kids : celem := CE k (lit "tspan") true nl t kids.
Definition inner : celem := ts 3 (Some (lit " two ")) [].
Definition outer : celem := ts 2 (Some (lit "one")) [(inner, Some (lit " three"))].
Definition sample : celem := tx 1 (Some (lit "  zero ")) [(outer, Some (lit "four  ")); (CE 5 (lit "tspan") false nl (Some (lit "no")) [], Some (lit "five"))].

(** The pieces of text are what stands in the markup, in its order, each with the element
    that owns it, normalised knowing the piece before; empty ones vanish and the last one
    is trimmed.  The errors are exactly an element closed before there is any text, and a
    comment. *)
Theorem c62_read lib root : chars_info lib root = do cs <- read lib None (events root); Ok (trimmed cs).
Proof. rewrite chars_info_read. destruct (read lib None (events root)) as [cs|]; [|reflexivity]. cbn [bind]. now rewrite trim_trimmed. Qed.
Print Assumptions c62_read.
Example c62_read_ex : chars_info lib1 sample = Ok [(1, lit "zero"); (2, lit " one"); (3, lit " two"); (2, lit " three"); (1, lit " four"); (1, lit " five")].
Proof. reflexivity. Qed.

(** The characters of a text element are those pieces side by side; they have every
    visible character of the drawn texts, in order and nothing else. *)
Theorem c62_text lib root up : name_of root = lit "text" ->
  get_chars lib (root :: up) = do cs <- read lib None (events root); Ok (Some (concat (map snd (trimmed cs)))).
Proof.
  intros E. unfold get_chars. cbn [nearest_text]. rewrite E. replace (text_eqb (lit "text") (lit "text")) with true by reflexivity. rewrite c62_read. now destruct (read lib None (events root)).
Qed.
Print Assumptions c62_text.
Theorem c62_visible lib root up t : name_of root = lit "text" -> get_chars lib (root :: up) = Ok (Some t) ->
  visible t = visible (concat (map (c_unescape lib) (pieces (events root)))).
Proof.
  intros E. rewrite c62_text by exact E. destruct (read lib None (events root)) as [cs|] eqn:R; [|discriminate]. cbn [bind]. intros [= <-]. rewrite <- trim_trimmed, trim_last_visible. eapply read_visible, R.
Qed.
Print Assumptions c62_visible.
Example c62_text_ex : get_chars lib1 [sample] = Ok (Some (lit "zero one two three four five")). Proof. reflexivity. Qed.

(** The number of characters is the length of the characters, zero where there are none. *)
Theorem c62_number lib l : get_number_of_chars lib l = do o <- get_chars lib l; Ok (match o with Some t => length t | None => 0%nat end).
Proof. unfold get_number_of_chars. destruct (get_chars lib l) as [[t|]|]; reflexivity. Qed.
Print Assumptions c62_number.
(** The characters of an element inside a text element are part of those of the text
    element, so that it never has more of them. *)
Theorem c62_part lib self up root t r : nearest_text (self :: up) = Some root -> get_chars lib (self :: up) = Ok (Some t) ->
  exists u a b, get_chars lib (root :: r) = Ok (Some u) /\ u = a ++ t ++ b.
Proof.
  intros E. assert (R : text_eqb (name_of root) (lit "text") = true).
  { revert E. generalize (self :: up). induction l as [|e l IH]; cbn [nearest_text]; [discriminate|]. destruct (text_eqb (name_of e) (lit "text")) eqn:T; [now intros [= <-]|exact IH]. }
  unfold get_chars at 1. rewrite E. destruct (chars_info lib root) as [cs|] eqn:C; [|discriminate]. cbn [bind]. intros H.
  exists (concat (map snd cs)). assert (G : get_chars lib (root :: r) = Ok (Some (concat (map snd cs)))).
  { unfold get_chars. cbn [nearest_text]. rewrite R, C. reflexivity. }
  assert (X : exists a b, concat (map snd cs) = a ++ t ++ b).
  { destruct (text_eqb (name_of self) (lit "text")); [injection H as <-; exists [], []; now rewrite app_nil_r|]. destruct (mem (name_of self) text_children); [|discriminate].
    destruct (owned (key_of self) cs) as [|x l] eqn:O; [discriminate|]. injection H as <-. apply (owned_part (key_of self)). rewrite O. now left. }
  destruct X as (a & b & X). exists a, b. split; [exact G|exact X].
Qed.
Print Assumptions c62_part.
Theorem c62_fewer lib self up root n r : nearest_text (self :: up) = Some root -> get_number_of_chars lib (self :: up) = Ok n ->
  exists m, get_number_of_chars lib (root :: r) = Ok m /\ (n <= m)%nat.
Proof.
  intros E H. unfold get_number_of_chars in H. destruct (get_chars lib (self :: up)) as [[t|]|] eqn:G; [| |discriminate]; cbn [bind] in H; injection H as <-.
  - destruct (c62_part lib self up root t r E G) as (u & a & b & X & ->). exists (length (a ++ t ++ b)). split; [unfold get_number_of_chars; now rewrite X|]. rewrite !app_length. lia.
  - assert (R : exists u, get_chars lib (root :: r) = Ok (Some u)).
    { unfold get_chars in G. rewrite E in G. destruct (chars_info lib root) as [cs|] eqn:C; [|discriminate]. assert (R : text_eqb (name_of root) (lit "text") = true).
      { clear -E. revert E. generalize (self :: up). induction l as [|e l IH]; cbn [nearest_text]; [discriminate|]. destruct (text_eqb (name_of e) (lit "text")) eqn:T; [now intros [= <-]|exact IH]. }
      exists (concat (map snd cs)). unfold get_chars. cbn [nearest_text]. rewrite R, C. reflexivity. }
    destruct R as (u & R). exists (length u). split; [unfold get_number_of_chars; now rewrite R|lia].
Qed.
Print Assumptions c62_fewer.
Example c62_part_ex : get_chars lib1 [inner; outer; sample] = Ok (Some (lit " two")) /\ get_number_of_chars lib1 [inner; outer; sample] = Ok 4%nat /\ get_number_of_chars lib1 [sample] = Ok 28%nat.
Proof. repeat split; reflexivity. Qed.

(** An element without children in a text element has exactly its own piece as its
    characters, and none if that vanished.  The claim is false with children. *)
Theorem c62_own_partial lib root up key name shown ws t o : let self := CE key name shown ws t [] in
  nearest_text (self :: up) = Some root -> inside self root -> NoDup (keys root) -> flows name = true -> get_chars lib (self :: up) = Ok o ->
  exists cs, chars_info lib root = Ok cs /\ owned key cs = match o with Some t => [t] | None => [] end.
Proof.
  intros self E I ND F. unfold get_chars. rewrite E. destruct (chars_info lib root) as [cs|] eqn:C; [|discriminate]. cbn [bind]. subst self. cbn [name_of key_of].
  rewrite flows_eq in F. assert (T : text_eqb name (lit "text") = false).
  { destruct (text_eqb_spec name (lit "text")) as [X|X]; [|reflexivity]. subst name. discriminate F. }
  rewrite T, F. intros H. exists cs. split; [reflexivity|].
  assert (L : (length (owned key cs) <= 1)%nat).
  { rewrite chars_info_read in C. destruct (read lib None (events root)) as [cs0|] eqn:R; [|discriminate]. cbn [bind] in C. injection C as <-. rewrite (owned_length key _ cs0 (trim_last_fst cs0)).
    apply (read_count lib _ _ _ key) in R. pose proof (leaf_pieces _ _ I _ _ _ _ _ eq_refl ND). lia. }
  destruct (owned key cs) as [|x [|y r]]; [now injection H as <-|now injection H as <-|cbn in L; lia].
Qed.
Print Assumptions c62_own_partial.
Example c62_own_ex : nearest_text [inner; outer; sample] = Some sample /\ inside inner sample /\ NoDup (keys sample) /\ flows (name_of inner) = true.
Proof.
  split; [reflexivity|]. split; [|split; [|reflexivity]].
  - eapply in_kid; [left; reflexivity|]. eapply in_kid; [left; reflexivity|]. constructor.
  - cbn. repeat (constructor; [cbn; intuition discriminate|]). constructor.
Qed.
(** False: the characters of a tspan element are all of those within it. *)
Theorem c62_own_refuted : get_chars lib1 [outer; sample] = Ok (Some (lit " one")). Proof. reflexivity. Qed.
Print Assumptions c62_own_refuted.
(** False: text within a textPath element is addressable. *)
Theorem c62_textpath_refuted : let p := CE 2 (lit "textPath") true nl (Some (lit "along")) [] in let r := tx 1 (Some (lit "a")) [(p, None)] in
  get_chars lib1 [r] = Ok (Some (lit "a")) /\ get_chars lib1 [p; r] = Ok None.
Proof. split; reflexivity. Qed.
Print Assumptions c62_textpath_refuted.

(** Characters can be had of every text element without comments whose own text is not
    blank; the claim is false of other text elements. *)
Theorem c62_total_partial lib key ws t kids up : let root := CE key (lit "text") true ws (Some t) kids in
  notes (events root) = false -> normalize_text lib ws t None true false <> [] -> exists u, get_chars lib (root :: up) = Ok (Some u).
Proof.
  intros root NN NE. rewrite c62_text by reflexivity. cbn [events] in NN |- *. subst root. cbn [events]. replace (drawn (lit "text") true) with true in * by reflexivity.
  cbn [piece app read]. destruct (normalize_text lib ws t None true false) as [|c o]; [congruence|]. cbn [events] in NN. replace (drawn (lit "text") true) with true in NN by reflexivity. cbn [piece app notes existsb orb] in NN.
  match goal with |- context [read lib (Some (c :: o)) ?x] => remember x as l eqn:Hl; clear Hl end.
  assert (G : forall l (p : text), notes l = false -> exists cs, read lib (Some p) l = Ok cs).
  { clear. induction l as [|[k ws t| |] l IH]; intros p N0; cbn [read]; [eauto| | |discriminate N0].
    - destruct (normalize_text lib ws t (Some p) false false) as [|c o]; [now apply IH|]. destruct (IH (c :: o) N0) as (cs & X). exists ((k, c :: o) :: cs). change (@Some (list N) (c :: o)) with (@Some text (c :: o)). now rewrite X.
    - now apply IH. }
  destruct (G l (c :: o) NN) as (cs & X). change (@Some (list N) (c :: o)) with (@Some text (c :: o)). rewrite X. cbn [bind]. eauto.
Qed.
Print Assumptions c62_total_partial.
Theorem c62_comment_refuted : get_chars lib1 [tx 1 (Some (lit "a")) [(CO, Some (lit "b"))]] = Err AttributeError. Proof. reflexivity. Qed.
Print Assumptions c62_comment_refuted.
Theorem c62_empty_refuted : get_chars lib1 [tx 1 None [(ts 2 None [], Some (lit "b"))]] = Err TypeError. Proof. reflexivity. Qed.
Print Assumptions c62_empty_refuted.

(** ** Lengths.  Shaping is any function from the pieces to the advances of each. *)

(** Lengths of neighbouring sub-strings add up, and an element that has one of them has
    them all. *)
Theorem c62_length_add lib shape l (a n m : nat) x : get_sub_string_length lib shape l (Z.of_nat a) (Z.of_nat n) = Ok x ->
  exists y z, get_sub_string_length lib shape l (Z.of_nat a + Z.of_nat n) (Z.of_nat m) = Ok y /\ get_sub_string_length lib shape l (Z.of_nat a) (Z.of_nat n + Z.of_nat m) = Ok z /\ (x + y == z)%Q.
Proof.
  intros H. apply length_inv in H. destruct H as (adv & A & X). destruct (length_of lib shape l adv (Z.of_nat a + Z.of_nat n) (Z.of_nat m) A) as (y & Y1 & Y2).
  destruct (length_of lib shape l adv (Z.of_nat a) (Z.of_nat n + Z.of_nat m) A) as (z & Z1 & Z2). exists y, z. repeat split; [exact Y1|exact Z1|]. rewrite X, Y2, Z2. apply sub_sum_add.
Qed.
Print Assumptions c62_length_add.
(** A sub-string from the start and the rest make up the computed length. *)
Theorem c62_length_whole lib shape l (a : nat) z : get_computed_text_length lib shape l = Ok z ->
  exists x y, get_sub_string_length lib shape l 0 (Z.of_nat a) = Ok x /\ get_sub_string_length lib shape l (Z.of_nat a) (-1) = Ok y /\ (x + y == z)%Q.
Proof.
  intros H. apply length_inv in H. destruct H as (adv & A & X). destruct (length_of lib shape l adv 0 (Z.of_nat a) A) as (x & X1 & X2).
  destruct (length_of lib shape l adv (Z.of_nat a) (-1) A) as (y & Y1 & Y2). exists x, y. repeat split; [exact X1|exact Y1|]. rewrite X, X2, Y2. apply sub_sum_whole.
Qed.
Print Assumptions c62_length_whole.
(** The computed length of a text element is the sum of those of its pieces. *)
Theorem c62_length_text lib shape root up cs : name_of root = lit "text" -> chars_info lib root = Ok cs ->
  exists z, get_computed_text_length lib shape (root :: up) = Ok z /\ (z == total (map total (map snd (shape cs))))%Q.
Proof.
  intros E C. assert (A : advances_of lib shape (root :: up) = Ok (concat (map snd (shape cs)))).
  { unfold advances_of. cbn [nearest_text]. rewrite E. replace (text_eqb (lit "text") (lit "text")) with true by reflexivity. rewrite C. reflexivity. }
  destruct (length_of lib shape (root :: up) _ 0 (-1) A) as (z & Z1 & Z2). exists z. split; [exact Z1|]. rewrite Z2, (sub_sum_rest _ 0). cbn [skipn]. apply total_concat.
Qed.
Print Assumptions c62_length_text.
(** When every character has an advance there is nothing past the last character. *)
Theorem c62_length_past lib shape l (a m : nat) n x : faithful shape -> get_number_of_chars lib l = Ok n -> (n <= a)%nat ->
  get_sub_string_length lib shape l (Z.of_nat a) (Z.of_nat m) = Ok x -> (x == 0)%Q.
Proof.
  intros F N L H. apply length_inv in H. destruct H as (adv & A & X). rewrite X, sub_sum_nat. pose proof (advances_number lib shape l adv n F A N). rewrite skipn_all2 by lia. rewrite firstn_nil. reflexivity.
Qed.
Print Assumptions c62_length_past.
(** One character by one: the length of a sub-string of one character is its advance. *)
Theorem c62_length_one lib shape root up cs (a : nat) x : name_of root = lit "text" -> chars_info lib root = Ok cs ->
  nth_error (concat (map snd (shape cs))) a = Some x -> exists z, get_sub_string_length lib shape (root :: up) (Z.of_nat a) 1 = Ok z /\ (z == x)%Q.
Proof.
  intros E C NTH. assert (A : advances_of lib shape (root :: up) = Ok (concat (map snd (shape cs)))).
  { unfold advances_of. cbn [nearest_text]. rewrite E. replace (text_eqb (lit "text") (lit "text")) with true by reflexivity. rewrite C. reflexivity. }
  destruct (length_of lib shape (root :: up) _ (Z.of_nat a) 1 A) as (z & Z1 & Z2). exists z. split; [exact Z1|]. rewrite Z2. rewrite (sub_sum_nat _ a 1).
  assert (S : exists r, skipn a (concat (map snd (shape cs))) = x :: r).
  { clear -NTH. revert NTH. generalize (concat (map snd (shape cs))). induction a as [|a IH]; intros [|y l]; cbn [nth_error skipn]; try discriminate; [intros [= ->]; eauto|apply IH]. }
  destruct S as (r & ->). cbn [firstn total]. ring.
Qed.
Print Assumptions c62_length_one.
Definition shape1 : shaper := map (fun c => (fst c, map (fun ch => if ch =? 32 then 1 # 4 else 1 # 2)%Q (snd c))).
Example c62_length_ex : faithful shape1 /\ (exists x, get_sub_string_length lib1 shape1 [sample] 0 4 = Ok x /\ x == 2)%Q /\
  (exists x, get_computed_text_length lib1 shape1 [inner; outer; sample] = Ok x /\ x == 7 # 4)%Q.
Proof.
  split; [|split; eexists; split; [vm_compute; reflexivity|reflexivity|vm_compute; reflexivity|reflexivity]]. intros cs. unfold shape1. rewrite map_map. apply map_ext. intros [k t]. cbn [fst snd]. now rewrite map_length.
Qed.
(** False: a sub-string that starts past the last character is an error (SVG 2 asks for
    IndexSizeError), and a negative number of characters is one. *)
Theorem c62_length_range_refuted : get_sub_string_length lib1 shape1 [sample] 100 1 = Ok 0%Q /\ exists x, get_sub_string_length lib1 shape1 [sample] (-4) 4 = Ok x /\ (x == 0)%Q /\
  exists y, get_sub_string_length lib1 shape1 [sample] 1 (-3) = Ok y /\ (0 < y)%Q.
Proof. split; [reflexivity|]. eexists. split; [vm_compute; reflexivity|]. split; [reflexivity|]. eexists. split; [vm_compute; reflexivity|]. reflexivity. Qed.
Print Assumptions c62_length_range_refuted.
(** Outside a text element there are no characters and no length. *)
Theorem c62_outside lib shape l a n : (forall e, In e l -> name_of e <> lit "text") -> get_chars lib l = Ok None /\ get_number_of_chars lib l = Ok 0%nat /\ get_sub_string_length lib shape l a n = Ok 0%Q.
Proof.
  intros H. assert (E : nearest_text l = None).
  { induction l as [|e l IH]; [reflexivity|]. cbn [nearest_text]. destruct (text_eqb_spec (name_of e) (lit "text")) as [X|X]; [elim (H e); [now left|exact X]|]. apply IH. intros x I. apply H. now right. }
  unfold get_number_of_chars, get_chars, get_sub_string_length. rewrite E. repeat split.
Qed.
Print Assumptions c62_outside.
Example c62_outside_ex : get_chars lib1 [ts 2 (Some (lit "a")) []; CE 1 (lit "svg") true nl None []] = Ok None. Proof. reflexivity. Qed.
