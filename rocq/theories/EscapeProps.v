(** C49: CSS.escape. *)
From Verif Require Import PyBase PyText EscapeModel EscapeSpec.
#[local] Open Scope N_scope.

(* the token that a character becomes *)
Definition token (i : nat) (dash single : bool) (c : N) : bool * N :=
  if c =? 0 then (false, 65533)
  else if (between 1 c 31 || (c =? 127)) || ((Nat.eqb i 0) && is_digit c) || ((Nat.eqb i 1) && is_digit c && dash) then (true, c)
  else if (Nat.eqb i 0) && (c =? 45) && single then (true, c)
  else if (128 <=? c) || ((c =? 45) || (c =? 95)) || is_digit c || between 65 c 90 || between 97 c 122 then (false, c)
  else (true, c).
Fixpoint tokens (i : nat) (dash single : bool) (t : text) : list (bool * N) :=
  match t with [] => [] | c :: t' => token i dash single c :: tokens (S i) dash single t' end.
Lemma hex_read c r : c < 128 -> unescape Slash (hex c ++ 32 :: r) = option_map (cons (true, code_point c)) (unescape Plain r).
Proof.
  intros H. assert (C : In c (map N.of_nat (seq 0 128))) by (apply in_map_iff; exists (N.to_nat c); split; [lia|apply in_seq; lia]).
  assert (A : forallb (fun c => match hex c with
    | [a] => match hex_value a with Some d => d =? c | None => false end
    | [a; b] => match hex_value a, hex_value b with Some d, Some e => 16 * d + e =? c | _, _ => false end
    | _ => false end) (map N.of_nat (seq 0 128)) = true) by (vm_compute; reflexivity).
  rewrite forallb_forall in A. specialize (A c C). clear C H. destruct (hex c) as [|a [|b [|x h]]]; try discriminate A; cbn [app unescape].
  - destruct (hex_value a) as [d|]; [|discriminate A]. apply N.eqb_eq in A. subst d. reflexivity.
  - destruct (hex_value a) as [d|]; [|discriminate A]. destruct (hex_value b) as [e|]; [|discriminate A]. apply N.eqb_eq in A. subst c. reflexivity.
Qed.
Lemma code_point_low c : 0 < c -> c < 128 -> code_point c = c.
Proof. intros A B. unfold code_point. destruct (N.eqb_spec c 0); [lia|]. destruct (N.leb_spec 55296 c); [lia|]. destruct (N.ltb_spec 1114111 c); [lia|]. reflexivity. Qed.
Lemma char_read i d s c r : unescape Plain (escape_char i d s c ++ r) = option_map (cons (token i d s c)) (unescape Plain r).
Proof.
  unfold escape_char, token. destruct (N.eqb_spec c 0) as [->|N0]; [reflexivity|].
  assert (DG : is_digit c = true -> c < 128) by (unfold is_digit; rewrite andb_true_iff, !N.leb_le; lia).
  destruct ((between 1 c 31 || (c =? 127)) || ((Nat.eqb i 0) && is_digit c) || ((Nat.eqb i 1) && is_digit c && d)) eqn:E.
  - assert (L : c < 128).
    { rewrite !orb_true_iff, !andb_true_iff in E. unfold between in E. rewrite andb_true_iff, !N.leb_le, N.eqb_eq in E. destruct E as [[[?|?]|[_ D]]|[[_ D] _]]; [lia|lia|auto|auto]. }
    cbn [app]. rewrite <- app_assoc. cbn [app]. cbn [unescape]. change (92 =? 92) with true. cbn iota. rewrite hex_read by exact L. rewrite code_point_low by lia. reflexivity.
  - destruct ((Nat.eqb i 0) && (c =? 45) && s) eqn:E2.
    + apply andb_true_iff in E2. destruct E2 as [E2 _]. apply andb_true_iff in E2. destruct E2 as [_ E2]. apply N.eqb_eq in E2. subst c. reflexivity.
    + destruct ((128 <=? c) || ((c =? 45) || (c =? 95)) || is_digit c || between 65 c 90 || between 97 c 122) eqn:E3.
      * cbn [app unescape]. destruct (N.eqb_spec c 92) as [->|]; [discriminate E3|reflexivity].
      * cbn [app unescape]. change (92 =? 92) with true. cbn iota. rewrite !orb_false_iff in E3. destruct E3 as ((((A & B) & C) & D) & F). apply orb_false_iff in B.
        assert (NL : newline c = false).
        { unfold newline. rewrite !orb_false_iff in E. unfold between in E. destruct E as (((E & _) & _) & _). apply andb_false_iff in E. rewrite !N.leb_gt in E.
          destruct (N.eqb_spec c 10); [lia|]. destruct (N.eqb_spec c 13); [lia|]. destruct (N.eqb_spec c 12); [lia|]. reflexivity. }
        assert (HV : hex_value c = None).
        { unfold hex_value, is_digit, between in *. rewrite C. destruct (N.leb_spec 97 c); destruct (N.leb_spec c 102); cbn [andb] in *.
          - destruct (N.leb_spec c 122); [discriminate F|lia].
          - destruct (N.leb_spec 65 c); destruct (N.leb_spec c 70); cbn [andb]; try reflexivity. lia.
          - destruct (N.leb_spec 65 c); destruct (N.leb_spec c 70); cbn [andb] in *; try reflexivity. destruct (N.leb_spec c 90); [discriminate D|lia].
          - lia. }
        rewrite HV, NL. reflexivity.
Qed.
Lemma from_read t : forall i d s, unescape Plain (escape_from i d s t) = Some (tokens i d s t).
Proof. induction t as [|c t IH]; intros i d s; [reflexivity|]. cbn [escape_from tokens]. rewrite char_read, IH. reflexivity. Qed.
Lemma token_snd i d s c : snd (token i d s c) = if c =? 0 then 65533 else c.
Proof. unfold token. destruct (c =? 0); [reflexivity|]. repeat (match goal with |- context [if ?b then _ else _] => destruct b end; try reflexivity). Qed.
Lemma tokens_snd t : forall i d s, map snd (tokens i d s t) = nul_replaced t.
Proof. induction t as [|c t IH]; intros i d s; [reflexivity|]. cbn [tokens map nul_replaced]. rewrite token_snd. f_equal. apply IH. Qed.

(** Reading the escaped text as CSS gives the characters back, U+0000 replaced. *)
Theorem c49_round_trip t : exists l, unescape Plain (escape t) = Some l /\ map snd l = nul_replaced t.
Proof. eexists. split; [apply from_read|apply tokens_snd]. Qed.
Print Assumptions c49_round_trip.
Example c49_round_trip_ex : escape (lit "-1 a.b" ++ [31; 233]) = lit "-\31 \ a\.b\1f " ++ [233]. Proof. reflexivity. Qed.

(** Two texts with the same escape are the same, up to U+0000. *)
Theorem c49_injective s t : escape s = escape t -> nul_replaced s = nul_replaced t.
Proof. intros E. destruct (c49_round_trip s) as (l & A & B). destruct (c49_round_trip t) as (m & C & D). rewrite E in A. rewrite A in C. injection C as ->. congruence. Qed.
Print Assumptions c49_injective.
Theorem c49_injective_plain s t : ~ In 0 s -> ~ In 0 t -> escape s = escape t -> s = t.
Proof.
  intros A B E. apply c49_injective in E. assert (X : forall u, ~ In 0 u -> nul_replaced u = u); [|now rewrite !X in E].
  induction u as [|c u IH]; [reflexivity|]. intros N. cbn [nul_replaced map]. destruct (N.eqb_spec c 0) as [->|]; [destruct N; now left|]. f_equal. apply IH. intros I. apply N. now right.
Qed.
Print Assumptions c49_injective_plain.
Example c49_injective_ex : escape (lit "a b") <> escape (lit "a\ b"). Proof. discriminate. Qed.

(** The escape of any text but the empty one is an identifier. *)
Lemma token_name i d s c : name_char (token i d s c) = true.
Proof.
  unfold token, name_char, name_start. destruct (c =? 0); [reflexivity|]. match goal with |- context [if ?b then (true, c) else _] => destruct b; [reflexivity|] end. match goal with |- context [if ?b then (true, c) else _] => destruct b; [reflexivity|] end.
  destruct ((128 <=? c) || ((c =? 45) || (c =? 95)) || is_digit c || between 65 c 90 || between 97 c 122) eqn:E; [|reflexivity]. unfold is_digit, between in E. cbn [fst snd orb].
  destruct (128 <=? c), (c =? 45), (c =? 95), ((48 <=? c) && (c <=? 57)), ((65 <=? c) && (c <=? 90)), ((97 <=? c) && (c <=? 122)); cbn in *; congruence.
Qed.
Lemma tokens_name t : forall i d s, forallb name_char (tokens i d s t) = true.
Proof. induction t as [|c t IH]; intros; [reflexivity|]. cbn [tokens forallb]. rewrite token_name. apply IH. Qed.
Lemma token_start i d s c : (i = 0%nat \/ i = 1%nat /\ d = true) -> c <> 45 -> name_start (token i d s c) = true.
Proof.
  intros P N45. unfold token, name_start. destruct (c =? 0); [reflexivity|]. apply N.eqb_neq in N45. rewrite N45, andb_false_r. cbn [andb orb].
  destruct (is_digit c) eqn:D.
  - assert (X : (between 1 c 31 || (c =? 127)) || (Nat.eqb i 0 && true) || (Nat.eqb i 1 && true && d) = true) by (destruct P as [->|[-> ->]]; cbn; rewrite ?orb_true_r; reflexivity). rewrite X. reflexivity.
  - rewrite !andb_false_r, !orb_false_r. destruct (between 1 c 31 || (c =? 127)); [reflexivity|].
    destruct ((128 <=? c) || (c =? 95) || between 65 c 90 || between 97 c 122) eqn:E; cbn [orb]; [|reflexivity].
    unfold between in E. destruct (128 <=? c), (c =? 95), ((65 <=? c) && (c <=? 90)), ((97 <=? c) && (c <=? 122)); cbn in *; congruence.
Qed.
Theorem c49_identifier t : t <> [] -> exists l, unescape Plain (escape t) = Some l /\ identifier l = true.
Proof.
  intros NE. eexists. split; [apply from_read|]. unfold identifier. rewrite tokens_name. cbn [andb]. destruct t as [|c t]; [congruence|].
  cbn [tokens]. destruct (N.eq_dec c 45) as [->|N45].
  - change (45 =? 45) with true. destruct t as [|b t]; [reflexivity|]. change (token 0 true false 45) with (false, 45). cbn [negb andb]. change (45 =? 45) with true. cbn iota. cbn [tokens].
    destruct (N.eq_dec b 45) as [->|Nb]; [reflexivity|]. rewrite token_start; [reflexivity|right; now split|exact Nb].
  - assert (S := token_start 0 (c =? 45) (match t with [] => true | _ => false end) c (or_introl eq_refl) N45).
    assert (V := token_snd 0 (c =? 45) (match t with [] => true | _ => false end) c).
    change (match c :: t with [_] => true | _ => false end) with (match t with [] => true | _ => false end).
    destruct (token 0 (c =? 45) (match t with [] => true | _ => false end) c) as [e x]. cbn [snd] in V. 
    assert (X : (x =? 45) = false) by (apply N.eqb_neq; subst x; destruct (c =? 0); [discriminate|exact N45]). rewrite X, andb_false_r. exact S.
Qed.
Print Assumptions c49_identifier.
Example c49_identifier_ex : escape (lit "-") = lit "\-" /\ escape (lit "--9") = lit "--9" /\ escape (lit "9") = lit "\39 ". Proof. repeat split. Qed.
(** False: of the empty text. *)
Theorem c49_empty_refuted : escape [] = [] /\ forall l, unescape Plain (escape []) = Some l -> identifier l = false.
Proof. split; [reflexivity|]. intros l [= <-]. reflexivity. Qed.
Print Assumptions c49_empty_refuted.

(** An identifier that needs no escape is left alone. *)
Theorem c49_plain_kept t : (forall c, In c t -> (128 <= c \/ c = 45 \/ c = 95 \/ 48 <= c <= 57 \/ 65 <= c <= 90 \/ 97 <= c <= 122)) ->
  match t with [] => True | [c] => c <> 45 /\ is_digit c = false | c :: d :: _ => is_digit c = false /\ (c = 45 -> is_digit d = false) end -> escape t = t.
Proof.
  intros H S. assert (K : forall i d s c, In c t -> (i = 0%nat -> is_digit c = false) -> (i = 1%nat -> d = true -> is_digit c = false) -> (i = 0%nat -> s = true -> c <> 45) -> escape_char i d s c = [c]).
  { intros i d s c I A B C. specialize (H c I). unfold escape_char.
    assert (E0 : (c =? 0) = false) by (apply N.eqb_neq; lia). assert (E1 : between 1 c 31 = false) by (unfold between; apply andb_false_iff; rewrite !N.leb_gt; lia). assert (E2 : (c =? 127) = false) by (apply N.eqb_neq; lia).
    rewrite E0, E1, E2. cbn [orb]. assert (E3 : Nat.eqb i 0 && is_digit c = false) by (destruct i; [now rewrite A|reflexivity]).
    assert (E4 : Nat.eqb i 1 && is_digit c && d = false) by (destruct i as [|[|i]]; [reflexivity| |reflexivity]; destruct d; [now rewrite B|apply andb_false_r]).
    assert (E5 : Nat.eqb i 0 && (c =? 45) && s = false) by (destruct i; [|reflexivity]; destruct s; [|apply andb_false_r]; specialize (C eq_refl eq_refl); apply N.eqb_neq in C; now rewrite C).
    rewrite E3, E4, E5. cbn [orb]. unfold is_digit, between. assert (G : (128 <=? c) || ((c =? 45) || (c =? 95)) || ((48 <=? c) && (c <=? 57)) || ((65 <=? c) && (c <=? 90)) || ((97 <=? c) && (c <=? 122)) = true).
    { rewrite !orb_true_iff, !andb_true_iff, !N.leb_le, !N.eqb_eq. lia. }
    now rewrite G. }
  assert (F : forall u i d s, (2 <= i)%nat -> (forall c, In c u -> In c t) -> escape_from i d s u = u).
  { induction u as [|c u IH]; intros i d s L I; [reflexivity|]. cbn [escape_from]. rewrite K; [cbn [app]; f_equal; apply IH; [lia|intros; apply I; now right]|apply I; now left|lia|lia|lia]. }
  unfold escape. destruct t as [|c [|d u]]; [reflexivity| |].
  - cbn [escape_from]. destruct S as [S1 S2]. rewrite K; [reflexivity|now left|auto|lia|auto].
  - cbn [escape_from]. destruct S as [S1 S2]. rewrite !K.
    + rewrite F; [reflexivity|lia|]. intros x I. right. now right.
    + right. now left.
    + lia.
    + intros _ E. apply S2. now apply N.eqb_eq.
    + intros _ E. discriminate E.
    + now left.
    + auto.
    + lia.
    + intros _ E. discriminate E.
Qed.
Print Assumptions c49_plain_kept.
Example c49_plain_kept_ex : escape (lit "-foo_Bar9") = lit "-foo_Bar9". Proof. reflexivity. Qed.
