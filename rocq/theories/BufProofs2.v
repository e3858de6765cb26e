(** Additions, histories, clusters, tags. *)
From Coq Require Import Lia ZArith.
From Verif Require Import PyBase PyText UrlModel SegModel BufModel BufSpec BufProofs.
#[local] Open Scope N_scope.

Lemma character_or_lone t : Forall (fun c => c < 1114112) t -> Forall character t \/ exists c, In c t /\ lone c.
Proof.
  intros F. induction F as [|c t L F [IH|(d & I & M)]]; [left; constructor| |right; exists d; split; [now right|exact M]].
  destruct (surrogate c) eqn:E; [right; exists c; split; [now left|now apply surrogate_spec]|]. left. constructor; [|exact IH].
  unfold character. destruct (N.ltb_spec c 55296); [now left|right]. split; [|exact L]. destruct (N.ltb_spec 57343 c); [assumption|]. exfalso.
  assert (surrogate c = true) by (apply surrogate_spec; unfold lone; lia). congruence.
Qed.
Lemma add8_text b t : Forall character t -> exists a l, before_nul t a /\ placed units8 0 a l /\ bstep b (AddUtf8 t) = (b ++ l, Ok tt).
Proof.
  intros F. destruct (before_exists t) as (a & Ha). exists a, (decoded next8 (flat_map utf8 a)). split; [exact Ha|]. split.
  - apply (decode_placed units8 next8 utf8); [reflexivity|apply next8_utf8|apply utf8_some| |apply le_n]. apply Forall_forall. intros c I. rewrite Forall_forall in F. apply F, (before_in t a c Ha I).
  - cbn [bstep]. rewrite (encode_ok utf8 t F). cbn [bind]. rewrite (until_before t a Ha). reflexivity.
Qed.
Lemma bom_character : character bom. Proof. right. unfold bom. lia. Qed.
Lemma add16_text b t : Forall character t -> exists l, placed units16 0 (65279 :: t) l /\ bstep b (AddUtf16 t) = (b ++ l, Ok tt).
Proof.
  intros F. exists (decoded next16 (flat_map units_of (bom :: t))). split.
  - apply (decode_placed units16 next16 units_of); [reflexivity|apply next16_units|apply units_some| |apply le_n]. constructor; [apply bom_character|exact F].
  - cbn [bstep]. rewrite (encode_ok units_of t F). reflexivity.
Qed.
Lemma add32_text b t : Forall character t -> exists l, placed units32 0 (65279 :: t) l /\ bstep b (AddUtf32 t) = (b ++ l, Ok tt).
Proof.
  intros F. exists (decoded next32 (flat_map (fun c => [c]) (bom :: t))). split.
  - apply (decode_placed units32 next32 (fun c => [c])); [reflexivity|apply next32_one|discriminate| |apply le_n]. constructor; [apply bom_character|exact F].
  - cbn [bstep]. rewrite (encode_ok (fun c => [c]) t F). reflexivity.
Qed.
Lemma add_lone b t : (exists c, In c t /\ lone c) ->
  bstep b (AddUtf8 t) = (b, Err UnicodeError_) /\ bstep b (AddUtf16 t) = (b, Err UnicodeError_) /\ bstep b (AddUtf32 t) = (b, Err UnicodeError_).
Proof. intros L. cbn [bstep]. rewrite !encode_err by exact L. auto. Qed.

(** ** Histories *)
Definition op_text (o : bop) : text := match o with AddUtf8 t | AddUtf16 t | AddUtf32 t => t | Clear => [] end.
Inductive brings : bop -> list (N * nat) -> Prop :=
  | br8 t l : brings8 t l -> brings (AddUtf8 t) l
  | br16 t l : brings_marked units16 t l -> brings (AddUtf16 t) l
  | br32 t l : brings_marked units32 t l -> brings (AddUtf32 t) l.
Lemma step_brings b o : o <> Clear -> Forall (fun c => c < 1114112) (op_text o) -> exists l, brings o l /\ fst (bstep b o) = b ++ l.
Proof.
  intros Nc F. destruct (character_or_lone _ F) as [C|L].
  - destruct o as [t|t|t|]; [| | |congruence]; cbn [op_text] in C.
    + destruct (add8_text b t C) as (a & l & Ha & Hl & ->). exists l. split; [constructor; econstructor 1; eassumption|reflexivity].
    + destruct (add16_text b t C) as (l & Hl & ->). exists l. split; [constructor; constructor 1; assumption|reflexivity].
    + destruct (add32_text b t C) as (l & Hl & ->). exists l. split; [constructor; constructor 1; assumption|reflexivity].
  - destruct o as [t|t|t|]; [| | |congruence]; cbn [op_text] in L; destruct (add_lone b t L) as (E8 & E16 & E32); destruct L as (c & I & L);
      exists []; rewrite app_nil_r; (split; [constructor; econstructor 2; eassumption|]); [rewrite E8|rewrite E16|rewrite E32]; reflexivity.
Qed.
Lemma run_brings os : forall b, ~ In Clear os -> Forall (fun o => Forall (fun c => c < 1114112) (op_text o)) os -> exists ls, Forall2 brings os ls /\ brun b os = b ++ concat ls.
Proof.
  induction os as [|o os IH]; intros b Nc F; [exists []; split; [constructor|symmetry; apply app_nil_r]|]. inversion F as [|? ? Fo Fs]; subst.
  destruct (step_brings b o ltac:(intros ->; apply Nc; now left) Fo) as (l & Bl & E). destruct (IH (b ++ l) ltac:(intros I; apply Nc; now right) Fs) as (ls & Bs & Es).
  exists (l :: ls). split; [constructor; assumption|]. unfold brun in *. cbn [fold_left concat]. rewrite E, Es. symmetry. apply app_assoc.
Qed.
Lemma run_app b os os' : brun b (os ++ os') = brun (brun b os) os'. Proof. apply fold_left_app. Qed.

(** ** Clusters *)
Lemma units8_pos c n : units8 c n -> (1 <= n)%nat. Proof. intros []; lia. Qed.
Lemma placed_from (units : N -> nat -> Prop) o t l : (forall c n, units c n -> (1 <= n)%nat) -> placed units o t l -> Forall (fun p => (o <= snd p)%nat) l.
Proof.
  intros U H. induction H as [|o c n t l Hu H IH]; constructor; [apply le_n|]. eapply Forall_impl; [|exact IH]. cbn. intros p L. specialize (U c n Hu). lia.
Qed.
Lemma placed_increasing (units : N -> nat -> Prop) o t l : (forall c n, units c n -> (1 <= n)%nat) -> placed units o t l ->
  forall i j p q, (i < j)%nat -> nth_error l i = Some p -> nth_error l j = Some q -> (snd p < snd q)%nat.
Proof.
  intros U H. induction H as [|o c n t l Hu H IH]; intros i j p q L Hi Hj; [destruct i; discriminate|].
  destruct j as [|j]; [lia|]. destruct i as [|i]; cbn in Hi, Hj; [|exact (IH i j p q ltac:(lia) Hi Hj)].
  injection Hi as <-. cbn. apply (placed_from units _ t l U) in H. rewrite Forall_forall in H. specialize (H q (nth_error_In _ _ Hj)). specialize (U c n Hu). lia.
Qed.
Lemma units8_one c n : units8 c n -> n = 1%nat <-> c < 128.
Proof. intros []; split; intros; try lia; reflexivity. Qed.
Lemma placed_indices t : forall o l, placed units8 o t l -> map snd l = seq o (length t) <-> Forall (fun c => c < 128) (removelast t).
Proof.
  induction t as [|c t IH]; intros o l H; inversion H as [|? ? n ? l' Hu Hl]; subst; [cbn; split; intros; [constructor|reflexivity]|].
  cbn [map snd length seq]. destruct t as [|d t]; [inversion Hl; subst; cbn; split; intros; [constructor|reflexivity]|]. cbn [removelast]. split.
  - intros E. injection E as E. assert (n = 1)%nat.
    { inversion Hl; subst. cbn in E. injection E as E _. lia. }
    subst n. constructor; [now apply (units8_one c 1)|]. rewrite Nat.add_1_r in Hl. apply (IH (S o) l' Hl). exact E.
  - intros F. inversion F as [|? ? Fc Fr]; subst. assert (n = 1)%nat by now apply (units8_one c n). subst n. f_equal. rewrite Nat.add_1_r in Hl. apply (IH (S o) l' Hl). exact Fr.
Qed.

(** ** Directions *)
Lemma land_not_mod d k : (0 <= k)%Z -> Z.land d (Z.lnot (Z.ones k)) = (d - d mod 2 ^ k)%Z.
Proof.
  intros K. rewrite <- Z.ldiff_land, Z.ldiff_ones_r, Z.shiftl_mul_pow2, Z.shiftr_div_pow2 by exact K.
  assert (D := Z.div_mod d (2 ^ k) ltac:(apply Z.pow_nonzero; lia)). lia.
Qed.
