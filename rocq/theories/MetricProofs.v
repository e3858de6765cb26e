(** The glyph slot does not matter. *)
From Coq Require Import Qround Qabs Lia Lqa.
From Verif Require Import PyBase PyText PySplit LengthModel FontMatchModel ScreenModel MetricModel MetricSpec.
#[local] Open Scope Q_scope.

Lemma mem_in : forall t l, mem t l = true <-> In t l.
Proof.
  intros t l. unfold mem. rewrite existsb_exists. split.
  - intros (x & I & E). destruct (text_eqb_spec t x); [subst; exact I|discriminate].
  - intros I. exists t. split; [exact I|apply text_eqb_refl].
Qed.
Lemma advance_pen : forall fo g, slot fo = g -> pen_advance (fo_style fo) g (advance fo).
Proof.
  intros fo g E. unfold advance, horizontal_mode. destruct (mem _ _) eqn:M.
  - rewrite E. apply Pen_across. unfold across. apply mem_in. exact M.
  - assert (X : ~ across (fo_style fo)) by (unfold across; rewrite <- mem_in, M; discriminate).
    destruct (text_eqb_spec (c_orientation (fo_style fo)) (lit "upright")) as [U|U].
    + apply Pen_upright; assumption.
    + rewrite E. apply Pen_down; assumption.
Qed.
Definition same (a b : font) : Prop := fo_face a = fo_face b /\ fo_size a = fo_size b /\ fo_style a = fo_style b.
Lemma loaded_spec : forall fo i read,
  match ft_load (fo_face fo) (fo_size fo) i with
  | Some g => exists fo', load_glyph fo i = (Ok tt, fo') /\ slot fo' = g /\ same fo' fo /\ then_read (load_glyph fo i) read = (Ok (read fo'), fo')
  | None => exists fo', then_read (load_glyph fo i) read = (Err OtherError, fo') /\ same fo' fo
  end.
Proof.
  intros fo i read. unfold load_glyph. destruct (ft_load (fo_face fo) (fo_size fo) i) as [g|].
  - eexists. split; [reflexivity|]. split; [reflexivity|]. split; [repeat split|reflexivity].
  - eexists. split; [reflexivity|repeat split].
Qed.
Lemma step_says : forall fo o, says (fo_face fo) (fo_style fo) (fo_size fo) o (fst (fstep fo o)) /\
  fo_face (snd (fstep fo o)) = fo_face fo /\ fo_style (snd (fstep fo o)) = fo_style fo /\
  fo_size (snd (fstep fo o)) = size_now (fo_face fo) (fo_size fo) [o].
Proof.
  intros fo o. destruct o; cbn [fstep].
  - repeat split. constructor.
  - repeat split. constructor.
  - unfold cap_height. cbn [cap_loop]. unfold load_char.
    destruct (Nat.eqb_spec (ft_index (fo_face fo) 72) 0) as [Z1|Z1].
    + destruct (Nat.eqb_spec (ft_index (fo_face fo) 104) 0) as [Z2|Z2].
      * cbn. repeat split. apply Says_cap_none; assumption.
      * assert (L := loaded_spec fo (ft_index (fo_face fo) 104) (fun fo => g_vadv (slot fo) / 64)).
        destruct (ft_load _ _ _) as [g|] eqn:G.
        -- destruct L as (fo' & _ & S1 & (F1 & F2 & F3) & E). rewrite E. cbn [fst snd]. rewrite S1.
           split; [apply (Says_cap _ _ _ 104 g); auto|]. auto.
        -- destruct L as (fo' & E & (F1 & F2 & F3)). rewrite E. cbn [fst snd].
           split; [apply (Says_cap_bad _ _ _ 104); auto|]. auto.
    + assert (L := loaded_spec fo (ft_index (fo_face fo) 72) (fun fo => g_vadv (slot fo) / 64)).
      destruct (ft_load _ _ _) as [g|] eqn:G.
      * destruct L as (fo' & _ & S1 & (F1 & F2 & F3) & E). rewrite E. cbn [fst snd]. rewrite S1.
        split; [apply (Says_cap _ _ _ 72 g); auto|]. auto.
      * destruct L as (fo' & E & (F1 & F2 & F3)). rewrite E. cbn [fst snd].
        split; [apply (Says_cap_bad _ _ _ 72); auto|]. auto.
  - unfold ch_advance, load_char. assert (L := loaded_spec fo (ft_index (fo_face fo) 48) advance).
    destruct (ft_load _ _ _) as [g|] eqn:G.
    + destruct L as (fo' & _ & S1 & (F1 & F2 & F3) & E). rewrite E. cbn [fst snd].
      split; [|auto]. apply (Says_ch _ _ _ g); [exact G|]. rewrite <- F3. apply advance_pen. exact S1.
    + destruct L as (fo' & E & (F1 & F2 & F3)). rewrite E. cbn [fst snd]. split; [apply Says_ch_bad; exact G|auto].
  - unfold ic_advance. cbv zeta. destruct (Nat.eqb_spec (ft_index (fo_face fo) 27700) 0) as [Z1|Z1].
    + cbn. repeat split. apply Says_ic_none. exact Z1.
    + assert (L := loaded_spec fo (ft_index (fo_face fo) 27700) advance).
      destruct (ft_load _ _ _) as [g|] eqn:G.
      * destruct L as (fo' & _ & S1 & (F1 & F2 & F3) & E). rewrite E. cbn [fst snd].
        split; [|auto]. apply (Says_ic _ _ _ g); [exact Z1|exact G|]. rewrite <- F3. apply advance_pen. exact S1.
      * destruct L as (fo' & E & (F1 & F2 & F3)). rewrite E. cbn [fst snd]. split; [apply Says_ic_bad; assumption|auto].
  - repeat split. constructor.
  - repeat split. constructor.
  - unfold x_height, load_char. assert (L := loaded_spec fo (ft_index (fo_face fo) 120) (fun fo => g_height (slot fo) / 64)).
    destruct (ft_load _ _ _) as [g|] eqn:G.
    + destruct L as (fo' & _ & S1 & (F1 & F2 & F3) & E). rewrite E. cbn [fst snd]. rewrite S1. split; [apply Says_x; exact G|auto].
    + destruct L as (fo' & E & (F1 & F2 & F3)). rewrite E. cbn [fst snd]. split; [apply Says_x_bad; exact G|auto].
  - unfold set_point_size, size_now. cbn [flat_map app]. destruct (ft_accepts (fo_face fo) (mkRq w h hr vr)) eqn:A; cbn.
    + split; [apply Says_set; exact A|auto].
    + split; [apply Says_set_bad; exact A|auto].
Qed.
Lemma last_app_any : forall (A : Type) (x y : A) (a b : list A), last (x :: a ++ b) y = last (last (x :: a) y :: b) y.
Proof.
  intros A x y a. revert x. induction a as [|z a IH]; intros x b; [reflexivity|].
  change (last (x :: (z :: a) ++ b) y) with (last (z :: a ++ b) y). rewrite IH. reflexivity.
Qed.
Lemma last_default : forall (A : Type) (l : list A) (x y z : A), last (x :: l) y = last (x :: l) z.
Proof. induction l as [|a l IH]; intros x y z; [reflexivity|]. cbn [last] in *. apply (IH a). Qed.
Lemma size_now_app : forall f r a b, size_now f r (a ++ b) = size_now f (size_now f r a) b.
Proof.
  intros. unfold size_now. rewrite flat_map_app, last_app_any. apply last_default.
Qed.
Lemma steps_tell : forall os fo f st r before, fo_face fo = f -> fo_style fo = st -> fo_size fo = size_now f r before ->
  tells f st r before os (fst (fsteps fo os)) /\ fo_face (snd (fsteps fo os)) = f /\ fo_style (snd (fsteps fo os)) = st /\
  fo_size (snd (fsteps fo os)) = size_now f r (before ++ os).
Proof.
  induction os as [|o os IH]; intros fo f st r before F S R.
  - cbn. rewrite app_nil_r. auto.
  - cbn [fsteps]. destruct (fstep fo o) as [a fo1] eqn:E. destruct (fsteps fo1 os) as [as_ fo2] eqn:E2.
    assert (H := step_says fo o). rewrite E in H. cbn [fst snd] in H. destruct H as (H1 & H2 & H3 & H4).
    assert (R1 : fo_size fo1 = size_now f r (before ++ [o])) by (rewrite size_now_app, <- R, H4, F; reflexivity).
    destruct (IH fo1 f st r (before ++ [o])) as (I1 & I2 & I3 & I4); [congruence|congruence|exact R1|].
    rewrite E2 in I1, I2, I3, I4. cbn [fst snd] in *.
    split; [|rewrite <- app_assoc in I4; auto]. cbn [tells]. split; [|exact I1]. rewrite <- R, <- F, <- S. exact H1.
Qed.
(* an answer is decided *)
Lemma pen_det : forall st g a b, pen_advance st g a -> pen_advance st g b -> a = b.
Proof. intros st g a b H1 H2. inversion H1; inversion H2; subst; congruence. Qed.
Lemma says_det : forall f st r o a b, says f st r o a -> says f st r o b -> a = b.
Proof.
  intros f st r o a b H1 H2.
  assert (X : forall g g' q q' c, glyph_of f r c = Some g -> glyph_of f r c = Some g' -> pen_advance st g q -> pen_advance st g' q' -> q = q').
  { intros g g' q q' c A B C D. rewrite A in B. injection B as <-. exact (pen_det _ _ _ _ C D). }
  inversion H1; subst; inversion H2; subst; try reflexivity; try congruence;
    repeat match goal with
    | H : _ \/ _ |- _ => destruct H as [H|H]
    | H : _ /\ _ |- _ => destruct H
    end; subst; try congruence; try (match goal with A : glyph_of _ _ ?c = Some ?g, B : glyph_of _ _ ?c = Some ?g' |- Ok (Some (_ / _)) = _ => rewrite A in B; injection B as <-; reflexivity end).
  all: f_equal; f_equal; match goal with P : pen_advance _ ?g ?q, R : pen_advance _ ?g' ?q' |- ?q = ?q' =>
    match goal with A : glyph_of _ _ ?c = Some g, B : glyph_of _ _ ?c = Some g' |- _ => exact (X _ _ _ _ _ A B P R) end end.
Qed.
Lemma unit_metric_says : forall fo u, exists a, says (fo_face fo) (fo_style fo) (fo_size fo) (metric_op u) a /\
  same (snd (unit_metric fo u)) fo /\
  match fst (unit_metric fo u) with Ok q => a = Ok (Some q) | Err e => a = Err e end.
Proof.
  intros fo u. unfold unit_metric, metric_op.
  destruct (text_eqb u (lit "ex")); [|destruct (text_eqb u (lit "cap")); [|destruct (text_eqb u (lit "ch"))]].
  - assert (H := step_says fo XHeight). cbn [fstep] in H. destruct (x_height fo) as [[q|e] fo'] eqn:E; cbn [fst snd] in *;
    destruct H as (H1 & H2 & H3 & H4); eexists; (split; [exact H1|]); (split; [repeat split; auto|reflexivity]).
  - assert (H := step_says fo CapHeight). cbn [fstep] in H. destruct (cap_height fo) as [[q|e] fo'] eqn:E; cbn [fst snd] in *;
    destruct H as (H1 & H2 & H3 & H4); eexists; (split; [exact H1|]); (split; [repeat split; auto|reflexivity]).
  - assert (H := step_says fo ChAdvance). cbn [fstep] in H. destruct (ch_advance fo) as [[q|e] fo'] eqn:E; cbn [fst snd] in *;
    destruct H as (H1 & H2 & H3 & H4); eexists; (split; [exact H1|]); (split; [repeat split; auto|reflexivity]).
  - assert (H := step_says fo IcAdvance). cbn [fstep] in H. destruct (ic_advance fo) as [[q|e] fo'] eqn:E; cbn [fst snd] in *;
    destruct H as (H1 & H2 & H3 & H4); eexists; (split; [exact H1|]); (split; [repeat split; auto|reflexivity]).
Qed.

(** ** int() *)
Lemma to_int_floor : forall x, 0 <= x -> to_int x = Qfloor x.
Proof.
  intros [n d] H. unfold to_int, Qfloor. cbn [Qnum Qden]. apply Z.quot_div_nonneg; [|lia].
  unfold Qle in H. cbn in H. lia.
Qed.
Lemma to_int_comp : forall x y, x == y -> to_int x = to_int y.
Proof.
  intros x y E. destruct (Qlt_le_dec x 0) as [L|L].
  - assert (X : forall z, z < 0 -> to_int z = (- Qfloor (- z))%Z).
    { intros [n d] H. unfold to_int, Qfloor. cbn [Qnum Qden Qopp]. rewrite <- (Z.opp_involutive n) at 1.
      rewrite Z.quot_opp_l by lia. f_equal. apply Z.quot_div_nonneg; [|lia]. clear -H. unfold Qlt in H. cbn [Qnum Qden] in *. lia. }
    rewrite X by exact L. rewrite X by lra. f_equal. apply Qfloor_comp. rewrite E. reflexivity.
  - rewrite to_int_floor by exact L. rewrite to_int_floor by lra. apply Qfloor_comp. exact E.
Qed.
(** ** The request *)
Lemma pt_value : forall s, exists q, value (of_number s None) (Some (lit "pt")) None = Ok q /\ q == s * (3 # 4).
Proof. intros s. eexists. split; [reflexivity|]. cbn. field. Qed.
Lemma get_face_spec : forall sys st s t f r, get_face sys st s t = Ok (f, r) ->
  sys_open sys (find_face (sys_fonts sys) st t) = Some f /\ ft_unicode f = true /\ ft_accepts f r = true /\
  r = mkRq 0 (to_int (48 * s_size st)) (fst (resolutions s)) (snd (resolutions s)).
Proof.
  intros sys st s t f r. unfold get_face. destruct (sys_open _ _) as [f'|]; [|discriminate].
  destruct (ft_unicode f') eqn:U; [|discriminate]. destruct (pt_value (s_size st)) as (q & E & Q1). rewrite E. cbn [bind].
  assert (I : to_int (q * 64) = to_int (48 * s_size st)) by (apply to_int_comp; rewrite Q1; ring).
  rewrite I. destruct (ft_accepts f' _) eqn:A; [|discriminate]. intros [= <- <-]. auto.
Qed.

(** ** Equal numbers find equal faces *)
Lemma qeqb_comp : forall x y z, x == y -> (x =?q z) = (y =?q z).
Proof. intros x y z E. destruct (Qeqb_spec x z), (Qeqb_spec y z); try reflexivity; exfalso; lra. Qed.
Lemma qltb_comp_l : forall x y z, x == y -> (x <?q z) = (y <?q z).
Proof. intros x y z E. destruct (Qltb_spec x z), (Qltb_spec y z); try reflexivity; exfalso; lra. Qed.
Lemma argmin_comp : forall l d e best, d == e -> argmin d best l = argmin e best l.
Proof.
  induction l as [|x l IH]; intros d e best E; [reflexivity|]. cbn [argmin].
  assert (X : (dist d x <?q dist d best) = (dist e x <?q dist e best)).
  { assert (A : forall z, dist d z == dist e z) by (intros z; unfold dist; rewrite E; reflexivity).
    assert (A1 := A x). assert (A2 := A best). destruct (Qltb_spec (dist d x) (dist d best)), (Qltb_spec (dist e x) (dist e best)); try reflexivity; exfalso; lra. }
  rewrite X. destruct (dist e x <?q dist e best); apply IH; exact E.
Qed.
Lemma narrow_comp : forall key b d e l, d == e -> narrow key b d l = narrow key b e l.
Proof.
  intros key b d e l E. unfold narrow, exactly.
  assert (X : filter (fun f => d =?q key f) l = filter (fun f => e =?q key f) l).
  { apply filter_ext. intros f. apply qeqb_comp. exact E. }
  rewrite X. destruct (filter (fun f => e =?q key f) l); [|reflexivity]. destruct (if b then _ else _); [reflexivity|]. cbv zeta. rewrite (argmin_comp _ d e _ E). reflexivity.
Qed.
Lemma texts_eqb_spec : forall a b, reflect (a = b) (texts_eqb a b).
Proof.
  induction a as [|x a IH]; intros [|y b]; cbn; try (constructor; congruence).
  destruct (text_eqb_spec x y) as [->|]; cbn; [|constructor; congruence].
  destruct (IH b) as [->|]; constructor; congruence.
Qed.
Lemma find_face_comp : forall fs a b t, s_families a = s_families b -> s_size a == s_size b -> s_stretch a = s_stretch b ->
  s_style a = s_style b -> s_weight a == s_weight b -> find_face fs a t = find_face fs b t.
Proof.
  intros fs a b t E1 E2 E3 E4 E5. unfold find_face. rewrite E1.
  assert (C : forall l, candidates a l = candidates b l).
  { intros l. unfold candidates, by_size, by_weight, by_width, slants. rewrite E3, E4.
    rewrite (narrow_comp f_size false _ _ _ E2). rewrite (narrow_comp f_weight _ _ _ _ E5).
    rewrite (qltb_comp_l _ _ 400 E5). reflexivity. }
  induction (family_names fs (s_families b) []) as [|n r IH]; [reflexivity|]. cbn [search]. rewrite C, IH. reflexivity.
Qed.
