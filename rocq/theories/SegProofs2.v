(** Lemmas for C78: runs and visual order. *)
From Coq Require Import NArith ZArith List Bool Lia Permutation.
From Verif Require Import PyBase PyText SegModel SegSpec SegProofs.
Import ListNotations.
#[local] Open Scope N_scope.

Lemma land1_odd n : (N.land n 1 =? 1) = N.odd n.
Proof. rewrite (N.land_ones n 1 : N.land n 1 = n mod 2). rewrite <- N.bit0_mod, N.bit0_odd. now destruct (N.odd n). Qed.
Lemma against_eqb l r : against_run l r = Bool.eqb l r. Proof. now destruct l, r. Qed.
(* what the loop gives, cutting the characters at the limits in code units *)
Fixpoint loop_parts (cut : text -> list text) (ltr : bool) (t : text) (a : nat) (rs : list (nat * N)) : list part :=
  match rs with
  | [] => []
  | (m, lv) :: rs' => mkPart a (N.odd lv) (let ls := cut (cut_out a m t) in if Bool.eqb ltr (N.odd lv) then rev ls else ls) :: loop_parts cut ltr t m rs'
  end.
Lemma logical_run_skip ds rs p : Forall (fun r => (fst r <= p)%nat) ds -> logical_run (ds ++ rs) p = logical_run rs p.
Proof. induction 1 as [|[m lv] ds L _ IH]; [reflexivity|]. cbn [app logical_run]. cbn in L. destruct (Nat.ltb_spec p m); [lia|exact IH]. Qed.
Lemma cut_out_scalar a m t : Forall scalar t -> Forall scalar (cut_out a m t).
Proof. intros F. unfold cut_out. apply Forall_forall. intros x J. rewrite Forall_forall in F. apply F. rewrite <- (firstn_skipn a t). apply in_or_app. right. rewrite <- (firstn_skipn (m - a) (skipn a t)). apply in_or_app. now left. Qed.
Lemma rep_set cut p b : Forall scalar p -> rep cut p (bi_set_text b p) ([], cut p).
Proof. intros F. split; cbn; auto. Qed.
Lemma climbs_le ms : forall a n, climbs a ms n -> (a <= n)%nat.
Proof. induction ms as [|m ms IH]; cbn; intros a n; [lia|]. intros [L C]. apply IH in C. lia. Qed.
Lemma climbs_length ms : forall a n, climbs a ms n -> (length ms <= n - a)%nat.
Proof. induction ms as [|m ms IH]; cbn; intros a n; [lia|]. intros [L C]. pose proof (climbs_le _ _ _ C). apply IH in C. lia. Qed.
Lemma parts_from_ok e cut (Ho : honest e cut) ltr t : Forall scalar t -> forall rs ds fuel a b, e_runs e ltr (utf16 t) = ds ++ rs ->
  Forall (fun r => (fst r <= a)%nat) ds -> climbs a (map fst rs) (width t) -> (length rs < fuel)%nat -> parts_from fuel e ltr t a b = Ok (loop_parts cut ltr t a rs).
Proof.
  intros F. induction rs as [|[m lv] rs IH]; intros ds [|f] a b E D C L; cbn [length] in L; try lia; cbn [parts_from map climbs] in *; rewrite utf16_length.
  - subst a. rewrite Nat.ltb_irrefl. reflexivity.
  - destruct C as [C1 C2]. cbn [fst] in *. pose proof (climbs_le _ _ _ C2). destruct (Nat.ltb_spec a (width t)); [|lia].
    rewrite E, logical_run_skip by assumption. cbn [logical_run]. destruct (Nat.ltb_spec a m); [|lia]. cbn [bind].
    rewrite land1_odd, against_eqb. set (p := cut_out a m t). pose proof (rep_set cut p b (cut_out_scalar a m t F)) as R.
    pose proof (rep_list e cut Ho p _ _ R) as LL. unfold bi_reversed. rewrite LL. cbn [loop_parts]. fold p.
    assert (W : whole ([], cut p) = cut p) by reflexivity. rewrite W.
    destruct (Bool.eqb ltr (N.odd lv)); rewrite (IH (ds ++ [(m, lv)])); try reflexivity; try lia.
    all: try (rewrite <- app_assoc; exact E). all: try exact C2.
    all: apply Forall_app; split; [|now constructor]. all: eapply Forall_impl; [|exact D]. all: cbn; lia.
Qed.
Lemma parts_ok e cut (Ho : honest e cut) ltr t : Forall scalar t -> climbs 0 (map fst (e_runs e ltr (utf16 t))) (width t) ->
  parts e ltr t = Ok (loop_parts cut ltr t 0 (e_runs e ltr (utf16 t))).
Proof.
  intros F C. unfold parts. apply (parts_from_ok e cut Ho ltr t F _ [] _ _ _ eq_refl); auto.
  apply climbs_length in C. rewrite map_length in C. rewrite utf16_length. lia.
Qed.
Lemma logical_loop ltr a lv ls : logical ltr (mkPart a (N.odd lv) (if Bool.eqb ltr (N.odd lv) then rev ls else ls)) = ls.
Proof. unfold logical. cbn [pt_rtl pt_lines]. destruct (Bool.eqb ltr (N.odd lv)); [apply rev_involutive|reflexivity]. Qed.
Lemma skipn_skip {A} (a b : nat) (l : list A) : (a <= b)%nat -> skipn (b - a) (skipn a l) = skipn b l.
Proof.
  revert b l. induction a as [|a IH]; intros b l L; [now rewrite Nat.sub_0_r|]. destruct b as [|b]; [lia|]. destruct l as [|x l]; [cbn; destruct (b - a)%nat; reflexivity|]. cbn. apply IH. lia.
Qed.
Lemma cut_out_skipn {A} a m (l : list A) : (a <= m)%nat -> cut_out a m l ++ skipn m l = skipn a l.
Proof. intros L. unfold cut_out. rewrite <- (skipn_skip a m l L). apply firstn_skipn. Qed.
Lemma length_width t : (length t <= width t)%nat.
Proof. induction t as [|c t IH]; [reflexivity|]. cbn [length]. rewrite width_cons. destruct (c <? 65536); lia. Qed.
Lemma loop_joined e cut (Ho : honest e cut) ltr t : Forall scalar t -> forall rs a, climbs a (map fst rs) (width t) ->
  concat (concat (map (logical ltr) (loop_parts cut ltr t a rs))) = skipn a t.
Proof.
  intros F. induction rs as [|[m lv] rs IH]; intros a C; cbn [loop_parts map concat climbs fst] in *.
  - subst a. symmetry. apply skipn_all2, length_width.
  - destruct C as [C1 C2]. rewrite logical_loop. rewrite concat_app, IH by assumption.
    destruct (Ho _ (cut_out_scalar a m t F)) as [[-> _] _]. apply cut_out_skipn. lia.
Qed.
Lemma loop_lines e cut (Ho : honest e cut) ltr t : Forall scalar t -> forall rs a p, In p (loop_parts cut ltr t a rs) -> Forall (fun l => l <> []) (pt_lines p).
Proof.
  intros F. induction rs as [|[m lv] rs IH]; intros a p; cbn [loop_parts]; [intros []|]. intros [<-|J]; [|eauto]. cbn [pt_lines].
  destruct (Ho _ (cut_out_scalar a m t F)) as [[_ N] _]. destruct (Bool.eqb ltr (N.odd lv)); [|exact N]. now apply Forall_rev.
Qed.
Lemma width_bmp t : Forall (fun c => c < 65536) t -> width t = length t.
Proof. induction 1 as [|c t L _ IH]; [reflexivity|]. rewrite width_cons, IH. destruct (N.ltb_spec c 65536); [reflexivity|lia]. Qed.
Lemma spanned_bmp t : Forall (fun c => c < 65536) t -> forall o a m, spanned o a m t = cut_out (a - o) (m - o) t.
Proof.
  induction 1 as [|c t L Ft IH]; intros o a m; [unfold cut_out; now rewrite skipn_nil, firstn_nil|].
  cbn [spanned]. rewrite IH, (width_bmp [c]) by (repeat constructor; assumption). cbn [length].
  unfold cut_out. destruct (Nat.leb_spec a o), (Nat.ltb_spec o m); cbn [andb app].
  - replace (a - o)%nat with 0%nat by lia. replace (a - (o + 1))%nat with 0%nat by lia. cbn [skipn]. replace (m - o - 0)%nat with (S (m - (o + 1) - 0)) by lia. reflexivity.
  - replace (m - (o + 1) - (a - (o + 1)))%nat with 0%nat by lia. replace (m - o - (a - o))%nat with 0%nat by lia. reflexivity.
  - replace (a - o)%nat with (S (a - (o + 1))) by lia. cbn [skipn]. f_equal. lia.
  - replace (m - (o + 1) - (a - (o + 1)))%nat with 0%nat by lia. replace (m - o - (a - o))%nat with 0%nat by lia. reflexivity.
Qed.
Lemma loop_proper cut ltr t : Forall (fun c => c < 65536) t -> forall rs a, loop_parts cut ltr t a rs = proper_parts cut ltr t a rs.
Proof.
  intros F. induction rs as [|[m lv] rs IH]; intros a; [reflexivity|]. cbn [loop_parts proper_parts]. rewrite IH. unfold proper_part. cbn [fst snd]. now rewrite spanned_bmp, !Nat.sub_0_r by assumption.
Qed.
Lemma lines_of_logical ltr p : length (concat (logical ltr p)) = length (concat (pt_lines p)).
Proof.
  unfold logical. destruct (Bool.eqb ltr (pt_rtl p)); [|reflexivity]. induction (pt_lines p) as [|l ls IH]; [reflexivity|].
  cbn [rev concat]. rewrite concat_app, !app_length. cbn [concat]. rewrite app_nil_r. unfold text in *. lia.
Qed.

(** ** Any breaks between characters are ends of pieces *)
Lemma firstn_app_split {A} k k' (l : list A) : (k <= k')%nat -> firstn k' l = firstn k l ++ firstn (k' - k) (skipn k l).
Proof. revert k' l. induction k as [|k IH]; intros k' l L; [now rewrite Nat.sub_0_r|]. destruct k' as [|k']; [lia|]. destruct l as [|x l]; [cbn; now rewrite firstn_nil|]. cbn. f_equal. apply IH. lia. Qed.
Lemma cut_exists ms : forall t a, climbs a ms (a + width t) -> Forall (fun m => exists k, m = (a + width (firstn k t))%nat) ms ->
  exists ps, concat ps = t /\ Forall (fun p => p <> []) ps /\ ms = ends a ps.
Proof.
  induction ms as [|m ms IH]; intros t a C F; cbn [climbs] in C.
  - exists []. split; [|split; [constructor|reflexivity]]. destruct t as [|c t]; [reflexivity|]. pose proof (width_pos (c :: t) ltac:(discriminate)). lia.
  - destruct C as [C1 C2]. inversion F as [|? ? (k & Ek) F']; subst m.
    destruct (IH (skipn k t) (a + width (firstn k t))%nat) as (ps & E1 & E2 & E3).
    + rewrite <- (firstn_skipn k t) in C2 at 2. rewrite width_app, Nat.add_assoc in C2. exact C2.
    + clear IH. revert C2 F'. generalize (a + width t)%nat. intros n C2 F'.
      assert (X : forall ms b, climbs b ms n -> Forall (fun m => (b < m)%nat) ms).
      { clear. induction ms as [|m ms IH]; intros b C; cbn in C; constructor; [tauto|]. destruct C as [C1 C2]. eapply Forall_impl; [|apply (IH m C2)]. cbn. lia. }
      apply X in C2. rewrite Forall_forall in C2, F' |- *. intros m J. destruct (F' m J) as (k' & Ek'). specialize (C2 m J). subst m.
      exists (k' - k)%nat. destruct (Nat.le_gt_cases k k') as [L|L].
      * rewrite (firstn_app_split k k' t L), width_app. lia.
      * exfalso. rewrite (firstn_app_split k' k t) in C2 by lia. rewrite width_app in C2. lia.
    + exists (firstn k t :: ps). split; [|split].
      * cbn [concat]. rewrite E1. apply firstn_skipn.
      * constructor; [|exact E2]. intros Z. rewrite Z in C1. cbn in C1. lia.
      * cbn [ends]. now rewrite E3.
Qed.

(** ** Visual order *)
Lemma concat_nth (ps : list (text * bool)) i p : nth_error ps i = Some p ->
  concat (map fst ps) = concat (map fst (firstn i ps)) ++ fst p ++ concat (map fst (skipn (S i) ps)).
Proof.
  revert i. induction ps as [|q ps IH]; intros [|i] E; cbn in E; try discriminate.
  - injection E as ->. reflexivity.
  - cbn [firstn map concat skipn]. rewrite (IH i E), <- app_assoc. reflexivity.
Qed.
Lemma perm_concat {A} (l m : list (list A)) : Permutation l m -> Permutation (concat l) (concat m).
Proof.
  induction 1 as [|x l m _ IH|x y l|l m n _ IH1 _ IH2]; cbn [concat]; [constructor|now apply Permutation_app_head| |now transitivity (concat m)].
  rewrite !app_assoc. apply Permutation_app_tail, Permutation_app_comm.
Qed.
Lemma perm_each {A} (f : A -> list N) (g : A -> list N) l : (forall x, Permutation (f x) (g x)) -> Permutation (concat (map f l)) (concat (map g l)).
Proof. intros F. induction l as [|x l IH]; [constructor|]. cbn [map concat]. now apply Permutation_app. Qed.
Lemma map_nth_seq {A} (d : A) l : map (fun i => nth i l d) (seq 0 (length l)) = l.
Proof. induction l as [|x l IH]; [reflexivity|]. cbn [length seq map nth]. f_equal. rewrite <- seq_shift, map_map. exact IH. Qed.
