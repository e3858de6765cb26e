(** Lemmas for C78: strings of cffi, the break iterator and its cursor. *)
From Coq Require Import NArith ZArith List Bool Lia Permutation.
From Verif Require Import PyBase PyText SegModel SegSpec.
Import ListNotations.
#[local] Open Scope N_scope.

(** ** UTF-16 *)
Lemma width_app a b : width (a ++ b) = (width a + width b)%nat.
Proof. unfold width. induction a as [|c a IH]; [reflexivity|]. cbn [app fold_right]. rewrite IH. lia. Qed.
Lemma width_cons c t : width (c :: t) = ((if N.ltb c 65536 then 1 else 2) + width t)%nat. Proof. reflexivity. Qed.
Lemma width_pos t : t <> [] -> (0 < width t)%nat.
Proof. destruct t as [|c t]; [congruence|]. intros _. rewrite width_cons. destruct (c <? 65536); lia. Qed.
Lemma utf16_app a b : utf16 (a ++ b) = utf16 a ++ utf16 b. Proof. apply flat_map_app. Qed.
Lemma utf16_length t : length (utf16 t) = width t.
Proof. induction t as [|c t IH]; [reflexivity|]. change (utf16 (c :: t)) with (units_of c ++ utf16 t). rewrite app_length, IH, width_cons. unfold units_of. now destruct (c <? 65536). Qed.
Lemma chars_plain c u : is_high c = false -> chars (c :: u) = c :: chars u.
Proof. intros E. destruct u as [|l u]; [reflexivity|]. cbn [chars]. now rewrite E. Qed.
Lemma chars_pair c u : 65535 < c < 1114112 -> chars (55296 + (c - 65536) / 1024 :: 56320 + (c - 65536) mod 1024 :: u) = c :: chars u.
Proof.
  intros L. pose proof (N.mod_upper_bound (c - 65536) 1024 ltac:(lia)) as M. pose proof (N.div_mod (c - 65536) 1024 ltac:(lia)) as D.
  assert (Q : (c - 65536) / 1024 < 1024) by (apply N.div_lt_upper_bound; lia).
  set (a := (c - 65536) / 1024) in *. set (b := (c - 65536) mod 1024) in *.
  cbn [chars]. unfold is_high, is_low.
  destruct (N.leb_spec 55296 (55296 + a)); [|lia]. destruct (N.leb_spec (55296 + a) 56319); [|lia].
  destruct (N.leb_spec 56320 (56320 + b)); [|lia]. destruct (N.leb_spec (56320 + b) 57343); [|lia].
  cbn [andb]. f_equal. lia.
Qed.
Lemma chars_utf16 t : Forall scalar t -> chars (utf16 t) = t.
Proof.
  induction 1 as [|c t Sc _ IH]; [reflexivity|]. change (utf16 (c :: t)) with (units_of c ++ utf16 t). unfold units_of.
  destruct (N.ltb_spec c 65536) as [L|L]; cbn [app].
  - rewrite chars_plain, IH; [reflexivity|]. unfold is_high. destruct Sc as [Sc|Sc]; destruct (N.leb_spec 55296 c), (N.leb_spec c 56319); try reflexivity; lia.
  - rewrite chars_pair, IH; [reflexivity|]. destruct Sc; lia.
Qed.
Lemma until_nul_utf16 t : Forall scalar t -> until_nul (utf16 t) = utf16 t.
Proof.
  induction 1 as [|c t Sc _ IH]; [reflexivity|]. change (utf16 (c :: t)) with (units_of c ++ utf16 t). unfold units_of.
  destruct (N.ltb_spec c 65536) as [L|L]; cbn [app until_nul].
  - destruct (N.eqb_spec c 0); [destruct Sc; lia|]. now rewrite IH.
  - generalize ((c - 65536) / 1024), ((c - 65536) mod 1024). intros x y. destruct (N.eqb_spec (55296 + x) 0); [lia|]. destruct (N.eqb_spec (56320 + y) 0); [lia|]. now rewrite IH.
Qed.
Lemma string_utf16 t : Forall scalar t -> ffi_string (utf16 t) = t.
Proof. intros F. unfold ffi_string. rewrite until_nul_utf16 by assumption. now apply chars_utf16. Qed.
Lemma cut_out_mid {A} (a p r : list A) : cut_out (length a) (length a + length p) (a ++ p ++ r) = p.
Proof.
  unfold cut_out. replace (length a + length p - length a)%nat with (length p) by lia.
  rewrite skipn_app, skipn_all, Nat.sub_diag. cbn [skipn app]. rewrite firstn_app, firstn_all, Nat.sub_diag. cbn. apply app_nil_r.
Qed.
Lemma cut_out_utf16 a p r : cut_out (width a) (width a + width p) (utf16 (a ++ p ++ r)) = utf16 p.
Proof. rewrite !utf16_app, <- !utf16_length. apply cut_out_mid. Qed.

(** ** Ends *)
Lemma ends_app l r : forall a, ends a (l ++ r) = ends a l ++ ends (a + width (concat l)) r.
Proof.
  induction l as [|p l IH]; intros a; cbn [app ends concat]; [now rewrite Nat.add_0_r|]. rewrite IH, width_app, Nat.add_assoc. reflexivity.
Qed.
Lemma ends_bound ps : forall a m, In m (ends a ps) -> (a <= m <= a + width (concat ps))%nat.
Proof.
  induction ps as [|p ps IH]; cbn [ends concat]; intros a m; [intros []|]. rewrite width_app. intros [<-|J]; [lia|]. specialize (IH _ _ J). lia.
Qed.
Lemma ends_above ps a m : Forall (fun p => p <> []) ps -> In m (ends a ps) -> (a < m)%nat.
Proof.
  destruct ps as [|p ps]; cbn [ends]; [intros _ []|]. intros F. inversion F as [|? ? Np _]; subst. pose proof (width_pos p Np).
  intros [<-|J]; [lia|]. apply ends_bound in J. lia.
Qed.
Lemma find_none {A} (f : A -> bool) l : (forall x, In x l -> f x = false) -> find f l = None.
Proof. induction l as [|x l IH]; [reflexivity|]. intros F. cbn [find]. rewrite (F x) by now left. apply IH. intros y J. apply F. now right. Qed.
Lemma find_skip {A} (f : A -> bool) l r : (forall x, In x l -> f x = false) -> find f (l ++ r) = find f r.
Proof. induction l as [|x l IH]; [reflexivity|]. intros F. cbn [find app]. rewrite (F x) by now left. apply IH. intros y J. apply F. now right. Qed.
Lemma next_mark l r : Forall (fun p => p <> []) (l ++ r) ->
  find (fun m => width (concat l) <? m)%nat (0%nat :: ends 0 (l ++ r)) = match r with [] => None | p :: _ => Some (width (concat l) + width p)%nat end.
Proof.
  intros F. rewrite ends_app. change (0%nat :: ends 0 l ++ ends (0 + width (concat l)) r) with ((0%nat :: ends 0 l) ++ ends (width (concat l)) r).
  rewrite find_skip.
  - destruct r as [|p r]; [reflexivity|]. cbn [ends find]. apply Forall_app in F as [_ F]. inversion F as [|? ? Np _]; subst. pose proof (width_pos p Np).
    destruct (Nat.ltb_spec (width (concat l)) (width (concat l) + width p)); [reflexivity|lia].
  - intros m [<-|J]; apply Nat.ltb_ge; [lia|]. apply ends_bound in J. lia.
Qed.
Lemma last_mark ps : last (0%nat :: ends 0 ps) 0%nat = width (concat ps).
Proof.
  destruct (rev ps) as [|p l] eqn:E.
  - apply (f_equal (@rev text)) in E. rewrite rev_involutive in E. subst ps. reflexivity.
  - apply (f_equal (@rev text)) in E. rewrite rev_involutive in E. cbn [rev] in E. subst ps. rewrite ends_app. cbn [ends].
    change (0%nat :: ends 0 (rev l) ++ [(0 + width (concat (rev l)) + width p)%nat]) with ((0%nat :: ends 0 (rev l)) ++ [(width (concat (rev l)) + width p)%nat]).
    rewrite last_last, concat_app, width_app. cbn [concat]. now rewrite app_nil_r.
Qed.
Lemma marks_before l p : (0%nat :: ends 0 (l ++ [p])) = (0%nat :: ends 0 l) ++ [width (concat (l ++ [p]))].
Proof. rewrite ends_app. cbn [ends app]. do 3 f_equal. rewrite concat_app, width_app. cbn [concat]. now rewrite app_nil_r. Qed.
Lemma prev_mark l r : Forall (fun p => p <> []) (rev l ++ r) ->
  find (fun m => m <? width (concat (rev l)))%nat (rev (0%nat :: ends 0 (rev l ++ r))) = match l with [] => None | _ :: l' => Some (width (concat (rev l'))) end.
Proof.
  intros F. rewrite ends_app. change (0%nat :: ends 0 (rev l) ++ ends (0 + width (concat (rev l))) r) with ((0%nat :: ends 0 (rev l)) ++ ends (width (concat (rev l))) r).
  rewrite rev_app_distr, find_skip.
  - destruct l as [|p l]; [reflexivity|]. change (rev (p :: l)) with (rev l ++ [p]) in *. rewrite marks_before, rev_app_distr. cbn [rev app find]. rewrite Nat.ltb_irrefl.
    apply Forall_app in F as [F _]. apply Forall_app in F as [_ F]. inversion F as [|? ? Np _]; subst. pose proof (width_pos p Np) as W.
    assert (L : (width (concat (rev l)) < width (concat (rev l ++ [p])))%nat) by (rewrite concat_app, width_app; cbn [concat]; rewrite app_nil_r; lia).
    assert (X : rev (0%nat :: ends 0 (rev l)) = width (concat (rev l)) :: rev (match l with [] => [] | _ :: l' => 0%nat :: ends 0 (rev l') end)).
    { destruct l as [|q l]; [reflexivity|]. change (rev (q :: l)) with (rev l ++ [q]). now rewrite marks_before, rev_app_distr. }
    change (rev (ends 0 (rev l)) ++ [0%nat]) with (rev (0%nat :: ends 0 (rev l))). rewrite X. cbn [find]. destruct (Nat.ltb_spec (width (concat (rev l))) (width (concat (rev l ++ [p])))); [reflexivity|lia].
  - intros m J. apply in_rev in J. apply Nat.ltb_ge. apply ends_bound in J. lia.
Qed.

(** ** The iterator and its cursor *)
Record rep (cut : text -> list text) (t : text) (b : biter) (z : cursor) : Prop := {
  r_scalar : Forall scalar t;
  r_whole : whole z = cut t;
  r_text : b_text b = utf16 t;
  r_source : b_source b = Some (utf16 t) \/ t = [];
  r_pos : b_pos b = width (concat (rev (fst z))) }.
Lemma cut_nil e cut : honest e cut -> cut [] = [].
Proof.
  intros Ho. destruct (Ho [] (Forall_nil _)) as [[C F] _]. destruct (cut []) as [|p ps]; [reflexivity|]. inversion F; subst. cbn in C. destruct p; [congruence|discriminate].
Qed.
Lemma rep_open e cut t : honest e cut -> match t with Some t => Forall scalar t | None => True end -> rep cut (match t with Some t => t | None => [] end) (bi_open t) (z_open cut t).
Proof.
  intros Ho F. destruct t as [t|]; split; cbn; auto. symmetry. now apply cut_nil with e.
Qed.
Lemma rep_marks {e cut} (Ho : honest e cut) {t b z} (R : rep cut t b z) : marks e (b_text b) = 0%nat :: ends 0 (rev (fst z) ++ snd z).
Proof. unfold marks. rewrite (r_text _ _ _ _ R). destruct (Ho t (r_scalar _ _ _ _ R)) as [_ ->]. rewrite <- (r_whole _ _ _ _ R). reflexivity. Qed.
Lemma rep_full {e cut} (Ho : honest e cut) {t b z} (R : rep cut t b z) : Forall (fun p => p <> []) (rev (fst z) ++ snd z).
Proof. change (Forall (fun p => p <> []) (whole z)). rewrite (r_whole _ _ _ _ R). apply (Ho t (r_scalar _ _ _ _ R)). Qed.
Lemma rep_concat {e cut} (Ho : honest e cut) {t b z} (R : rep cut t b z) : concat (rev (fst z) ++ snd z) = t.
Proof. change (concat (whole z) = t). rewrite (r_whole _ _ _ _ R). apply (Ho t (r_scalar _ _ _ _ R)). Qed.
Lemma rep_move {cut t b z} (R : rep cut t b z) z' p : whole z' = whole z -> p = width (concat (rev (fst z'))) -> rep cut t (at_ b p) z'.
Proof. intros W P. destruct R as [R1 R2 R3 R4 R5]. split; cbn; auto. congruence. Qed.
Lemma rep_next {e cut} (Ho : honest e cut) {t b z} (R : rep cut t b z) : c_next e b = match snd z with [] => (done, b) | p :: r => (offset (p :: fst z, r), at_ b (width (concat (rev (p :: fst z))))) end.
Proof.
  unfold c_next. rewrite (rep_marks Ho R), (r_pos _ _ _ _ R), next_mark by apply (rep_full Ho R). destruct (snd z) as [|p r]; [reflexivity|].
  unfold offset. cbn [fst rev]. rewrite concat_app, width_app. cbn [concat]. now rewrite app_nil_r.
Qed.
Lemma rep_previous {e cut} (Ho : honest e cut) {t b z} (R : rep cut t b z) : c_previous e b = match fst z with [] => (done, b) | p :: l => (offset (l, p :: snd z), at_ b (width (concat (rev l)))) end.
Proof. unfold c_previous. rewrite (rep_marks Ho R), (r_pos _ _ _ _ R), prev_mark by apply (rep_full Ho R). destruct (fst z) as [|p l]; reflexivity. Qed.
Lemma rep_last {e cut} (Ho : honest e cut) {t b z} (R : rep cut t b z) : c_last e b = (offset (rev (whole z), []), at_ b (width (concat (whole z)))).
Proof. unfold c_last. rewrite (rep_marks Ho R), last_mark. unfold offset. cbn [fst]. now rewrite rev_involutive. Qed.
Lemma rep_iter {cut t b z} (R : rep cut t b z) : rep cut t (bi_iter b) ([], whole z).
Proof. apply (rep_move R); reflexivity. Qed.
Lemma next_moves {cut t b z} (R : rep cut t b z) p r : snd z = p :: r -> rep cut t (at_ b (width (concat (rev (p :: fst z))))) (p :: fst z, r).
Proof. intros E. apply (rep_move R); [|reflexivity]. unfold whole. cbn [fst snd rev]. rewrite E, <- app_assoc. reflexivity. Qed.
Lemma rep_pynext {e cut} (Ho : honest e cut) {t b z} (R : rep cut t b z) : bi_next e b = match snd z with [] => (Ok None, b) | p :: r => (Ok (Some p), at_ b (width (concat (rev (p :: fst z))))) end.
Proof.
  unfold bi_next. rewrite (rep_next Ho R). destruct (snd z) as [|p r] eqn:E; [reflexivity|].
  assert (O : (0 <= offset (p :: fst z, r))%Z) by (unfold offset; lia). destruct (Z.eqb_spec (offset (p :: fst z, r)) done) as [D|_]; [unfold done in D; lia|].
  pose proof (rep_concat Ho R) as C. pose proof (rep_full Ho R) as F. rewrite E in C, F. cbn [b_source at_].
  assert (Np : p <> []) by (apply Forall_app in F as [_ F]; now inversion F).
  destruct (r_source _ _ _ _ R) as [-> | T].
  2: { exfalso. rewrite T, concat_app in C. apply app_eq_nil in C as [_ C]. cbn in C. now destruct p. }
  rewrite (r_pos _ _ _ _ R). unfold offset. cbn [fst rev]. rewrite concat_app, width_app. cbn [concat]. rewrite app_nil_r.
  pose proof (width_pos p Np) as W. rewrite utf16_length.
  assert (L : (width (concat (rev (fst z))) + width p <= width t)%nat) by (rewrite <- C, concat_app, width_app; cbn [concat]; rewrite width_app; lia).
  destruct (Z.leb_spec 0 (Z.of_nat (width (concat (rev (fst z)))))); [|lia].
  destruct (Z.ltb_spec (Z.of_nat (width (concat (rev (fst z))))) (Z.of_nat (width (concat (rev (fst z))) + width p))); [|lia].
  destruct (Z.leb_spec (Z.of_nat (width (concat (rev (fst z))) + width p)) (Z.of_nat (width t))); [|lia].
  cbn [andb]. rewrite Nat2Z.id. do 3 f_equal.
  rewrite <- C. rewrite concat_app. cbn [concat]. rewrite cut_out_utf16. apply string_utf16.
  pose proof (r_scalar _ _ _ _ R) as S1. rewrite <- C, concat_app in S1. apply Forall_app in S1 as [_ S1]. cbn [concat] in S1. now apply Forall_app in S1 as [S1 _].
Qed.
Lemma rep_take e cut (Ho : honest e cut) t r : forall fuel b l, rep cut t b (l, r) -> (length r < fuel)%nat ->
  bi_take e fuel b = (Ok r, at_ b (width (concat (rev (rev r ++ l))))).
Proof.
  induction r as [|p r IH]; intros [|f] b l R L; cbn [length] in L; try lia; cbn [bi_take]; rewrite (rep_pynext Ho R); cbn [snd fst].
  - do 2 f_equal. cbn [rev app]. pose proof (r_pos _ _ _ _ R) as P. cbn [fst] in P. destruct b as [s x q]. cbn in *. unfold at_. cbn. congruence.
  - rewrite (IH f _ (p :: l)); [|apply (next_moves R); reflexivity|lia]. cbn [rev]. rewrite <- app_assoc. reflexivity.
Qed.
Lemma pieces_few ps : Forall (fun p => p <> []) ps -> (length ps <= width (concat ps))%nat.
Proof. induction 1 as [|p ps Np _ IH]; [reflexivity|]. cbn [length concat]. rewrite width_app. pose proof (width_pos p Np). lia. Qed.
Lemma rep_list e cut (Ho : honest e cut) t b z : rep cut t b z -> bi_list e b = (Ok (whole z), at_ b (width (concat (whole z)))).
Proof.
  intros R. unfold bi_list. rewrite (rep_take e cut Ho t (whole z) _ _ [] (rep_iter R)).
  - rewrite app_nil_r, rev_involutive. reflexivity.
  - unfold bi_fuel, bi_iter. cbn [snd c_first b_text at_]. rewrite (r_text _ _ _ _ R), utf16_length. rewrite <- (rep_concat Ho R). apply Nat.lt_succ_r, pieces_few, (rep_full Ho R).
Qed.
Lemma step_ok e cut (Ho : honest e cut) t b z c : rep cut t b z -> sets_scalar c ->
  exists b', bi_call e b c = (Ok (fst (z_step cut z c)), b') /\ rep cut (text_now t [c]) b' (snd (z_step cut z c)).
Proof.
  intros R Sc. destruct c; cbn [bi_call z_step text_now].
  - eexists. split; [reflexivity|]. apply (rep_iter R).
  - rewrite (rep_last Ho R). eexists. split; [reflexivity|]. apply (rep_move R); cbn [fst snd]; unfold whole; cbn [fst snd]; rewrite rev_involutive; [now rewrite app_nil_r|reflexivity].
  - rewrite (rep_next Ho R). destruct (snd z) as [|p r] eqn:E; eexists; (split; [reflexivity|]); cbn [snd]; [assumption|]. now apply (next_moves R).
  - rewrite (rep_previous Ho R). destruct (fst z) as [|p l] eqn:E; eexists; (split; [reflexivity|]); cbn [snd]; [assumption|].
    apply (rep_move R); [|reflexivity]. unfold whole. cbn [fst snd]. rewrite E. cbn [rev]. now rewrite <- app_assoc.
  - eexists. split; [|exact R]. unfold offset. now rewrite (r_pos _ _ _ _ R).
  - eexists. split; [reflexivity|]. split; cbn; auto.
  - eexists. split; [reflexivity|]. apply (rep_iter R).
  - rewrite (rep_pynext Ho R). destruct (snd z) as [|p r] eqn:E; eexists; (split; [reflexivity|]); cbn [snd]; [assumption|]. now apply (next_moves R).
  - rewrite (rep_list e cut Ho t b z R). eexists. split; [reflexivity|]. apply (rep_move R); cbn [fst snd]; unfold whole; cbn [fst snd]; rewrite rev_involutive; [now rewrite app_nil_r|reflexivity].
  - unfold bi_reversed. rewrite (rep_list e cut Ho t b z R). eexists. split; [reflexivity|]. apply (rep_move R); cbn [fst snd]; unfold whole; cbn [fst snd]; rewrite rev_involutive; [now rewrite app_nil_r|reflexivity].
Qed.
Lemma text_now_cons t c cs : text_now t (c :: cs) = text_now (text_now t [c]) cs.
Proof. destruct c; reflexivity. Qed.
Lemma steps_ok e cut (Ho : honest e cut) cs : forall t b z, rep cut t b z -> Forall sets_scalar cs ->
  exists b', bi_calls e b cs = (map Ok (fst (z_steps cut z cs)), b') /\ rep cut (text_now t cs) b' (snd (z_steps cut z cs)).
Proof.
  induction cs as [|c cs IH]; intros t b z R F.
  - exists b. split; [reflexivity|exact R].
  - inversion F as [|? ? Sc F']; subst. destruct (step_ok e cut Ho t b z c R Sc) as (b1 & E1 & R1). cbn [bi_calls z_steps]. rewrite E1.
    destruct (z_step cut z c) as [a z1]. cbn [fst snd] in *. destruct (IH _ _ _ R1 F') as (b2 & E2 & R2). rewrite E2. destruct (z_steps cut z1 cs) as [as_ z2]. cbn [fst snd map] in *.
    exists b2. split; [reflexivity|]. now rewrite text_now_cons.
Qed.
