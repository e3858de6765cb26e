(** Proofs about sum values. *)
From Verif Require Import PyBase PyText PySplit PyDict PyCase CssTypeModel CssTypeSpec CssTypeProofs CssUnitModel CssUnitSpec CssUnitProofs CssMathModel CssMathSpec CssMathProofs CssSumSpec.
From Coq Require Import Qpower Permutation.
#[local] Open Scope Q_scope.

Lemma Qsum_app a b : Qsum (a ++ b) == Qsum a + Qsum b.
Proof. unfold Qsum. induction a as [|x a IH]; cbn; [ring|]. rewrite IH. ring. Qed.
Lemma Qprod_app a b : Qprod (a ++ b) == Qprod a * Qprod b.
Proof. unfold Qprod. induction a as [|x a IH]; cbn; [ring|]. rewrite IH. ring. Qed.
Lemma Qsum_perm a b : Permutation a b -> Qsum a == Qsum b.
Proof. unfold Qsum. induction 1; cbn; [reflexivity|now rewrite IHPermutation|ring|now rewrite IHPermutation1]. Qed.
Lemma Qprod_perm a b : Permutation a b -> Qprod a == Qprod b.
Proof. unfold Qprod. induction 1; cbn; [reflexivity|now rewrite IHPermutation|ring|now rewrite IHPermutation1]. Qed.
Lemma Qsum_eq a b : Forall2 Qeq a b -> Qsum a == Qsum b.
Proof. unfold Qsum. induction 1 as [|? ? ? ? E F IH]; cbn; [reflexivity|now rewrite E, IH]. Qed.
Lemma Qprod_eq a b : Forall2 Qeq a b -> Qprod a == Qprod b.
Proof. unfold Qprod. induction 1 as [|? ? ? ? E F IH]; cbn; [reflexivity|now rewrite E, IH]. Qed.
Lemma sum_worth_app sz a b : sum_worth sz (a ++ b) == sum_worth sz a + sum_worth sz b.
Proof. unfold sum_worth. rewrite map_app. apply Qsum_app. Qed.
Lemma sum_worth_cons sz x l : sum_worth sz (x :: l) == mono_worth sz x + sum_worth sz l.
Proof. reflexivity. Qed.

Lemma sum_worth_one sz x : sum_worth sz [x] == mono_worth sz x.
Proof. unfold sum_worth. cbn. ring. Qed.

Lemma opts_some {A} (l : list (option A)) r : opts l = Some r -> l = map Some r.
Proof.
  revert r. induction l as [|[x|] l IH]; cbn; intros r H; [now injection H as <-| |discriminate].
  destruct (opts l) as [r'|]; [|discriminate]. injection H as <-. cbn. now rewrite (IH r' eq_refl).
Qed.
Lemma opts_map {A} (r : list A) : opts (map Some r) = Some r.
Proof. induction r as [|x r IH]; cbn; [reflexivity|]. now rewrite IH. Qed.

(** ** Maps of units *)
Lemma map_worth_cons sz k z m : map_worth sz ((k, z) :: m) == sz k ^ z * map_worth sz m.
Proof. reflexivity. Qed.
Lemma map_worth_pos sz m : (forall u, 0 < sz u) -> 0 < map_worth sz m.
Proof.
  intros P. induction m as [|[k z] m IH]; [reflexivity|]. rewrite map_worth_cons. apply Qmult_lt_0_compat; [|exact IH]. apply Qpower_0_lt. apply P.
Qed.
Lemma map_worth_dset sz (P : forall u, 0 < sz u) m k z :
  map_worth sz (dset m k (match dget m k with Some y => y + z | None => z end)%Z) == map_worth sz m * sz k ^ z.
Proof.
  induction m as [|[k' y] m IH]; cbn [dget dset].
  - rewrite map_worth_cons. unfold map_worth. cbn. ring.
  - destruct (text_eqb_spec k' k) as [->|N].
    + rewrite !map_worth_cons. rewrite Qpower_plus; [ring|]. intros E. assert (Q := P k). rewrite E in Q. discriminate Q.
    + rewrite !map_worth_cons. rewrite IH. ring.
Qed.
Lemma product_worth sz (P : forall u, 0 < sz u) b : forall a, map_worth sz (product_maps a b) == map_worth sz a * map_worth sz b.
Proof.
  unfold product_maps. induction b as [|[k z] b IH]; intros a.
  - cbn [fold_left]. change (map_worth sz []) with 1. ring.
  - cbn [fold_left fst snd]. rewrite IH, (map_worth_dset sz P), map_worth_cons. ring.
Qed.
Lemma product_ok b : forall a, dict_ok a -> dict_ok (product_maps a b).
Proof. unfold product_maps. induction b as [|[k z] b IH]; intros a H; [exact H|]. cbn. apply IH. now apply dset_ok. Qed.
Lemma drop_worth sz m : map_worth sz (drop_zeros m) == map_worth sz m.
Proof.
  induction m as [|[k z] m IH]; [reflexivity|]. unfold drop_zeros in *. cbn [filter snd].
  destruct (Z.eqb_spec z 0) as [->|N]; cbn [negb]; rewrite ?map_worth_cons, IH; [|reflexivity]. rewrite Qpower_0_r. ring.
Qed.
Lemma drop_in m k : In k (dkeys (drop_zeros m)) -> In k (dkeys m).
Proof. unfold dkeys, drop_zeros. intros H. apply in_map_iff in H. destruct H as (p & <- & H). apply filter_In in H. apply in_map. apply H. Qed.
Lemma drop_ok m : dict_ok m -> dict_ok (drop_zeros m).
Proof.
  unfold dict_ok. induction m as [|[k z] m IH]; intros H; [exact H|]. inversion H as [|? ? A B]; subst. unfold drop_zeros in *. cbn [filter snd].
  destruct (negb (z =? 0)%Z); [|auto]. cbn. apply NoDup_cons; [|auto]. intros I. apply A. now apply drop_in.
Qed.
Lemma invert_worth sz m : map_worth sz (map (fun p => (fst p, - snd p)%Z) m) == / map_worth sz m.
Proof.
  induction m as [|[k z] m IH]; [reflexivity|]. cbn [map fst snd]. rewrite !map_worth_cons, IH, Qpower_opp, Qinv_mult_distr. reflexivity.
Qed.
Lemma invert_keys (m : umap) : dkeys (map (fun p => (fst p, - snd p)%Z) m) = dkeys m.
Proof. unfold dkeys. rewrite map_map. now apply map_ext. Qed.
Lemma NoDup_keys_pairs (m : umap) : dict_ok m -> NoDup m.
Proof. unfold dict_ok, dkeys. apply NoDup_map_inv. Qed.
Lemma same_worth sz a b : dict_ok a -> dict_ok b -> map_same a b -> map_worth sz a == map_worth sz b.
Proof.
  intros A B S. unfold map_worth. apply Qprod_perm, Permutation_map, NoDup_Permutation; auto using NoDup_keys_pairs.
  intros [k z]. split; intros I.
  - apply (in_dget a) in I; auto. rewrite S in I. now apply dget_in.
  - apply (in_dget b) in I; auto. rewrite <- S in I. now apply dget_in.
Qed.
Lemma same_keys_spec a b : same_keys a b = true <-> (forall k, In k (dkeys a) <-> In k (dkeys b)).
Proof.
  unfold same_keys, dhas. rewrite andb_true_iff, !forallb_forall. split.
  - intros (A & B) k. split; intros I.
    + specialize (A k I). destruct (dget b k) eqn:E; [|discriminate]. apply dget_some_keys. eauto.
    + specialize (B k I). destruct (dget a k) eqn:E; [|discriminate]. apply dget_some_keys. eauto.
  - intros H. split; intros k I.
    + apply H in I. apply dget_some_keys in I. destruct I as (v & ->). reflexivity.
    + apply H in I. apply dget_some_keys in I. destruct I as (v & ->). reflexivity.
Qed.
Lemma map_eqb_spec a b : dict_ok a -> map_eqb a b = true -> map_same a b.
Proof.
  intros Ha H k. unfold map_eqb in H. apply andb_true_iff in H. destruct H as (A & B). rewrite same_keys_spec in A. rewrite forallb_forall in B.
  destruct (dget a k) as [z|] eqn:E.
  - assert (I := dget_in _ _ _ E). specialize (B _ I). cbn in B. destruct (dget b k); [|discriminate]. apply Z.eqb_eq in B. congruence.
  - apply dget_keys in E. symmetry. apply dget_keys. intros I. apply E. now apply A.
Qed.

(** ** Merging *)
Lemma merge_maps vals x y : In y (merge_mono vals x) -> snd y = snd x \/ exists z, In z vals /\ snd y = snd z.
Proof.
  induction vals as [|v vals IH]; cbn; [intros [<-|[]]; auto|]. destruct (same_keys (snd v) (snd x)).
  - intros [<-|I]; right; [exists v|exists y]; cbn; auto.
  - intros [<-|I]; [right; exists v; auto|]. destruct (IH I) as [E|(z & A & B)]; [auto|]. right. exists z. auto.
Qed.
Definition maps_ok (l : list mono) : Prop := forall x, In x l -> dict_ok (snd x).
Lemma merge_worth sz vals x : maps_ok vals -> dict_ok (snd x) ->
  (forall y, In y vals -> (forall k, In k (dkeys (snd y)) <-> In k (dkeys (snd x))) -> map_same (snd y) (snd x)) ->
  sum_worth sz (merge_mono vals x) == sum_worth sz vals + mono_worth sz x.
Proof.
  intros V X H. induction vals as [|v vals IH].
  - cbn [merge_mono]. rewrite sum_worth_cons. unfold sum_worth. cbn. ring.
  - cbn [merge_mono]. match goal with |- context [if ?b then _ else _] => destruct b eqn:E end.
    + rewrite same_keys_spec in E. assert (S := H v ltac:(now left) E). assert (W := same_worth sz _ _ (V v ltac:(now left)) X S).
      rewrite !sum_worth_cons. unfold mono_worth. cbn [fst snd]. rewrite <- W.  ring.
    + rewrite !sum_worth_cons, IH; [ring| |].
      * intros y I. apply V. now right.
      * intros y I. apply H. now right.
Qed.
Lemma fold_merge_worth sz : forall l vals, maps_ok vals -> maps_ok l ->
  (forall x y, In x (vals ++ l) -> In y (vals ++ l) -> (forall k, In k (dkeys (snd x)) <-> In k (dkeys (snd y))) -> map_same (snd x) (snd y)) ->
  sum_worth sz (fold_left merge_mono l vals) == sum_worth sz vals + sum_worth sz l /\ maps_ok (fold_left merge_mono l vals).
Proof.
  induction l as [|x l IH]; intros vals V L H.
  - cbn [fold_left]. split; [change (sum_worth sz []) with 0; ring|exact V].
  - cbn [fold_left].
    assert (X : dict_ok (snd x)) by (apply L; now left).
    assert (M : sum_worth sz (merge_mono vals x) == sum_worth sz vals + mono_worth sz x).
    { apply merge_worth; auto. intros y I. apply H; apply in_or_app; [now left|right; now left]. }
    assert (V2 : maps_ok (merge_mono vals x)).
    { intros y I. destruct (merge_maps _ _ _ I) as [->|(z & A & ->)]; auto. }
    destruct (IH (merge_mono vals x) V2) as (A & B).
    + intros y I. apply L. now right.
    + assert (Src : forall y, In y (merge_mono vals x ++ l) -> exists z, In z (vals ++ x :: l) /\ snd y = snd z).
      { intros y I. apply in_app_or in I. destruct I as [I|I].
        - destruct (merge_maps _ _ _ I) as [E|(z & C & D)].
          + exists x. split; [apply in_or_app; right; now left|exact E].
          + exists z. split; [apply in_or_app; now left|exact D].
        - exists y. split; [apply in_or_app; right; now right|reflexivity]. }
      intros y1 y2 I1 I2. destruct (Src _ I1) as (z1 & A1 & ->). destruct (Src _ I2) as (z2 & A2 & ->). now apply H.
    + split; [|exact B]. rewrite A, M, sum_worth_cons. ring.
Qed.

(** ** Products *)
Definition mul_terms (acc new : list mono) : list mono :=
  flat_map (fun m1 => map (fun m2 => (fst m1 * fst m2, drop_zeros (product_maps (snd m1) (snd m2)))) new) acc.
Lemma mul_worth sz (P : forall u, 0 < sz u) acc new : sum_worth sz (mul_terms acc new) == sum_worth sz acc * sum_worth sz new.
Proof.
  unfold mul_terms. induction acc as [|x acc IH]; [unfold sum_worth; cbn; ring|]. cbn [flat_map]. rewrite sum_worth_app, IH, sum_worth_cons.
  assert (E : sum_worth sz (map (fun m2 => (fst x * fst m2, drop_zeros (product_maps (snd x) (snd m2)))) new) == mono_worth sz x * sum_worth sz new).
  { clear IH. induction new as [|y new IHn]; [unfold sum_worth; cbn; ring|]. cbn [map]. rewrite !sum_worth_cons, IHn. unfold mono_worth. cbn [fst snd].
    rewrite drop_worth, (product_worth sz P). ring. }
  rewrite E. ring.
Qed.
Lemma mul_in acc new m : In m (mul_terms acc new) -> exists x y, In x acc /\ In y new /\ snd m = drop_zeros (product_maps (snd x) (snd y)).
Proof.
  unfold mul_terms. intros I. apply in_flat_map in I. destruct I as (x & Ix & I). apply in_map_iff in I. destruct I as (y & <- & Iy).
  exists x, y. auto.
Qed.
Lemma fold_mul_worth sz (P : forall u, 0 < sz u) ls : forall acc,
  sum_worth sz (fold_left mul_terms ls acc) == sum_worth sz acc * Qprod (map (sum_worth sz) ls).
Proof.
  induction ls as [|l ls IH]; intros acc; cbn [fold_left map]; [cbn; ring|]. rewrite IH, (mul_worth sz P). cbn. unfold Qprod. ring.
Qed.
Lemma fold_mul_ok ls : (forall l, In l ls -> maps_ok l) -> forall acc, maps_ok acc -> maps_ok (fold_left mul_terms ls acc).
Proof.
  induction ls as [|l ls IH]; intros H acc A; [exact A|]. cbn. apply IH; [intros l' I; apply H; now right|].
  intros m I. destruct (mul_in _ _ _ I) as (x & y & Ix & Iy & ->). apply drop_ok, product_ok. now apply A.
Qed.

(** ** Extremes *)
Lemma fold_min_scale (pick pick2 : Q -> Q -> Q) k : 0 < k ->
  (forall a b, pick a b * k == pick2 (a * k) (b * k)) -> (forall a b c d, a == b -> c == d -> pick2 a c == pick2 b d) ->
  forall l x, fold_left pick l x * k == fold_left pick2 (map (fun v => v * k) l) (x * k).
Proof.
  intros K H C l. induction l as [|y l IH]; intros x; cbn; [reflexivity|]. rewrite IH. apply fold_compat; [exact C| |apply H].
  clear IH. induction l; cbn; constructor; auto. reflexivity.
Qed.
Lemma pymin_scale k : 0 < k -> forall a b, pymin a b * k == Qmin (a * k) (b * k).
Proof.
  intros K a b. unfold pymin. destruct (Qltb_spec b a) as [H|H].
  - symmetry. apply Q.min_r. apply Qmult_le_compat_r; lra.
  - symmetry. apply Q.min_l. apply Qmult_le_compat_r; lra.
Qed.
Lemma pymax_scale k : 0 < k -> forall a b, pymax a b * k == Qmax (a * k) (b * k).
Proof.
  intros K a b. unfold pymax. destruct (Qltb_spec a b) as [H|H].
  - symmetry. apply Q.max_r. apply Qmult_le_compat_r; lra.
  - symmetry. apply Q.max_l. apply Qmult_le_compat_r; lra.
Qed.
Lemma extreme_spec pick l r : extreme pick l = Some r ->
  exists v1 m1 rest, l = map (fun m => Some [m]) ((v1, m1) :: rest) /\ r = [(fold_left pick (map fst rest) v1, m1)] /\
    forall m, In m rest -> map_eqb m1 (snd m) = true.
Proof.
  unfold extreme. destruct (opts l) as [ls|] eqn:E; [|discriminate]. apply opts_some in E. subst l.
  destruct (opts (map (fun ms => match ms with [m] => Some m | _ => None end) ls)) as [ms|] eqn:F; [|discriminate].
  apply opts_some in F. destruct ms as [|[v1 m1] rest]; [discriminate|]. destruct (forallb _ rest) eqn:G; [|discriminate]. injection 1 as <-.
  exists v1, m1, rest. rewrite forallb_forall in G. split; [|auto].
  assert (K : ls = map (fun m => [m]) ((v1, m1) :: rest)).
  { clear G. revert F. generalize ((v1, m1) :: rest). clear. induction ls as [|a ls IH]; intros [|m ms]; cbn; intros F; try discriminate; [reflexivity|].
    destruct a as [|x [|]]; try discriminate. injection F as -> F. now rewrite (IH ms F). }
  rewrite K, map_map. reflexivity.
Qed.

(** ** Sum values are worth the expression *)
Lemma canonical_known u c : known u -> canonical u = Some c -> compatible u c /\ (forall pi, ratio pi c = 1) /\ known c /\ canonical c = Some c.
Proof.
  intros K E. assert (L := known_lower u K).
  assert (X : (forall pi, ratio pi c = 1) /\ known c /\ canonical c = Some c /\ lower c = c).
  { clear K L. unfold canonical in E.
    repeat match type of E with (if ?b then _ else _) = _ => destruct b; [injection E as <-; (split; [reflexivity|]; split; [rewrite known_all; vm_compute; tauto|]; split; reflexivity)|] end.
    discriminate E. }
  destruct X as (R & Kc & Cc & Lc). split; [|auto]. apply (canonical_compatible u c L Lc). eauto.
Qed.
Lemma sum_unit_worth pi sz v u : good_sizes pi sz -> known u -> sum_worth sz (sum_unit pi v u) == v * sz u.
Proof.
  intros (P & One & Pos & Comp) K. unfold sum_unit.
  assert (G : forall v u, sum_worth sz [(v, if text_eqb u (lit "number") then [] else [(u, 1%Z)])] == v * sz u).
  { clear v u K. intros v u. unfold sum_worth, mono_worth, map_worth, Qsum, Qprod. cbn [map fold_right fst snd]. destruct (text_eqb_spec u (lit "number")) as [->|N].
    - cbn [map fold_right]. rewrite One. ring.
    - cbn [map fold_right fst snd]. rewrite Qpower_1_r. ring. }
  destruct (canonical u) as [c|] eqn:E; [|apply G]. destruct (text_eqb c u) eqn:T; [apply G|]. rewrite G.
  destruct (canonical_known u c K E) as (C & R & _). assert (X := Comp u c C). rewrite (R pi) in X.
  setoid_replace (sz u) with (sz c * ratio pi u) by (rewrite <- X; ring). ring.
Qed.
Lemma sum_unit_ok pi v u : maps_ok (sum_unit pi v u).
Proof.
  unfold sum_unit. destruct (match canonical u with Some c => if text_eqb c u then (v, u) else (v * ratio pi u, c) | None => (v, u) end) as [v' u'].
  intros x [<-|[]]. cbn [snd]. destruct (text_eqb u' (lit "number")); unfold dict_ok; cbn; [constructor|constructor; [intros []|constructor]].
Qed.

Lemma Forall2_map_same {A B} (R : B -> B -> Prop) (f g : A -> B) l : (forall x, In x l -> R (f x) (g x)) -> Forall2 R (map f l) (map g l).
Proof. induction l as [|x l IH]; cbn; intros H; constructor; auto. Qed.

Lemma list_values pi sz l : (forall e, In e l -> forall r, sum_value pi e = Some r -> sum_worth sz r == worth sz e /\ maps_ok r) ->
  forall ls, opts (map (sum_value pi) l) = Some ls -> Forall2 Qeq (map (sum_worth sz) ls) (map (worth sz) l) /\ (forall r, In r ls -> maps_ok r).
Proof.
  intros H ls E. apply opts_some in E. revert ls E. induction l as [|e l IH]; intros [|r ls] E; try discriminate E.
  - split; [constructor|intros r []].
  - cbn in E. injection E as E1 E2. destruct (H e ltac:(now left) r E1) as (A & B). destruct (IH ltac:(intros x I; apply H; now right) ls E2) as (C & D).
    split; [constructor; auto|]. intros r' [<-|I]; auto.
Qed.
Lemma sum_worth_concat sz ls : sum_worth sz (concat ls) == Qsum (map (sum_worth sz) ls).
Proof. induction ls as [|l ls IH]; [reflexivity|]. cbn [concat map]. rewrite sum_worth_app, IH. reflexivity. Qed.

Lemma extreme_worth pi sz pick pick2 whole l r : good_sizes pi sz ->
  (forall k, 0 < k -> forall a b, pick a b * k == pick2 (a * k) (b * k)) -> (forall a b c d, a == b -> c == d -> pick2 a c == pick2 b d) ->
  (forall x r, whole (x :: r) = fold_left pick2 r x) ->
  extreme pick (map (sum_value pi) l) = Some r ->
  (forall e, In e l -> forall r, sum_value pi e = Some r -> sum_worth sz r == worth sz e /\ maps_ok r) ->
  sum_worth sz r == whole (map (worth sz) l) /\ maps_ok r.
Proof.
  intros G S C W E H. assert (Pos : forall u, 0 < sz u) by apply G.
  destruct (extreme_spec _ _ _ E) as (v1 & m1 & rest & L & -> & Eq).
  destruct l as [|e l]; [discriminate L|]. cbn [map] in L. injection L as L1 L2. destruct (H e ltac:(now left) _ L1) as (A & B).
  assert (D1 : dict_ok m1) by (apply (B (v1, m1)); now left).
  split; [|intros x [<-|[]]; exact D1].
  rewrite sum_worth_one. unfold mono_worth. cbn [fst snd map]. rewrite W. rewrite (fold_min_scale pick pick2 _ (map_worth_pos sz m1 Pos) (S _ (map_worth_pos sz m1 Pos)) C).
  apply fold_compat; [exact C| |rewrite <- A, sum_worth_one; reflexivity].
  assert (H' : forall e, In e l -> forall r, sum_value pi e = Some r -> sum_worth sz r == worth sz e /\ maps_ok r) by (intros x I; apply H; now right).
  clear - H' L2 Eq D1. revert rest L2 Eq. induction l as [|e l IH]; intros [|[v m] rest] L Eq; try discriminate L; [constructor|].
  cbn [map fst] in *. injection L as L1 L2. constructor.
  - destruct (H' e ltac:(now left) _ L1) as (A & B). rewrite <- A, sum_worth_one. unfold mono_worth. cbn [fst snd].
    rewrite (same_worth sz m1 m); [reflexivity|exact D1|apply (B (v, m)); now left|].
    apply map_eqb_spec; [exact D1|]. apply (Eq (v, m)). now left.
  - apply IH; [intros x I; apply H'; now right|exact L2|intros x I; apply Eq; now right].
Qed.

Theorem sum_value_worth pi sz : good_sizes pi sz -> forall e, made e -> coherent pi e -> forall l, sum_value pi e = Some l -> sum_worth sz l == worth sz e /\ maps_ok l.
Proof.
  intros G. assert (Pos : forall u, 0 < sz u) by apply G.
  induction e using expr_all; intros M C l0 E.
  - cbn in E. injection E as <-. split; [now apply sum_unit_worth|apply sum_unit_ok].
  - cbn [made coherent] in M, C. destruct M as (N & M). destruct C as (Cl & Cs). cbn [sum_value] in E.
    destruct (opts (map (sum_value pi) l)) as [ls|] eqn:O; [|discriminate]. destruct (types_multiply _); [|discriminate]. injection E as <-.
    rewrite Forall_forall in H.
    destruct (list_values pi sz l (fun e I r E => H e I (conj_in _ _ _ M I) (conj_in _ _ _ Cl I) r E) ls O) as (V & K).
    destruct (fold_merge_worth sz (concat ls) []) as (A & B).
    + intros x [].
    + intros x I. apply in_concat in I. destruct I as (r & Ir & Ix). now apply (K r).
    + cbn [app]. intros x y Ix Iy. now apply (Cs ls).
    + split; [|exact B]. rewrite A, sum_worth_concat. change (sum_worth sz []) with 0. cbn [worth]. rewrite (Qsum_eq _ _ V). ring.
  - cbn [made coherent] in M, C. destruct M as (N & M). cbn [sum_value] in E.
    destruct (opts (map (sum_value pi) l)) as [ls|] eqn:O; [|discriminate]. injection E as <-. rewrite Forall_forall in H.
    destruct (list_values pi sz l (fun e I r E => H e I (conj_in _ _ _ M I) (conj_in _ _ _ C I) r E) ls O) as (V & K).
    change (fold_left _ ls _) with (fold_left mul_terms ls [(1, [])]). split.
    + rewrite (fold_mul_worth sz Pos). cbn [worth]. rewrite (Qprod_eq _ _ V). setoid_replace (sum_worth sz [(1, [])]) with 1 by reflexivity. ring.
    + apply fold_mul_ok; [exact K|]. intros x [<-|[]]. constructor.
  - cbn in M, C, E. destruct (sum_value pi e) as [r|] eqn:F; [|discriminate]. injection E as <-. destruct (IHe M C r eq_refl) as (A & B). split.
    + cbn [worth]. rewrite <- A. clear. induction r as [|x r IH]; [reflexivity|]. cbn [map]. rewrite !sum_worth_cons, IH. unfold mono_worth. cbn [fst snd]. ring.
    + intros x I. apply in_map_iff in I. destruct I as (y & <- & I). exact (B y I).
  - cbn in M, C, E. destruct (sum_value pi e) as [[|[v m] [|]]|] eqn:F; try discriminate. injection E as <-. destruct (IHe M C _ eq_refl) as (A & B). split.
    + cbn [worth]. rewrite <- A. rewrite !sum_worth_one. unfold mono_worth. cbn [fst snd]. rewrite invert_worth.
      destruct (Qeqb_spec v 0) as [Z|Z].
      * rewrite Z, !Qmult_0_l. reflexivity.
      * rewrite Qinv_mult_distr. unfold Qdiv. ring.
    + intros x [<-|[]]. cbn. unfold dict_ok. rewrite invert_keys. exact (B (v, m) ltac:(now left)).
  - cbn [made coherent] in M, C. destruct M as (N & M). cbn [sum_value] in E. rewrite Forall_forall in H. cbn [worth].
    apply (extreme_worth pi sz pymin Qmin least l l0 G pymin_scale Qmin_compat (fun _ _ => eq_refl) E).
    intros e I r F. exact (H e I (conj_in _ _ _ M I) (conj_in _ _ _ C I) r F).
  - cbn [made coherent] in M, C. destruct M as (N & M). cbn [sum_value] in E. rewrite Forall_forall in H. cbn [worth].
    apply (extreme_worth pi sz pymax Qmax greatest l l0 G pymax_scale Qmax_compat (fun _ _ => eq_refl) E).
    intros e I r F. exact (H e I (conj_in _ _ _ M I) (conj_in _ _ _ C I) r F).
  - discriminate E.
Qed.

(** ** Expressions of CSS calc() *)
(* units that stand for themselves in sum values *)
Definition own (u : text) : Prop := canonical u = Some u \/ canonical u = None.
Definition unit_map (m : umap) : Prop := m = [] \/ exists u, m = [(u, 1%Z)] /\ known u /\ u <> lit "number" /\ own u.
Lemma unit_map_coherent a b : unit_map a -> unit_map b -> (forall k, In k (dkeys a) <-> In k (dkeys b)) -> map_same a b.
Proof.
  intros A B H. destruct A as [->|(u & -> & _)]; destruct B as [->|(v & -> & _)]; cbn in H.
  - intros k. reflexivity.
  - exfalso. apply (H v). now left.
  - exfalso. apply (H u). now left.
  - assert (E : v = u) by (destruct (proj1 (H u)) as [E|[]]; [now left|exact E]). subst. intros k. reflexivity.
Qed.
Lemma sum_unit_map pi v u : known u -> forall x, In x (sum_unit pi v u) -> unit_map (snd x) /\ (u = lit "number" -> snd x = []).
Proof.
  intros K. unfold sum_unit. destruct (canonical u) as [c|] eqn:E.
  - destruct (canonical_known u c K E) as (C & _ & Kc & Cc). destruct (text_eqb_spec c u) as [->|N].
    + intros x [<-|[]]. cbn [snd]. destruct (text_eqb_spec u (lit "number")) as [->|N].
      * split; [now left|reflexivity].
      * split; [right; exists u; unfold own; auto|congruence].
    + intros x [<-|[]]. cbn [snd]. destruct (text_eqb_spec c (lit "number")) as [->|N2].
      * split; [now left|reflexivity].
      * split; [right; exists c; unfold own; auto|]. intros ->. assert (X : canonical (lit "number") = Some (lit "number")) by reflexivity. congruence.
  - intros x [<-|[]]. cbn [snd]. destruct (text_eqb_spec u (lit "number")) as [->|N].
    + split; [now left|reflexivity].
    + split; [right; exists u; unfold own; auto|congruence].
Qed.
Lemma product_nil_r (m : umap) : product_maps m [] = m. Proof. reflexivity. Qed.
Lemma unit_drop m : unit_map m -> drop_zeros m = m.
Proof. intros [->|(u & -> & _)]; reflexivity. Qed.
Lemma unit_product_l m : unit_map m -> product_maps [] m = m.
Proof. intros [->|(u & -> & _)]; reflexivity. Qed.
Lemma fold_merge_in l : forall vals y, In y (fold_left merge_mono l vals) -> exists z, In z (vals ++ l) /\ snd y = snd z.
Proof.
  induction l as [|x l IH]; intros vals y I; cbn in I; [exists y; rewrite app_nil_r; auto|].
  destruct (IH _ _ I) as (z & A & B). apply in_app_or in A. destruct A as [A|A].
  - destruct (merge_maps _ _ _ A) as [E|(w & C & D)].
    + exists x. split; [apply in_or_app; right; now left|congruence].
    + exists w. split; [apply in_or_app; now left|congruence].
  - exists z. split; [apply in_or_app; right; now right|exact B].
Qed.
Lemma opts_in {A B} (f : A -> option B) l ls y : opts (map f l) = Some ls -> In y ls -> exists x, In x l /\ f x = Some y.
Proof.
  intros E I. apply opts_some in E. assert (J : In (Some y) (map Some ls)) by now apply in_map. rewrite <- E in J. apply in_map_iff in J.
  destruct J as (x & X & Y). eauto.
Qed.
Lemma fold_mul_nil (ls : list (list mono)) : (forall (r : list mono) (y : mono), In r ls -> In y r -> snd y = []) -> forall acc x, In x (fold_left mul_terms ls acc) ->
  (forall y : mono, In y acc -> unit_map (snd y)) -> unit_map (snd x) /\ exists y, In y acc /\ snd x = snd y.
Proof.
  induction ls as [|r ls IH]; intros A acc x I U; [split; [auto|eauto]|]. cbn in I.
  assert (S : forall y, In y (mul_terms acc r) -> exists z, In z acc /\ snd y = snd z).
  { intros y Iy. destruct (mul_in _ _ _ Iy) as (p & q & Ip & Iq & ->). exists p. split; [exact Ip|]. rewrite (A r q ltac:(now left) Iq), product_nil_r. apply unit_drop, U, Ip. }
  destruct (IH ltac:(intros r' y Ir; apply A; now right) (mul_terms acc r) x I) as (B & y & Iy & E).
  - intros y Iy. destruct (S y Iy) as (z & Iz & ->). auto.
  - split; [exact B|]. destruct (S y Iy) as (z & Iz & Ez). exists z. split; [exact Iz|congruence].
Qed.
(* maps that occur in the sum value of an expression *)
Lemma numeric_maps pi : forall e, made e -> numeric e -> forall l, sum_value pi e = Some l -> forall x, In x l -> snd x = [].
Proof.
  induction e using expr_all; intros M Nu l0 E x I; cbn [made numeric] in M, Nu; cbn [sum_value] in E.
  - injection E as <-. now apply (sum_unit_map pi v u M x I).
  - destruct M as (_ & M). destruct (opts (map (sum_value pi) l)) as [ls|] eqn:O; [|discriminate]. destruct (types_multiply _); [|discriminate]. injection E as <-.
    apply fold_merge_in in I. destruct I as (z & I & ->). cbn [app] in I. apply in_concat in I. destruct I as (r & Ir & Iz). destruct (opts_in _ _ _ _ O Ir) as (e & Ie & Ee).
    rewrite Forall_forall in H. exact (H e Ie (conj_in _ _ _ M Ie) (conj_in _ _ _ Nu Ie) r Ee z Iz).
  - destruct M as (_ & M). destruct (opts (map (sum_value pi) l)) as [ls|] eqn:O; [|discriminate]. injection E as <-.
    change (fold_left _ ls _) with (fold_left mul_terms ls [(1, [])]) in I.
    assert (A : forall r, In r ls -> forall y, In y r -> snd y = []).
    { intros r Ir y Iy. destruct (opts_in _ _ _ _ O Ir) as (e & Ie & Ee). rewrite Forall_forall in H. exact (H e Ie (conj_in _ _ _ M Ie) (conj_in _ _ _ Nu Ie) r Ee y Iy). }
    destruct (fold_mul_nil ls (fun r y Ir Iy => A r Ir y Iy) [(1, [])] x I) as (_ & y & [<-|[]] & ->); [intros y [<-|[]]; now left|reflexivity].
  - destruct (sum_value pi e) as [r|] eqn:F; [|discriminate]. injection E as <-. apply in_map_iff in I. destruct I as (y & <- & I). exact (IHe M Nu r eq_refl y I).
  - destruct (sum_value pi e) as [[|[v m] [|]]|] eqn:F; try discriminate. injection E as <-. destruct I as [<-|[]]. cbn [snd].
    assert (Z := IHe M Nu _ eq_refl (v, m) ltac:(now left)). cbn in Z. now rewrite Z.
  - destruct M as (_ & M). destruct (extreme_spec _ _ _ E) as (v1 & m1 & rest & L & -> & _). destruct l as [|e l]; [discriminate L|]. cbn [map] in L. injection L as L1 L2.
    destruct I as [<-|[]]. inversion H as [|? ? He _]; subst. exact (He (proj1 M) (proj1 Nu) _ L1 (v1, m1) ltac:(now left)).
  - destruct M as (_ & M). destruct (extreme_spec _ _ _ E) as (v1 & m1 & rest & L & -> & _). destruct l as [|e l]; [discriminate L|]. cbn [map] in L. injection L as L1 L2.
    destruct I as [<-|[]]. inversion H as [|? ? He _]; subst. exact (He (proj1 M) (proj1 Nu) _ L1 (v1, m1) ltac:(now left)).
  - discriminate.
Qed.
Lemma numeric_linear : forall e, made e -> numeric e -> linear e.
Proof.
  induction e using expr_all; cbn [made numeric linear]; intros M Nu; auto.
  - apply conj_all. intros e I. rewrite Forall_forall in H. exact (H e I (conj_in _ _ _ (proj2 M) I) (conj_in _ _ _ Nu I)).
  - split.
    + apply conj_all. intros e I. rewrite Forall_forall in H. exact (H e I (conj_in _ _ _ (proj2 M) I) (conj_in _ _ _ Nu I)).
    + destruct M as (N & _). destruct l as [|x l]; [congruence|]. exists [], x, l. split; [reflexivity|]. intros y I. apply (conj_in _ _ _ Nu). now right.
  - apply conj_all. intros e I. rewrite Forall_forall in H. exact (H e I (conj_in _ _ _ (proj2 M) I) (conj_in _ _ _ Nu I)).
  - apply conj_all. intros e I. rewrite Forall_forall in H. exact (H e I (conj_in _ _ _ (proj2 M) I) (conj_in _ _ _ Nu I)).
  - destruct M as (A & B & C). destruct Nu as (A' & B' & C'). auto.
Qed.
Lemma linear_maps pi : forall e, made e -> linear e -> (forall l, sum_value pi e = Some l -> forall x, In x l -> unit_map (snd x)) /\ coherent pi e.
Proof.
  induction e using expr_all; intros M Li; cbn [made linear] in M, Li; cbn [sum_value coherent].
  - split; [|exact I]. intros l E x I. injection E as <-. now apply (sum_unit_map pi v u M x I).
  - destruct M as (_ & M). rewrite Forall_forall in H.
    assert (U : forall ls x, opts (map (sum_value pi) l) = Some ls -> In x (concat ls) -> unit_map (snd x)).
    { intros ls x O I. apply in_concat in I. destruct I as (r & Ir & Iz). destruct (opts_in _ _ _ _ O Ir) as (e & Ie & Ee).
      exact (proj1 (H e Ie (conj_in _ _ _ M Ie) (conj_in _ _ _ Li Ie)) r Ee x Iz). }
    split.
    + intros l0 E x I. destruct (opts (map (sum_value pi) l)) as [ls|] eqn:O; [|discriminate]. destruct (types_multiply _); [|discriminate]. injection E as <-.
      apply fold_merge_in in I. destruct I as (z & I & ->). cbn [app] in I. now apply (U ls).
    + split; [apply conj_all; intros e Ie; apply H; [exact Ie|exact (conj_in _ _ _ M Ie)|exact (conj_in _ _ _ Li Ie)]|].
      intros ls x y O Ix Iy K. apply unit_map_coherent; [now apply (U ls)|now apply (U ls)|exact K].
  - destruct M as (_ & M). destruct Li as (Li & l1 & e0 & l2 & -> & Nu). rewrite Forall_forall in H. split.
    + intros l0 E x I. destruct (opts (map (sum_value pi) (l1 ++ e0 :: l2))) as [ls|] eqn:O; [|discriminate]. injection E as <-.
      change (fold_left _ ls _) with (fold_left mul_terms ls [(1, [])]) in I.
      apply opts_some in O. rewrite map_app in O. cbn [map] in O. symmetry in O. apply map_eq_app in O. destruct O as (a & b & -> & Ea & Eb).
      apply map_eq_cons in Eb. destruct Eb as (c & b' & -> & Ec & Eb). rewrite fold_left_app in I. cbn [fold_left] in I.
      assert (Z1 : forall r y, In r a -> In y r -> snd y = []).
      { intros r y Ir Iy. assert (J : In (Some r) (map Some a)) by now apply in_map. rewrite Ea in J. apply in_map_iff in J. destruct J as (e & Ee & Ie).
        refine (numeric_maps pi e _ (Nu e ltac:(apply in_or_app; now left)) r Ee y Iy). apply (conj_in _ _ _ M). apply in_or_app. now left. }
      assert (Z2 : forall r y, In r b' -> In y r -> snd y = []).
      { intros r y Ir Iy. assert (J : In (Some r) (map Some b')) by now apply in_map. rewrite Eb in J. apply in_map_iff in J. destruct J as (e & Ee & Ie).
        refine (numeric_maps pi e _ (Nu e ltac:(apply in_or_app; now right)) r Ee y Iy). apply (conj_in _ _ _ M). apply in_or_app. right. now right. }
      assert (Zc : forall y, In y c -> unit_map (snd y)).
      { intros y Iy. assert (J : In e0 (l1 ++ e0 :: l2)) by (apply in_or_app; right; now left).
        exact (proj1 (H e0 J (conj_in _ _ _ M J) (conj_in _ _ _ Li J)) c (eq_sym Ec) y Iy). }
      apply (fold_mul_nil b' Z2 _ x I). intros y Iy. destruct (mul_in _ _ _ Iy) as (p & q & Ip & Iq & ->).
      destruct (fold_mul_nil a Z1 _ p Ip) as (_ & w & [<-|[]] & ->); [intros w [<-|[]]; now left|]. cbn [snd]. rewrite unit_product_l, unit_drop; auto.
    + apply conj_all. intros e Ie. apply H; [exact Ie|exact (conj_in _ _ _ M Ie)|exact (conj_in _ _ _ Li Ie)].
  - destruct (IHe M Li) as (A & B). split; [|exact B]. intros l E x I. destruct (sum_value pi e) as [r|] eqn:F; [|discriminate]. injection E as <-.
    apply in_map_iff in I. destruct I as (y & <- & I). exact (A r eq_refl y I).
  - split.
    + intros l E x I. left. exact (numeric_maps pi (EInvert e) M Li l E x I).
    + apply IHe; [exact M|]. now apply numeric_linear.
  - destruct M as (_ & M). split; [|apply conj_all; intros e Ie; rewrite Forall_forall in H; apply H; [exact Ie|exact (conj_in _ _ _ M Ie)|exact (conj_in _ _ _ Li Ie)]].
    intros l0 E x I. destruct (extreme_spec _ _ _ E) as (v1 & m1 & rest & L & -> & _). destruct l as [|e l]; [discriminate L|]. cbn [map] in L. injection L as L1 L2.
    destruct I as [<-|[]]. inversion H as [|? ? He _]; subst. exact (proj1 (He (proj1 M) (proj1 Li)) _ L1 (v1, m1) ltac:(now left)).
  - destruct M as (_ & M). split; [|apply conj_all; intros e Ie; rewrite Forall_forall in H; apply H; [exact Ie|exact (conj_in _ _ _ M Ie)|exact (conj_in _ _ _ Li Ie)]].
    intros l0 E x I. destruct (extreme_spec _ _ _ E) as (v1 & m1 & rest & L & -> & _). destruct l as [|e l]; [discriminate L|]. cbn [map] in L. injection L as L1 L2.
    destruct I as [<-|[]]. inversion H as [|? ? He _]; subst. exact (proj1 (He (proj1 M) (proj1 Li)) _ L1 (v1, m1) ltac:(now left)).
  - split; [discriminate|exact I].
Qed.

(** ** Where there is a sum value *)
Definition keys_ok (m : umap) : Prop := forall k, In k (dkeys m) -> known k /\ k <> lit "number".
Lemma create_one u : known u -> u <> lit "number" -> exists k, create_type u = Ok (mkT [(k, 1%Z)] None).
Proof.
  intros K N. apply known_all in K.
  assert (F : forallb (fun u => text_eqb u (lit "number") || match create_type u with Ok (mkT [(_, 1%Z)] None) => true | _ => false end) CssUnitProofs.all_units = true) by (vm_compute; reflexivity).
  rewrite forallb_forall in F. specialize (F u K). destruct (text_eqb_spec u (lit "number")); [congruence|]. cbn [orb] in F.
  destruct (create_type u) as [[[|[k [|[]|]] [|]] [|]]|]; try discriminate F. eauto.
Qed.
Lemma multiply_plain a b : hint a = None -> hint b = None -> exists t, multiply_types a b = Some t /\ hint t = None.
Proof. intros A B. unfold multiply_types, merge_hints. rewrite A, B. eexists. split; [reflexivity|exact A]. Qed.
Lemma multiply_all (ts : list (option ntype)) : (forall t, In t ts -> exists t', t = Some t' /\ hint t' = None) ->
  forall a, hint a = None -> exists t, fold_left (fun acc t2 => match acc, t2 with Some a, Some b => multiply_types a b | _, _ => None end) ts (Some a) = Some t /\ hint t = None.
Proof.
  induction ts as [|t ts IH]; intros H a A; [exists a; auto|]. cbn. destruct (H t ltac:(now left)) as (b & -> & B). destruct (multiply_plain a b A B) as (c & -> & C).
  apply IH; auto. intros t I. apply H. now right.
Qed.
Lemma type_map_some m : keys_ok m -> exists t, type_of_map m = Some t /\ hint t = None.
Proof.
  intros K. destruct m as [|p m]; [exists number; split; reflexivity|].
  assert (T : forall q, In q (p :: m) -> exists t, (match create_type (fst q) with
                  | Ok t => match pw t with (k, _) :: r => Some (mkT ((k, snd q) :: r) (hint t)) | [] => None end
                  | Err _ => None
                  end) = Some t /\ hint t = None).
  { intros q I. destruct (K (fst q)) as (A & B); [now apply in_map|]. destruct (create_one _ A B) as (k & ->). eexists. split; reflexivity. }
  unfold type_of_map. cbn [map]. destruct (T p ltac:(now left)) as (t & Et & Ht). rewrite Et.
  apply multiply_all; [|exact Ht]. intros t' I. apply in_map_iff in I. destruct I as (q & <- & I). destruct (T q ltac:(now right)) as (t2 & E2 & H2). eauto.
Qed.
Lemma types_some vals : vals <> [] -> (forall x : mono, In x vals -> keys_ok (snd x)) -> types_multiply vals = true.
Proof.
  intros N K. destruct vals as [|x vals]; [congruence|]. unfold types_multiply. cbn [map]. destruct (type_map_some _ (K x ltac:(now left))) as (t & -> & Ht).
  destruct (multiply_all (map (fun m : mono => type_of_map (snd m)) vals)) with (a := t) as (t2 & -> & _); auto.
  intros t' I. apply in_map_iff in I. destruct I as (q & <- & I). destruct (type_map_some _ (K q ltac:(now right))) as (t2 & E2 & H2). eauto.
Qed.
Lemma product_keys b : forall a k, In k (dkeys (product_maps a b)) -> In k (dkeys a) \/ In k (dkeys b).
Proof.
  unfold product_maps. induction b as [|[j z] b IH]; intros a k I; [now left|]. cbn [fold_left fst snd] in I. destruct (IH _ _ I) as [J|J]; [|right; now right].
  rewrite dset_keys in J. destruct (dhas a j); [now left|]. apply in_app_or in J. destruct J as [J|[<-|[]]]; [now left|right; now left].
Qed.
Lemma merge_not_nil vals x : merge_mono vals x <> [].
Proof. destruct vals as [|y vals]; [discriminate|]. cbn. destruct (same_keys (snd y) (snd x)); discriminate. Qed.
Lemma fold_merge_not_nil l : forall vals, vals <> [] \/ l <> [] -> fold_left merge_mono l vals <> [].
Proof.
  induction l as [|x l IH]; intros vals H; [destruct H; [assumption|congruence]|]. cbn. apply IH. left. apply merge_not_nil.
Qed.
Lemma mul_not_nil acc new : acc <> [] -> new <> [] -> mul_terms acc new <> [].
Proof. destruct acc, new; try congruence. discriminate. Qed.
Lemma fold_mul_not_nil ls : (forall r, In r ls -> r <> []) -> forall acc, acc <> [] -> fold_left mul_terms ls acc <> [].
Proof. induction ls as [|r ls IH]; intros H acc N; [exact N|]. cbn. apply IH; [intros r' I; apply H; now right|]. apply mul_not_nil; [exact N|apply H; now left]. Qed.
Lemma fold_mul_keys (ls : list (list mono)) : (forall r y, In r ls -> In y r -> keys_ok (snd y)) -> forall acc, (forall y, In y acc -> keys_ok (snd y)) ->
  forall x : mono, In x (fold_left mul_terms ls acc) -> keys_ok (snd x).
Proof.
  induction ls as [|r ls IH]; intros A acc B x I; [now apply B|]. cbn in I. apply (IH ltac:(intros r' y Ir; apply A; now right) (mul_terms acc r)); [|exact I].
  intros y Iy. destruct (mul_in _ _ _ Iy) as (p & q & Ip & Iq & ->). intros k Ik. apply drop_in, product_keys in Ik. destruct Ik as [Ik|Ik]; [exact (B p Ip k Ik)|exact (A r q ltac:(now left) Iq k Ik)].
Qed.
Lemma same_keys_nil : same_keys [] [] = true. Proof. reflexivity. Qed.
Lemma merge_numbers l : forall v, (forall x : mono, In x l -> snd x = []) -> exists w, fold_left merge_mono l [(v, [])] = [(w, [])].
Proof.
  induction l as [|[a m] l IH]; intros v H; [exists v; reflexivity|]. assert (E := H (a, m) ltac:(now left)). cbn in E. subst m. cbn. apply IH. intros x I. apply H. now right.
Qed.
Lemma merge_single l : l <> [] -> (forall x : mono, In x l -> snd x = []) -> exists w, fold_left merge_mono l [] = [(w, [])].
Proof.
  intros N H. destruct l as [|[a m] l]; [congruence|]. assert (E := H (a, m) ltac:(now left)). cbn in E. subst m. cbn. apply merge_numbers. intros x I. apply H. now right.
Qed.
Lemma mul_numbers (ls : list (list mono)) : (forall r, In r ls -> exists v, r = [(v, [])]) -> forall v, exists w, fold_left mul_terms ls [(v, [])] = [(w, [])].
Proof.
  induction ls as [|r ls IH]; intros H v; [exists v; reflexivity|]. destruct (H r ltac:(now left)) as (a & ->). cbn. apply IH. intros r I. apply H. now right.
Qed.
Lemma opts_total {A B} (f : A -> option B) l : (forall x, In x l -> exists y, f x = Some y) -> exists r, opts (map f l) = Some r.
Proof.
  induction l as [|x l IH]; intros H; [exists []; reflexivity|]. cbn. destruct (H x ltac:(now left)) as (y & ->). destruct IH as (r & ->); [intros z I; apply H; now right|eauto].
Qed.
Lemma extreme_numbers pick (l : list (option (list mono))) : l <> [] -> (forall o, In o l -> exists v, o = Some [(v, [])]) -> exists w, extreme pick l = Some [(w, [])].
Proof.
  intros N H. assert (E : exists vs, l = map (fun v : Q => Some [(v, [] : umap)]) vs).
  { clear N. induction l as [|o l IH]; [exists []; reflexivity|]. destruct (H o ltac:(now left)) as (v & ->). destruct IH as (vs & ->); [intros o I; apply H; now right|].
    exists (v :: vs). reflexivity. }
  destruct E as (vs & ->). unfold extreme.
  assert (O : opts (map (fun v : Q => Some [(v, [] : umap)]) vs) = Some (map (fun v : Q => [(v, [] : umap)]) vs)) by (clear; induction vs as [|v vs IH]; [reflexivity|]; cbn; now rewrite IH).
  assert (O2 : opts (map (fun ms : list mono => match ms with [m] => Some m | _ => None end) (map (fun v : Q => [(v, [] : umap)]) vs)) = Some (map (fun v : Q => (v, [] : umap)) vs))
    by (clear; induction vs as [|v vs IH]; [reflexivity|]; cbn; now rewrite IH).
  rewrite O, O2.
  destruct vs as [|v vs]; [destruct N; reflexivity|]. cbn [map].
  replace (forallb _ _) with true; [eauto|]. symmetry. apply forallb_forall. intros m I. apply in_map_iff in I. destruct I as (x & <- & _). reflexivity.
Qed.
Lemma simple_defined pi : forall e, made e -> simple e ->
  exists l, sum_value pi e = Some l /\ l <> [] /\ (forall x, In x l -> keys_ok (snd x)) /\ (numeric e -> exists v, l = [(v, [])]).
Proof.
  assert (KO : forall l : list mono, (exists v, l = [(v, [])]) -> l <> [] /\ (forall x, In x l -> keys_ok (snd x))).
  { intros l (v & ->). split; [discriminate|]. intros x [<-|[]] k []. }
  induction e using expr_all; intros M S; cbn [made simple] in M, S; cbn [sum_value].
  - eexists. split; [reflexivity|]. split; [unfold sum_unit; destruct (match canonical u with Some c => _ | None => _ end); discriminate|].
    split.
    + intros x I. destruct (sum_unit_map pi v u M x I) as (U & _). destruct U as [->|(w & -> & Kw & Nw & _)]; [intros k []|]. intros k [<-|[]]. auto.
    + cbn. intros ->. exists v. reflexivity.
  - destruct M as (N & M). rewrite Forall_forall in H.
    assert (D : forall e, In e l -> exists r, sum_value pi e = Some r /\ r <> [] /\ (forall x, In x r -> keys_ok (snd x)) /\ (numeric e -> exists v, r = [(v, [])]))
      by (intros e I; exact (H e I (conj_in _ _ _ M I) (conj_in _ _ _ S I))).
    destruct (opts_total (sum_value pi) l) as (ls & O); [intros e I; destruct (D e I) as (r & -> & _); eauto|]. rewrite O.
    assert (X : forall r, In r ls -> exists e, In e l /\ sum_value pi e = Some r) by (intros r I; exact (opts_in _ _ _ _ O I)).
    assert (C : concat ls <> []).
    { destruct ls as [|r ls]; [apply opts_some in O; destruct l; [congruence|discriminate O]|]. destruct (X r ltac:(now left)) as (e & Ie & Ee).
      destruct (D e Ie) as (r' & E' & Nr & _). rewrite Ee in E'. injection E' as <-. cbn. destruct r; [congruence|discriminate]. }
    assert (KK : forall x, In x (concat ls) -> keys_ok (snd x)).
    { intros x I. apply in_concat in I. destruct I as (r & Ir & Ix). destruct (X r Ir) as (e & Ie & Ee). destruct (D e Ie) as (r' & E' & _ & K & _). rewrite Ee in E'. injection E' as <-. auto. }
    assert (K2 : forall x, In x (fold_left merge_mono (concat ls) []) -> keys_ok (snd x)).
    { intros x I. apply fold_merge_in in I. destruct I as (z & I & ->). now apply KK. }
    assert (N2 : fold_left merge_mono (concat ls) [] <> []) by (apply fold_merge_not_nil; now right).
    rewrite (types_some _ N2 K2). eexists. split; [reflexivity|]. split; [exact N2|]. split; [exact K2|].
    cbn [numeric]. intros Nu. apply merge_single; [exact C|]. intros x I. apply in_concat in I. destruct I as (r & Ir & Ix). destruct (X r Ir) as (e & Ie & Ee).
    exact (numeric_maps pi e (conj_in _ _ _ M Ie) (conj_in _ _ _ Nu Ie) r Ee x Ix).
  - destruct M as (N & M). rewrite Forall_forall in H.
    assert (D : forall e, In e l -> exists r, sum_value pi e = Some r /\ r <> [] /\ (forall x, In x r -> keys_ok (snd x)) /\ (numeric e -> exists v, r = [(v, [])]))
      by (intros e I; exact (H e I (conj_in _ _ _ M I) (conj_in _ _ _ S I))).
    destruct (opts_total (sum_value pi) l) as (ls & O); [intros e I; destruct (D e I) as (r & -> & _); eauto|]. rewrite O.
    assert (X : forall r, In r ls -> exists e, In e l /\ sum_value pi e = Some r) by (intros r I; exact (opts_in _ _ _ _ O I)).
    eexists. split; [reflexivity|]. change (fold_left _ ls _) with (fold_left mul_terms ls [(1, [])]). split; [|split].
    + apply fold_mul_not_nil; [|discriminate]. intros r I. destruct (X r I) as (e & Ie & Ee). destruct (D e Ie) as (r' & E' & Nr & _). congruence.
    + apply fold_mul_keys; [|intros y [<-|[]] k []]. intros r y Ir Iy. destruct (X r Ir) as (e & Ie & Ee). destruct (D e Ie) as (r' & E' & _ & K & _). rewrite Ee in E'. injection E' as <-. auto.
    + cbn [numeric]. intros Nu. apply mul_numbers. intros r Ir. destruct (X r Ir) as (e & Ie & Ee). destruct (D e Ie) as (r' & E' & _ & _ & K). rewrite Ee in E'. injection E' as <-.
      apply K. exact (conj_in _ _ _ Nu Ie).
  - destruct (IHe M S) as (r & -> & Nr & K & Nu). eexists. split; [reflexivity|]. split; [destruct r; [congruence|discriminate]|]. split.
    + intros x I. apply in_map_iff in I. destruct I as (y & <- & I). exact (K y I).
    + cbn [numeric]. intros X. destruct (Nu X) as (v & ->). exists (- v). reflexivity.
  - destruct S as (S & Ne). destruct (IHe M S) as (r & -> & _ & _ & Nu). destruct (Nu Ne) as (v & ->).
    assert (Y : exists v', [((if v =?q 0 then v else 1 / v), map (fun p : text * Z => (fst p, - snd p)%Z) [])] = [(v', [] : umap)]) by (eexists; reflexivity).
    eexists. split; [reflexivity|]. destruct (KO _ Y) as (A & B). split; [exact A|]. split; [exact B|]. intros _. exact Y.
  - destruct M as (N & M). destruct S as (S & Nu). rewrite Forall_forall in H.
    destruct (extreme_numbers pymin (map (sum_value pi) l)) as (w & ->); [destruct l; [congruence|discriminate]| |].
    + intros o I. apply in_map_iff in I. destruct I as (e & <- & I). destruct (H e I (conj_in _ _ _ M I) (conj_in _ _ _ S I)) as (r & E & _ & _ & K).
      destruct (K (conj_in _ _ _ Nu I)) as (v & ->). eauto.
    + assert (Y : exists v, [(w, [] : umap)] = [(v, [])]) by eauto. destruct (KO _ Y) as (A & B). eexists. split; [reflexivity|]. split; [exact A|]. split; [exact B|]. intros _. exact Y.
  - destruct M as (N & M). destruct S as (S & Nu). rewrite Forall_forall in H.
    destruct (extreme_numbers pymax (map (sum_value pi) l)) as (w & ->); [destruct l; [congruence|discriminate]| |].
    + intros o I. apply in_map_iff in I. destruct I as (e & <- & I). destruct (H e I (conj_in _ _ _ M I) (conj_in _ _ _ S I)) as (r & E & _ & _ & K).
      destruct (K (conj_in _ _ _ Nu I)) as (v & ->). eauto.
    + assert (Y : exists v, [(w, [] : umap)] = [(v, [])]) by eauto. destruct (KO _ Y) as (A & B). eexists. split; [reflexivity|]. split; [exact A|]. split; [exact B|]. intros _. exact Y.
  - destruct S.
Qed.

(** ** to() and to_sum() *)
Lemma to_unit_worth pi sz x u y : good_sizes pi sz -> known (uu x) -> to_unit pi x u = Ok y -> uv y * sz (uu y) == uv x * sz (uu x) /\ uu y = lower u /\ known (uu y).
Proof.
  intros (P & _ & Pos & Comp) K E. destruct (to_size pi x u y P K E) as (S & U & C). split; [|split; [exact U|]].
  - unfold size in S. assert (Ry := ratio_pos pi (uu y) P). assert (Rx := ratio_pos pi (uu x) P).
    destruct C as [C|C].
    + rewrite C in *. assert (V : uv y == uv x) by (apply (Qmult_inj_r _ _ (ratio pi (uu x))); [lra|exact S]). now rewrite V.
    + assert (X := Comp _ _ C). apply (Qmult_inj_r _ _ (ratio pi (uu x))); [lra|].
      transitivity (uv y * (sz (uu y) * ratio pi (uu x))); [ring|]. rewrite <- X. transitivity (uv y * ratio pi (uu y) * sz (uu x)); [ring|]. rewrite S. ring.
  - destruct C as [->|C]; [exact K|]. apply (compatible_known _ _ C).
Qed.
Lemma to_worth pi sz e u y : good_sizes pi sz -> made e -> linear e -> to pi e u = Ok y -> uv y * sz (uu y) == worth sz e /\ uu y = lower u.
Proof.
  intros G M Li E. unfold to in E. destruct (create_type u); [|discriminate E]. cbn [bind] in E.
  assert (Num : known (lit "number")) by (apply known_all; vm_compute; tauto). assert (One : sz (lit "number") == 1) by apply G.
  assert (Gen : match sum_value pi e with
      | Some [(v, m)] =>
          match filter (fun p => negb (snd p =? 0)%Z) m with
          | [] => do item <- unit_value v (lit "number"); if text_eqb (uu item) (lower u) then Ok item else to_unit pi item u
          | [(u0, _)] => do item <- unit_value v u0; if text_eqb (uu item) (lower u) then Ok item else to_unit pi item u
          | _ => Err ValueError
          end
      | _ => Err ValueError
      end = Ok y -> uv y * sz (uu y) == worth sz e /\ uu y = lower u).
  { clear E. intros E. destruct (sum_value pi e) as [[|[v m] [|]]|] eqn:S; try discriminate E.
    destruct (linear_maps pi e M Li) as (U & C). destruct (sum_value_worth pi sz G e M C _ S) as (W & _). rewrite sum_worth_one in W. unfold mono_worth in W. cbn [fst snd] in W.
    assert (Fin : forall w, known w -> v * sz w == worth sz e -> (do item <- unit_value v w; if text_eqb (uu item) (lower u) then Ok item else to_unit pi item u) = Ok y -> uv y * sz (uu y) == worth sz e /\ uu y = lower u).
    { intros w Kw Ew. rewrite unit_value_known by exact Kw. cbn [bind uu]. destruct (text_eqb_spec w (lower u)) as [->|N].
      - intros X. injection X as <-. split; [exact Ew|reflexivity].
      - intros X. destruct (to_unit_worth pi sz (mkU v w) u y G Kw X) as (A & B & _). split; [|exact B]. rewrite A. exact Ew. }
    destruct (U _ S (v, m) ltac:(now left)) as [Em|(w & Em & Kw & Nw & _)]; cbn [snd] in Em; subst m; cbn [filter negb snd Z.eqb] in E.
    - apply (Fin _ Num); [|exact E]. rewrite <- W, One. unfold map_worth. cbn. ring.
    - apply (Fin _ Kw); [|exact E]. rewrite <- W, map_worth_cons, Qpower_1_r. unfold map_worth. cbn. ring. }
  destruct e; try exact (Gen E). cbn [made] in M. destruct (to_unit_worth pi sz (mkU v u0) u y G M E) as (A & B & _). auto.
Qed.
Lemma results_ok {A} (l : list (result A)) r : results l = Ok r -> l = map Ok r.
Proof.
  revert r. induction l as [|x l IH]; intros r H; cbn in H; [now injection H as <-|]. destruct x as [a|]; [|discriminate H]. cbn [bind] in H.
  destruct (results l) as [b|]; [|discriminate H]. cbn [bind] in H. injection H as <-. cbn. now rewrite (IH b eq_refl).
Qed.
Lemma insert_perm x l : Permutation (insert_unit x l) (x :: l).
Proof. induction l as [|y l IH]; cbn; [reflexivity|]. destruct (text_ltb (uu x) (uu y)); [reflexivity|]. rewrite IH. constructor. Qed.
Lemma sort_perm l : Permutation (sort_units l) l.
Proof.
  unfold sort_units. rewrite <- (app_nil_r l) at 2. generalize (@nil uval). induction l as [|x l IH]; intros acc; cbn; [reflexivity|].
  rewrite IH, insert_perm. symmetry. apply Permutation_middle.
Qed.
Lemma units_worth_perm sz a b : Permutation a b -> units_worth sz a == units_worth sz b.
Proof. intros P. apply Qsum_perm, Permutation_map, P. Qed.
Lemma find_fit_at u l : forall n k v, find_fit u n l = Some (k, v) -> (n <= k)%nat /\ nth_error l (k - n) = Some v.
Proof.
  induction l as [|x l IH]; intros n k v H; cbn in H; [discriminate|]. destruct (fits x u).
  - injection H as <- <-. split; [lia|]. now rewrite Nat.sub_diag.
  - destruct (IH _ _ _ H) as (A & B). split; [lia|]. replace (k - n)%nat with (S (k - S n)) by lia. exact B.
Qed.

Lemma own_incompatible u w : own u -> own w -> known u -> known w -> u <> w -> ~ compatible u w.
Proof.
  intros A B Ku Kw N C. apply (canonical_compatible u w (known_lower u Ku) (known_lower w Kw)) in C. destruct C as (c & C1 & C2).
  destruct A as [A|A]; destruct B as [B|B]; congruence.
Qed.
Lemma own_number : own (lit "number"). Proof. left. reflexivity. Qed.
(* the units of a sum value, one by one *)
Definition apart (l : list uval) : Prop := NoDup (map uu l) /\ forall x, In x l -> known (uu x) /\ own (uu x).
Lemma remove_apart pi n x l r : apart l -> nth_error l n = Some x -> remove_at pi n x l = Ok r -> l = x :: r.
Proof.
  intros (N & K) E R. destruct l as [|y l]; [destruct n; discriminate E|]. destruct n as [|n].
  - cbn in E, R. congruence.
  - exfalso. cbn in E, R. apply nth_error_In in E. cbn [map] in N. inversion N as [|? ? N1 N2]; subst.
    assert (D : uu y <> uu x) by (intros D; apply N1; rewrite D; now apply in_map).
    destruct (K y ltac:(now left)) as (Ky & Oy). destruct (K x ltac:(now right)) as (Kx & Ox).
    unfold u_eq in R. rewrite (compare_bad pi y x Ky Kx D (own_incompatible _ _ Oy Ox Ky Kx D)) in R. discriminate R.
Qed.
Lemma unit_value_uv v u x : unit_value v u = Ok x -> uv x = v /\ uu x = lower u.
Proof. unfold unit_value. destruct (create_type (lower u)); [|discriminate]. cbn [bind]. intros H. injection H as <-. auto. Qed.
Lemma collect_worth pi sz : good_sizes pi sz -> forall us values r, apart values -> collect pi us values = Ok r ->
  units_worth sz r == units_worth sz values /\ map uu r = map lower us.
Proof.
  intros G. induction us as [|u us IH]; intros values r A E; cbn [collect] in E.
  - destruct values; [|discriminate E]. injection E as <-. split; reflexivity.
  - destruct (unit_value 0 u) as [temp|] eqn:T; [|discriminate E]. cbn [bind] in E. destruct (unit_value_uv _ _ _ T) as (T1 & T2).
    destruct (find_fit u 0 values) as [[n v]|] eqn:F.
    + destruct (find_fit_at _ _ _ _ _ F) as (_ & Nth). rewrite Nat.sub_0_r in Nth.
      destruct (to_unit pi v u) as [c|] eqn:C; [|discriminate E]. cbn [bind] in E. destruct (remove_at pi n v values) as [values'|] eqn:R; [|discriminate E]. cbn [bind] in E.
      destruct (collect pi us values') as [r'|] eqn:Q; [|discriminate E]. cbn [bind] in E. injection E as <-.
      assert (V := remove_apart pi n v values values' A Nth R). subst values. destruct A as (A1 & A2). destruct (A2 v ltac:(now left)) as (Kv & _).
      destruct (to_unit_worth pi sz v u c G Kv C) as (W & U & _).
      assert (A' : apart values') by (split; [cbn in A1; now inversion A1|intros x I; apply A2; now right]).
      destruct (IH values' r' A' Q) as (W2 & U2). cbn [map uu]. split; [|now rewrite T2, U2].
      unfold units_worth in *. cbn [map uv uu Qsum fold_right]. unfold Qsum in *. rewrite W2, <- W, T2, U. ring.
    + destruct (collect pi us values) as [r'|] eqn:Q; [|discriminate E]. cbn [bind] in E. injection E as <-. destruct (IH values r' A Q) as (W2 & U2).
      cbn [map]. split; [|now rewrite T2, U2]. unfold units_worth in *. cbn [map Qsum fold_right]. unfold Qsum in *. rewrite W2, T1. ring.
Qed.

(** distinct units in the sum value of a calc() expression *)
Lemma numeric_single pi : forall e, made e -> numeric e -> forall l, sum_value pi e = Some l -> exists v, l = [(v, [])].
Proof.
  assert (Ext : forall pick l l0, made (EMin l) -> numeric (EMin l) -> extreme pick (map (sum_value pi) l) = Some l0 -> exists v, l0 = [(v, [])]).
  { intros pick l l0 (N & M) Nu E. destruct (extreme_spec _ _ _ E) as (v1 & m1 & rest & L & -> & _). destruct l as [|e l]; [congruence|]. cbn [map] in L. injection L as L1 L2.
    assert (Z := numeric_maps pi e (proj1 M) (proj1 Nu) _ L1 (v1, m1) ltac:(now left)). cbn in Z. subst m1. eauto. }
  induction e using expr_all; intros M Nu l0 E; cbn [sum_value] in E.
  - injection E as <-. cbn in Nu. subst u. exists v. reflexivity.
  - destruct M as (N & M). cbn [numeric] in Nu. destruct (opts (map (sum_value pi) l)) as [ls|] eqn:O; [|discriminate]. destruct (types_multiply _); [|discriminate]. injection E as <-.
    rewrite Forall_forall in H. apply merge_single.
    + destruct ls as [|r ls]; [apply opts_some in O; destruct l; [congruence|discriminate O]|]. destruct (opts_in _ _ _ r O ltac:(now left)) as (e & Ie & Ee).
      destruct (H e Ie (conj_in _ _ _ M Ie) (conj_in _ _ _ Nu Ie) r Ee) as (v & ->). discriminate.
    + intros x I. apply in_concat in I. destruct I as (r & Ir & Ix). destruct (opts_in _ _ _ r O Ir) as (e & Ie & Ee).
      exact (numeric_maps pi e (conj_in _ _ _ M Ie) (conj_in _ _ _ Nu Ie) r Ee x Ix).
  - destruct M as (N & M). cbn [numeric] in Nu. destruct (opts (map (sum_value pi) l)) as [ls|] eqn:O; [|discriminate]. injection E as <-. rewrite Forall_forall in H.
    change (fold_left _ ls _) with (fold_left mul_terms ls [(1, [])]). apply mul_numbers. intros r Ir. destruct (opts_in _ _ _ r O Ir) as (e & Ie & Ee).
    exact (H e Ie (conj_in _ _ _ M Ie) (conj_in _ _ _ Nu Ie) r Ee).
  - destruct (sum_value pi e) as [r|] eqn:F; [|discriminate]. injection E as <-. destruct (IHe M Nu r eq_refl) as (v & ->). exists (- v). reflexivity.
  - destruct (sum_value pi e) as [[|[v m] [|]]|] eqn:F; try discriminate. injection E as <-. destruct (IHe M Nu _ eq_refl) as (w & Ew). injection Ew as -> ->. eexists. reflexivity.
  - exact (Ext _ _ _ M Nu E).
  - exact (Ext _ _ _ M Nu E).
  - discriminate.
Qed.
Lemma merge_nodup vals x : (forall y : mono, In y vals -> unit_map (snd y)) -> unit_map (snd x) -> NoDup (map snd vals) -> NoDup (map snd (merge_mono vals x)).
Proof.
  intros U X. induction vals as [|y vals IH]; intros N; [cbn; constructor; [intros []|constructor]|]. cbn [merge_mono]. destruct (same_keys (snd y) (snd x)) eqn:E; [exact N|].
  cbn [map] in *. inversion N as [|? ? N1 N2]; subst. constructor; [|apply IH; [intros z I; apply U; now right|exact N2]].
  intros I. apply in_map_iff in I. destruct I as (z & Ez & Iz). destruct (merge_maps _ _ _ Iz) as [Eq|(w & Iw & Eq)].
  - assert (S : same_keys (snd y) (snd x) = true) by (apply same_keys_spec; rewrite <- Ez, Eq; tauto). congruence.
  - apply N1. rewrite <- Ez, Eq. now apply in_map.
Qed.
Lemma fold_merge_nodup l : forall vals, (forall y : mono, In y (vals ++ l) -> unit_map (snd y)) -> NoDup (map snd vals) -> NoDup (map snd (fold_left merge_mono l vals)).
Proof.
  induction l as [|x l IH]; intros vals U N; [exact N|]. cbn. apply IH.
  - intros y I. apply in_app_or in I. destruct I as [I|I]; [|apply U, in_or_app; right; now right].
    destruct (merge_maps _ _ _ I) as [->|(z & Iz & ->)]; apply U, in_or_app; [right; now left|now left].
  - apply merge_nodup; [intros y I; apply U, in_or_app; now left|apply U, in_or_app; right; now left|exact N].
Qed.
Lemma mul_single_r acc v : (forall y : mono, In y acc -> unit_map (snd y)) -> map snd (mul_terms acc [(v, [])]) = map snd acc.
Proof.
  induction acc as [|x acc IH]; intros U; [reflexivity|]. change (map snd (mul_terms (x :: acc) [(v, [])])) with (drop_zeros (snd x) :: map snd (mul_terms acc [(v, [])])). cbn [map]. rewrite IH by (intros y I; apply U; now right). f_equal. apply unit_drop. apply U. now left.
Qed.
Lemma fold_mul_singles (ls : list (list mono)) : (forall r, In r ls -> exists v, r = [(v, [])]) -> forall acc, (forall y : mono, In y acc -> unit_map (snd y)) ->
  map snd (fold_left mul_terms ls acc) = map snd acc.
Proof.
  induction ls as [|r ls IH]; intros H acc U; [reflexivity|]. cbn. destruct (H r ltac:(now left)) as (v & ->). rewrite IH.
  - now apply mul_single_r.
  - intros r I. apply H. now right.
  - intros y I. assert (J : In (snd y) (map snd (mul_terms acc [(v, [])]))) by now apply in_map. rewrite mul_single_r in J by exact U. apply in_map_iff in J.
    destruct J as (z & <- & Iz). auto.
Qed.
Lemma linear_nodup pi : forall e, made e -> linear e -> forall l, sum_value pi e = Some l -> NoDup (map snd l).
Proof.
  assert (One : forall x : mono, NoDup (map snd [x])) by (intros x; cbn; constructor; [intros []|constructor]).
  induction e using expr_all; intros M Li l0 E; assert (M0 := M); assert (Li0 := Li); cbn [made linear] in M, Li; assert (E0 := E); cbn [sum_value] in E.
  - injection E as <-. unfold sum_unit. destruct (match canonical u with Some c => _ | None => _ end). apply One.
  - destruct M as (N & M). destruct (opts (map (sum_value pi) l)) as [ls|] eqn:O; [|discriminate]. destruct (types_multiply _); [|discriminate]. injection E as <-.
    apply fold_merge_nodup; [|constructor]. cbn [app]. intros y I. apply in_concat in I. destruct I as (r & Ir & Ix). destruct (opts_in _ _ _ r O Ir) as (e & Ie & Ee).
    exact (proj1 (linear_maps pi e (conj_in _ _ _ M Ie) (conj_in _ _ _ Li Ie)) r Ee y Ix).
  - destruct M as (N & M). destruct Li as (Li & l1 & e0 & l2 & -> & Nu). destruct (opts (map (sum_value pi) (l1 ++ e0 :: l2))) as [ls|] eqn:O; [|discriminate]. injection E as <-.
    change (fold_left _ ls _) with (fold_left mul_terms ls [(1, [])]).
    apply opts_some in O. rewrite map_app in O. cbn [map] in O. symmetry in O. apply map_eq_app in O. destruct O as (a & b & -> & Ea & Eb).
    apply map_eq_cons in Eb. destruct Eb as (c & b' & -> & Ec & Eb). rewrite fold_left_app. cbn [fold_left].
    assert (Z1 : forall r, In r a -> exists v, r = [(v, [])]).
    { intros r Ir. assert (J : In (Some r) (map Some a)) by now apply in_map. rewrite Ea in J. apply in_map_iff in J. destruct J as (e & Ee & Ie).
      refine (numeric_single pi e _ (Nu e ltac:(apply in_or_app; now left)) r Ee). apply (conj_in _ _ _ M). apply in_or_app. now left. }
    assert (Z2 : forall r, In r b' -> exists v, r = [(v, [])]).
    { intros r Ir. assert (J : In (Some r) (map Some b')) by now apply in_map. rewrite Eb in J. apply in_map_iff in J. destruct J as (e & Ee & Ie).
      refine (numeric_single pi e _ (Nu e ltac:(apply in_or_app; now right)) r Ee). apply (conj_in _ _ _ M). apply in_or_app. right. now right. }
    assert (Ie0 : In e0 (l1 ++ e0 :: l2)) by (apply in_or_app; right; now left).
    assert (Uc := proj1 (linear_maps pi e0 (conj_in _ _ _ M Ie0) (conj_in _ _ _ Li Ie0)) c (eq_sym Ec)).
    rewrite Forall_forall in H. assert (Nc := H e0 Ie0 (conj_in _ _ _ M Ie0) (conj_in _ _ _ Li Ie0) c (eq_sym Ec)).
    destruct (mul_numbers a Z1 1) as (w & ->).
    assert (Ms : map snd (mul_terms [(w, [])] c) = map snd c).
    { cbn. rewrite app_nil_r, map_map. cbn. apply map_ext_in. intros y Iy. rewrite unit_product_l by auto. apply unit_drop. auto. }
    rewrite fold_mul_singles; [now rewrite Ms|exact Z2|]. intros y Iy. assert (J : In (snd y) (map snd (mul_terms [(w, [])] c))) by now apply in_map. rewrite Ms in J. apply in_map_iff in J.
    destruct J as (z & <- & Iz). auto.
  - destruct (sum_value pi e) as [r|] eqn:F; [|discriminate]. injection E as <-. rewrite map_map. cbn. exact (IHe M Li r eq_refl).
  - destruct (numeric_single pi (EInvert e) M0 Li0 l0 E0) as (v & ->). apply One.
  - destruct (extreme_spec _ _ _ E) as (v1 & m1 & rest & L & -> & _). apply One.
  - destruct (extreme_spec _ _ _ E) as (v1 & m1 & rest & L & -> & _). apply One.
  - discriminate.
Qed.
Lemma items_apart l vs : (forall x : mono, In x l -> unit_map (snd x)) -> NoDup (map snd l) -> results (map from_item l) = Ok vs ->
  apart vs /\ forall sz, sz (lit "number") == 1 -> units_worth sz vs == sum_worth sz l.
Proof.
  intros U N R. apply results_ok in R.
  assert (Num : known (lit "number")) by (apply known_all; vm_compute; tauto).
  assert (S : forall x v, unit_map (snd x) -> from_item x = Ok v -> (known (uu v) /\ own (uu v)) /\ snd x = (if text_eqb (uu v) (lit "number") then [] else [(uu v, 1%Z)]) /\ uv v = fst x).
  { intros x v Ux E. unfold from_item in E. destruct Ux as [Ux|(u & Ux & Ku & Nu & Ou)]; rewrite Ux in E |- *.
    - rewrite unit_value_known in E by exact Num. injection E as <-. cbn [uu uv]. split; [split; [exact Num|exact own_number]|]. split; reflexivity.
    - cbn [Z.eqb Pos.eqb] in E. rewrite unit_value_known in E by exact Ku. injection E as <-. cbn [uu uv]. split; [auto|]. split; [|reflexivity]. destruct (text_eqb_spec u (lit "number")); [congruence|reflexivity]. }
  revert vs R. induction l as [|x l IH]; intros [|v vs] R; try discriminate R.
  - split; [split; [constructor|intros x []]|reflexivity].
  - cbn [map] in R, N. injection R as R1 R2. inversion N as [|? ? N1 N2]; subst. destruct (IH ltac:(intros y I; apply U; now right) N2 vs R2) as ((A1 & A2) & W).
    destruct (S x v (U x ltac:(now left)) R1) as (B & C & D). split.
    + split.
      * cbn [map]. constructor; [|exact A1]. intros I. apply N1. apply in_map_iff in I. destruct I as (v' & Ev & Iv).
        assert (J : In (Ok v') (map Ok vs)) by now apply in_map. rewrite <- R2 in J. apply in_map_iff in J. destruct J as (y & Ey & Iy).
        destruct (S y v' (U y ltac:(now right)) Ey) as (_ & C' & _). rewrite C, <- Ev, <- C'. now apply in_map.
      * intros y [<-|I]; auto.
    + intros sz One. unfold units_worth in *. cbn [map Qsum fold_right]. unfold Qsum in *. rewrite (W sz One), D. unfold sum_worth. cbn [map Qsum fold_right]. unfold Qsum. unfold mono_worth at 2.
      rewrite C. destruct (text_eqb_spec (uu v) (lit "number")) as [->|Nn].
      * rewrite One. unfold map_worth. cbn. ring.
      * rewrite map_worth_cons, Qpower_1_r. unfold map_worth. cbn. ring.
Qed.
Lemma make_sum_same o l r : make_sum o l = Ok r -> r = l.
Proof.
  unfold make_sum. destruct (results _) as [[|t ts]|]; cbn [bind]; try discriminate. destruct (fold_types o MSum t ts); [|discriminate]. congruence.
Qed.
Lemma to_sum_worth o pi sz e us r : good_sizes pi sz -> made e -> linear e -> to_sum o pi e us = Ok r ->
  units_worth sz r == worth sz e /\ match us with [] => True | _ => map uu r = map lower us end.
Proof.
  intros G M Li E. unfold to_sum in E. destruct (results (map create_type us)); [|discriminate E]. cbn [bind] in E. destruct (sum_value pi e) as [l|] eqn:S; [|discriminate E].
  destruct (results (map from_item l)) as [vs|] eqn:R; [|discriminate E]. cbn [bind] in E.
  destruct (linear_maps pi e M Li) as (U & C). destruct (sum_value_worth pi sz G e M C _ S) as (W & _).
  destruct (items_apart l vs (U l S) (linear_nodup pi e M Li l S) R) as (A & V). assert (One : sz (lit "number") == 1) by apply G.
  destruct us as [|u us].
  - apply make_sum_same in E. subst r. split; [|exact I]. rewrite (units_worth_perm sz _ _ (sort_perm vs)), (V sz One). exact W.
  - destruct (collect pi (u :: us) vs) as [r'|] eqn:K; [|discriminate E]. cbn [bind] in E. apply make_sum_same in E. subst r.
    destruct (collect_worth pi sz G (u :: us) vs r' A K) as (X & Y). split; [|exact Y]. rewrite X, (V sz One). exact W.
Qed.

(** ** add() and equals() *)
Lemma all_units_worth sz l us : CssMathModel.all_units l = Some us -> Forall2 Qeq (map (fun x => uv x * sz (uu x)) us) (map (worth sz) l).
Proof.
  unfold CssMathModel.all_units. intros E. apply opts_some in E. revert us E. induction l as [|e l IH]; intros [|x us] E; try discriminate E; [constructor|].
  cbn [map] in E. injection E as E1 E2. destruct e; try discriminate E1. injection E1 as <-. cbn [map uv uu worth]. constructor; [reflexivity|auto].
Qed.
Lemma fold_plus l : forall a, fold_left Qplus l a == a + Qsum l.
Proof. unfold Qsum. induction l as [|x l IH]; intros a; cbn; [ring|]. rewrite IH. ring. Qed.
Lemma add_worth sz e l : worth sz (add e l) == worth sz e + Qsum (map (worth sz) l).
Proof.
  assert (K : forall vals, worth sz (match CssMathModel.all_units vals with
      | Some (x :: r) => if forallb (fun y => text_eqb (uu x) (uu y)) r then EUnit (fold_left Qplus (map uv (x :: r)) 0) (uu x) else ESum vals
      | _ => ESum vals end) == Qsum (map (worth sz) vals)).
  { intros vals. destruct (CssMathModel.all_units vals) as [[|x r]|] eqn:E; try reflexivity. destruct (forallb _ r) eqn:F; [|reflexivity].
    rewrite forallb_forall in F. rewrite <- (Qsum_eq _ _ (all_units_worth sz _ _ E)). cbn [worth]. rewrite fold_plus.
    assert (X : forall k, (forall y, In y k -> uu y = uu x) -> Qsum (map (fun x => uv x * sz (uu x)) k) == Qsum (map uv k) * sz (uu x)).
    { induction k as [|y k IH]; intros H; unfold Qsum in *; cbn; [ring|]. rewrite IH by (intros z I; apply H; now right). rewrite (H y ltac:(now left)). ring. }
    rewrite X; [ring|]. intros y [<-|I]; [reflexivity|]. specialize (F y I). destruct (text_eqb_spec (uu x) (uu y)); [congruence|discriminate]. }
  unfold add. destruct e; rewrite K; try reflexivity. rewrite map_app, Qsum_app. reflexivity.
Qed.
Lemma equals_worth sz : forall a b, equals a b = true -> worth sz a == worth sz b.
Proof.
  assert (L : forall l, Forall (fun a => forall b, equals a b = true -> worth sz a == worth sz b) l -> forall m,
    (fix all (l m : list expr) : bool := match l, m with [], [] => true | x :: l', y :: m' => equals x y && all l' m' | _, _ => false end) l m = true ->
    Forall2 Qeq (map (worth sz) l) (map (worth sz) m)).
  { induction 1 as [|x l Hx Hl IH]; intros [|y m] E; try discriminate E; [constructor|]. apply andb_true_iff in E. destruct E as (E1 & E2). cbn [map]. constructor; auto. }
  induction a using expr_all; intros b E; destruct b; try discriminate E; cbn [worth].
  - cbn [equals] in E. apply andb_true_iff in E. destruct E as (E1 & E2). destruct (text_eqb_spec u u0) as [->|]; [|discriminate]. apply Qeq_bool_iff in E2. now rewrite E2.
  - apply Qsum_eq, L; auto.
  - apply Qprod_eq, L; auto.
  - apply least_eq, L; auto.
  - apply greatest_eq, L; auto.
Qed.
