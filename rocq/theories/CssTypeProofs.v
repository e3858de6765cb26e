From Verif Require Import PyBase PyText PySplit PyDict PyCase CssTypeModel CssTypeSpec.
From Coq Require Import Permutation.
#[local] Open Scope Z_scope.

Lemma teq_refl t : teq t t. Proof. split; reflexivity. Qed.
Lemma teq_sym a b : teq a b -> teq b a. Proof. intros [A B]. split; [intros k; now rewrite A|congruence]. Qed.
Lemma teq_trans a b c : teq a b -> teq b c -> teq a c. Proof. intros [A B] [C D]. split; [intros k; now rewrite A|congruence]. Qed.

Lemma base_not_percent k : In k base_keys -> k <> percent.
Proof. intros H ->. vm_compute in H. repeat (destruct H as [H|H]; [discriminate H|]). exact H. Qed.

(** hints *)
Lemma pget_apply t h k : h <> percent -> pget (apply_hint t h) k = if text_eqb k percent then 0 else resolved (Some h) t k.
Proof.
  intros Hp. unfold apply_hint, resolved, pget. cbn [pw].
  assert (P1 : forall j, dget (if dhas (pw t) h then pw t else dset (pw t) h 0) j = if text_eqb h j then Some (pget t h) else dget (pw t) j).
  { intros j. unfold dhas, pget. destruct (dget (pw t) h) eqn:E.
    - destruct (text_eqb_spec h j) as [<-|]; [exact E|reflexivity].
    - rewrite dget_dset. reflexivity. }
  rewrite (P1 percent). destruct (text_eqb_spec h percent) as [|_]; [contradiction|].
  destruct (dget (pw t) percent) as [pc|] eqn:EP.
  - rewrite !dget_dset. destruct (text_eqb_spec k percent) as [->|Nk]; [rewrite text_eqb_refl; reflexivity|].
    destruct (text_eqb_spec percent k) as [E|_]; [congruence|]. rewrite (P1 h), text_eqb_refl. unfold pget.
    destruct (text_eqb_spec h k) as [<-|N]; [reflexivity|]. rewrite P1. destruct (text_eqb_spec h k); [contradiction|]. lia.
  - rewrite P1. unfold pget. destruct (text_eqb_spec k percent) as [->|Nk]; [destruct (text_eqb_spec h percent); [contradiction|]; now rewrite EP|].
    destruct (text_eqb_spec h k) as [<-|N]; [lia|]. lia.
Qed.
Lemma apply_ok t h : dict_ok (pw t) -> dict_ok (pw (apply_hint t h)).
Proof.
  intros H. unfold apply_hint. cbn [pw]. assert (P : dict_ok (if dhas (pw t) h then pw t else dset (pw t) h 0)) by (destruct (dhas (pw t) h); auto using dset_ok).
  destruct (dget _ percent); auto using dset_ok.
Qed.

(** dictionaries *)
Lemma fill_dget f from : dict_ok from -> forall to k, dget (fill_missing f to from) k =
  match dget to k with Some v => Some v | None => match dget from k with Some v => if f (k, v) then Some v else None | None => None end end.
Proof.
  unfold fill_missing. induction from as [|[j v] from IH]; intros D to k.
  - cbn. destruct (dget to k); reflexivity.
  - inversion D as [|? ? N D']; subst. cbn [fold_left fst snd]. rewrite IH by exact D'. cbn [dget].
    assert (J : dget from j = None) by (apply dget_keys; exact N).
    destruct (f (j, v)) eqn:F; cbn [andb].
    + unfold dhas. destruct (dget to j) eqn:E; cbn [negb].
      * destruct (text_eqb_spec j k) as [<-|]; [|reflexivity]. rewrite E. reflexivity.
      * rewrite dget_dset. destruct (text_eqb_spec j k) as [<-|]; [|reflexivity]. rewrite E, F. reflexivity.
    + destruct (text_eqb_spec j k) as [<-|]; [|reflexivity]. rewrite J, F. reflexivity.
Qed.
Lemma mul_dget from : dict_ok from -> forall to k,
  match dget (fold_left (fun d p => if mem (fst p) base_keys then dset d (fst p) (match dget d (fst p) with Some z => z | None => 0 end + snd p) else d) from to) k
  with Some z => z | None => 0 end =
  match dget to k with Some z => z | None => 0 end + if mem k base_keys then match dget from k with Some z => z | None => 0 end else 0.
Proof.
  induction from as [|[j v] from IH]; intros D to k.
  - cbn [fold_left dget]. destruct (mem k base_keys); lia.
  - inversion D as [|? ? N D']; subst. cbn [fold_left fst snd]. rewrite IH by exact D'. cbn [dget].
    assert (J : dget from j = None) by (apply dget_keys; exact N).
    destruct (text_eqb_spec j k) as [<-|Ne].
    + rewrite J. destruct (mem j base_keys); [rewrite dget_dset, text_eqb_refl; lia|lia].
    + destruct (mem j base_keys); [|reflexivity]. rewrite dget_dset. destruct (text_eqb_spec j k); [contradiction|reflexivity].
Qed.
Lemma mul_ok from : forall to, dict_ok to -> dict_ok (fold_left (fun d p => if mem (fst p) base_keys then dset d (fst p) (match dget d (fst p) with Some z => z | None => 0 end + snd p) else d) from to).
Proof. induction from as [|[j v] from IH]; intros to D; [exact D|]. cbn [fold_left fst snd]. apply IH. destruct (mem j base_keys); auto using dset_ok. Qed.
Lemma mul_keys from : forall to x, In x (dkeys (fold_left (fun d p => if mem (fst p) base_keys then dset d (fst p) (match dget d (fst p) with Some z => z | None => 0 end + snd p) else d) from to)) ->
  In x (dkeys to) \/ In x base_keys.
Proof.
  induction from as [|[j v] from IH]; intros to x H; [now left|]. cbn [fold_left fst snd] in H. apply IH in H as [H|H]; [|now right].
  destruct (mem j base_keys) eqn:M; [|now left]. rewrite dset_keys in H. destruct (dhas to j); [now left|].
  apply in_app_or in H as [H|[<-|[]]]; [now left|right; now apply mem_in].
Qed.
Lemma fill_ok f from : forall to, dict_ok to -> dict_ok (fill_missing f to from).
Proof. unfold fill_missing. induction from as [|[j v] from IH]; intros to D; [exact D|]. cbn [fold_left fst snd]. apply IH. destruct (f (j, v) && negb (dhas to j)); auto using dset_ok. Qed.
Lemma fill_keys f from : forall to x, In x (dkeys (fill_missing f to from)) -> In x (dkeys to) \/ In x (dkeys from).
Proof.
  unfold fill_missing. induction from as [|[j v] from IH]; intros to x H; [now left|]. cbn [fold_left fst snd] in H. apply IH in H as [H|H]; [|right; now right].
  destruct (f (j, v) && negb (dhas to j)); [|now left]. rewrite dset_keys in H. destruct (dhas to j); [now left|].
  apply in_app_or in H as [H|[<-|[]]]; [now left|right; now left].
Qed.
Lemma apply_keys t h x : In x (dkeys (pw (apply_hint t h))) -> x = h \/ x = percent \/ In x (dkeys (pw t)).
Proof.
  unfold apply_hint. cbn [pw]. set (p1 := if dhas (pw t) h then pw t else dset (pw t) h 0).
  assert (P : forall x, In x (dkeys p1) -> x = h \/ In x (dkeys (pw t))).
  { intros y. unfold p1. destruct (dhas (pw t) h) eqn:E; [auto|]. rewrite dset_keys, E. intros H. apply in_app_or in H as [H|[<-|[]]]; auto. }
  destruct (dget p1 percent); [|intros H; apply P in H; tauto].
  rewrite !dset_keys. intros H.
  assert (H' : In x (dkeys p1) \/ x = h \/ x = percent).
  { destruct (dhas (dset p1 h _) percent) in H; [|apply in_app_or in H as [H|[<-|[]]]; [|auto]]; (destruct (dhas p1 h) in H; [auto|apply in_app_or in H as [H|[<-|[]]]; auto]). }
  destruct H' as [H'|H']; [apply P in H'|]; tauto.
Qed.

(** good types *)
Lemma good_outside t k : good t -> k <> percent -> ~ In k base_keys -> pget t k = 0.
Proof.
  intros (_ & K & _) P B. unfold pget. destruct (dget (pw t) k) eqn:E; [|reflexivity]. exfalso.
  assert (I : In k (dkeys (pw t))) by (apply dget_some_keys; eexists; exact E). apply K in I as [I|I]; contradiction.
Qed.
Lemma key_cases (P : text -> Prop) : P percent -> (forall k, In k base_keys -> P k) -> (forall k, k <> percent -> ~ In k base_keys -> P k) -> forall k, P k.
Proof.
  intros A B C k. destruct (text_eqb_spec k percent) as [->|N]; [exact A|]. destruct (mem k base_keys) eqn:M; [apply B; now apply mem_in|].
  apply C; [exact N|]. now apply mem_not_in.
Qed.
Lemma resolved_self t k : good t -> k <> percent -> resolved (hint t) t k = pget t k.
Proof.
  intros (_ & _ & H) N. unfold resolved. destruct (hint t) as [h|]; [|lia]. destruct (text_eqb h k); lia.
Qed.
Lemma resolved_hinted t h k : good t -> hint t = Some h -> resolved (Some h) t k = pget t k.
Proof. intros (_ & _ & H) E. rewrite E in H. unfold resolved. destruct (text_eqb h k); lia. Qed.
Lemma apply_good t h : good t -> In h base_keys -> good (apply_hint t h).
Proof.
  intros (D & K & H) B. split; [now apply apply_ok|]. split.
  - intros k I. apply apply_keys in I as [->|[->|I]]; auto.
  - split; [exact B|]. rewrite pget_apply, text_eqb_refl; [reflexivity|now apply base_not_percent].
Qed.
(* the two operands after their hints have been made equal *)
Lemma merge_spec a b : good a -> good b ->
  (~ hints_agree a b /\ merge_hints a b = None) \/
  (hints_agree a b /\ exists a' b', merge_hints a b = Some (a', b') /\ good a' /\ good b' /\ hint a' = joint a b /\ hint b' = joint a b /\
     (forall k, k <> percent -> pget a' k = resolved (joint a b) a k /\ pget b' k = resolved (joint a b) b k) /\
     (match joint a b with Some _ => pget a' percent = 0 /\ pget b' percent = 0 | None => a' = a /\ b' = b end)).
Proof.
  intros Ga Gb. unfold merge_hints, hints_agree, joint. destruct (hint a) as [h1|] eqn:E1, (hint b) as [h2|] eqn:E2.
  - destruct (text_eqb_spec h1 h2) as [<-|N]; [right|left; split; [exact N|reflexivity]].
    split; [reflexivity|]. exists a, b. split; [reflexivity|]. repeat (split; [assumption|]).
    split; [intros k Hk; now rewrite !resolved_hinted by assumption|].
    destruct Ga as (_ & _ & Ha). destruct Gb as (_ & _ & Hb). rewrite E1 in Ha. rewrite E2 in Hb. tauto.
  - right. split; [exact I|]. assert (B : In h1 base_keys) by (destruct Ga as (_ & _ & Ha); rewrite E1 in Ha; tauto).
    exists a, (apply_hint b h1). split; [reflexivity|]. split; [exact Ga|]. split; [now apply apply_good|]. split; [exact E1|]. split; [reflexivity|].
    split.
    + intros k Hk. rewrite resolved_hinted by assumption. split; [reflexivity|]. rewrite pget_apply by now apply base_not_percent.
      destruct (text_eqb_spec k percent); [contradiction|reflexivity].
    + destruct Ga as (_ & _ & Ha). rewrite E1 in Ha. split; [tauto|]. rewrite pget_apply, text_eqb_refl by now apply base_not_percent. reflexivity.
  - right. split; [exact I|]. assert (B : In h2 base_keys) by (destruct Gb as (_ & _ & Hb); rewrite E2 in Hb; tauto).
    exists (apply_hint a h2), b. split; [reflexivity|]. split; [now apply apply_good|]. split; [exact Gb|]. split; [reflexivity|]. split; [exact E2|].
    split.
    + intros k Hk. rewrite (resolved_hinted b) by assumption. split; [|reflexivity]. rewrite pget_apply by now apply base_not_percent.
      destruct (text_eqb_spec k percent); [contradiction|reflexivity].
    + destruct Gb as (_ & _ & Hb). rewrite E2 in Hb. split; [|tauto]. rewrite pget_apply, text_eqb_refl by now apply base_not_percent. reflexivity.
  - right. split; [exact I|]. exists a, b. split; [reflexivity|]. split; [exact Ga|]. split; [exact Gb|]. split; [exact E1|]. split; [exact E2|].
    split; [intros k _; unfold resolved; lia|]. split; reflexivity.
Qed.

(** multiplication *)
Lemma mul_spec a b : good a -> good b -> hints_agree a b ->
  exists c, multiply_types a b = Some c /\ good c /\ hint c = joint a b /\
    (forall k, In k base_keys -> pget c k = resolved (joint a b) a k + resolved (joint a b) b k) /\
    pget c percent = match joint a b with Some _ => 0 | None => pget a percent end.
Proof.
  intros Ga Gb A. destruct (merge_spec a b Ga Gb) as [[N _]|(_ & a' & b' & M & Ga' & Gb' & H1 & H2 & R & P)]; [contradiction|].
  unfold multiply_types. rewrite M. eexists. split; [reflexivity|].
  assert (G : forall k, pget (mkT (fold_left (fun d p => if mem (fst p) base_keys
     then dset d (fst p) (match dget d (fst p) with Some z => z | None => 0 end + snd p) else d) (pw b') (pw a')) (hint a')) k =
     pget a' k + if mem k base_keys then pget b' k else 0).
  { intros k. unfold pget at 1. cbn [pw]. apply mul_dget. apply Gb'. }
  assert (PP : pget a' percent = match joint a b with Some _ => 0 | None => pget a percent end).
  { destruct (joint a b); [tauto|]. destruct P as [-> _]. reflexivity. }
  split; [|split; [exact H1|split]].
  - split; [apply mul_ok; apply Ga'|]. split.
    + intros k I. cbn [pw] in I. apply mul_keys in I as [I|I]; [apply Ga' in I; exact I|now right].
    + cbn [hint]. rewrite G. rewrite H1. change (mem percent base_keys) with false. rewrite PP.
      destruct Ga' as (_ & _ & X). rewrite H1 in X. destruct (joint a b) as [h|]; [|exact I]. split; [tauto|lia].
  - intros k B. rewrite G, (proj2 (mem_in k base_keys) B). destruct (R k (base_not_percent k B)) as [-> ->]. reflexivity.
  - rewrite G. change (mem percent base_keys) with false. rewrite PP. lia.
Qed.
Lemma mul_none a b : good a -> good b -> ~ hints_agree a b -> multiply_types a b = None.
Proof. intros Ga Gb A. destruct (merge_spec a b Ga Gb) as [[_ M]|(A' & _)]; [|contradiction]. unfold multiply_types. now rewrite M. Qed.

(** addition *)
Lemma same_base_spec a b : same_base a b = true <-> forall k, In k base_keys -> pget a k = pget b k.
Proof.
  unfold same_base. rewrite !Bool.andb_true_iff, !forallb_forall. split.
  - intros [[_ _] H3] k I. specialize (H3 k I). destruct (Z.eqb_spec (pget a k) (pget b k)) as [E|E]; [exact E|].
    rewrite Bool.orb_false_r in H3. apply Bool.negb_true_iff, Bool.orb_false_iff in H3 as [X Y]. unfold pget.
    destruct (dget (pw a) k) as [x|], (dget (pw b) k) as [y|]; try (apply Bool.negb_false_iff, Z.eqb_eq in X); try (apply Bool.negb_false_iff, Z.eqb_eq in Y); congruence.
  - intros H. repeat split; intros k I; specialize (H k I); [| |rewrite H, Z.eqb_refl; apply Bool.orb_true_r]; unfold pget, dhas in *;
      destruct (dget (pw a) k) as [x|], (dget (pw b) k) as [y|]; cbn [negb orb]; try reflexivity; try (now rewrite Bool.orb_true_r); subst; reflexivity.
Qed.
Lemma other_entries_spec t k : In k base_keys -> pget t k <> 0 -> other_entries t = true.
Proof.
  intros B N. unfold other_entries. apply Bool.orb_true_iff. left. apply existsb_exists. unfold pget in N.
  destruct (dget (pw t) k) as [z|] eqn:E; [|congruence]. exists (k, z). split; [now apply dget_in|]. cbn [fst snd].
  apply base_not_percent in B. destruct (text_eqb_spec k percent); [contradiction|]. destruct (Z.eqb_spec z 0); [contradiction|reflexivity].
Qed.
Lemma level_same k rest a b : pget a k = pget b k -> level (k :: rest) a b = level rest a b.
Proof. intros E. cbn [level]. rewrite E, Z.eqb_refl, Bool.andb_false_r. cbv beta iota zeta. rewrite E, Z.eqb_refl. reflexivity. Qed.
Lemma level_equal order a b : (forall k, In k order -> pget a k = pget b k) -> level order a b = Some (a, b).
Proof.
  induction order as [|k rest IH]; intros H; [reflexivity|]. rewrite level_same by (apply H; now left).
  apply IH. intros j I. apply H. now right.
Qed.
Lemma differ v1 v2 : v1 <> v2 -> (negb (v1 =? 0) || negb (v2 =? 0)) && negb (v1 =? v2) = true.
Proof. intros N. destruct (Z.eqb_spec v1 0), (Z.eqb_spec v2 0), (Z.eqb_spec v1 v2); cbn; congruence. Qed.
Lemma level_stuck order a b k : ~ In percent order -> pget a percent = 0 -> pget b percent = 0 -> In k order -> pget a k <> pget b k ->
  level order a b = None.
Proof.
  intros NP Pa Pb. induction order as [|j rest IH]; intros I N; [destruct I|].
  destruct (Z.eq_dec (pget a j) (pget b j)) as [E|E].
  - rewrite level_same by exact E. destruct I as [->|I]; [contradiction|]. apply IH; auto. intros X. apply NP. now right.
  - cbn [level]. rewrite (differ _ _ E). assert (Nj : j <> percent) by (intros ->; apply NP; now left). rewrite !pget_apply by exact Nj.
    destruct (text_eqb_spec j percent); [contradiction|]. unfold resolved. rewrite text_eqb_refl, Pa, Pb.
    destruct (Z.eqb_spec (pget a j + 0) (pget b j + 0)); [lia|reflexivity].
Qed.
(* one differing base type, which the percentages make up for *)
Definition made_up (a b : ntype) (k : text) : Prop :=
  In k base_keys /\ pget a k <> pget b k /\ resolved (Some k) a k = resolved (Some k) b k /\ (forall j, In j base_keys -> j <> k -> pget a j = pget b j).
Lemma level_spec order a b : NoDup order -> (forall k, In k order -> In k base_keys) -> (forall k, In k base_keys -> pget a k <> pget b k -> In k order) ->
  (exists k, In k order /\ pget a k <> pget b k) ->
  (exists k, made_up a b k /\ level order a b = Some (apply_hint a k, apply_hint b k)) \/ ((forall k, ~ made_up a b k) /\ level order a b = None).
Proof.
  induction order as [|k rest IH]; intros D In1 In2 (x & Ix & Nx); [destruct Ix|]. inversion D as [|? ? Nk D']; subst.
  assert (NP : ~ In percent rest) by (intros X; apply (base_not_percent percent); [apply In1; now right|reflexivity]).
  destruct (Z.eq_dec (pget a k) (pget b k)) as [E|E].
  - rewrite level_same by exact E. apply IH; auto.
    + intros j I. apply In1. now right.
    + intros j B N. destruct (In2 j B N) as [->|I]; [contradiction|exact I].
    + destruct Ix as [->|Ix]; [contradiction|]. eauto.
  - cbn [level]. rewrite (differ _ _ E). assert (Bk : In k base_keys) by (apply In1; now left). assert (Nkp := base_not_percent k Bk).
    rewrite !pget_apply by exact Nkp. destruct (text_eqb_spec k percent); [contradiction|].
    destruct (Z.eqb_spec (resolved (Some k) a k) (resolved (Some k) b k)) as [R|R].
    + assert (Dec : (exists j, In j rest /\ pget a j <> pget b j) \/ (forall j, In j rest -> pget a j = pget b j)).
      { clear. induction rest as [|y rest IH]; [right; intros ? []|]. destruct IH as [(j & I & N)|H]; [left; exists j; split; [now right|exact N]|].
        destruct (Z.eq_dec (pget a y) (pget b y)) as [E|E]; [right; intros j [<-|I]; auto|left; exists y; split; [now left|exact E]]. }
      assert (Ap : forall t j, In j rest -> pget (apply_hint t k) j = pget t j).
      { intros t j I. rewrite pget_apply by exact Nkp. destruct (text_eqb_spec j percent) as [->|]; [contradiction|]. unfold resolved.
        destruct (text_eqb_spec k j) as [->|]; [contradiction|]. lia. }
      destruct Dec as [(j & I & N)|H].
      * right. split.
        { intros z (Z1 & Z2 & Z3 & Z4). destruct (text_eqb_spec z k) as [->|Nz].
          - apply N. apply Z4; [apply In1; now right|intros ->; contradiction].
          - apply E. apply Z4; [exact Bk|congruence]. }
        apply (level_stuck rest _ _ j); auto.
        { rewrite pget_apply, text_eqb_refl by exact Nkp. reflexivity. }
        { rewrite pget_apply, text_eqb_refl by exact Nkp. reflexivity. }
        { now rewrite !Ap. }
      * left. exists k. split.
        { repeat split; auto. intros j B Nj. destruct (Z.eq_dec (pget a j) (pget b j)) as [|Ne]; [assumption|]. exfalso.
          destruct (In2 j B Ne) as [->|I]; [congruence|]. apply Ne. now apply H. }
        apply level_equal. intros j I. now rewrite !Ap, H.
    + right. split; [|reflexivity]. intros z (Z1 & Z2 & Z3 & Z4). destruct (text_eqb_spec z k) as [->|Nz]; [contradiction|].
      apply E. apply Z4; [exact Bk|congruence].
Qed.

(* the result of an addition, whatever the order *)
Lemma add_spec o a b : some_order o -> good a -> good b ->
  (exists c, add_types o a b = Some c /\ hints_agree a b /\ good c /\
     ((hint c = joint a b /\ (forall k, In k base_keys -> resolved (joint a b) a k = resolved (joint a b) b k) /\
       (forall k, In k base_keys -> pget c k = resolved (joint a b) a k) /\
       pget c percent = match joint a b with Some _ => 0 | None => match dget (pw a) percent with Some p => p | None => pget b percent end end) \/
      (joint a b = None /\ exists k, hint c = Some k /\ made_up a b k /\ (forall j, In j base_keys -> pget c j = resolved (Some k) a j) /\ pget c percent = 0))) \/
  (add_types o a b = None /\ (~ hints_agree a b \/
     (~ (forall k, In k base_keys -> resolved (joint a b) a k = resolved (joint a b) b k) /\ (joint a b = None -> forall k, ~ made_up a b k)))).
Proof.
  intros Ho Ga Gb. unfold add_types.
  destruct (merge_spec a b Ga Gb) as [[N M]|(A & a' & b' & M & Ga' & Gb' & H1 & H2 & R & P)]; rewrite M; [right; auto|].
  destruct (same_base a' b') eqn:S.
  - left. rewrite same_base_spec in S. eexists. split; [reflexivity|]. split; [exact A|].
    assert (PG : forall k, pget (mkT (fill_missing (fun _ => true) (pw a') (pw b')) (match hint a' with Some h => Some h | None => hint b' end)) k =
                 match dget (pw a') k with Some v => v | None => pget b' k end).
    { intros k. unfold pget. cbn [pw]. rewrite fill_dget by apply Gb'. destruct (dget (pw a') k); [reflexivity|]. destruct (dget (pw b') k); reflexivity. }
    assert (HH : match hint a' with Some h => Some h | None => hint b' end = joint a b) by (rewrite H1, H2; destruct (joint a b); reflexivity).
    assert (PC : pget (mkT (fill_missing (fun _ => true) (pw a') (pw b')) (match hint a' with Some h => Some h | None => hint b' end)) percent =
       match joint a b with Some _ => 0 | None => match dget (pw a) percent with Some p => p | None => pget b percent end end).
    { rewrite PG. destruct (joint a b); [|destruct P as [-> ->]; reflexivity]. destruct P as [P1 P2]. unfold pget in P1. destruct (dget (pw a') percent); assumption. }
    split.
    + split; [apply fill_ok; apply Ga'|]. split.
      * intros k I. cbn [pw] in I. apply fill_keys in I as [I|I]; [now apply Ga'|now apply Gb'].
      * cbn [hint]. rewrite PC, HH. destruct Ga' as (_ & _ & X). rewrite H1 in X. destruct (joint a b); [|exact I]. tauto.
    + left. cbn [hint]. split; [exact HH|]. split; [|split; [|exact PC]].
      * intros k B. destruct (R k (base_not_percent k B)) as [<- <-]. now apply S.
      * intros k B. rewrite PG. destruct (R k (base_not_percent k B)) as [<- _]. rewrite <- (S k B). unfold pget. destruct (dget (pw a') k); reflexivity.
  - assert (S' : exists k, In k base_keys /\ pget a' k <> pget b' k).
    { apply Bool.not_true_iff_false in S. rewrite same_base_spec in S.
      assert (Dec : forall l, (exists k, In k l /\ pget a' k <> pget b' k) \/ (forall k, In k l -> pget a' k = pget b' k)).
      { clear. induction l as [|y l IH]; [right; intros ? []|]. destruct IH as [(j & I & N)|H]; [left; exists j; split; [now right|exact N]|].
        destruct (Z.eq_dec (pget a' y) (pget b' y)) as [E|E]; [right; intros j [<-|I]; auto|left; exists y; split; [now left|exact E]]. }
      destruct (Dec base_keys) as [H|H]; [exact H|contradiction]. }
    assert (NR : ~ (forall k, In k base_keys -> resolved (joint a b) a k = resolved (joint a b) b k)).
    { destruct S' as (k & B & N). intros H. apply N. destruct (R k (base_not_percent k B)) as [-> ->]. now apply H. }
    destruct ((negb (pget a' percent =? 0) || negb (pget b' percent =? 0)) && (other_entries a' || other_entries b')) eqn:Q.
    + apply Bool.andb_true_iff in Q as [Q _].
      assert (J : joint a b = None).
      { destruct (joint a b); [|reflexivity]. destruct P as [P1 P2]. rewrite P1, P2 in Q. discriminate. }
      rewrite J in *. destruct P as [-> ->].
      assert (Ho' : Permutation o base_keys) by exact Ho.
      destruct (level_spec o a b) as [(k & Mk & L)|(Mk & L)].
      * apply (Permutation_NoDup (Permutation_sym Ho')). apply (NoDup_nodup (list_eq_dec N.eq_dec) base_keys).
      * intros k I. apply (Permutation_in _ Ho' I).
      * intros k B _. apply (Permutation_in _ (Permutation_sym Ho') B).
      * destruct S' as (k & B & N). exists k. split; [|exact N]. apply (Permutation_in _ (Permutation_sym Ho') B).
      * rewrite L. left. eexists. split; [reflexivity|]. split; [exact A|].
        destruct (Mk) as (B & N & E & O). assert (Nkp := base_not_percent k B).
        assert (Gk := apply_good a k Ga B). assert (Gk2 := apply_good b k Gb B).
        assert (PG : forall j, In j base_keys \/ j = percent ->
           pget (mkT (fill_missing (fun p => mem (fst p) base_keys && negb (snd p =? 0)) (pw (apply_hint a k)) (pw (apply_hint b k))) (hint (apply_hint a k))) j = pget (apply_hint a k) j).
        { intros j Bj. unfold pget at 1. cbn [pw]. rewrite fill_dget by apply Gk2. unfold pget. destruct (dget (pw (apply_hint a k)) j) eqn:Dj; [reflexivity|].
          destruct (dget (pw (apply_hint b k)) j) as [v|] eqn:Ej; [|reflexivity]. cbn [fst snd].
          destruct (mem j base_keys) eqn:Mj; [|reflexivity]. cbn [andb]. apply mem_in in Mj. destruct (Z.eqb_spec v 0); [reflexivity|]. cbn [negb].
          assert (X : pget (apply_hint a k) j = pget (apply_hint b k) j).
          { rewrite !pget_apply by exact Nkp. apply base_not_percent in Mj as Mj'. destruct (text_eqb_spec j percent); [contradiction|].
            destruct (text_eqb_spec j k) as [->|Njk]; [exact E|]. unfold resolved. destruct (text_eqb_spec k j); [congruence|]. rewrite O by assumption. reflexivity. }
          unfold pget in X. rewrite Dj, Ej in X. exact (eq_sym X). }
        assert (PC : pget (apply_hint a k) percent = 0) by (rewrite pget_apply, text_eqb_refl by exact Nkp; reflexivity).
        split.
        { split; [apply fill_ok; apply Gk|]. split.
          - intros j I. cbn [pw] in I. apply fill_keys in I as [I|I]; [now apply Gk|now apply Gk2].
          - cbn [hint apply_hint]. split; [exact B|]. etransitivity; [apply PG; now right|exact PC]. }
        right. split; [reflexivity|]. exists k. split; [reflexivity|]. split; [exact Mk|]. split.
        { intros j Bj. rewrite PG by now left. rewrite pget_apply by exact Nkp. apply base_not_percent in Bj. destruct (text_eqb_spec j percent); [contradiction|reflexivity]. }
        { rewrite PG by now right. exact PC. }
      * rewrite L. right. split; [reflexivity|]. right. split; [exact NR|]. intros _. exact Mk.
    + right. split; [reflexivity|]. right. split; [exact NR|]. intros J k (B & N & E & O). rewrite J in P. destruct P as [-> ->].
      apply Bool.andb_false_iff in Q as [Q|Q].
      * apply Bool.orb_false_iff in Q as [Q1 Q2]. apply Bool.negb_false_iff, Z.eqb_eq in Q1. apply Bool.negb_false_iff, Z.eqb_eq in Q2.
        unfold resolved in E. rewrite text_eqb_refl, Q1, Q2 in E. lia.
      * apply Bool.orb_false_iff in Q as [Q1 Q2]. destruct (Z.eq_dec (pget a k) 0) as [E0|E0].
        { rewrite (other_entries_spec b k B) in Q2 by congruence. discriminate. }
        { rewrite (other_entries_spec a k B E0) in Q1. discriminate. }
Qed.
Lemma good_teq a b : good a -> good b -> hint a = hint b -> (forall k, In k base_keys -> pget a k = pget b k) -> pget a percent = pget b percent -> teq a b.
Proof.
  intros Ga Gb H B P. split; [|exact H]. apply key_cases; [exact P|exact B|]. intros k N1 N2. now rewrite !good_outside by assumption.
Qed.
Lemma made_up_unique a b k j : made_up a b k -> made_up a b j -> k = j.
Proof. intros (B & N & _ & _) (_ & _ & _ & O). destruct (text_eqb_spec k j); [assumption|]. exfalso. apply N. now apply O. Qed.

(** inversion *)
Lemma invert_pget t k : pget (invert_type t) k = - pget t k.
Proof.
  unfold pget, invert_type. cbn [pw]. induction (pw t) as [|[j v] d IH]; [reflexivity|]. cbn [map dget fst snd]. destruct (text_eqb j k); [reflexivity|exact IH].
Qed.
Lemma invert_good t : good t -> hint t = None -> good (invert_type t).
Proof.
  intros (D & K & _) H. unfold invert_type. rewrite H. unfold good. cbn [pw hint].
  assert (E : dkeys (map (fun p : text * Z => (fst p, - snd p)) (pw t)) = dkeys (pw t)) by (unfold dkeys; rewrite map_map; reflexivity).
  split; [unfold dict_ok; rewrite E; exact D|]. split; [rewrite E; exact K|exact I].
Qed.
