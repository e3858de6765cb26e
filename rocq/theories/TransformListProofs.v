(** Proofs for C11. *)
From Verif Require Import PyBase PyList TransformListModel TransformListSpec.
Local Open Scope Z_scope.

Lemma norm_index_some n i k : norm_index n i = Some k ->
  (k < n)%nat /\ (i = Z.of_nat k \/ i = Z.of_nat k - Z.of_nat n).
Proof.
  unfold norm_index. destruct (Z.ltb_spec i 0).
  - destruct ((0 <=? i + Z.of_nat n) && (i + Z.of_nat n <? Z.of_nat n)) eqn:E; [|discriminate].
    intros [= <-]. apply andb_prop in E as [E1 E2]. lia.
  - destruct ((0 <=? i) && (i <? Z.of_nat n)) eqn:E; [|discriminate].
    intros [= <-]. apply andb_prop in E as [E1 E2]. lia.
Qed.
Lemma norm_index_none n i : norm_index n i = None -> i < - Z.of_nat n \/ Z.of_nat n <= i.
Proof.
  unfold norm_index. destruct (Z.ltb_spec i 0);
  match goal with |- context [if ?b then _ else _] => destruct b eqn:E end; try discriminate;
  intros _; apply andb_false_iff in E as [E|E]; lia.
Qed.
Lemma norm_index_nat n k : (k < n)%nat -> norm_index n (Z.of_nat k) = Some k.
Proof.
  intros H. unfold norm_index. destruct (Z.ltb_spec (Z.of_nat k) 0); [lia|].
  destruct ((0 <=? Z.of_nat k) && (Z.of_nat k <? Z.of_nat n)) eqn:E.
  - f_equal. lia.
  - apply andb_false_iff in E as [E|E]; lia.
Qed.

Lemma split_at {A} (l : list A) k : (k < length l)%nat ->
  exists x, nth_error l k = Some x /\ l = firstn k l ++ x :: skipn (S k) l /\ length (firstn k l) = k.
Proof.
  intros H. destruct (nth_error l k) as [x|] eqn:E; [|apply nth_error_None in E; lia].
  exists x. split; [reflexivity|]. split; [|rewrite firstn_length; lia].
  clear H. revert k E. induction l as [|y l IH]; intros [|k] E; cbn in *; try discriminate.
  - congruence.
  - f_equal. now apply IH.
Qed.
Lemma at_index_intro l i k : norm_index (length l) i = Some k ->
  exists x, nth_error l k = Some x /\ at_index l i (firstn k l) x (skipn (S k) l).
Proof.
  intros H. apply norm_index_some in H as [Hk Hi]. destruct (split_at l k Hk) as (x & E1 & E2 & E3).
  exists x. split; [exact E1|]. split; [exact E2|]. rewrite E3.
  assert (L : length l = (k + length (x :: skipn (S k) l))%nat).
  { rewrite E2 at 1. rewrite app_length, E3. reflexivity. }
  destruct Hi as [->|Hi]; [left; reflexivity|right]. rewrite Hi, L. lia.
Qed.
Lemma cut_intro l i : cut l i (firstn (clamp_index (length l) i) l) (skipn (clamp_index (length l) i) l).
Proof.
  unfold cut. split; [symmetry; apply firstn_skipn|]. rewrite firstn_length, skipn_length.
  unfold clamp_index. destruct (Z.ltb_spec i 0) as [Hi|Hi].
  - right. split; [exact Hi|]. destruct (Z.ltb_spec (i + Z.of_nat (length l)) 0); [|left].
    + right. split; [reflexivity|lia].
    + destruct (Z.ltb_spec (Z.of_nat (length l)) (i + Z.of_nat (length l))); lia.
  - left. split; [exact Hi|]. destruct (Z.ltb_spec i 0); [lia|].
    destruct (Z.ltb_spec (Z.of_nat (length l)) i).
    + right. split; [|lia]. apply skipn_all.
    + left. lia.
Qed.
Lemma clamp_le n i : (clamp_index n i <= n)%nat.
Proof.
  unfold clamp_index. destruct (Z.ltb_spec i 0).
  - destruct (Z.ltb_spec (i + Z.of_nat n) 0); [lia|]. destruct (Z.ltb_spec (Z.of_nat n) (i + Z.of_nat n)); lia.
  - destruct (Z.ltb_spec i 0); [lia|]. destruct (Z.ltb_spec (Z.of_nat n) i); lia.
Qed.

(** *** the loops *)
Lemma pop_last l x : tl_pop (l ++ [x]) (-1) = (l, Ok (Some x)).
Proof.
  assert (E : norm_index (length (l ++ [x])) (-1) = Some (length l)).
  { rewrite app_length. unfold norm_index; cbn [length].
    change (-1 <? 0) with true. cbv iota.
    destruct ((0 <=? -1 + Z.of_nat (length l + 1)) && (-1 + Z.of_nat (length l + 1) <? Z.of_nat (length l + 1))) eqn:E.
    - f_equal. lia.
    - apply andb_false_iff in E as [E|E]; [apply Z.leb_gt in E|apply Z.ltb_ge in E]; lia. }
  unfold tl_pop, list_get, list_del. rewrite E.
  rewrite nth_error_app2, Nat.sub_diag by lia. cbn [nth_error].
  rewrite firstn_app, firstn_all, Nat.sub_diag. cbn [firstn]. rewrite app_nil_r.
  rewrite skipn_all2 by (rewrite app_length; cbn; lia). rewrite app_nil_r. reflexivity.
Qed.
Lemma pop_empty i : tl_pop [] i = ([], Err IndexError).
Proof.
  unfold tl_pop, list_get. destruct (norm_index (length (@nil obj)) i) eqn:E; [|reflexivity].
  apply norm_index_some in E as [E _]. cbn in E. lia.
Qed.
Lemma clear_loop_nil l : forall fuel, (length l < fuel)%nat -> clear_loop fuel l = [].
Proof.
  induction l as [|x l IH] using rev_ind; intros fuel H.
  - destruct fuel; [lia|]. cbn [clear_loop]. now rewrite pop_empty.
  - rewrite app_length in H; cbn in H. destruct fuel; [lia|]. cbn [clear_loop].
    rewrite pop_last. apply IH. lia.
Qed.
Lemma tl_clear_nil l : tl_clear l = [].
Proof. apply clear_loop_nil. lia. Qed.

Lemma extend_ok xs : forall l, forallb is_transform xs = true -> tl_extend l xs = (l ++ xs, Ok None).
Proof.
  induction xs as [|x xs IH]; intros l; cbn [forallb tl_extend]; [intros _; now rewrite app_nil_r|].
  intros H; apply andb_prop in H as [H1 H2]. unfold tl_append. rewrite H1, IH by exact H2.
  rewrite <- app_assoc. reflexivity.
Qed.
Lemma extend_bad xs : forall l, forallb is_transform xs = false ->
  exists a n b, xs = a ++ Other n :: b /\ forallb is_transform a = true /\
                tl_extend l xs = (l ++ a, Err TypeError).
Proof.
  induction xs as [|x xs IH]; intros l; cbn [forallb tl_extend]; [discriminate|]. unfold tl_append.
  destruct x as [n|n]; cbn [is_transform andb]; intros H.
  - destruct (IH (l ++ [Tr n]) H) as (a & m & b & E1 & E2 & E3).
    exists (Tr n :: a), m, b. split; [now rewrite E1|]. split; [exact E2|].
    rewrite E3, <- app_assoc. reflexivity.
  - exists [], n, xs. rewrite app_nil_r. repeat split; auto.
Qed.

Lemma obj_eqb_spec x y : reflect (x = y) (obj_eqb x y).
Proof.
  destruct x as [a|a], y as [b|b]; cbn; try (constructor; congruence);
    destruct (Nat.eqb_spec a b); constructor; congruence.
Qed.
Lemma index_of_some x l : forall k j, index_of x l k = Some j ->
  exists a b, l = a ++ x :: b /\ ~ In x a /\ j = (k + length a)%nat.
Proof.
  induction l as [|y l IH]; intros k j; cbn [index_of]; [discriminate|].
  destruct (obj_eqb_spec y x) as [->|H].
  - intros [= <-]. exists [], l. repeat split; auto; cbn; lia.
  - intros E. apply IH in E as (a & b & -> & Ha & ->). exists (y :: a), b.
    split; [reflexivity|]. split; [intros [|]; auto|cbn; lia].
Qed.
Lemma index_of_none x l : forall k, index_of x l k = None -> ~ In x l.
Proof.
  induction l as [|y l IH]; intros k; cbn [index_of]; [auto|].
  destruct (obj_eqb_spec y x) as [->|H]; [discriminate|]. intros E [|]; [auto|]. now apply IH in E.
Qed.

(** reverse by swapping pairs from the outside *)
Lemma list_set_mid {A} (a b : list A) x y : list_set (a ++ x :: b) (Z.of_nat (length a)) y = Ok (a ++ y :: b).
Proof.
  unfold list_set. rewrite norm_index_nat by (rewrite app_length; cbn; lia).
  rewrite firstn_app, firstn_all, Nat.sub_diag. cbn [firstn]. rewrite app_nil_r.
  rewrite skipn_app, skipn_all2, Nat.sub_succ_l, Nat.sub_diag by lia. reflexivity.
Qed.
Lemma list_get_mid {A} (a b : list A) x : list_get (a ++ x :: b) (Z.of_nat (length a)) = Ok x.
Proof.
  unfold list_get. rewrite norm_index_nat by (rewrite app_length; cbn; lia).
  rewrite nth_error_app2, Nat.sub_diag by lia. reflexivity.
Qed.
Lemma swap_ends p m q x y : is_transform x = true -> is_transform y = true -> length p = length q ->
  swap_step (length (p ++ x :: m ++ y :: q)) (p ++ x :: m ++ y :: q) (length p) = p ++ y :: m ++ x :: q.
Proof.
  intros Hx Hy Hl. unfold swap_step.
  assert (EB : Z.of_nat (length (p ++ x :: m ++ y :: q)) - Z.of_nat (length p) - 1 = Z.of_nat (length (p ++ x :: m))).
  { rewrite !app_length; cbn [length]; rewrite !app_length; cbn [length]. lia. }
  rewrite EB. replace (p ++ x :: m ++ y :: q) with ((p ++ x :: m) ++ y :: q) at 1 by (rewrite <- app_assoc; reflexivity).
  rewrite list_get_mid, list_get_mid. unfold tl_set. rewrite Hx, Hy, list_set_mid. cbn [fst].
  replace (length (p ++ x :: m)) with (length (p ++ y :: m)) by (rewrite !app_length; reflexivity).
  replace (p ++ y :: m ++ y :: q) with ((p ++ y :: m) ++ y :: q) by (rewrite <- app_assoc; reflexivity).
  rewrite list_set_mid. cbn [fst]. rewrite <- app_assoc. reflexivity.
Qed.
(* a list with at least two elements has two ends *)
Lemma two_ends {A} (l : list A) : (2 <= length l)%nat -> exists x m y, l = x :: m ++ [y].
Proof.
  destruct l as [|x l]; cbn; [lia|]. destruct l as [|z l] using rev_ind; cbn; [lia|].
  intros _. exists x, l, z. reflexivity.
Qed.
Lemma reverse_loop : forall k p m q, length m = k -> length p = length q -> 
  Forall (fun x => is_transform x = true) m ->
  fold_left (swap_step (length (p ++ m ++ q))) (seq (length p) (Nat.div2 (length m))) (p ++ m ++ q)
  = p ++ rev m ++ q.
Proof.
  intros k. induction k as [k IH] using lt_wf_ind. intros p m q Hk Hl Ht.
  destruct (le_lt_dec 2 (length m)) as [H2|H2].
  - destruct (two_ends m H2) as (x & m' & y & ->). inversion Ht as [|? ? Hx Ht']; subst.
    apply Forall_app in Ht' as [Hm Hy]. inversion Hy as [|? ? Hy' _]; subst.
    replace (Nat.div2 (length (x :: m' ++ [y]))) with (S (Nat.div2 (length m'))).
    2: { cbn [length]. rewrite app_length; cbn [length]. rewrite Nat.add_1_r. reflexivity. }
    cbn [seq fold_left].
    replace (p ++ (x :: m' ++ [y]) ++ q) with (p ++ x :: m' ++ y :: q)
      by (cbn [app]; rewrite <- app_assoc; reflexivity).
    rewrite swap_ends by assumption.
    specialize (IH (length m') ltac:(cbn [length]; rewrite app_length; cbn; lia) (p ++ [y]) m' (x :: q)
                  eq_refl ltac:(rewrite app_length; cbn; lia) Hm).
    rewrite <- !app_assoc in IH. cbn [app] in IH.
    replace (length (p ++ [y])) with (S (length p)) in IH by (rewrite app_length; cbn; lia).
    replace (length (p ++ x :: m' ++ y :: q)) with (length (p ++ y :: m' ++ x :: q))
      by (rewrite !app_length; cbn [length]; rewrite !app_length; reflexivity).
    rewrite IH. cbn [rev]. rewrite rev_app_distr. cbn [rev app]. rewrite <- !app_assoc. reflexivity.
  - destruct m as [|x [|y m]]; cbn in H2; try lia; reflexivity.
Qed.
Lemma tl_reverse_rev l : Forall (fun x => is_transform x = true) l -> tl_reverse l = rev l.
Proof.
  intros H. pose proof (reverse_loop (length l) [] l [] eq_refl eq_refl H) as R.
  cbn [app length] in R. rewrite !app_nil_r in R. exact R.
Qed.

(** *** the steps *)
Lemma firstn_max {A} (l : list A) a b : (a <= b)%nat -> firstn b l = firstn a l ++ firstn (b - a) (skipn a l).
Proof.
  revert a b. induction l as [|x l IH]; intros a b H.
  - rewrite skipn_nil, !firstn_nil. reflexivity.
  - destruct a as [|a]; [cbn [firstn skipn app]; now rewrite Nat.sub_0_r|].
    destruct b as [|b]; [lia|]. cbn [firstn skipn app Nat.sub]. f_equal. apply IH. lia.
Qed.
Lemma skipn_skipn_sub {A} (l : list A) a b : (a <= b)%nat -> skipn (b - a) (skipn a l) = skipn b l.
Proof.
  revert a b. induction l as [|x l IH]; intros a b H.
  - now rewrite !skipn_nil.
  - destruct a as [|a]; [cbn [skipn]; now rewrite Nat.sub_0_r|].
    destruct b as [|b]; [lia|]. cbn [skipn Nat.sub]. apply IH. lia.
Qed.

Lemma slice_accepts l i j xs :
  (exists a m b a', cut l i a (m ++ b) /\ cut l j a' b /\ a' = a ++ m /\ list_set_slice l i j xs = a ++ xs ++ b) \/
  (exists a b a' b', cut l i a b /\ cut l j a' b' /\ (length a' <= length a)%nat /\ list_set_slice l i j xs = a ++ xs ++ b).
Proof.
  unfold list_set_slice. pose proof (cut_intro l i) as Ci. pose proof (cut_intro l j) as Cj.
  pose proof (clamp_le (length l) i) as Li. pose proof (clamp_le (length l) j) as Lj.
  set (a := clamp_index (length l) i) in *. set (b := clamp_index (length l) j) in *.
  destruct (le_lt_dec a b) as [H|H].
  - left. exists (firstn a l), (firstn (b - a) (skipn a l)), (skipn b l), (firstn b l).
    rewrite <- (skipn_skipn_sub l a b H) at 1. rewrite firstn_skipn.
    split; [exact Ci|]. split; [exact Cj|]. split; [now apply firstn_max|]. now rewrite Nat.max_r by lia.
  - right. exists (firstn a l), (skipn a l), (firstn b l), (skipn b l).
    split; [exact Ci|]. split; [exact Cj|]. split; [rewrite !firstn_length; lia|]. now rewrite Nat.max_l by lia.
Qed.

Lemma forallb_Forall l : forallb is_transform l = true <-> Forall (fun x => is_transform x = true) l.
Proof. rewrite forallb_forall, Forall_forall. reflexivity. Qed.
Lemma bad_in l : forallb is_transform l = false -> exists n, In (Other n) l.
Proof.
  induction l as [|x l IH]; cbn [forallb]; [discriminate|]. destruct x as [n|n]; cbn [is_transform andb].
  - intros H. destruct (IH H) as [m Hm]. exists m; now right.
  - intros _. exists n; now left.
Qed.

Lemma step_accepts l op l' r : Forall (fun x => is_transform x = true) l ->
  tl_step l op = (l', Ok r) -> accepts l op l' r.
Proof.
  intros Hl. destruct op; cbn [tl_step].
  - unfold tl_append. destruct x; cbn; [intros [= <- <-]; constructor|discriminate].
  - unfold tl_append_item, tl_append. destruct x; cbn; [intros [= <- <-]; constructor|discriminate].
  - unfold tl_insert. destruct x; cbn; [|discriminate]. intros [= <- <-]. constructor. apply cut_intro.
  - unfold tl_insert_before, tl_insert. destruct x; cbn; [|discriminate]. intros [= <- <-]. constructor. apply cut_intro.
  - unfold tl_set, list_set. destruct x; cbn; [|discriminate].
    destruct (norm_index (length l) i) as [k|] eqn:E; [|discriminate]. intros [= <- <-].
    destruct (at_index_intro l i k E) as (x & _ & H). eapply A_set; exact H.
  - unfold tl_replace, tl_set, list_set. destruct x; cbn; [|discriminate].
    destruct (norm_index (length l) i) as [k|] eqn:E; [|discriminate]. intros [= <- <-].
    destruct (at_index_intro l i k E) as (x & _ & H). eapply A_replace; exact H.
  - unfold tl_set_slice. destruct (forallb is_transform xs) eqn:E; [|discriminate]. intros [= <- <-].
    apply forallb_Forall in E.
    destruct (slice_accepts l i j xs) as [(a & m & b & a' & C1 & C2 & C3 & ->)|(a & b & a' & b' & C1 & C2 & C3 & ->)].
    + eapply A_set_slice; eassumption.
    + eapply A_set_slice_empty; eassumption.
  - unfold tl_del, list_del. destruct (norm_index (length l) i) as [k|] eqn:E; [|discriminate]. intros [= <- <-].
    destruct (at_index_intro l i k E) as (x & _ & H). eapply A_del; exact H.
  - unfold tl_del_slice. intros [= <- <-].
    destruct (slice_accepts l i j []) as [(a & m & b & a' & C1 & C2 & C3 & ->)|(a & b & a' & b' & C1 & C2 & C3 & ->)].
    + eapply A_del_slice; eassumption.
    + cbn [app]. replace (a ++ b) with l by (destruct C1 as [E _]; exact E). eapply A_del_slice_empty; eassumption.
  - unfold tl_pop, list_get, list_del. destruct (norm_index (length l) i) as [k|] eqn:E; [|discriminate].
    destruct (at_index_intro l i k E) as (x & N & H). rewrite N. intros [= <- <-]. now apply A_remove_item.
  - unfold tl_pop, list_get, list_del. destruct (norm_index (length l) i) as [k|] eqn:E; [|discriminate].
    destruct (at_index_intro l i k E) as (x & N & H). rewrite N. intros [= <- <-]. now apply A_pop.
  - rewrite tl_clear_nil. intros [= <- <-]. constructor.
  - rewrite tl_reverse_rev by exact Hl. intros [= <- <-]. constructor.
  - destruct (forallb is_transform xs) eqn:E.
    + rewrite extend_ok by exact E. intros [= <- <-]. constructor. now apply forallb_Forall.
    + destruct (extend_bad xs l E) as (a & n & b & _ & _ & ->). discriminate.
  - unfold tl_remove. destruct (index_of x l 0) as [k|] eqn:E; [|discriminate].
    apply index_of_some in E as (a & b & -> & Ha & ->). cbn [Nat.add].
    unfold tl_del, list_del. rewrite norm_index_nat by (rewrite app_length; cbn; lia).
    rewrite firstn_app, firstn_all, Nat.sub_diag. cbn [firstn]. rewrite app_nil_r.
    rewrite skipn_app, skipn_all2, Nat.sub_succ_l, Nat.sub_diag by lia. cbn [skipn app].
    intros [= <- <-]. now constructor.
  - unfold tl_initialize, tl_append. rewrite tl_clear_nil. destruct x; cbn; [|discriminate].
    intros [= <- <-]. constructor.
Qed.

Lemma step_rejects l op l' e : tl_step l op = (l', Err e) ->
  rejects l op e /\ (leaky op = false -> l' = l).
Proof.
  destruct op; cbn [tl_step leaky].
  - unfold tl_append. destruct x; cbn; [discriminate|]. intros [= <- <-]. split; [constructor|auto].
  - unfold tl_append_item, tl_append. destruct x; cbn; [discriminate|]. intros [= <- <-]. split; [constructor|auto].
  - unfold tl_insert. destruct x; cbn; [discriminate|]. intros [= <- <-]. split; [constructor|auto].
  - unfold tl_insert_before, tl_insert. destruct x; cbn; [discriminate|]. intros [= <- <-]. split; [constructor|auto].
  - unfold tl_set, list_set. destruct x; cbn; [|intros [= <- <-]; split; [constructor|auto]].
    destruct (norm_index (length l) i) as [k|] eqn:E; [discriminate|]. intros [= <- <-].
    split; [constructor; now apply norm_index_none|auto].
  - unfold tl_replace, tl_set, list_set. destruct x; cbn; [|intros [= <- <-]; split; [constructor|auto]].
    destruct (norm_index (length l) i) as [k|] eqn:E; [discriminate|]. intros [= <- <-].
    split; [constructor; now apply norm_index_none|auto].
  - unfold tl_set_slice. destruct (forallb is_transform xs) eqn:E; [discriminate|]. intros [= <- <-].
    apply bad_in in E as [n Hn]. split; [econstructor; exact Hn|auto].
  - unfold tl_del, list_del. destruct (norm_index (length l) i) as [k|] eqn:E; [discriminate|]. intros [= <- <-].
    split; [constructor; now apply norm_index_none|auto].
  - discriminate.
  - unfold tl_pop, list_get, list_del. destruct (norm_index (length l) i) as [k|] eqn:E.
    + destruct (at_index_intro l i k E) as (x & N & H). rewrite N. discriminate.
    + intros [= <- <-]. split; [constructor; now apply norm_index_none|auto].
  - unfold tl_pop, list_get, list_del. destruct (norm_index (length l) i) as [k|] eqn:E.
    + destruct (at_index_intro l i k E) as (x & N & H). rewrite N. discriminate.
    + intros [= <- <-]. split; [constructor; now apply norm_index_none|auto].
  - discriminate.
  - discriminate.
  - destruct (forallb is_transform xs) eqn:E.
    + rewrite extend_ok by exact E. discriminate.
    + destruct (extend_bad xs l E) as (a & n & b & Ex & _ & ->). intros [= <- <-].
      split; [|discriminate]. eapply R_extend. rewrite Ex. apply in_or_app; right; left; reflexivity.
  - unfold tl_remove. destruct (index_of x l 0) as [k|] eqn:E.
    + apply index_of_some in E as (a & b & -> & Ha & ->). cbn [Nat.add].
      unfold tl_del, list_del. rewrite norm_index_nat by (rewrite app_length; cbn; lia). discriminate.
    + intros [= <- <-]. split; [constructor; eapply index_of_none; exact E|auto].
  - unfold tl_initialize, tl_append. destruct x; cbn; [discriminate|]. intros [= <- <-].
    split; [constructor|discriminate].
Qed.

Lemma accepts_typed l op l' r : accepts l op l' r ->
  Forall (fun x => is_transform x = true) l -> Forall (fun x => is_transform x = true) l'.
Proof.
  intros H Hl. destruct H; auto.
  all: repeat match goal with
       | H : cut _ _ _ _ |- _ => destruct H as [? _]; subst
       | H : at_index _ _ _ _ _ |- _ => destruct H as [? _]; subst
       end.
  all: repeat match goal with
       | H : Forall _ (_ ++ _) |- _ => apply Forall_app in H as [? ?]
       | H : Forall _ (_ :: _) |- _ => inversion H; clear H; subst
       end.
  all: try (apply Forall_rev; assumption).
  all: repeat (first [apply Forall_app; split | apply Forall_cons | assumption | apply Forall_nil | reflexivity]).
  all: match goal with
       | E : ?u ++ ?v = ?a ++ ?b, Hu : Forall _ ?u, Hv : Forall _ ?v |- _ =>
           pose proof (proj2 (Forall_app _ u v) (conj Hu Hv)) as HH; rewrite E in HH;
           apply Forall_app in HH as [? ?]; assumption
       end.
Qed.
Lemma step_typed l op : Forall (fun x => is_transform x = true) l ->
  Forall (fun x => is_transform x = true) (fst (tl_step l op)).
Proof.
  intros Hl. destruct (tl_step l op) as [l' [r|e]] eqn:E; cbn [fst].
  - eapply accepts_typed; [eapply step_accepts; eassumption|exact Hl].
  - destruct (leaky op) eqn:K.
    + destruct op; try discriminate K; cbn [tl_step leaky] in *.
      * apply negb_true_iff in K. destruct (extend_bad xs l K) as (a & n & b & _ & Ha & Ee).
        rewrite Ee in E. injection E as <- _. apply Forall_app; split; [exact Hl|now apply forallb_Forall].
      * unfold tl_initialize, tl_append in E. rewrite tl_clear_nil in E. destruct x; [discriminate|].
        cbn in E. injection E as <- _. constructor.
    + apply step_rejects in E as [_ H]. now rewrite (H K).
Qed.
Lemma history_typed ops : forall l, Forall (fun x => is_transform x = true) l ->
  Forall (fun x => is_transform x = true) (runs (fun l op => fst (tl_step l op)) ops l).
Proof. apply runs_inv. intros l op. apply step_typed. Qed.

(** what the rejected leaky operations leave behind *)
Lemma leaky_extend l xs l' e : tl_step l (Extend xs) = (l', Err e) ->
  exists a n b, xs = a ++ Other n :: b /\ Forall (fun x => is_transform x = true) a /\ l' = l ++ a.
Proof.
  cbn [tl_step]. destruct (forallb is_transform xs) eqn:E.
  - rewrite extend_ok by exact E. discriminate.
  - destruct (extend_bad xs l E) as (a & n & b & Ex & Ha & ->). intros [= <- <-].
    exists a, n, b. rewrite <- forallb_Forall. auto.
Qed.
Lemma leaky_initialize l x l' e : tl_step l (Initialize x) = (l', Err e) -> l' = [].
Proof.
  cbn [tl_step]. unfold tl_initialize, tl_append. rewrite tl_clear_nil.
  destruct x; cbn; [discriminate|]. now intros [= <- <-].
Qed.
