(** The counts of native objects balance. *)
From Coq Require Import Lia.
From Verif Require Import PyBase NativeModel NativeSpec.
#[local] Open Scope nat_scope.

Definition is1 (a b : nat) : nat := if Nat.eqb a b then 1 else 0.
Definition own1 (k : kind) (m : nat) : nat := match owned k with Some x => is1 x m | None => 0 end.
Definition keys (h : heap) := map fst h.
Record Good (h : heap) (R : nat -> nat) : Prop := mkGood {
  g_nodup : NoDup (keys h);
  g_bal : forall n, count h n = R n + owners h n;
  g_pos : forall n c k, find h n = Some (c, k) -> c <> 0 }.
Lemma is1_same : forall a, is1 a a = 1. Proof. intros. unfold is1. now rewrite Nat.eqb_refl. Qed.
Lemma is1_ne : forall a b, a <> b -> is1 a b = 0. Proof. intros a b H. unfold is1. destruct (Nat.eqb_spec a b); congruence. Qed.
Lemma good_ext : forall h R R', (forall n, R n = R' n) -> Good h R -> Good h R'.
Proof. intros h R R' E [A B C]. constructor; auto. intros n. rewrite <- E. auto. Qed.

(** ** The heap *)
Lemma find_in : forall h n x, find h n = Some x -> In (n, x) h.
Proof. induction h as [|[m y] h IH]; cbn; intros n x H; [discriminate|]. destruct (Nat.eqb_spec m n); [left; congruence|right; auto]. Qed.
Lemma find_key : forall h n, find h n <> None <-> In n (keys h).
Proof.
  induction h as [|[m y] h IH]; cbn; intros n; [tauto|]. destruct (Nat.eqb_spec m n); [split; [auto|discriminate]|].
  rewrite IH. split; [auto|intros [E|E]; [congruence|exact E]].
Qed.
Lemma find_drop_ne : forall h n m, n <> m -> find (drop h n) m = find h m.
Proof.
  induction h as [|[k y] h IH]; intros n m H; [reflexivity|]. cbn. destruct (Nat.eqb_spec k n) as [E|E].
  - subst. destruct (Nat.eqb_spec n m); [congruence|reflexivity].
  - cbn. destruct (Nat.eqb k m); auto.
Qed.
Lemma keys_drop : forall h n m, In m (keys (drop h n)) -> In m (keys h).
Proof.
  induction h as [|[k y] h IH]; intros n m H; [exact H|]. cbn in *. destruct (Nat.eqb_spec k n); [right; exact H|].
  cbn in H. destruct H as [H|H]; [now left|right; eapply IH; exact H].
Qed.
Lemma nodup_drop : forall h n, NoDup (keys h) -> NoDup (keys (drop h n)).
Proof.
  induction h as [|[k y] h IH]; intros n H; [exact H|]. cbn in *. inversion H; subst. destruct (Nat.eqb k n); [assumption|].
  cbn. constructor; [|auto]. intros X. apply keys_drop in X. contradiction.
Qed.
Lemma find_drop_eq : forall h n, NoDup (keys h) -> find (drop h n) n = None.
Proof.
  induction h as [|[k y] h IH]; intros n H; [reflexivity|]. cbn in *. inversion H; subst. destruct (Nat.eqb_spec k n) as [E|E].
  - subst. destruct (find h n) eqn:F; [|reflexivity]. exfalso. match goal with X : ~ In _ _ |- _ => apply X end. apply find_key. congruence.
  - cbn. destruct (Nat.eqb_spec k n); [congruence|auto].
Qed.
Lemma length_drop : forall h n x, find h n = Some x -> S (length (drop h n)) = length h.
Proof. induction h as [|[k y] h IH]; cbn; intros n x H; [discriminate|]. destruct (Nat.eqb k n); [reflexivity|]. cbn. rewrite (IH _ _ H). reflexivity. Qed.
Lemma keys_put : forall h n x, keys (put h n x) = keys h.
Proof. induction h as [|[k y] h IH]; intros n x; [reflexivity|]. cbn. destruct (Nat.eqb_spec k n); cbn; [congruence|]. f_equal. apply IH. Qed.
Lemma find_put_ne : forall h n m x, n <> m -> find (put h n x) m = find h m.
Proof.
  induction h as [|[k y] h IH]; intros n m x H; [reflexivity|]. cbn. destruct (Nat.eqb_spec k n) as [E|E]; cbn.
  - subst. destruct (Nat.eqb_spec n m); [congruence|reflexivity].
  - destruct (Nat.eqb k m); auto.
Qed.
Lemma find_put_eq : forall h n x y, find h n = Some y -> find (put h n x) n = Some x.
Proof.
  induction h as [|[k z] h IH]; cbn; intros n x y H; [discriminate|]. destruct (Nat.eqb_spec k n) as [E|E]; cbn.
  - destruct (Nat.eqb_spec k n); [reflexivity|congruence].
  - destruct (Nat.eqb_spec k n); [congruence|]. eapply IH. exact H.
Qed.
Lemma owners_cons : forall n c k h m, owners ((n, (c, k)) :: h) m = own1 k m + owners h m.
Proof.
  intros. unfold owners, own1. cbn [filter]. unfold owns at 1. cbn [snd]. unfold is1. destruct (owned k) as [x|]; [|reflexivity]. destruct (Nat.eqb x m); reflexivity.
Qed.
Lemma owners_drop : forall h n c k m, find h n = Some (c, k) -> owners h m = owners (drop h n) m + own1 k m.
Proof.
  induction h as [|[j [d l]] h IH]; cbn [find drop]; intros n c k m H; [discriminate|]. destruct (Nat.eqb j n).
  - injection H as -> ->. rewrite owners_cons. lia.
  - rewrite !owners_cons. rewrite (IH _ _ _ m H). lia.
Qed.
Lemma owners_put : forall h n c k c' k' m, find h n = Some (c, k) -> owners (put h n (c', k')) m + own1 k m = owners h m + own1 k' m.
Proof.
  induction h as [|[j [d l]] h IH]; cbn [find put]; intros n c k c' k' m H; [discriminate|]. destruct (Nat.eqb j n).
  - injection H as -> ->. rewrite !owners_cons. lia.
  - rewrite !owners_cons. assert (X := IH _ _ _ c' k' m H). lia.
Qed.
Lemma owners_in : forall h n c k m, find h n = Some (c, k) -> owned k = Some m -> owners h m <> 0.
Proof. intros h n c k m F O. rewrite (owners_drop _ _ _ _ m F). unfold own1. rewrite O, is1_same. lia. Qed.
Lemma count_find : forall h n, count h n <> 0 -> exists c k, find h n = Some (c, k).
Proof. intros h n. unfold count. destruct (find h n) as [[c k]|]; [eauto|congruence]. Qed.
Lemma owners_some : forall h m, owners h m <> 0 -> exists n c k, In (n, (c, k)) h /\ owned k = Some m.
Proof.
  intros h m. unfold owners. destruct (filter (owns m) h) as [|[n [c k]] l] eqn:E; cbn; [congruence|]. intros _.
  assert (X : In (n, (c, k)) (filter (owns m) h)) by (rewrite E; now left). apply filter_In in X as (X & Y). exists n, c, k. split; [exact X|].
  unfold owns in Y. cbn in Y. destruct (owned k) as [j|]; [|discriminate]. apply Nat.eqb_eq in Y. congruence.
Qed.
Lemma in_find : forall h n x, NoDup (keys h) -> In (n, x) h -> find h n = Some x.
Proof.
  induction h as [|[j y] h IH]; cbn; intros n x H I; [contradiction|]. inversion H; subst. destruct I as [I|I].
  - injection I as -> ->. now rewrite Nat.eqb_refl.
  - destruct (Nat.eqb_spec j n) as [E|E]; [|auto]. subst. exfalso. match goal with X : ~ In _ _ |- _ => apply X end. apply (in_map fst) in I. exact I.
Qed.

(** ** Taking and giving back *)
Lemma retain_good : forall h R n, Good h R -> count h n <> 0 ->
  exists c k, find h n = Some (c, k) /\ retain h n = Some (put h n (S c, k)) /\ Good (put h n (S c, k)) (fun x => R x + is1 n x).
Proof.
  intros h R n [A B C] H. destruct (count_find _ _ H) as (c & k & F). exists c, k. split; [exact F|]. unfold retain. rewrite F. split; [reflexivity|].
  constructor.
  - rewrite keys_put. exact A.
  - intros x. assert (X := B x). assert (P := owners_put h n c k (S c) k x F). unfold count in *. destruct (Nat.eq_dec n x) as [->|E].
    + rewrite (find_put_eq _ _ _ _ F). rewrite F in X. rewrite is1_same. lia.
    + rewrite find_put_ne by exact E. rewrite is1_ne by exact E. lia.
  - intros x d l. destruct (Nat.eq_dec n x) as [->|E].
    + rewrite (find_put_eq _ _ _ _ F). intros [= <- <-]. discriminate.
    + rewrite find_put_ne by exact E. apply C.
Qed.
Lemma release_good : forall fuel h R n, length h < fuel -> Good h (fun x => R x + is1 n x) ->
  exists h', release fuel h n = Some h' /\ Good h' R /\ (forall m c k, find h' m = Some (c, k) -> exists c', find h m = Some (c', k)).
Proof.
  induction fuel as [|fuel IH]; intros h R n L [A B C]; [lia|]. cbn [release].
  assert (P := B n). cbv beta in P. rewrite is1_same in P. unfold count in P. destruct (find h n) as [[c k]|] eqn:F; [|lia].
  destruct c as [|[|c]].
  - exfalso. exact (C _ _ _ F eq_refl).
  - assert (O0 : owners h n = 0) by lia. assert (R0 : R n = 0) by lia.
    assert (G : Good (drop h n) (fun x => R x + own1 k x)).
    { constructor.
      - apply nodup_drop. exact A.
      - intros x. assert (X := B x). cbv beta in X. assert (Y := owners_drop h n 1 k x F). unfold count in *. destruct (Nat.eq_dec n x) as [->|E].
        + rewrite find_drop_eq by exact A. lia.
        + rewrite find_drop_ne by exact E. rewrite is1_ne in X by exact E. lia.
      - intros x d l. destruct (Nat.eq_dec n x) as [->|E]; [rewrite find_drop_eq by exact A; discriminate|rewrite find_drop_ne by exact E; apply C]. }
    assert (D : forall m c k0, find (drop h n) m = Some (c, k0) -> exists c', find h m = Some (c', k0)).
    { intros m c k0. destruct (Nat.eq_dec n m) as [->|E]; [rewrite find_drop_eq by exact A; discriminate|rewrite find_drop_ne by exact E; eauto]. }
    destruct (owned k) as [m|] eqn:O.
    + assert (LL := length_drop _ _ _ F). destruct (IH (drop h n) R m) as (h' & E1 & E2 & E3); [lia| |].
      * eapply good_ext; [|exact G]. intros x. cbv beta. unfold own1. rewrite O. reflexivity.
      * exists h'. split; [exact E1|]. split; [exact E2|]. intros m0 c0 k0 X. apply E3 in X as (c' & X). exact (D _ _ _ X).
    + exists (drop h n). split; [reflexivity|]. split; [|exact D]. eapply good_ext; [|exact G]. intros x. cbv beta. unfold own1. rewrite O. lia.
  - exists (put h n (S c, k)). split; [reflexivity|]. split; [|].
    + constructor.
      * rewrite keys_put. exact A.
      * intros x. assert (X := B x). cbv beta in X. assert (Y := owners_put h n (S (S c)) k (S c) k x F). unfold count in *. destruct (Nat.eq_dec n x) as [->|E].
        -- rewrite (find_put_eq _ _ _ _ F). rewrite F, is1_same in X. lia.
        -- rewrite find_put_ne by exact E. rewrite is1_ne in X by exact E. lia.
      * intros x d l. destruct (Nat.eq_dec n x) as [->|E].
        -- rewrite (find_put_eq _ _ _ _ F). intros [= <- <-]. discriminate.
        -- rewrite find_put_ne by exact E. apply C.
    + intros m d l. destruct (Nat.eq_dec n m) as [->|E]; [rewrite (find_put_eq _ _ _ _ F); intros [= <- <-]; eauto|rewrite find_put_ne by exact E; eauto].
Qed.
Lemma cons_good : forall h R n k, Good h (fun x => R x + own1 k x) -> find h n = None -> own1 k n = 0 ->
  Good ((n, (1, k)) :: h) (fun x => is1 n x + R x).
Proof.
  intros h R n k [A B C] F O. constructor.
  - cbn. constructor; [|exact A]. intros X. apply find_key in X. congruence.
  - intros x. assert (X := B x). cbv beta in X. rewrite owners_cons. unfold count in *. cbn [find]. unfold is1. destruct (Nat.eqb_spec n x) as [->|E].
    + rewrite F in X. lia.
    + lia.
  - intros x c l. cbn [find]. destruct (Nat.eqb n x); [intros [= <- <-]; discriminate|apply C].
Qed.

(** ** The state *)
Definition child_ok (k k' : kind) : Prop :=
  match k, k' with KFace _ _, KBlob _ => True | KFont _ _, KFace _ _ => True | _, _ => False end.
Definition class_ok (c : class) (k : kind) : Prop :=
  match c, k with
  | HBBlob, KBlob _ | HBFace, KFace _ _ | HBFont, KFont _ None | HBFTFont, KFont _ (Some _) | FTFace, KFT _ | HBBuffer, KBuf => True
  | _, _ => False
  end.
Definition Kids (h : heap) : Prop := forall n c k m, find h n = Some (c, k) -> owned k = Some m -> exists c' k', find h m = Some (c', k') /\ child_ok k k'.
Definition Classes (h : heap) (ws : list (nat * wrapper)) : Prop :=
  forall w x, wrap ws w = Some x -> exists c k, find h (w_native x) = Some (c, k) /\ class_ok (w_class x) k.
Definition Ptrs (h : heap) (next : nat) : Prop :=
  forall n c k f, find h n = Some (c, k) -> In (ToFT f) (points k) -> f < next /\ forall c' k', find h f = Some (c', k') -> exists b, k' = KFT b.
Record Inv (s : state) (X : list nat) : Prop := mkInv {
  i_good : Good (st_heap s) (fun n => wrappers s n + times n X);
  i_keys : forall n, In n (keys (st_heap s)) -> n < st_next s;
  i_wids : forall w, In w (map fst (st_wraps s)) -> w < st_next s;
  i_wnd : NoDup (map fst (st_wraps s));
  i_kids : Kids (st_heap s);
  i_class : Classes (st_heap s) (st_wraps s);
  i_ptrs : Ptrs (st_heap s) (st_next s) }.

Lemma wrap_in : forall ws w x, wrap ws w = Some x -> In (w, x) ws.
Proof. induction ws as [|[v y] ws IH]; cbn; intros w x H; [discriminate|]. destruct (Nat.eqb_spec v w); [left; congruence|right; auto]. Qed.
Lemma wrap_unwrap : forall ws w v x, NoDup (map fst ws) -> wrap (unwrap ws w) v = Some x -> wrap ws v = Some x /\ v <> w.
Proof.
  induction ws as [|[j y] ws IH]; cbn; intros w v x N H; [discriminate|]. inversion N; subst. destruct (Nat.eqb_spec j w) as [E|E].
  - subst. assert (V : v <> w). { intros ->. apply wrap_in in H. apply (in_map fst) in H. contradiction. }
    split; [|exact V]. destruct (Nat.eqb_spec w v); [congruence|exact H].
  - cbn in H. destruct (Nat.eqb_spec j v) as [F|F]; [split; [exact H|congruence]|]. eapply IH; eauto.
Qed.
Lemma unwrap_ids : forall ws w v, In v (map fst (unwrap ws w)) -> In v (map fst ws).
Proof.
  induction ws as [|[j y] ws IH]; cbn; intros w v H; [exact H|]. destruct (Nat.eqb j w); [now right|]. cbn in H. destruct H as [H|H]; [now left|right; eauto].
Qed.
Lemma unwrap_nd : forall ws w, NoDup (map fst ws) -> NoDup (map fst (unwrap ws w)).
Proof.
  induction ws as [|[j y] ws IH]; cbn; intros w H; [exact H|]. inversion H; subst. destruct (Nat.eqb j w); [assumption|]. cbn. constructor; [|auto].
  intros X. apply unwrap_ids in X. contradiction.
Qed.
Definition wcount (ws : list (nat * wrapper)) (n : nat) : nat := length (filter (fun w => Nat.eqb (w_native (snd w)) n) ws).
Lemma wcount_cons : forall v x ws n, wcount ((v, x) :: ws) n = is1 (w_native x) n + wcount ws n.
Proof. intros. unfold wcount, is1. cbn. destruct (Nat.eqb _ n); reflexivity. Qed.
Lemma wcount_unwrap : forall ws w x n, wrap ws w = Some x -> wcount ws n = wcount (unwrap ws w) n + is1 (w_native x) n.
Proof.
  induction ws as [|[j y] ws IH]; cbn [wrap unwrap]; intros w x n H; [discriminate|]. destruct (Nat.eqb j w).
  - injection H as ->. rewrite wcount_cons. lia.
  - rewrite !wcount_cons. rewrite (IH _ _ n H). lia.
Qed.
Lemma live : forall s X w x, Inv s X -> wrap (st_wraps s) w = Some x -> count (st_heap s) (w_native x) <> 0.
Proof.
  intros s X w x V H. rewrite (g_bal _ _ (i_good _ _ V)). change (wrappers s (w_native x)) with (wcount (st_wraps s) (w_native x)).
  rewrite (wcount_unwrap _ _ _ _ H), is1_same. lia.
Qed.
Lemma fresh_find : forall s X n, Inv s X -> st_next s <= n -> find (st_heap s) n = None.
Proof. intros s X n V L. destruct (find (st_heap s) n) eqn:F; [|reflexivity]. assert (n < st_next s); [|lia]. apply (i_keys _ _ V). apply find_key. congruence. Qed.
Lemma fresh_zero : forall s X n, Inv s X -> st_next s <= n -> wrappers s n = 0 /\ times n X = 0 /\ owners (st_heap s) n = 0.
Proof. intros s X n V L. assert (B := g_bal _ _ (i_good _ _ V) n). unfold count in B. rewrite (fresh_find _ _ _ V L) in B. lia. Qed.
Lemma kids_same : forall h h' R, Kids h -> Good h' R -> (forall m c k, find h' m = Some (c, k) -> exists c', find h m = Some (c', k)) -> Kids h'.
Proof.
  intros h h' R K G E n c k m F O. destruct (E _ _ _ F) as (c0 & F0). destruct (K _ _ _ _ F0 O) as (c1 & k1 & F1 & CO).
  assert (P := owners_in _ _ _ _ _ F O). assert (B := g_bal _ _ G m). destruct (count_find h' m) as (c2 & k2 & F2); [lia|].
  destruct (E _ _ _ F2) as (c3 & F3). exists c2, k2. split; [exact F2|]. congruence.
Qed.
Lemma put_same : forall h n c k c', find h n = Some (c, k) -> forall m d l, find (put h n (c', k)) m = Some (d, l) -> exists d', find h m = Some (d', l).
Proof.
  intros h n c k c' F m d l. destruct (Nat.eq_dec n m) as [->|E]; [rewrite (find_put_eq _ _ _ _ F); intros [= <- <-]; eauto|rewrite find_put_ne by exact E; eauto].
Qed.
Lemma ptrs_same : forall h h' next, Ptrs h next -> (forall m c k, find h' m = Some (c, k) -> exists c', find h m = Some (c', k)) -> Ptrs h' next.
Proof.
  intros h h' next P E n c k f F O. destruct (E _ _ _ F) as (c0 & F0). destruct (P _ _ _ _ F0 O) as (A & B). split; [exact A|].
  intros c' k' F'. destruct (E _ _ _ F') as (c1 & F1). exact (B _ _ F1).
Qed.
Lemma class_same : forall h h' R ws, Classes h ws -> Good h' R -> (forall w x, wrap ws w = Some x -> R (w_native x) <> 0) ->
  (forall m c k, find h' m = Some (c, k) -> exists c', find h m = Some (c', k)) -> Classes h' ws.
Proof.
  intros h h' R ws C G W E w x H. destruct (C _ _ H) as (c & k & F & K). assert (B := g_bal _ _ G (w_native x)). assert (N := W _ _ H).
  destruct (count_find h' (w_native x)) as (c2 & k2 & F2); [lia|]. destruct (E _ _ _ F2) as (c3 & F3). exists c2, k2. split; [exact F2|]. congruence.
Qed.
Lemma keys_same : forall (h h' : heap), (forall m c k, find h' m = Some (c, k) -> exists c', find h m = Some (c', k)) -> forall n, In n (keys h') -> In n (keys h).
Proof.
  intros h h' E n I. apply find_key in I. destruct (find h' n) as [[c k]|] eqn:F; [|congruence]. destruct (E _ _ _ F) as (c' & F'). apply find_key. congruence.
Qed.

(** A new object with a wrapper. *)
Lemma make_inv : forall s X0 X h k c keeps,
  Inv s X0 -> Good h (fun n => wrappers s n + times n X + own1 k n) ->
  (forall m c k, find h m = Some (c, k) -> exists c', find (st_heap s) m = Some (c', k)) ->
  class_ok c k ->
  (forall m, owned k = Some m -> exists c' k', find h m = Some (c', k') /\ child_ok k k') ->
  (forall f, In (ToFT f) (points k) -> exists c' b, find h f = Some (c', KFT b)) ->
  forall next, st_next s <= next -> forall bytes, Inv (make (mkS h bytes (st_wraps s) next) k c keeps) X.
Proof.
  intros s X0 X h k c keeps V G E CK OW PT next L bytes.
  assert (FH : forall n, next <= n -> find h n = None).
  { intros n Ln. destruct (find h n) as [[d l]|] eqn:F; [|reflexivity]. destruct (E _ _ _ F) as (d' & F'). rewrite (fresh_find _ _ n V) in F' by lia. discriminate. }
  assert (KH : forall n, In n (keys h) -> n < next).
  { intros n I. apply find_key in I. destruct (Nat.lt_ge_cases n next) as [|Q]; [assumption|]. now rewrite (FH n Q) in I. }
  assert (O0 : own1 k next = 0).
  { unfold own1. destruct (owned k) as [m|] eqn:O; [|reflexivity]. destruct (OW _ eq_refl) as (c' & k' & F & _). apply is1_ne. intros ->. rewrite FH in F by lia. discriminate. }
  constructor; cbn [make st_heap st_wraps st_next st_bytes].
  - eapply good_ext; [|apply cons_good; [exact G|apply FH; lia|exact O0]]. intros n. cbv beta. assert (Q := wcount_cons (S next) (mkW c next keeps) (st_wraps s) n). cbn [w_native] in Q.
    change (wrappers (make (mkS h bytes (st_wraps s) next) k c keeps) n) with (wcount ((S next, mkW c next keeps) :: st_wraps s) n).
    rewrite Q. change (wrappers s n) with (wcount (st_wraps s) n). lia.
  - cbn. intros n [I|I]; [lia|]. apply KH in I. lia.
  - cbn. intros w [I|I]; [lia|]. apply (i_wids _ _ V) in I. lia.
  - cbn. constructor; [|exact (i_wnd _ _ V)]. intros I. apply (i_wids _ _ V) in I. lia.
  - intros n d l m. cbn [find]. destruct (Nat.eqb_spec next n) as [->|N].
    + intros [= <- <-] O. destruct (OW _ O) as (c' & k' & F & Y). exists c', k'. split; [|exact Y]. destruct (Nat.eqb_spec n m) as [->|]; [|exact F]. rewrite FH in F by lia. discriminate.
    + intros F O. destruct (kids_same _ _ _ (i_kids _ _ V) G E _ _ _ _ F O) as (c' & k' & F' & Y). exists c', k'. split; [|exact Y].
      destruct (Nat.eqb_spec next m) as [->|]; [|exact F']. rewrite FH in F' by lia. discriminate.
  - intros w x. cbn [wrap]. destruct (Nat.eqb (S next) w).
    + intros [= <-]. cbn [w_native w_class find]. rewrite Nat.eqb_refl. eauto.
    + intros H. assert (C2 : Classes h (st_wraps s)).
      { eapply class_same; [exact (i_class _ _ V)|exact G| |exact E]. intros v y Hy. cbv beta. change (wrappers s (w_native y)) with (wcount (st_wraps s) (w_native y)). rewrite (wcount_unwrap _ _ _ _ Hy), is1_same. lia. }
      destruct (C2 _ _ H) as (c' & k' & F & Y). exists c', k'. split; [|exact Y]. cbn [find]. destruct (Nat.eqb_spec next (w_native x)) as [Q|]; [|exact F]. rewrite FH in F by lia. discriminate.
  - intros n d l f. cbn [find]. destruct (Nat.eqb_spec next n) as [->|N].
    + intros [= <- <-] I. destruct (PT _ I) as (c' & b & F). assert (f < n). { apply KH. apply find_key. congruence. }
      split; [lia|]. intros c1 k1. destruct (Nat.eqb_spec n f); [lia|]. rewrite F. intros [= <- <-]. eauto.
    + intros F I. destruct (E _ _ _ F) as (d' & F'). destruct (i_ptrs _ _ V _ _ _ _ F' I) as (Lf & Kf). split; [lia|].
      intros c1 k1. destruct (Nat.eqb_spec next f); [lia|]. intros F1. destruct (E _ _ _ F1) as (d1 & F2). exact (Kf _ _ F2).
Qed.
Lemma same_refl : forall (h : heap) m c k, find h m = Some (c, k) -> exists c', find h m = Some (c', k).
Proof. eauto. Qed.
Lemma own1_none : forall k n, owned k = None -> own1 k n = 0.
Proof. intros k n H. unfold own1. now rewrite H. Qed.
(** Another heap with the same wrappers. *)
Lemma heap_inv : forall s X Y h bytes next, Inv s X -> Good h (fun n => wrappers s n + times n Y) ->
  (forall m c k, find h m = Some (c, k) -> exists c', find (st_heap s) m = Some (c', k)) -> st_next s <= next -> Inv (mkS h bytes (st_wraps s) next) Y.
Proof.
  intros s X Y h bytes next V G E L. constructor; cbn [st_heap st_wraps st_next].
  - exact G.
  - intros n I. assert (Q := i_keys _ _ V _ (keys_same _ _ E _ I)). lia.
  - intros w I. assert (Q := i_wids _ _ V _ I). lia.
  - exact (i_wnd _ _ V).
  - exact (kids_same _ _ _ (i_kids _ _ V) G E).
  - eapply class_same; [exact (i_class _ _ V)|exact G| |exact E]. intros v y Hy. cbv beta. change (wrappers s (w_native y)) with (wcount (st_wraps s) (w_native y)). rewrite (wcount_unwrap _ _ _ _ Hy), is1_same. lia.
  - intros n c k f F I. destruct (ptrs_same _ _ _ (i_ptrs _ _ V) E _ _ _ _ F I) as (A & B). split; [lia|exact B].
Qed.

(** A wrapper forgotten without giving back, and one made of a reference taken. *)
Lemma forget_inv : forall s X w x bytes, Inv s X -> wrap (st_wraps s) w = Some x ->
  Inv (mkS (st_heap s) bytes (unwrap (st_wraps s) w) (st_next s)) (w_native x :: X).
Proof.
  intros s X w x bytes V H. constructor; cbn [st_heap st_wraps st_next].
  - eapply good_ext; [|exact (i_good _ _ V)]. intros n. cbv beta. change (wrappers s n) with (wcount (st_wraps s) n). rewrite (wcount_unwrap _ _ _ n H).
    change (wrappers _ n) with (wcount (unwrap (st_wraps s) w) n). unfold times, is1. cbn. destruct (Nat.eq_dec (w_native x) n), (Nat.eqb_spec (w_native x) n); try congruence; lia.
  - exact (i_keys _ _ V).
  - intros v I. apply unwrap_ids in I. exact (i_wids _ _ V _ I).
  - apply unwrap_nd. exact (i_wnd _ _ V).
  - exact (i_kids _ _ V).
  - intros v y Hy. apply wrap_unwrap in Hy as (Hy & _); [|exact (i_wnd _ _ V)]. exact (i_class _ _ V _ _ Hy).
  - exact (i_ptrs _ _ V).
Qed.
Lemma remember_inv : forall s X n c d k, Inv s (n :: X) -> find (st_heap s) n = Some (d, k) -> class_ok c k -> Inv (rewrap s (st_heap s) c n) X.
Proof.
  intros s X n c d k V F CK. constructor; cbn [rewrap st_heap st_wraps st_next].
  - eapply good_ext; [|exact (i_good _ _ V)]. intros m. cbv beta. change (wrappers s m) with (wcount (st_wraps s) m).
    change (wrappers (rewrap s (st_heap s) c n) m) with (wcount ((st_next s, mkW c n None) :: st_wraps s) m). rewrite wcount_cons. cbn [w_native].
    unfold times, is1. cbn. destruct (Nat.eq_dec n m), (Nat.eqb_spec n m); try congruence; lia.
  - intros m I. apply (i_keys _ _ V) in I. lia.
  - cbn. intros v [<-|I]; [lia|]. apply (i_wids _ _ V) in I. lia.
  - cbn. constructor; [|exact (i_wnd _ _ V)]. intros I. apply (i_wids _ _ V) in I. lia.
  - exact (i_kids _ _ V).
  - intros v y. cbn [wrap]. destruct (Nat.eqb (st_next s) v); [intros [= <-]; cbn; eauto|apply (i_class _ _ V)].
  - intros m e l f Fm If. destruct (i_ptrs _ _ V _ _ _ _ Fm If) as (A & B). split; [lia|exact B].
Qed.
