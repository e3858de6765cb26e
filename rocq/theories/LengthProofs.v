(** Proofs about lengths. *)
From Coq Require Import Qabs.
From Verif Require Import PyBase PyText PySplit PyStrip PyCase CssUnitModel FormatModel NumScan LengthModel LengthSpec.
#[local] Open Scope Q_scope.

Lemma pymin_Qmin a b : pymin a b == Qmin a b.
Proof. unfold pymin. destruct (Q.min_spec a b) as [(A & ->)|(A & ->)]; qcase; lra. Qed.
Lemma pymax_Qmax a b : pymax a b == Qmax a b.
Proof. unfold pymax. destruct (Q.max_spec a b) as [(A & ->)|(A & ->)]; qcase; lra. Qed.
Lemma metric_in u : In u [lit "ex"; lit "cap"; lit "ch"; lit "ic"] ->
  is_px (Some u) = false /\ text_eqb u (lit "rem") = false /\ text_eqb u (lit "em") = false /\ text_eqb u (lit "%") = false /\ mem u metric_units = true /\
  mem u resolution_units = false.
Proof. intros [<-|[<-|[<-|[<-|[]]]]]; repeat split. Qed.
Lemma d254_pos : 0 < d254. Proof. reflexivity. Qed.
Lemma d25_4_pos : 0 < d25_4. Proof. reflexivity. Qed.

Lemma to_spec c d u k s n : sized c d u k s -> exists q, to_pixels c d n u = Ok q /\ q == n * s.
Proof.
  intros S. destruct S; subst; try (eexists; split; [reflexivity|]; try (unfold Qdiv; ring); fail).
  - exists (n * cvw c / 100). split; [reflexivity|]. unfold Qdiv. ring.
  - exists (n * cvh c / 100). split; [reflexivity|]. unfold Qdiv. ring.
  - exists (n * pymin (cvw c) (cvh c) / 100). split; [reflexivity|]. rewrite pymin_Qmin. unfold Qdiv. ring.
  - exists (n * pymax (cvw c) (cvh c) / 100). split; [reflexivity|]. rewrite pymax_Qmax. unfold Qdiv. ring.
  - destruct (metric_in u H) as (A1 & A2 & A3 & A4 & A5 & A6). unfold to_pixels. rewrite A1, A2, A3, A4, A5, H0.
    eexists; split; [reflexivity|]. destruct (Qeqb_spec (m u) 0); [contradiction|reflexivity].
  - destruct (metric_in u H) as (A1 & A2 & A3 & A4 & A5 & A6). unfold to_pixels. rewrite A1, A2, A3, A4, A5, H0.
    eexists; split; [reflexivity|]. destruct (Qeqb_spec (m u) 0); [reflexivity|contradiction].
  - destruct (metric_in u H) as (A1 & A2 & A3 & A4 & A5 & A6). unfold to_pixels. rewrite A1, A2, A3, A4, A5, H0.
    eexists; split; [reflexivity|]. unfold Qdiv. ring.
  - exists n. split; [reflexivity|ring].
  - exists (n / 96). split; [reflexivity|field].
  - exists (n / 96 * d254). split; [reflexivity|field].
Qed.
Lemma div_spec a b : ~ b == 0 -> exists q, div a b = Ok q /\ q * b == a.
Proof. intros N. unfold div. destruct (Qeqb_spec b 0); [contradiction|]. eexists. split; [reflexivity|]. field. auto. Qed.
Lemma div_100 a b : ~ b / 100 == 0 -> exists q, (do q <- div a b; Ok (q * 100)) = Ok q /\ q * (b / 100) == a.
Proof.
  intros N. destruct (div_spec a b) as (q & E & H). { intros Z. apply N. rewrite Z. reflexivity. }
  rewrite E. eexists. split; [reflexivity|]. rewrite <- H. field.
Qed.
Lemma from_spec c d u k s p : sized c d u k s -> ~ s == 0 -> steady c u -> exists q, from_pixels c d p u = Ok q /\ q * s == p.
Proof.
  intros S N ST. destruct S; subst;
    try (eexists; split; [reflexivity|]; unfold Qdiv; try ring; fail);
    try (apply div_spec; auto; fail); try (apply div_100; auto; fail).
  - change (exists q, (do q <- div p (pymin (cvw c) (cvh c)); Ok (q * 100)) = Ok q /\ q * (Qmin (cvw c) (cvh c) / 100) == p).
    destruct (div_100 p (pymin (cvw c) (cvh c))) as (q & E & H). { rewrite pymin_Qmin. auto. } rewrite E. exists q. split; [auto|]. rewrite <- H, pymin_Qmin. reflexivity.
  - change (exists q, (do q <- div p (pymax (cvw c) (cvh c)); Ok (q * 100)) = Ok q /\ q * (Qmax (cvw c) (cvh c) / 100) == p).
    destruct (div_100 p (pymax (cvw c) (cvh c))) as (q & E & H). { rewrite pymax_Qmax. auto. } rewrite E. exists q. split; [auto|]. rewrite <- H, pymax_Qmax. reflexivity.
  - destruct (metric_in u H) as (A1 & A2 & A3 & A4 & A5 & A6). unfold from_pixels. rewrite A1, A2, A3, A4, A5, H0.
    assert (E := ST u m p eq_refl H H0). destruct (Qeqb_spec (metric_at c p u) 0) as [Z|Z]; [exfalso; apply H1; now rewrite <- E|].
    destruct (div_spec p (metric_at c p u) Z) as (q & E1 & E2). exists q. split; [auto|]. rewrite <- E2, E. reflexivity.
  - destruct (metric_in u H) as (A1 & A2 & A3 & A4 & A5 & A6). unfold from_pixels. rewrite A1, A2, A3, A4, A5, H0.
    assert (E := ST u m p eq_refl H H0). destruct (Qeqb_spec (metric_at c p u) 0) as [Z|Z]; [|exfalso; apply Z; now rewrite E]. apply div_spec; auto.
  - destruct (metric_in u H) as (A1 & A2 & A3 & A4 & A5 & A6). unfold from_pixels. rewrite A1, A2, A3, A4, A5, H0. apply div_spec; auto.
  - exists p. split; [reflexivity|]. ring.
  - exists (p * 96). split; [reflexivity|]. field.
  - exists (p * (96 / d254)). split; [reflexivity|]. field. discriminate.
Qed.
Lemma sized_kind c d u k s : sized c d u k s -> uin u resolution_units = match k with Length => false | Resolution => true end.
Proof. intros S. destruct S; try reflexivity; cbn [uin]; apply (metric_in u H). Qed.
Lemma unit_eqb_spec a b : reflect (a = b) (unit_eqb a b).
Proof. destruct a as [a|], b as [b|]; cbn; try (constructor; congruence). destruct (text_eqb_spec a b); constructor; congruence. Qed.
Lemma sized_fun c d u k s k' s' : sized c d u k s -> sized c d u k' s' -> k = k' /\ s == s'.
Proof.
  intros A B. assert (K := sized_kind _ _ _ _ _ A). assert (K' := sized_kind _ _ _ _ _ B). split. { destruct k, k'; congruence. }
  destruct (to_spec _ _ _ _ _ 1 A) as (q & E & H). destruct (to_spec _ _ _ _ _ 1 B) as (q' & E' & H').
  rewrite E in E'. injection E' as <-. rewrite <- (Qmult_1_l s), <- H, H'. ring.
Qed.
(* the value in a unit *)
Lemma value_spec x u k s su : measures x k s -> sized (ctx x) (ldir x) u k su -> ~ su == 0 -> steady (ctx x) u ->
  exists v, value x u None = Ok v /\ v * su == num x * s.
Proof.
  intros M S N ST. unfold value. destruct (unit_eqb_spec u (lunit x)) as [->|D].
  - destruct (sized_fun _ _ _ _ _ _ _ M S) as (_ & E). exists (num x). split; [auto|]. now rewrite E.
  - rewrite (sized_kind _ _ _ _ _ M), (sized_kind _ _ _ _ _ S), Bool.eqb_reflx. cbn [negb].
    destruct (to_spec _ _ _ _ _ (num x) M) as (p & E & H). rewrite E. cbn [bind].
    destruct (from_spec _ _ _ _ _ p S N ST) as (q & E' & H'). exists q. split; [auto|]. now rewrite H', H.
Qed.
Lemma value_kinds x u k k' s c d su : measures x k s -> sized c d u k' su -> k <> k' -> value x u None = Err ValueError.
Proof.
  intros M S N. unfold value. assert (K := sized_kind _ _ _ _ _ M). assert (K' := sized_kind _ _ _ _ _ S).
  destruct (unit_eqb_spec u (lunit x)) as [->|D]. { destruct k, k'; congruence. }
  rewrite K, K'. destruct k, k'; try congruence; reflexivity.
Qed.
(* converting *)
Lemma convert_spec x u k s su : measures x k s -> sized (ctx x) (ldir x) u k su -> ~ su == 0 -> steady (ctx x) u ->
  exists y, convert x u = Ok y /\ lunit y = u /\ together x y /\ ccopy y = ccopy x /\ measures y k su /\ num y * su == num x * s.
Proof.
  intros M S N ST. unfold convert. destruct (unit_eqb_spec u (lunit x)) as [->|D].
  - destruct (sized_fun _ _ _ _ _ _ _ M S) as (_ & E). exists x. repeat split; auto. now rewrite E.
  - destruct (value_spec x u k s su M S N ST) as (v & E & H). rewrite E. cbn [bind]. eexists. split; [reflexivity|]. repeat split; auto.
Qed.
Lemma unit_of_sized x k s : measures x k s -> sized (ctx x) (ldir x) (unit_of x) k s.
Proof.
  unfold measures, unit_of. destruct (lunit x) as [[|a t]|]; auto. intros H. inversion H; subst; try constructor.
  all: repeat match goal with H : In [] _ |- _ => cbn in H; repeat destruct H as [H|H]; try discriminate; try contradiction end.
Qed.
Lemma adopt_spec x y k s sy : together x y -> measures x k s -> measures y k sy -> ~ s == 0 -> ~ sy == 0 -> steady (ctx y) (lunit y) ->
  exists z sz, adopt x y = Ok z /\ together z x /\ ccopy z = ccopy x /\ measures z k sz /\ ~ sz == 0 /\ num z * sz == num x * s /\
    (lunit z = lunit x \/ lunit x = None /\ lunit z = lunit y).
Proof.
  intros (T1 & T2) M My N Ny ST. unfold adopt.
  assert (KEEP : exists z sz, Ok x = Ok z /\ together z x /\ ccopy z = ccopy x /\ measures z k sz /\ ~ sz == 0 /\ num z * sz == num x * s /\
    (lunit z = lunit x \/ lunit x = None /\ lunit z = lunit y)) by (exists x, s; repeat split; auto; reflexivity).
  destruct (lunit x) as [ux|] eqn:Ux; [exact KEEP|]. destruct (unit_of y) as [uy|] eqn:Uy; [|exact KEEP].
  assert (SY := unit_of_sized y k sy My). rewrite Uy, <- T1, <- T2 in SY.
  assert (LY : lunit y = Some uy) by (unfold unit_of in Uy; destruct (lunit y) as [[|]|]; congruence).
  rewrite <- T1, LY in ST. destruct (convert_spec x (Some uy) k s sy M SY Ny ST) as (z & E & U & (A & B) & C & D & F).
  exists z, sy. split; [auto|]. split; [split; congruence|]. repeat split; auto. right. split; auto. congruence.
Qed.
Definition arith (op : Q -> Q -> Q) (x y : slength) : result slength :=
  do x <- adopt x y; do v <- value y (lunit x) None; Ok (set_num x (op (num x) v)).
Lemma arith_spec op (H : forall a b s, op a b * s == op (a * s) (b * s)) (Hp : forall a a' b b', a == a' -> b == b' -> op a b == op a' b')
  x y k s sy : together x y -> measures x k s -> measures y k sy -> ~ s == 0 -> ~ sy == 0 -> steady (ctx y) (lunit y) -> steady (ctx x) (lunit x) ->
  exists z sz, arith op x y = Ok z /\ together z x /\ measures z k sz /\ num z * sz == op (num x * s) (num y * sy) /\
    (lunit z = lunit x \/ lunit x = None /\ lunit z = lunit y).
Proof.
  intros T M My N Ny ST STx. destruct (adopt_spec x y k s sy T M My N Ny ST) as (z & sz & E & (T1 & T2) & _ & Mz & Nz & P & U).
  destruct T as (T3 & T4). unfold arith. rewrite E. cbn [bind].
  assert (SZ : sized (ctx y) (ldir y) (lunit z) k sz) by (rewrite <- T3, <- T4, <- T1, <- T2; exact Mz).
  assert (STz : steady (ctx y) (lunit z)) by (destruct U as [-> | (_ & ->)]; [rewrite <- T3; exact STx|exact ST]).
  destruct (value_spec y (lunit z) k sy sz My SZ Nz STz) as (v & Ev & Hv). rewrite Ev. cbn [bind].
  exists (set_num z (op (num z) v)), sz. split; [auto|]. split; [split; auto|]. split; [exact Mz|]. split; [|exact U]. cbn. rewrite H. apply Hp; auto.
Qed.
Lemma adopt_kinds x y k s k' sy : measures x k s -> measures y k' sy -> k <> k' ->
  adopt x y = Err ValueError \/ adopt x y = Ok x.
Proof.
  intros M My N. unfold adopt. destruct (lunit x) as [ux|] eqn:Ux; [auto|]. destruct (unit_of y) as [uy|] eqn:Uy; [|auto].
  assert (SY := unit_of_sized y k' sy My). rewrite Uy in SY. left. unfold convert. rewrite Ux. cbn [unit_eqb].
  rewrite (value_kinds x (Some uy) k k' s _ _ _ M SY N). reflexivity.
Qed.
Lemma arith_kinds x y k s k' sy (f : slength -> Q -> result slength) : measures x k s -> measures y k' sy -> k <> k' ->
  (do x <- adopt x y; do v <- value y (lunit x) None; f x v) = Err ValueError.
Proof.
  intros M My N. destruct (adopt_kinds x y k s k' sy M My N) as [-> | ->]; [reflexivity|]. cbn [bind].
  rewrite (value_kinds y (lunit x) k' k sy _ _ s My M); [reflexivity|congruence].
Qed.
(* comparing *)
Lemma isclose_eq a b : a == b -> isclose a b = true.
Proof. intros E. unfold isclose. destruct (Qeqb_spec a b); [reflexivity|contradiction]. Qed.
Lemma isclose_le a b : isclose a b = true -> Qabs (a - b) <= Qmax (tol * Qmax (Qabs a) (Qabs b)) tol.
Proof.
  unfold isclose. intros H. apply orb_prop in H. destruct H as [H|H].
  - destruct (Qeqb_spec a b) as [E|]; [|discriminate]. apply Qle_trans with 0. { rewrite E. setoid_replace (b - b) with 0 by ring. discriminate. }
    apply Qle_trans with tol; [discriminate|apply Q.le_max_r].
  - destruct (Qleb_spec (Qabs (a - b)) (pymax (tol * pymax (Qabs a) (Qabs b)) tol)); [|discriminate]. rewrite !pymax_Qmax in q. exact q.
Qed.
Lemma value_compare x y k s sy : together x y -> measures x k s -> measures y k sy -> ~ s == 0 -> steady (ctx x) (lunit x) ->
  exists o, value y (lunit x) None = Ok o /\ o * s == num y * sy.
Proof. intros (T1 & T2) M My N ST. apply (value_spec y (lunit x) k sy s My); auto; rewrite <- T1; auto. rewrite <- T2. exact M. Qed.

(** * Text *)
From Verif Require Import FormatSpec FormatProofs NumScanProofs.
Lemma digit_not_space c : is_digit c = true -> is_space c = false.
Proof.
  unfold is_digit. intros H. apply andb_prop in H. destruct H as [A B]. apply N.leb_le in A, B.
  assert (E : (c = 48 \/ c = 49 \/ c = 50 \/ c = 51 \/ c = 52 \/ c = 53 \/ c = 54 \/ c = 55 \/ c = 56 \/ c = 57)%N) by lia.
  repeat (destruct E as [->|E]; [reflexivity|]). subst. reflexivity.
Qed.
Lemma format_clean p x : (0 < p)%nat -> forallb (fun c => negb (is_space c)) (format_number p x) = true.
Proof.
  intros Hp. rewrite fixed_shape by exact Hp. destruct (canonical_fmt p (negative x) (scaled p x)) as (s & i & f & -> & Hs & _ & Di & Df & _).
  assert (D : forall t, forallb is_digit t = true -> forallb (fun c => negb (is_space c)) t = true).
  { intros t. rewrite !forallb_forall. intros H c I. rewrite digit_not_space; auto. }
  rewrite !forallb_app, (D i Di). destruct Hs as [-> | ->]; destruct f as [|n f]; rewrite ?forallb_app; cbn [forallb]; try reflexivity; specialize (D _ Df); cbn [forallb] in D; rewrite D; reflexivity.
Qed.
Lemma clean_strip t : forallb (fun c => negb (is_space c)) t = true -> strip t = t.
Proof.
  intros H. rewrite forallb_forall in H. apply strip_id.
  - destruct t as [|c t]; [reflexivity|]. cbn. apply H. left. reflexivity.
  - destruct (rev t) as [|c r] eqn:E; [reflexivity|]. cbn. apply H. apply in_rev. rewrite E. left. reflexivity.
Qed.
Lemma supported_facts u : In u supported -> finished u /\ scan_unit u = Some u /\ lower u = u /\ forallb (fun c => negb (is_space c)) u = true.
Proof.
  revert u. apply Forall_forall. unfold supported. repeat (constructor; [repeat split|]). constructor.
Qed.
Lemma parse_any p n w u : (0 < p)%nat -> finished w -> scan_unit w = u -> forallb (fun c => negb (is_space c)) w = true ->
  (forall v, normalize v u = Ok (v, u)) -> exists v, parse (format_number p n ++ w) = Ok (v, u) /\ v == rounded p n.
Proof.
  intros Hp F1 F2 F3 F4. unfold parse. rewrite clean_strip by (rewrite forallb_app, format_clean, F3; auto).
  destruct (scan_format_finished p n w Hp F1) as (v & E & V). rewrite E, F2, F4. exists v. auto.
Qed.
Lemma parse_printed p n u : (0 < p)%nat -> (u = None \/ exists t, u = Some t /\ In t supported) ->
  exists v, parse (format_number p n ++ match u with Some t => t | None => [] end) = Ok (v, u) /\ v == rounded p n.
Proof.
  intros Hp [-> | (t & -> & I)]. { apply parse_any; auto. repeat split. }
  destruct (supported_facts t I) as (A & B & C & D). apply parse_any; auto.
  intros v. unfold normalize. rewrite C. apply mem_in in I. now rewrite I.
Qed.
Lemma value_own x : value x (lunit x) None = Ok (num x).
Proof. unfold value. destruct (unit_eqb_spec (lunit x) (lunit x)); congruence. Qed.
