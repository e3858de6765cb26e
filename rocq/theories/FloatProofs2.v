(** Rectangles with rounded numbers: proofs. *)
From Coq Require Import Qabs Qpower Qminmax Qround ZArith Lqa Lia Bool.
From Verif Require Import PyBase RectModel FloatModel FloatSpec FloatProofs.
#[local] Open Scope Q_scope.

(** ** Roundings *)
Lemma fl_rounding : rounding fl (pow2 (-53)).
Proof. split; [apply fl_mono|apply fl_idem|apply fl_opp|apply fl_error]. Qed.
Lemma r_proper f u (R : rounding f u) x y : x == y -> f x == f y.
Proof. intros E. apply Qle_antisym; apply (r_mono f u R); rewrite E; apply Qle_refl. Qed.
Lemma r_zero f u (R : rounding f u) : f 0 == 0.
Proof. assert (E := r_error f u R 0). change (Qabs 0) with 0 in E. apply Qabs_Qle_condition in E. lra. Qed.
Lemma r_pos f u (R : rounding f u) x : u < 1 -> 0 < x -> 0 < f x.
Proof.
  intros U P. assert (E := r_error f u R x). rewrite (Qabs_pos x) in E by lra. apply Qabs_Qle_condition in E.
  assert (X : 0 < (1 - u) * x) by (apply Qmult_lt_0_compat; lra). lra.
Qed.
Lemma r_nonneg f u (R : rounding f u) x : 0 <= x -> 0 <= f x.
Proof. intros P. rewrite <- (r_zero f u R). apply (r_mono f u R), P. Qed.
Lemma r_up f u (R : rounding f u) x w : f x == x -> 0 <= w -> x <= f (x + w).
Proof. intros E P. rewrite <- E at 1. apply (r_mono f u R). lra. Qed.
(* a size found by subtracting and an edge found by adding it again *)
Lemma r_back f u (R : rounding f u) a b : 0 <= u -> f b == b -> Qabs (f (a + f (b - a)) - b) <= u * Qabs b + (u * (1 + u)) * Qabs (b - a).
Proof.
  intros U B. set (d := b - a). assert (E1 := r_error f u R d). assert (E2 := r_error f u R (a + f d)).
  assert (F : f (a + f d) - b == (f (a + f d) - (a + f d)) + (f d - d)) by (unfold d; ring).
  assert (G : a + f d == b + (f d - d)) by (unfold d; ring).
  assert (T1 := Qabs_triangle (f (a + f d) - (a + f d)) (f d - d)). assert (T2 := Qabs_triangle b (f d - d)). rewrite <- F in T1. rewrite <- G in T2.
  assert (X : u * Qabs (a + f d) <= u * (Qabs b + u * Qabs d)) by (rewrite !(Qmult_comm u); apply Qmult_le_compat_r; [lra|exact U]).
  set (p := Qabs (a + f d)) in *. set (q := Qabs (f (a + f d) - b)) in *. set (v := Qabs d) in *. set (w := Qabs b) in *. set (z := Qabs (f d - d)) in *.
  assert (Y : u * (w + u * v) == u * w + u * (u * v)) by ring. assert (Y2 : u * (1 + u) * v == u * v + u * (u * v)) by ring. set (uv := u * v) in *. set (uw := u * w) in *. set (uuv := u * uv) in *. lra.
Qed.

(** ** Comparisons *)
Lemma between_iff a x b : between a x b = true <-> a <= x <= b.
Proof. unfold between. destruct (Qleb_spec a x), (Qleb_spec x b); cbn; split; intros; try discriminate; try reflexivity; try lra. Qed.
Lemma isvalid4 l t w h : isvalid (rect4 l t w h) = true <-> 0 < w /\ 0 < h.
Proof. unfold isvalid, rect4. cbn [rx ry rw rh is_some andb]. destruct (Qltb_spec 0 w), (Qltb_spec 0 h); cbn; split; intros; try discriminate; try reflexivity; tauto || lra. Qed.
Lemma isvalid_shape r : isvalid r = true -> exists l t, r = rect4 l t (rw r) (rh r) /\ 0 < rw r /\ 0 < rh r.
Proof.
  destruct r as [[l|] [t|] w h]; unfold isvalid; cbn; intros E; try discriminate. exists l, t. split; [reflexivity|]. revert E. destruct (Qltb_spec 0 w), (Qltb_spec 0 h); cbn; intros; try discriminate. tauto.
Qed.
Lemma rect4_eqb l t w h l' t' w' h' : l == l' -> t == t' -> w == w' -> h == h' -> rect_eqb (rect4 l t w h) (rect4 l' t' w' h') = true.
Proof.
  intros A B C D. unfold rect_eqb, rect4. cbn. destruct (Qeqb_spec l l'), (Qeqb_spec t t'), (Qeqb_spec w w'), (Qeqb_spec h h'); try reflexivity; contradiction.
Qed.
(* what containment says of a proper rectangle *)
Lemma fcontains_iff f l t w h x y ow oh : 0 < ow -> 0 < oh ->
  (fcontains f (rect4 l t w h) x y ow oh = true <->
   (0 < w /\ 0 < h) /\ (l <= x <= f (l + w)) /\ (l <= f (x + ow) <= f (l + w)) /\ (t <= y <= f (t + h)) /\ (t <= f (y + oh) <= f (t + h))).
Proof.
  intros P Q. unfold fcontains. destruct (isvalid (rect4 l t w h)) eqn:V; cbn [negb].
  - apply isvalid4 in V. cbn [rect4 rx ry rw rh]. destruct (Qleb_spec ow 0) as [H|_]; [exfalso; lra|]. destruct (Qleb_spec oh 0) as [H|_]; [exfalso; lra|]. cbn [orb].
    rewrite !andb_true_iff, !between_iff. tauto.
  - split; [discriminate|]. intros [H _]. apply isvalid4 with (l := l) (t := t) in H. congruence.
Qed.
Lemma fcontains_point f l t w h x y ow oh : (ow <= 0 \/ oh <= 0) ->
  (fcontains f (rect4 l t w h) x y ow oh = true <-> (0 < w /\ 0 < h) /\ (l <= x <= f (l + w)) /\ (t <= y <= f (t + h))).
Proof.
  intros P. unfold fcontains. destruct (isvalid (rect4 l t w h)) eqn:V; cbn [negb].
  - apply isvalid4 in V. cbn [rect4 rx ry rw rh].
    assert (B : (ow <=?q 0) || (oh <=?q 0) = true) by (destruct (Qleb_spec ow 0), (Qleb_spec oh 0); cbn; try reflexivity; lra).
    rewrite B, andb_true_iff, !between_iff. tauto.
  - split; [discriminate|]. intros [H _]. apply isvalid4 with (l := l) (t := t) in H. congruence.
Qed.

(** ** Containment *)
Lemma contains_self f u (R : rounding f u) l t w h : kept_rect f l t w h -> 0 < w -> 0 < h -> fcontains f (rect4 l t w h) l t w h = true.
Proof.
  intros (A & B & _ & _) P Q. apply fcontains_iff; [exact P|exact Q|]. assert (X := r_up f u R l w A ltac:(lra)). assert (Y := r_up f u R t h B ltac:(lra)). repeat split; lra.
Qed.
Lemma contains_trans f l t w h l' t' w' h' x y ow oh : fcontains f (rect4 l t w h) l' t' w' h' = true -> fcontains f (rect4 l' t' w' h') x y ow oh = true -> fcontains f (rect4 l t w h) x y ow oh = true.
Proof.
  intros A B. assert (V : 0 < w' /\ 0 < h').
  { unfold fcontains in B. destruct (isvalid (rect4 l' t' w' h')) eqn:V; [|discriminate]. now apply isvalid4 in V. }
  apply (fcontains_iff f l t w h l' t' w' h') in A; [|tauto|tauto].
  destruct (Qlt_le_dec 0 ow) as [P|P]; [destruct (Qlt_le_dec 0 oh) as [Q|Q]|].
  - apply fcontains_iff in B; try assumption. apply fcontains_iff; try assumption. lra.
  - apply fcontains_point in B; [|tauto]. apply fcontains_point; [tauto|]. lra.
  - apply fcontains_point in B; [|tauto]. apply fcontains_point; [tauto|]. lra.
Qed.

(** ** Union *)
Lemma unite_absorbs f r o : fcontains f r (match rx o with Some x => x | None => 0 end) (match ry o with Some y => y | None => 0 end) (rw o) (rh o) = true -> isvalid o = true -> funite f r o = r.
Proof.
  intros C V. apply isvalid_shape in V. destruct V as (l & t & E & _). unfold funite, funite_self. rewrite E in *. cbn [rect4 rx ry rw rh] in *. now rewrite C.
Qed.
Lemma qmin_case a b : (Qmin a b == a /\ a <= b) \/ (Qmin a b == b /\ b <= a).
Proof. destruct (Q.min_spec a b) as [[A B]|[A B]]; [left|right]; split; try exact B; lra. Qed.
Lemma qmax_case a b : (Qmax a b == a /\ b <= a) \/ (Qmax a b == b /\ a <= b).
Proof. destruct (Q.max_spec a b) as [[A B]|[A B]]; [right|left]; split; try exact B; lra. Qed.
Lemma unite_around f u (R : rounding f u) l t w h l' t' w' h' : kept_rect f l t w h -> kept_rect f l' t' w' h' -> 0 < w -> 0 < h -> 0 < w' -> 0 < h' ->
  fcontains f (rect4 l t w h) l' t' w' h' = false ->
  rect_eqb (funite f (rect4 l t w h) (rect4 l' t' w' h')) (around f l t (f (l + w)) (f (t + h)) l' t' (f (l' + w')) (f (t' + h'))) = true.
Proof.
  intros (Kl & Kt & _ & _) (Kl' & Kt' & _ & _) Pw Ph Pw' Ph' C. unfold funite, funite_self, fright, fbottom. cbn [rect4 rx ry rw rh]. fold (rect4 l t w h). rewrite C.
  assert (A1 := r_up f u R l w Kl ltac:(lra)). assert (A2 := r_up f u R t h Kt ltac:(lra)). assert (A3 := r_up f u R l' w' Kl' ltac:(lra)). assert (A4 := r_up f u R t' h' Kt' ltac:(lra)).
  set (rg := f (l + w)) in *. set (bt := f (t + h)) in *. set (rg' := f (l' + w')) in *. set (bt' := f (t' + h')) in *.
  assert (B1 : 0 <?q w' = true) by (destruct (Qltb_spec 0 w'); [reflexivity|lra]). assert (B2 : 0 <?q h' = true) by (destruct (Qltb_spec 0 h'); [reflexivity|lra]). rewrite B1, B2. cbn [andb].
  assert (X : exists x1 x2, (let '(x1, x2) := (if l' <?q l then (l', Some rg) else if rg <?q l' then (l, Some l') else (l, Some rg)) in (x1, match x2 with None => Some rg' | Some b => if b <?q rg' then Some rg' else Some b end)) = (x1, Some x2) /\ x1 == Qmin l l' /\ x2 == Qmax rg rg').
  { destruct (qmin_case l l') as [[M1 M2]|[M1 M2]], (qmax_case rg rg') as [[N1 N2]|[N1 N2]];
    (destruct (Qltb_spec l' l); [|destruct (Qltb_spec rg l')]);
    match goal with |- context [?b <?q rg'] => destruct (Qltb_spec b rg') end; eexists; eexists; (split; [reflexivity|]); split; lra. }
  assert (Y : exists y1 y2, (let '(y1, y2) := (if t' <?q t then (t', Some bt) else if bt <?q t' then (t, Some t') else (t, Some bt)) in (y1, match y2 with None => Some bt' | Some b => if b <?q bt' then Some bt' else Some b end)) = (y1, Some y2) /\ y1 == Qmin t t' /\ y2 == Qmax bt bt').
  { destruct (qmin_case t t') as [[M1 M2]|[M1 M2]], (qmax_case bt bt') as [[N1 N2]|[N1 N2]];
    (destruct (Qltb_spec t' t); [|destruct (Qltb_spec bt t')]);
    match goal with |- context [?b <?q bt'] => destruct (Qltb_spec b bt') end; eexists; eexists; (split; [reflexivity|]); split; lra. }
  destruct X as (x1 & x2 & EX & X1 & X2). destruct Y as (y1 & y2 & EY & Y1 & Y2).
  destruct (if l' <?q l then (l', Some rg) else if rg <?q l' then (l, Some l') else (l, Some rg)) as [p1 p2]. destruct (if t' <?q t then (t', Some bt) else if bt <?q t' then (t, Some t') else (t, Some bt)) as [q1 q2].
  injection EX as -> EX. injection EY as -> EY. rewrite EX, EY. unfold fset_coords, around. apply rect4_eqb; [exact X1|exact Y1| |]; apply (r_proper f u R); lra.
Qed.
(* the union reaches over both when its sizes come out exact *)
Lemma covers_axis f u (R : rounding f u) l w l' w' d : f l == l -> f l' == l' -> 0 < w -> 0 < w' -> d == Qmax (f (l + w)) (f (l' + w')) - Qmin l l' ->
  let x := Qmin l l' in x <= l /\ l <= f (x + d) /\ f (l + w) <= f (x + d) /\ x <= l' /\ l' <= f (x + d) /\ f (l' + w') <= f (x + d) /\ x <= f (l + w) /\ x <= f (l' + w').
Proof.
  intros K K' P P' D x. assert (A1 := r_up f u R l w K ltac:(lra)). assert (A2 := r_up f u R l' w' K' ltac:(lra)).
  assert (E : x + d == Qmax (f (l + w)) (f (l' + w'))) by (unfold x; rewrite D; ring). assert (F := r_proper f u R _ _ E).
  assert (M1 := Q.le_min_l l l'). assert (M2 := Q.le_min_r l l'). fold x in M1, M2. assert (N1 := Q.le_max_l (f (l + w)) (f (l' + w'))). assert (N2 := Q.le_max_r (f (l + w)) (f (l' + w'))).
  assert (G1 := r_mono f u R _ _ N1). assert (G2 := r_mono f u R _ _ N2). assert (I1 := r_idem f u R (l + w)). assert (I2 := r_idem f u R (l' + w')). repeat split; lra.
Qed.

(** ** Exact differences *)
(* Sterbenz: numbers within a factor of two of each other *)
Lemma digits_le m e k : 0 <= inject_Z k * pow2 e -> inject_Z k * pow2 e <= inject_Z m * pow2 e -> (Z.abs m <= 2 ^ 53)%Z -> digits53 (inject_Z k * pow2 e).
Proof.
  intros A B C. assert (P := pow2_pos e). exists k, e. split; [|reflexivity].
  assert (K0 : 0 <= inject_Z k) by (apply (Qmult_le_r _ _ (pow2 e)); [exact P|lra]). assert (K1 : inject_Z k <= inject_Z m) by (apply (Qmult_le_r _ _ (pow2 e)); [exact P|exact B]).
  change 0 with (inject_Z 0) in K0. rewrite <- Zle_Qle in K0, K1. lia.
Qed.
Lemma digits_proper x y : x == y -> digits53 x -> digits53 y.
Proof. intros E (m & e & M & F). exists m, e. split; [exact M|]. now rewrite <- E. Qed.
Lemma sterbenz x y : digits53 x -> digits53 y -> y <= x -> x <= 2 * y -> digits53 (x - y).
Proof.
  intros (m & e & M & X) (n & g & N & Y) L U. destruct (Z.le_gt_cases g e) as [G|G].
  - assert (E : inject_Z (m * 2 ^ (e - g) - n) * pow2 g == x - y).
    { unfold Z.sub at 1. rewrite inject_Z_plus, inject_Z_opp, inject_Z_mult, <- pow2_Z by lia. rewrite X, Y, (pow2_minus e g). assert (P := pow2_pos g). field. lra. }
    apply (digits_proper _ _ E). apply (digits_le n); [rewrite E; lra|rewrite E, <- Y; lra|exact N].
  - assert (E : inject_Z (m - n * 2 ^ (g - e)) * pow2 e == x - y).
    { unfold Z.sub at 1. rewrite inject_Z_plus, inject_Z_opp, inject_Z_mult, <- pow2_Z by lia. rewrite X, Y, (pow2_minus g e). assert (P := pow2_pos e). field. lra. }
    apply (digits_proper _ _ E). apply (digits_le m); [rewrite E; lra|rewrite E, <- X; lra|exact M].
Qed.

(** ** The grid *)
Lemma grid_digits k n x : (n <= 2 ^ 53)%Z -> on_grid k n x -> fl x == x.
Proof. intros N (z & Z & E). apply fl_exact. exists z, k. split; [lia|exact E]. Qed.
Lemma grid_plus k n m x y : on_grid k n x -> on_grid k m y -> on_grid k (n + m) (x + y).
Proof. intros (z & A & E) (z' & B & F). exists (z + z')%Z. split; [lia|]. rewrite E, F, inject_Z_plus. ring. Qed.
Lemma grid_minus k n m x y : on_grid k n x -> on_grid k m y -> on_grid k (n + m) (x - y).
Proof. intros (z & A & E) (z' & B & F). exists (z - z')%Z. split; [lia|]. unfold Z.sub. rewrite E, F, inject_Z_plus, inject_Z_opp. ring. Qed.
Lemma grid_proper k n x y : x == y -> on_grid k n x -> on_grid k n y.
Proof. intros E (z & A & F). exists z. split; [exact A|]. now rewrite <- E. Qed.
Lemma grid_weak k n m x : (n <= m)%Z -> on_grid k n x -> on_grid k m x.
Proof. intros L (z & A & F). exists z. split; [lia|exact F]. Qed.
Lemma Qltb_comp a b c d : a == b -> c == d -> (a <?q c) = (b <?q d).
Proof. intros A B. destruct (Qltb_spec a c), (Qltb_spec b d); try reflexivity; exfalso; lra. Qed.
Lemma Qleb_comp a b c d : a == b -> c == d -> (a <=?q c) = (b <=?q d).
Proof. intros A B. destruct (Qleb_spec a c), (Qleb_spec b d); try reflexivity; exfalso; lra. Qed.
