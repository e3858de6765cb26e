(** Rectangles with rounded numbers: the grid, intersections, bounding boxes. *)
From Coq Require Import Qabs Qpower Qminmax Qround ZArith Lqa Lia Bool List.
From Verif Require Import PyBase RectModel FloatModel FloatSpec FloatProofs FloatProofs2.
Import ListNotations.
#[local] Open Scope Q_scope.

Definition exact (q : Q) : Q := q.
Lemma exact_rounding : rounding exact 0.
Proof. unfold exact. split; intros; try reflexivity; try assumption. assert (E : x - x == 0) by ring. rewrite E. change (Qabs 0) with 0. lra. Qed.

(** ** Functions agree where the rounding changes nothing *)
Lemma contains_same f l t w h x y ow oh : f (l + w) == l + w -> f (t + h) == t + h -> f (x + ow) == x + ow -> f (y + oh) == y + oh ->
  fcontains f (rect4 l t w h) x y ow oh = contains (rect4 l t w h) x y ow oh.
Proof.
  intros A B C D. change (contains (rect4 l t w h) x y ow oh) with (fcontains exact (rect4 l t w h) x y ow oh). apply eq_true_iff_eq.
  destruct (Qlt_le_dec 0 ow) as [P|P]; [destruct (Qlt_le_dec 0 oh) as [Q|Q]|].
  - rewrite !fcontains_iff by assumption. unfold exact. rewrite A, B, C, D. reflexivity.
  - rewrite !fcontains_point by tauto. unfold exact. rewrite A, B. reflexivity.
  - rewrite !fcontains_point by tauto. unfold exact. rewrite A, B. reflexivity.
Qed.
Lemma rect_eqb_refl r : rect_eqb r r = true.
Proof.
  unfold rect_eqb, opt_eqb. destruct (rx r) as [x|], (ry r) as [y|]; repeat match goal with |- context [?a =?q ?a] => destruct (Qeqb_spec a a) as [_|N]; [|exfalso; apply N; reflexivity] end; reflexivity.
Qed.
Lemma rect_eqb_parts l t w h l' t' w' h' : rect_eqb (rect4 l t w h) (rect4 l' t' w' h') = true -> l == l' /\ t == t' /\ w == w' /\ h == h'.
Proof. unfold rect_eqb, rect4. cbn. destruct (Qeqb_spec l l'), (Qeqb_spec t t'), (Qeqb_spec w w'), (Qeqb_spec h h'); cbn; intros; try discriminate; tauto. Qed.

Lemma grid_min k n x y : on_grid k n x -> on_grid k n y -> on_grid k n (Qmin x y).
Proof. intros A B. destruct (qmin_case x y) as [[E _]|[E _]]; apply (grid_proper _ _ _ _ (Qeq_sym _ _ E)); assumption. Qed.
Lemma grid_max k n x y : on_grid k n x -> on_grid k n y -> on_grid k n (Qmax x y).
Proof. intros A B. destruct (qmax_case x y) as [[E _]|[E _]]; apply (grid_proper _ _ _ _ (Qeq_sym _ _ E)); assumption. Qed.
Lemma grid_fl2 k n x : (n <= 2 ^ 53)%Z -> on_grid k n x -> on_grid k n (fl x).
Proof. intros N G. apply (grid_proper k n x); [symmetry; now apply (grid_digits k n)|exact G]. Qed.

Lemma grid_kept k n l t w h : (n <= 2 ^ 53)%Z -> grid_rect k n l t w h -> kept_rect fl l t w h.
Proof. intros N (A & B & C & D). repeat split; eapply grid_digits; eassumption. Qed.
Lemma qmax_comp a b c d : a == b -> c == d -> Qmax a c == Qmax b d.
Proof. intros A B. destruct (qmax_case a c) as [[E ?]|[E ?]], (qmax_case b d) as [[F ?]|[F ?]]; rewrite E, F; lra. Qed.

Lemma contains_grid k l t w h x y ow oh : grid_rect k (2 ^ 52) l t w h -> grid_rect k (2 ^ 52) x y ow oh -> fcontains fl (rect4 l t w h) x y ow oh = contains (rect4 l t w h) x y ow oh.
Proof.
  intros (A & B & C & D) (E & F & G & H). apply contains_same; (apply (grid_digits k (2 ^ 52 + 2 ^ 52)); [vm_compute; discriminate|now apply grid_plus]).
Qed.
Lemma unite_grid k l t w h x y ow oh : grid_rect k (2 ^ 50) l t w h -> grid_rect k (2 ^ 50) x y ow oh -> 0 < w -> 0 < h -> 0 < ow -> 0 < oh ->
  rect_eqb (funite fl (rect4 l t w h) (rect4 x y ow oh)) (unite (rect4 l t w h) (rect4 x y ow oh)) = true.
Proof.
  intros G1 G2 Pw Ph Qw Qh.
  assert (S : forall n a b c d, (2 ^ 50 <= n)%Z -> grid_rect k (2 ^ 50) a b c d -> grid_rect k n a b c d).
  { intros n a b c d L (A & B & C & D). repeat split; eapply grid_weak; eassumption. }
  assert (CE := contains_grid k l t w h x y ow oh (S (2 ^ 52)%Z _ _ _ _ ltac:(vm_compute; discriminate) G1) (S (2 ^ 52)%Z _ _ _ _ ltac:(vm_compute; discriminate) G2)).
  destruct (contains (rect4 l t w h) x y ow oh) eqn:C.
  - unfold funite, funite_self, unite, unite_self. cbn [rect4 rx ry rw rh] in *. rewrite CE, C. apply rect_eqb_refl.
  - assert (K1 := grid_kept k (2 ^ 50) l t w h ltac:(vm_compute; discriminate) G1). assert (K2 := grid_kept k (2 ^ 50) x y ow oh ltac:(vm_compute; discriminate) G2).
    assert (U1 := unite_around fl _ fl_rounding l t w h x y ow oh K1 K2 Pw Ph Qw Qh CE).
    assert (I : forall a b c d, kept_rect exact a b c d) by (intros; unfold kept_rect, exact; repeat split; reflexivity).
    assert (U2 := unite_around exact _ exact_rounding l t w h x y ow oh (I _ _ _ _) (I _ _ _ _) Pw Ph Qw Qh C). change (funite exact (rect4 l t w h) (rect4 x y ow oh)) with (unite (rect4 l t w h) (rect4 x y ow oh)) in U2.
    assert (V : forall r s c, rect_eqb r s = true -> rect_eqb c s = true -> rect_eqb r c = true).
    { clear. intros [[a|] [b|] c d] [[a'|] [b'|] c' d'] [[p|] [q|] m n]; unfold rect_eqb; cbn; try discriminate; intros A B; repeat rewrite andb_true_iff in *; repeat match goal with H : _ /\ _ |- _ => destruct H end; repeat split; try reflexivity;
      repeat match goal with H : context [?u =?q ?v] |- _ => destruct (Qeqb_spec u v); try discriminate; clear H end; match goal with |- context [?u =?q ?v] => destruct (Qeqb_spec u v) as [_|N]; [reflexivity|exfalso; apply N; lra] end. }
    apply (V _ _ _ U1). clear U1. destruct G1 as (A1 & A2 & A3 & A4), G2 as (B1 & B2 & B3 & B4).
    assert (E1 : fl (l + w) == l + w) by (apply (grid_digits k (2 ^ 50 + 2 ^ 50)); [vm_compute; discriminate|now apply grid_plus]).
    assert (E2 : fl (t + h) == t + h) by (apply (grid_digits k (2 ^ 50 + 2 ^ 50)); [vm_compute; discriminate|now apply grid_plus]).
    assert (E3 : fl (x + ow) == x + ow) by (apply (grid_digits k (2 ^ 50 + 2 ^ 50)); [vm_compute; discriminate|now apply grid_plus]).
    assert (E4 : fl (y + oh) == y + oh) by (apply (grid_digits k (2 ^ 50 + 2 ^ 50)); [vm_compute; discriminate|now apply grid_plus]).
    apply (V _ (around exact l t (exact (l + w)) (exact (t + h)) x y (exact (x + ow)) (exact (y + oh)))); [exact U2|]. unfold around, exact. apply rect4_eqb; try reflexivity.
    + rewrite (fl_proper _ (Qmax (l + w) (x + ow) - Qmin l x)) by (rewrite (qmax_comp _ _ _ _ E1 E3); reflexivity).
      apply (grid_digits k (2 ^ 51 + 2 ^ 50)); [vm_compute; discriminate|]. apply grid_minus; [apply grid_max; apply (grid_plus k (2 ^ 50) (2 ^ 50)); assumption|apply grid_min; assumption].
    + rewrite (fl_proper _ (Qmax (t + h) (y + oh) - Qmin t y)) by (rewrite (qmax_comp _ _ _ _ E2 E4); reflexivity).
      apply (grid_digits k (2 ^ 51 + 2 ^ 50)); [vm_compute; discriminate|]. apply grid_minus; [apply grid_max; apply (grid_plus k (2 ^ 50) (2 ^ 50)); assumption|apply grid_min; assumption].
Qed.

(** ** Intersection: its corners from the edges *)
Definition corners (l t rg bt ol ot org obt : Q) : (Q * Q) * (Q * Q) :=
  let overlap_v := ((ot <?q t) && (bt <?q obt)) || ((t <=?q ot) && (ot <?q bt)) || ((t <?q obt) && (obt <=?q bt)) in
  let overlap_h := ((ol <?q l) && (rg <?q org)) || ((l <=?q ol) && (ol <?q rg)) || ((l <?q org) && (org <=?q rg)) in
  ((if (l <?q ol) && (ol <?q rg) && overlap_v then ol else l, if (t <?q ot) && (ot <?q bt) && overlap_h then ot else t),
   (if (l <?q org) && (org <?q rg) && overlap_v then org else rg, if (t <?q obt) && (obt <?q bt) && overlap_h then obt else bt)).
Lemma intersect_corners f l t w h ol ot ow oh : 0 < w -> 0 < h -> 0 < ow -> 0 < oh -> fcontains f (rect4 ol ot ow oh) l t w h = false ->
  let '((x1, y1), (x2, y2)) := corners l t (f (l + w)) (f (t + h)) ol ot (f (ol + ow)) (f (ot + oh)) in fintersect f (rect4 l t w h) (rect4 ol ot ow oh) = fset_coords f x1 y1 x2 y2.
Proof.
  intros A B C D N. unfold fintersect. rewrite (proj2 (isvalid4 l t w h) (conj A B)), (proj2 (isvalid4 ol ot ow oh) (conj C D)). cbn [negb orb]. cbn [rect4 rx ry rw rh] in *. fold (rect4 ol ot ow oh) in *. rewrite N. reflexivity.
Qed.
Lemma corners_edges l t rg bt ol ot org obt : l < rg -> t < bt -> ol < org -> ot < obt ->
  let '((x1, y1), (x2, y2)) := corners l t rg bt ol ot org obt in x1 < x2 /\ y1 < y2 /\ l <= x1 /\ x2 <= rg /\ t <= y1 /\ y2 <= bt /\ (x1 == l \/ x1 == ol) /\ (x2 == rg \/ x2 == org) /\ (y1 == t \/ y1 == ot) /\ (y2 == bt \/ y2 == obt).
Proof.
  intros A B C D. unfold corners.
  set (v := ((ot <?q t) && (bt <?q obt)) || ((t <=?q ot) && (ot <?q bt)) || ((t <?q obt) && (obt <=?q bt))). set (e := ((ol <?q l) && (rg <?q org)) || ((l <=?q ol) && (ol <?q rg)) || ((l <?q org) && (org <=?q rg))). clearbody v e.
  assert (X : forall s, (if (l <?q ol) && (ol <?q rg) && s then ol else l) < (if (l <?q org) && (org <?q rg) && s then org else rg) /\ l <= (if (l <?q ol) && (ol <?q rg) && s then ol else l) /\ (if (l <?q org) && (org <?q rg) && s then org else rg) <= rg
     /\ ((if (l <?q ol) && (ol <?q rg) && s then ol else l) == l \/ (if (l <?q ol) && (ol <?q rg) && s then ol else l) == ol) /\ ((if (l <?q org) && (org <?q rg) && s then org else rg) == rg \/ (if (l <?q org) && (org <?q rg) && s then org else rg) == org)).
  { intros s. destruct (Qltb_spec l ol), (Qltb_spec ol rg), (Qltb_spec l org), (Qltb_spec org rg), s; cbn [andb]; repeat split; try lra; (left; reflexivity) || (right; reflexivity). }
  assert (Y : forall s, (if (t <?q ot) && (ot <?q bt) && s then ot else t) < (if (t <?q obt) && (obt <?q bt) && s then obt else bt) /\ t <= (if (t <?q ot) && (ot <?q bt) && s then ot else t) /\ (if (t <?q obt) && (obt <?q bt) && s then obt else bt) <= bt
     /\ ((if (t <?q ot) && (ot <?q bt) && s then ot else t) == t \/ (if (t <?q ot) && (ot <?q bt) && s then ot else t) == ot) /\ ((if (t <?q obt) && (obt <?q bt) && s then obt else bt) == bt \/ (if (t <?q obt) && (obt <?q bt) && s then obt else bt) == obt)).
  { intros s. destruct (Qltb_spec t ot), (Qltb_spec ot bt), (Qltb_spec t obt), (Qltb_spec obt bt), s; cbn [andb]; repeat split; try lra; (left; reflexivity) || (right; reflexivity). }
  destruct (X v) as (X1 & X2 & X3 & X4 & X5), (Y e) as (Y1 & Y2 & Y3 & Y4 & Y5). tauto.
Qed.
(* overlapping rectangles: the corners are those of the common part *)
Lemma corners_overlap l t rg bt ol ot org obt : l < rg -> t < bt -> ol < org -> ot < obt -> Qmax l ol < Qmin rg org -> Qmax t ot < Qmin bt obt ->
  let '((x1, y1), (x2, y2)) := corners l t rg bt ol ot org obt in x1 == Qmax l ol /\ y1 == Qmax t ot /\ x2 == Qmin rg org /\ y2 == Qmin bt obt.
Proof.
  intros A B C D X Y. unfold corners.
  assert (V : ((ot <?q t) && (bt <?q obt)) || ((t <=?q ot) && (ot <?q bt)) || ((t <?q obt) && (obt <=?q bt)) = true).
  { destruct (qmax_case t ot) as [[M ?]|[M ?]], (qmin_case bt obt) as [[N ?]|[N ?]]; rewrite M, N in Y; destruct (Qltb_spec ot t), (Qltb_spec bt obt), (Qleb_spec t ot), (Qltb_spec ot bt), (Qltb_spec t obt), (Qleb_spec obt bt); try reflexivity; exfalso; lra. }
  assert (E : ((ol <?q l) && (rg <?q org)) || ((l <=?q ol) && (ol <?q rg)) || ((l <?q org) && (org <=?q rg)) = true).
  { destruct (qmax_case l ol) as [[M ?]|[M ?]], (qmin_case rg org) as [[N ?]|[N ?]]; rewrite M, N in X; destruct (Qltb_spec ol l), (Qltb_spec rg org), (Qleb_spec l ol), (Qltb_spec ol rg), (Qltb_spec l org), (Qleb_spec org rg); try reflexivity; exfalso; lra. }
  rewrite V, E. rewrite !andb_true_r.
  repeat split; match goal with |- context [Qmax ?a ?b] => destruct (qmax_case a b) as [[M ?]|[M ?]] | |- context [Qmin ?a ?b] => destruct (qmin_case a b) as [[M ?]|[M ?]] end; rewrite M; clear V E;
    revert X Y; destruct (qmax_case l ol) as [[M1 ?]|[M1 ?]], (qmin_case rg org) as [[N1 ?]|[N1 ?]], (qmax_case t ot) as [[M2 ?]|[M2 ?]], (qmin_case bt obt) as [[N2 ?]|[N2 ?]]; rewrite M1, M2, N1, N2; intros X Y;
    match goal with |- (if (?a <?q ?b) && (?c <?q ?d) then _ else _) == _ => destruct (Qltb_spec a b), (Qltb_spec c d); cbn [andb]; lra end.
Qed.
Lemma corners_comp l t rg bt ol ot org obt rg' bt' org' obt' : rg == rg' -> bt == bt' -> org == org' -> obt == obt' ->
  let '((x1, y1), (x2, y2)) := corners l t rg bt ol ot org obt in let '((x1', y1'), (x2', y2')) := corners l t rg' bt' ol ot org' obt' in x1 == x1' /\ y1 == y1' /\ x2 == x2' /\ y2 == y2'.
Proof.
  intros A B C D. unfold corners. assert (R : forall q : Q, q == q) by reflexivity.
  rewrite (Qltb_comp bt bt' obt obt' B D), (Qltb_comp ot ot bt bt' (R _) B), (Qltb_comp t t obt obt' (R _) D), (Qleb_comp obt obt' bt bt' D B), (Qltb_comp obt obt' bt bt' D B).
  rewrite (Qltb_comp rg rg' org org' A C), (Qltb_comp ol ol rg rg' (R _) A), (Qltb_comp l l org org' (R _) C), (Qleb_comp org org' rg rg' C A), (Qltb_comp org org' rg rg' C A).
  repeat split; match goal with |- (if ?c then _ else _) == _ => destruct c end; try reflexivity; assumption.
Qed.
Lemma intersect_grid k l t w h x y ow oh : grid_rect k (2 ^ 50) l t w h -> grid_rect k (2 ^ 50) x y ow oh -> 0 < w -> 0 < h -> 0 < ow -> 0 < oh ->
  rect_eqb (fintersect fl (rect4 l t w h) (rect4 x y ow oh)) (intersect_self (rect4 l t w h) (rect4 x y ow oh)) = true.
Proof.
  intros G1 G2 Pw Ph Qw Qh.
  assert (S : forall n a b c d, (2 ^ 50 <= n)%Z -> grid_rect k (2 ^ 50) a b c d -> grid_rect k n a b c d).
  { intros n a b c d L (A & B & C & D). repeat split; eapply grid_weak; eassumption. }
  assert (CE := contains_grid k x y ow oh l t w h (S (2 ^ 52)%Z _ _ _ _ ltac:(vm_compute; discriminate) G2) (S (2 ^ 52)%Z _ _ _ _ ltac:(vm_compute; discriminate) G1)).
  change (intersect_self (rect4 l t w h) (rect4 x y ow oh)) with (fintersect exact (rect4 l t w h) (rect4 x y ow oh)).
  change (contains (rect4 x y ow oh) l t w h) with (fcontains exact (rect4 x y ow oh) l t w h) in CE. destruct (fcontains exact (rect4 x y ow oh) l t w h) eqn:C.
  - unfold fintersect. rewrite (proj2 (isvalid4 l t w h) (conj Pw Ph)), (proj2 (isvalid4 x y ow oh) (conj Qw Qh)). cbn [negb orb]. cbn [rect4 rx ry rw rh] in *. fold (rect4 x y ow oh) in *. rewrite CE, C. apply rect_eqb_refl.
  - assert (I1 := intersect_corners fl l t w h x y ow oh Pw Ph Qw Qh CE). assert (I2 := intersect_corners exact l t w h x y ow oh Pw Ph Qw Qh C).
    destruct G1 as (A1 & A2 & A3 & A4), G2 as (B1 & B2 & B3 & B4).
    assert (E1 : fl (l + w) == l + w) by (apply (grid_digits k (2 ^ 50 + 2 ^ 50)); [vm_compute; discriminate|now apply grid_plus]).
    assert (E2 : fl (t + h) == t + h) by (apply (grid_digits k (2 ^ 50 + 2 ^ 50)); [vm_compute; discriminate|now apply grid_plus]).
    assert (E3 : fl (x + ow) == x + ow) by (apply (grid_digits k (2 ^ 50 + 2 ^ 50)); [vm_compute; discriminate|now apply grid_plus]).
    assert (E4 : fl (y + oh) == y + oh) by (apply (grid_digits k (2 ^ 50 + 2 ^ 50)); [vm_compute; discriminate|now apply grid_plus]).
    assert (K := corners_comp l t _ _ x y _ _ _ _ _ _ E1 E2 E3 E4). unfold exact in I2 at 1 2 3 4.
    assert (Z := corners_edges l t (l + w) (t + h) x y (x + ow) (y + oh) ltac:(lra) ltac:(lra) ltac:(lra) ltac:(lra)).
    destruct (corners l t (fl (l + w)) (fl (t + h)) x y (fl (x + ow)) (fl (y + oh))) as [[p1 q1] [p2 q2]]. destruct (corners l t (l + w) (t + h) x y (x + ow) (y + oh)) as [[p1' q1'] [p2' q2']].
    rewrite I1, I2. unfold fset_coords, exact. destruct K as (K1 & K2 & K3 & K4). destruct Z as (_ & _ & _ & _ & _ & _ & Z1 & Z2 & Z3 & Z4).
    assert (H1 : on_grid k (2 ^ 50) p1') by (destruct Z1 as [Z|Z]; apply (grid_proper _ _ _ _ (Qeq_sym _ _ Z)); assumption).
    assert (H2 : on_grid k (2 ^ 50 + 2 ^ 50) p2') by (destruct Z2 as [Z|Z]; apply (grid_proper _ _ _ _ (Qeq_sym _ _ Z)); now apply grid_plus).
    assert (H3 : on_grid k (2 ^ 50) q1') by (destruct Z3 as [Z|Z]; apply (grid_proper _ _ _ _ (Qeq_sym _ _ Z)); assumption).
    assert (H4 : on_grid k (2 ^ 50 + 2 ^ 50) q2') by (destruct Z4 as [Z|Z]; apply (grid_proper _ _ _ _ (Qeq_sym _ _ Z)); now apply grid_plus).
    apply rect4_eqb; [exact K1|exact K2| |].
    + rewrite (fl_proper _ (p2' - p1')) by (rewrite K1, K3; reflexivity). apply (grid_digits k (2 ^ 50 + 2 ^ 50 + 2 ^ 50)); [vm_compute; discriminate|]. now apply grid_minus.
    + rewrite (fl_proper _ (q2' - q1')) by (rewrite K2, K4; reflexivity). apply (grid_digits k (2 ^ 50 + 2 ^ 50 + 2 ^ 50)); [vm_compute; discriminate|]. now apply grid_minus.
Qed.

(** ** The left and top edges of a union *)
Lemma contains_corner f l t w h x y ow oh : fcontains f (rect4 l t w h) x y ow oh = true -> l <= x /\ t <= y.
Proof.
  intros C. destruct (Qlt_le_dec 0 ow) as [P|P]; [destruct (Qlt_le_dec 0 oh) as [Q|Q]|].
  - apply fcontains_iff in C; try assumption. lra.
  - apply fcontains_point in C; [|tauto]. lra.
  - apply fcontains_point in C; [|tauto]. lra.
Qed.
Lemma unite_corner f l t w h x y ow oh : exists l' t' w' h', funite f (rect4 l t w h) (rect4 x y ow oh) = rect4 l' t' w' h' /\ l' == Qmin l x /\ t' == Qmin t y /\ (l' = l \/ l' = x) /\ (t' = t \/ t' = y).
Proof.
  unfold funite, funite_self, fright, fbottom. cbn [rect4 rx ry rw rh]. fold (rect4 l t w h). destruct (fcontains f (rect4 l t w h) x y ow oh) eqn:C.
  - apply contains_corner in C. exists l, t, w, h. destruct (qmin_case l x) as [[M ?]|[M ?]], (qmin_case t y) as [[N ?]|[N ?]]; repeat split; try (left; reflexivity); lra.
  - assert (X : exists a b, (if x <?q l then (x, Some (f (l + w))) else if f (l + w) <?q x then (l, Some x) else (l, Some (f (l + w)))) = (a, Some b) /\ a == Qmin l x /\ (a = l \/ a = x)).
    { destruct (qmin_case l x) as [[M ?]|[M ?]], (Qltb_spec x l); try destruct (f (l + w) <?q x); eexists; eexists; (split; [reflexivity|]); (split; [lra|]); (left; reflexivity) || (right; reflexivity). }
    assert (Y : exists a b, (if y <?q t then (y, Some (f (t + h))) else if f (t + h) <?q y then (t, Some y) else (t, Some (f (t + h)))) = (a, Some b) /\ a == Qmin t y /\ (a = t \/ a = y)).
    { destruct (qmin_case t y) as [[M ?]|[M ?]], (Qltb_spec y t); try destruct (f (t + h) <?q y); eexists; eexists; (split; [reflexivity|]); (split; [lra|]); (left; reflexivity) || (right; reflexivity). }
    destruct X as (a & b & -> & X1 & X2), Y as (c & d & -> & Y1 & Y2).
    destruct ((0 <?q ow) && (0 <?q oh)); [destruct (b <?q f (x + ow)), (d <?q f (y + oh))|]; unfold fset_coords; do 4 eexists; (split; [reflexivity|]); tauto.
Qed.
Lemma unite_all f (rs : list (Q * Q * Q * Q)) : forall l t w h, exists l' t' w' h',
  fold_left (fun r o => let '(x, y, ow, oh) := o in funite f r (rect4 x y ow oh)) rs (rect4 l t w h) = rect4 l' t' w' h'
  /\ l' <= l /\ t' <= t /\ (forall x y ow oh, In (x, y, ow, oh) rs -> l' <= x /\ t' <= y)
  /\ (l' = l \/ exists x y ow oh, In (x, y, ow, oh) rs /\ l' = x) /\ (t' = t \/ exists x y ow oh, In (x, y, ow, oh) rs /\ t' = y).
Proof.
  induction rs as [|[[[x y] ow] oh] rs IH]; intros l t w h; cbn [fold_left].
  - exists l, t, w, h. repeat split; try lra; try (left; reflexivity); cbn in *; contradiction.
  - destruct (unite_corner f l t w h x y ow oh) as (a & b & c & d & -> & A1 & A2 & A3 & A4). destruct (IH a b c d) as (l' & t' & w' & h' & -> & L & T & AllL & EL & ET). exists l', t', w', h'.
    assert (M1 := Q.le_min_l l x). assert (M2 := Q.le_min_r l x). assert (M3 := Q.le_min_l t y). assert (M4 := Q.le_min_r t y).
    split; [reflexivity|]. split; [lra|]. split; [lra|]. split; [|split].
    + intros p q m n [E|E]; [injection E as -> -> -> ->; lra|]. eapply AllL, E.
    + destruct EL as [->|(p & q & m & n & I & ->)]; [destruct A3 as [-> | ->]; [now left|right; exists x, y, ow, oh; split; [now left|reflexivity]]|right; exists p, q, m, n; split; [now right|reflexivity]].
    + destruct ET as [->|(p & q & m & n & I & ->)]; [destruct A4 as [-> | ->]; [now left|right; exists x, y, ow, oh; split; [now left|reflexivity]]|right; exists p, q, m, n; split; [now right|reflexivity]].
Qed.

(** ** Ties *)
Lemma fl_tie m e : (2 ^ 52 <= m < 2 ^ 53)%Z -> fl ((inject_Z m + (1#2)) * pow2 e) == inject_Z (if Z.even m then m else m + 1) * pow2 e.
Proof.
  intros M. assert (P := pow2_pos e). assert (Pm : inject_Z (2 ^ 52) <= inject_Z m) by (rewrite <- Zle_Qle; lia). assert (Qm : inject_Z m + 1 <= inject_Z (2 ^ 53)) by (change 1 with (inject_Z 1); rewrite <- inject_Z_plus, <- Zle_Qle; lia).
  assert (P0 : 0 < inject_Z (2 ^ 52)) by reflexivity. set (q := (inject_Z m + (1#2)) * pow2 e). assert (Q0 : 0 < q) by (apply Qmult_lt_0_compat; lra).
  assert (X : exponent q = (e + 52)%Z).
  { apply exponent_unique; [exact Q0|]. assert (F1 : pow2 (e + 52) == inject_Z (2 ^ 52) * pow2 e) by (rewrite pow2_plus, (pow2_Z 52) by lia; ring).
    assert (F2 : pow2 (e + 52 + 1) == inject_Z (2 ^ 53) * pow2 e) by (replace (e + 52 + 1)%Z with (e + 53)%Z by lia; rewrite pow2_plus, (pow2_Z 53) by lia; ring).
    rewrite F1, F2. unfold q. split; [apply Qmult_le_r; [exact P|lra]|apply Qmult_lt_r; [exact P|lra]]. }
  unfold fl. destruct (Qeqb_spec q 0) as [Z|_]; [exfalso; lra|]. destruct (Qltb_spec q 0) as [Z|_]; [exfalso; lra|]. unfold fl_pos. rewrite X. replace (e + 52 - 52)%Z with e by lia.
  assert (D : q / pow2 e == inject_Z m + (1#2)) by (unfold q; field; lra). rewrite (nearest_proper _ _ D). unfold nearest_even.
  assert (Fl : Qfloor (inject_Z m + (1#2)) = m). { assert (A := Qfloor_le (inject_Z m + (1#2))). assert (B := Qlt_floor (inject_Z m + (1#2))). assert (A' : inject_Z (Qfloor (inject_Z m + (1#2))) < inject_Z (m + 1)) by (rewrite (inject_Z_plus m 1); change (inject_Z 1) with 1; lra). assert (B' : inject_Z m < inject_Z (Qfloor (inject_Z m + (1#2)) + 1)) by lra. rewrite <- Zlt_Qlt in A', B'. lia. }
  rewrite Fl. destruct (Qltb_spec (inject_Z m + (1#2) - inject_Z m) (1#2)) as [Z|_]; [exfalso; lra|]. destruct (Qltb_spec (1#2) (inject_Z m + (1#2) - inject_Z m)) as [Z|_]; [exfalso; lra|]. destruct (Z.even m); reflexivity.
Qed.
