(** Lengths with rounded numbers: conversions, comparisons and sums. *)
From Coq Require Import Qround Qabs Qpower Qminmax ZArith Lia Lqa Qfield.
From Verif Require Import PyBase PyText PySplit CssUnitModel LengthModel LengthSpec LengthProofs FloatModel FloatSpec FloatProofs FloatProofs2 DecModel DecSpec DecProofs DecProofs2.
#[local] Open Scope Q_scope.

(** ** math.isclose *)
Lemma isclose_iff a b : isclose a b = true <-> band tol a b.
Proof.
  unfold isclose, band. rewrite orb_true_iff.
  assert (E : forall x y, (x <=?q y) = true <-> x <= y) by (intros x y; destruct (Qleb_spec x y); split; congruence || contradiction || auto).
  assert (F : (a =?q b) = true -> a == b) by (destruct (Qeqb_spec a b); congruence || auto).
  rewrite E. assert (T : tol == 1#1000000000) by reflexivity.
  assert (M : pymax (tol * pymax (Qabs a) (Qabs b)) tol == tol * Qmax 1 (Qmax (Qabs a) (Qabs b))).
  { rewrite !pymax_Qmax. rewrite T. destruct (Q.max_spec (Qabs a) (Qabs b)) as [(A & ->)|(A & ->)].
    - destruct (Q.max_spec ((1#1000000000) * Qabs b) (1#1000000000)) as [(B & ->)|(B & ->)], (Q.max_spec 1 (Qabs b)) as [(C & ->)|(C & ->)]; lra.
    - destruct (Q.max_spec ((1#1000000000) * Qabs a) (1#1000000000)) as [(B & ->)|(B & ->)], (Q.max_spec 1 (Qabs a)) as [(C & ->)|(C & ->)]; lra. }
  split.
  - intros [H|H]; [|now rewrite <- M]. apply F in H. assert (Z : a - b == 0) by lra. rewrite Z. change (Qabs 0) with 0. assert (Qmax 1 (Qmax (Qabs a) (Qabs b)) >= 1) by apply Q.le_max_l. rewrite T. lra.
  - intros H. right. now rewrite M.
Qed.
Lemma isclose_refl a : isclose a a = true.
Proof. apply isclose_iff. unfold band. assert (Z : a - a == 0) by ring. rewrite Z. change (Qabs 0) with 0. assert (H := Q.le_max_l 1 (Qmax (Qabs a) (Qabs a))). assert (T : tol == 1#1000000000) by reflexivity. rewrite T. lra. Qed.
Lemma band_sym e a b : band e a b -> band e b a.
Proof. unfold band. intros H. assert (E : b - a == - (a - b)) by ring. rewrite E, Qabs_opp, (Q.max_comm (Qabs b)). exact H. Qed.
Lemma isclose_sym a b : isclose a b = isclose b a.
Proof. destruct (isclose a b) eqn:E. { symmetry. apply isclose_iff, band_sym, isclose_iff, E. } destruct (isclose b a) eqn:F; [|reflexivity]. apply isclose_iff, band_sym, isclose_iff in F. congruence. Qed.
(* small changes do not leave a wider band *)
Definition small : Q := 1#1000000000000.
Lemma band_move2 r e e' a b x y : 0 <= r -> r <= 1#10 -> 0 <= e -> e + (r + r) <= e' * (1 - r) -> near r x a -> near r y b -> band e a b -> band e' x y.
Proof.
  intros P0 P1 P L X Y H. unfold band, near in *. set (A := Qabs a) in *. set (B := Qabs b) in *.
  assert (E : x - y == (x - a) + ((a - b) - (y - b))) by ring.
  assert (T1 := Qabs_triangle (x - a) ((a - b) - (y - b))). assert (T2 := Qabs_triangle (a - b) (- (y - b))). rewrite Qabs_opp in T2.
  assert (Xa : A <= Qabs x + Qabs (x - a)). { assert (U := Qabs_triangle x (- (x - a))). rewrite Qabs_opp in U. assert (Z : x + - (x - a) == a) by ring. rewrite Z in U. exact U. }
  assert (Yb : B <= Qabs y + Qabs (y - b)). { assert (U := Qabs_triangle y (- (y - b))). rewrite Qabs_opp in U. assert (Z : y + - (y - b) == b) by ring. rewrite Z in U. exact U. }
  set (M := Qmax 1 (Qmax A B)) in *. set (M' := Qmax 1 (Qmax (Qabs x) (Qabs y))).
  assert (M1 : A <= M) by (unfold M; apply Qle_trans with (Qmax A B); [apply Q.le_max_l|apply Q.le_max_r]).
  assert (M2 : B <= M) by (unfold M; apply Qle_trans with (Qmax A B); [apply Q.le_max_r|apply Q.le_max_r]).
  assert (M3 : 1 <= M) by apply Q.le_max_l.
  assert (N1 : Qabs x <= M') by (unfold M'; apply Qle_trans with (Qmax (Qabs x) (Qabs y)); [apply Q.le_max_l|apply Q.le_max_r]).
  assert (N2 : Qabs y <= M') by (unfold M'; apply Qle_trans with (Qmax (Qabs x) (Qabs y)); [apply Q.le_max_r|apply Q.le_max_r]).
  assert (N3 : 1 <= M') by apply Q.le_max_l.
  assert (MM : M * (1 - r) <= M').
  { unfold M. destruct (Q.max_spec 1 (Qmax A B)) as [(C & ->)|(C & ->)]; [|lra]. destruct (Q.max_spec A B) as [(D & ->)|(D & ->)]; lra. }
  assert (R1 : r * A <= r * M) by (rewrite !(Qmult_comm r); apply Qmult_le_compat_r; assumption).
  assert (R2 : r * B <= r * M) by (rewrite !(Qmult_comm r); apply Qmult_le_compat_r; assumption).
  assert (S : Qabs (x - y) <= (e + (r + r)) * M) by (rewrite E; unfold Qminus in *; lra).
  apply Qle_trans with (1 := S). apply Qle_trans with (e' * (1 - r) * M); [apply Qmult_le_compat_r; [exact L|lra]|].
  assert (E' : 0 <= e') by nra. assert (K := Qmult_le_compat_r _ _ e' MM E'). lra.
Qed.
Lemma band_move e e' a b x y : 0 <= e -> e + (small + small) <= e' * (1 - small) -> near small x a -> near small y b -> band e a b -> band e' x y.
Proof. intros P L. apply band_move2; auto; discriminate. Qed.
Lemma isclose_near n x y : near small x n -> near small y n -> isclose x y = true.
Proof.
  intros X Y. apply isclose_iff. apply band_move with (e := 0) (a := n) (b := n); auto; try num. unfold band. assert (Z : n - n == 0) by ring. rewrite Z. change (Qabs 0) with 0. lra.
Qed.

(** ** Conversions *)
Lemma rconvert_near f g x u k s su : rounding f u2 -> rounding g u10 -> measures x k s -> sized (ctx x) (ldir x) u k su -> ~ su == 0 -> steady (ctx x) u ->
  exists y, rconvert f g x u = Ok y /\ lunit y = u /\ together x y /\ ccopy y = ccopy x /\ measures y k su /\ near e_value (num y) (num x * s / su).
Proof.
  intros F R M S N ST. unfold rconvert. destruct (unit_eqb_spec u (lunit x)) as [->|D].
  - destruct (sized_fun _ _ _ _ _ _ _ M S) as (_ & E). exists x. repeat split; auto. apply near_comp with (num x) (num x); [reflexivity|rewrite E; field; exact N|apply near_refl; num].
  - destruct (rvalue_near f g x u k s su F R M S N ST) as (w & E & H). rewrite E. cbn [bind]. eexists. split; [reflexivity|]. repeat split; auto.
Qed.
Lemma near_back a b n m s su : 0 <= a -> 0 <= b -> ~ s == 0 -> ~ su == 0 -> near a m (n * s / su) -> forall w, near b w (m * su / s) -> near (b + a + b * a) w n.
Proof.
  intros A B N Nu H w K. apply near_trans with (m * su / s); auto. apply near_comp with (m * (su / s)) (n * s / su * (su / s)); [unfold Qdiv; ring|field; auto|]. apply near_mult_r; auto.
Qed.
Lemma value_back f g x u k s su : rounding f u2 -> rounding g u10 -> measures x k s -> sized (ctx x) (ldir x) u k su -> ~ s == 0 -> ~ su == 0 -> steady (ctx x) u -> steady (ctx x) (lunit x) ->
  exists y w, rconvert f g x u = Ok y /\ rvalue f g y (lunit x) None = Ok w /\ near (3 * u2) w (num x) /\ lunit y = u /\ together x y /\ measures y k su.
Proof.
  intros F R M S N Nu ST STx. destruct (rconvert_near f g x u k s su F R M S Nu ST) as (y & A & B & (C1 & C2) & _ & D & E).
  assert (S' : sized (ctx y) (ldir y) (lunit x) k s) by (rewrite <- C1, <- C2; exact M). rewrite C1 in STx.
  destruct (rvalue_near f g y (lunit x) k su s F R D S' N STx) as (w & V & W). exists y, w. repeat split; auto.
  apply near_weak with (e_value + e_value + e_value * e_value); [num|]. apply near_back with (num y) s su; auto; num.
Qed.

(** ** Sums *)
Lemma sum_error X Y p q z e u : 0 <= e -> 0 <= u -> Qabs (p - X) <= e * Qabs X -> Qabs (q - Y) <= e * Qabs Y -> Qabs (z - (p + q)) <= u * Qabs (p + q) ->
  Qabs (z - (X + Y)) <= (e + u + u * e) * (Qabs X + Qabs Y).
Proof.
  intros E U A B C. assert (Z : z - (X + Y) == (z - (p + q)) + ((p - X) + (q - Y))) by ring. rewrite Z.
  assert (T1 := Qabs_triangle (z - (p + q)) ((p - X) + (q - Y))). assert (T2 := Qabs_triangle (p - X) (q - Y)).
  assert (T3 : Qabs (p + q) <= Qabs X + Qabs Y + (Qabs (p - X) + Qabs (q - Y))).
  { assert (Z2 : p + q == (X + Y) + ((p - X) + (q - Y))) by ring. rewrite Z2. assert (T4 := Qabs_triangle (X + Y) ((p - X) + (q - Y))). assert (T5 := Qabs_triangle X Y). lra. }
  set (a := Qabs X) in *. set (b := Qabs Y) in *. assert (T6 : Qabs (p + q) <= (1 + e) * (a + b)) by lra.
  assert (T7 : u * Qabs (p + q) <= u * ((1 + e) * (a + b))) by (rewrite !(Qmult_comm u); apply Qmult_le_compat_r; assumption).
  lra.
Qed.
Lemma near_scale e w v s : 0 <= e -> ~ s == 0 -> near e w (v / s) -> near e (w * s) v.
Proof. intros E N H. apply near_comp with (w * s) (v / s * s); [reflexivity|field; exact N|]. apply near_mult_r; auto. Qed.
Lemma radopt_near f g x y k s sy : rounding f u2 -> rounding g u10 -> together x y -> measures x k s -> measures y k sy -> ~ s == 0 -> ~ sy == 0 -> steady (ctx y) (lunit y) -> steady (ctx x) (lunit x) ->
  exists z sz, radopt f g x y = Ok z /\ together z x /\ measures z k sz /\ ~ sz == 0 /\ near e_value (num z * sz) (num x * s) /\ steady (ctx z) (lunit z) /\
    (lunit z = lunit x \/ lunit x = None /\ lunit z = lunit y).
Proof.
  intros F R (T1 & T2) M My N Ny ST STx. unfold radopt.
  assert (KEEP : exists z sz, Ok x = Ok z /\ together z x /\ measures z k sz /\ ~ sz == 0 /\ near e_value (num z * sz) (num x * s) /\ steady (ctx z) (lunit z) /\ (lunit z = lunit x \/ lunit x = None /\ lunit z = lunit y)).
  { exists x, s. repeat split; auto. apply near_refl. num. }
  destruct (lunit x) as [ux|] eqn:Ux; [exact KEEP|]. destruct (unit_of y) as [uy|] eqn:Uy; [|exact KEEP]. clear KEEP.
  assert (Ey : lunit y = Some uy) by (unfold unit_of in Uy; destruct (lunit y) as [[|? ?]|]; congruence).
  assert (S : sized (ctx x) (ldir x) (Some uy) k sy) by (rewrite T1, T2, <- Ey; exact My).
  assert (ST' : steady (ctx x) (Some uy)) by (rewrite T1, <- Ey; exact ST).
  destruct (rconvert_near f g x (Some uy) k s sy F R M S Ny ST') as (z & A & B & (C1 & C2) & _ & D & E).
  exists z, sy. rewrite B, Ey. split; [exact A|]. split; [split; congruence|]. split; [exact D|]. split; [exact Ny|].
  split; [apply near_scale; auto; num|]. split; [rewrite <- C1; exact ST'|]. right. auto.
Qed.
Lemma rsum_near f g op sg x y k s sy : rounding f u2 -> rounding g u10 -> (forall a b, op a b == a + sg * b) -> (sg == 1 \/ sg == - (1)) ->
  together x y -> measures x k s -> measures y k sy -> ~ s == 0 -> ~ sy == 0 -> steady (ctx y) (lunit y) -> steady (ctx x) (lunit x) ->
  exists z sz, (do x <- radopt f g x y; do v <- rvalue f g y (lunit x) None; Ok (set_num x (g (op (num x) v)))) = Ok z /\ together z x /\ measures z k sz /\ ~ sz == 0 /\
    Qabs (num z * sz - (num x * s + sg * (num y * sy))) <= 2 * u2 * (Qabs (num x * s) + Qabs (num y * sy)) /\ (lunit z = lunit x \/ lunit x = None /\ lunit z = lunit y).
Proof.
  intros F R O G T M My N Ny ST STx. destruct (radopt_near f g x y k s sy F R T M My N Ny ST STx) as (a & sa & A & (B1 & B2) & C & D & E & H & U). destruct T as (T1 & T2). rewrite A. cbn [bind].
  assert (S : sized (ctx y) (ldir y) (lunit a) k sa) by (rewrite <- T1, <- T2, <- B1, <- B2; exact C).
  assert (ST' : steady (ctx y) (lunit a)) by (rewrite <- T1, <- B1; exact H).
  destruct (rvalue_near f g y (lunit a) k sy sa F R My S D ST') as (v & V & W). rewrite V. cbn [bind]. exists (set_num a (g (op (num a) v))), sa.
  split; [reflexivity|]. split; [split; assumption|]. split; [exact C|]. split; [exact D|]. split; [|exact U]. cbn [num set_num].
  apply near_scale in W; [|num|exact D]. assert (K := r_error _ _ R (op (num a) v)). assert (Oc := O (num a) v).
  assert (L : near u10 (g (op (num a) v)) (num a + sg * v)) by (apply near_comp with (g (op (num a) v)) (op (num a) v); [reflexivity|exact Oc|exact K]).
  apply (near_mult_r _ _ _ sa) in L; [|num].
  assert (SY : Qabs (sg * (num y * sy)) == Qabs (num y * sy)). { rewrite Qabs_Qmult. destruct G as [Z|Z]; rewrite Z; [change (Qabs 1) with 1|change (Qabs (- (1))) with 1]; ring. }
  assert (SV : near e_value (sg * (v * sa)) (sg * (num y * sy))). { apply near_comp with (v * sa * sg) (num y * sy * sg); [ring|ring|]. apply near_mult_r; [num|exact W]. }
  apply Qle_trans with ((e_value + u10 + u10 * e_value) * (Qabs (num x * s) + Qabs (sg * (num y * sy)))).
  - apply sum_error with (num a * sa) (sg * (v * sa)); [num|num|exact E|exact SV|]. unfold near in L. assert (Q : (num a + sg * v) * sa == num a * sa + sg * (v * sa)) by ring. rewrite <- Q. exact L.
  - rewrite SY. apply Qmult_le_compat_r; [num|]. assert (P1 := Qabs_nonneg (num x * s)). assert (P2 := Qabs_nonneg (num y * sy)). lra.
Qed.

(** ** Comparisons *)
Lemma decided f g x y k s sy : rounding f u2 -> rounding g u10 -> together x y -> measures x k s -> measures y k sy -> ~ s == 0 -> steady (ctx x) (lunit x) ->
  exists o, rvalue f g y (lunit x) None = Ok o /\ near e_value o (num y * sy / s) /\ near small (f (num x)) (num x) /\ near small o (num y * sy / s).
Proof.
  intros F R (T1 & T2) M My N ST. assert (S : sized (ctx y) (ldir y) (lunit x) k s) by (rewrite <- T1, <- T2; exact M). rewrite T1 in ST.
  destruct (rvalue_near f g y (lunit x) k sy s F R My S N ST) as (o & E & H). exists o. repeat split; auto.
  - apply near_weak with u2; [num|]. apply near_round, F.
  - apply near_weak with (2 := H). num.
Qed.
Lemma far_order e n m o : e <= 1#10 -> small <= e -> near small o m -> ~ band e n m -> (n < m -> n < o) /\ (m < n -> o < n).
Proof.
  intros E1 E2 H B. unfold band, near in *. assert (L : e * Qmax 1 (Qmax (Qabs n) (Qabs m)) < Qabs (n - m)) by (apply Qnot_le_lt; exact B).
  assert (Mm : Qabs m <= Qmax 1 (Qmax (Qabs n) (Qabs m))) by (apply Qle_trans with (Qmax (Qabs n) (Qabs m)); apply Q.le_max_r).
  assert (P := Qabs_nonneg m). assert (K : small * Qabs m <= e * Qmax 1 (Qmax (Qabs n) (Qabs m))).
  { apply Qmult_le_compat_nonneg; split; auto. discriminate. }
  apply Qle_trans with (2 := K) in H || (assert (H' : Qabs (o - m) < Qabs (n - m)) by lra).
  assert (H' : Qabs (o - m) < Qabs (n - m)) by lra. split; intros C.
  - rewrite (Qabs_neg (n - m)) in H' by lra. apply Qabs_Qlt_condition in H'. lra.
  - rewrite (Qabs_pos (n - m)) in H' by lra. apply Qabs_Qlt_condition in H'. lra.
Qed.
