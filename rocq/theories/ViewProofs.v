(** Proofs about view boxes and viewports. *)
From Coq Require Import Qabs.
From Verif Require Import PyBase PyText PySplit MatrixModel CssUnitModel LengthModel LengthSpec LengthProofs ViewModel ViewSpec.
#[local] Open Scope Q_scope.

Lemma absolute_sized u s : absolute u s -> 0 < s /\ (forall c d, sized c d u Length s) /\ (forall c, steady c u) /\ match u with Some [] => False | _ => True end.
Proof.
  intros A. split; [destruct A; reflexivity|]. split; [intros c d; destruct A; constructor|]. split; [|destruct A; exact I].
  intros c t m p E J. exfalso. destruct A; try discriminate; injection E as <-; cbn in J; repeat destruct J as [J|J]; discriminate || contradiction.
Qed.
Lemma value_abs x u s su : absolute (lunit x) s -> absolute u su -> exists v, value x u None = Ok v /\ v * su == num x * s.
Proof.
  intros A B. destruct (absolute_sized _ _ A) as (P & Z & _). destruct (absolute_sized _ _ B) as (P' & Z' & T & _).
  apply (value_spec x u Length s su); auto; [apply Z|]. lra.
Qed.
Lemma unit_of_abs x s : absolute (lunit x) s -> unit_of x = lunit x.
Proof. intros A. unfold unit_of. destruct (absolute_sized _ _ A) as (_ & _ & _ & N). destruct (lunit x) as [[|]|]; auto; contradiction. Qed.
Lemma absolute_fun u s s' : absolute u s -> absolute u s' -> s == s'.
Proof. intros A B. destruct (absolute_sized _ _ A) as (_ & Z & _). destruct (absolute_sized _ _ B) as (_ & Z' & _). exact (proj2 (sized_fun no_context None u _ _ _ _ (Z _ _) (Z' _ _))). Qed.
(* adopting the unit u, for a length with no unit or already u *)
Lemma adopt_abs x y u s : lunit x = None \/ lunit x = u -> lunit y = u -> absolute u s ->
  exists z, adopt x y = Ok z /\ lunit z = u /\ forall p, shows x p -> num z * s == p.
Proof.
  intros Ux Uy A. assert (Y : unit_of y = u) by (rewrite (unit_of_abs y s); congruence).
  assert (SH : forall p sx, lunit x = u -> absolute (lunit x) sx -> p == num x * sx -> num x * s == p).
  { intros p sx E B ->. rewrite E in B. now rewrite (absolute_fun _ _ _ A B). }
  unfold adopt. rewrite Y. destruct (lunit x) as [ux|] eqn:E.
  - exists x. destruct Ux as [Ux|Ux]; [discriminate|]. split; [auto|]. split; [congruence|]. intros p (sx & B & P). rewrite E in B. eauto.
  - destruct u as [t|].
    + unfold convert. rewrite E. cbn [unit_eqb].
      destruct (value_abs x (Some t) 1 s) as (v & V & H); [rewrite E; constructor|exact A|]. rewrite V. cbn [bind].
      eexists. split; [reflexivity|]. split; [reflexivity|]. intros p (sx & B & P). cbn. rewrite H, P. rewrite E in B. rewrite (absolute_fun _ _ _ ab_none B). reflexivity.
    + exists x. split; [auto|]. split; [auto|]. intros p (sx & B & P). rewrite E in B. eauto.
Qed.
Lemma copied_shows x p : shows x p -> shows (copied x) p. Proof. auto. Qed.
Lemma value_same y u : lunit y = u -> value y u None = Ok (num y).
Proof. intros <-. apply value_own. Qed.
(* the four operations *)
Lemma div_abs x y u s p b : absolute u s -> lunit x = u -> shows x p -> lunit y = None -> num y == b -> ~ b == 0 ->
  exists z, truediv x y = Ok z /\ lunit z = u /\ num z == p / b.
Proof.
  intros A Ux (sx & Ax & P) Uy B N. unfold truediv, idiv, adopt, unit_of. rewrite Uy. cbn [copied lunit]. rewrite Ux.
  assert (S := absolute_fun u s sx A ltac:(congruence)). destruct (absolute_sized _ _ A) as (PS & _).
  replace (match u with | Some _ | _ => _ end) with (@Ok slength (copied x)) by (destruct u; reflexivity). cbn [bind copied lunit num].
  destruct (value_abs y u 1 s) as (v & V & H); [rewrite Uy; constructor|auto|]. rewrite Ux, V. cbn [bind].
  assert (NV : ~ v == 0). { intros Z. apply N. rewrite <- B. rewrite Z in H. lra. }
  destruct (div_spec (num x) v NV) as (q & D & E). rewrite D. cbn [bind]. eexists. split; [reflexivity|]. split; [exact Ux|]. cbn.
  assert (E2 : q * b == p). { rewrite P, <- S, <- E, <- B. setoid_replace (num y) with (v * s) by lra. ring. }
  rewrite <- E2. field. auto.
Qed.
Lemma mul_abs x y u s b : absolute u s -> lunit x = None -> num x == b -> lunit y = u ->
  exists z, mul x y = Ok z /\ lunit z = u /\ shows z (b * num y).
Proof.
  intros A Ux B Uy. unfold mul, imul. destruct (adopt_abs (copied x) y u s) as (z & E & Uz & P); auto. rewrite E. cbn [bind].
  rewrite (value_same y) by congruence. cbn [bind]. eexists. split; [reflexivity|]. split; [exact Uz|]. exists s. cbn [set_num lunit num]. rewrite Uz. split; [exact A|].
  assert (P1 := P b). rewrite <- P1. { ring. } exists 1. cbn. rewrite Ux. split; [constructor|]. rewrite B. ring.
Qed.
Lemma sub_abs x y u s p q : absolute u s -> lunit x = None \/ lunit x = u -> shows x p -> lunit y = u -> shows y q ->
  exists z, sub x y = Ok z /\ lunit z = u /\ shows z (p - q).
Proof.
  intros A Ux X Uy Y. unfold sub, isub. destruct (adopt_abs (copied x) y u s) as (z & E & Uz & P); auto. rewrite E. cbn [bind].
  rewrite (value_same y) by congruence. cbn [bind]. eexists. split; [reflexivity|]. split; [exact Uz|]. exists s. cbn [set_num lunit num]. rewrite Uz. split; [exact A|].
  specialize (P p X). destruct Y as (sy & Ay & Y). rewrite Uy in Ay. rewrite Y, <- (absolute_fun _ _ _ A Ay), <- P. ring.
Qed.
Lemma iadd_abs x y u s p q : absolute u s -> lunit x = u -> shows x p -> lunit y = u -> shows y q ->
  exists z, iadd x y = Ok z /\ lunit z = u /\ shows z (p + q).
Proof.
  intros A Ux X Uy Y. unfold iadd. destruct (adopt_abs x y u s) as (z & E & Uz & P); auto. rewrite E. cbn [bind].
  rewrite (value_same y) by congruence. cbn [bind]. eexists. split; [reflexivity|]. split; [exact Uz|]. exists s. cbn [set_num lunit num]. rewrite Uz. split; [exact A|].
  specialize (P p X). destruct Y as (sy & Ay & Y). rewrite Uy in Ay. rewrite Y, <- (absolute_fun _ _ _ A Ay), <- P. ring.
Qed.
Lemma half_abs x p : shows x p -> exists z, truediv_n x 2 = Ok z /\ lunit z = lunit x /\ shows z (p / 2).
Proof.
  intros (s & A & P). eexists. split; [reflexivity|]. split; [reflexivity|]. exists s. split; [exact A|]. cbn. rewrite P. field.
Qed.
Lemma shows_fun x p q : shows x p -> p == q -> shows x q.
Proof. intros (s & A & P) E. exists s. split; auto. now rewrite <- E. Qed.
Lemma pixels_abs x p : shows x p -> exists v, value x None None = Ok v /\ v == p.
Proof. intros (s & A & P). destruct (value_abs x None s 1 A ab_none) as (v & V & H). exists v. split; auto. rewrite P, <- H. ring. Qed.

(* the placing of the picture along one axis *)
Definition share (a : Z) (mid max : list Z) : Q := (if zin a mid then 1 # 2 else 0) + (if zin a max then 1 else 0).
Lemma axis ex ew vb bw sc u s E W B BW K mid max a :
  absolute u s -> lunit ex = None \/ lunit ex = u -> shows ex E -> lunit ew = u -> shows ew W ->
  lunit vb = None -> num vb == B -> lunit bw = None -> num bw == BW -> lunit sc = u -> num sc == K ->
  exists t1 t2 t3, (do m <- mul vb sc; sub ex m) = Ok t1 /\
    (if zin a mid then do w <- mul bw sc; do d <- sub ew w; do h <- truediv_n d 2; iadd t1 h else Ok t1) = Ok t2 /\
    (if zin a max then do w <- mul bw sc; do d <- sub ew w; iadd t2 d else Ok t2) = Ok t3 /\
    lunit t3 = u /\ shows t3 (E - B * K + share a mid max * (W - BW * K)).
Proof.
  intros A Ue Se Uw Sw Uv Nv Ub Nb Us Ns.
  destruct (mul_abs vb sc u s B A Uv Nv Us) as (m & Em & Um & Sm).
  destruct (sub_abs ex m u s _ _ A Ue Se Um Sm) as (t1 & E1 & U1 & S1).
  destruct (mul_abs bw sc u s BW A Ub Nb Us) as (w & Ew & Uww & Sww).
  destruct (sub_abs ew w u s _ _ A (or_intror Uw) Sw Uww Sww) as (d & Ed & Ud & Sd).
  destruct (half_abs d _ Sd) as (h & Eh & Uh & Sh). rewrite Ud in Uh.
  exists t1. unfold share. rewrite Em. cbn [bind]. rewrite E1.
  assert (T2 : exists t2, (if zin a mid then do w <- mul bw sc; do d <- sub ew w; do h <- truediv_n d 2; iadd t1 h else Ok t1) = Ok t2 /\ lunit t2 = u /\
    shows t2 (E - B * K + (if zin a mid then 1 # 2 else 0) * (W - BW * K))).
  { destruct (zin a mid).
    - destruct (iadd_abs t1 h u s _ _ A U1 S1 Uh Sh) as (t2 & E2 & U2 & S2). rewrite Ew. cbn [bind]. rewrite Ed. cbn [bind]. rewrite Eh. cbn [bind]. exists t2. split; [exact E2|].
      split; [auto|]. eapply shows_fun; [exact S2|]. rewrite Ns. field.
    - exists t1. split; [auto|]. split; [auto|]. eapply shows_fun; [exact S1|]. rewrite Ns. ring. }
  destruct T2 as (t2 & E2 & U2 & S2). exists t2. rewrite E2.
  destruct (zin a max).
  - destruct (iadd_abs t2 d u s _ _ A U2 S2 Ud Sd) as (t3 & E3 & U3 & S3). rewrite Ew. cbn [bind]. rewrite Ed. cbn [bind]. exists t3. repeat split; auto.
    eapply shows_fun; [exact S3|]. rewrite Ns. ring.
  - exists t2. repeat split; auto. eapply shows_fun; [exact S2|]. ring.
Qed.

Definition fit (a m : Z) (rx ry kx ky : Q) : Prop :=
  if (a =? 1)%Z then kx == rx /\ ky == ry
  else if (m =? 1)%Z then if isclose rx ry then kx == rx /\ ky == ry else kx == ky /\ kx == Qmin rx ry
  else if (m =? 2)%Z then if isclose rx ry then kx == rx /\ ky == ry else kx == ky /\ kx == Qmax rx ry
  else kx == rx /\ ky == ry.
Definition known_align (a : Z) : Z := if (a =? 0)%Z then 6%Z else a.
Definition known_mos (m : Z) : Z := if (m =? 0)%Z then 1%Z else m.
Lemma isclose_proper a a' b b' : a == a' -> b == b' -> isclose a b = isclose a' b'.
Proof.
  intros A B. unfold isclose.
  assert (P : forall x x' y y', x == x' -> y == y' -> (x =?q y) = (x' =?q y')).
  { intros x x' y y' X Y. destruct (Qeqb_spec x y), (Qeqb_spec x' y'); auto; exfalso; [apply n|apply n]; [rewrite <- X, <- Y|rewrite X, Y]; auto. }
  assert (L : forall x x' y y', x == x' -> y == y' -> (x <=?q y) = (x' <=?q y')).
  { intros x x' y y' X Y. destruct (Qleb_spec x y), (Qleb_spec x' y'); auto; lra. }
  assert (M : forall x x' y y', x == x' -> y == y' -> pymax x y == pymax x' y').
  { intros x x' y y' X Y. rewrite !pymax_Qmax, X, Y. reflexivity. }
  rewrite (P a a' b b' A B). f_equal. apply L. { now rewrite A, B. } apply M; [|reflexivity].
  rewrite (M (Qabs a) (Qabs a') (Qabs b) (Qabs b')); [reflexivity| |]; now rewrite ?A, ?B.
Qed.
Lemma scaled_matrix a b kx ky x y : exists X Y, transform_point (scale_self (translate_self (DM mat_id true) a b 0) kx (Some ky) 1 0 0 0) x y 0 1 = [X; Y] /\
  X == a + x * kx /\ Y == b + y * ky.
Proof.
  unfold translate_self, scale_self. change (0 =?q 0) with true. change (1 =?q 1) with true. rewrite !andb_true_r. cbn [negb andb].
  destruct (Qeqb_spec a 0) as [A|A], (Qeqb_spec b 0) as [B|B], (Qeqb_spec kx 1) as [C|C], (Qeqb_spec ky 1) as [D|D]; cbn [andb];
    (do 2 eexists; split; [reflexivity|]); cbn; rewrite ?A, ?B, ?C, ?D; split; ring.
Qed.
Lemma main ex ey ew eh vbx vby vbw vbh p f b : viewport_is ex ey ew eh f -> box_is vbx vby vbw vbh b -> ~ fw b == 0 -> ~ fh b == 0 ->
  exists m kx ky, viewport_matrix ex ey ew eh (Some (vbx, vby, vbw, vbh, p)) = Ok m /\
    fit (known_align (palign p)) (known_mos (pmos p)) (fw f / fw b) (fh f / fh b) kx ky /\
    forall x y, takes m x y (fx f - fx b * kx + share (known_align (palign p)) [3; 6; 9]%Z [4; 7; 10]%Z * (fw f - fw b * kx) + x * kx)
                            (fy f - fy b * ky + share (known_align (palign p)) [5; 6; 7]%Z [8; 9; 10]%Z * (fh f - fh b * ky) + y * ky).
Proof.
  intros (Uh & Ux & Uy & Sx & Sy & Sw & Sh) (B1 & B2 & B3 & B4 & N1 & N2 & N3 & N4) Nw Nh.
  assert (exists s, absolute (lunit ew) s) as (s & A) by (destruct Sw as (s & A & _); eauto).
  destruct (div_abs ew vbw _ s _ _ A eq_refl Sw B3 N3 Nw) as (sx & Ex & Usx & Nsx).
  destruct (div_abs eh vbh (lunit ew) s _ _ A Uh Sh B4 N4 Nh) as (sy & Ey & Usy & Nsy).
  cbn [viewport_matrix]. fold (known_align (palign p)). fold (known_mos (pmos p)). set (al := known_align (palign p)). set (mo := known_mos (pmos p)).
  rewrite Ex. cbn [bind]. rewrite Ey. cbn [bind].
  match goal with |- context [bind ?r _] => match r with if (al =? 1)%Z then _ else _ => set (choice := r) end end.
  assert (C : exists cx cy, choice = Ok (cx, cy) /\ lunit cx = lunit ew /\ lunit cy = lunit ew /\ fit al mo (fw f / fw b) (fh f / fh b) (num cx) (num cy)).
  { subst choice. unfold fit. destruct (al =? 1)%Z; [exists sx, sy; repeat split; auto|].
    assert (L : lt_ sx sy = Ok (if isclose (fw f / fw b) (fh f / fh b) then false else num sx <?q num sy)).
    { unfold lt_. rewrite (value_same sy) by congruence. cbn [bind]. now rewrite (isclose_proper _ _ _ _ Nsx Nsy). }
    assert (G : gt_ sx sy = Ok (if isclose (fw f / fw b) (fh f / fh b) then false else num sy <?q num sx)).
    { unfold gt_. rewrite (value_same sy) by congruence. cbn [bind]. now rewrite (isclose_proper _ _ _ _ Nsx Nsy). }
    destruct (mo =? 1)%Z; [|destruct (mo =? 2)%Z; [|exists sx, sy; repeat split; auto]].
    - rewrite L. cbn [bind]. rewrite G. destruct (isclose (fw f / fw b) (fh f / fh b)) eqn:IC. { exists sx, sy. repeat split; auto. } cbn [bind].
      assert (D : ~ num sx == num sy). { intros Z. rewrite (isclose_proper _ (num sx) _ (num sy)), isclose_eq in IC; auto; [discriminate|now symmetry|now symmetry]. }
      destruct (Qltb_spec (num sx) (num sy)) as [Q|Q].
      + exists sx, sx. repeat split; auto; try reflexivity. rewrite <- Nsx, <- Nsy. rewrite Q.min_l; [reflexivity|lra].
      + destruct (Qltb_spec (num sy) (num sx)) as [Q2|Q2].
        * exists sy, sy. repeat split; auto; try reflexivity. rewrite <- Nsx, <- Nsy. rewrite Q.min_r; [reflexivity|lra].
        * exfalso. apply D. lra.
    - rewrite G. cbn [bind]. rewrite L. destruct (isclose (fw f / fw b) (fh f / fh b)) eqn:IC. { exists sx, sy. repeat split; auto. } cbn [bind].
      assert (D : ~ num sx == num sy). { intros Z. rewrite (isclose_proper _ (num sx) _ (num sy)), isclose_eq in IC; auto; [discriminate|now symmetry|now symmetry]. }
      destruct (Qltb_spec (num sy) (num sx)) as [Q|Q].
      + exists sx, sx. repeat split; auto; try reflexivity. rewrite <- Nsx, <- Nsy. rewrite Q.max_l; [reflexivity|lra].
      + destruct (Qltb_spec (num sx) (num sy)) as [Q2|Q2].
        * exists sy, sy. repeat split; auto; try reflexivity. rewrite <- Nsx, <- Nsy. rewrite Q.max_r; [reflexivity|lra].
        * exfalso. apply D. lra. }
  destruct C as (cx & cy & -> & Ucx & Ucy & F). cbn [bind].
  destruct (axis ex ew vbx vbw cx (lunit ew) s _ _ _ _ _ [3; 6; 9]%Z [4; 7; 10]%Z al A Ux Sx eq_refl Sw B1 N1 B3 N3 Ucx (Qeq_refl (num cx))) as (t1 & t2 & t3 & T1 & T2 & T3 & UT & ST).
  destruct (axis ey eh vby vbh cy (lunit ew) s _ _ _ _ _ [5; 6; 7]%Z [8; 9; 10]%Z al A Uy Sy Uh Sh B2 N2 B4 N4 Ucy (Qeq_refl (num cy))) as (r1 & r2 & r3 & R1 & R2 & R3 & UR & SR).
  destruct (mul vbx cx) as [mx|]; [|discriminate T1]. cbn [bind] in *. rewrite T1. cbn [bind].
  destruct (mul vby cy) as [my|]; [|discriminate R1]. cbn [bind] in *. rewrite R1. cbn [bind].
  rewrite T2. cbn [bind]. rewrite T3. cbn [bind]. rewrite R2. cbn [bind]. rewrite R3. cbn [bind].
  destruct (pixels_abs _ _ ST) as (a & Ea & Ha). destruct (pixels_abs _ _ SR) as (c & Ec & Hc). rewrite Ea, Ec. cbn [bind].
  assert (UO : unit_of t3 = lunit ew) by (rewrite (unit_of_abs t3 s); congruence). rewrite UO.
  rewrite (value_same cx), (value_same cy) by auto. cbn [bind]. eexists. exists (num cx), (num cy). split; [reflexivity|]. split; [exact F|].
  intros x y. destruct (scaled_matrix a c (num cx) (num cy) x y) as (X & Y & E & HX & HY). exists X, Y. split; [exact E|]. rewrite HX, HY, Ha, Hc. split; reflexivity.
Qed.

(** * preserveAspectRatio *)
Definition plain (c : N) : bool := negb (is_space c || (c =? 44)%N).
Lemma seq_sep_plain c t : plain c = true -> seq_sep (c :: t) = None.
Proof.
  unfold plain, seq_sep. intros H. apply negb_true_iff, orb_false_iff in H. destruct H as [A B]. cbn [dropwhile head_not]. rewrite A. rewrite B. reflexivity.
Qed.
Lemma seq_split_word u : forallb plain u = true -> forall n w r, seq_split (length u + n) w (u ++ r) = seq_split n (w ++ u) r.
Proof.
  induction u as [|c u IH]; intros H n w r; [now rewrite app_nil_r|]. cbn [forallb] in H. apply andb_prop in H. destruct H as [A B].
  cbn [length Nat.add app]. cbn [seq_split]. rewrite (seq_sep_plain c _ A), IH by auto. now rewrite <- app_assoc.
Qed.
Lemma dropwhile_len f (t : text) : (length (dropwhile f t) <= length t)%nat.
Proof. induction t as [|c t IH]; cbn; [lia|]. destruct (f c); cbn; lia. Qed.
Lemma seq_sep_some c t : plain c = false -> exists r, seq_sep (c :: t) = Some r /\ (length r <= length t)%nat.
Proof.
  unfold plain, seq_sep. intros H. apply negb_false_iff, orb_prop in H. cbn [dropwhile head_not]. destruct (is_space c) eqn:S.
  - assert (L := dropwhile_len is_space t). destruct (dropwhile is_space t) as [|d r]; [eexists; split; [reflexivity|cbn; lia]|].
    assert (L2 := dropwhile_len is_space r). cbn in L. destruct (d =? 44)%N; eexists; (split; [reflexivity|cbn; lia]).
  - destruct H as [H|H]; [discriminate|]. rewrite H. eexists. split; [reflexivity|apply dropwhile_len].
Qed.
(* the first word *)
Lemma split_first t : exists l, split_sequence t = takewhile plain t :: l.
Proof.
  unfold split_sequence. assert (G : forall t n w, (length t <= n)%nat -> exists l, seq_split n w t = (w ++ takewhile plain t) :: l).
  { clear t. induction t as [|c t IH]; intros n w L. { destruct n; cbn; rewrite app_nil_r; eauto. }
    destruct n as [|n]; [cbn in L; lia|]. cbn [seq_split takewhile]. destruct (plain c) eqn:P.
    - rewrite (seq_sep_plain c t P). destruct (IH n (w ++ [c])) as (l & E); [cbn in L; lia|]. rewrite E, <- app_assoc. eauto.
    - destruct (seq_sep_some c t P) as (r & -> & _). rewrite app_nil_r. eauto. }
  apply (G t (length t) []). lia.
Qed.
(* the second word; [sep] is spaces, or spaces around one comma *)
Definition separates (s : text) : Prop :=
  exists a b, forallb is_space a = true /\ forallb is_space b = true /\ (s = a ++ [44%N] ++ b \/ s = a /\ a <> []).
Lemma dropwhile_all f a (r : text) : forallb f a = true -> head_not f r = true -> dropwhile f (a ++ r) = r.
Proof.
  intros A H. induction a as [|c a IH]; cbn in *. { destruct r as [|d r]; [reflexivity|]. cbn in *. destruct (f d); [discriminate|reflexivity]. }
  apply andb_prop in A. destruct A as [A B]. rewrite A. auto.
Qed.
Lemma seq_sep_sep s u r : separates s -> u <> [] -> forallb plain u = true -> seq_sep (s ++ u ++ r) = Some (u ++ r) /\ s <> [].
Proof.
  intros (a & b & A & B & S) N P. destruct u as [|c u]; [congruence|]. cbn [forallb] in P. apply andb_prop in P. destruct P as [P _].
  unfold plain in P. apply negb_true_iff, orb_false_iff in P. destruct P as [P1 P2].
  assert (H : head_not is_space ((c :: u) ++ r) = true) by (cbn; now rewrite P1). unfold seq_sep. destruct S as [-> | (-> & Na)].
  - rewrite <- !app_assoc. rewrite dropwhile_all by (auto; reflexivity). cbn [app]. change (44 =? 44)%N with true. cbn iota.
    rewrite app_comm_cons, (dropwhile_all is_space b) by auto. split; [reflexivity|]. destruct a; discriminate.
  - rewrite dropwhile_all by auto. cbn [app]. rewrite P2. destruct a as [|d a]; [congruence|]. cbn [app head_not]. cbn in A. apply andb_prop in A. rewrite (proj1 A). split; [reflexivity|discriminate].
Qed.
Lemma split_two a s m : forallb plain a = true -> separates s -> m <> [] -> forallb plain m = true -> split_sequence (a ++ s ++ m) = [a; m].
Proof.
  intros A S N M. unfold split_sequence. rewrite app_length, (seq_split_word a A). cbn [app].
  destruct (seq_sep_sep s m [] S N M) as (E & NS). rewrite app_nil_r in E. destruct s as [|c s]; [congruence|].
  cbn [app length seq_split]. cbn [app] in E. rewrite E. f_equal.
  rewrite app_length. replace (seq_split (length s + length m) [] m) with (seq_split (length m + length s) [] (m ++ [])) by (rewrite app_nil_r, Nat.add_comm; reflexivity).
  rewrite (seq_split_word m M). cbn. destruct (length s); reflexivity.
Qed.
Lemma split_one a : forallb plain a = true -> split_sequence a = [a].
Proof. intros A. unfold split_sequence. assert (E := seq_split_word a A 0 [] []). rewrite app_nil_r, Nat.add_0_r in E. exact E. Qed.
Lemma plain_not_space u : forallb plain u = true -> forallb (fun c => negb (is_space c)) u = true.
Proof.
  rewrite !forallb_forall. intros H c I. apply H in I. unfold plain in I. apply negb_true_iff, orb_false_iff in I. now rewrite (proj1 I).
Qed.
Lemma strip_around a t b : forallb is_space a = true -> forallb is_space b = true -> head_not is_space t = true -> head_not is_space (rev t) = true -> t <> [] ->
  strip (a ++ t ++ b) = t.
Proof.
  intros A B H1 H2 N. unfold strip. rewrite dropwhile_app by auto. rewrite dropwhile_head.
  - rewrite rdropwhile_app by auto. now apply rdropwhile_id.
  - destruct t; [congruence|exact H1].
Qed.
Lemma head_plain u : forallb plain u = true -> head_not is_space u = true /\ head_not is_space (rev u) = true.
Proof.
  intros H. apply plain_not_space in H. rewrite forallb_forall in H. split; [destruct u as [|c u]; [reflexivity|]; cbn; apply H; now left|].
  destruct (rev u) as [|c r] eqn:E; [reflexivity|]. cbn. apply H. apply in_rev. rewrite E. now left.
Qed.
Lemma code_in l t d : code_of l t d = d \/ In (code_of l t d) (map fst l).
Proof. induction l as [|(k & n) l IH]; cbn; [auto|]. destruct (text_eqb t n); [auto|]. destruct IH; auto. Qed.
Lemma code_not l t d : ~ In t (map snd l) -> code_of l t d = d.
Proof. induction l as [|(k & n) l IH]; cbn; [auto|]. intros H. destruct (text_eqb_spec t n); [exfalso; auto|auto]. Qed.

(** * Sizes *)
Lemma scale_shows x p k : shows x p -> shows (mul_n x k) (p * k).
Proof. intros (s & A & P). exists s. split; [exact A|]. cbn. rewrite P. ring. Qed.
Lemma resolve_percent r t d n pw ph W H : parse t = Ok (n, Some (lit "%")) -> d <> Unspecified -> shows pw W -> shows ph H ->
  exists x, resolve r t d pw ph = Ok x /\ shows x (match d with Vertical => H | _ => W end * (n / 100)).
Proof.
  intros P D SW SH. unfold resolve, rlen. rewrite P. cbn [bind fst snd unit_of lunit]. destruct d; [congruence| |]; eexists; (split; [reflexivity|]); now apply scale_shows.
Qed.
Lemma resolve_absolute r t d n u s pw ph : parse t = Ok (n, u) -> absolute u s ->
  exists x, resolve r t d pw ph = Ok x /\ shows x (n * s).
Proof.
  intros P A. unfold resolve, rlen. rewrite P. cbn [bind fst snd].
  eexists. split; [destruct A; destruct d; reflexivity|]. exists s. split; [exact A|reflexivity].
Qed.
Lemma size_spec r t d pw ph W H q : d <> Unspecified -> shows pw W -> shows ph H -> size_means t (match d with Vertical => H | _ => W end) q ->
  exists x, size_of r t d pw ph = Ok x /\ shows x q.
Proof.
  intros D SW SH M. unfold size_of.
  assert (FULL : exists x, resolve r (lit "100%") d pw ph = Ok x /\ shows x (match d with Vertical => H | _ => W end)).
  { destruct (resolve_percent r (lit "100%") d (100 # 1) pw ph W H) as (x & E & S); auto. exists x. split; auto. eapply shows_fun; [exact S|]. setoid_replace ((100 # 1) / 100) with 1 by reflexivity. ring. }
  assert (OK : forall w, (w = lit "auto" -> False) -> (w = lit "inherit" -> False) -> (exists x, resolve r w d pw ph = Ok x /\ shows x q) ->
    exists x, (if text_eqb (if text_eqb w (lit "auto") then lit "100%" else w) (lit "inherit") then Ok (match d with Vertical => ph | _ => pw end)
     else resolve r (if text_eqb w (lit "auto") then lit "100%" else w) d pw ph) = Ok x /\ shows x q).
  { intros w Na Ni E. destruct (text_eqb_spec w (lit "auto")); [exfalso; auto|]. destruct (text_eqb_spec w (lit "inherit")); [exfalso; auto|]. exact E. }
  destruct M as [[-> | [-> | ->]] | w n q -> P E | w n u s q -> Na Ni P A E].
  - exact FULL.
  - exact FULL.
  - exists (match d with Vertical => ph | _ => pw end). split; [reflexivity|]. destruct d; auto.
  - apply OK; [intros ->; discriminate|intros ->; discriminate|]. destruct (resolve_percent r w d n pw ph W H P D SW SH) as (x & X & S). exists x. split; auto.
    eapply shows_fun; [exact S|]. symmetry. exact E.
  - apply OK; auto. destruct (resolve_absolute r w d n u s pw ph P A) as (x & X & S). exists x. split; auto. eapply shows_fun; [exact S|]. symmetry. exact E.
Qed.
Lemma sizes_spec l W H W' H' : nested l W H W' H' -> forall pw ph, shows pw W -> shows ph H -> exists w h, vp_sizes l pw ph = Ok (w, h) /\ shows w W' /\ shows h H'.
Proof.
  induction 1 as [W H|r l W H W1 H1 W2 H2 M1 M2 _ IH]; intros pw ph SW SH; cbn [vp_sizes]. { exists pw, ph. auto. }
  destruct (size_spec r (rwidth r) Horizontal pw ph W H W1 ltac:(discriminate) SW SH M1) as (w & E & S). rewrite E. cbn [bind].
  destruct (size_spec r (rheight r) Vertical w ph W1 H H1 ltac:(discriminate) S SH M2) as (h & E' & S'). rewrite E'. cbn [bind]. apply IH; auto.
Qed.
