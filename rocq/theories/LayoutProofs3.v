(** Proofs about text that flows, lines against their direction, ligatures. *)
From Coq Require Import Lia Lqa Qabs.
From Verif Require Import PyBase MatrixModel MatrixSpec MatrixProofs MatrixProofs2 RectModel RectSpec RectProofs.
From Verif Require Import PathModel PathSpec PathTransProofs UseSpec LayoutModel LayoutSpec LayoutProofs LayoutProofs2.
Local Open Scope Q_scope.

(** ** Text that flows to the right *)
Lemma placing_split g0 a : forall b before x y ps x2 y2, placing g0 before x y (a ++ b) ps x2 y2 ->
  exists x1 y1, placing g0 (before ++ a) x1 y1 b (skipn (length a) ps) x2 y2.
Proof.
  induction a as [|it a IH]; intros b before x y ps x2 y2 H; cbn [app length] in *.
  - exists x, y. now rewrite app_nil_r.
  - inversion H as [|? ? ? ? p0 ? ps' x1 y1 ? ? S1 X1 Y1 R]; subst. destruct (IH _ _ _ _ _ _ _ R) as (u & v & K).
    exists u, v. cbn [skipn]. rewrite <- app_assoc in K. exact K.
Qed.
Lemma nth_skipn {A} (l : list A) n k : nth_error (skipn n l) k = nth_error l (n + k).
Proof. revert l. induction n as [|n IH]; intros [|x l]; cbn; try reflexivity; [now destruct k|apply IH]. Qed.
Lemma flow_from g0 its : forall before x y ps x' y', placing g0 before x y its ps x' y' ->
  Forall rightwards its -> no_entry g0 AX before its -> no_entry g0 AY before its ->
  forall a it b p, its = a ++ it :: b -> nth_error ps (length a) = Some p ->
  pl_x p == x + travelled g0 before a + dx_of g0 (before ++ a) it + g_xoff (i_glyph it) /\
  pl_y p == y + dropped g0 before (a ++ [it]) - g_yoff (i_glyph it).
Proof.
  induction its as [|it0 its IH]; intros before x y ps x' y' H F Nx Ny a it b p E Np; [destruct a; discriminate|].
  inversion H as [|? ? ? ? p0 ? ps' x1 y1 ? ? S1 X1 Y1 R]; subst. inversion F as [|? ? [Rh Rr] F']; subst.
  destruct S1 as (_ & Sx & Sy & _).
  assert (Ex := Nx [] it0 its eq_refl). assert (Ey := Ny [] it0 its eq_refl). rewrite app_nil_r in Ex, Ey.
  rewrite Ex in Sx. rewrite Ey in Sy. rewrite Rh, Rr in Sx. cbn [or_else andb] in Sx, Sy.
  unfold next_x in X1. unfold next_y in Y1. rewrite Rr, Rh in X1. rewrite Rh in Y1.
  destruct a as [|a0 a]; cbn [app length nth_error] in *.
  - injection E as <- <-. injection Np as <-. cbn [travelled dropped]. rewrite app_nil_r. unfold dx_of, dy_of. rewrite Sx, Sy. split; ring.
  - injection E as <- E. cbn [travelled dropped].
    assert (N1 : no_entry g0 AX (before ++ [it0]) its).
    { intros b1 jt b2 Eb. rewrite <- app_assoc. apply (Nx (it0 :: b1) jt b2). now rewrite Eb. }
    assert (N2 : no_entry g0 AY (before ++ [it0]) its).
    { intros b1 jt b2 Eb. rewrite <- app_assoc. apply (Ny (it0 :: b1) jt b2). now rewrite Eb. }
    destruct (IH _ _ _ _ _ _ R F' N1 N2 a it b p E Np) as [P1 P2]. rewrite <- app_assoc in P1. cbn [app] in P1.
    split; [rewrite P1, X1, Sx; unfold dx_of; ring|rewrite P2, Y1, Sy; unfold dy_of; ring].
Qed.
Lemma placing_uncons g0 before x y it its qs x' y' : placing g0 before x y (it :: its) qs x' y' ->
  exists p ps x1 y1, qs = p :: ps /\ sits g0 before x y it p /\ x1 == next_x it (pl_x p) /\ y1 == next_y it (pl_y p) /\
    placing g0 (before ++ [it]) x1 y1 its ps x' y'.
Proof. intros H. inversion H; subst. eauto 12. Qed.
Lemma flow_after g0 ps its x0 y0 x' y' a it b jt c x y p : placing g0 [] x0 y0 its ps x' y' ->
  its = a ++ it :: b ++ jt :: c -> Forall rightwards (it :: b ++ [jt]) ->
  entry g0 AX a it = Some x -> entry g0 AY a it = Some y ->
  no_entry g0 AX (a ++ [it]) (b ++ [jt]) -> no_entry g0 AY (a ++ [it]) (b ++ [jt]) ->
  nth_error ps (length (a ++ it :: b)) = Some p ->
  pl_x p == x + travelled g0 a (it :: b) + dx_of g0 (a ++ it :: b) jt + g_xoff (i_glyph jt) /\
  pl_y p == y + dropped g0 a (it :: b ++ [jt]) - g_yoff (i_glyph jt).
Proof.
  intros H -> F Ex Ey Nx Ny Np. destruct (placing_split g0 a _ [] _ _ _ _ _ H) as (u & v & K). cbn [app] in K.
  destruct (placing_uncons _ _ _ _ _ _ _ _ _ K) as (p0 & ps' & x1 & y1 & E4 & S1 & X1 & Y1 & R). clear K.
  replace (b ++ jt :: c) with ((b ++ [jt]) ++ c) in R by (rewrite <- app_assoc; reflexivity).
  assert (Np' : nth_error ps' (length b) = Some p).
  { rewrite app_length in Np. rewrite <- nth_skipn, E4 in Np. exact Np. }
  assert (Pre : exists u2 v2 ps2, placing g0 (a ++ [it]) x1 y1 (b ++ [jt]) (firstn (length (b ++ [jt])) ps') u2 v2 /\ ps2 = tt).
  { clear - R. revert x1 y1 ps' R. generalize (a ++ [it]). induction (b ++ [jt]) as [|k l IH]; intros bf x1 y1 ps' R.
    - exists x1, y1, tt. split; [constructor; reflexivity|reflexivity].
    - cbn [app] in R. inversion R as [|? ? ? ? p0 ? ps2 x2 y2 ? ? S1 X1 Y1 R2]; subst. destruct (IH _ _ _ _ R2) as (u2 & v2 & _ & K & _).
      exists u2, v2, tt. split; [|reflexivity]. cbn [length firstn]. econstructor; eassumption. }
  destruct Pre as (u2 & v2 & _ & Pre & _). inversion F as [|? ? [Rh Rr] F']; subst.
  assert (Np2 : nth_error (firstn (length (b ++ [jt])) ps') (length b) = Some p).
  { rewrite app_length. cbn [length]. rewrite Nat.add_1_r. rewrite <- Np'. clear. revert ps'. induction b as [|k b IH]; intros [|q l]; try reflexivity. exact (IH l). }
  destruct (flow_from g0 _ _ _ _ _ _ _ Pre F' Nx Ny b jt [] p eq_refl Np2) as [P1 P2].
  destruct S1 as (_ & Sx & Sy & _). rewrite Ex in Sx. rewrite Ey in Sy. rewrite Rh, Rr in Sx. cbn [or_else andb] in Sx, Sy.
  unfold next_x in X1. unfold next_y in Y1. rewrite Rr, Rh in X1. rewrite Rh in Y1. rewrite <- app_assoc in P1. cbn [app] in P1.
  cbn [travelled dropped]. split.
  - rewrite P1, X1, Sx. unfold dx_of. ring.
  - rewrite P2, Y1, Sy. unfold dy_of. ring.
Qed.

(** ** Ligatures *)
Fixpoint rep (op : nat -> list Q -> list Q) (inc : Z) (i : nat) (last : option Z) (cl : list Z) (l : list Q) : list Q :=
  match cl with
  | [] => l
  | c :: cl' => rep op inc (S i) (Some c) cl'
      (match last with None => l | Some k => if (k =? c)%Z || (k + inc =? c)%Z then l else op i l end)
  end.
Lemma reposition_parts inc cl : forall i last ls,
  xs (reposition inc i last cl ls) = rep drop_entry inc i last cl (xs ls) /\
  ys (reposition inc i last cl ls) = rep drop_entry inc i last cl (ys ls) /\
  dxs (reposition inc i last cl ls) = rep merge_entry inc i last cl (dxs ls) /\
  dys (reposition inc i last cl ls) = rep merge_entry inc i last cl (dys ls).
Proof.
  induction cl as [|c cl IH]; intros i last ls; cbn [reposition rep]; [repeat split; reflexivity|].
  destruct (IH (S i) (Some c) (match last with None => ls | Some l => if (l =? c)%Z || (l + inc =? c)%Z then ls else ligature i ls end)) as (A & B & C & D).
  rewrite A, B, C, D. destruct last as [k|]; [|repeat split; reflexivity].
  destruct ((k =? c)%Z || (k + inc =? c)%Z); repeat split; reflexivity.
Qed.
Definition good_op (op : nat -> list Q -> list Q) (f : Q -> Q -> Q) : Prop :=
  (forall pre d e r, op (length pre) (pre ++ d :: e :: r) = pre ++ f e d :: r) /\
  (forall i l k, (k < i)%nat -> nth_error (op i l) k = nth_error l k).
Lemma firstn_nth {A} (l : list A) i k : (k < i)%nat -> nth_error (firstn i l) k = nth_error l k.
Proof. revert i k. induction l as [|x l IH]; intros [|i] [|k] H; try lia; cbn; try reflexivity. apply IH. lia. Qed.
Lemma nth_app_front {A} (l r : list A) i k : (k < i)%nat -> r = [] \/ (i <= length l)%nat -> nth_error (firstn i l ++ r) k = nth_error l k.
Proof.
  intros H [->|L]; [rewrite app_nil_r; now apply firstn_nth|]. rewrite nth_error_app1 by (rewrite firstn_length; lia). now apply firstn_nth.
Qed.
Lemma drop_good : good_op drop_entry (fun e _ => e).
Proof.
  split.
  - intros pre d e r. unfold drop_entry. rewrite firstn_app, firstn_all, Nat.sub_diag. cbn [firstn]. rewrite app_nil_r.
    f_equal. clear. induction pre as [|x pre IH]; [reflexivity|exact IH].
  - intros i l k H. unfold drop_entry. apply nth_app_front; [exact H|].
    destruct (Nat.le_gt_cases i (length l)); [now right|left]. apply skipn_all2. lia.
Qed.
Lemma merge_good : good_op merge_entry Qplus.
Proof.
  split.
  - intros pre d e r. unfold merge_entry. assert (Hs : skipn (length pre) (pre ++ d :: e :: r) = d :: e :: r) by (clear; induction pre; auto).
    rewrite Hs. rewrite firstn_app, firstn_all, Nat.sub_diag. cbn [firstn]. now rewrite app_nil_r.
  - intros i l k H. unfold merge_entry. destruct (skipn i l) as [|d [|e r]] eqn:E; try now apply firstn_nth.
    apply nth_app_front; [exact H|right]. apply (f_equal (@length Q)) in E. rewrite skipn_length in E. cbn in E. lia.
Qed.
Lemma rep_front op f cl : good_op op f -> forall i last l k, (k < i)%nat -> nth_error (rep op 1 i last cl l) k = nth_error l k.
Proof.
  intros G. induction cl as [|c cl IH]; intros i last l k H; cbn [rep]; [reflexivity|]. rewrite IH by lia.
  destruct last as [q|]; [|reflexivity]. destruct (_ || _); [reflexivity|]. now apply (proj2 G).
Qed.
Lemma rep_nth op f cl : good_op op f -> forall i last l pre, length pre = i -> (0 <= last)%Z -> pairs_from last cl ->
  forall j c v, nth_error cl j = Some c -> nth_error l (Z.to_nat c) = Some v ->
  nth_error (rep op 1 i (Some last) cl (pre ++ skipn (Z.to_nat (last + 1)) l)) (i + j) =
  Some (if (c =? nth j (last :: cl) 0 + 2)%Z then f v (nth (Z.to_nat (nth j (last :: cl) 0%Z + 1)) l 0) else v).
Proof.
  intros G. induction cl as [|d cl IH]; intros i last l pre Lp L0 P0 j c v Nc Nv; [destruct j; discriminate|].
  destruct P0 as [D Pf].
  cbn [rep].
  assert (Ld : (Z.to_nat d <= Z.to_nat c)%nat).
  { clear - Nc Pf L0 D. destruct j as [|j]; cbn [nth_error] in Nc; [injection Nc as ->; lia|].
    assert (K : forall cl d, pairs_from d cl -> forall j c, nth_error cl j = Some c -> (d <= c)%Z).
    { clear. induction cl as [|e cl IH]; intros d P0 [|j] c N; try discriminate; destruct P0 as [D P]; cbn [nth_error] in N.
      - injection N as ->. lia.
      - specialize (IH e P j c N). lia. }
    specialize (K cl d Pf j c Nc). lia. }
  assert (Hd : exists w, nth_error l (Z.to_nat d) = Some w).
  { destruct (nth_error l (Z.to_nat d)) eqn:E; [eauto|]. exfalso. apply nth_error_None in E.
    assert (nth_error l (Z.to_nat c) <> None) by congruence. apply nth_error_Some in H. lia. }
  destruct Hd as (w & Hw).
  set (w' := if (d =? last + 2)%Z then f w (nth (Z.to_nat (last + 1)) l 0) else w).
  assert (St : (if (last =? d)%Z || (last + 1 =? d)%Z then pre ++ skipn (Z.to_nat (last + 1)) l else op i (pre ++ skipn (Z.to_nat (last + 1)) l))
    = (pre ++ [w']) ++ skipn (Z.to_nat (d + 1)) l).
  { rewrite <- app_assoc. cbn [app]. replace (Z.to_nat (d + 1)) with (S (Z.to_nat d)) by lia.
    destruct D as [-> | ->].
    - replace (last =? last + 1)%Z with false by (symmetry; apply Z.eqb_neq; lia). rewrite Z.eqb_refl. cbn [orb].
      rewrite (skipn_nth l (Z.to_nat (last + 1))), Hw. unfold w'.
      replace (last + 1 =? last + 2)%Z with false by (symmetry; apply Z.eqb_neq; lia). reflexivity.
    - replace (last =? last + 2)%Z with false by (symmetry; apply Z.eqb_neq; lia).
      replace (last + 1 =? last + 2)%Z with false by (symmetry; apply Z.eqb_neq; lia). cbn [orb].
      rewrite (skipn_nth l (Z.to_nat (last + 1))).
      destruct (nth_error l (Z.to_nat (last + 1))) as [q|] eqn:Eq.
      + replace (S (Z.to_nat (last + 1))) with (Z.to_nat (last + 2)) by lia. rewrite (skipn_nth l (Z.to_nat (last + 2))), Hw.
        rewrite <- Lp. rewrite (proj1 G). unfold w'. rewrite Z.eqb_refl. rewrite (nth_error_nth _ _ 0 Eq). reflexivity.
      + exfalso. apply nth_error_None in Eq. assert (nth_error l (Z.to_nat (last + 2)) <> None) by congruence. apply nth_error_Some in H. lia. }
  rewrite St. destruct j as [|j]; cbn [nth_error] in Nc.
  - injection Nc as ->. rewrite Nat.add_0_r, (rep_front op f) by (auto; lia).
    rewrite <- app_assoc. rewrite nth_error_app2 by lia. rewrite Lp, Nat.sub_diag. cbn [app nth_error nth].
    unfold w'. rewrite Hw in Nv. injection Nv as <-. reflexivity.
  - specialize (IH (S i) d l (pre ++ [w'])). replace (i + S j)%nat with (S i + j)%nat by lia.
    rewrite (IH ltac:(rewrite app_length; cbn; lia) ltac:(lia) Pf j c v Nc Nv). reflexivity.
Qed.
Lemma rep_start op f cl l j c v : good_op op f -> pairs_from 0 cl -> nth_error (0%Z :: cl) j = Some c ->
  nth_error l (Z.to_nat c) = Some v ->
  nth_error (rep op 1 0 None (0%Z :: cl) l) j =
  Some (match j with O => v | S j' => if (c =? nth j' (0%Z :: cl) 0 + 2)%Z then f v (nth (Z.to_nat (nth j' (0%Z :: cl) 0%Z + 1)) l 0) else v end).
Proof.
  intros G Pf Nc Nv. cbn [rep]. destruct j as [|j]; cbn [nth_error] in Nc.
  - injection Nc as <-. rewrite (rep_front op f) by (auto; lia). exact Nv.
  - destruct l as [|w l]; [destruct (Z.to_nat c); discriminate|].
    assert (K := rep_nth op f cl G 1 0 (w :: l) [w] eq_refl ltac:(lia) Pf j c v Nc Nv). exact K.
Qed.
Lemma pairs_inc cl : pairs_from 0 cl -> cluster_inc (0%Z :: cl) = 1%Z.
Proof.
  intros Pf. unfold cluster_inc.
  assert (K : forall cl c a b, pairs_from c cl -> (a <= c)%Z -> (a <= b <= c)%Z ->
    fold_left Z.min cl a = a /\ (fold_left Z.max cl b <= c + 2 * Z.of_nat (length cl))%Z).
  { clear. induction cl as [|d cl IH]; intros c a b P A B; cbn [fold_left length]; [split; lia|]. destruct P as [D P].
    replace (Z.min a d) with a by lia. destruct (IH d a (Z.max b d) P ltac:(lia) ltac:(lia)) as [K1 K2]. split; [exact K1|lia]. }
  destruct (K cl 0%Z 0%Z 0%Z Pf ltac:(lia) ltac:(lia)) as [-> K2]. rewrite Z.sub_0_r.
  assert (D : (fold_left Z.max cl 0 / Z.of_nat (length (0%Z :: cl)) < 2)%Z).
  { apply Z.div_lt_upper_bound; cbn [length]; lia. }
  lia.
Qed.
(** the i-th glyph takes the i-th entries *)
Lemma put_lists o s rtl pn g pn' p : put o s rtl pn g = (pn', p) ->
  xs (p_lists pn') = tl (xs (p_lists pn)) /\ ys (p_lists pn') = tl (ys (p_lists pn)) /\
  dxs (p_lists pn') = tl (dxs (p_lists pn)) /\ dys (p_lists pn') = tl (dys (p_lists pn)) /\
  pl_x p == or_else (nth_error (xs (p_lists pn)) 0) (p_x pn) + or_else (nth_error (dxs (p_lists pn)) 0) 0 + g_xoff g
    - (if s_horizontal s && rtl then g_xadv g else 0) /\
  pl_y p == or_else (nth_error (ys (p_lists pn)) 0) (p_y pn) + or_else (nth_error (dys (p_lists pn)) 0) 0 - g_yoff g /\
  pl_id p = g_id g.
Proof.
  unfold put. destruct (xs (p_lists pn)) as [|x xs']; destruct (ys (p_lists pn)) as [|y ys'];
    destruct (dxs (p_lists pn)) as [|dx dxs']; destruct (dys (p_lists pn)) as [|dy dys']; cbn [take];
    destruct (take_rotate (rots (p_lists pn)) (p_rot pn)) as [r rots']; intros [= <- <-];
    cbn [p_lists xs ys dxs dys tl pl_x pl_y pl_id nth_error or_else]; repeat split;
    try (destruct (s_horizontal s), rtl; cbn [andb]; ring); ring.
Qed.
Lemma nth_tl {A} (l : list A) i : nth_error (tl l) i = nth_error l (S i).
Proof. destruct l; [now destruct i|reflexivity]. Qed.
Lemma puts_entries o s rtl gs : forall pn pn' ps, puts o s rtl pn gs = (pn', ps) ->
  forall i g p, nth_error gs i = Some g -> nth_error ps i = Some p ->
  pl_id p = g_id g /\
  (forall v, nth_error (xs (p_lists pn)) i = Some v ->
     pl_x p == v + or_else (nth_error (dxs (p_lists pn)) i) 0 + g_xoff g - (if s_horizontal s && rtl then g_xadv g else 0)) /\
  (forall v, nth_error (ys (p_lists pn)) i = Some v -> pl_y p == v + or_else (nth_error (dys (p_lists pn)) i) 0 - g_yoff g).
Proof.
  induction gs as [|g0 gs IH]; intros pn pn' ps H i g p Ng Np; [destruct i; discriminate|].
  cbn [puts] in H. destruct (put o s rtl pn g0) as [pn1 p0] eqn:E. destruct (puts o s rtl pn1 gs) as [pn2 ps'] eqn:E2.
  injection H as <- <-. destruct (put_lists _ _ _ _ _ _ _ E) as (A & B & C & D & X & Y & Z0).
  destruct i as [|i]; cbn [nth_error] in Ng, Np.
  - injection Ng as <-. injection Np as <-. split; [exact Z0|]. split; intros v Hv; [rewrite X, Hv|rewrite Y, Hv]; reflexivity.
  - destruct (IH _ _ _ E2 i g p Ng Np) as (I0 & I1 & I2). rewrite A, B, C, D, !nth_tl in *. split; [exact I0|]. split; assumption.
Qed.
