(** Proofs about the rectangle model. *)
From Verif Require Import PyBase RectModel RectSpec.
From Coq Require Import Permutation.
Local Open Scope Q_scope.

Lemma isvalid_true r :
  isvalid r = true <->
  exists x y, rx r = Some x /\ ry r = Some y /\ 0 < rw r /\ 0 < rh r.
Proof.
  unfold isvalid; destruct r as [ox oy w h]; cbn.
  destruct ox as [x|], oy as [y|]; cbn;
    try (split; [discriminate | intros (a & b & H1 & H2 & _); discriminate]).
  split.
  - qcase; try discriminate; intros _; exists x, y; auto.
  - intros (a & b & _ & _ & Hw & Hh); qcase; reflexivity.
Qed.

Lemma isempty_isvalid r : isempty r = negb (isvalid r).
Proof.
  unfold isempty, isvalid; destruct r as [[x|] [y|] w h]; cbn; try reflexivity.
  qcase; reflexivity.
Qed.

Ltac valid H :=
  let x := fresh "x" in let y := fresh "y" in
  let Ex := fresh "Ex" in let Ey := fresh "Ey" in
  let Hw := fresh "Hw" in let Hh := fresh "Hh" in
  apply isvalid_true in H; destruct H as (x & y & Ex & Ey & Hw & Hh).

Lemma contains_point r px py :
  isvalid r = true -> contains r px py 0 0 = true <-> region r px py.
Proof.
  intros H. unfold contains. rewrite H; cbn [negb].
  valid H. unfold region; rewrite Ex, Ey.
  change (0 <=?q 0) with true. cbn [orb].
  unfold between; split.
  - qcase; try discriminate. intros _; lra.
  - intros. qcase; reflexivity.
Qed.

Lemma contains_rect r x y w h :
  0 < w -> 0 < h -> isvalid r = true ->
  (contains r x y w h = true <-> included (rect4 x y w h) r).
Proof.
  intros Hw Hh H. unfold contains. rewrite H; cbn [negb].
  valid H. unfold included, region; cbn [rect4 rx ry rw rh]; rewrite Ex, Ey.
  assert (E : (w <=?q 0) || (h <=?q 0) = false) by (qcase; reflexivity).
  rewrite E; unfold between; split.
  - intros T. repeat (apply andb_prop in T as [T ?]). 
    repeat match goal with H : (_ <=?q _) = true |- _ => apply Qle_bool_iff in H
           | H : _ && _ = true |- _ => apply andb_prop in H as [? ?] end.
    intros; lra.
  - intros T. pose proof (T x y ltac:(lra)) as [T1 T2].
    pose proof (T (x + w) (y + h) ltac:(lra)) as [T3 T4].
    qcase; reflexivity.
Qed.

Lemma contains_invalid r x y w h : isvalid r = false -> contains r x y w h = false.
Proof. intros H; unfold contains; rewrite H; reflexivity. Qed.

(** *** intersection *)
Lemma overlap_bounds l t w h l' t' w' h' :
  overlap (rect4 l t w h) (rect4 l' t' w' h') ->
  l < l' + w' /\ l' < l + w /\ t < t' + h' /\ t' < t + h.
Proof.
  intros (px & py & H1 & H2); unfold interior in *; cbn in *; lra.
Qed.

Lemma bounds_overlap l t w h l' t' w' h' :
  0 < w -> 0 < h -> 0 < w' -> 0 < h' ->
  l < l' + w' -> l' < l + w -> t < t' + h' -> t' < t + h ->
  overlap (rect4 l t w h) (rect4 l' t' w' h').
Proof.
  intros. 
  pose proof (pymax_spec l l') as (A1 & A2 & A3).
  pose proof (pymin_spec (l + w) (l' + w')) as (B1 & B2 & B3).
  pose proof (pymax_spec t t') as (C1 & C2 & C3).
  pose proof (pymin_spec (t + h) (t' + h')) as (D1 & D2 & D3).
  exists ((pymax l l' + pymin (l + w) (l' + w')) / 2),
         ((pymax t t' + pymin (t + h) (t' + h')) / 2).
  set (a := pymax l l') in *. set (b := pymin (l+w) (l'+w')) in *.
  set (c := pymax t t') in *. set (d := pymin (t+h) (t'+h')) in *.
  assert (a < b) by (destruct A3, B3; lra).
  assert (c < d) by (destruct C3, D3; lra).
  assert (E1 : (a + b) / 2 == a + (b - a) * (1#2)) by field.
  assert (E2 : (c + d) / 2 == c + (d - c) * (1#2)) by field.
  unfold interior; cbn. rewrite !E1, !E2. lra.
Qed.

Lemma rect_eta r x y : rx r = Some x -> ry r = Some y -> r = rect4 x y (rw r) (rh r).
Proof. destruct r; cbn; intros -> ->; reflexivity. Qed.

Lemma region_set_coords x1 y1 x2 y2 px py :
  region (set_coords x1 y1 x2 y2) px py <-> x1 <= px <= x2 /\ y1 <= py <= y2.
Proof. unfold region, set_coords; cbn; split; intros; lra. Qed.

Lemma intersect_exact r o :
  isvalid r = true -> isvalid o = true -> overlap r o ->
  forall px py, region (intersect_self r o) px py <-> region r px py /\ region o px py.
Proof.
  intros Hr Ho Hov px py.
  unfold intersect_self. rewrite Hr, Ho; cbn [negb orb].
  pose proof Hr as Hr'. pose proof Ho as Ho'.
  valid Hr. valid Ho.
  rewrite Ex, Ey, Ex0, Ey0.
  destruct (contains o x y (rw r) (rh r)) eqn:Hc.
  - apply contains_rect in Hc; auto.
    rewrite (rect_eta r x y Ex Ey) at 1 2.
    split; [intros H; split; [exact H|apply Hc; exact H] | tauto].
  - rewrite (rect_eta r x y Ex Ey), (rect_eta o x0 y0 Ex0 Ey0) in Hov.
    apply overlap_bounds in Hov. destruct Hov as (B1 & B2 & B3 & B4).
    cbn zeta. rewrite region_set_coords.
    unfold region; rewrite Ex, Ey, Ex0, Ey0.
    set (rw1 := rw r) in *. set (rh1 := rh r) in *.
    set (rw2 := rw o) in *. set (rh2 := rh o) in *.
    clearbody rw1 rh1 rw2 rh2. clear - Hw Hh Hw0 Hh0 B1 B2 B3 B4.
    assert (OV : ((y0 <?q y) && (y + rh1 <?q y0 + rh2)
      || (y <=?q y0) && (y0 <?q y + rh1)
      || (y <?q y0 + rh2) && (y0 + rh2 <=?q y + rh1)) = true) by (qcase; reflexivity).
    assert (OH : ((x0 <?q x) && (x + rw1 <?q x0 + rw2)
      || (x <=?q x0) && (x0 <?q x + rw1)
      || (x <?q x0 + rw2) && (x0 + rw2 <=?q x + rw1)) = true) by (qcase; reflexivity).
    rewrite OV, OH, !andb_true_r. clear OV OH.
    destruct (Qltb_spec x x0), (Qltb_spec x0 (x + rw1)), (Qltb_spec y y0),
      (Qltb_spec y0 (y + rh1)); cbn [andb]; try (exfalso; lra);
    destruct (Qltb_spec x (x0 + rw2)), (Qltb_spec (x0+rw2) (x + rw1)),
      (Qltb_spec y (y0 + rh2)), (Qltb_spec (y0 + rh2) (y + rh1)); cbn [andb];
      try (exfalso; lra); split; intros; lra.
Qed.

(** Without overlap, the receiver comes back with its region unchanged. *)
Lemma intersect_no_overlap r o :
  ~ overlap r o -> same_region (intersect_self r o) r.
Proof.
  intros Hov px py. unfold intersect_self.
  destruct (isvalid r) eqn:Hr; [|reflexivity].
  destruct (isvalid o) eqn:Ho; [|reflexivity].
  cbn [negb orb]. valid Hr. valid Ho. rewrite Ex, Ey, Ex0, Ey0.
  destruct (contains o x y (rw r) (rh r)); [reflexivity|].
  cbn zeta. rewrite region_set_coords.
  unfold region; rewrite Ex, Ey.
  rewrite (rect_eta r x y Ex Ey), (rect_eta o x0 y0 Ex0 Ey0) in Hov.
  set (rw1 := rw r) in *. set (rh1 := rh r) in *.
  set (rw2 := rw o) in *. set (rh2 := rh o) in *.
  assert (B : ~ (x < x0 + rw2 /\ x0 < x + rw1 /\ y < y0 + rh2 /\ y0 < y + rh1)).
  { intros (? & ? & ? & ?). apply Hov. now apply bounds_overlap. }
  clear Hov. clearbody rw1 rh1 rw2 rh2. clear - B Hw Hh Hw0 Hh0.
  assert (D : x0 + rw2 <= x \/ x + rw1 <= x0 \/ y0 + rh2 <= y \/ y + rh1 <= y0).
  { destruct (Qltb_spec x (x0 + rw2)); [|left; lra].
    destruct (Qltb_spec x0 (x + rw1)); [|right; left; lra].
    destruct (Qltb_spec y (y0 + rh2)); [|right; right; left; lra].
    destruct (Qltb_spec y0 (y + rh1)); [|right; right; right; lra].
    exfalso; apply B; auto. }
  clear B.
  assert (T : forall P Q R : bool, (P && Q && R = true) -> (P = true /\ Q = true /\ R = true)).
  { intros P Q0 R; destruct P, Q0, R; auto. }
  match goal with |- (if ?c1 then _ else _) <= _ <= (if ?c2 then _ else _) /\
                     (if ?c3 then _ else _) <= _ <= (if ?c4 then _ else _) <-> _ =>
    assert (c1 = false); [|assert (c2 = false); [|assert (c3 = false); [|assert (c4 = false)]]]
  end.
  all: cycle 4.
  { rewrite H, H0, H1, H2. split; intros; lra. }
  all: match goal with |- ?c = false => destruct c eqn:E; [exfalso|reflexivity] end.
  all: apply T in E; destruct E as (E1 & E2 & E3).
  all: repeat match goal with
       | H : (?a <?q ?b) = true |- _ => destruct (Qltb_spec a b); [clear H|discriminate]
       end.
  all: destruct D as [D|[D|[D|D]]]; try lra; qcase; try discriminate; lra.
Qed.

(** *** union *)
Lemma region_rect4 x y w h px py :
  region (rect4 x y w h) px py <-> x <= px <= x + w /\ y <= py <= y + h.
Proof. reflexivity. Qed.

(* What unite_self computes on a placed receiver: the interval hull. *)
Lemma proper_cases r : proper r ->
  (r = mkRect None None (rw r) (rh r) /\ rw r == 0 /\ rh r == 0) \/
  (exists x y, r = rect4 x y (rw r) (rh r) /\ 0 <= rw r /\ 0 <= rh r).
Proof.
  destruct r as [ox oy w h]; unfold proper; cbn.
  intros [(-> & -> & ? & ?)|(H1 & H2 & H3 & H4)]; [left; auto|].
  destruct ox as [x|]; [|congruence]. destruct oy as [y|]; [|congruence].
  right; exists x, y; auto.
Qed.

Lemma contains_placed l t w h x y w' h' :
  0 <= w -> 0 <= h -> contains (rect4 l t w h) x y w' h' = true ->
  l <= x <= l + w /\ t <= y <= t + h /\
  (0 < w' -> 0 < h' -> x + w' <= l + w /\ y + h' <= t + h).
Proof.
  intros Hw Hh. unfold contains, isvalid, between; cbn [rect4 rx ry rw rh is_some andb].
  qcase; cbn; try discriminate; intros _; try lra; repeat split; intros; lra.
Qed.

(* Interval form of the result on a placed receiver. *)
Lemma unite_placed l t w h x y w' h' :
  0 <= w -> 0 <= h -> 0 <= w' -> 0 <= h' -> (0 < w' <-> 0 < h') ->
  exists a b c d,
    (forall px py, region (unite_self (rect4 l t w h) (Some x) (Some y) w' h') px py
       <-> a <= px <= b /\ c <= py <= d) /\
    proper (unite_self (rect4 l t w h) (Some x) (Some y) w' h') /\
    rx (unite_self (rect4 l t w h) (Some x) (Some y) w' h') <> None /\
    a == pymin l x /\ b == pymax (l + w) (x + w') /\
    c == pymin t y /\ d == pymax (t + h) (y + h').
Proof.
  intros Hw Hh Hw' Hh' Hf.
  assert (D : (0 < w' /\ 0 < h') \/ (w' == 0 /\ h' == 0)).
  { destruct (Qltb_spec 0 w'); [left; tauto|].
    right; split; [lra|]. destruct (Qltb_spec 0 h'); [tauto|lra]. }
  unfold unite_self.
  destruct (contains (rect4 l t w h) x y w' h') eqn:Hc.
  - apply contains_placed in Hc; auto. destruct Hc as (H1 & H2 & H3).
    exists l, (l + w), t, (t + h). split; [intros; apply region_rect4|].
    split; [right; cbn; repeat split; congruence || auto|].
    split; [cbn; congruence|].
    unfold pymin, pymax. destruct D as [D|D].
    + destruct D. specialize (H3 H H0). qcase; lra.
    + destruct D. qcase; lra.
  - clear Hc. unfold right, bottom; cbn [rect4 rx ry rw rh].
    assert (E0 : (0 <?q w') && (0 <?q h') = if 0 <?q w' then true else false) by
      (destruct (Qltb_spec 0 w'), (Qltb_spec 0 h'); cbn; try reflexivity; exfalso; tauto).
    rewrite E0. clear E0.
    destruct (Qltb_spec 0 w') as [P|P].
    + assert (P2 : 0 < h') by tauto.
      destruct (Qltb_spec x l), (Qltb_spec y t);
      try destruct (Qltb_spec (l + w) x); try destruct (Qltb_spec (t + h) y);
        try (exfalso; lra);
      repeat match goal with |- context [if ?a <?q ?b then _ else _] =>
          destruct (Qltb_spec a b); try (exfalso; lra) end;
      (eexists _, _, _, _; split; [intros; apply region_set_coords|];
       split; [right; cbn; repeat split; first [congruence | lra]|];
       split; [cbn; congruence|];
       unfold pymin, pymax; qcase; lra).
    + assert (P2 : h' == 0) by (destruct D as [[? ?]|[? ?]]; lra).
      destruct (Qltb_spec x l), (Qltb_spec y t);
      try destruct (Qltb_spec (l + w) x); try destruct (Qltb_spec (t + h) y);
        try (exfalso; lra);
      (eexists _, _, _, _; split; [intros; apply region_set_coords|];
       split; [right; cbn; repeat split; first [congruence | lra]|];
       split; [cbn; congruence|];
       unfold pymin, pymax; qcase; lra).
Qed.

(* unset receiver, full operand: becomes the operand *)
Lemma unite_unset w0 h0 x y w' h' :
  w0 == 0 -> h0 == 0 -> 0 <= w' -> 0 <= h' -> (0 < w' <-> 0 < h') ->
  let u := unite_self (mkRect None None w0 h0) (Some x) (Some y) w' h' in
  (forall px py, region u px py <-> region (rect4 x y w' h') px py) /\ proper u.
Proof.
  intros Ew Eh Hw Hh Hf u. subst u. unfold unite_self.
  rewrite contains_invalid by reflexivity. unfold right, bottom; cbn [rx ry rw rh].
  destruct (Qltb_spec 0 w') as [P|P].
  - assert (P2 : 0 < h') by tauto.
    destruct (Qltb_spec 0 h'); [|lra]. cbn [andb]. split.
    + intros; rewrite region_set_coords, region_rect4; reflexivity.
    + right; cbn; repeat split; first [congruence | lra].
  - cbn [andb]. assert (P2 : ~ 0 < h') by tauto. split.
    + intros; unfold region; cbn; split; intros; lra.
    + right; cbn; repeat split; first [congruence | lra].
Qed.

Lemma included_least_aux a b c d (bx : rect) :
  a <= b -> c <= d -> proper bx ->
  region bx a c -> region bx b d ->
  forall px py, a <= px <= b /\ c <= py <= d -> region bx px py.
Proof.
  intros Hab Hcd _ H1 H2 px py Hp. unfold region in *.
  destruct (rx bx); [|tauto]. destruct (ry bx); [|tauto]. lra.
Qed.

Lemma unite_upper r o : proper r -> full o ->
  proper (unite r o) /\ included r (unite r o) /\ included o (unite r o) /\
  (forall b, proper b -> included r b -> included o b -> included (unite r o) b).
Proof.
  intros Hr [Ho Hf]. unfold unite.
  apply proper_cases in Ho. destruct Ho as [(Eo & Eow & Eoh)|(ox & oy & Eo & Eow & Eoh)].
  - rewrite Eo; cbn [rx ry]. cbn [unite_self].
    split; [exact Hr|]. split; [intros ? ?; auto|].
    split; [intros ? ? []|auto].
  - rewrite Eo; cbn [rx ry rw rh rect4].
    set (w' := rw o) in *. set (h' := rh o) in *.
    pose proof Hr as Hr0.
    apply proper_cases in Hr. destruct Hr as [(Er & Erw & Erh)|(x & y & Er & Erw & Erh)].
    + rewrite Er.
      destruct (unite_unset (rw r) (rh r) ox oy w' h' Erw Erh Eow Eoh Hf) as [H1 H2].
      split; [exact H2|].
      split; [intros ? ? []|].
      split; [intros ? ? ?; apply H1; assumption|].
      intros b _ _ Hb px py Hp. apply Hb, H1, Hp.
    + rewrite Er in Hr0 |- *.
      destruct (unite_placed x y (rw r) (rh r) ox oy w' h' Erw Erh Eow Eoh Hf)
        as (a & b & c & d & H1 & H2 & H3 & Ea & Eb & Ec & Ed).
      pose proof (pymin_spec x ox) as (A1 & A2 & A3).
      pose proof (pymax_spec (x + rw r) (ox + w')) as (B1 & B2 & B3).
      pose proof (pymin_spec y oy) as (C1 & C2 & C3).
      pose proof (pymax_spec (y + rh r) (oy + h')) as (D1 & D2 & D3).
      split; [exact H2|].
      split; [intros px py Hp; apply H1; rewrite region_rect4 in Hp; lra|].
      split; [intros px py Hp; apply H1; rewrite region_rect4 in Hp; lra|].
      intros bx Hbx K1 K2 px py Hp. apply H1 in Hp.
      pose proof (K1 x y) as K1a. pose proof (K1 (x + rw r) (y + rh r)) as K1b.
      pose proof (K2 ox oy) as K2a. pose proof (K2 (ox + w') (oy + h')) as K2b.
      rewrite region_rect4 in K1a, K1b, K2a, K2b.
      specialize (K1a ltac:(lra)). specialize (K1b ltac:(lra)).
      specialize (K2a ltac:(lra)). specialize (K2b ltac:(lra)).
      clear K1 K2. unfold region in *.
      destruct (rx bx); [|tauto]. destruct (ry bx); [|tauto].
      set (pm := pymin x ox) in *. set (pM := pymax (x + rw r) (ox + w')) in *.
      set (qm := pymin y oy) in *. set (qM := pymax (y + rh r) (oy + h')) in *.
      clearbody pm pM qm qM.
      destruct A3, B3, C3, D3; split; lra.
Qed.

(* folding unite over a list of boxes *)
Definition unite_all (l : list rect) : rect := fold_left unite l rect_unset.

Lemma unite_fold l : forall r, proper r -> Forall full l ->
  let u := fold_left unite l r in
  proper u /\ included r u /\ (forall o, In o l -> included o u) /\
  (forall b, proper b -> included r b -> (forall o, In o l -> included o b) -> included u b).
Proof.
  induction l as [|o l IH]; intros r Hr Hl; cbn [fold_left].
  - repeat split; auto; intros ? ?; auto. contradiction.
  - inversion Hl as [|? ? Ho Hl']; subst.
    destruct (unite_upper r o Hr Ho) as (P & I1 & I2 & L).
    destruct (IH (unite r o) P Hl') as (P' & J1 & J2 & L').
    split; [exact P'|].
    split; [intros px py H; apply J1, I1, H|].
    split.
    + intros o' [->|Hin]; [intros px py H; apply J1, I2, H|apply J2, Hin].
    + intros b Hb Hrb Hall. apply L'; auto.
      * apply L; auto. apply Hall; left; reflexivity.
      * intros o' Ho'. apply Hall; right; exact Ho'.
Qed.

Lemma proper_unset : proper rect_unset.
Proof. left; cbn; repeat split; reflexivity. Qed.

Lemma unite_all_spec l : Forall full l ->
  proper (unite_all l) /\ (forall o, In o l -> included o (unite_all l)) /\
  (forall b, proper b -> (forall o, In o l -> included o b) -> included (unite_all l) b).
Proof.
  intros Hl. destruct (unite_fold l rect_unset proper_unset Hl) as (P & _ & I & L).
  split; [exact P|]. split; [exact I|].
  intros b Hb H. apply L; auto. intros ? ? [].
Qed.

Lemma unite_all_perm l l' : Permutation l l' -> Forall full l ->
  same_region (unite_all l) (unite_all l').
Proof.
  intros Hp Hl.
  assert (Hl' : Forall full l').
  { rewrite Forall_forall in *; intros o Ho. apply Hl.
    eapply Permutation_in; [apply Permutation_sym, Hp|exact Ho]. }
  destruct (unite_all_spec l Hl) as (P1 & I1 & L1).
  destruct (unite_all_spec l' Hl') as (P2 & I2 & L2).
  intros px py; split; intros H.
  - revert px py H. apply L1; auto. intros o Ho. apply I2.
    eapply Permutation_in; [exact Hp|exact Ho].
  - revert px py H. apply L2; auto. intros o Ho. apply I1.
    eapply Permutation_in; [apply Permutation_sym, Hp|exact Ho].
Qed.

(* A degenerate operand (exactly one positive size) contributes only its
   top-left corner. *)
Lemma unite_line_is_point r x y w h :
  (w <= 0 \/ h <= 0) ->
  unite_self r (Some x) (Some y) w h = unite_self r (Some x) (Some y) 0 0.
Proof.
  intros H. unfold unite_self.
  assert (E : contains r x y w h = contains r x y 0 0).
  { unfold contains. destruct (negb (isvalid r)); [reflexivity|].
    destruct (rx r); [|reflexivity]. destruct (ry r); [|reflexivity].
    change (0 <=?q 0) with true; cbn [orb].
    destruct (Qleb_spec w 0), (Qleb_spec h 0); cbn [orb]; try reflexivity.
    exfalso; destruct H; lra. }
  rewrite E.
  assert (E2 : (0 <?q w) && (0 <?q h) = (0 <?q 0) && (0 <?q 0)).
  { change (0 <?q 0) with false. cbn [andb].
    destruct (Qltb_spec 0 w), (Qltb_spec 0 h); cbn; try reflexivity.
    destruct H; lra. }
  rewrite E2. reflexivity.
Qed.

(** *** transform *)
Lemma min4_spec a b c d :
  (min4 a b c d <= a /\ min4 a b c d <= b /\ min4 a b c d <= c /\ min4 a b c d <= d) /\
  (min4 a b c d == a \/ min4 a b c d == b \/ min4 a b c d == c \/ min4 a b c d == d).
Proof.
  unfold min4.
  pose proof (pymin_spec a b) as (A1 & A2 & A3).
  pose proof (pymin_spec (pymin a b) c) as (B1 & B2 & B3).
  pose proof (pymin_spec (pymin (pymin a b) c) d) as (C1 & C2 & C3).
  split; [repeat split; lra|].
  destruct C3 as [C3|C3]; [|right; right; right; exact C3].
  destruct B3 as [B3|B3]; [|right; right; left; lra].
  destruct A3 as [A3|A3]; [left|right; left]; lra.
Qed.
Lemma max4_spec a b c d :
  (a <= max4 a b c d /\ b <= max4 a b c d /\ c <= max4 a b c d /\ d <= max4 a b c d) /\
  (max4 a b c d == a \/ max4 a b c d == b \/ max4 a b c d == c \/ max4 a b c d == d).
Proof.
  unfold max4.
  pose proof (pymax_spec a b) as (A1 & A2 & A3).
  pose proof (pymax_spec (pymax a b) c) as (B1 & B2 & B3).
  pose proof (pymax_spec (pymax (pymax a b) c) d) as (C1 & C2 & C3).
  split; [repeat split; lra|].
  destruct C3 as [C3|C3]; [|right; right; right; exact C3].
  destruct B3 as [B3|B3]; [|right; right; left; lra].
  destruct A3 as [A3|A3]; [left|right; left]; lra.
Qed.

(* an affine form attains its extremes on a box at the corners *)
Lemma affine_corner_le a c e w h u v M :
  0 <= u <= w -> 0 <= v <= h ->
  e <= M -> e + a * w <= M -> e + c * h <= M -> e + a * w + c * h <= M ->
  e + a * u + c * v <= M.
Proof. intros. destruct (Qlt_le_dec a 0), (Qlt_le_dec c 0); nra. Qed.
Lemma affine_corner_ge a c e w h u v M :
  0 <= u <= w -> 0 <= v <= h ->
  M <= e -> M <= e + a * w -> M <= e + c * h -> M <= e + a * w + c * h ->
  M <= e + a * u + c * v.
Proof. intros. destruct (Qlt_le_dec a 0), (Qlt_le_dec c 0); nra. Qed.

(* the guard under which the overwritten corner does not matter *)
Definition corner1_not_max (a c : Q) : Prop := ~ (a < 0 /\ c < 0).

Lemma not_both_neg a c : corner1_not_max a c -> 0 <= a \/ 0 <= c.
Proof. unfold corner1_not_max; intros H.
  destruct (Qlt_le_dec a 0); [|auto]. destruct (Qlt_le_dec c 0); [exfalso; auto|auto].
Qed.

(* one axis of transform_self *)
Lemma transform_axis a c e l t w h :
  0 < w -> 0 < h -> corner1_not_max a c ->
  let f x y := a * x + c * y + e in
  let x1 := f l t in let x2 := f (l + w) t in
  let x3 := f (l + w) (t + h) in let x4 := f l (t + h) in
  let lo := min4 x1 x2 x3 x4 in
  let hi := max4 lo x2 x3 x4 in
  (forall px py, l <= px <= l + w -> t <= py <= t + h -> lo <= f px py <= hi) /\
  (exists px py, l <= px <= l + w /\ t <= py <= t + h /\ f px py == lo) /\
  (exists px py, l <= px <= l + w /\ t <= py <= t + h /\ f px py == hi).
Proof.
  intros Hw Hh Hg f x1 x2 x3 x4 lo hi.
  pose proof (min4_spec x1 x2 x3 x4) as ((A1 & A2 & A3 & A4) & A5). fold lo in A1, A2, A3, A4, A5.
  pose proof (max4_spec lo x2 x3 x4) as ((B1 & B2 & B3 & B4) & B5). fold hi in B1, B2, B3, B4, B5.
  assert (X1 : x1 <= hi).
  { apply not_both_neg in Hg. unfold x1, x2, x3, x4, f in *.
    destruct Hg; [apply Qle_trans with (a * (l + w) + c * t + e); [nra|exact B2]
                 |apply Qle_trans with (a * l + c * (t + h) + e); [nra|exact B4]]. }
  clearbody lo hi.
  split; [|split].
  - intros px py Hx Hy. unfold x1, x2, x3, x4, f in *.
    pose proof (affine_corner_le a c (a*l + c*t + e) w h (px - l) (py - t) hi).
    pose proof (affine_corner_ge a c (a*l + c*t + e) w h (px - l) (py - t) lo).
    split; [|]; nra.
  - destruct A5 as [A5|[A5|[A5|A5]]]; [exists l, t|exists (l+w), t|exists (l+w), (t+h)|exists l, (t+h)];
      (repeat split; try lra; rewrite A5; unfold x1, x2, x3, x4; reflexivity).
  - destruct B5 as [B5|[B5|[B5|B5]]].
    + (* hi = lo: all equal *)
      exists l, t; repeat split; try lra. fold x1. lra.
    + exists (l+w), t; repeat split; try lra. rewrite B5; reflexivity.
    + exists (l+w), (t+h); repeat split; try lra. rewrite B5; reflexivity.
    + exists l, (t+h); repeat split; try lra. rewrite B5; reflexivity.
Qed.

Lemma transform_exact r m :
  isvalid r = true -> corner1_not_max (fa m) (fc m) -> corner1_not_max (fb m) (fd m) ->
  (forall px py, region r px py -> region (transform_self r m) (apply_x m px py) (apply_y m px py)) /\
  (forall b, proper b ->
     (forall px py, region r px py -> region b (apply_x m px py) (apply_y m px py)) ->
     included (transform_self r m) b) /\
  0 <= rw (transform_self r m) /\ 0 <= rh (transform_self r m).
Proof.
  intros Hv Gx Gy. unfold transform_self. rewrite Hv; cbn [negb].
  valid Hv. rewrite Ex, Ey. cbn zeta.
  unfold apply_x, apply_y in *.
  pose proof (transform_axis (fa m) (fc m) (fe m) x y (rw r) (rh r) Hw Hh Gx) as TX.
  pose proof (transform_axis (fb m) (fd m) (ff m) x y (rw r) (rh r) Hw Hh Gy) as TY.
  cbn zeta in TX, TY.
  match type of TX with context [max4 ?lo ?p ?q ?s] =>
    set (lox := lo) in *; set (hix := max4 lox p q s) in * end.
  match type of TY with context [max4 ?lo ?p ?q ?s] =>
    set (loy := lo) in *; set (hiy := max4 loy p q s) in * end.
  destruct TX as (TX1 & (ax & ay & Ax1 & Ax2 & Ax3) & (bx & by_ & Bx1 & Bx2 & Bx3)).
  destruct TY as (TY1 & (cx & cy & Cx1 & Cx2 & Cx3) & (dx & dy & Dx1 & Dx2 & Dx3)).
  clearbody lox hix loy hiy.
  split; [|split].
  - intros px py Hp. unfold region in Hp; rewrite Ex, Ey in Hp. destruct Hp.
    apply region_set_coords. split; [apply TX1|apply TY1]; assumption.
  - intros b Hb Hall px py Hp. rewrite region_set_coords in Hp.
    assert (Hall' : forall u v, x <= u <= x + rw r -> y <= v <= y + rh r ->
       region b (fa m * u + fc m * v + fe m) (fb m * u + fd m * v + ff m)).
    { intros u v Hu Hv. apply Hall. unfold region; rewrite Ex, Ey; auto. }
    pose proof (Hall' _ _ Ax1 Ax2) as KA. pose proof (Hall' _ _ Bx1 Bx2) as KB.
    pose proof (Hall' _ _ Cx1 Cx2) as KC. pose proof (Hall' _ _ Dx1 Dx2) as KD.
    unfold region in KA, KB, KC, KD |- *.
    destruct (rx b); [|tauto]. destruct (ry b); [|tauto].
    rewrite Ax3 in KA. rewrite Bx3 in KB. rewrite Cx3 in KC. rewrite Dx3 in KD. lra.
  - cbn. pose proof (TX1 x y ltac:(lra) ltac:(lra)). pose proof (TY1 x y ltac:(lra) ltac:(lra)).
    split; lra.
Qed.

(* and the guard is necessary: otherwise the top-left corner's image escapes *)
Lemma transform_wrong_x r m :
  isvalid r = true -> fa m < 0 -> fc m < 0 ->
  exists px py, region r px py /\
    ~ region (transform_self r m) (apply_x m px py) (apply_y m px py).
Proof.
  intros Hv Ha Hc. pose proof Hv as Hv'. valid Hv.
  exists x, y. split; [unfold region; rewrite Ex, Ey; lra|].
  unfold transform_self. rewrite Hv'; cbn [negb]. rewrite Ex, Ey. cbn zeta.
  rewrite region_set_coords.
  intros [[_ H] _]. revert H.
  match goal with |- context [max4 ?lo ?p ?q ?s] =>
    pose proof (max4_spec lo p q s) as (_ & M); set (hi := max4 lo p q s) in *; clearbody hi;
    pose proof (min4_spec (apply_x m x y) p q s) as ((L1 & L2 & L3 & L4) & _) end.
  unfold apply_x in *. intros H.
  assert (fa m * rw r < 0) by nra. assert (fc m * rh r < 0) by nra.
  destruct M as [M|[M|[M|M]]]; rewrite M in H; lra.
Qed.

(** *** normalize and the rest *)
Lemma normalize_spec x y w h :
  exists n, normalize (rect4 x y w h) = Ok n /\ 0 <= rw n /\ 0 <= rh n /\
    (forall px py, region n px py <-> swept (rect4 x y w h) px py) /\
    normalize n = Ok n.
Proof.
  unfold normalize; cbn [rect4 rx ry rw rh].
  destruct (Qltb_spec w 0) as [Hw|Hw], (Qltb_spec h 0) as [Hh|Hh]; cbn [bind];
  (eexists; split; [reflexivity|]; cbn [rw rh];
   split; [lra|]; split; [lra|]; split;
   [intros px py; unfold region, swept; cbn; split; intros H;
    [ split; lra
    | destruct H as [[H|H] [H'|H']]; split; lra ]
   |]);
  repeat match goal with |- context [?a <?q 0] => destruct (Qltb_spec a 0); [exfalso; lra|] end;
  reflexivity.
Qed.

Lemma normalize_unset_error w h :
  w < 0 -> normalize (mkRect None None w h) = Err TypeError.
Proof. intros; unfold normalize; cbn [rx ry rw rh]. destruct (Qltb_spec w 0); [reflexivity|lra]. Qed.

Lemma contains_refl r : isvalid r = true ->
  forall x y, rx r = Some x -> ry r = Some y -> contains r x y (rw r) (rh r) = true.
Proof.
  intros H x y Ex Ey. pose proof H as H'. valid H'.
  apply contains_rect; auto. rewrite <- (rect_eta r x y Ex Ey). intros ? ?; auto.
Qed.

Lemma contains_trans r s t : isvalid r = true -> isvalid s = true -> isvalid t = true ->
  forall sx sy tx ty, rx s = Some sx -> ry s = Some sy -> rx t = Some tx -> ry t = Some ty ->
  contains r sx sy (rw s) (rh s) = true -> contains s tx ty (rw t) (rh t) = true ->
  contains r tx ty (rw t) (rh t) = true.
Proof.
  intros Hr Hs Ht sx sy tx ty Esx Esy Etx Ety H1 H2.
  pose proof Hs as Hs'. valid Hs'. pose proof Ht as Ht'. valid Ht'.
  apply contains_rect in H1; auto. apply contains_rect in H2; auto.
  apply contains_rect; auto.
  rewrite <- (rect_eta s sx sy Esx Esy) in H1.
  intros px py Hp. apply H1, H2, Hp.
Qed.

(** *** histories of in-place edits *)
Definition translates (l : list (Q * Q)) : list rect_op :=
  map (fun d => OpTranslate (fst d) (snd d)) l.
Definition sumx (l : list (Q * Q)) : Q := fold_right (fun d a => fst d + a) 0 l.
Definition sumy (l : list (Q * Q)) : Q := fold_right (fun d a => snd d + a) 0 l.

Lemma region_translate r dx dy px py :
  region (fst (translate_self r dx dy)) px py <-> region r (px - dx) (py - dy).
Proof.
  unfold translate_self, region. destruct (rx r) as [x|] eqn:Ex; cbn.
  - destruct (ry r) as [y|] eqn:Ey; cbn; [split; intros; lra|tauto].
  - rewrite Ex; tauto.
Qed.

Lemma region_compat r px py px' py' : px == px' -> py == py' ->
  region r px py -> region r px' py'.
Proof.
  unfold region; intros E1 E2. destruct (rx r); [|tauto]. destruct (ry r); [|tauto].
  intros; lra.
Qed.

Lemma region_translates l : forall r px py,
  region (runs rect_step (translates l) r) px py <-> region r (px - sumx l) (py - sumy l).
Proof.
  induction l as [|[dx dy] l IH]; intros r px py; cbn.
  - split; apply region_compat; lra.
  - unfold runs in IH. rewrite IH, region_translate.
    fold (sumx l) (sumy l). split; apply region_compat; cbn [fst snd]; lra.
Qed.

Lemma adjust_undo r a b c d :
  isvalid r = true -> isvalid (adjust_self r a b c d) = true ->
  same_region (adjust_self (adjust_self r a b c d) (-a) (-b) (-c) (-d)) r.
Proof.
  intros H1 H2 px py. unfold adjust_self at 1. rewrite H2; cbn [negb].
  unfold adjust_self. rewrite H1; cbn [negb].
  valid H1. rewrite Ex, Ey. cbn [set_coords rect4 rx ry rw rh].
  rewrite region_set_coords. unfold region; rewrite Ex, Ey. split; intros; lra.
Qed.

Lemma adjust_edges r x y a b c d :
  rx r = Some x -> ry r = Some y -> isvalid r = true ->
  forall px py, region (adjust_self r a b c d) px py <->
    x + a <= px <= x + rw r + c /\ y + b <= py <= y + rh r + d.
Proof.
  intros Ex Ey H px py. unfold adjust_self. rewrite H; cbn [negb].
  rewrite Ex, Ey. apply region_set_coords.
Qed.

Lemma transpose_involutive r : transpose_self (transpose_self r) = r.
Proof. destruct r; reflexivity. Qed.

Lemma transpose_region r x y u v : rx r = Some x -> ry r = Some y ->
  (region (transpose_self r) (x + u) (y + v) <-> region r (x + v) (y + u)).
Proof.
  intros Ex Ey. unfold region, transpose_self. cbn. rewrite Ex, Ey. split; intros; lra.
Qed.

(* boxes built by any mix of unite / translate / move_to / set_size with
   non-negative sizes stay proper *)
Definition op_ok (op : rect_op) : Prop :=
  match op with
  | OpUnite o => full o
  | OpTranslate _ _ => True
  | OpSetRect _ _ w h => 0 <= w /\ 0 <= h
  | OpIntersect _ => True
  | OpTransform m => True
  | OpTranspose => True
  | _ => False
  end.

Lemma proper_intersect r o : proper r -> proper (intersect_self r o).
Proof.
  intros Hr. unfold intersect_self.
  destruct (isvalid r) eqn:Vr; [|exact Hr]. destruct (isvalid o) eqn:Vo; [|exact Hr].
  cbn [negb orb]. valid Vr. valid Vo. rewrite Ex, Ey, Ex0, Ey0.
  destruct (contains _ _ _ _ _); [exact Hr|]. cbn zeta.
  set (rw1 := rw r) in *. set (rh1 := rh r) in *.
  set (rw2 := rw o) in *. set (rh2 := rh o) in *.
  clearbody rw1 rh1 rw2 rh2.
  match goal with |- context [?P && ?Q && ?R] => set (ovv := R) end.
  match goal with |- context [(y <?q y0) && ?Q && ?R] => set (ovh := R) end.
  clearbody ovv ovh.
  right. cbn. split; [congruence|]. split; [congruence|].
  split.
  - destruct (Qltb_spec x x0), (Qltb_spec x0 (x + rw1)), (Qltb_spec x (x0 + rw2)),
      (Qltb_spec (x0 + rw2) (x + rw1)), ovv; cbn [andb]; lra.
  - destruct (Qltb_spec y y0), (Qltb_spec y0 (y + rh1)), (Qltb_spec y (y0 + rh2)),
      (Qltb_spec (y0 + rh2) (y + rh1)), ovh; cbn [andb]; lra.
Qed.

Lemma proper_transform r m : proper r -> proper (transform_self r m).
Proof.
  intros Hr. unfold transform_self.
  destruct (isvalid r) eqn:Vr; [|exact Hr]. cbn [negb].
  destruct (rx r); [|exact Hr]. destruct (ry r); [|exact Hr]. cbn zeta.
  right. cbn. split; [congruence|]. split; [congruence|].
  split; match goal with |- 0 <= max4 ?lo ?a ?b ?c - ?lo =>
    pose proof (max4_spec lo a b c) as ((M & _) & _); lra end.
Qed.

Lemma proper_step r op : op_ok op -> proper r -> proper (rect_step r op).
Proof.
  intros Ho Hr; destruct op; cbn in Ho |- *; try contradiction.
  - right; cbn; repeat split; first [congruence | lra].
  - unfold translate_self. destruct r as [[x|] [y|] w h]; cbn; try exact Hr.
    + destruct Hr as [(H & _)|(_ & _ & H)]; [discriminate|].
      right; cbn in *; repeat split; first [congruence | lra].
    + destruct Hr as [(H & _)|(_ & H & _)]; cbn in *; congruence.
  - destruct Hr as [(A & B & C & D)|(A & B & C & D)];
      [left|right]; cbn; repeat split; auto.
  - now apply proper_intersect.
  - now apply unite_upper.
  - now apply proper_transform.
Qed.

Lemma proper_history ops r : Forall op_ok ops -> proper r -> proper (runs rect_step ops r).
Proof.
  revert r; induction ops as [|op ops IH]; intros r Ho Hr; cbn; [exact Hr|].
  inversion Ho; subst. apply IH; auto. now apply proper_step.
Qed.

(* concrete checks *)
Lemma isvalid_rect4 x y w h : 0 < w -> 0 < h -> isvalid (rect4 x y w h) = true.
Proof. intros; apply isvalid_true; exists x, y; auto. Qed.
