(** Proofs about the positions of glyphs. *)
From Coq Require Import Lia Lqa.
From Verif Require Import PyBase MatrixModel RectModel RectSpec PathModel PathSpec UseSpec LayoutModel LayoutSpec.
Local Open Scope Q_scope.

Lemma attr_eqb_iff a b : attr_eqb a b = true <-> a = b.
Proof. destruct a, b; cbn; split; congruence. Qed.

(** ** The lists after some glyphs *)
Definition rest_of (a : attr) (n : nat) (l : list Q) : list Q :=
  match a with ARotate => skipn (Nat.min n (length l - 1)) l | _ => skipn n l end.
Definition lists_for (g0 : store) (before : list item) (ks : list N) (a : attr) : list Q :=
  match nearest g0 a ks with
  | Some k => match g0 k a with Some l => rest_of a (counted g0 a k before) l | None => [] end
  | None => []
  end.
Definition lists_at (g0 : store) (before : list item) (ks : list N) : lists :=
  mkLs (lists_for g0 before ks AX) (lists_for g0 before ks AY) (lists_for g0 before ks ADx) (lists_for g0 before ks ADy)
    (lists_for g0 before ks ARotate).
Definition store_at (g0 : store) (before : list item) (st : store) : Prop :=
  forall k a, st k a = match g0 k a with Some l => Some (rest_of a (counted g0 a k before) l) | None => None end.

Lemma store_start g0 : store_at g0 [] g0.
Proof. intros k a. destruct (g0 k a) as [l|]; [|reflexivity]. cbn. destruct a; reflexivity. Qed.
Lemma owner_nearest g0 before st a ks : store_at g0 before st -> owner st a ks = nearest g0 a ks.
Proof.
  intros H. induction ks as [|k ks IH]; [reflexivity|]. cbn [owner nearest find]. rewrite H.
  destruct (g0 k a); [reflexivity|exact IH].
Qed.
Lemma held_lists g0 before st a ks : store_at g0 before st -> held st a ks = lists_for g0 before ks a.
Proof.
  intros H. unfold held, lists_for. rewrite (owner_nearest g0 before) by exact H.
  destruct (nearest g0 a ks) as [k|]; [|reflexivity]. rewrite H. destruct (g0 k a); reflexivity.
Qed.
Lemma counted_app g0 a k b1 b2 : counted g0 a k (b1 ++ b2) = (counted g0 a k b1 + counted g0 a k b2)%nat.
Proof. unfold counted. now rewrite filter_app, app_length. Qed.
Lemma nearest_some g0 a ks k : nearest g0 a ks = Some k -> exists l, g0 k a = Some l.
Proof. unfold nearest. intros H. apply find_some in H. destruct H as [_ H]. destruct (g0 k a); [eauto|discriminate]. Qed.
Lemma counted_other g0 a k ks b : Forall (fun it => i_line it = ks) b -> nearest g0 a ks <> Some k -> counted g0 a k b = 0%nat.
Proof.
  intros F N. unfold counted. induction F as [|it b E F IH]; [reflexivity|]. cbn [filter]. rewrite E.
  destruct (nearest g0 a ks) as [k'|]; [|exact IH]. destruct (N.eqb_spec k' k); [congruence|exact IH].
Qed.
Lemma counted_same g0 a k it : nearest g0 a (i_line it) = Some k -> counted g0 a k [it] = 1%nat.
Proof. intros E. unfold counted. cbn [filter]. rewrite E, N.eqb_refl. reflexivity. Qed.

Lemma keep_rest g0 before b st ks a : store_at g0 before st -> Forall (fun it => i_line it = ks) b ->
  (forall k, keep ks a (lists_for g0 (before ++ b) ks a) st k a =
     match g0 k a with Some l => Some (rest_of a (counted g0 a k (before ++ b)) l) | None => None end) /\
  (forall k a' l, a' <> a -> keep ks a l st k a' = st k a').
Proof.
  intros H F. split.
  - intros k. unfold keep. rewrite (owner_nearest g0 before) by exact H. unfold lists_for.
    destruct (nearest g0 a ks) as [k'|] eqn:E.
    + unfold upd. destruct (N.eqb_spec k k') as [->|D].
      * replace (attr_eqb a a) with true by (symmetry; now apply attr_eqb_iff). cbn [andb].
        destruct (nearest_some _ _ _ _ E) as [l ->]. reflexivity.
      * cbn [andb]. rewrite H. destruct (g0 k a); [|reflexivity]. rewrite counted_app, (counted_other g0 a k ks b F), Nat.add_0_r; [reflexivity|congruence].
    + rewrite H. destruct (g0 k a); [|reflexivity]. rewrite counted_app, (counted_other g0 a k ks b F), Nat.add_0_r; [reflexivity|congruence].
  - intros k a' l N. unfold keep. destruct (owner st a ks); [|reflexivity]. unfold upd.
    destruct (attr_eqb a' a) eqn:E; [apply attr_eqb_iff in E; contradiction|]. now rewrite andb_false_r.
Qed.
Lemma owner_keep st ks a l b a' : a' <> a -> owner (keep ks a l st) a' b = owner st a' b.
Proof.
  intros N. induction b as [|k b IH]; [reflexivity|]. cbn [owner].
  replace (keep ks a l st k a') with (st k a'). { now destruct (st k a'). }
  unfold keep. destruct (owner st a ks); [|reflexivity]. unfold upd.
  destruct (attr_eqb a' a) eqn:E; [apply attr_eqb_iff in E; contradiction|]. now rewrite andb_false_r.
Qed.
(** keeping all five lists *)
Definition keep_all (ks : list N) (l : lists) (st : store) : store :=
  keep ks ARotate (rots l) (keep ks ADy (dys l) (keep ks ADx (dxs l) (keep ks AY (ys l) (keep ks AX (xs l) st)))).
Lemma keep_at ks a l st k a' : keep ks a l st k a' =
  if attr_eqb a' a then match owner st a ks with Some k' => if N.eqb k k' then Some l else st k a' | None => st k a' end
  else st k a'.
Proof.
  unfold keep. destruct (owner st a ks) as [k'|]; [|now destruct (attr_eqb a' a)]. unfold upd.
  destruct (N.eqb k k'), (attr_eqb a' a); reflexivity.
Qed.
Lemma keep_all_at g0 before b st ks : store_at g0 before st -> Forall (fun it => i_line it = ks) b ->
  store_at g0 (before ++ b) (keep_all ks (lists_at g0 (before ++ b) ks) st).
Proof.
  intros H F k a. unfold keep_all, lists_at. cbn [xs ys dxs dys rots].
  assert (K := proj1 (keep_rest g0 before b st ks a H F) k). rewrite <- K. clear K.
  rewrite !keep_at. destruct a; cbn [attr_eqb]; rewrite ?owner_keep by discriminate; reflexivity.
Qed.

(** ** One glyph *)
Lemma skipn_tl {A} (l : list A) n : skipn (S n) l = tl (skipn n l).
Proof. revert l. induction n as [|n IH]; intros [|x l]; try reflexivity. exact (IH l). Qed.
Lemma skipn_nth {A} (l : list A) n : skipn n l = match nth_error l n with Some v => v :: skipn (S n) l | None => [] end.
Proof. revert l. induction n as [|n IH]; intros [|x l]; try reflexivity. exact (IH l). Qed.
Lemma take_entry g0 a before it d : a <> ARotate ->
  take (lists_for g0 before (i_line it) a) d = (or_else (entry g0 a before it) d, lists_for g0 (before ++ [it]) (i_line it) a).
Proof.
  intros N. unfold lists_for, entry. destruct (nearest g0 a (i_line it)) as [k|] eqn:E; [|reflexivity].
  destruct (nearest_some _ _ _ _ E) as [l Hl]. rewrite Hl, counted_app, (counted_same _ _ _ _ E), Nat.add_1_r.
  assert (R : forall n, rest_of a n l = skipn n l) by (intros n; destruct a; first [reflexivity | congruence]). rewrite !R.
  rewrite (skipn_nth l (counted g0 a k before)). destruct (nth_error l _) eqn:En; [reflexivity|].
  cbn [take or_else]. f_equal. symmetry. apply skipn_all2. apply nth_error_None in En. lia.
Qed.
Definition some_entries (g0 : store) : Prop := forall k l, g0 k ARotate = Some l -> l <> [].
Lemma take_turn g0 before it : some_entries g0 ->
  take_rotate (lists_for g0 before (i_line it) ARotate) 0 = (turned g0 before it, lists_for g0 (before ++ [it]) (i_line it) ARotate)
  /\ (nearest g0 ARotate (i_line it) <> None -> forall d,
     take_rotate (lists_for g0 before (i_line it) ARotate) d = (turned g0 before it, lists_for g0 (before ++ [it]) (i_line it) ARotate)).
Proof.
  intros SE. unfold lists_for, turned. destruct (nearest g0 ARotate (i_line it)) as [k|] eqn:E; [|split; [reflexivity|congruence]].
  destruct (nearest_some _ _ _ _ E) as [l Hl]. assert (NE := SE _ _ Hl). rewrite Hl, counted_app, (counted_same _ _ _ _ E), Nat.add_1_r.
  cbn [rest_of]. set (n := counted g0 ARotate k before).
  assert (K : forall d, take_rotate (skipn (Nat.min n (length l - 1)) l) d =
    (nth (Nat.min n (length l - 1)) l 0, skipn (Nat.min (S n) (length l - 1)) l)); [|split; auto].
  intros d. assert (L : (0 < length l)%nat) by (destruct l; [congruence|cbn; lia]).
  set (m := Nat.min n (length l - 1)). assert (Hm : (m < length l)%nat) by (unfold m; lia).
  rewrite (skipn_nth l m). destruct (nth_error l m) as [v|] eqn:En; [|apply nth_error_None in En; lia].
  rewrite (nth_error_nth _ _ 0 En). destruct (Nat.eq_dec (S m) (length l)) as [Q1|Q1].
  - rewrite (skipn_all2 l) by lia. cbn [take_rotate]. f_equal. replace (Nat.min (S n) (length l - 1)) with m by lia.
    rewrite (skipn_nth l m), En, (skipn_all2 l) by lia. reflexivity.
  - replace (Nat.min (S n) (length l - 1)) with (S m) by lia.
    destruct (skipn (S m) l) as [|w r] eqn:Es; [|reflexivity].
    apply (f_equal (@length Q)) in Es. rewrite skipn_length in Es. cbn in Es. lia.
Qed.

(** the turn before: 0, or whatever when the list is there *)
Definition rot_ok (g0 : store) (ks : list N) (r : Q) : Prop := nearest g0 ARotate ks = None -> r = 0.
Lemma put_sits o g0 before it pn : some_entries g0 -> p_lists pn = lists_at g0 before (i_line it) ->
  rot_ok g0 (i_line it) (p_rot pn) ->
  let '(pn', p) := put o (i_setup it) (i_rtl it) pn (i_glyph it) in
  p_lists pn' = lists_at g0 (before ++ [it]) (i_line it) /\ rot_ok g0 (i_line it) (p_rot pn') /\
  sits g0 before (p_x pn) (p_y pn) it p /\ p_x pn' == next_x it (pl_x p) /\ p_y pn' == next_y it (pl_y p).
Proof.
  intros SE L R. unfold put. rewrite L. cbn [lists_at xs ys dxs dys rots].
  rewrite !take_entry by discriminate.
  assert (T : take_rotate (lists_for g0 before (i_line it) ARotate) (p_rot pn) =
    (turned g0 before it, lists_for g0 (before ++ [it]) (i_line it) ARotate)).
  { destruct (take_turn g0 before it SE) as [T1 T2].
    destruct (nearest g0 ARotate (i_line it)) eqn:E; [apply T2; congruence|]. rewrite (R E). exact T1. }
  rewrite T. cbn [p_lists p_rot p_x p_y pl_x pl_y pl_rot pl_adv pl_id]. split; [reflexivity|]. split.
  { intros E. unfold turned. now rewrite E. }
  unfold sits, next_x, next_y, advance. cbn [p_lists p_rot p_x p_y pl_x pl_y pl_rot pl_adv pl_id].
  destruct (s_horizontal (i_setup it)), (i_rtl it); cbn [andb]; repeat split; ring.
Qed.

(** ** A whole text *)
(** [placing]: the glyphs placed one after the other *)
Inductive placing (g0 : store) : list item -> Q -> Q -> list item -> list placed -> Q -> Q -> Prop :=
| placing_nil before x y x' y' : x' == x -> y' == y -> placing g0 before x y [] [] x' y'
| placing_cons before x y it p its ps x1 y1 x' y' : sits g0 before x y it p ->
    x1 == next_x it (pl_x p) -> y1 == next_y it (pl_y p) ->
    placing g0 (before ++ [it]) x1 y1 its ps x' y' -> placing g0 before x y (it :: its) (p :: ps) x' y'.
Lemma placing_app g0 a : forall b before x y pa pb x1 y1 x2 y2,
  placing g0 before x y a pa x1 y1 -> placing g0 (before ++ a) x1 y1 b pb x2 y2 ->
  placing g0 before x y (a ++ b) (pa ++ pb) x2 y2.
Proof.
  assert (S0 : forall before x y x' y' it p, x' == x -> y' == y -> sits g0 before x' y' it p -> sits g0 before x y it p).
  { intros before x y x' y' it p Ex Ey (A1 & A2 & A3 & A4). split; [exact A1|]. split; [|split; [|exact A4]].
    - rewrite A2. destruct (entry g0 AX before it); cbn [or_else]; [reflexivity|now rewrite Ex].
    - rewrite A3. destruct (entry g0 AY before it); cbn [or_else]; [reflexivity|now rewrite Ey]. }
  induction a as [|it a IH]; intros b before x y pa pb x1 y1 x2 y2 H K; inversion H; subst.
  - rewrite app_nil_r in K. cbn [app].
    match goal with E1 : x1 == x, E2 : y1 == y |- _ => destruct K as [bf u v u' v' F1 F2|bf u v jt q its ps u1 v1 u' v' F1 F2 F3 F4] end.
    + constructor; [now rewrite F1|now rewrite F2].
    + econstructor; [eapply S0; [| |exact F1]; assumption|exact F2|exact F3|exact F4].
  - cbn [app]. econstructor; [eassumption|eassumption|eassumption|]. eapply IH; [eassumption|].
    now rewrite <- app_assoc.
Qed.
Lemma puts_placing o g0 ks s rtl gs : some_entries g0 -> forall before pn,
  p_lists pn = lists_at g0 before ks -> rot_ok g0 ks (p_rot pn) ->
  let '(pn', ps) := puts o s rtl pn gs in
  placing g0 before (p_x pn) (p_y pn) (map (mkI ks s rtl) gs) ps (p_x pn') (p_y pn') /\
  p_lists pn' = lists_at g0 (before ++ map (mkI ks s rtl) gs) ks /\ rot_ok g0 ks (p_rot pn').
Proof.
  intros SE. induction gs as [|g gs IH]; intros before pn L R; cbn [puts map].
  - split; [constructor; reflexivity|]. rewrite app_nil_r. auto.
  - assert (P1 := put_sits o g0 before (mkI ks s rtl g) pn SE L R). cbn [i_line i_setup i_rtl i_glyph] in P1.
    destruct (put o s rtl pn g) as [pn1 p]. destruct P1 as (L1 & R1 & S1 & X1 & Y1).
    specialize (IH (before ++ [mkI ks s rtl g]) pn1 L1 R1). destruct (puts o s rtl pn1 gs) as [pn2 ps].
    destruct IH as (A1 & A2 & A3). split; [|split; [|exact A3]].
    + econstructor; [exact S1|exact X1|exact Y1|exact A1].
    + rewrite A2, <- app_assoc. reflexivity.
Qed.
Lemma ordered_ok gs gs' : in_cluster_order gs = Ok gs' -> gs' = ordered gs.
Proof. destruct gs as [|g gs]; [discriminate|]. cbn [in_cluster_order ordered]. now intros [= <-]. Qed.
Lemma ordered_length gs : length (ordered gs) = length gs.
Proof. destruct gs as [|g gs]; [reflexivity|]. unfold ordered. destruct (_ <? _)%Z; [apply rev_length|reflexivity]. Qed.
Lemma line_placing o g0 ks s start rtl l before pn d : some_entries g0 ->
  p_lists pn = lists_at g0 before ks -> rot_ok g0 ks (p_rot pn) ->
  length (l_glyphs l) = l_chars l -> against s rtl = false -> lay_line o s start rtl pn l = Ok d ->
  let b := map (mkI ks s rtl) (ordered (l_glyphs l)) in
  placing g0 before (p_x pn) (p_y pn) b (d_placed d) (p_x (d_pen d)) (p_y (d_pen d)) /\
  p_lists (d_pen d) = lists_at g0 (before ++ b) ks /\ rot_ok g0 ks (p_rot (d_pen d)).
Proof.
  intros SE L R Len AG. unfold lay_line. destruct (in_cluster_order (l_glyphs l)) as [gs|] eqn:E; cbn [bind]; [|discriminate].
  apply ordered_ok in E. subst gs. rewrite ordered_length, Len, Nat.eqb_refl, AG.
  assert (K := puts_placing o g0 ks s rtl (ordered (l_glyphs l)) SE before (mkPen (p_lists pn) (p_rot pn) (p_x pn) (p_y pn)) L R).
  destruct (puts o s rtl _ _) as [pn' ps]. intros [= <-]. cbn [d_pen d_placed]. exact K.
Qed.
Lemma lines_placing o g0 ks s start rtl ls : some_entries g0 -> against s rtl = false ->
  (forall l, In l ls -> length (l_glyphs l) = l_chars l) -> forall before pn pn' ds,
  p_lists pn = lists_at g0 before ks -> rot_ok g0 ks (p_rot pn) ->
  lay_lines o s start rtl pn ls = Ok (pn', ds) ->
  let b := flat_map (fun l => map (mkI ks s rtl) (ordered (l_glyphs l))) ls in
  placing g0 before (p_x pn) (p_y pn) b (flat_map d_placed ds) (p_x pn') (p_y pn') /\
  p_lists pn' = lists_at g0 (before ++ b) ks /\ rot_ok g0 ks (p_rot pn').
Proof.
  intros SE AG. induction ls as [|l ls IH]; intros Len before pn pn' ds L R; cbn [lay_lines flat_map].
  - intros [= <- <-]. split; [constructor; reflexivity|]. rewrite app_nil_r. auto.
  - destruct (lay_line o s start rtl pn l) as [d|] eqn:E; cbn [bind]; [|discriminate].
    destruct (lay_lines o s start rtl (d_pen d) ls) as [[pn2 ds2]|] eqn:E2; cbn [bind]; [|discriminate].
    intros [= <- <-]. destruct (line_placing o g0 ks s start rtl l before pn d SE L R (Len l (or_introl eq_refl)) AG E) as (A1 & A2 & A3).
    destruct (IH (fun l' i => Len l' (or_intror i)) _ _ _ _ A2 A3 E2) as (B1 & B2 & B3). cbn [flat_map]. split; [|split; [|exact B3]].
    + eapply placing_app; eassumption.
    + rewrite B2, <- app_assoc. reflexivity.
Qed.
Lemma runs_placing o g0 p rs : some_entries g0 ->
  (forall r l, In r rs -> In l (r_lines r) -> length (l_glyphs l) = l_chars l) ->
  (forall r, In r rs -> against (pc_setup p) (r_rtl r) = false) -> forall before pn pn' ds,
  p_lists pn = lists_at g0 before (pc_line p) -> rot_ok g0 (pc_line p) (p_rot pn) ->
  lay_runs o (pc_setup p) pn rs = Ok (pn', ds) ->
  let b := flat_map (run_items p) rs in
  placing g0 before (p_x pn) (p_y pn) b (flat_map d_placed ds) (p_x pn') (p_y pn') /\
  p_lists pn' = lists_at g0 (before ++ b) (pc_line p).
Proof.
  intros SE. induction rs as [|r rs IH]; intros Len AG before pn pn' ds L R; cbn [lay_runs flat_map].
  - intros [= <- <-]. split; [constructor; reflexivity|]. now rewrite app_nil_r.
  - destruct (lay_lines o _ _ _ pn (r_lines r)) as [[pn1 ds1]|] eqn:E; cbn [bind]; [|discriminate].
    destruct (lay_runs o _ pn1 rs) as [[pn2 ds2]|] eqn:E2; cbn [bind]; [|discriminate].
    intros [= <- <-].
    destruct (lines_placing o g0 (pc_line p) (pc_setup p) (r_start r) (r_rtl r) (r_lines r) SE (AG r (or_introl eq_refl))
      (fun l i => Len r l (or_introl eq_refl) i) before pn pn1 ds1 L R E) as (A1 & A2 & A3).
    destruct (IH (fun r' l i => Len r' l (or_intror i)) (fun r' i => AG r' (or_intror i)) _ _ _ _ A2 A3 E2) as (B1 & B2).
    rewrite flat_map_app. split.
    + eapply placing_app; eassumption.
    + rewrite B2, <- app_assoc. reflexivity.
Qed.
Lemma run_items_line p r it : In it (run_items p r) -> i_line it = pc_line p.
Proof.
  unfold run_items. rewrite in_flat_map. intros (l & _ & H). apply in_map_iff in H. destruct H as (g & <- & _). reflexivity.
Qed.
Lemma piece_placing o g0 p before st x y st' x' y' ds : some_entries g0 -> store_at g0 before st ->
  (forall r l, In r (pc_runs p) -> In l (r_lines r) -> length (l_glyphs l) = l_chars l) ->
  (forall r, In r (pc_runs p) -> against (pc_setup p) (r_rtl r) = false) ->
  lay_piece o st x y p = Ok (st', x', y', ds) ->
  placing g0 before x y (piece_items p) (flat_map d_placed ds) x' y' /\ store_at g0 (before ++ piece_items p) st'.
Proof.
  intros SE H Len AG. unfold lay_piece. rewrite !(held_lists g0 before) by exact H.
  destruct (lay_runs o _ _ _) as [[pn ds']|] eqn:E; cbn [bind]; [|discriminate]. intros [= <- <- <- <-].
  destruct (runs_placing o g0 p (pc_runs p) SE Len AG before
    (mkPen (lists_at g0 before (pc_line p)) 0 x y) pn ds' eq_refl (fun _ => eq_refl) E) as (A1 & A2).
  cbn [p_x p_y] in A1. split; [exact A1|].
  change (store_at g0 (before ++ piece_items p) (keep_all (pc_line p) (p_lists pn) st)). rewrite A2.
  apply keep_all_at; [exact H|]. apply Forall_forall. intros it i. unfold piece_items in i. apply in_flat_map in i.
  destruct i as (r & _ & i). eapply run_items_line; exact i.
Qed.
Lemma against_uniform ps p r : uniform ps -> In p ps -> In r (pc_runs p) -> against (pc_setup p) (r_rtl r) = false.
Proof.
  intros U i j. unfold against. destruct (s_horizontal (pc_setup p)) eqn:E; [|reflexivity].
  rewrite (U p r i j E). cbn [andb]. now destruct (s_ltr (pc_setup p)).
Qed.
Lemma pieces_placing o g0 ps : some_entries g0 -> straight ps -> uniform ps -> forall before st x y dss,
  store_at g0 before st -> lay_pieces o st x y ps = Ok dss ->
  exists x' y', placing g0 before x y (items ps) (all_placed dss) x' y'.
Proof.
  intros SE. induction ps as [|p ps IH]; intros Sg U before st x y dss H; cbn [lay_pieces].
  - intros [= <-]. exists x, y. constructor; reflexivity.
  - destruct (lay_piece o st x y p) as [[[[st' x'] y'] ds]|] eqn:E; cbn [bind]; [|discriminate].
    destruct (lay_pieces o st' x' y' ps) as [dss'|] eqn:E2; cbn [bind]; [|discriminate]. intros [= <-].
    destruct (piece_placing o g0 p before st x y st' x' y' ds SE H) as (A1 & A2); [| |exact E|].
    + intros r l i j. apply (Sg p r l); [now left|exact i|exact j].
    + intros r i. apply (against_uniform (p :: ps)); [exact U|now left|exact i].
    + destruct (IH (fun p' r l i => Sg p' r l (or_intror i)) (fun p' r i => U p' r (or_intror i)) _ _ _ _ _ A2 E2) as (x2 & y2 & B).
      exists x2, y2. unfold items, all_placed in *. cbn [flat_map]. eapply placing_app; eassumption.
Qed.

(** from [placing] to every single glyph *)
Lemma placing_length g0 its : forall before x y ps x' y', placing g0 before x y its ps x' y' -> length ps = length its.
Proof. induction its as [|it its IH]; intros before x y ps x' y' H; inversion H; subst; cbn [length]; [reflexivity|f_equal; eauto]. Qed.
Lemma sits_proper g0 before x y x' y' it p : x == x' -> y == y' -> sits g0 before x y it p -> sits g0 before x' y' it p.
Proof.
  intros Ex Ey (A1 & A2 & A3 & A4). split; [exact A1|]. split; [|split; [|exact A4]].
  - rewrite A2. destruct (entry g0 AX before it); cbn [or_else]; [reflexivity|now rewrite Ex].
  - rewrite A3. destruct (entry g0 AY before it); cbn [or_else]; [reflexivity|now rewrite Ey].
Qed.
Lemma placing_each g0 its : forall before pb x y x0 y0 ps x' y', placing g0 before x y its ps x' y' ->
  x == fst (flow x0 y0 before pb) -> y == snd (flow x0 y0 before pb) -> length pb = length before ->
  forall a it b p, its = a ++ it :: b -> nth_error ps (length a) = Some p ->
  let '(cx, cy) := flow x0 y0 (before ++ a) (pb ++ firstn (length a) ps) in sits g0 (before ++ a) cx cy it p.
Proof.
  induction its as [|it0 its IH]; intros before pb x y x0 y0 ps x' y' H Ex Ey L a it b p E Np; [destruct a; discriminate|].
  inversion H as [|? ? ? ? p0 ? ps' x1 y1 ? ? S1 X1 Y1 R]; subst.
  destruct a as [|a0 a]; cbn [app length nth_error firstn] in *.
  - injection E as <- <-. injection Np as <-. rewrite !app_nil_r.
    destruct (flow x0 y0 before pb) as [cx cy] eqn:F. cbn [fst snd] in *. eapply sits_proper; [exact Ex|exact Ey|exact S1].
  - injection E as <- E. specialize (IH (before ++ [it0]) (pb ++ [p0]) x1 y1 x0 y0 ps' x' y' R).
    assert (Fl : flow x0 y0 (before ++ [it0]) (pb ++ [p0]) = (next_x it0 (pl_x p0), next_y it0 (pl_y p0))).
    { unfold flow. rewrite !rev_app_distr. reflexivity. }
    rewrite Fl in IH. cbn [fst snd] in IH. specialize (IH X1 Y1 ltac:(rewrite !app_length; cbn; lia) a it b p E Np).
    rewrite <- !app_assoc in IH. exact IH.
Qed.
Lemma text_start o g0 ps dss : lay_text o g0 ps = Ok dss -> lay_pieces o g0 (begins g0 ps AX) (begins g0 ps AY) ps = Ok dss.
Proof.
  unfold lay_text, begins, first_entry. destruct ps as [|p ps]; [intros H; exact H|].
  destruct (pc_line p) as [|k ks]; [discriminate|].
  destruct (g0 k AX) as [[|x lx]|]; cbn [bind]; try discriminate;
    destruct (g0 k AY) as [[|y ly]|]; cbn [bind]; try discriminate; intros H; exact H.
Qed.
