(** C81: the viewport an element belongs to, after any history of edits and assignments. *)
From Coq Require Import QArith ZArith Lia Permutation.
From Verif Require Import PyBase PyText PyList ForestModel ForestSpec ForestProofs ForestProofs2 ForestProofs3 ForestProofs4 ForestProofs5 ForestProofs6 ForestProofs7 OuterModel OuterSpec OuterProofs.
#[local] Open Scope nat_scope.

(** An 'svg' (0) holding a 'g' (1) with an 'svg' (2) that holds a 'symbol' (3) with a
    'rect' (4); another tree, 'svg' 5 with a 'path' 6; and a 'rect' 7 on its own. *)
Definition doc0 : forest :=
  [[Nd 0 El (Some 100) [Nd 1 El (Some 100) [Nd 2 El (Some 100) [Nd 3 El (Some 100) [Nd 4 El (Some 100) []]]]]];
   [Nd 5 El (Some 101) [Nd 6 El (Some 101) []]]; [Nd 7 El (Some 100) []]].
Definition names0 (n : nat) : text :=
  match n with 0 | 2 | 5 => lit "svg" | 1 => lit "g" | 3 => lit "symbol" | 4 | 7 => lit "rect" | _ => lit "path" end.
Definition world0 : world := fresh doc0 names0 (fun _ => None).
Lemma proper0 : proper doc0.
Proof.
  split; [repeat constructor; cbn; intuition lia|]. intros q o l R. unfold Row in R. cbn in R. repeat (destruct R as [R|R]; [discriminate R|]). destruct R.
Qed.

(** ** The searches *)
Theorem c81_farthest w ds n : proper (w_tree w) -> In n (all (w_tree w)) ->
  let w' := acts w ds in
  (forall r, get_farthest_svg_element w' n = Some r <-> outermost w' svg n r) /\
  (get_farthest_svg_element w' n = None <-> forall q, below (w_tree w') q n -> ~ named w' svg q) /\
  (forall r, get_farthest_viewport_element w' n = Some r <-> outermost w' viewports n r) /\
  (get_farthest_viewport_element w' n = None <-> forall q, below (w_tree w') q n -> ~ named w' viewports q).
Proof.
  intros P I w'. destruct (acts_proper w ds P) as [[D _] In']. destruct (farthest_iff svg_name svg w' n svg_is D (In' n I)), (farthest_iff viewport_name viewports w' n viewport_is D (In' n I)). auto.
Qed.
Print Assumptions c81_farthest.
Theorem c81_nearest w ds n : proper (w_tree w) -> In n (all (w_tree w)) ->
  let w' := acts w ds in
  (forall r, get_nearest_svg_element w' n = Some r <-> innermost w' svg n r) /\
  (get_nearest_svg_element w' n = None <-> forall q, below (w_tree w') q n -> ~ named w' svg q) /\
  (forall r, get_nearest_viewport_element w' n = Some r <-> innermost w' viewports n r) /\
  (get_nearest_viewport_element w' n = None <-> forall q, below (w_tree w') q n -> ~ named w' viewports q).
Proof.
  intros P I w'. destruct (acts_proper w ds P) as [[D _] In']. destruct (nearest_iff svg_name svg w' n svg_is D (In' n I)), (nearest_iff viewport_name viewports w' n viewport_is D (In' n I)). auto.
Qed.
Print Assumptions c81_nearest.
Example c81_search_case :
  proper (w_tree world0) /\ In 4 (all (w_tree world0)) /\
  get_farthest_svg_element world0 4 = Some 0 /\ get_nearest_svg_element world0 4 = Some 2 /\ get_nearest_viewport_element world0 4 = Some 3 /\ get_farthest_viewport_element world0 4 = Some 0 /\
  get_farthest_svg_element world0 7 = None /\ get_nearest_viewport_element world0 7 = None /\
  get_farthest_svg_element (acts world0 [Edit (Append 6 0); Edit (Append 4 7)]) 7 = Some 5 /\
  get_farthest_svg_element (acts world0 [Edit (Append 7 3)]) 4 = None /\ get_farthest_viewport_element (acts world0 [Edit (Append 7 3)]) 4 = Some 3.
Proof. split; [exact proper0|]. split; [cbn; intuition|]. vm_compute. repeat split. Qed.

(* a child shares its parent's answers, unless it is one itself *)
Theorem c81_child w p k o l c : proper (w_tree w) -> Row (w_tree w) p k o l -> In c l ->
  get_nearest_svg_element w c = (if text_eqb (w_name w c) (lit "svg") then Some c else get_nearest_svg_element w p) /\
  (forall r, get_farthest_svg_element w p = Some r -> get_farthest_svg_element w c = Some r).
Proof.
  intros [D _] R J. pose proof (row_in _ _ _ _ _ R) as Ip. pose proof (kid_in _ _ _ _ _ _ R J) as Ic.
  destruct (nearest_iff svg_name svg w c svg_is D Ic) as [N1 N2], (nearest_iff svg_name svg w p svg_is D Ip) as [M1 M2], (farthest_iff svg_name svg w c svg_is D Ic) as [F1 _], (farthest_iff svg_name svg w p svg_is D Ip) as [G1 _].
  assert (Pc : parent_of (w_tree w) c = Some p).
  { destruct (parent_of (w_tree w) c) as [p'|] eqn:E; [|destruct (parent_none _ _ E p k o l R J)]. destruct (parent_row _ _ _ E) as (k' & o' & l' & R' & J'). now rewrite (one_parent _ c p' k' o' l' p k o l D R' R J' J). }
  assert (Up : forall q, below (w_tree w) q c <-> q = c \/ below (w_tree w) q p).
  { intros q. rewrite (below_up _ q c D Ic). split; [intros [H|(p' & E & H)]|intros [H|H]]; auto; [|right; eauto]. right. now assert (p' = p) as <- by congruence. }
  unfold get_nearest_svg_element, get_farthest_svg_element in *. split.
  - destruct (text_eqb_spec (w_name w c) (lit "svg")) as [E|E].
    + apply N1. split; [now constructor|]. split; [unfold named; rewrite E; now left|]. auto.
    + destruct (nearest_loop _ _ _ (Some p)) as [r|].
      * apply N1. destruct (proj1 (M1 r) eq_refl) as (A1 & A2 & A3). split; [apply Up; auto|]. split; [exact A2|]. intros q H N. apply Up in H. destruct H as [-> |H]; [|now apply A3]. destruct N as [N|[]]. now elim E.
      * apply N2. intros q H N. apply Up in H. destruct H as [-> |H]; [|exact (proj1 M2 eq_refl q H N)]. destruct N as [N|[]]. now elim E.
  - intros r E. apply F1. apply G1 in E. destruct E as (A1 & A2 & A3). split; [apply Up; auto|]. split; [exact A2|]. intros q H N. apply Up in H. destruct H as [-> |H]; [apply Up; auto|now apply A3].
Qed.
Print Assumptions c81_child.
Example c81_child_case : proper (w_tree world0) /\ Row (w_tree world0) 1 El (Some 100) [2] /\ In 2 [2] /\ get_nearest_svg_element world0 2 = Some 2 /\ get_nearest_svg_element world0 1 = Some 0.
Proof. split; [exact proper0|]. split; [unfold Row; cbn; intuition|]. split; [now left|]. vm_compute. now split. Qed.

(** ** owner_svg_element and viewport_element *)
(* owner_svg_element "the nearest ancestor 'svg' element": for elements that are not 'svg'
   elements, and for outermost ones; missing: 'svg' elements inside others, see below *)
Theorem c81_owner_partial w ds n : proper (w_tree w) -> In n (all (w_tree w)) ->
  let w' := acts w ds in
  ~ named w' svg n \/ outer w' n ->
  (forall r, owner_svg_element w' n = Some r <-> ancestor w' svg n r) /\
  (owner_svg_element w' n = None <-> forall q, q <> n -> below (w_tree w') q n -> ~ named w' svg q).
Proof.
  intros P I w' H. destruct (acts_proper w ds P) as [[D _] In']. specialize (In' n I). fold w' in D, In'.
  destruct (nearest_iff svg_name svg w' n svg_is D In') as [N1 N2]. pose proof (is_farthest_iff w' n D In') as F. unfold owner_svg_element, get_nearest_svg_element.
  destruct (is_farthest w' n).
  - destruct (proj1 F eq_refl) as [Nn O]. split.
    + intros r. split; [discriminate|]. intros (A1 & A2 & A3 & _). now elim A1; apply O.
    + split; [|reflexivity]. intros _ q Q B N. now elim Q; apply O.
  - assert (Nn : ~ named w' svg n). { destruct H as [H|H]; [exact H|]. intros Nn. discriminate (proj2 F (conj Nn H)). } split.
    + intros r. rewrite N1. split; intros K.
      * destruct K as (A1 & A2 & A3). split; [intros ->; now elim Nn|]. auto.
      * destruct K as (A1 & A2 & A3 & A4). split; [exact A2|]. split; [exact A3|]. intros q B N. apply A4; auto. now intros ->.
    + rewrite N2. split; [auto|]. intros K q B N. apply (K q); auto. now intros ->.
Qed.
Print Assumptions c81_owner_partial.
(* viewport_element "the nearest ancestor element that establishes an SVG viewport", None
   for an outermost 'svg'; missing: 'symbol' elements and 'svg' elements inside others *)
Theorem c81_viewport_partial w ds n : proper (w_tree w) -> In n (all (w_tree w)) ->
  let w' := acts w ds in
  (~ named w' viewports n ->
   (forall r, viewport_element w' n = Some r <-> ancestor w' viewports n r) /\
   (viewport_element w' n = None <-> forall q, q <> n -> below (w_tree w') q n -> ~ named w' viewports q)) /\
  (named w' svg n -> outer w' n -> viewport_element w' n = None).
Proof.
  intros P I w'. destruct (acts_proper w ds P) as [[D _] In']. specialize (In' n I). fold w' in D, In'.
  destruct (nearest_iff viewport_name viewports w' n viewport_is D In') as [N1 N2]. pose proof (is_farthest_iff w' n D In') as F. unfold viewport_element, get_nearest_viewport_element. split.
  - intros Nn. destruct (is_farthest w' n).
    { destruct (proj1 F eq_refl) as [[E|[]] _]. elim Nn. unfold named. rewrite <- E. now left. } split.
    + intros r. rewrite N1. split; intros K.
      * destruct K as (A1 & A2 & A3). split; [intros ->; now elim Nn|]. auto.
      * destruct K as (A1 & A2 & A3 & A4). split; [exact A2|]. split; [exact A3|]. intros q B N. apply A4; auto. now intros ->.
    + rewrite N2. split; [auto|]. intros K q B N. apply (K q); auto. now intros ->.
  - intros A O. now rewrite (proj2 F (conj A O)).
Qed.
Print Assumptions c81_viewport_partial.
Example c81_owner_case :
  ~ named world0 svg 4 /\ ~ named world0 viewports 4 /\ owner_svg_element world0 4 = Some 2 /\ viewport_element world0 4 = Some 3 /\
  owner_svg_element world0 0 = None /\ viewport_element world0 0 = None /\
  let w' := acts world0 [Edit (Append 7 2)] in owner_svg_element w' 2 = None /\ viewport_element w' 2 = None /\ owner_svg_element w' 7 = None.
Proof. split; [intros [E|[]]; discriminate E|]. split; [intros [E|[E|[]]]; discriminate E|]. vm_compute. repeat split. Qed.
(* of an 'svg' inside another it is the element itself, which is not its own ancestor *)
Theorem c81_owner_refuted : ~ (forall w n r, proper (w_tree w) -> In n (all (w_tree w)) -> owner_svg_element w n = Some r -> ancestor w svg n r).
Proof.
  intros H. assert (X : owner_svg_element world0 2 = Some 2) by reflexivity. apply H in X; [now destruct X|exact proper0|cbn; intuition].
Qed.
Print Assumptions c81_owner_refuted.
(* and so for viewport_element of a 'symbol' *)
Theorem c81_viewport_refuted : ~ (forall w n r, proper (w_tree w) -> In n (all (w_tree w)) -> viewport_element w n = Some r -> ancestor w viewports n r).
Proof.
  intros H. assert (X : viewport_element world0 3 = Some 3) by reflexivity. apply H in X; [now destruct X|exact proper0|cbn; intuition].
Qed.
Print Assumptions c81_viewport_refuted.
(* whatever the history: every 'svg' inside another gives itself *)
Theorem c81_owner_self w ds n : proper (w_tree w) -> In n (all (w_tree w)) ->
  let w' := acts w ds in named w' svg n -> ~ outer w' n -> owner_svg_element w' n = Some n /\ viewport_element w' n = Some n.
Proof.
  intros P I w' Nn O. destruct (acts_proper w ds P) as [[D _] In']. specialize (In' n I). fold w' in D, In'. unfold owner_svg_element, viewport_element.
  destruct (is_farthest w' n) eqn:F; [apply is_farthest_iff in F; tauto|]. split.
  - apply (nearest_iff svg_name svg w' n svg_is D In'). split; [now constructor|]. split; auto.
  - apply (nearest_iff viewport_name viewports w' n viewport_is D In'). split; [now constructor|]. split; [|auto]. destruct Nn as [E|[]]. unfold named. rewrite <- E. now left.
Qed.
Print Assumptions c81_owner_self.
Example c81_owner_self_case : named world0 svg 2 /\ ~ outer world0 2.
Proof. split; [now left|]. intros O. specialize (O 0). discriminate O; [|now left]. apply (within_below (w_tree world0) 0 2 (p_once _ proper0)). reflexivity. Qed.

(** ** Scales and translations *)
Lemma kept_unique {A} (make : nat -> A -> deed) ok n start ds x y :
  (forall m x m' x', make m x = make m' x' -> m = m' /\ x = x') -> last_kept make ok n start ds x -> last_kept make ok n start ds y -> x = y.
Proof.
  intros Inj Hx Hy. destruct Hx as [a x b E O L|L], Hy as [a' y b' E' O' L'|L'].
  - destruct (lt_eq_lt_dec (length a) (length a')) as [[Lt|Eq]|Gt].
    + exfalso. rewrite E in E'. assert (exists b1, a' = a ++ make n x :: b1) as (b1 & ->).
      { clear - Lt E'. revert a' E' Lt. induction a as [|z a IH]; intros [|z' a'] E Lt; cbn in *; try lia. - injection E as <- ->. now exists a'. - injection E as <- E. destruct (IH a' E ltac:(lia)) as (b1 & ->). now exists b1. }
      rewrite <- app_assoc in E'. apply app_inv_head in E'. injection E' as ->. exact (L b1 y b' eq_refl O').
    + rewrite E in E'. assert (a = a' /\ make n x :: b = make n y :: b') as [_ X].
      { clear - Eq E'. revert a' E' Eq. induction a as [|z a IH]; intros [|z' a'] E Lt; cbn in *; try lia; [auto|]. injection E as <- E. destruct (IH a' E ltac:(lia)) as [-> ->]. auto. }
      injection X as X _. apply Inj in X. tauto.
    + exfalso. rewrite E' in E. assert (exists b1, a = a' ++ make n y :: b1) as (b1 & ->).
      { clear - Gt E. revert a E Gt. induction a' as [|z a' IH]; intros [|z' a] E Lt; cbn in *; try lia. - injection E as <- ->. now exists a. - injection E as <- E. destruct (IH a E ltac:(lia)) as (b1 & ->). now exists b1. }
      rewrite <- app_assoc in E. apply app_inv_head in E. injection E as ->. exact (L' b1 x b eq_refl O).
  - destruct (L' a x b E O).
  - destruct (L a' y b' E' O').
  - reflexivity.
Qed.
(* the scale of an 'svg' element that is outermost is the last one assigned while it was;
   of any other it is 1 *)
Theorem c81_scale s names zooms ds n : proper s -> In n (all s) ->
  let w' := acts (fresh s names zooms) ds in
  (outer w' n -> forall q, current_scale w' n = q <-> last_kept Scale (fun a => outer_after (fresh s names zooms) a n) n 1%Q ds q) /\
  (~ outer w' n -> current_scale w' n = 1%Q).
Proof.
  intros P I w'. set (w := fresh s names zooms). destruct (acts_proper w ds P) as [[D _] In']. specialize (In' n I). fold w w' in D, In'.
  assert (Inj : forall m (x : Q) m' x', Scale m x = Scale m' x' -> m = m' /\ x = x') by (intros; split; congruence).
  assert (K : last_kept Scale (fun a => outer_after w a n) n 1%Q ds (w_scale w' n)).
  { apply (kept_step Scale w_scale w n 1%Q ds Inj); auto.
    - intros v m x. cbn [act]. unfold set_current_scale. destruct (inner v m); [now destruct (Nat.eqb n m)|]. reflexivity.
    - intros v d No. destruct d as [o|m q|m p|m z|m t]; cbn [act]; try reflexivity; [now elim (No m q)|unfold set_current_translate; now destruct (inner v m)|unfold set_zoom_and_pan; now destruct (find _ _)].
    - intros d. destruct d as [o|m q|m p|m z|m t]; try (right; intros; discriminate). left; eauto. }
  unfold current_scale. pose proof (inner_iff w' n D In') as F. split.
  - intros O. rewrite (proj2 F O). intros q. split; [intros <-; exact K|]. intros Kq. exact (kept_unique _ _ _ _ _ _ _ Inj K Kq).
  - intros O. destruct (inner w' n); [reflexivity|]. elim O. tauto.
Qed.
Print Assumptions c81_scale.
Theorem c81_translate s names zooms ds n : proper s -> In n (all s) ->
  let w' := acts (fresh s names zooms) ds in
  (outer w' n -> forall p, current_translate w' n = p <-> last_kept Translate (fun a => outer_after (fresh s names zooms) a n) n (0%Q, 0%Q) ds p) /\
  (~ outer w' n -> current_translate w' n = (0%Q, 0%Q)).
Proof.
  intros P I w'. set (w := fresh s names zooms). destruct (acts_proper w ds P) as [[D _] In']. specialize (In' n I). fold w w' in D, In'.
  assert (Inj : forall m (x : Q * Q) m' x', Translate m x = Translate m' x' -> m = m' /\ x = x') by (intros; split; congruence).
  assert (K : last_kept Translate (fun a => outer_after w a n) n (0%Q, 0%Q) ds (w_move w' n)).
  { apply (kept_step Translate w_move w n (0%Q, 0%Q) ds Inj); auto.
    - intros v m x. cbn [act]. unfold set_current_translate. destruct (inner v m); [now destruct (Nat.eqb n m)|]. reflexivity.
    - intros v d No. destruct d as [o|m q|m p|m z|m t]; cbn [act]; try reflexivity; [unfold set_current_scale; now destruct (inner v m)|now elim (No m p)|unfold set_zoom_and_pan; now destruct (find _ _)].
    - intros d. destruct d as [o|m q|m p|m z|m t]; try (right; intros; discriminate). left; eauto. }
  unfold current_translate. pose proof (inner_iff w' n D In') as F. split.
  - intros O. rewrite (proj2 F O). intros q. split; [intros <-; exact K|]. intros Kq. exact (kept_unique _ _ _ _ _ _ _ Inj K Kq).
  - intros O. destruct (inner w' n); [reflexivity|]. elim O. tauto.
Qed.
Print Assumptions c81_translate.
(* 5 outermost: 2 is kept; inside 0: reads 1, 3 is ignored; out again: 2 *)
Example c81_scale_case :
  let h := [Scale 5 2; Translate 5 (1, 2)%Q; Edit (Append 1 5); Scale 5 3] in
  proper doc0 /\ In 5 (all doc0) /\
  current_scale (acts world0 h) 5 = 1%Q /\ current_translate (acts world0 h) 5 = (0, 0)%Q /\
  current_scale (acts world0 (h ++ [Edit (Remove 1 5)])) 5 = 2%Q /\ current_translate (acts world0 (h ++ [Edit (Remove 1 5)])) 5 = (1, 2)%Q /\
  current_scale (acts world0 (h ++ [Scale 0 7; Edit (Remove 1 5); Scale 5 4])) 5 = 4%Q.
Proof. split; [exact proper0|]. split; [cbn; intuition|]. vm_compute. repeat split. Qed.

(** ** zoom_and_pan *)
(* what counts is the last text or valid number *)
Theorem c81_zoom w ds n : 
  (forall a d b t, ds = a ++ d :: b -> zoom_text n d = Some t -> (forall x, In x b -> zoom_text n x = None) -> w_zoom (acts w ds) n = t) /\
  ((forall x, In x ds -> zoom_text n x = None) -> w_zoom (acts w ds) n = w_zoom w n).
Proof.
  assert (Q : forall b w, (forall x, In x b -> zoom_text n x = None) -> w_zoom (acts w b) n = w_zoom w n).
  { induction b as [|x b IH]; intros v H; [reflexivity|]. cbn [acts fold_left]. fold (acts (act v x) b). rewrite IH by (intros; apply H; now right). rewrite zoom_step, (H x) by now left. reflexivity. }
  split; [|apply Q]. intros a d b t -> E H. unfold acts. rewrite fold_left_app. cbn [fold_left]. fold (acts w a). fold (acts (act (acts w a) d) b). rewrite Q by exact H. now rewrite zoom_step, E.
Qed.
Print Assumptions c81_zoom.
(* a missing attribute reads as 'disable', an unknown text as 0 *)
Theorem c81_zoom_read w n v :
  zoom_and_pan w n = v <->
  (v = 1 /\ (w_zoom w n = None \/ w_zoom w n = Some (lit "disable"))) \/ (v = 2 /\ w_zoom w n = Some (lit "magnify")) \/
  (v = 0 /\ exists t, w_zoom w n = Some t /\ t <> lit "disable" /\ t <> lit "magnify").
Proof.
  unfold zoom_and_pan, zoom_types. destruct (w_zoom w n) as [t|].
  - cbn [find snd fst]. destruct (text_eqb_spec (lit "disable") t) as [<- |N]; [|destruct (text_eqb_spec (lit "magnify") t) as [<- |M]].
    + split; [intros <-; tauto|]. intros [(-> & _)|[(_ & E)|(_ & t & E & N & _)]]; [reflexivity|discriminate E|]. injection E as <-. now elim N.
    + split; [intros <-; tauto|]. intros [(_ & [E|E])|[(-> & _)|(_ & t & E & _ & N')]]; [discriminate E|discriminate E|reflexivity|]. injection E as <-. now elim N'.
    + split; [intros <-; right; right; split; [reflexivity|]; exists t; repeat split; congruence|]. intros [(_ & [E|E])|[(_ & E)|(-> & _)]]; congruence.
  - change (find _ _) with (Some (1, lit "disable")). cbn [fst]. split; [intros <-; tauto|]. intros [(-> & _)|[(_ & E)|(_ & t & E & _)]]; [reflexivity|discriminate E|discriminate E].
Qed.
Print Assumptions c81_zoom_read.
(* what is assigned is read back: 1 and 2; other numbers change nothing *)
Theorem c81_zoom_set w n v m : zoom_and_pan (act w (Zoom n v)) m = if Nat.eqb m n && (Nat.eqb v 1 || Nat.eqb v 2) then v else zoom_and_pan w m.
Proof.
  cbn [act]. unfold set_zoom_and_pan, zoom_types. destruct v as [|[|[|v]]]; cbn [find fst snd Nat.eqb orb]; [now rewrite andb_false_r| | |now rewrite andb_false_r]; rewrite andb_true_r; unfold zoom_and_pan, set_zoom_attribute, put; cbn [w_zoom]; now destruct (Nat.eqb m n).
Qed.
Print Assumptions c81_zoom_set.
Example c81_zoom_case :
  let h := [Zoom 0 2; Zoom 0 3; Zoom 5 1; Edit (Append 5 0)] in
  w_zoom (acts world0 h) 0 = Some (lit "magnify") /\ zoom_and_pan (acts world0 h) 0 = 2 /\ zoom_and_pan world0 0 = 1 /\ zoom_and_pan (acts world0 (h ++ [ZoomText 0 (Some (lit "Magnify"))])) 0 = 0.
Proof. vm_compute. repeat split. Qed.
