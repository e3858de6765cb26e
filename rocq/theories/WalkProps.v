(** C74: children, siblings and parents agree, and walking along them reaches every node once. *)
From Coq Require Import Lia Bool List Permutation ZArith.
From Verif Require Import PyBase ForestModel ForestSpec ForestProofs ForestProofs2 ForestProofs3 ForestProps WalkModel WalkSpec WalkProofs.
Import ListNotations.
#[local] Open Scope nat_scope.

(* a comment, the root 0 and another comment; 0 holds the comment 3, 1 (which holds 4 and 5), the comment 6 and 2; a tree by itself *)
Definition w0 : forest := [[Nd 7 Misc None []; Nd 0 El (Some 9) [Nd 3 Misc None []; Nd 1 El None [Nd 4 El None []; Nd 5 Misc None []]; Nd 6 Misc None []; Nd 2 El None []]; Nd 8 Misc None []]; [Nd 10 El None [Nd 11 El None []]]].
Example w0_proper : proper w0.
Proof.
  split; [cbn; repeat constructor; cbn; intuition lia|]. intros q o l H. cbn in H. repeat destruct H as [H|H]; try discriminate H; try (injection H as <- <- <-; reflexivity); destruct H.
Qed.
Example w0_one : one_root w0.
Proof. intros g [<- | [<- | []]]; cbn; lia. Qed.

(** ** Siblings *)
Theorem c74_next s a b : proper s -> next_sibling s a = Some b <-> exists l, kin s l /\ adjacent l a b.
Proof.
  intros P. pose proof (p_once _ P) as N. unfold next_sibling. split.
  - intros E. destruct (in_dec Nat.eq_dec a (all s)) as [I | I]; [|destruct (nowhere s a I) as [X _]; rewrite X in E; discriminate].
    destruct (where_is s a N I) as (l1 & l2 & K & F & _). rewrite F in E. destruct l2 as [|y l2]; [discriminate|]. injection E as ->. eexists. split; [exact K|]. now exists l1, l2.
  - intros (l & K & l1 & l2 & ->). now destruct (kin_at _ _ _ _ N K) as [-> _].
Qed.
Print Assumptions c74_next.
Theorem c74_previous s a b : proper s -> previous_sibling s b = Some a <-> exists l, kin s l /\ adjacent l a b.
Proof.
  intros P. pose proof (p_once _ P) as N. unfold previous_sibling. split.
  - intros E. destruct (in_dec Nat.eq_dec b (all s)) as [I | I]; [|destruct (nowhere s b I) as [_ X]; rewrite X in E; discriminate].
    destruct (where_is s b N I) as (l1 & l2 & K & _ & F). rewrite F in E. destruct (rev l1) as [|y m] eqn:R; [discriminate|]. injection E as ->.
    assert (l1 = rev m ++ [a]) as -> by (rewrite <- (rev_involutive l1), R; reflexivity). rewrite <- app_assoc in K. eexists. split; [exact K|]. now exists (rev m), l2.
  - intros (l & K & l1 & l2 & ->). change (l1 ++ a :: b :: l2) with (l1 ++ [a] ++ b :: l2) in K. rewrite app_assoc in K. destruct (kin_at _ _ _ _ N K) as [_ ->]. now rewrite rev_app_distr.
Qed.
Print Assumptions c74_previous.
(* forth and back *)
Theorem c74_inverse s a b : proper s -> next_sibling s a = Some b <-> previous_sibling s b = Some a.
Proof. intros P. now rewrite (c74_next s a b P), (c74_previous s a b P). Qed.
Print Assumptions c74_inverse.
(* the ends *)
Theorem c74_ends s n : proper s -> In n (all s) ->
  (next_sibling s n = None <-> exists l, kin s (l ++ [n])) /\ (previous_sibling s n = None <-> exists l, kin s (n :: l)).
Proof.
  intros P I. pose proof (p_once _ P) as N. destruct (where_is s n N I) as (l1 & l2 & K & F & B). unfold next_sibling, previous_sibling. split; split.
  - rewrite F. destruct l2; [|discriminate]. intros _. now exists l1.
  - intros (l & K'). destruct (kin_at s l n [] N K') as [-> _]. reflexivity.
  - rewrite B. destruct (rev l1) eqn:R; [|discriminate]. intros _. assert (l1 = []) as -> by (rewrite <- (rev_involutive l1), R; reflexivity). now exists l2.
  - intros (l & K'). destruct (kin_at s [] n l N K') as [_ ->]. reflexivity.
Qed.
Print Assumptions c74_ends.
Example c74_next_case : map (next_sibling w0) [7; 0; 8; 3; 1; 4; 5; 12] = [Some 0; Some 8; None; Some 1; Some 6; Some 5; None; None] /\
  map (previous_sibling w0) [7; 0; 8; 3; 1; 2; 4; 11] = [None; Some 7; Some 0; None; Some 3; Some 6; None; None].
Proof. vm_compute. now split. Qed.
(* the element siblings: the nearest one, with only comments and processing instructions between *)
Theorem c74_next_element s a b : proper s -> next_element_sibling s a = Some b <-> exists l, kin s l /\ adjacent_elements s l a b.
Proof.
  intros P. pose proof (p_once _ P) as N. unfold next_element_sibling. split.
  - intros E. destruct (in_dec Nat.eq_dec a (all s)) as [I | I]; [|destruct (nowhere s a I) as [X _]; rewrite X in E; discriminate].
    destruct (where_is s a N I) as (l1 & l2 & K & F & _). rewrite F in E. apply find_split in E. destruct E as (m & l3 & -> & B & M). eexists. split; [exact K|]. exists l1, m, l3.
    split; [reflexivity|]. split; [now apply element_iff|]. intros x X. apply misc_iff; [exact N| |now apply M]. apply (kin_in s x _ K). apply in_or_app. right. right. apply in_or_app. now left.
  - intros (l & K & l1 & m & l2 & -> & B & M). destruct (kin_at _ _ _ _ N K) as [-> _]. apply find_split. exists m, l2. split; [reflexivity|]. split; [now apply element_iff|].
    intros x X. apply misc_iff; [exact N| |now apply M]. destruct (M x X) as (o & k & R). exact (Row_in _ _ _ _ _ R).
Qed.
Print Assumptions c74_next_element.
Theorem c74_previous_element s a b : proper s -> previous_element_sibling s a = Some b <-> exists l, kin s l /\ adjacent_elements_back s l a b.
Proof.
  intros P. pose proof (p_once _ P) as N. unfold previous_element_sibling. split.
  - intros E. destruct (in_dec Nat.eq_dec a (all s)) as [I | I]; [|destruct (nowhere s a I) as [_ X]; rewrite X in E; discriminate].
    destruct (where_is s a N I) as (l1 & l2 & K & _ & F). rewrite F in E. apply find_split in E. destruct E as (m & l3 & E & B & M).
    assert (l1 = rev l3 ++ b :: rev m) as ->. { rewrite <- (rev_involutive l1), E, rev_app_distr. cbn [rev]. now rewrite <- app_assoc. }
    rewrite <- app_assoc in K. cbn [app] in K. eexists. split; [exact K|]. exists (rev l3), (rev m), l2.
    split; [reflexivity|]. split; [now apply element_iff|]. intros x X. apply misc_iff; [exact N| |apply M; now apply in_rev]. apply (kin_in s x _ K). apply in_or_app. right. right. apply in_or_app. now left.
  - intros (l & K & l1 & m & l2 & -> & B & M). replace (l1 ++ b :: m ++ a :: l2) with ((l1 ++ b :: m) ++ a :: l2) in K by (rewrite <- app_assoc; reflexivity).
    destruct (kin_at _ _ _ _ N K) as [_ ->]. apply find_split. exists (rev m), (rev l1). split; [rewrite rev_app_distr; cbn [rev]; now rewrite <- app_assoc|]. split; [now apply element_iff|].
    intros x X. apply in_rev in X. apply misc_iff; [exact N| |now apply M]. destruct (M x X) as (o & k & R). exact (Row_in _ _ _ _ _ R).
Qed.
Print Assumptions c74_previous_element.
Theorem c74_inverse_element s a b : proper s -> a_element s a -> a_element s b -> next_element_sibling s a = Some b <-> previous_element_sibling s b = Some a.
Proof.
  intros P A B. rewrite (c74_next_element s a b P), (c74_previous_element s b a P). split.
  - intros (l & K & l1 & m & l2 & E & _ & M). exists l. split; [exact K|]. now exists l1, m, l2.
  - intros (l & K & l1 & m & l2 & E & _ & M). exists l. split; [exact K|]. now exists l1, m, l2.
Qed.
Print Assumptions c74_inverse_element.
(* there is none exactly if none of the siblings on that side is an element *)
Theorem c74_no_element s l1 n l2 : proper s -> kin s (l1 ++ n :: l2) ->
  (next_element_sibling s n = None <-> forall x, In x l2 -> ~ a_element s x) /\ (previous_element_sibling s n = None <-> forall x, In x l1 -> ~ a_element s x).
Proof.
  intros P K. pose proof (p_once _ P) as N. unfold next_element_sibling, previous_element_sibling. destruct (kin_at _ _ _ _ N K) as [-> ->]. rewrite !find_no.
  split; split; intros H x I.
  - rewrite <- (element_iff s x N), (H x I). discriminate.
  - specialize (H x I). rewrite <- (element_iff s x N) in H. now destruct (is_element s x).
  - apply in_rev in I. rewrite <- (element_iff s x N), (H x I). discriminate.
  - apply in_rev in I. specialize (H x I). rewrite <- (element_iff s x N) in H. now destruct (is_element s x).
Qed.
Print Assumptions c74_no_element.
Example c74_element_case : map (next_element_sibling w0) [7; 0; 3; 1; 6; 2; 4] = [Some 0; None; Some 1; Some 2; Some 2; None; None] /\
  map (previous_element_sibling w0) [8; 0; 3; 1; 6; 2; 5] = [Some 0; None; None; None; Some 1; Some 1; Some 4] /\ kin w0 ([3] ++ 1 :: [6; 2]) /\ a_element w0 1.
Proof. split; [vm_compute; reflexivity|]. split; [vm_compute; reflexivity|]. split; [left; exists 0, El, (Some 9); cbn; tauto|]. eexists _, _. cbn. tauto. Qed.

(** ** Children and parents *)
Theorem c74_children s p k o l : proper s -> Row s p k o l ->
  child_nodes s p = l /\ (forall c, In c (children s p) <-> In c l /\ a_element s c) /\ (forall a b, adjacent (children s p) a b -> next_element_sibling s a = Some b) /\
  child_element_count s p = length (children s p) /\ (has_child_nodes s p = true <-> l <> []).
Proof.
  intros P R. pose proof (p_once _ P) as N. pose proof (children_row _ _ _ _ _ P R) as E. split; [exact E|]. assert (K : kin s l) by (left; now exists p, k, o). split; [|split; [|split]].
  - intros c. unfold children, elements. rewrite E, filter_In. now rewrite (element_iff s c N).
  - intros a b (m1 & m2 & A). unfold children in A. rewrite E in A. pose proof (steps_next_el s l N [] K) as S. rewrite A in S. clear - S.
    assert (G : forall m o, steps (next_element_sibling s) o (m ++ a :: b :: m2) -> next_element_sibling s a = Some b).
    { intros m. induction m as [|x m IH]; intros o' H; cbn [app] in H; inversion H as [|n l' H1]; subst; [|exact (IH _ H1)]. inversion H1 as [|n l' H2 H3]; subst. reflexivity. }
    exact (G m1 _ S).
  - reflexivity.
  - unfold has_child_nodes. rewrite E. destruct l; cbn; split; congruence.
Qed.
Print Assumptions c74_children.
Theorem c74_parent s c p : proper s -> In c (child_nodes s p) <-> parent_node s c = Some p.
Proof.
  intros P. pose proof (p_once _ P) as N. rewrite (parent_iff s c p N). split.
  - intros I. destruct (in_dec Nat.eq_dec p (all s)) as [J | J]; [|rewrite (child_nodes_out s p J) in I; destruct I]. destruct (in_Row s p J) as (k & o & l & R).
    exists k, o, l. split; [exact R|]. now rewrite (children_row _ _ _ _ _ P R) in I.
  - intros (k & o & l & R & I). now rewrite (children_row _ _ _ _ _ P R).
Qed.
Print Assumptions c74_parent.
(* parents are elements, so that parent_element and parent_node are the same *)
Theorem c74_parent_element s c : proper s -> parent_element s c = parent_node s c.
Proof.
  intros P. pose proof (p_once _ P) as N. unfold parent_element. destruct (parent_node s c) as [p|] eqn:E; [|reflexivity]. apply (parent_iff s c p N) in E. destruct E as (k & o & l & R & I).
  unfold is_element. destruct (kind_row _ _ _ _ _ N R) as [-> _]. destruct k; [reflexivity|]. rewrite (p_leaf _ P _ _ _ R) in I. destruct I.
Qed.
Print Assumptions c74_parent_element.
Theorem c74_siblings_parent s a b : proper s -> next_sibling s a = Some b -> parent_node s a = parent_node s b.
Proof.
  intros P E. pose proof (p_once _ P) as N. apply (c74_next s a b P) in E. destruct E as (l & K & l1 & l2 & E).
  assert (Ia : In a l) by (rewrite E; apply in_or_app; right; now left). assert (Ib : In b l) by (rewrite E; apply in_or_app; right; right; now left).
  assert (G : forall x y, In x l -> In y l -> forall p, parent_node s x = Some p -> parent_node s y = Some p).
  { intros x y X Y p Q. apply (parent_iff s x p N) in Q. destruct Q as (k & o & l' & R & I). apply (parent_iff s y p N). exists k, o, l'. split; [exact R|].
    rewrite <- (kin_one s x l l' N K); [exact Y|left; now exists p, k, o|exact X|exact I]. }
  destruct (parent_node s a) as [p|] eqn:A; [symmetry; exact (G a b Ia Ib p A)|]. destruct (parent_node s b) as [p|] eqn:B; [|reflexivity]. rewrite (G b a Ib Ia p B) in A. discriminate.
Qed.
Print Assumptions c74_siblings_parent.
Example c74_children_case : map (child_nodes w0) [0; 1; 2; 3] = [[3; 1; 6; 2]; [4; 5]; []; []] /\ map (children w0) [0; 1; 7] = [[1; 2]; [4]; []] /\ map (child_element_count w0) [0; 1] = [2; 1] /\
  map (parent_node w0) [7; 0; 3; 4; 11] = [None; None; Some 0; Some 1; Some 10] /\ map (first_child w0) [0; 2] = [Some 3; None] /\ map (last_child w0) [0; 1] = [Some 2; Some 5] /\
  map (first_element_child w0) [0; 1; 4] = [Some 1; Some 4; None] /\ map (last_element_child w0) [0; 1] = [Some 2; Some 4] /\ map (has_child_nodes w0) [0; 2; 3] = [true; false; false].
Proof. vm_compute. now repeat split. Qed.

(** ** Walks *)
(* from the first child by next_sibling, and from the last by previous_sibling, come all children in order *)
Theorem c74_walk s p : proper s ->
  steps (next_sibling s) (first_child s p) (child_nodes s p) /\ steps (previous_sibling s) (last_child s p) (rev (child_nodes s p)) /\
  steps (next_element_sibling s) (first_element_child s p) (children s p) /\ steps (previous_element_sibling s) (last_element_child s p) (rev (children s p)).
Proof.
  intros P. pose proof (p_once _ P) as N. unfold first_child, last_child, first_element_child, last_element_child.
  destruct (in_dec Nat.eq_dec p (all s)) as [J | J]; [|unfold children; rewrite (child_nodes_out s p J); cbn; repeat split; constructor]. destruct (in_Row s p J) as (k & o & l & R).
  unfold children. rewrite (children_row _ _ _ _ _ P R). assert (K : kin s l) by (left; now exists p, k, o). change (last_of_list ?x) with (first_of_list (rev x)).
  split; [exact (steps_next s l N [] K)|]. split; [apply (steps_previous s (rev l) N []); now rewrite rev_involutive, app_nil_r|]. split; [exact (steps_next_el s l N [] K)|].
  assert (E : rev (elements s l) = elements s (rev l)) by (symmetry; apply filter_rev'). rewrite E. apply (steps_previous_el s (rev l) N []). now rewrite rev_involutive, app_nil_r.
Qed.
Print Assumptions c74_walk.
Theorem c74_walk_only f o l l' : steps f o l -> steps f o l' -> l = l'.
Proof. intros H. apply (steps_fun f o l H). Qed.
Print Assumptions c74_walk_only.
(* first_child, next_sibling and parent_node lead through all that is below a node, once each, in document order *)
Theorem c74_preorder s n t : proper s -> seek_in s n = Some t ->
  visits s n (Some n) (ids t) /\ (forall q, In q (ids t) <-> below s n q) /\ NoDup (ids t) /\ (forall l, visits s n (Some n) l -> l = ids t).
Proof.
  intros P E. pose proof (p_once _ P) as N. destruct (seek_ctx_in _ _ _ E) as (I & c & C & _).
  assert (NT : NoDup (ids t)). { pose proof (Permutation_NoDup (fill_all c [t])) as X. rewrite C in X. specialize (X N). rewrite NoDup_app_iff in X. destruct X as (_ & X & _). cbn [flat_map] in X. now rewrite app_nil_r in X. }
  assert (V : visits s n (Some n) (ids t)).
  { pose proof (visits_tree s n P t) as V. rewrite I in V. specialize (V) with (r := None) (l := []). rewrite app_nil_r in V. apply V; [| |constructor|constructor].
    - intros x X. rewrite <- C. apply (ctx_new c [t] t x); [now left|exact X].
    - destruct t as [i k o ks]. cbn [id_of] in I. subst i. cbn [kids_of ids] in *. now inversion NT. }
  split; [exact V|]. split; [intros q; symmetry; exact (below_tree s n c t N C I q)|]. split; [exact NT|]. intros l L. exact (visits_fun s n _ _ L _ V).
Qed.
Print Assumptions c74_preorder.
Example c74_preorder_case : exists t, seek_in w0 0 = Some t /\ ids t = [0; 3; 1; 4; 5; 6; 2].
Proof. eexists. vm_compute. now split. Qed.

(** ** Roots *)
(* get_root_node is the topmost ancestor, if that is an element, *)
Theorem c74_root s n r : proper s -> one_root s -> In n (all s) -> topmost s n r -> a_element s r -> get_root_node s n = r.
Proof.
  intros P O I T A. pose proof (p_once _ P) as N. destruct (group_of s n N I) as (g & G & J & E). pose proof (topmost_group s n r N T g G J) as R. apply in_map_iff in R. destruct R as (t & <- & R).
  unfold get_root_node. rewrite E, (one_find g t (O g G) R); [reflexivity|]. rewrite (group_kind s g t N G R). now apply element_iff.
Qed.
Print Assumptions c74_root.
(* and of a comment or processing instruction without parent the root it stands beside, or itself *)
Theorem c74_root_beside s l n : proper s -> one_root s -> In n (all s) -> parent_node s n = None -> kin s l -> In n l ->
  (forall r, In r l -> a_element s r -> get_root_node s n = r) /\ ((forall r, In r l -> ~ a_element s r) -> get_root_node s n = n).
Proof.
  intros P O I T K L. pose proof (p_once _ P) as N. destruct (group_of s n N I) as (g & G & J & E). pose proof (group_top s n g G J T) as R.
  assert (l = map id_of g) as -> by (apply (kin_one s n); try assumption; right; now exists g). unfold get_root_node. rewrite E. split.
  - intros r X A. apply in_map_iff in X. destruct X as (t & <- & X). rewrite (one_find g t (O g G) X); [reflexivity|]. rewrite (group_kind s g t N G X). now apply element_iff.
  - intros H. destruct (find is_el g) as [t|] eqn:F; [|reflexivity]. apply find_some in F. destruct F as [X Y]. exfalso. apply (H (id_of t)); [now apply in_map|].
    apply element_iff; [exact N|]. now rewrite <- (group_kind s g t N G X).
Qed.
Print Assumptions c74_root_beside.
(* every node has one topmost ancestor *)
Theorem c74_topmost s n r r' : topmost s n r -> topmost s n r' -> r = r'.
Proof. intros T. revert r'. induction T as [n E|n p r E T IH]; intros r' T'; inversion T'; subst; try congruence. apply IH. congruence. Qed.
Print Assumptions c74_topmost.
(* two elements never stand beside each other without a parent, whatever the history of edits *)
Theorem c74_one_root s ops : proper s -> one_root s -> one_root (runs s ops).
Proof.
  revert s. induction ops as [|o ops IH]; intros s P O; [exact O|]. unfold runs in *. cbn [fold_left]. apply IH; [|exact (run_few s o (p_once _ P) O)].
  exact (proj1 (c64_tree s [o] P)).
Qed.
Print Assumptions c74_one_root.
Example c74_root_case : topmost w0 5 0 /\ a_element w0 0 /\ get_root_node w0 5 = 0 /\ get_root_node w0 7 = 0 /\ get_root_node w0 11 = 10 /\ get_root_node (runs w0 [RemoveSelf 6; Append 10 0]) 8 = 8.
Proof.
  split; [apply (topmost_up _ 5 1); [reflexivity|]; apply (topmost_up _ 1 0); [reflexivity|]; apply topmost_here; reflexivity|]. split; [eexists _, _; cbn; tauto|]. vm_compute. now repeat split.
Qed.

(** ** After an edit *)
Lemma row_of (s s' : forest) n d f p c : proper s -> changed s s' n d f -> parent_node s c = Some p -> exists k o l, Row s' p k o (f p l) /\ In c l /\ (exists o, Row s p k o l).
Proof.
  intros P [_ C] E. apply (parent_iff s c p (p_once _ P)) in E. destruct E as (k & o & l & R & I). destruct (C p k o l R) as (o' & R' & _). exists k, o', l. split; [exact R'|]. split; [exact I|now exists o].
Qed.
Lemma after_adjacent r n l : In r l -> adjacent (after r n l) r n.
Proof.
  intros I. destruct (in_split _ _ I) as (a & b & ->). unfold after. rewrite flat_map_app. cbn [flat_map]. rewrite Nat.eqb_refl.
  exists (flat_map (fun x => if Nat.eqb x r then [x; n] else [x]) a), (flat_map (fun x => if Nat.eqb x r then [x; n] else [x]) b). reflexivity.
Qed.
Lemma before_adjacent r n l : In r l -> adjacent (before r n l) n r.
Proof.
  intros I. destruct (in_split _ _ I) as (a & b & ->). unfold before. rewrite flat_map_app. cbn [flat_map]. rewrite Nat.eqb_refl.
  exists (flat_map (fun x => if Nat.eqb x r then [n; x] else [x]) a), (flat_map (fun x => if Nat.eqb x r then [n; x] else [x]) b). reflexivity.
Qed.
Theorem c74_appended s p n s' : proper s -> append s p n = (s', None) -> last_child s' p = Some n /\ parent_node s' n = Some p /\ next_sibling s' n = None.
Proof.
  intros P E. pose proof (c64_append s p n s' P E) as [Q C]. assert (P' : proper s') by (pose proof (proj1 (c64_tree s [Append p n] P)) as X; cbn in X; now rewrite E in X).
  destruct (proj1 (c64_append_ok s p n P)) as ((o & l & R) & _); [now rewrite E|]. destruct (C p El o l R) as (o' & R' & _). rewrite Nat.eqb_refl in R'.
  split; [unfold last_child, last_of_list; rewrite (children_row _ _ _ _ _ P' R'), rev_app_distr; reflexivity|]. split.
  - apply (parent_iff s' n p (p_once _ P')). exists El, o', (minus n l ++ [n]). split; [exact R'|]. apply in_or_app. right. now left.
  - unfold next_sibling. destruct (kin_at s' (minus n l) n [] (p_once _ P')) as [-> _]; [|reflexivity]. left. now exists p, El, o'.
Qed.
Print Assumptions c74_appended.
Theorem c74_added_next s r n p s' : proper s -> parent_node s r = Some p -> r <> n -> addnext s r n = (s', None) ->
  next_sibling s' r = Some n /\ previous_sibling s' n = Some r /\ parent_node s' n = Some p.
Proof.
  intros P E D A. assert (I : In r (all s)). { apply (parent_iff s r p (p_once _ P)) in E. destruct E as (k & o & l & R & I). apply (kin_in s r l); [left; now exists p, k, o|exact I]. }
  pose proof (c64_addnext s r n s' P I A) as C. apply Nat.eqb_neq in D as D'. rewrite D' in C.
  assert (P' : proper s') by (pose proof (proj1 (c64_tree s [AddNext r n] P)) as X; cbn in X; now rewrite A in X).
  destruct (row_of s s' n _ _ p r P C E) as (k & o & l & R & J & _). pose proof (after_adjacent r n (minus n l)) as X. specialize (X (proj2 (in_minus n r l) (conj J D))).
  assert (NX : next_sibling s' r = Some n). { apply (c74_next s' r n P'). eexists. split; [left; exists p, k, o; exact R|exact X]. }
  split; [exact NX|]. split; [now apply (c74_inverse s' r n P')|]. apply (parent_iff s' n p (p_once _ P')). exists k, o, (after r n (minus n l)). split; [exact R|].
  destruct X as (l1 & l2 & ->). apply in_or_app. right. right. now left.
Qed.
Print Assumptions c74_added_next.
Theorem c74_added_previous s r n p s' : proper s -> parent_node s r = Some p -> r <> n -> addprevious s r n = (s', None) ->
  previous_sibling s' r = Some n /\ next_sibling s' n = Some r /\ parent_node s' n = Some p.
Proof.
  intros P E D A. assert (I : In r (all s)). { apply (parent_iff s r p (p_once _ P)) in E. destruct E as (k & o & l & R & I). apply (kin_in s r l); [left; now exists p, k, o|exact I]. }
  pose proof (c64_addprevious s r n s' P I A) as C. apply Nat.eqb_neq in D as D'. rewrite D' in C.
  assert (P' : proper s') by (pose proof (proj1 (c64_tree s [AddPrevious r n] P)) as X; cbn in X; now rewrite A in X).
  destruct (row_of s s' n _ _ p r P C E) as (k & o & l & R & J & _). pose proof (before_adjacent r n (minus n l)) as X. specialize (X (proj2 (in_minus n r l) (conj J D))).
  assert (NX : next_sibling s' n = Some r). { apply (c74_next s' n r P'). eexists. split; [left; exists p, k, o; exact R|exact X]. }
  split; [now apply (c74_inverse s' n r P')|]. split; [exact NX|]. apply (parent_iff s' n p (p_once _ P')). exists k, o, (before r n (minus n l)). split; [exact R|].
  destruct X as (l1 & l2 & ->). apply in_or_app. right. now left.
Qed.
Print Assumptions c74_added_previous.
Theorem c74_removed s p n s' : proper s -> remove s p n = (s', None) -> parent_node s' n = None /\ next_sibling s' n = None /\ previous_sibling s' n = None /\ ~ In n (child_nodes s' p).
Proof.
  intros P E. destruct (c64_remove s p n s' P E) as [_ NP]. assert (P' : proper s') by (pose proof (proj1 (c64_tree s [Remove p n] P)) as X; cbn in X; now rewrite E in X).
  assert (X : parent_node s' n = None). { destruct (parent_node s' n) as [q|] eqn:Y; [|reflexivity]. apply (parent_iff s' n q (p_once _ P')) in Y. destruct Y as (k & o & l & R & I). now destruct (NP q k o l R). }
  assert (K : kin s' [n]).
  { assert (I : In n (all s)). { destruct (proj1 (c64_remove_ok s p n P)) as (o & l & R & I); [now rewrite E|]. apply (kin_in s n l); [left; now exists p, El, o|exact I]. }
    unfold remove in E. destruct (pre_remove s p n); [discriminate|]. injection E as <-. unfold lx_remove. destruct (seek_some s n I) as (t & T). rewrite T. cbn [alone]. right. exists [t].
    split; [apply in_or_app; right; now left|]. cbn. now rewrite (proj1 (seek_ctx_in s n t T)). }
  split; [exact X|]. unfold next_sibling, previous_sibling. destruct (kin_at s' [] n [] (p_once _ P') K) as [-> ->]. split; [reflexivity|]. split; [reflexivity|].
  rewrite (c74_parent s' n p P'), X. discriminate.
Qed.
Print Assumptions c74_removed.
Example c74_edit_case : snd (append w0 1 6) = None /\ snd (addnext w0 1 11) = None /\ snd (addprevious w0 4 2) = None /\ snd (remove w0 0 1) = None /\ parent_node w0 1 = Some 0 /\ parent_node w0 4 = Some 1.
Proof. vm_compute. now repeat split. Qed.

(** ** The document *)
(* its children are its root and what stands beside it *)
Theorem c74_document s r l : proper s -> kin s l -> In r l -> doc_child_nodes s (Some r) = l /\ (forall c, In c (doc_children s (Some r)) <-> In c l /\ a_element s c).
Proof.
  intros P K I. pose proof (p_once _ P) as N. destruct (in_split _ _ I) as (l1 & l2 & ->). assert (E : doc_child_nodes s (Some r) = l1 ++ r :: l2).
  { unfold doc_child_nodes. destruct (kin_at _ _ _ _ N K) as [-> ->]. now rewrite rev_involutive. }
  split; [exact E|]. intros c. unfold doc_children, elements. rewrite E, filter_In. now rewrite (element_iff s c N).
Qed.
Print Assumptions c74_document.
(* its only element child is its root *)
Theorem c74_document_element s r : proper s -> one_root s -> a_element s r -> parent_node s r = None -> doc_children s (Some r) = [r].
Proof.
  intros P O A T. pose proof (p_once _ P) as N. assert (I : In r (all s)) by (destruct A as (o & l & R); exact (Row_in _ _ _ _ _ R)). destruct (group_of s r N I) as (g & G & J & _).
  pose proof (group_top s r g G J T) as R. assert (K : kin s (map id_of g)) by (right; now exists g). destruct (c74_document s r _ P K R) as [E _].
  unfold doc_children, elements. rewrite E. specialize (O g G). apply in_map_iff in R. destruct R as (t & <- & R).
  assert (F : forall h, (forall u, In u h -> In u g) -> filter (is_element s) (map id_of h) = map id_of (filter is_el h)).
  { intros h. induction h as [|u h IH]; intros S; [reflexivity|]. cbn. rewrite <- (group_kind s g u N G (S u (or_introl eq_refl))), IH by (intros v V; apply S; now right). now destruct (is_el u). }
  rewrite (F g (fun u U => U)). assert (X : In t (filter is_el g)) by (apply filter_In; split; [exact R|]; rewrite (group_kind s g t N G R); now apply element_iff).
  destruct (filter is_el g) as [|x [|y m]]; [destruct X| |cbn in O; lia]. destruct X as [-> | []]. reflexivity.
Qed.
Print Assumptions c74_document_element.
Example c74_document_case : doc_child_nodes w0 (Some 0) = [7; 0; 8] /\ doc_children w0 (Some 0) = [0] /\ doc_child_nodes w0 None = [] /\ kin w0 [7; 0; 8].
Proof. split; [vm_compute; reflexivity|]. split; [vm_compute; reflexivity|]. split; [reflexivity|]. right. eexists. split; [now left|reflexivity]. Qed.
(* though they are its children, it is the parent of none of them *)
Theorem c74_document_refuted : exists s r c, proper s /\ one_root s /\ In c (doc_child_nodes s (Some r)) /\ parent_node s c = None /\ parent_element s r = None /\ get_root_node s c = r.
Proof. exists w0, 0, 7. split; [exact w0_proper|]. split; [exact w0_one|]. vm_compute. repeat split. now left. Qed.
Print Assumptions c74_document_refuted.
(* when the root is put into another tree, the document has that tree's nodes for children *)
Theorem c74_moved_root_refuted : exists s r p s', proper s /\ one_root s /\ doc_child_nodes s (Some r) = [7; r; 8] /\ append s p r = (s', None) /\ doc_child_nodes s' (Some r) = [11; r] /\ ~ In 11 (doc_child_nodes s (Some r)).
Proof.
  exists w0, 0, 10. eexists. split; [exact w0_proper|]. split; [exact w0_one|]. split; [vm_compute; reflexivity|]. split; [vm_compute; reflexivity|]. split; [vm_compute; reflexivity|]. vm_compute. intuition lia.
Qed.
Print Assumptions c74_moved_root_refuted.
