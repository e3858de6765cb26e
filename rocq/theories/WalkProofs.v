(** Lemmas about walking a tree. *)
From Coq Require Import Lia Bool List Permutation.
From Verif Require Import PyBase ForestModel ForestSpec ForestProofs ForestProofs2 ForestProofs3 WalkModel WalkSpec.
Import ListNotations.
#[local] Open Scope nat_scope.

(** ** Lists *)
Lemma has_id_iff n l : has_id n l = true <-> In n (map id_of l).
Proof.
  unfold has_id. rewrite existsb_exists, in_map_iff. split; intros (u & X & Y); exists u.
  - apply Nat.eqb_eq in Y. now split.
  - split; [exact Y|]. now apply Nat.eqb_eq.
Qed.
Lemma NoDup_flat_one {A B} (f : A -> list B) (s : list A) x a b : NoDup (flat_map f s) -> In a s -> In b s -> In x (f a) -> In x (f b) -> a = b.
Proof.
  induction s as [|c s IH]; [intros _ []|]. cbn [flat_map]. rewrite NoDup_app_iff. intros (N1 & N2 & D) [-> | Ia] [-> | Ib] Xa Xb; auto.
  - exfalso. apply (D x Xa). apply in_flat_map. now exists b.
  - exfalso. apply (D x Xb). apply in_flat_map. now exists a.
Qed.
Lemma NoDup_flat_in {A B} (f : A -> list B) (s : list A) a : NoDup (flat_map f s) -> In a s -> NoDup (f a).
Proof. induction s as [|c s IH]; [intros _ []|]. cbn [flat_map]. rewrite NoDup_app_iff. intros (N1 & N2 & D) [-> | I]; auto. Qed.
Lemma after_in_split n l1 l2 : ~ In n l1 -> after_in n (l1 ++ n :: l2) = l2.
Proof.
  induction l1 as [|x l1 IH]; cbn; intros H.
  - now rewrite Nat.eqb_refl.
  - destruct (Nat.eqb_spec x n) as [-> | D]; [exfalso; apply H; now left|]. apply IH. tauto.
Qed.
Lemma after_in_out n l : ~ In n l -> after_in n l = [].
Proof. induction l as [|x l IH]; cbn; intros H; [reflexivity|]. destruct (Nat.eqb_spec x n) as [-> | D]; [exfalso; tauto|]. apply IH. tauto. Qed.
Lemma find_filter {A} (p : A -> bool) l : find p l = hd_error (filter p l).
Proof. induction l as [|x l IH]; cbn; [reflexivity|]. destruct (p x); [reflexivity|exact IH]. Qed.
Lemma filter_rev' {A} (p : A -> bool) l : filter p (rev l) = rev (filter p l).
Proof. induction l as [|x l IH]; cbn; [reflexivity|]. rewrite filter_app, IH. cbn. destruct (p x); cbn; [reflexivity|apply app_nil_r]. Qed.

(** ** Lists of siblings *)
Lemma sibs_in_some n t l : sibs_in n t = Some l -> In n l /\ exists p k o, In (p, k, o, l) (nodes t).
Proof.
  induction t as [i k o ks IH] using tree_ind'. cbn [sibs_in]. destruct (has_id n ks) eqn:E.
  - intros X. injection X as <-. split; [now apply has_id_iff|]. exists i, k, o. now left.
  - intros X. destruct (first_split _ _ _ X) as (a & x & b & -> & F & _). rewrite Forall_forall in IH.
    destruct (IH x) as (I & p & k' & o' & R); [apply in_or_app; right; now left|exact F|]. split; [exact I|]. exists p, k', o'. cbn [nodes]. right.
    apply in_flat_map. exists x. split; [apply in_or_app; right; now left|exact R].
Qed.
Lemma sibs_in_none n t : sibs_in n t = None -> forall x, In x (nodes t) -> ~ In n (kids x).
Proof.
  induction t as [i k o ks IH] using tree_ind'. cbn [sibs_in]. destruct (has_id n ks) eqn:E; [discriminate|]. intros F x [<- | I].
  - cbn. rewrite <- has_id_iff. congruence.
  - apply in_flat_map in I. destruct I as (u & U & I). rewrite Forall_forall in IH. apply (IH u U); [|exact I]. rewrite first_none in F. now apply F.
Qed.
Lemma tops_in s n : In n (flat_map (map id_of) s) <-> exists g, In g s /\ In n (map id_of g).
Proof. rewrite in_flat_map. firstorder. Qed.
Lemma kids_in s n : In n (flat_map kids (facts s)) <-> exists p k o l, Row s p k o l /\ In n l.
Proof.
  rewrite in_flat_map. split.
  - intros ([[[p k] o] l] & I & J). now exists p, k, o, l.
  - intros (p & k & o & l & R & J). now exists (p, k, o, l).
Qed.
Lemma split_all s : NoDup (all s) -> NoDup (flat_map (map id_of) s) /\ NoDup (flat_map kids (facts s)) /\ forall n, In n (flat_map (map id_of) s) -> ~ In n (flat_map kids (facts s)).
Proof. intros N. apply NoDup_app_iff. now apply (Permutation_NoDup (all_kids s)). Qed.
Lemma kin_one s n l l' : NoDup (all s) -> kin s l -> kin s l' -> In n l -> In n l' -> l = l'.
Proof.
  intros N K K' I I'. destruct (split_all s N) as (N1 & N2 & D). destruct K as [(p & k & o & R) | (g & G & ->)]; destruct K' as [(p' & k' & o' & R') | (g' & G' & ->)].
  - pose proof (one_parent s n _ _ _ _ _ _ _ _ N R R' I I') as <-. destruct (Row_det _ _ _ _ _ _ _ _ N R R') as (_ & _ & E). exact E.
  - exfalso. apply (D n). + apply tops_in. now exists g'. + apply kids_in. now exists p, k, o, l.
  - exfalso. apply (D n). + apply tops_in. now exists g. + apply kids_in. now exists p', k', o', l'.
  - now rewrite (NoDup_flat_one (map id_of) s n g g' N1 G G' I I').
Qed.
Lemma in_kin s n : In n (all s) -> exists l, kin s l /\ In n l.
Proof.
  intros I. apply (Permutation_in _ (all_kids s)), in_app_or in I. destruct I as [I | I].
  - apply tops_in in I. destruct I as (g & G & I). exists (map id_of g). split; [right; now exists g|exact I].
  - apply kids_in in I. destruct I as (p & k & o & l & R & I). exists l. split; [left; now exists p, k, o|exact I].
Qed.
Lemma kin_in s n l : kin s l -> In n l -> In n (all s).
Proof.
  intros K I. apply (Permutation_in _ (Permutation_sym (all_kids s))), in_or_app. destruct K as [(p & k & o & R) | (g & G & ->)].
  - right. apply kids_in. now exists p, k, o, l.
  - left. apply tops_in. now exists g.
Qed.
Lemma kin_NoDup s l : NoDup (all s) -> kin s l -> NoDup l.
Proof.
  intros N K. destruct (split_all s N) as (N1 & N2 & D). destruct K as [(p & k & o & R) | (g & G & ->)].
  - exact (NoDup_flat_in kids (facts s) (p, k, o, l) N2 R).
  - exact (NoDup_flat_in (map id_of) s g N1 G).
Qed.
Lemma sibs_of_kin s n l : NoDup (all s) -> kin s l -> In n l -> sibs_of s n = l.
Proof.
  intros N K I. unfold sibs_of. destruct (first_some _ s) as [l'|] eqn:F.
  - destruct (first_split _ _ _ F) as (a & g & b & E & G & _). assert (Ig : In g s) by (rewrite E; apply in_or_app; right; now left).
    destruct (has_id n g) eqn:H.
    + injection G as <-. apply (kin_one s n); try assumption; [right; now exists g|now apply has_id_iff].
    + destruct (first_split _ _ _ G) as (a' & t & b' & E' & T & _). destruct (sibs_in_some _ _ _ T) as (I' & p & k & o & R).
      apply (kin_one s n); try assumption. left. exists p, k, o. unfold Row, facts. apply in_flat_map. exists g. split; [exact Ig|].
      apply in_flat_map. exists t. split; [rewrite E'; apply in_or_app; right; now left|exact R].
  - exfalso. rewrite first_none in F. destruct K as [(p & k & o & R) | (g & G & ->)].
    + unfold Row, facts in R. apply in_flat_map in R. destruct R as (g & G & R). apply in_flat_map in R. destruct R as (t & T & R).
      specialize (F g G). cbn beta in F. destruct (has_id n g); [discriminate|]. rewrite first_none in F. exact (sibs_in_none _ _ (F t T) _ R I).
    + specialize (F g G). cbn beta in F. apply has_id_iff in I. now rewrite I in F.
Qed.
Lemma sibs_of_out s n : ~ In n (all s) -> sibs_of s n = [].
Proof.
  intros NI. unfold sibs_of. destruct (first_some _ s) as [l'|] eqn:F; [|reflexivity]. exfalso. apply NI.
  destruct (first_split _ _ _ F) as (a & g & b & E & G & _). assert (Ig : In g s) by (rewrite E; apply in_or_app; right; now left).
  destruct (has_id n g) eqn:H.
  - apply (kin_in s n (map id_of g)); [right; now exists g|now apply has_id_iff].
  - destruct (first_split _ _ _ G) as (a' & t & b' & E' & T & _). destruct (sibs_in_some _ _ _ T) as (I' & p & k & o & R).
    apply (kin_in s n l'); [|exact I']. left. exists p, k, o. unfold Row, facts. apply in_flat_map. exists g. split; [exact Ig|].
    apply in_flat_map. exists t. split; [rewrite E'; apply in_or_app; right; now left|exact R].
Qed.
Lemma kin_at s l1 n l2 : NoDup (all s) -> kin s (l1 ++ n :: l2) -> following s n = l2 /\ preceding s n = rev l1.
Proof.
  intros N K. pose proof (kin_NoDup _ _ N K) as D. assert (I : In n (l1 ++ n :: l2)) by (apply in_or_app; right; now left).
  unfold following, preceding. rewrite (sibs_of_kin s n _ N K I). rewrite NoDup_app_iff in D. destruct D as (_ & D2 & D). inversion D2 as [|x y X Y]; subst. split.
  - apply after_in_split. intros J. apply (D n J). now left.
  - rewrite rev_app_distr. cbn [rev]. rewrite <- app_assoc. cbn [app]. apply after_in_split. rewrite <- in_rev. exact X.
Qed.
Lemma where_is s n : NoDup (all s) -> In n (all s) -> exists l1 l2, kin s (l1 ++ n :: l2) /\ following s n = l2 /\ preceding s n = rev l1.
Proof.
  intros N I. destruct (in_kin s n I) as (l & K & J). destruct (in_split _ _ J) as (l1 & l2 & ->). exists l1, l2. split; [exact K|]. now apply kin_at.
Qed.
Lemma nowhere s n : ~ In n (all s) -> following s n = [] /\ preceding s n = [].
Proof. intros I. unfold following, preceding. rewrite (sibs_of_out s n I). now split. Qed.

(** ** Kinds *)
Lemma element_iff s n : NoDup (all s) -> is_element s n = true <-> a_element s n.
Proof.
  intros N. unfold is_element, a_element. destruct (kind_of s n) as [[|]|] eqn:E.
  - split; [intros _|reflexivity]. destruct (kind_some _ _ _ E) as (o & l & R). now exists o, l.
  - split; [discriminate|]. intros (o & l & R). destruct (kind_row _ _ _ _ _ N R). congruence.
  - split; [discriminate|]. intros (o & l & R). destruct (kind_row _ _ _ _ _ N R). congruence.
Qed.
Lemma misc_iff s n : NoDup (all s) -> In n (all s) -> is_element s n = false <-> a_misc s n.
Proof.
  intros N I. destruct (in_Row s n I) as ([|] & o & l & R); unfold is_element, a_misc; destruct (kind_row _ _ _ _ _ N R) as [-> _].
  - split; [discriminate|]. intros (o' & l' & R'). destruct (Row_det _ _ _ _ _ _ _ _ N R R'). congruence.
  - split; [intros _; now exists o, l|reflexivity].
Qed.
Lemma children_row s p k o l : proper s -> Row s p k o l -> child_nodes s p = l.
Proof.
  intros P R. pose proof (p_once _ P) as N. unfold child_nodes, is_element. destruct (kind_row _ _ _ _ _ N R) as [-> C]. destruct k; [exact C|].
  symmetry. exact (p_leaf _ P _ _ _ R).
Qed.
Lemma child_nodes_out s p : ~ In p (all s) -> child_nodes s p = [].
Proof. intros H. unfold child_nodes, is_element. apply kind_none in H. now rewrite H. Qed.
Lemma parent_iff s c p : NoDup (all s) -> parent_node s c = Some p <-> exists k o l, Row s p k o l /\ In c l.
Proof.
  intros N. unfold parent_node. split; [apply parent_row|]. intros (k & o & l & R & I). destruct (parent_of s c) as [p'|] eqn:E.
  - destruct (parent_row _ _ _ E) as (k' & o' & l' & R' & I'). now rewrite (one_parent _ _ _ _ _ _ _ _ _ _ N R R' I I').
  - exfalso. exact (parent_none _ _ E _ _ _ _ R I).
Qed.

(** ** Steps *)
Lemma find_split {A} (p : A -> bool) l x : find p l = Some x <-> exists m l2, l = m ++ x :: l2 /\ p x = true /\ forall y, In y m -> p y = false.
Proof.
  induction l as [|y l IH]; cbn.
  - split; [discriminate|]. intros ([|? ?] & l2 & E & _); discriminate.
  - destruct (p y) eqn:E.
    + split.
      * intros X. injection X as ->. exists [], l. split; [reflexivity|]. split; [exact E|]. intros ? [].
      * intros ([|z m] & l2 & X & P & F); injection X as -> ->; [reflexivity|]. rewrite (F z) in E; [discriminate|now left].
    + rewrite IH. split.
      * intros (m & l2 & -> & P & F). exists (y :: m), l2. split; [reflexivity|]. split; [exact P|]. intros z [<- | I]; auto.
      * intros ([|z m] & l2 & X & P & F); injection X as -> ->; [congruence|]. exists m, l2. split; [reflexivity|]. split; [exact P|]. intros w I. apply F. now right.
Qed.
Lemma find_no {A} (p : A -> bool) l : find p l = None <-> forall y, In y l -> p y = false.
Proof.
  split; [intros F y I; now apply (find_none p l)|]. intros F. destruct (find p l) as [x|] eqn:E; [|reflexivity]. apply find_some in E. destruct E as [I X]. rewrite F in X; [discriminate|exact I].
Qed.
Lemma steps_next s l2 : NoDup (all s) -> forall l1, kin s (l1 ++ l2) -> steps (next_sibling s) (first_of_list l2) l2.
Proof.
  intros N. induction l2 as [|x l2 IH]; intros l1 K; [constructor|]. constructor. unfold next_sibling. destruct (kin_at _ _ _ _ N K) as [-> _].
  change (hd_error l2) with (first_of_list l2). apply (IH (l1 ++ [x])). now rewrite <- app_assoc.
Qed.
Lemma steps_previous s l : NoDup (all s) -> forall l2, kin s (rev l ++ l2) -> steps (previous_sibling s) (first_of_list l) l.
Proof.
  intros N. induction l as [|x l IH]; intros l2 K; [constructor|]. constructor. cbn [rev] in K. rewrite <- app_assoc in K. cbn [app] in K.
  unfold previous_sibling. destruct (kin_at _ _ _ _ N K) as [_ ->]. rewrite rev_involutive. change (hd_error l) with (first_of_list l). exact (IH _ K).
Qed.
Lemma steps_next_el s l2 : NoDup (all s) -> forall l1, kin s (l1 ++ l2) -> steps (next_element_sibling s) (first_of_list (elements s l2)) (elements s l2).
Proof.
  intros N. induction l2 as [|x l2 IH]; intros l1 K; [constructor|]. assert (K' : kin s ((l1 ++ [x]) ++ l2)) by now rewrite <- app_assoc. specialize (IH _ K').
  unfold elements in *. cbn [filter]. destruct (is_element s x) eqn:E; [|exact IH]. constructor. unfold next_element_sibling. destruct (kin_at _ _ _ _ N K) as [-> _].
  rewrite find_filter. exact IH.
Qed.
Lemma steps_previous_el s l : NoDup (all s) -> forall l2, kin s (rev l ++ l2) -> steps (previous_element_sibling s) (first_of_list (elements s l)) (elements s l).
Proof.
  intros N. induction l as [|x l IH]; intros l2 K; [constructor|]. cbn [rev] in K. rewrite <- app_assoc in K. cbn [app] in K. specialize (IH _ K).
  unfold elements in *. cbn [filter]. destruct (is_element s x) eqn:E; [|exact IH]. constructor. unfold previous_element_sibling. destruct (kin_at _ _ _ _ N K) as [_ ->].
  rewrite rev_involutive, find_filter. exact IH.
Qed.
Lemma steps_fun f o l : steps f o l -> forall l', steps f o l' -> l = l'.
Proof. induction 1 as [|n l H IH]; intros l' H'; inversion H'; subst; [reflexivity|]. f_equal. now apply IH. Qed.

(** ** The walk *)
Lemma visits_tree s top (P : proper s) : forall t, (forall x, In x (nodes t) -> In x (facts s)) -> ~ In top (flat_map ids (kids_of t)) ->
  forall r l, past s top (id_of t) r -> visits s top r l -> visits s top (Some (id_of t)) (ids t ++ l).
Proof.
  pose proof (p_once _ P) as N.
  induction t as [i k o ks IH] using tree_ind'. intros F T r l Q V. cbn [kids_of id_of] in *.
  assert (R : Row s i k o (map id_of ks)) by (apply F; now left). assert (K : kin s (map id_of ks)) by (left; now exists i, k, o).
  assert (G : forall b a, ks = a ++ b -> visits s top (match b with [] => r | u :: _ => Some (id_of u) end) (flat_map ids b ++ l)).
  { intros b. induction b as [|u b IHb]; intros a E; [exact V|]. cbn [flat_map]. rewrite <- app_assoc.
    assert (U : In u ks) by (rewrite E; apply in_or_app; right; now left). rewrite Forall_forall in IH.
    assert (NU : ~ In top (ids u)) by (intros X; apply T; apply in_flat_map; now exists u).
    apply (IH u U) with (r := match b with [] => r | u :: _ => Some (id_of u) end).
    - intros x X. apply F. cbn [nodes]. right. apply in_flat_map. now exists u.
    - intros X. apply NU. destruct u. now right.
    - assert (NT : id_of u <> top) by (intros X; apply NU; rewrite <- X; apply id_ids).
      assert (NX : next_sibling s (id_of u) = match b with [] => None | u :: _ => Some (id_of u) end).
      { unfold next_sibling. rewrite E, map_app in K. cbn [map] in K. destruct (kin_at _ _ _ _ N K) as [-> _]. now destruct b. }
      destruct b as [|w b]; [|now apply past_next]. apply (past_up s top (id_of u) i r NT NX); [|exact Q].
      apply parent_iff; [exact N|]. exists k, o, (map id_of ks). split; [exact R|]. now apply in_map.
    - apply (IHb (a ++ [u])). now rewrite <- app_assoc. }
  specialize (G ks [] eq_refl). cbn [ids app]. refine (visits_some s top i _ _ _ G). unfold onward, first_child. rewrite (children_row _ _ _ _ _ P R).
  destruct ks as [|u b]; cbn [map first_of_list]; [exact Q|reflexivity].
Qed.
Lemma visits_fun s top : forall o l, visits s top o l -> forall l', visits s top o l' -> l = l'.
Proof.
  assert (PF : forall n r, past s top n r -> forall r', past s top n r' -> r = r').
  { induction 1 as [|m b D X|m p r D X Y Q IH]; intros r' Q'; inversion Q'; subst; try congruence. apply IH. rewrite Y in H1. injection H1 as <-. assumption. }
  induction 1 as [|n r l O V IH]; intros l' V'; inversion V'; subst; [reflexivity|]. f_equal. apply IH.
  assert (E : r = r0). { unfold onward in *. destruct (first_child s n); [congruence|]. eapply PF; eassumption. } now rewrite E.
Qed.

(** ** Roots *)
Lemma group_of s n : NoDup (all s) -> In n (all s) -> exists g, In g s /\ In n (flat_map ids g) /\ root_group s n = Some g.
Proof.
  intros N I. unfold root_group. destruct (first_some _ s) as [g|] eqn:F.
  - destruct (first_split _ _ _ F) as (a & g' & b & E & G & _). destruct (first_some (seek n) g') as [t|] eqn:T; [|discriminate]. injection G as ->. exists g.
    split; [rewrite E; apply in_or_app; right; now left|]. split; [|reflexivity]. destruct (first_split _ _ _ T) as (a' & u & b' & E' & U & _). apply in_flat_map. exists u.
    split; [rewrite E'; apply in_or_app; right; now left|]. now apply (seek_in_ids n u t).
  - exfalso. rewrite first_none in F. unfold all in I. apply in_flat_map in I. destruct I as (g & G & I). specialize (F g G). cbn beta in F.
    destruct (first_some (seek n) g) eqn:T; [discriminate|]. rewrite first_none in T. apply in_flat_map in I. destruct I as (t & U & I). apply (seek_none n t); [now apply T|exact I].
Qed.
Lemma group_parent s n p g : NoDup (all s) -> In g s -> In n (flat_map ids g) -> parent_node s n = Some p -> In p (flat_map ids g).
Proof.
  intros N G I E. apply (parent_iff s n p N) in E. destruct E as (k & o & l & R & J). unfold Row, facts in R. apply in_flat_map in R. destruct R as (g' & G' & R).
  assert (g = g') as <-.
  { apply (NoDup_flat_one (flat_map ids) s n); try assumption. apply in_flat_map in R. destruct R as (t & T & R). apply in_flat_map. exists t. split; [exact T|].
    exact (kid_ids t (p, k, o, l) n R J). }
  apply in_flat_map in R. destruct R as (t & T & R). apply in_flat_map. exists t. split; [exact T|]. exact (node_ids t (p, k, o, l) R).
Qed.
Lemma group_top s n g : In g s -> In n (flat_map ids g) -> parent_node s n = None -> In n (map id_of g).
Proof.
  intros G I E. apply in_flat_map in I. destruct I as (t & T & I). apply (Permutation_in _ (ids_kids t)) in I. destruct I as [<- | I]; [now apply in_map|].
  exfalso. apply in_flat_map in I. destruct I as ([[[p k] o] l] & R & J). apply (parent_none s n E p k o l); [|exact J]. unfold Row, facts. apply in_flat_map. exists g.
  split; [exact G|]. apply in_flat_map. now exists t.
Qed.
Lemma topmost_group s n r : NoDup (all s) -> topmost s n r -> forall g, In g s -> In n (flat_map ids g) -> In r (map id_of g).
Proof.
  intros N. induction 1 as [n E|n p r E H IH]; intros g G I; [now apply (group_top s)|]. apply IH; [exact G|]. now apply (group_parent s n).
Qed.
Lemma group_kind s g t : NoDup (all s) -> In g s -> In t g -> is_el t = is_element s (id_of t).
Proof.
  intros N G T. destruct t as [i k o ks]. assert (R : Row s i k o (map id_of ks)).
  { unfold Row, facts. apply in_flat_map. exists g. split; [exact G|]. apply in_flat_map. exists (Nd i k o ks). split; [exact T|now left]. }
  unfold is_element. destruct (kind_row _ _ _ _ _ N R) as [E _]. cbn [id_of is_el]. rewrite E. now destruct k.
Qed.
Lemma one_find g t : length (filter is_el g) <= 1 -> In t g -> is_el t = true -> find is_el g = Some t.
Proof.
  intros L I E. rewrite find_filter. assert (J : In t (filter is_el g)) by (apply filter_In; now split).
  destruct (filter is_el g) as [|x [|y l]]; cbn in L; [destruct J| |lia]. destruct J as [-> | []]. reflexivity.
Qed.

(** ** Edits keep one root *)
Definition few (s : forest) : Prop := forall g, In g s -> length (filter is_el g) <= 1.
Definition top (s : forest) (r : nat) : Prop := In r (flat_map (map id_of) s).
Lemma swap_few r f g : (forall u, In u g -> id_of u = r -> length (filter is_el (f u)) <= length (filter is_el [u])) -> length (filter is_el (flat_map (swap r f) g)) <= length (filter is_el g).
Proof.
  induction g as [|t g IH]; intros H; [cbn; lia|]. cbn [flat_map]. rewrite filter_app, app_length. change (t :: g) with ([t] ++ g). rewrite filter_app, app_length.
  apply Nat.add_le_mono; [|apply IH; intros u I; apply H; now right]. pose proof (H t (or_introl eq_refl)) as Ht. destruct t as [i k o ks]. cbn [swap id_of] in *.
  destruct (Nat.eqb_spec i r) as [-> | D]; [now apply Ht|]. cbn. destruct k; cbn; lia.
Qed.
Lemma swaps_few s r f : (forall g u, In g s -> In u g -> id_of u = r -> length (filter is_el (f u)) <= length (filter is_el [u])) -> few s -> few (swaps r f s).
Proof.
  intros H F g G. unfold swaps in G. apply in_map_iff in G. destruct G as (g' & <- & G). pose proof (swap_few r f g' (fun u => H g' u G)). specialize (F g' G). lia.
Qed.
Lemma own_is_el d t : is_el (own_all d t) = is_el t. Proof. now destruct t. Qed.
Lemma attach_few s n d : few s -> few (attach s n d).
Proof. intros F. unfold attach. destruct d; [|exact F]. apply swaps_few; [|exact F]. intros g u _ _ _. cbn. rewrite own_is_el. destruct (is_el u); cbn; lia. Qed.
Lemma detach_few s n : few s -> few (detach s n).
Proof. intros F. unfold detach. apply swaps_few; [|exact F]. intros g u _ _ _. cbn. rewrite own_is_el. destruct (is_el u); cbn; lia. Qed.
Lemma out_few s n : few s -> few (swaps n (fun _ => []) s).
Proof. intros F. apply swaps_few; [|exact F]. intros g u _ _ _. cbn. lia. Qed.
Lemma swap_ids_out r g x : In x (map id_of (flat_map (swap r (fun _ => [])) g)) -> In x (map id_of g).
Proof.
  rewrite !in_map_iff. intros (u & E & I). apply in_flat_map in I. destruct I as (t & T & I). exists t. split; [|exact T]. destruct t as [i k o ks]. cbn [swap] in I.
  destruct (Nat.eqb i r); [destruct I|]. destruct I as [<- | []]. exact E.
Qed.
Lemma out_top s n r : top (swaps n (fun _ => []) s) r -> top s r.
Proof.
  unfold top. rewrite !tops_in. intros (g & G & I). unfold swaps in G. apply in_map_iff in G. destruct G as (g' & <- & G). exists g'. split; [exact G|].
  exact (swap_ids_out _ _ _ I).
Qed.
Lemma attach_top s n d r : top (attach s n d) r -> top s r.
Proof.
  destruct d as [d|]; [|auto]. unfold top, attach. rewrite !tops_in. intros (g & G & I). unfold swaps in G. apply in_map_iff in G. destruct G as (g' & <- & G). exists g'. split; [exact G|].
  apply in_map_iff in I. destruct I as (u & <- & I). apply in_flat_map in I. destruct I as (t & T & I). apply in_map_iff. exists t. split; [|exact T].
  destruct t as [i k o ks]. cbn [swap] in I. destruct (Nat.eqb i n); destruct I as [<- | []]; reflexivity.
Qed.
Lemma move_few s n r g : few s -> (forall t u, seek_in s n = Some t -> top s r -> length (filter is_el (g t u)) <= length (filter is_el [u])) -> few (move s n r g).
Proof.
  intros F H. unfold move. destruct (seek_in s n) as [t|] eqn:E; [|exact F]. apply swaps_few; [|now apply out_few]. intros g' u G U <-. apply H; [reflexivity|].
  apply (out_top s n). unfold top. apply tops_in. exists g'. split; [exact G|]. now apply in_map.
Qed.
Lemma last_few t u : length (filter is_el (add_last t u)) <= length (filter is_el [u]).
Proof. destruct u as [i [] o ks]; cbn; lia. Qed.
Lemma append_few s p n : few s -> few (fst (lx_append s p n)).
Proof. intros F. unfold lx_append. destruct (within s n p); [exact F|]. apply move_few; [exact F|]. intros t u _ _. apply last_few. Qed.
Lemma child_not_top s p c : NoDup (all s) -> In c (child_list s p) -> ~ top s c.
Proof.
  intros N I T. destruct (split_all s N) as (_ & _ & D). apply (D c T). apply kids_in. unfold child_list in I. destruct (seek_in s p) as [t|] eqn:E; [|destruct I].
  destruct (seek_row _ _ _ E) as (k & o & _ & R). now exists p, k, o, (map id_of (kids_of t)).
Qed.
Lemma parent_not_top s p c : NoDup (all s) -> parent_of s c = Some p -> ~ top s c.
Proof.
  intros N E T. destruct (split_all s N) as (_ & _ & D). apply (D c T). apply kids_in. destruct (parent_row _ _ _ E) as (k & o & l & R & I). now exists p, k, o, l.
Qed.
Lemma find_child_in l i c : find_child l i = Some c -> In c l.
Proof. unfold find_child. destruct (i <? 0)%Z; intros E; apply nth_error_In in E; [now apply in_rev|exact E]. Qed.
Lemma beside_few g s r n : NoDup (all s) -> (forall t u, length (filter is_el (g t u)) <= length (filter is_el [t]) + length (filter is_el [u])) -> few s -> few (fst (lx_beside g s r n)).
Proof.
  intros N C F. unfold lx_beside. set (x := if Nat.eqb r n then (s, None) else if within s n r then (s, Some ValueError) else (move s n r g, None)).
  assert (H : (parent_of s r = None -> kind_of s n <> Some El) -> few (fst x)).
  { intros H. unfold x. destruct (Nat.eqb r n); [exact F|]. destruct (within s n r); [exact F|]. apply move_few; [exact F|]. intros t u E T. specialize (C t u).
    assert (K : length (filter is_el [t]) = 0); [|lia]. destruct (parent_of s r) as [p|] eqn:P; [exfalso; exact (parent_not_top _ _ _ N P T)|]. specialize (H eq_refl).
    unfold kind_of in H. rewrite E in H. destruct t as [i [] o ks]; [congruence|reflexivity]. }
  destruct (parent_of s r) as [p|]; [apply H; discriminate|]. destruct (kind_of s n) as [[]|] eqn:K; [exact F|apply H; discriminate|apply H; discriminate].
Qed.
Lemma before_count t u : length (filter is_el (add_before t u)) <= length (filter is_el [t]) + length (filter is_el [u]).
Proof. cbn. destruct (is_el t), (is_el u); cbn; lia. Qed.
Lemma after_count t u : length (filter is_el (add_after t u)) <= length (filter is_el [t]) + length (filter is_el [u]).
Proof. cbn. destruct (is_el t), (is_el u); cbn; lia. Qed.
Lemma alone_few s o : few s -> few (alone s o).
Proof. intros F. destruct o as [t|]; [|exact F]. intros g G. cbn [alone] in G. apply in_app_or in G. destruct G as [G | [<- | []]]; [now apply F|]. cbn. destruct (is_el t); cbn; lia. Qed.
Lemma attach_NoDup s n d : NoDup (all s) -> NoDup (all (attach s n d)).
Proof.
  intros N. destruct (in_dec Nat.eq_dec n (all s)) as [I | I].
  - destruct (attach_changed s n d N I) as [P _]. exact (Permutation_NoDup P N).
  - unfold attach. destruct d; [|exact N]. now rewrite (swaps_out n _ s I).
Qed.
Lemma meth_append_few s p n : few s -> few (fst (append s p n)).
Proof. intros F. unfold append. destruct (pre_insertion s p n None); [exact F|]. apply append_few. now apply attach_few. Qed.
Lemma meth_beside_few g s r n : NoDup (all s) -> (forall t u, length (filter is_el (g t u)) <= length (filter is_el [t]) + length (filter is_el [u])) -> few s -> few (fst (beside g s r n)).
Proof. intros N C F. unfold beside. destruct (kind_of s r); [|exact F]. destruct (kind_of s n); [|exact F]. apply beside_few; [now apply attach_NoDup|exact C|now apply attach_few]. Qed.
Lemma attach_list_few s p d ns : few s -> few (fst (attach_list s p d ns)).
Proof. revert s. induction ns as [|n ns IH]; intros s F; [exact F|]. cbn [attach_list]. destruct (pre_insertion s p n None); [exact F|]. apply IH. now apply attach_few. Qed.
Lemma append_list_few s p ns : few s -> few (fst (append_list s p ns)).
Proof.
  revert s. induction ns as [|n ns IH]; intros s F; [exact F|]. cbn [append_list]. pose proof (append_few s p n F) as A. destruct (lx_append s p n) as [s' [e|]]; [exact A|]. now apply IH.
Qed.
Lemma remove_few s p n : few s -> few (fst (remove s p n)).
Proof. intros F. unfold remove. destruct (pre_remove s p n); [exact F|]. cbn [fst]. unfold lx_remove. apply alone_few. now apply out_few. Qed.
Lemma run_few s o : NoDup (all s) -> few s -> few (fst (run s o)).
Proof.
  intros N F. destruct o as [p n|p i n|p n c|r n|r n|p n|n|p a b|p ns|n d|n]; cbn [run].
  - now apply meth_append_few.
  - unfold insert. destruct (pre_insertion s p n None); [exact F|]. unfold lx_insert. pose proof (attach_few s n (owner_document s p) F) as F'.
    pose proof (attach_NoDup s n (owner_document s p) N) as N'. set (s' := attach s n (owner_document s p)) in *.
    destruct (find_child (child_list s' p) i) as [c|] eqn:E; [|now apply append_few]. destruct (within s' n p); [exact F'|]. destruct (Nat.eqb c n); [exact F'|]. cbn [fst].
    apply move_few; [exact F'|]. intros t u _ T. exfalso. apply (child_not_top s' p c N'); [|exact T]. exact (find_child_in _ _ _ E).
  - unfold insert_before. destruct (pre_insertion s p n c); [exact F|]. destruct (match c with Some c0 => _ | None => None end) as [c'|]; [|now apply meth_append_few].
    apply meth_beside_few; [exact N|apply before_count|exact F].
  - apply meth_beside_few; [exact N|apply after_count|exact F].
  - apply meth_beside_few; [exact N|apply before_count|exact F].
  - now apply remove_few.
  - unfold remove_self. destruct (parent_of s n); [now apply remove_few|exact F].
  - unfold replace. destruct (pre_insertion s p b (Some a)); [exact F|]. destruct (pre_remove s p a) eqn:E; [exact F|]. pose proof (attach_few s b (owner_document s p) F) as F'.
    assert (T : ~ top (attach s b (owner_document s p)) a).
    { intros T. apply attach_top in T. unfold pre_remove in E. destruct (kind_of s p) as [[]|]; try discriminate. destruct (existsb (Nat.eqb a) (child_list s p)) eqn:X; [|discriminate].
      apply existsb_exists in X. destruct X as (y & Y & Q). apply Nat.eqb_eq in Q. subst y. exact (child_not_top s p a N Y T). }
    unfold lx_replace. set (s' := attach s b (owner_document s p)) in *. destruct (within s' b p); [exact F'|]. destruct (Nat.eqb a b); [exact F'|]. cbn [fst]. apply alone_few.
    apply move_few; [exact F'|]. intros t u _ X. now destruct (T X).
  - unfold extend. pose proof (attach_list_few s p (owner_document s p) ns F) as A. destruct (attach_list s p (owner_document s p) ns) as [s' [e|]]; [exact A|]. now apply append_list_few.
  - now apply attach_few.
  - now apply detach_few.
Qed.
