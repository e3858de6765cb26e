From Coq Require Import ZArith Lia Permutation.
From Verif Require Import PyBase ForestModel ForestSpec ForestProofs.
#[local] Open Scope nat_scope.

Definition subst (r : nat) (m l : list nat) : list nat := flat_map (fun x => if Nat.eqb x r then m else [x]) l.
Lemma subst_out r m l : ~ In r l -> subst r m l = l.
Proof.
  induction l as [|x l IH]; [reflexivity|]. unfold subst in *. cbn [flat_map]. intros H. destruct (Nat.eqb_spec x r) as [->|N]; [elim H; now left|]. cbn [app]. f_equal. apply IH. intros I. apply H. now right.
Qed.
Lemma subst_app r m a b : subst r m (a ++ b) = subst r m a ++ subst r m b. Proof. apply flat_map_app. Qed.
Lemma subst_one r m : subst r m [r] = m. Proof. unfold subst. cbn [flat_map]. now rewrite Nat.eqb_refl, app_nil_r. Qed.
Lemma subst_same r l : subst r [r] l = l.
Proof. induction l as [|x l IH]; [reflexivity|]. unfold subst in *. cbn [flat_map]. destruct (Nat.eqb_spec x r) as [->|N]; cbn [app]; now f_equal. Qed.
Lemma minus_subst n l : minus n l = subst n [] l.
Proof. induction l as [|x l IH]; [reflexivity|]. unfold minus, subst in *. cbn [filter flat_map]. destruct (Nat.eqb x n); cbn [negb app]; [exact IH|now f_equal]. Qed.
Lemma instead_subst c n l : instead c n l = subst c [n] l.
Proof. induction l as [|x l IH]; [reflexivity|]. unfold instead, subst in *. cbn [map flat_map]. destruct (Nat.eqb x c); cbn [app]; now f_equal. Qed.
Lemma before_subst c n l : before c n l = subst c [n; c] l.
Proof. induction l as [|x l IH]; [reflexivity|]. unfold before, subst in *. cbn [flat_map]. destruct (Nat.eqb_spec x c) as [->|N]; cbn [app]; rewrite IH; reflexivity. Qed.
Lemma after_subst c n l : after c n l = subst c [c; n] l.
Proof. induction l as [|x l IH]; [reflexivity|]. unfold after, subst in *. cbn [flat_map]. destruct (Nat.eqb_spec x c) as [->|N]; cbn [app]; rewrite IH; reflexivity. Qed.
Lemma in_minus n x l : In x (minus n l) <-> In x l /\ x <> n.
Proof. unfold minus. rewrite filter_In. destruct (Nat.eqb_spec x n); cbn [negb]; intuition congruence. Qed.

(** ** What a context says about its rows *)
Lemma hole_once c t : NoDup (all (fill c [t])) ->
  (forall x, In x (static c) -> ~ In (id_of t) (kids x)) /\ (forall x, In x (nodes t) -> ~ In (id_of t) (kids x)) /\
  (forall q k o l, In (q, k, o, l) (hole c [id_of t]) -> exists a b, l = a ++ [id_of t] ++ b /\ ~ In (id_of t) a /\ ~ In (id_of t) b /\ forall m, In (q, k, o, a ++ m ++ b) (hole c m)).
Proof.
  intros D. rewrite all_kids, fill_tops in D. cbn [map] in D. set (n := id_of t) in *.
  assert (D' : NoDup (tops c [n] ++ flat_map kids (static c ++ hole c [n] ++ nodes t))).
  { eapply Permutation_NoDup; [|exact D]. apply Permutation_app_head. pose proof (fill_facts c [t]) as F. cbn [map flat_map] in F. rewrite app_nil_r in F. now apply Permutation_flat_map. }
  rewrite !flat_map_app, !NoDup_app_iff in D'. destruct D' as (D1 & (D2 & (D3 & D4 & D5) & D6) & D7).
  assert (K : In n (tops c [n]) \/ In n (flat_map kids (hole c [n]))).
  { destruct c as [b l r a|c i k o l r]; cbn [tops hole flat_map kids]; [left|right]; rewrite !in_app_iff; cbn; auto. }
  split; [|split].
  - intros x I J. assert (S : In n (flat_map kids (static c))) by (apply in_flat_map; eauto). destruct K as [K|K]; [apply (D7 n K); apply in_or_app; now left|]. apply (D6 n S). apply in_or_app. now left.
  - intros x I J. assert (S : In n (flat_map kids (nodes t))) by (apply in_flat_map; eauto). destruct K as [K|K]; [apply (D7 n K); rewrite !in_app_iff; auto|]. now apply (D5 n K).
  - intros q k o l H. destruct c as [b l0 r a|c i k0 o0 l0 r]; cbn [hole] in H; [contradiction|]. destruct H as [[= <- <- <- <-]|[]]. exists (map id_of l0), (map id_of r). split; [reflexivity|]. cbn [hole flat_map kids] in D3. rewrite app_nil_r in D3.
    rewrite !NoDup_app_iff in D3. destruct D3 as (_ & (_ & _ & Q2) & Q3). split; [intros J; apply (Q3 n J); now left|]. split; [apply Q2; now left|]. intros m. now left.
Qed.
Lemma ctx_rows e u M q k o l : NoDup (all (fill e [u])) -> Row (fill e [u]) q k o l ->
  (In (q, k, o, l) (nodes u) /\ ~ In (id_of u) l) \/ Row (fill e M) q k o (subst (id_of u) (map id_of M) l).
Proof.
  intros D H. destruct (hole_once e u D) as (A & B & C). unfold Row in *. pose proof (fill_facts e [u]) as F. apply (Permutation_in _ F) in H. cbn [map flat_map] in H. rewrite app_nil_r, !in_app_iff in H.
  destruct H as [H|[H|H]].
  - right. apply (Permutation_in _ (Permutation_sym (fill_facts e M))). apply in_or_app. left. rewrite subst_out; [exact H|exact (A _ H)].
  - right. apply (Permutation_in _ (Permutation_sym (fill_facts e M))). apply in_or_app. right. apply in_or_app. left. destruct (C _ _ _ _ H) as (a & b & -> & Na & Nb & G). rewrite !subst_app, subst_one, !subst_out by assumption. apply G.
  - left. split; [exact H|exact (B _ H)].
Qed.
Lemma ctx_new e M x y : In x M -> In y (nodes x) -> In y (facts (fill e M)).
Proof. intros I J. apply (Permutation_in _ (Permutation_sym (fill_facts e M))). rewrite !in_app_iff. right. right. apply in_flat_map. eauto. Qed.
Lemma kid_ids t x c : In x (nodes t) -> In c (kids x) -> In c (ids t).
Proof. intros I J. apply (Permutation_in _ (Permutation_sym (ids_kids t))). right. apply in_flat_map. eauto. Qed.
Lemma node_ids t x : In x (nodes t) -> In (key x) (ids t).
Proof. intros I. rewrite <- nodes_keys. now apply in_map. Qed.

(** ** Documents of a subtree *)
Definition redoc (d : option nat) (t : tree) : tree := match d with Some _ => own_all d t | None => t end.
Lemma own_id d t : id_of (own_all d t) = id_of t. Proof. now destruct t. Qed.
Lemma own_ids d t : ids (own_all d t) = ids t.
Proof. induction t as [i k o ks IH] using tree_ind'. cbn [own_all ids]. f_equal. induction IH as [|t ks Ht IH IH2]; [reflexivity|]. cbn [map flat_map]. now rewrite Ht, IH2. Qed.
Lemma own_nodes d t : nodes (own_all d t) = map (fun x => match x with (q, k, _, l) => (q, k, d, l) end) (nodes t).
Proof.
  induction t as [i k o ks IH] using tree_ind'. cbn [own_all nodes map]. f_equal; [f_equal; rewrite map_map; apply map_ext; intros x; apply own_id|]. induction IH as [|t ks Ht IH IH2]; [reflexivity|]. cbn [map flat_map]. now rewrite map_app, Ht, IH2.
Qed.
Lemma redoc_id d t : id_of (redoc d t) = id_of t. Proof. destruct d; [apply own_id|reflexivity]. Qed.
Lemma redoc_ids d t : ids (redoc d t) = ids t. Proof. destruct d; [apply own_ids|reflexivity]. Qed.
Lemma redoc_nodes d t q k o l : In (q, k, o, l) (nodes t) -> In (q, k, match d with Some _ => d | None => o end, l) (nodes (redoc d t)).
Proof. destruct d; cbn [redoc]; [|auto]. intros H. rewrite own_nodes. apply in_map_iff. exists (q, k, o, l). auto. Qed.
Lemma attach_ctx s n d c t : NoDup (all s) -> (forall g, swaps n g s = fill c (g t)) -> fill c [t] = s -> attach s n d = fill c [redoc d t].
Proof. intros D G E. destruct d; cbn [attach redoc]; [apply G|congruence]. Qed.

(** ** below and the subtree *)
Lemma root_row t : exists k o l, In (id_of t, k, o, l) (nodes t) /\ t = Nd (id_of t) k o (kids_of t) /\ l = map id_of (kids_of t).
Proof. destruct t as [i k o ks]. exists k, o, (map id_of ks). split; [now left|]. auto. Qed.
Lemma below_down s n : forall t, (forall x, In x (nodes t) -> In x (facts s)) -> below s n (id_of t) -> forall q, In q (ids t) -> below s n q.
Proof.
  induction t as [i k o ks IH] using tree_ind'. intros Sub B q. cbn [ids id_of] in *. intros [<-|I]; [exact B|]. apply in_flat_map in I. destruct I as (x & I & J). rewrite Forall_forall in IH. apply (IH x I); [| |exact J].
  - intros y Hy. apply Sub. cbn [nodes]. right. apply in_flat_map. eauto.
  - apply (below_child s n i k o (map id_of ks)); [exact B| |now apply in_map]. apply Sub. now left.
Qed.
Lemma below_tree s n c t : NoDup (all s) -> fill c [t] = s -> id_of t = n -> forall q, below s n q <-> In q (ids t).
Proof.
  intros D E I q. assert (Sub : forall x, In x (nodes t) -> In x (facts s)) by (intros x J; rewrite <- E; apply (ctx_new c [t] t); [now left|exact J]).
  assert (Here : In n (all s)). { rewrite <- facts_keys. destruct (root_row t) as (k & o & l & R & _). rewrite I in R. exact (in_map key _ _ (Sub _ R)). }
  split.
  - induction 1 as [_|q k o l x B IH R J].
    + rewrite <- I. destruct t. now left.
    + assert (T : In (q, k, o, l) (nodes t)).
      { rewrite <- nodes_keys in IH. apply in_map_iff in IH. destruct IH as ([[[q' k'] o'] l'] & Q & T). cbn [key] in Q. subst q'. destruct (Row_det s q k o l k' o' l' D R (Sub _ T)) as (-> & -> & ->). exact T. }
      exact (kid_ids t _ x T J).
  - apply (below_down s n t Sub). rewrite I. now constructor.
Qed.
Lemma within_below s n p : NoDup (all s) -> within s n p = true <-> below s n p.
Proof.
  intros D. unfold within. destruct (seek_in s n) as [t|] eqn:E.
  - destruct (seek_ctx_in s n t E) as (I & c & F & _). rewrite (below_tree s n c t D F I). destruct (seek p t) as [u|] eqn:S; [split; [intros _; exact (proj2 (seek_in_ids _ _ _ S))|reflexivity]|]. apply seek_none in S. split; [discriminate|tauto].
  - split; [discriminate|]. intros B. exfalso. assert (H : In n (all s)) by (induction B; auto). apply seek_some in H. destruct H as (t & H). congruence.
Qed.
Lemma below_all s n q : below s n q -> In n (all s). Proof. induction 1; auto. Qed.

(** ** Reading *)
Lemma seek_row s n t : seek_in s n = Some t -> exists k o, t = Nd n k o (kids_of t) /\ Row s n k o (map id_of (kids_of t)).
Proof.
  intros E. destruct (seek_ctx_in s n t E) as (I & c & F & _). destruct (root_row t) as (k & o & l & R & T & L). exists k, o. rewrite I in *. split; [exact T|]. unfold Row. rewrite <- F, <- L. apply (ctx_new c [t] t); [now left|exact R].
Qed.
Lemma read_row s n k o l : NoDup (all s) -> Row s n k o l -> exists t, seek_in s n = Some t /\ t = Nd n k o (kids_of t) /\ map id_of (kids_of t) = l.
Proof.
  intros D R. destruct (seek_some s n (Row_in _ _ _ _ _ R)) as (t & E). exists t. split; [exact E|]. destruct (seek_row s n t E) as (k' & o' & T & R'). destruct (Row_det s n k o l _ _ _ D R R') as (-> & -> & ->). auto.
Qed.
Lemma kind_row s n k o l : NoDup (all s) -> Row s n k o l -> kind_of s n = Some k /\ child_list s n = l.
Proof. intros D R. destruct (read_row s n k o l D R) as (t & E & T & L). unfold kind_of, child_list. rewrite E. split; [now rewrite T|exact L]. Qed.
Lemma kind_none s n : kind_of s n = None <-> ~ In n (all s).
Proof.
  unfold kind_of. destruct (seek_in s n) as [t|] eqn:E.
  - destruct (seek_row s n t E) as (k & o & T & R). rewrite T. split; [discriminate|]. intros H. elim H. exact (Row_in _ _ _ _ _ R).
  - split; [|reflexivity]. intros _ H. apply seek_some in H. destruct H. congruence.
Qed.
Lemma kind_some s n k : kind_of s n = Some k -> exists o l, Row s n k o l.
Proof. unfold kind_of. destruct (seek_in s n) as [t|] eqn:E; [|discriminate]. destruct (seek_row s n t E) as (k' & o & T & R). rewrite T. intros [= <-]. eauto. Qed.
Lemma parent_in_row n t p : parent_in n t = Some p -> exists k o l, In (p, k, o, l) (nodes t) /\ In n l.
Proof.
  induction t as [i k o ks IH] using tree_ind'. cbn [parent_in nodes]. destruct (existsb _ ks) eqn:E.
  - intros [= <-]. exists k, o, (map id_of ks). split; [now left|]. apply existsb_exists in E. destruct E as (u & I & J). apply Nat.eqb_eq in J. apply in_map_iff. eauto.
  - intros H. apply first_split in H. destruct H as (a & x & b & -> & F & _). rewrite Forall_forall in IH. destruct (IH x ltac:(apply in_or_app; right; now left) F) as (k' & o' & l' & R & I). exists k', o', l'. split; [|exact I]. right. apply in_flat_map. exists x. split; [apply in_or_app; right; now left|exact R].
Qed.
Lemma parent_in_none n t : parent_in n t = None -> forall x, In x (nodes t) -> ~ In n (kids x).
Proof.
  induction t as [i k o ks IH] using tree_ind'. cbn [parent_in nodes]. destruct (existsb _ ks) eqn:E; [discriminate|]. rewrite first_none. intros H x [<-|I] J.
  - cbn [kids] in J. apply in_map_iff in J. destruct J as (u & U & J). assert (T : existsb (fun u => Nat.eqb (id_of u) n) ks = true) by (apply existsb_exists; exists u; split; [exact J|now apply Nat.eqb_eq]). congruence.
  - apply in_flat_map in I. destruct I as (u & I & I2). rewrite Forall_forall in IH. exact (IH u I (H u I) x I2 J).
Qed.
Lemma parent_row s n p : parent_of s n = Some p -> exists k o l, Row s p k o l /\ In n l.
Proof.
  unfold parent_of. intros H. apply first_split in H. destruct H as (b & grp & a & -> & H & _). apply first_split in H. destruct H as (l & x & r & -> & F & _). apply parent_in_row in F. destruct F as (k & o & l' & R & I). exists k, o, l'. split; [|exact I].
  unfold Row, facts. rewrite flat_map_app. cbn [flat_map]. rewrite flat_map_app. cbn [flat_map]. rewrite !in_app_iff. tauto.
Qed.
Lemma parent_none s n : parent_of s n = None -> parentless s n.
Proof.
  unfold parent_of. rewrite first_none. intros H p k o l R J. unfold Row, facts in R. apply in_flat_map in R. destruct R as (grp & I & R). apply in_flat_map in R. destruct R as (t & I2 & R). specialize (H grp I). rewrite first_none in H. exact (parent_in_none n t (H t I2) _ R J).
Qed.
Lemma one_parent s c p k o l p' k' o' l' : NoDup (all s) -> Row s p k o l -> Row s p' k' o' l' -> In c l -> In c l' -> p = p'.
Proof.
  intros D R R' I I'. rewrite all_kids in D. apply NoDup_app_iff in D. destruct D as (_ & D & _). unfold Row in *. revert D R R'. generalize (facts s). intros L. induction L as [|x L IH]; [intros _ []|]. cbn [flat_map]. rewrite NoDup_app_iff. intros (D1 & D2 & D3) [E|R] [E'|R'].
  - congruence.
  - subst x. elim (D3 c I). apply in_flat_map. eauto.
  - subst x. elim (D3 c I'). apply in_flat_map. eauto.
  - now apply IH.
Qed.

(** ** owner_document *)
Fixpoint above (c : ctx) : option nat := match c with Top _ _ _ _ => None | Deep c _ _ o _ _ => first_of o (above c) end.
Lemma owner_out a n t : ~ In n (ids t) -> owner_in a n t = None.
Proof.
  revert a. induction t as [i k o ks IH] using tree_ind'. intros a H. cbn [owner_in ids] in *. destruct (Nat.eqb_spec i n) as [->|N]; [elim H; now left|]. apply first_none. intros x I. rewrite Forall_forall in IH. apply (IH x I). intros J. apply H. right. apply in_flat_map. eauto.
Qed.
Lemma owner_outs a n l : ~ In n (flat_map ids l) -> first_some (owner_in a n) l = None.
Proof. intros H. apply first_none. intros x I. apply owner_out. intros J. apply H. apply in_flat_map. eauto. Qed.
Lemma owner_fill n y c : ~ In n (spine c) -> forall m, first_some (owner_in (above c) n) m = Some y -> first_some (first_some (owner_in None n)) (fill c m) = Some y.
Proof.
  induction c as [b l r a|c IH i k o l r]; intros N m H; cbn [fill spine above] in *.
  - rewrite !in_app_iff in N. rewrite first_app. assert (B : first_some (first_some (owner_in None n)) b = None).
    { apply first_none. intros g I. apply owner_outs. intros J. apply N. left. apply in_flat_map. eauto. }
    rewrite B. cbn [app]. rewrite first_cons, !first_app. rewrite owner_outs by tauto. now rewrite H.
  - apply IH; [intros J; apply N; right; rewrite !in_app_iff; auto|]. rewrite first_cons. cbn [owner_in]. destruct (Nat.eqb_spec i n) as [->|M]; [elim N; now left|]. rewrite !first_app. rewrite owner_outs by (intros J; apply N; right; rewrite !in_app_iff; auto). now rewrite H.
Qed.
Lemma owner_ctx s n c t : NoDup (all s) -> fill c [t] = s -> id_of t = n -> owner_document s n = first_of (match t with Nd _ _ o _ => o end) (above c).
Proof.
  intros D E I. unfold owner_document. assert (N : ~ In n (spine c)).
  { intros J. rewrite <- E in D. eapply Permutation_NoDup in D; [|apply fill_all]. apply NoDup_app_iff in D. destruct D as (_ & _ & D). apply (D n J). cbn [flat_map]. rewrite app_nil_r. destruct t. cbn [id_of] in I. subst. now left. }
  rewrite <- E. rewrite (owner_fill n (first_of (match t with Nd _ _ o _ => o end) (above c)) c N [t]); [reflexivity|]. rewrite first_cons. destruct t as [i k o ks]. cbn [owner_in id_of] in *. subst i. now rewrite Nat.eqb_refl.
Qed.
Lemma doc_ctx c : forall t s, fill c [t] = s -> NoDup (all s) -> doc s (id_of t) (first_of (match t with Nd _ _ o _ => o end) (above c)).
Proof.
  assert (R0 : forall c t s, fill c [t] = s -> Row s (id_of t) (match t with Nd _ k _ _ => k end) (match t with Nd _ _ o _ => o end) (map id_of (kids_of t))).
  { intros c0 t s E. unfold Row. rewrite <- E. apply (ctx_new c0 [t] t); [now left|]. destruct t. now left. }
  induction c as [b l r a|c IH i k o l r]; intros t s E D; pose proof (R0 _ _ _ E) as R.
  - destruct t as [n kn [d|] ks]; cbn [id_of first_of above] in *; [exact (doc_own s n kn d _ R)|]. apply (doc_none s n kn _ R). intros p k' o' l' R' J. rewrite <- E in D. destruct (hole_once _ _ D) as (A & B & _). cbn [id_of] in *. unfold Row in R'. rewrite <- E in R'. apply (Permutation_in _ (fill_facts _ _)) in R'. cbn [map flat_map hole] in R'. rewrite app_nil_r, !in_app_iff in R'.
    destruct R' as [R'|[[]|R']]; [exact (A _ R' J)|exact (B _ R' J)].
  - cbn [fill] in E. specialize (IH (Nd i k o (l ++ [t] ++ r)) s E D). cbn [id_of] in IH. destruct t as [n kn [d|] ks]; cbn [id_of first_of above] in *; [exact (doc_own s n kn d _ R)|].
    apply (doc_up s n kn (map id_of ks) i k o (map id_of (l ++ [Nd n kn None ks] ++ r)) _); [exact R| | |exact IH].
    + exact (R0 c (Nd i k o (l ++ [Nd n kn None ks] ++ r)) s E).
    + rewrite !map_app, !in_app_iff. right. left. now left.
Qed.
Lemma owner_doc s n : NoDup (all s) -> In n (all s) -> doc s n (owner_document s n).
Proof.
  intros D H. destruct (seek_some s n H) as (t & E). destruct (seek_ctx_in s n t E) as (I & c & F & _). rewrite (owner_ctx s n c t D F I), <- I. now apply doc_ctx.
Qed.
Lemma doc_det s q d : NoDup (all s) -> doc s q d -> forall d', doc s q d' -> d = d'.
Proof.
  intros D. induction 1 as [q k d l R|q k l p k' o' l' d R P J _ IH|q k l R N]; intros d'; inversion 1 as [q1 k1 d1 l1 R1|q1 k1 l1 p1 k1' o1' l1' d1 R1 P1 J1 X|q1 k1 l1 R1 N1]; subst.
  - destruct (Row_det s q _ _ _ _ _ _ D R R1) as (_ & [= ->] & _). reflexivity.
  - destruct (Row_det s q _ _ _ _ _ _ D R R1) as (_ & [=] & _).
  - destruct (Row_det s q _ _ _ _ _ _ D R R1) as (_ & [=] & _).
  - destruct (Row_det s q _ _ _ _ _ _ D R R1) as (_ & [=] & _).
  - pose proof (one_parent s q _ _ _ _ _ _ _ _ D P P1 J J1) as <-. now apply IH.
  - elim (N1 _ _ _ _ P J).
  - destruct (Row_det s q _ _ _ _ _ _ D R R1) as (_ & [=] & _).
  - elim (N _ _ _ _ P1 J1).
  - reflexivity.
Qed.
