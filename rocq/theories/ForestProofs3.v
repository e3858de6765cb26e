From Coq Require Import ZArith Lia Permutation.
From Verif Require Import PyBase ForestModel ForestSpec ForestProofs ForestProofs2.
#[local] Open Scope nat_scope.

Lemma swaps_fill n g c : ~ In n (spine c) -> forall m, swaps n g (fill c m) = fill c (flat_map (swap n g) m).
Proof.
  induction c as [b l r a|c IH i k o l r]; intros N m; cbn [fill spine] in *.
  - rewrite !in_app_iff in N. unfold swaps. rewrite map_app. cbn [app map]. fold (swaps n g b) (swaps n g a). rewrite !swaps_out by tauto. rewrite !flat_map_app. rewrite (swap_outs n g l), (swap_outs n g r) by tauto. reflexivity.
  - rewrite IH by (intros J; apply N; right; rewrite !in_app_iff; auto). cbn [flat_map swap]. destruct (Nat.eqb_spec i n) as [->|M]; [elim N; now left|]. cbn [app]. rewrite !flat_map_app. rewrite (swap_outs n g l), (swap_outs n g r) by (intros J; apply N; right; rewrite !in_app_iff; auto). reflexivity.
Qed.
Lemma seek_outs n l : ~ In n (flat_map ids l) -> first_some (seek n) l = None.
Proof. intros H. apply first_none. intros x I. apply seek_none. intros J. apply H. apply in_flat_map. eauto. Qed.
Lemma seek_fill n y c : ~ In n (spine c) -> forall m, first_some (seek n) m = Some y -> seek_in (fill c m) n = Some y.
Proof.
  unfold seek_in. induction c as [b l r a|c IH i k o l r]; intros N m H; cbn [fill spine] in *.
  - rewrite !in_app_iff in N. rewrite first_app. assert (B : first_some (first_some (seek n)) b = None).
    { apply first_none. intros g I. apply seek_outs. intros J. apply N. left. apply in_flat_map. eauto. }
    rewrite B. cbn [app]. rewrite first_cons, !first_app. rewrite seek_outs by tauto. now rewrite H.
  - apply IH; [intros J; apply N; right; rewrite !in_app_iff; auto|]. rewrite first_cons. cbn [seek]. destruct (Nat.eqb_spec i n) as [->|M]; [elim N; now left|]. rewrite !first_app. rewrite seek_outs by (intros J; apply N; right; rewrite !in_app_iff; auto). now rewrite H.
Qed.
Lemma id_ids t : In (id_of t) (ids t). Proof. destruct t. now left. Qed.
Lemma not_spine c t x : NoDup (all (fill c [t])) -> In x (ids t) -> ~ In x (spine c).
Proof. intros D I J. eapply Permutation_NoDup in D; [|apply fill_all]. apply NoDup_app_iff in D. destruct D as (_ & _ & D). apply (D x J). cbn [flat_map]. now rewrite app_nil_r. Qed.
Lemma swaps_at c t g : NoDup (all (fill c [t])) -> swaps (id_of t) g (fill c [t]) = fill c (g t).
Proof. intros D. rewrite swaps_fill by (apply (not_spine c t); [exact D|apply id_ids]). cbn [flat_map]. destruct t as [i k o ks]. cbn [id_of swap]. now rewrite Nat.eqb_refl, app_nil_r. Qed.
Lemma seek_at c t : NoDup (all (fill c [t])) -> seek_in (fill c [t]) (id_of t) = Some t.
Proof. intros D. apply seek_fill; [apply (not_spine c t); [exact D|apply id_ids]|]. rewrite first_cons. destruct t as [i k o ks]. cbn [id_of seek]. now rewrite Nat.eqb_refl. Qed.
Lemma fill_redoc_NoDup c t d : NoDup (all (fill c [t])) -> NoDup (all (fill c [redoc d t])).
Proof. intros D. eapply Permutation_NoDup; [|exact D]. rewrite !fill_all. cbn [flat_map]. now rewrite redoc_ids. Qed.
Lemma ctx_rows' e u M q k o l : NoDup (all (fill e [u])) -> Row (fill e [u]) q k o l ->
  (In (q, k, o, l) (nodes u) /\ ~ In (id_of u) l) \/ (~ In q (ids u) /\ Row (fill e M) q k o (subst (id_of u) (map id_of M) l)).
Proof.
  intros D R. destruct (hole_once e u D) as (_ & B & _). destruct (in_dec Nat.eq_dec q (ids u)) as [I|N].
  - left. rewrite <- nodes_keys in I. apply in_map_iff in I. destruct I as ([[[q' k'] o'] l'] & Q & T). cbn [key] in Q. subst q'. assert (R' : Row (fill e [u]) q k' o' l') by (apply (ctx_new e [u] u); [now left|exact T]).
    destruct (Row_det _ _ _ _ _ _ _ _ D R R') as (-> & -> & ->). split; [exact T|exact (B _ T)].
  - destruct (ctx_rows e u M q k o l D R) as [[T _]|T]; [|now right]. elim N. exact (node_ids u _ T).
Qed.
(* the two places of a move *)
Record move_at (s : forest) (n r : nat) (c e : ctx) (t u : tree) : Prop := {
  m_s : fill c [t] = s; m_n : id_of t = n; m_rest : fill c [] = fill e [u]; m_r : id_of u = r;
  m_once : NoDup (all (fill e [u])); m_out : ~ In r (ids t) }.
Lemma find_move s n r : NoDup (all s) -> In n (all s) -> In r (all s) -> ~ below s n r -> exists c e t u, move_at s n r c e t u.
Proof.
  intros D N R B. destruct (seek_some s n N) as (t & E). destruct (seek_ctx_in s n t E) as (I & c & F & _). rewrite (below_tree s n c t D F I) in B.
  assert (D' : NoDup (all (fill c []))). { rewrite <- F in D. eapply Permutation_NoDup in D; [|apply fill_all]. eapply Permutation_NoDup; [symmetry; apply fill_all|]. apply NoDup_app_iff in D. cbn [flat_map]. rewrite app_nil_r. tauto. }
  assert (R' : In r (all (fill c []))). { rewrite <- F in R. apply (Permutation_in _ (fill_all c [t])) in R. apply (Permutation_in _ (Permutation_sym (fill_all c []))). cbn [flat_map] in *. rewrite !app_nil_r in *. apply in_app_or in R. tauto. }
  destruct (seek_some _ r R') as (u & E2). destruct (seek_ctx_in _ r u E2) as (J & e & G & _). exists c, e, t, u. split; auto. now rewrite G.
Qed.
Lemma move_fill s n r c e t u d g : NoDup (all s) -> move_at s n r c e t u -> move (attach s n d) n r g = fill e (g (redoc d t) u) /\ swaps n (fun _ => []) (attach s n d) = fill e [u].
Proof.
  intros D [E I G J D' O]. assert (A : attach s n d = fill c [redoc d t]).
  { destruct d as [d|]; cbn [attach redoc]; [|congruence]. rewrite <- E, <- I. now rewrite swaps_at by congruence. }
  rewrite A. assert (D1 : NoDup (all (fill c [redoc d t]))) by (apply fill_redoc_NoDup; congruence). unfold move. pose proof (seek_at c (redoc d t) D1) as S. rewrite redoc_id, I in S. rewrite S.
  pose proof (swaps_at c (redoc d t) (fun _ => []) D1) as W. rewrite redoc_id, I in W. rewrite W, G. split; [|reflexivity]. rewrite <- J. now apply swaps_at.
Qed.
Lemma minus_out n l : ~ In n l -> minus n l = l. Proof. intros H. rewrite minus_subst. now apply subst_out. Qed.
(* [X] is the result: what is in the hole, and what else stands elsewhere *)
Lemma move_changed s n r c e t u d X h : NoDup (all s) -> move_at s n r c e t u -> Permutation (all s) (all X) ->
  (forall x, In x (nodes (redoc d t)) -> In x (facts X)) ->
  (forall q k o l, In (q, k, o, l) (nodes u) -> ~ In r l -> Row X q k o (h q l)) ->
  (forall q k o l, ~ In q (ids u) -> Row (fill e [u]) q k o l -> Row X q k o (h q l)) ->
  (forall q l, q <> r -> ~ In r l -> h q l = l) ->
  changed s X n d (fun q l => h q (minus n l)).
Proof.
  intros D [E I G J D' O] P Ht Hu Hr Hh. split; [exact P|]. intros q k o l R. pose proof (below_tree s n c t D E I q) as B. rewrite <- E in D, R. destruct (ctx_rows' c t [] q k o l D R) as [[T N]|[Q T]].
  - rewrite I in N. exists (match d with Some _ => d | None => o end). rewrite minus_out by exact N. assert (Iq : In q (ids t)) by exact (node_ids t _ T). rewrite Hh.
    + split; [apply Ht; now apply redoc_nodes|]. split; [reflexivity|]. intros Z. elim Z. now apply B.
    + intros ->. now apply O.
    + intros Z. apply O. exact (kid_ids t _ r T Z).
  - rewrite I in T. cbn [map] in T. rewrite <- minus_subst in T. exists o. split; [|split; [intros Z; elim Q; now apply B|reflexivity]]. rewrite G in T. destruct (ctx_rows' e u [] q k o _ D' T) as [[T2 N]|[Q2 T2]]; [apply Hu; [exact T2|now rewrite <- J]|]. now apply Hr.
Qed.
Lemma perm_move s n r c e t u M : NoDup (all s) -> move_at s n r c e t u -> Permutation (flat_map ids M) (ids u ++ ids t) -> Permutation (all s) (all (fill e M)).
Proof.
  intros D [E I G J D' O] P. rewrite <- E. rewrite !fill_all, P. cbn [flat_map]. rewrite app_nil_r, app_assoc. apply Permutation_app_tail. transitivity (all (fill c [])); [symmetry; rewrite fill_all; cbn [flat_map]; now rewrite app_nil_r|]. rewrite G, fill_all. cbn [flat_map]. now rewrite app_nil_r.
Qed.
(** ** The moves *)
Lemma append_changed s n p d : NoDup (all s) -> In n (all s) -> In p (all s) -> ~ below s n p ->
  changed s (move (attach s n d) n p add_last) n d (fun q l => if Nat.eqb q p then minus n l ++ [n] else minus n l).
Proof.
  intros D N R B. destruct (find_move s n p D N R B) as (c & e & t & u & M). destruct (move_fill s n p c e t u d add_last D M) as [-> _]. pose proof M as M0. destruct M0 as [E I G J D' O]. destruct u as [i k0 o0 ks]. cbn [id_of] in J. subst i. cbn [add_last].
  set (X := fill e [Nd p k0 o0 (ks ++ [redoc d t])]).
  pose proof (move_changed s n p c e t (Nd p k0 o0 ks) d X (fun q l => if Nat.eqb q p then l ++ [n] else l) D M) as C. cbv beta in C. apply C; clear C.
  - apply (perm_move s n p c e t (Nd p k0 o0 ks)); [exact D|exact M|]. cbn [flat_map ids]. rewrite app_nil_r, flat_map_app. cbn [flat_map app]. now rewrite app_nil_r, redoc_ids.
  - intros x Hx. apply (ctx_new e [Nd p k0 o0 (ks ++ [redoc d t])] (Nd p k0 o0 (ks ++ [redoc d t]))); [now left|]. cbn [nodes]. right. rewrite flat_map_app. apply in_or_app. right. cbn [flat_map]. now rewrite app_nil_r.
  - intros q k o l T _. apply (ctx_new e [Nd p k0 o0 (ks ++ [redoc d t])] (Nd p k0 o0 (ks ++ [redoc d t]))); [now left|]. cbn [nodes] in *. destruct T as [[= <- <- <- <-]|T].
    + left. rewrite Nat.eqb_refl, map_app. cbn [map]. now rewrite redoc_id, I.
    + right. assert (Q : q <> p). { intros ->. assert (U : NoDup (ids (Nd p k0 o0 ks))) by (eapply Permutation_NoDup in D'; [|apply fill_all]; apply NoDup_app_iff in D'; destruct D' as (_ & D' & _); cbn [flat_map] in D'; now rewrite app_nil_r in D'). cbn [ids] in U. apply NoDup_cons_iff in U. apply (proj1 U). rewrite <- nodes_keys_list. exact (in_map key _ _ T). }
      apply Nat.eqb_neq in Q. rewrite Q, flat_map_app. apply in_or_app. now left.
  - intros q k o l Q T. destruct (ctx_rows' e (Nd p k0 o0 ks) [Nd p k0 o0 (ks ++ [redoc d t])] q k o l D' T) as [[T2 _]|[_ T2]]; [elim Q; exact (node_ids _ _ T2)|]. cbn [map id_of] in T2. rewrite subst_same in T2. destruct (Nat.eqb_spec q p) as [->|_]; [elim Q; now left|exact T2].
  - intros q l Q _. apply Nat.eqb_neq in Q. now rewrite Q.
Qed.
Lemma beside_changed s n r d g m : (forall t u, Permutation (flat_map ids (g t u)) (ids u ++ ids t)) -> (forall t u, In t (g t u) /\ In u (g t u)) -> (forall t u, map id_of (g t u) = m (id_of t) (id_of u)) ->
  NoDup (all s) -> In n (all s) -> In r (all s) -> ~ below s n r -> changed s (move (attach s n d) n r g) n d (fun q l => subst r (m n r) (minus n l)).
Proof.
  intros G1 G2 G3 D N R B. destruct (find_move s n r D N R B) as (c & e & t & u & M). destruct (move_fill s n r c e t u d g D M) as [-> _]. pose proof M as M0. destruct M0 as [E I G J D' O].
  pose proof (move_changed s n r c e t u d (fill e (g (redoc d t) u)) (fun q l => subst r (m n r) l) D M) as C. cbv beta in C. apply C; clear C.
  - apply (perm_move s n r c e t u); [exact D|exact M|]. rewrite G1. now rewrite redoc_ids.
  - intros x Hx. exact (ctx_new e _ (redoc d t) x (proj1 (G2 _ _)) Hx).
  - intros q k o l T Nr. rewrite subst_out by exact Nr. exact (ctx_new e _ u _ (proj2 (G2 _ _)) T).
  - intros q k o l Q T. destruct (ctx_rows' e u (g (redoc d t) u) q k o l D' T) as [[T2 _]|[_ T2]]; [elim Q; exact (node_ids _ _ T2)|]. now rewrite G3, redoc_id, I, J in T2.
  - intros q l _ Nr. now apply subst_out.
Qed.
Lemma before_changed s n r d : NoDup (all s) -> In n (all s) -> In r (all s) -> ~ below s n r -> changed s (move (attach s n d) n r add_before) n d (fun q l => before r n (minus n l)).
Proof.
  intros D N R B. assert (C : changed s (move (attach s n d) n r add_before) n d (fun q l => subst r [n; r] (minus n l))).
  { apply (beside_changed s n r d add_before (fun a b => [a; b])); auto.
    - intros t u. unfold add_before. cbn [flat_map]. rewrite app_nil_r. apply Permutation_app_comm.
    - intros t u. cbn. auto. }
  destruct C as [P C]. split; [exact P|]. intros q k o l Rw. rewrite before_subst. now apply C.
Qed.
Lemma after_changed s n r d : NoDup (all s) -> In n (all s) -> In r (all s) -> ~ below s n r -> changed s (move (attach s n d) n r add_after) n d (fun q l => after r n (minus n l)).
Proof.
  intros D N R B. assert (C : changed s (move (attach s n d) n r add_after) n d (fun q l => subst r [r; n] (minus n l))).
  { apply (beside_changed s n r d add_after (fun a b => [b; a])); auto.
    - intros t u. unfold add_after. cbn [flat_map]. now rewrite app_nil_r.
    - intros t u. cbn. auto. }
  destruct C as [P C]. split; [exact P|]. intros q k o l Rw. rewrite after_subst. now apply C.
Qed.
Lemma alone_facts X t : facts (alone X (Some t)) = facts X ++ nodes t.
Proof. unfold alone. rewrite facts_app, facts_one. cbn [flat_map]. now rewrite app_nil_r. Qed.
Lemma alone_all X t : all (alone X (Some t)) = all X ++ ids t.
Proof. unfold alone. rewrite all_app, all_one. cbn [flat_map]. now rewrite app_nil_r. Qed.
Lemma replace_changed s n r d : NoDup (all s) -> In n (all s) -> In r (all s) -> ~ below s n r ->
  changed s (alone (move (attach s n d) n r (fun t _ => [t])) (seek_in (swaps n (fun _ => []) (attach s n d)) r)) n d (fun q l => instead r n (minus n l)).
Proof.
  intros D N R B. destruct (find_move s n r D N R B) as (c & e & t & u & M). destruct (move_fill s n r c e t u d (fun t _ => [t]) D M) as [-> ->]. pose proof M as M0. destruct M0 as [E I G J D' O].
  pose proof (seek_at e u D') as S. rewrite J in S. rewrite S. clear S.
  pose proof (move_changed s n r c e t u d (alone (fill e [redoc d t]) (Some u)) (fun q l => instead r n l) D M) as C. cbv beta in C. apply C; clear C.
  - rewrite alone_all, fill_all. cbn [flat_map]. rewrite app_nil_r, redoc_ids. rewrite (perm_move s n r c e t u [u; t] D M); [|cbn [flat_map]; now rewrite app_nil_r]. rewrite fill_all. cbn [flat_map]. rewrite app_nil_r, <- app_assoc. apply Permutation_app_head. apply Permutation_app_comm.
  - intros x Hx. rewrite alone_facts. apply in_or_app. left. apply (ctx_new e [redoc d t] (redoc d t)); [now left|exact Hx].
  - intros q k o l T Nr. rewrite instead_subst, subst_out by exact Nr. unfold Row. rewrite alone_facts. apply in_or_app. now right.
  - intros q k o l Q T. destruct (ctx_rows' e u [redoc d t] q k o l D' T) as [[T2 _]|[_ T2]]; [elim Q; exact (node_ids _ _ T2)|]. cbn [map] in T2. rewrite redoc_id, I, J in T2. unfold Row. rewrite alone_facts. apply in_or_app. left. rewrite instead_subst. exact T2.
  - intros q l _ Nr. rewrite instead_subst. now apply subst_out.
Qed.
Lemma remove_changed s n : NoDup (all s) -> In n (all s) -> changed s (lx_remove s n) n None (fun q l => minus n l).
Proof.
  intros D N. destruct (seek_some s n N) as (t & E). destruct (seek_ctx_in s n t E) as (I & c & F & W). unfold lx_remove. rewrite E, (W D). split.
  - rewrite alone_all, <- F, !fill_all. cbn [flat_map]. now rewrite !app_nil_r.
  - intros q k o l R. exists o. split; [|split; reflexivity]. unfold Row. rewrite alone_facts. rewrite <- F in D, R. destruct (ctx_rows' c t [] q k o l D R) as [[T Z]|[_ T]]; apply in_or_app.
    + right. rewrite <- I, minus_out by exact Z. exact T.
    + left. rewrite I in T. cbn [map] in T. now rewrite <- minus_subst in T.
Qed.
Lemma attach_changed s n d : NoDup (all s) -> In n (all s) -> changed s (attach s n d) n d (fun q l => l).
Proof.
  intros D N. destruct (seek_some s n N) as (t & E). destruct (seek_ctx_in s n t E) as (I & c & F & W). pose proof (attach_ctx s n d c t D (W D) F) as A. rewrite A. split.
  - rewrite <- F, !fill_all. cbn [flat_map]. now rewrite redoc_ids.
  - intros q k o l R. pose proof (below_tree s n c t D F I q) as B. rewrite <- F in D, R. destruct (ctx_rows' c t [redoc d t] q k o l D R) as [[T Z]|[Q T]].
    + exists (match d with Some _ => d | None => o end). split; [apply (ctx_new c [redoc d t] (redoc d t)); [now left|now apply redoc_nodes]|]. split; [reflexivity|]. intros X. elim X. apply B. exact (node_ids t _ T).
    + exists o. cbn [map] in T. rewrite redoc_id, subst_same in T. split; [exact T|]. split; [intros X; elim Q; now apply B|reflexivity].
Qed.
Lemma detach_rows s n : NoDup (all s) -> In n (all s) -> Permutation (all s) (all (detach s n)) /\ forall q k o l, Row s q k o l -> exists o', Row (detach s n) q k o' l /\ (below s n q -> o' = None) /\ (~ below s n q -> o' = o).
Proof.
  intros D N. destruct (seek_some s n N) as (t & E). destruct (seek_ctx_in s n t E) as (I & c & F & W). unfold detach. rewrite (W D). split.
  - rewrite <- F, !fill_all. cbn [flat_map]. now rewrite own_ids.
  - intros q k o l R. pose proof (below_tree s n c t D F I q) as B. rewrite <- F in D, R. destruct (ctx_rows' c t [own_all None t] q k o l D R) as [[T Z]|[Q T]].
    + exists None. split; [apply (ctx_new c [own_all None t] (own_all None t)); [now left|]|].
      * rewrite own_nodes. apply in_map_iff. exists (q, k, o, l). auto.
      * split; [reflexivity|]. intros X. elim X. apply B. exact (node_ids t _ T).
    + exists o. cbn [map] in T. rewrite own_id, subst_same in T. split; [exact T|]. split; [intros X; elim Q; now apply B|reflexivity].
Qed.
