From Coq Require Import Lia.
From Verif Require Import PyBase PyText PyDict UtilsModel UtilsSpec UtilsProofs UtilsProps AttrModel AttrSpec AttrProofs AttrProps NameModel NameSpec.
#[local] Open Scope N_scope.

Lemma ns_map_ok : dict_ok ns_map.
Proof. unfold dict_ok. vm_compute. repeat constructor; intros K; cbn in K; intuition discriminate. Qed.
Lemma space_iff a b c : no_space (a ++ b ++ c) <-> no_space a /\ no_space b /\ no_space c.
Proof. rewrite !no_space_app. tauto. Qed.
Lemma given_none ns : UtilsProofs.given ns = None <-> nons ns.
Proof. unfold nons, UtilsProofs.given. destruct ns as [[|? ?]|]; split; intuition discriminate. Qed.
Lemma given_some ns n : UtilsProofs.given ns = Some n <-> ns = Some n /\ n <> [].
Proof. unfold UtilsProofs.given. destruct ns as [[|? ?]|]; split; try (intros [= <-]; split; [reflexivity|discriminate]); intros H; try discriminate H; destruct H as [H K]; try discriminate; congruence. Qed.

Lemma means_iff ns q x : qualified ns q ns_map = Ok x <-> means ns q x.
Proof.
  split.
  - intros H. destruct (written_total ns_map q) as (p & n & l & W). destruct (qualified_ok _ _ _ _ _ _ _ W H) as (Sq & Sn & L & N & R).
    destruct W as [n l F|p l F B|l F B].
    + destruct R as (-> & G). rewrite !no_space_app in Sq. destruct Sq as (_ & S1 & _ & S2).
      assert (word n) by (split; [intros ->; now apply N|exact S1]).
      apply M_clark; auto; [|now split]. destruct G as [G|G]; [left; now apply given_none|right; now split].
    + destruct R as (P & m & -> & M & D & ->). rewrite !no_space_app in Sq. destruct Sq as (S1 & _ & S2).
      apply M_prefix; try (now split); auto; [split; [reflexivity|split; auto]|now apply dget_in].
    + subst x. destruct (UtilsProofs.given ns) as [m|] eqn:G.
      * apply given_some in G. destruct G as [-> G]. apply M_in; try (now split); auto. split; [reflexivity|split; auto].
      * apply given_none in G. apply M_plain; auto. now split.
  - intros [ns' l N [L S] F B|ns' n l [-> [N Sn]] [L S] F B|ns' n p l [-> [N Sn]] [P Sp] [L Sl] F B I|ns' n l N [M Sm] [L Sl] F].
    + rewrite c39_plain; auto.
      * destruct N as [-> | ->]; reflexivity.
      * destruct N as [-> | ->]; intros m [= <-]; intros c [].
    + rewrite c39_plain; auto.
      * destruct n; [congruence|reflexivity].
      * now intros m [= <-].
    + apply c39_prefix; auto. exists n. split; [reflexivity|]. split; [exact N|]. split; [exact Sn|]. split; [|reflexivity]. apply in_dget; [apply ns_map_ok|exact I].
    + apply c39_clark; auto. destruct N as [[-> | ->]|[-> _]]; cbn; auto.
Qed.
Lemma means_fun ns q x y : means ns q x -> means ns q y -> x = y.
Proof. rewrite <- !means_iff. congruence. Qed.
Lemma means_dec ns q x : means ns q x \/ ~ means ns q x.
Proof.
  rewrite <- means_iff. destruct (qualified ns q ns_map) as [y|]; [|right; discriminate].
  destruct x as [a b], y as [c d]. destruct (text_eqb_spec b d) as [<-|]; [|right; congruence].
  destruct a as [a|], c as [c|]; try (right; congruence); [|now left].
  destruct (text_eqb_spec a c) as [<-|]; [now left|right; congruence].
Qed.
Lemma expanded_ok ns q n : expanded ns q = Ok n <-> exists x, means ns q x /\ n = clark x.
Proof.
  unfold expanded. destruct (qualified ns q ns_map) as [x|e] eqn:Q; cbn [bind].
  - apply means_iff in Q. split; [intros [= <-]; eauto|]. intros (y & M & ->). now rewrite (means_fun _ _ _ _ M Q).
  - split; [discriminate|]. intros (y & M & _). apply means_iff in M. congruence.
Qed.
Lemma means_expanded ns q x : means ns q x -> expanded ns q = Ok (clark x).
Proof. intros M. apply expanded_ok. eauto. Qed.
Lemma expanded_err ns q e : expanded ns q = Err e -> forall x, ~ means ns q x.
Proof. intros H x M. rewrite (means_expanded _ _ _ M) in H. discriminate. Qed.
(* names apart print apart *)
Lemma clark_apart ns q x ns' q' y : whole ns -> whole ns' -> means ns q x -> means ns' q' y -> clark x = clark y -> x = y.
Proof. intros W W' M M' E. apply means_iff in M, M'. exact (c39_injective _ _ _ _ _ _ _ _ W W' M M' E). Qed.

(** ** Histories *)
Definition as_aop (o : nop) : option aop :=
  match o with
  | NSet e ns q v => match expanded ns q with Ok n => Some (OSetText e n v) | Err _ => None end
  | NRemove e ns q => match expanded ns q with Ok n => Some (ORemove e n) | Err _ => None end
  | NNode e ns q => match expanded ns q with Ok n => Some (OGet e n) | Err _ => None end
  end.
Lemma n_step_aop w o : n_step w o = match as_aop o with Some p => step w p | None => w end.
Proof.
  destruct o as [e ns q v|e ns q|e ns q]; cbn [n_step as_aop]; unfold set_attribute_ns, remove_attribute_ns, get_attribute_node_ns;
    destruct (expanded ns q); cbn [fst step]; try reflexivity. destruct (nm_get w e a) as [? [|]]; reflexivity.
Qed.
Lemma reachable_step w o : reachable w -> reachable (step w o).
Proof. intros (d & l & D & ->). exists d, (l ++ [o]). split; [exact D|]. unfold run. now rewrite fold_left_app. Qed.
Lemma n_step_reachable w o : reachable w -> reachable (n_step w o).
Proof. intros R. rewrite n_step_aop. destruct (as_aop o); [now apply reachable_step|exact R]. Qed.
Lemma n_run_reachable h : forall w, reachable w -> reachable (n_run w h).
Proof. induction h as [|o h IH]; intros w R; [exact R|]. apply IH, n_step_reachable, R. Qed.

Lemma set_lookup w e n v : reachable w -> lookup (nm_set_text w e n v) e n = kept v.
Proof.
  intros R. destruct (c21_set_text w e n (match v with Some t => t | None => [] end) R) as [A B].
  destruct v as [[|c v]|]; cbn [kept].
  - apply B. auto.
  - apply A. discriminate.
  - apply B. auto.
Qed.
Lemma remove_lookup w e n : reachable w -> lookup (remove_attribute w e n) e n = None.
Proof.
  intros R. destruct (lookup w e n) as [v|] eqn:E.
  - destruct (c21_remove_named w e n v R E) as (a & w' & _ & L & _ & _ & _ & _ & ->). exact L.
  - unfold remove_attribute, remove_named_item, nm_get. rewrite E. cbn. now rewrite pop_lookup.
Qed.
Lemma get_lookup w e n e' m : reachable w -> lookup (fst (nm_get w e n)) e' m = lookup w e' m.
Proof.
  intros R. destruct (c21_get w e n R) as [_ B]. destruct (lookup w e n) as [v|] eqn:E.
  - destruct (B v eq_refl) as (a & w' & G & _ & _ & _ & _ & K). rewrite G. apply K.
  - unfold nm_get. rewrite E. cbn [fst]. apply pop_lookup.
Qed.
Lemma other_lookup w o e x ns q : reachable w -> whole (op_ns o) -> whole ns -> means ns q x -> ~ writes o e x ->
  lookup (n_step w o) e (clark x) = lookup w e (clark x).
Proof.
  intros R Wo Wn M N. rewrite n_step_aop. destruct (as_aop o) as [p|] eqn:P; [|reflexivity].
  destruct o as [e' ns' q' v|e' ns' q'|e' ns' q']; cbn [as_aop op_ns writes] in *.
  3:{ destruct (expanded ns' q') as [n|]; [|discriminate]. injection P as <-. cbn [step]. now apply get_lookup. }
  1,2: destruct (expanded ns' q') as [n|] eqn:X; [|discriminate]; injection P as <-; apply expanded_ok in X; destruct X as (y & My & ->);
    apply (proj1 (c21_frame w _ R)); cbn [about]; intros [-> E]; apply N; split; [reflexivity|];
    now rewrite (clark_apart _ _ _ _ _ _ Wn Wo M My E).
Qed.
Lemma history_holds e x ns q : whole ns -> means ns q x -> forall h w, reachable w -> Forall (fun o => whole (op_ns o)) h ->
  history e x h (lookup w e (clark x)) (lookup (n_run w h) e (clark x)).
Proof.
  intros Wn M. induction h as [|o h IH]; intros w R F; [apply H_nil|]. inversion F as [|? ? Wo Fh]; subst.
  assert (Rs := n_step_reachable w o R). specialize (IH (n_step w o) Rs Fh). change (n_run w (o :: h)) with (n_run (n_step w o) h).
  assert (D : writes o e x \/ ~ writes o e x).
  { destruct o as [e' ns' q' v|e' ns' q'|e' ns' q']; cbn [writes]; [| |tauto];
      (destruct (Nat.eq_dec e' e); [|tauto]); (destruct (means_dec ns' q' x); tauto). }
  destruct D as [D|D].
  - destruct o as [e' ns' q' v|e' ns' q'|e' ns' q']; cbn [writes] in D; [| |tauto]; destruct D as [-> D].
    + apply H_set; [exact D|]. rewrite n_step_aop in IH at 1. cbn [as_aop] in IH. rewrite (means_expanded _ _ _ D) in IH. cbn [step] in IH.
      rewrite set_lookup in IH by exact R. exact IH.
    + apply H_remove; [exact D|]. rewrite n_step_aop in IH at 1. cbn [as_aop] in IH. rewrite (means_expanded _ _ _ D) in IH. cbn [step] in IH.
      rewrite remove_lookup in IH by exact R. exact IH.
  - apply H_other; [exact D|]. rewrite (other_lookup w o e x ns q R Wo Wn M D) in IH. exact IH.
Qed.
Lemma history_fun e x h v a b : history e x h v a -> history e x h v b -> a = b.
Proof.
  intros H. revert b. induction H as [v|ns q t h v v' M H IH|ns q h v v' M H IH|o h v v' N H IH]; intros b K; inversion K; subst; try reflexivity;
    try (now apply IH); exfalso; cbn [writes] in *; tauto.
Qed.

(** ** Elements *)
Lemma key_eqb_spec a b : reflect (a = b) (key_eqb a b).
Proof.
  destruct a as [a|], b as [b|]; cbn [key_eqb]; try (constructor; congruence).
  destruct (text_eqb_spec a b) as [->|]; constructor; congruence.
Qed.
Lemma pget_app m k k' v : pget m k = None -> pget (m ++ [(k, v)]) k' = if key_eqb k k' then Some v else pget m k'.
Proof.
  unfold pget. induction m as [|[k0 v0] m IH]; cbn [app find fst].
  - intros _. destruct (key_eqb k k'); reflexivity.
  - destruct (key_eqb_spec k0 k) as [->|E]; [discriminate|]. intros H. destruct (key_eqb_spec k0 k') as [->|E'].
    + destruct (key_eqb_spec k k') as [->|]; [congruence|reflexivity].
    + now apply IH.
Qed.
Lemma clark_match_clark x : (forall n, qns x = Some n -> free 125 n) -> (qns x = None -> bare (qlocal x)) ->
  clark_match (clark x) = match qns x with Some n => Some (n, qlocal x) | None => None end.
Proof.
  destruct x as [[n|] l]; cbn [qns qlocal clark]; intros A B.
  - apply clark_match_some. split; [reflexivity|]. now apply A.
  - apply clark_match_none. now apply B.
Qed.
Lemma means_shape ns q x : whole ns -> means ns q x -> (forall n, qns x = Some n -> free 125 n /\ word n) /\ (qns x = None -> bare (qlocal x)) /\ word (qlocal x).
Proof.
  intros W M. revert W. destruct M as [ns' l N L F B|ns' n l [-> N] L F B|ns' n p l [-> N] P L F B I|ns' n l N M L F]; intros W; cbn [qns qlocal] in *; (split; [|split]); auto; try discriminate;
    intros m [= <-]; split; auto; apply W; reflexivity.
Qed.
