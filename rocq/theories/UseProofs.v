(** Proofs about containers and 'use': names, references, fuel. *)
From Coq Require Import Lia Lqa.
From Verif Require Import PyBase PyText MatrixModel MatrixSpec TransformModel TransformSpec PathModel PathSpec UseModel UseSpec.
Local Open Scope Q_scope.

Lemma is_in_iff t l : is_in t l = true <-> In t l.
Proof.
  unfold is_in. rewrite existsb_exists. split.
  - intros (x & I1 & E). destruct (text_eqb_spec t x) as [K|K]; [now rewrite K|discriminate].
  - intros H. exists t. split; [exact H|]. destruct (text_eqb_spec t t) as [K|K]; [reflexivity|congruence].
Qed.
Lemma class_shape n : class_of_node n = CShape <-> own_outline n.
Proof.
  unfold class_of_node, class_of, own_outline, name. fold shape_names. rewrite <- is_in_iff.
  destruct (is_in (el_name (self n)) shape_names); [tauto|].
  destruct (is_in _ _); [split; discriminate|]. destruct (is_in _ _); [split; discriminate|].
  destruct (is_in _ _); [split; discriminate|]. destruct (text_eqb _ _); split; discriminate.
Qed.
Lemma class_cases n :
  match class_of_node n with
  | CShape => own_outline n | CGroup => grouping n | CEmpty => never_shown n
  | CAbstract => unfinished n | CUse => reusing n | COther => ~ graphical n
  end.
Proof.
  unfold class_of_node, class_of.
  destruct (is_in (el_name (self n)) shape_names) eqn:E1; [now apply is_in_iff in E1|].
  destruct (is_in (el_name (self n)) [lit "g"; lit "svg"]) eqn:E2.
  { apply is_in_iff in E2. destruct E2 as [E|[E|[]]]; [left|right]; symmetry; exact E. }
  destruct (is_in (el_name (self n)) [lit "a"; lit "defs"; lit "pattern"; lit "symbol"]) eqn:E3.
  { apply is_in_iff in E3. unfold never_shown, name. destruct E3 as [E|[E|[E|[E|[]]]]]; rewrite <- E; auto. }
  destruct (is_in (el_name (self n)) [lit "marker"; lit "view"]) eqn:E4.
  { apply is_in_iff in E4. destruct E4 as [E|[E|[]]]; [left|right]; symmetry; exact E. }
  destruct (text_eqb_spec (el_name (self n)) (lit "use")) as [E5|E5]; [exact E5|].
  intros [H|[H|[H|[H|H]]]].
  - apply is_in_iff in H. unfold name in H. fold shape_names in H. congruence.
  - assert (K : is_in (el_name (self n)) [lit "g"; lit "svg"] = true); [|congruence].
    apply is_in_iff. destruct H as [H|H]; unfold name in H; rewrite H; cbn [In]; auto.
  - assert (K : is_in (el_name (self n)) [lit "a"; lit "defs"; lit "pattern"; lit "symbol"] = true); [|congruence].
    apply is_in_iff. destruct H as [H|[H|[H|H]]]; unfold name in H; rewrite H; cbn [In]; auto.
  - assert (K : is_in (el_name (self n)) [lit "marker"; lit "view"] = true); [|congruence].
    apply is_in_iff. destruct H as [H|H]; unfold name in H; rewrite H; cbn [In]; auto.
  - apply E5, H.
Qed.
Lemma class_group n : grouping n -> class_of_node n = CGroup.
Proof. unfold class_of_node. intros [H|H]; unfold name in H; rewrite H; reflexivity. Qed.
Lemma class_never n : never_shown n -> class_of_node n = CEmpty.
Proof. unfold class_of_node. intros [H|[H|[H|H]]]; unfold name in H; rewrite H; reflexivity. Qed.
Lemma class_unfinished n : unfinished n -> class_of_node n = CAbstract.
Proof. unfold class_of_node. intros [H|H]; unfold name in H; rewrite H; reflexivity. Qed.
Lemma class_use n : reusing n -> class_of_node n = CUse.
Proof. unfold class_of_node. intros H; unfold reusing, name in H; rewrite H; reflexivity. Qed.
Lemma graphics_iff n : graphics n = true <-> graphical n.
Proof.
  unfold graphics. generalize (class_cases n). unfold graphical.
  destruct (class_of_node n); intros H; split; intros K; auto; try discriminate.
Qed.
Lemma graphics_false n : graphics n = false <-> ~ graphical n.
Proof. rewrite <- graphics_iff. destruct (graphics n); split; congruence. Qed.

(** ** References *)
Lemma node_ind' (P : node -> Prop) : (forall e cs, Forall P cs -> P (Node e cs)) -> forall n, P n.
Proof.
  intros H. fix IH 1. intros [e cs]. apply H. induction cs as [|c cs IHc]; constructor; [apply IH|exact IHc].
Qed.
Definition idb (i : text) (n : node) : bool :=
  match el_id (self n) with Some j => text_eqb j i | None => false end.
Lemma idb_iff i n : idb i n = true <-> has_id i n.
Proof.
  unfold idb, has_id. destruct (el_id (self n)) as [j|]; [|split; discriminate].
  destruct (text_eqb_spec j i) as [E|E]; split; intros; congruence.
Qed.
Lemma find_app {A} (f : A -> bool) l1 l2 :
  find f (l1 ++ l2) = match find f l1 with Some x => Some x | None => find f l2 end.
Proof. induction l1 as [|x l1 IH]; [reflexivity|]. cbn [find app]. destruct (f x); auto. Qed.
Lemma find_id_find i n : find_id i n = find (idb i) (in_order n).
Proof.
  induction n as [e cs IH] using node_ind'. cbn [find_id in_order find].
  change (match el_id e with Some j => text_eqb j i | None => false end) with (idb i (Node e cs)).
  destruct (idb i (Node e cs)); [reflexivity|].
  induction cs as [|c cs IHc]; [reflexivity|]. inversion IH as [|? ? H1 H2]; subst.
  cbn [flat_map]. rewrite find_app, <- H1. destruct (find_id i c); [reflexivity|]. apply IHc, H2.
Qed.
Lemma find_id_some i n t : find_id i n = Some t <-> first_with_id n i t.
Proof.
  rewrite find_id_find. unfold first_with_id. split.
  - generalize (in_order n). intros l. induction l as [|x l IH]; [discriminate|]. cbn [find].
    destruct (idb i x) eqn:E.
    + intros [= <-]. exists [], l. split; [reflexivity|]. split; [now apply idb_iff|constructor].
    + intros H. destruct (IH H) as (b & a & -> & K & F). exists (x :: b), a. split; [reflexivity|].
      split; [exact K|]. constructor; [|exact F]. rewrite <- idb_iff. congruence.
  - intros (b & a & -> & K & F). rewrite find_app.
    assert (E : find (idb i) b = None).
    { clear K. induction F as [|x b Hx F IH]; [reflexivity|]. cbn [find].
      destruct (idb i x) eqn:E; [apply idb_iff in E; contradiction|exact IH]. }
    rewrite E. cbn [find]. apply idb_iff in K. rewrite K. reflexivity.
Qed.
Lemma find_id_none i n : find_id i n = None <-> Forall (fun m => ~ has_id i m) (in_order n).
Proof.
  rewrite find_id_find. generalize (in_order n). intros l. induction l as [|x l IH]; [split; auto|].
  cbn [find]. destruct (idb i x) eqn:E.
  - split; [discriminate|]. intros H. inversion H as [|? ? H1 H2]; subst. apply idb_iff in E. contradiction.
  - rewrite IH. split; intros H; [constructor; [rewrite <- idb_iff; congruence|exact H]|now inversion H].
Qed.
Lemma find_id_in i n t : find_id i n = Some t -> In t (in_order n).
Proof. rewrite find_id_some. intros (b & a & -> & _). apply in_or_app. right. now left. Qed.
Lemma in_order_child root n c : In n (in_order root) -> In c (children n) -> In c (in_order root).
Proof.
  induction root as [e cs IH] using node_ind'. cbn [in_order In]. intros [<-|H] K.
  - right. apply in_flat_map. exists c. split; [exact K|]. destruct c; left; reflexivity.
  - right. apply in_flat_map in H. destruct H as (x & H1 & H2). apply in_flat_map. exists x. split; [exact H1|].
    rewrite Forall_forall in IH. auto.
Qed.
Lemma href_points e : points_to e (href e).
Proof.
  unfold points_to, href. destruct (el_href e) as [[|c t]|].
  - destruct (el_xhref e); auto 6.
  - left. split; [discriminate|reflexivity].
  - destruct (el_xhref e); auto 6.
Qed.
Lemma points_href e u : points_to e u -> href e = u.
Proof.
  unfold href. intros [[H E]|[[H E]|(H & E & ->)]].
  - rewrite E. destruct u; [congruence|reflexivity].
  - rewrite E. destruct H as [-> | ->]; reflexivity.
  - rewrite E. destruct H as [-> | ->]; reflexivity.
Qed.
Lemma instance_some root e t : name root = lit "svg" -> refers root e t -> instance_root root e = Ok (Some t).
Proof.
  intros R (i & P1 & F). unfold instance_root. rewrite (points_href _ _ P1). cbn [N.eqb].
  replace (35 =? 35)%N with true by reflexivity.
  unfold name in R. rewrite R. replace (text_eqb (lit "svg") (lit "svg")) with true by reflexivity.
  apply find_id_some in F. rewrite F. reflexivity.
Qed.
Lemma instance_inv root e r : instance_root root e = Ok r ->
  match r with
  | Some t => name root = lit "svg" /\ refers root e t /\ In t (in_order root)
  | None => points_to e [] \/ (name root = lit "svg" /\ dangling root e)
  end.
Proof.
  unfold instance_root. generalize (href_points e). destruct (href e) as [|c i]; intros P1.
  - intros [= <-]. now left.
  - destruct (N.eqb_spec c 35) as [->|]; [|discriminate].
    destruct (text_eqb_spec (el_name (self root)) (lit "svg")) as [E|E]; [|discriminate].
    intros [= <-]. destruct (find_id i root) as [t|] eqn:F.
    + split; [exact E|]. split; [|eapply find_id_in; exact F]. exists i. split; [exact P1|now apply find_id_some].
    + right. split; [exact E|]. exists i. split; [exact P1|now apply find_id_none].
Qed.

(** ** Fuel *)
Lemma descendants_mono (p q : node -> outcome) cs : (forall c r, In c cs -> p c = Some r -> q c = Some r) ->
  forall acc r, descendants p cs acc = Some r -> descendants q cs acc = Some r.
Proof.
  induction cs as [|c cs IH]; intros H acc r; cbn [descendants]; [auto|].
  assert (IH' := IH (fun c r i => H c r (or_intror i))).
  destruct (graphics c); [|apply IH'].
  destruct (p c) as [x|] eqn:E; [|discriminate]. rewrite (H c x (or_introl eq_refl) E).
  destruct x; auto.
Qed.
Definition step (rec : node -> outcome) (o : oracle) (at2 : Q -> Q -> Q) (norm : bool) (root n : node) : outcome :=
  match class_of_node n with
  | COther => Some (Err AttributeError)
  | CAbstract => Some (Err NotImplementedError_)
  | CEmpty => Some (Ok [])
  | CShape => Some (do l <- el_own (self n); if norm then normalize o at2 l else Ok l)
  | CGroup => descendants rec (children n) []
  | CUse =>
      match instance_root root (self n) with
      | Err e => Some (Err e)
      | Ok None => Some (Ok [])
      | Ok (Some t) =>
          if graphics t then
            match rec t with
            | None => None
            | Some r => Some (do l <- r; place_use o at2 (self n) (el_name (self t)) l)
            end
          else Some (Ok [])
      end
  end.
Lemma path_data_step f o at2 norm root n :
  path_data (S f) o at2 norm root n = step (path_data f o at2 norm root) o at2 norm root n.
Proof. reflexivity. Qed.
Lemma step_mono (p q : node -> outcome) o at2 norm root n r : (forall c r, p c = Some r -> q c = Some r) ->
  step p o at2 norm root n = Some r -> step q o at2 norm root n = Some r.
Proof.
  intros H. unfold step. destruct (class_of_node n); auto.
  - apply descendants_mono. auto.
  - destruct (instance_root root (self n)) as [[t|]|]; auto. destruct (graphics t); auto.
    destruct (p t) as [x|] eqn:E; [|discriminate]. rewrite (H _ _ E). auto.
Qed.
Lemma path_data_S f o at2 norm root : forall n r,
  path_data f o at2 norm root n = Some r -> path_data (S f) o at2 norm root n = Some r.
Proof.
  induction f as [|f IH]; [discriminate|]. intros n r. rewrite !path_data_step. apply step_mono. exact IH.
Qed.
Lemma path_data_le f g o at2 norm root n r : (f <= g)%nat ->
  path_data f o at2 norm root n = Some r -> path_data g o at2 norm root n = Some r.
Proof. induction 1; auto using path_data_S. Qed.
Lemma path_data_det f g o at2 norm root n r s : path_data f o at2 norm root n = Some r ->
  path_data g o at2 norm root n = Some s -> r = s.
Proof.
  intros H K. assert (L : (f <= Nat.max f g)%nat) by lia. assert (M : (g <= Nat.max f g)%nat) by lia.
  apply (path_data_le _ _ _ _ _ _ _ _ L) in H. apply (path_data_le _ _ _ _ _ _ _ _ M) in K. congruence.
Qed.

(** ** Answering *)
Lemma descendants_answer (p : node -> outcome) cs :
  (forall c, In c cs -> graphics c = true -> p c <> None) -> forall acc, descendants p cs acc <> None.
Proof.
  induction cs as [|c cs IH]; intros H acc; cbn [descendants]; [discriminate|].
  assert (IH' := IH (fun c i => H c (or_intror i))). destruct (graphics c) eqn:G; [|apply IH'].
  specialize (H c (or_introl eq_refl) G). destruct (p c) as [[l|e]|]; [apply IH'|discriminate|congruence].
Qed.
Lemma common_fuel {A} (p : nat -> A -> Prop) (l : list A) : (forall f g a, (f <= g)%nat -> p f a -> p g a) ->
  (forall a, In a l -> exists f, p f a) -> exists f, forall a, In a l -> p f a.
Proof.
  intros M. induction l as [|a l IH]; intros H; [exists O; intros ? []|].
  destruct IH as [f F]; [intros b i; apply H; now right|]. destruct (H a (or_introl eq_refl)) as [g G].
  exists (Nat.max f g). intros b [->|i]; [apply (M g); [lia|exact G]|apply (M f); [lia|auto]].
Qed.
Lemma answers o at2 norm root n : Acc (fun b a => calls root a b) n ->
  exists f r, path_data f o at2 norm root n = Some r.
Proof.
  induction 1 as [n _ IH]. assert (C := class_cases n). destruct (class_of_node n) eqn:E;
    try (exists 1%nat; cbn [path_data]; rewrite E; eauto; fail).
  - (* group *)
    destruct (common_fuel (fun f c => graphics c = true -> path_data f o at2 norm root c <> None) (children n)) as [f F].
    + intros f g c L H G. specialize (H G). destruct (path_data f o at2 norm root c) as [r|] eqn:K; [|congruence].
      rewrite (path_data_le _ _ _ _ _ _ _ _ L K). discriminate.
    + intros c i. destruct (graphics c) eqn:G; [|exists O; discriminate].
      destruct (IH c) as (f & r & H); [apply calls_child; auto; now apply graphics_iff|].
      exists f. intros _. congruence.
    + exists (S f). cbn [path_data]. rewrite E.
      destruct (descendants (path_data f o at2 norm root) (children n) []) as [r|] eqn:D; [eauto|].
      exfalso. revert D. apply descendants_answer. exact F.
  - (* use *)
    destruct (instance_root root (self n)) as [[t|]|e] eqn:K.
    + destruct (graphics t) eqn:G.
      * destruct (instance_inv _ _ _ K) as (R1 & R2 & _).
        destruct (IH t) as (f & r & H); [apply calls_use; auto; now apply graphics_iff|].
        exists (S f). cbn [path_data]. rewrite E, K, G, H. eauto.
      * exists 1%nat. cbn [path_data]. rewrite E, K, G. eauto.
    + exists 1%nat. cbn [path_data]. rewrite E, K. eauto.
    + exists 1%nat. cbn [path_data]. rewrite E, K. eauto.
Qed.

Lemma descendants_pre (p : node -> outcome) cs c post : graphics c = true -> p c = None ->
  (forall b, In b cs -> graphics b = true -> p b = None \/ exists l, p b = Some (Ok l)) ->
  forall acc, descendants p (cs ++ c :: post) acc = None.
Proof.
  intros G E. induction cs as [|b cs IH]; intros H acc; cbn [app descendants].
  - rewrite G, E. reflexivity.
  - assert (IH' := IH (fun b i => H b (or_intror i))). destruct (graphics b) eqn:Gb; [|apply IH'].
    destruct (H b (or_introl eq_refl) Gb) as [->|[l ->]]; [reflexivity|apply IH'].
Qed.
Lemma waits_step o at2 norm root n m f : waits o at2 norm root n m ->
  path_data f o at2 norm root m = None -> path_data (S f) o at2 norm root n = None.
Proof.
  intros [n' b c a Gr Ec Gc Hb|n' t R1 R2 R3 R4] H; cbn [path_data].
  - rewrite (class_group _ Gr), Ec. apply descendants_pre; auto; [now apply graphics_iff|].
    intros x i Gx. apply graphics_iff in Gx. destruct (Hb x i Gx) as (g & l & K).
    destruct (path_data f o at2 norm root x) as [r|] eqn:D; [|now left]. right.
    exists l. f_equal. eapply path_data_det; eassumption.
  - rewrite (class_use _ R1), (instance_some _ _ _ R2 R3). apply graphics_iff in R4. rewrite R4, H. reflexivity.
Qed.
