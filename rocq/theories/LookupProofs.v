(** Proofs about finding elements and their text. *)
From Coq Require Import Sorted.
From Verif Require Import PyBase PyText PyDict PySplit LookupModel LookupSpec.
#[local] Open Scope N_scope.

(** ** Trees *)
Fixpoint xnode_rect' (P : xnode -> Prop) (O : P XOther) (E : forall nm a t kids, Forall (fun ct => P (fst ct)) kids -> P (XElem nm a t kids)) (n : xnode) : P n :=
  match n with
  | XOther => O
  | XElem nm a t kids => E nm a t kids ((fix go ks : Forall (fun ct => P (fst ct)) ks := match ks with [] => Forall_nil _ | ct :: r => Forall_cons ct (xnode_rect' P O E (fst ct)) (go r) end) kids)
  end.
Fixpoint walk_kids (p : path) (i : nat) (ks : list (xnode * option text)) : list (path * xnode) :=
  match ks with [] => [] | (c, _) :: r => walk (p ++ [i]) c ++ walk_kids p (S i) r end.
Lemma walk_elem p nm a t kids : walk p (XElem nm a t kids) = (p, XElem nm a t kids) :: walk_kids p O kids.
Proof. cbn [walk]. f_equal. generalize O. induction kids as [|[c x] r IH]; intros i; [reflexivity|]. cbn [walk_kids]. now rewrite IH. Qed.

Lemma walk_in n : forall p q x, In (q, x) (walk p n) <-> exists r, q = p ++ r /\ at_path n r = Some x /\ is_elem x.
Proof.
  induction n as [|nm a t kids IH] using xnode_rect'; intros p q x.
  - cbn. split; [intros []|]. intros ([|i r] & _ & H & E); cbn in H; [injection H as <-; exact E|discriminate].
  - rewrite walk_elem. assert (K : forall ks i, Forall (fun ct => forall p q x, In (q, x) (walk p (fst ct)) <-> exists r, q = p ++ r /\ at_path (fst ct) r = Some x /\ is_elem x) ks ->
      (In (q, x) (walk_kids p i ks) <-> exists j c tl r, nth_error ks j = Some (c, tl) /\ q = p ++ (i + j)%nat :: r /\ at_path c r = Some x /\ is_elem x)).
    { clear. induction ks as [|[c tl] ks IH]; intros i F; cbn [walk_kids]; [split; [intros []|intros ([|j] & c & tl & r & H & _); discriminate]|].
      inversion_clear F as [|? ? F1 F2]. rewrite in_app_iff. rewrite (F1 (p ++ [i]) q x). rewrite (IH (S i) F2). cbn [fst]. split.
      - intros [(r & -> & A & B)|(j & c' & tl' & r & N & -> & A & B)].
        + exists O, c, tl, r. rewrite Nat.add_0_r, <- app_assoc. now repeat split.
        + exists (S j), c', tl', r. rewrite <- plus_n_Sm. now repeat split.
      - intros ([|j] & c' & tl' & r & N & -> & A & B).
        + injection N as <- <-. left. exists r. rewrite Nat.add_0_r, <- app_assoc. now repeat split.
        + right. exists j, c', tl', r. rewrite <- plus_n_Sm. now repeat split. }
    cbn [In]. rewrite (K kids O IH). split.
    + intros [[= <- <-]|(j & c & tl & r & N & -> & A & B)].
      * exists []. rewrite app_nil_r. now repeat split.
      * exists (j :: r). cbn [at_path]. rewrite N. now repeat split.
    + intros ([|j r] & -> & A & B).
      * left. cbn in A. injection A as <-. now rewrite app_nil_r.
      * right. cbn [at_path] in A. destruct (nth_error kids j) as [[c tl]|] eqn:N; [|discriminate]. exists j, c, tl, r. now repeat split.
Qed.

(** ** Order *)
Lemma before_app p q r : doc_before q r -> doc_before (p ++ q) (p ++ r).
Proof. intros H. induction p as [|i p IH]; [exact H|]. right. now split. Qed.
Lemma before_nil q r : q <> [] -> doc_before r (r ++ q).
Proof. intros H. induction r as [|i r IH]; cbn; [destruct q; [contradiction|exact I]|right; now split]. Qed.
Lemma sorted_app {A} (R : A -> A -> Prop) l m : StronglySorted R l -> StronglySorted R m -> (forall x y, In x l -> In y m -> R x y) -> StronglySorted R (l ++ m).
Proof.
  induction 1 as [|x l S IH F]; intros M H; [exact M|]. cbn. constructor; [apply IH; [exact M|intros a b Ia Ib; apply H; [now right|exact Ib]]|].
  apply Forall_app. split; [exact F|]. apply Forall_forall. intros y Y. apply H; [now left|exact Y].
Qed.
Lemma sorted_map {A B} (f : A -> B) R l : StronglySorted R (map f l) <-> StronglySorted (fun x y => R (f x) (f y)) l.
Proof.
  induction l as [|x l IH]; cbn; [split; constructor|]. split; intros H; inversion_clear H; constructor; try apply IH; try assumption; now apply Forall_map.
Qed.
Lemma sorted_filter {A} (R : A -> A -> Prop) f l : StronglySorted R l -> StronglySorted R (filter f l).
Proof.
  induction 1 as [|x l S IH F]; [constructor|]. cbn. destruct (f x); [|exact IH]. constructor; [exact IH|]. apply Forall_forall. intros y Y. apply filter_In in Y as [Y _]. rewrite Forall_forall in F. now apply F.
Qed.
Lemma walk_kids_in p ks : forall i q x, In (q, x) (walk_kids p i ks) -> exists j r, (i <= j)%nat /\ q = p ++ j :: r.
Proof.
  induction ks as [|[c tl] ks IH]; intros i q x H; [destruct H|]. cbn in H. apply in_app_iff in H as [H|H].
  - apply walk_in in H as (r & -> & _). exists i, r. rewrite <- app_assoc. split; [lia|reflexivity].
  - destruct (IH _ _ _ H) as (j & r & L & ->). exists j, r. split; [lia|reflexivity].
Qed.
Lemma walk_sorted n : forall p, StronglySorted (fun a b => doc_before (fst a) (fst b)) (walk p n).
Proof.
  induction n as [|nm a t kids IH] using xnode_rect'; intros p; [constructor|]. rewrite walk_elem.
  assert (K : forall ks i, Forall (fun ct => forall p, StronglySorted (fun a b => doc_before (fst a) (fst b)) (walk p (fst ct))) ks -> StronglySorted (fun a b => doc_before (fst a) (fst b)) (walk_kids p i ks)).
  { clear. induction ks as [|[c tl] ks IH]; intros i F; [constructor|]. inversion_clear F as [|? ? F1 F2]. cbn [walk_kids]. apply sorted_app; [apply F1|now apply IH|].
    intros [q x] [q' x'] A B. apply walk_in in A as (r & -> & _). apply walk_kids_in in B as (j & r' & L & ->). cbn [fst]. rewrite <- app_assoc. apply before_app. left. lia. }
  constructor; [now apply K|]. apply Forall_forall. intros [q x] H. apply walk_kids_in in H as (j & r & _ & ->). cbn [fst]. now apply before_nil.
Qed.

Lemma before_irrefl p : ~ doc_before p p.
Proof. induction p as [|i p IH]; [intros []|]. intros [H|[_ H]]; [lia|contradiction]. Qed.
Lemma select_lists s n f P : (forall x, is_elem x -> (f x = true <-> P x)) -> lists s n P (select s f n).
Proof.
  intros E. unfold lists, select. assert (S : StronglySorted (fun a b => doc_before (fst a) (fst b)) (axis s n)).
  { unfold axis. destruct s; [apply walk_sorted|]. pose proof (walk_sorted n []) as W. destruct (walk [] n); [constructor|]. now inversion W. }
  split; [apply sorted_map; now apply sorted_filter|]. intros p. rewrite in_map_iff.
  assert (A : forall x, In (p, x) (axis s n) <-> at_path n p = Some x /\ is_elem x /\ (s = false -> p <> [])).
  { intros x. unfold axis. destruct s.
    - rewrite walk_in. split; [intros (r & -> & H & I); now repeat split|]. intros (H & I & _). now exists p.
    - destruct n as [nm a t kids|].
      + rewrite walk_elem. cbn [tl]. split.
        * intros H. assert (W : In (p, x) (walk [] (XElem nm a t kids))) by (rewrite walk_elem; now right). apply walk_in in W as (r & E0 & Q & I). cbn in E0. subst r. split; [exact Q|]. split; [exact I|]. apply walk_kids_in in H as (j & r' & _ & ->). discriminate.
        * intros (H & I & J). assert (W : In (p, x) (walk [] (XElem nm a t kids))) by (apply walk_in; now exists p). rewrite walk_elem in W. destruct W as [[= <- _]|W]; [now destruct J|exact W].
      + cbn. split; [intros []|]. intros (H & I & _). destruct p; cbn in H; [injection H as <-; exact I|discriminate]. }
  split.
  - intros ([q x] & <- & H). apply filter_In in H as [H F]. cbn [fst snd] in *. apply A in H as (Q & I & J). exists x. repeat split; auto. now apply E.
  - intros (x & Q & I & J & H). exists (p, x). split; [reflexivity|]. apply filter_In. split; [now apply A|]. cbn [snd]. now apply E.
Qed.
Lemma lists_unique s n P l m : lists s n P l -> lists s n P m -> l = m.
Proof.
  intros [SL HL] [SM HM]. assert (Q : forall p, In p l <-> In p m) by (intros p; now rewrite HL, HM). clear HL HM. revert m SM Q.
  assert (AS : forall p q, doc_before p q -> doc_before q p -> False).
  { induction p as [|i p IH]; intros [|j q]; cbn; try tauto. intros [A|[-> A]] [B|[B' B]]; try lia. now apply (IH q). }
  induction SL as [|x l S IH F]; intros m SM Q.
  - destruct m as [|y m]; [reflexivity|]. exfalso. apply (Q y). now left.
  - destruct SM as [|y m SM G]; [exfalso; apply (Q x); now left|]. assert (x = y) as ->.
    { assert (X : In x (y :: m)) by (apply Q; now left). assert (Y : In y (x :: l)) by (apply Q; now left). destruct X as [X|X]; [now symmetry|]. destruct Y as [Y|Y]; [exact Y|]. rewrite Forall_forall in F, G. destruct (AS x y (F y Y) (G x X)). }
    f_equal. apply IH; [exact SM|]. intros p. rewrite Forall_forall in F, G. split; intros H.
    + assert (Z : In p (y :: m)) by (apply Q; now right). destruct Z as [<-|Z]; [destruct (before_irrefl y); now apply F|exact Z].
    + assert (Z : In p (y :: l)) by (apply Q; now right). destruct Z as [<-|Z]; [destruct (before_irrefl y); now apply G|exact Z].
Qed.

(** ** Names *)
Lemma qname_iff x q : is_elem x -> (text_eqb (qname_of x) q = true <-> named q x).
Proof.
  destruct x as [nm a t k|]; [intros _|intros []]. unfold named. cbn [qname_of]. split.
  - destruct (text_eqb_spec (match x_prefix nm with Some p => p ++ lit ":" ++ x_local nm | None => x_local nm end) q) as [<-|]; [intros _|discriminate]. exists nm, a, t, k. split; [reflexivity|]. now destruct (x_prefix nm).
  - intros (nm' & a' & t' & k' & [= <- <- <- <-] & H). destruct (x_prefix nm); rewrite H; apply text_eqb_refl.
Qed.
Lemma local_iff x q : is_elem x -> (text_eqb (local_of x) q = true <-> local_named q x).
Proof.
  destruct x as [nm a t k|]; [intros _|intros []]. unfold local_named. cbn [local_of]. split.
  - destruct (text_eqb_spec (x_local nm) q) as [<-|]; [intros _|discriminate]. now exists nm, a, t, k.
  - intros (nm' & a' & t' & k' & [= <- <- <- <-] & <-). apply text_eqb_refl.
Qed.
Lemma ns_iff x u : is_elem x -> (text_eqb (ns_of x) u = true <-> in_ns u x).
Proof.
  destruct x as [nm a t k|]; [intros _|intros []]. unfold in_ns. cbn [ns_of]. split.
  - intros H. exists nm, a, t, k. split; [reflexivity|]. destruct (x_ns nm) as [v|].
    + destruct (text_eqb_spec v u) as [E0|]; [left; now rewrite E0|discriminate].
    + destruct (text_eqb_spec [] u) as [E0|]; [right; now split|discriminate].
  - intros (nm' & a' & t' & k' & [= <- <- <- <-] & [-> | [-> ->]]); [apply text_eqb_refl|reflexivity].
Qed.
Lemma text_eqb_iff a b : text_eqb a b = true <-> a = b.
Proof. destruct (text_eqb_spec a b); split; try discriminate; try contradiction; auto. Qed.

(** ** Class names *)
Definition spacebar (c : N) : bool := c =? 32.
Lemma pattern_plain w : plain_name w -> exists ps, pattern_of w = Ok ps /\ forall s r, after ps s = Some r <-> s = w ++ r.
Proof.
  induction w as [|c w IH]; intros P.
  - exists []. split; [reflexivity|]. intros s r. cbn. split; [now intros [= ->]|now intros ->].
  - destruct IH as (ps & E & H); [intros x X; apply P; now right|]. destruct (P c (or_introl eq_refl)) as [Q1 Q2]. exists (N.eqb c :: ps). split.
    + cbn [pattern_of]. assert (S : special c = false).
      { unfold special. apply not_true_is_false. intros X. apply existsb_exists in X as (y & Y & Z). apply N.eqb_eq in Z as <-. apply in_app_iff in Y as [Y|[Y|[]]]; [|now symmetry in Y]. apply Q1. cbn in Y |- *. tauto. }
      rewrite S, E. cbn. unfold char_pattern. destruct (N.eqb_spec c 46) as [->|]; [exfalso; apply Q1; cbn; tauto|reflexivity].
    + intros [|d s] r; cbn [after app]; [split; discriminate|]. destruct (N.eqb_spec c d) as [<-|N]; [rewrite H; split; [now intros ->|now intros [= ->]]|]. split; [discriminate|]. intros [= <- _]. contradiction.
Qed.
Lemma patterns_plain ws : Forall plain_name ws -> exists pss, patterns_of ws = Ok pss /\ Forall2 (fun w ps => forall s r, after ps s = Some r <-> s = w ++ r) ws pss.
Proof.
  induction 1 as [|w ws P _ IH]; [exists []; now split|]. destruct IH as (pss & E & F), (pattern_plain w P) as (ps & E' & H). exists (ps :: pss). cbn. rewrite E', E. split; [reflexivity|now constructor].
Qed.
(* the words of a text whose white space is spaces *)
Lemma split_acc_in w : clean w = true -> forall s acc, (forall c, In c s -> is_space c = true -> c = 32) -> forallb (fun c => negb (is_space c)) acc = true ->
  (In w (split_acc acc s) <-> (exists u r, w = acc ++ u /\ s = u ++ r /\ (r = [] \/ exists r', r = 32 :: r')) \/ (exists a r, s = a ++ 32 :: w ++ r /\ (r = [] \/ exists r', r = 32 :: r'))).
Proof.
  intros W. destruct (clean_forallb w W) as [WF WN]. induction s as [|c s IH]; intros acc O A.
  - cbn [split_acc]. assert (F : In w (flush acc) <-> w = acc) by (destruct acc; cbn; [split; [tauto|intros ->; contradiction]|split; [intros [H|[]]; now symmetry|intros ->; now left]]). rewrite F. split.
    + intros ->. left. exists [], []. rewrite app_nil_r. split; [reflexivity|]. split; [reflexivity|now left].
    + intros [(u & r & -> & E & _)|(a & r & E & _)]; [|now destruct a]. symmetry in E. apply app_eq_nil in E as [-> _]. now rewrite app_nil_r.
  - cbn [split_acc]. destruct (is_space c) eqn:SC.
    + assert (c = 32) as -> by (apply O; [now left|exact SC]). rewrite in_app_iff. rewrite (IH []); [|intros x X; apply O; now right|reflexivity].
      assert (F : In w (flush acc) <-> w = acc) by (destruct acc; cbn; [split; [tauto|intros ->; contradiction]|split; [intros [H|[]]; now symmetry|intros ->; now left]]). rewrite F. split.
      * intros [->|[(u & r & E & -> & R)|(a & r & -> & R)]].
        -- left. exists [], (32 :: s). rewrite app_nil_r. split; [reflexivity|]. split; [reflexivity|right; now exists s].
        -- right. exists [], r. cbn in E. subst u. now split.
        -- right. exists (32 :: a), r. now split.
      * intros [(u & r & -> & E & R)|(a & r & E & R)].
        -- destruct u as [|x u]; [left; now rewrite app_nil_r|]. injection E as <- _. rewrite forallb_app in WF. apply andb_true_iff in WF as [_ WF]. cbn in WF. discriminate.
        -- right. destruct a as [|x a]; [injection E as ->; left; exists w, r; now repeat split|]. injection E as <- ->. right. exists a, r. now split.
    + rewrite (IH (acc ++ [c])); [|intros x X; apply O; now right|rewrite forallb_app, A; cbn; now rewrite SC]. split.
      * intros [(u & r & -> & -> & R)|(a & r & -> & R)]; [left; exists (c :: u), r; now rewrite <- app_assoc|right; exists (c :: a), r; now split].
      * intros [(u & r & -> & E & R)|(a & r & E & R)].
        -- destruct u as [|x u]; [destruct R as [->|(r' & ->)]; [discriminate|injection E as -> _; discriminate]|]. injection E as <- ->. left. exists u, r. now rewrite <- app_assoc.
        -- destruct a as [|x a]; [injection E as -> _; discriminate|]. injection E as <- ->. right. exists a, r. now split.
Qed.
Lemma ends_iff s : (forall c, In c s -> is_space c = true -> c = 32) -> (ends s = true <-> s = [] \/ exists r, s = 32 :: r).
Proof.
  intros O. destruct s as [|c s]; [split; [now left|reflexivity]|]. destruct (N.eqb_spec c 32) as [->|N].
  - split; [right; now exists s|]. intros _. reflexivity.
  - split; [|intros [H|(r & [= -> _])]; [discriminate|contradiction]]. intros H. exfalso. assert (X : c = 10 \/ c = 32) by (destruct c as [|q]; [discriminate|]; do 6 (try (destruct q as [q|q|]; try discriminate)); auto). destruct X as [->|]; [|contradiction].
    specialize (O 10 (or_introl eq_refl) eq_refl). discriminate.
Qed.
Lemma re_test_word w ps s : clean w = true -> (forall s r, after ps s = Some r <-> s = w ++ r) -> (forall c, In c s -> is_space c = true -> c = 32) ->
  (re_test ps s = true <-> In w (split_ws s)).
Proof.
  intros W P O. unfold split_ws. rewrite (split_acc_in w W s [] O eq_refl). unfold re_test. rewrite orb_true_iff.
  assert (Hh : forall s, (forall c, In c s -> is_space c = true -> c = 32) -> (here ps s = true <-> exists r, s = w ++ r /\ (r = [] \/ exists r', r = 32 :: r'))).
  { intros t T. unfold here. destruct (after ps t) as [r|] eqn:E.
    - apply P in E as ->. rewrite ends_iff by (intros c C; apply T; apply in_app_iff; now right). split; [intros H; now exists r|]. intros (r' & E & H). apply app_inv_head in E as ->. exact H.
    - split; [discriminate|]. intros (r & E' & _). apply P in E'. congruence. }
  rewrite (Hh s O). assert (L : later ps s = true <-> exists a r, s = a ++ 32 :: w ++ r /\ (r = [] \/ exists r', r = 32 :: r')).
  { clear - Hh O. induction s as [|c s IH]; [cbn; split; [discriminate|intros ([|] & r & H & _); discriminate]|]. cbn [later]. rewrite orb_true_iff, andb_true_iff.
    rewrite IH by (intros x X; apply O; now right). rewrite (Hh s) by (intros x X; apply O; now right). split.
    - intros [[C (r & -> & R)]|(a & r & -> & R)]; [apply N.eqb_eq in C as ->; exists [], r; now split|exists (c :: a), r; now split].
    - intros ([|x a] & r & E & R); [injection E as -> ->; left; split; [reflexivity|now exists r]|injection E as -> ->; right; exists a, r; now split]. }
  rewrite L. split.
  - intros [(r & -> & R)|H]; [left; exists w, r; now repeat split|now right].
  - intros [(u & r & E & -> & R)|H]; [left; cbn in E; subst u; now exists r|now right].
Qed.

(** ** Text *)
Fixpoint chars_kids (ks : list (xnode * option text)) : text :=
  match ks with
  | [] => []
  | (c, tail) :: r =>
      (match c with
       | XOther => []
       | XElem nm _ _ _ => if mem (x_local nm) text_elements then chars_of c ++ (if mem (x_local nm) text_children then dflt_text tail else []) else []
       end) ++ chars_kids r
  end.
Lemma chars_elem nm a t kids : chars_of (XElem nm a t kids) = dflt_text t ++ chars_kids kids.
Proof. reflexivity. Qed.
Lemma chars_pruned n : chars_of n = all_text (pruned n).
Proof.
  induction n as [|nm a t kids IH] using xnode_rect'; [reflexivity|]. rewrite chars_elem. cbn [pruned all_text]. f_equal.
  induction IH as [|[c tail] ks H _ IHk]; [reflexivity|]. cbn [chars_kids flat_map]. rewrite flat_map_app. refine (f_equal2 (@app N) _ IHk). cbn [fst snd] in *. unfold counted. cbn [fst].
  destruct c as [nm' a' t' k'|]; [|reflexivity]. unfold mem, text_elements, text_children. cbn [existsb]. destruct (text_eqb_spec (x_local nm') (lit "text")) as [E|N].
  - cbn [orb]. rewrite H. cbn [flat_map]. rewrite app_nil_r. unfold cut_tail. cbn [pruned fst]. rewrite E. cbn. reflexivity.
  - cbn [orb]. destruct (text_eqb_spec (x_local nm') (lit "tspan")) as [E|N']; [|reflexivity]. cbn [orb]. rewrite H. cbn [flat_map]. rewrite app_nil_r. unfold cut_tail. cbn [pruned fst]. rewrite E. cbn. reflexivity.
Qed.
Lemma pruned_spans n : spans n -> pruned n = n.
Proof.
  induction n as [|nm a t kids IH] using xnode_rect'; intros S; [reflexivity|]. inversion_clear S as [? ? ? ? F]. cbn [pruned]. f_equal.
  induction IH as [|[c tail] ks H _ IHk]; [reflexivity|]. inversion_clear F as [|? ? [(nm' & a' & t' & k' & E & L) S] F']. cbn [fst] in *. subst c. cbn [flat_map fst snd]. rewrite (IHk F'), (H S). unfold counted, cut_tail. cbn [fst]. rewrite L. reflexivity.
Qed.
