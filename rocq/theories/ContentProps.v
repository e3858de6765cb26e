(** C22: adding to and removing from the content of an element. *)
From Verif Require Import PyBase PyText ContentModel ContentSpec ContentProofs ContentProofs2 ContentProofs3.
From Coq Require Import Lia.

Definition sam : elem := mkEl (lit "ab") [(1%nat, lit "cd"); (2%nat, [])] (fun n => if Nat.eqb n 7 then lit "t" else []).

(** append: when the element has no child yet or the arguments begin with a
    node, the content is the old content (less the nodes that are moved)
    followed by the arguments.  Missing: an element with children and text
    before the first node, for which the claim is false (below). *)
Theorem c22_append_partial : forall s l, wf s -> NoDup (nodes l) ->
  leading_text l = [] \/ keep (nodes l) (kids s) = [] ->
  content (append s l) =
  content (mkEl (etext s) (keep (nodes l) (kids s)) (loose s)) ++ args_items (tail_of s) l.
Proof.
  intros s l Hw Hn H. unfold append. rewrite (append_loop_none l s [] Hw Hn). unfold content. cbn [etext kids app].
  assert (G : args_items (tail_of s) l = chars (leading_text l) ++ args_items (tail_of s) (after_leading l)).
  { clear. induction l as [|[t|n] l IH]; [reflexivity| |reflexivity].
    cbn [leading_text after_leading]. rewrite chars_app, <- app_assoc, <- IH. reflexivity. }
  rewrite G, chars_app. destruct H as [H|H]; rewrite H; cbn; rewrite ?app_nil_r, <- ?app_assoc; reflexivity.
Qed.
Print Assumptions c22_append_partial.
Example c22_append_case :
  wf sam /\ NoDup (nodes [ANode 7; AText (lit "x"); ANode 1]) /\ leading_text [ANode 7; AText (lit "x"); ANode 1] = [] /\
  content (append sam [ANode 7; AText (lit "x"); ANode 1]) =
  chars (lit "ab") ++ [Nd 2; Nd 7] ++ chars (lit "tx") ++ [Nd 1] ++ chars (lit "cd").
Proof.
  split; [repeat constructor; cbn; intuition congruence|].
  split; [repeat constructor; cbn; intuition congruence|]. split; reflexivity.
Qed.

(** append of nodes only puts them last, in order, for every element. *)
Theorem c22_append_nodes : forall s ns, wf s -> NoDup ns ->
  content (append s (map ANode ns)) =
  content (mkEl (etext s) (keep ns (kids s)) (loose s)) ++ flat_map (fun n => Nd n :: chars (tail_of s n)) ns.
Proof.
  intros s ns Hw Hn. assert (E : nodes (map ANode ns) = ns) by (clear; induction ns; cbn; [reflexivity|f_equal; assumption]).
  rewrite c22_append_partial; rewrite ?E; try assumption.
  - f_equal. clear. unfold args_items. induction ns as [|n ns IH]; cbn; [reflexivity|]. rewrite IH. reflexivity.
  - left. destruct ns; reflexivity.
Qed.
Print Assumptions c22_append_nodes.

(** append with text before the first node: the text goes before the
    element's children instead of after them. *)
Theorem c22_append_leading : forall s l, wf s -> NoDup (nodes l) ->
  content (append s l) =
  chars (etext s ++ leading_text l) ++ kids_items (keep (nodes l) (kids s)) ++ args_items (tail_of s) (after_leading l).
Proof. intros s l Hw Hn. exact (append_loop_none l s [] Hw Hn). Qed.
Print Assumptions c22_append_leading.
Theorem c22_append_refuted : exists s l, wf s /\ nodes l = [] /\
  content (append s l) <> content s ++ args_items (tail_of s) l.
Proof.
  exists sam, [AText (lit "x")]. split; [repeat constructor; cbn; intuition congruence|].
  split; [reflexivity|]. vm_compute. discriminate.
Qed.
Print Assumptions c22_append_refuted.

(** prepend on an element whose first child is not one of the nodes: the
    texts given first, then every node with the texts given after it and the
    text that followed it before, then the old text and the children that are
    left.  Nodes may have tails and may be children already. *)
Theorem c22_prepend : forall s l c t K, kids s = (c, t) :: K -> wf s -> NoDup (nodes l) -> ~ In c (nodes l) ->
  content (prepend s l) =
  chars (leading_text l) ++ groups (tail_of s) l ++ chars (etext s) ++ kids_items (keep (nodes l) (kids s)).
Proof. exact prepend_before. Qed.
Print Assumptions c22_prepend.
Definition sam3 : elem := mkEl (lit "a") [(1, lit "b"); (2, lit "c"); (3, lit "d")]%nat (fun n => if Nat.eqb n 9 then lit "q" else []).
Example c22_prepend_exact_case : ~ In 1%nat (nodes [AText (lit "x"); ANode 3; ANode 9; AText (lit "y"); AText (lit "z")]) /\
  content (prepend sam3 [AText (lit "x"); ANode 3; ANode 9; AText (lit "y"); AText (lit "z")]) =
  chars (lit "x") ++ [Nd 3] ++ chars (lit "d") ++ [Nd 9] ++ chars (lit "yzqa") ++ [Nd 1] ++ chars (lit "b") ++ [Nd 2] ++ chars (lit "c").
Proof. split; [cbn; intuition discriminate|reflexivity]. Qed.

(** Several nodes on an element without children: the first one ends up after
    all the others and after the old text. *)
Theorem c22_prepend_empty : forall s pre n l, kids s = [] -> nodes pre = [] -> NoDup (n :: nodes l) -> nodes l <> [] ->
  content (prepend s (pre ++ ANode n :: l)) =
  chars (leading_text pre) ++ groups (tail_of s) l ++ chars (etext s) ++ Nd n :: chars (leading_text l) ++ chars (tail_of s n).
Proof. exact prepend_into_empty. Qed.
Print Assumptions c22_prepend_empty.
Example c22_prepend_empty_case :
  content (prepend (mkEl (lit "t") [] (fun n => if Nat.eqb n 1 then lit "q" else []))
    [AText (lit "x"); ANode 1; AText (lit "y"); ANode 2; AText (lit "z"); ANode 3]) =
  chars (lit "x") ++ [Nd 2] ++ chars (lit "z") ++ [Nd 3] ++ chars (lit "t") ++ [Nd 1] ++ chars (lit "yq").
Proof. reflexivity. Qed.

(** prepend in the order of its arguments: on an element that has a child
    that is not one of the nodes as its first, or without children and with
    at most one new node; and no text is given straight after a node that has
    a tail.  Missing: the other cases, for which it is false (below). *)
Theorem c22_prepend_partial : forall s l, wf s -> NoDup (nodes l) ->
  match kids s with
  | [] => (length (nodes l) <= 1)%nat /\ (forall n, In n (nodes l) -> loose s n = [])
  | (c, _) :: _ => ~ In c (nodes l) /\
      (forall a n b, l = a ++ ANode n :: b -> leading_text b = [] \/ tail_of s n = [])
  end ->
  content (prepend s l) = args_items (tail_of s) l ++ chars (etext s) ++ kids_items (keep (nodes l) (kids s)).
Proof.
  intros s l Hw Hn H. destruct (kids s) as [|[c t] K] eqn:E.
  - destruct H as [H1 H2]. rewrite prepend_empty; [|exact E|exact H1|].
    + unfold content. rewrite E. reflexivity.
    + intros m Hm. split; [rewrite E; reflexivity|apply H2; exact Hm].
  - destruct H as [H1 H2]. rewrite (prepend_before s l c t K E Hw Hn H1). rewrite app_assoc.
    rewrite groups_plain by exact H2. rewrite E. reflexivity.
Qed.
Print Assumptions c22_prepend_partial.
Example c22_prepend_case :
  content (prepend sam3 [AText (lit "x"); ANode 8; AText (lit "y"); ANode 3; ANode 2]) =
  chars (lit "x") ++ [Nd 8] ++ chars (lit "y") ++ [Nd 3] ++ chars (lit "d") ++ [Nd 2] ++ chars (lit "ca") ++ [Nd 1] ++ chars (lit "b").
Proof. reflexivity. Qed.
Theorem c22_prepend_tail_refuted : exists s l c t K, kids s = (c, t) :: K /\ wf s /\ NoDup (nodes l) /\ ~ In c (nodes l) /\
  content (prepend s l) <> args_items (tail_of s) l ++ chars (etext s) ++ kids_items (keep (nodes l) (kids s)).
Proof.
  exists sam3, [ANode 9; AText (lit "x")], 1%nat, (lit "b"), [(2, lit "c"); (3, lit "d")]%nat.
  split; [reflexivity|]. split; [repeat constructor; cbn; intuition discriminate|].
  split; [repeat constructor; intros []|]. split; [cbn; intuition discriminate|]. vm_compute. discriminate.
Qed.
Print Assumptions c22_prepend_tail_refuted.
Theorem c22_prepend_first_refuted : exists s l c t K, kids s = (c, t) :: K /\ wf s /\ NoDup (nodes l) /\
  (forall n, In n (nodes l) -> tail_of s n = []) /\
  content (prepend s l) <> args_items (tail_of s) l ++ chars (etext s) ++ kids_items (keep (nodes l) (kids s)).
Proof.
  exists (mkEl [] [(1, []); (2, [])]%nat (fun _ => [])), [ANode 1; ANode 2], 1%nat, [], [(2%nat, [])].
  split; [reflexivity|]. split; [repeat constructor; cbn; intuition discriminate|].
  split; [repeat constructor; cbn; intuition discriminate|]. split; [intros n [ <- |[ <- |[]]]; reflexivity|].
  vm_compute. discriminate.
Qed.
Print Assumptions c22_prepend_first_refuted.
Theorem c22_prepend_refuted : exists s l, wf s /\ (forall n, In n (nodes l) -> fresh s n) /\ NoDup (nodes l) /\
  content (prepend s l) <> args_items (tail_of s) l ++ content s.
Proof.
  exists (mkEl [] [] (fun _ => [])), [ANode 1; ANode 2; ANode 3].
  split; [constructor|]. split; [intros n _; split; reflexivity|].
  split; [repeat constructor; cbn; intuition congruence|]. vm_compute. discriminate.
Qed.
Print Assumptions c22_prepend_refuted.
Example c22_prepend_order :
  content (prepend (mkEl [] [] (fun _ => [])) [ANode 1; ANode 2; ANode 3]) = [Nd 2; Nd 3; Nd 1].
Proof. reflexivity. Qed.

(** insert_before puts the node, with its tail, just before the child; a
    child that is not one is reported and nothing changes; before itself is
    no change; None is at the end. *)
Theorem c22_insert_before : forall s n c, wf s -> is_kid c (kids s) = true -> c <> n ->
  exists a b s', insert_before s n (Some c) = Ok s' /\
    content (mkEl (etext s) (keep [n] (kids s)) (loose s)) = a ++ Nd c :: b /\
    content s' = a ++ (Nd n :: chars (tail_of s n)) ++ Nd c :: b.
Proof. exact insert_other. Qed.
Print Assumptions c22_insert_before.
Theorem c22_insert_before_self : forall s n, wf s -> is_kid n (kids s) = true ->
  exists s', insert_before s n (Some n) = Ok s' /\ content s' = content s.
Proof.
  intros s n Hw H. destruct (insert_same s n Hw H) as (s' & E & E1 & E2). exists s'. split; [exact E|].
  unfold content. rewrite E1, E2. reflexivity.
Qed.
Print Assumptions c22_insert_before_self.
Theorem c22_insert_before_missing : forall s n c, is_kid c (kids s) = false -> insert_before s n (Some c) = Err NotFoundError.
Proof. intros s n c H. unfold insert_before. rewrite H. reflexivity. Qed.
Print Assumptions c22_insert_before_missing.
Theorem c22_insert_before_end : forall s n, wf s ->
  exists s', insert_before s n None = Ok s' /\
  content s' = content (mkEl (etext s) (keep [n] (kids s)) (loose s)) ++ Nd n :: chars (tail_of s n).
Proof.
  intros s n Hw. eexists. split; [reflexivity|]. change [ANode n] with (map ANode [n]). rewrite (c22_append_nodes s [n] Hw).
  - cbn [flat_map]. rewrite app_nil_r. reflexivity.
  - repeat constructor. intros [].
Qed.
Print Assumptions c22_insert_before_end.
Example c22_insert_before_case :
  (exists s', insert_before sam 7 (Some 2%nat) = Ok s' /\
    content s' = chars (lit "ab") ++ [Nd 1] ++ chars (lit "cd") ++ [Nd 7] ++ chars (lit "t") ++ [Nd 2]) /\
  (exists s', insert_before sam 2 (Some 1%nat) = Ok s' /\
    content s' = chars (lit "ab") ++ [Nd 2; Nd 1] ++ chars (lit "cd")) /\
  insert_before sam 7 (Some 9%nat) = Err NotFoundError.
Proof. split; [eexists; split; reflexivity|]. split; [eexists; split; reflexivity|reflexivity]. Qed.

(** remove_child takes the node away together with the text that follows it
    (which DOM would leave); inserting it again before its old next sibling
    restores the element exactly. *)
Theorem c22_remove : forall s n, wf s -> is_kid n (kids s) = true ->
  exists a b s', remove_child s n = Ok s' /\
    content s = a ++ (Nd n :: chars (tail_of s n)) ++ b /\ content s' = a ++ b /\
    tail_of s' n = tail_of s n /\ is_kid n (kids s') = false.
Proof. exact remove_spec. Qed.
Print Assumptions c22_remove.
Theorem c22_remove_missing : forall s n, is_kid n (kids s) = false -> remove_child s n = Err NotFoundError.
Proof. intros s n H. unfold remove_child. rewrite H. reflexivity. Qed.
Print Assumptions c22_remove_missing.
Theorem c22_remove_restore : forall s n, wf s -> is_kid n (kids s) = true ->
  exists s1 s2, remove_child s n = Ok s1 /\ insert_before s1 n (next_of n (kids s)) = Ok s2 /\
    content s2 = content s.
Proof.
  intros s n Hw H. destruct (remove_insert s n Hw H) as (s1 & s2 & E1 & E2 & A & B).
  exists s1, s2. split; [exact E1|]. split; [exact E2|]. unfold content. rewrite A, B. reflexivity.
Qed.
Print Assumptions c22_remove_restore.
Theorem c22_remove_text_refuted : exists s n s', wf s /\ remove_child s n = Ok s' /\
  exists a b, content s = a ++ Nd n :: b /\ content s' <> a ++ b.
Proof.
  exists sam, 1%nat. eexists. split; [repeat constructor; cbn; intuition congruence|]. split; [reflexivity|].
  exists (chars (lit "ab")), (chars (lit "cd") ++ [Nd 2]). split; [reflexivity|]. vm_compute. discriminate.
Qed.
Print Assumptions c22_remove_text_refuted.

(** replace_child puts the new node and its tail where the old node and its
    tail were. *)
Theorem c22_replace : forall s old new, wf s -> is_kid old (kids s) = true -> old <> new ->
  exists a b s', replace_child s new old = Ok s' /\
    content (mkEl (etext s) (keep [new] (kids s)) (loose s)) = a ++ (Nd old :: chars (tail_of s old)) ++ b /\
    content s' = a ++ (Nd new :: chars (tail_of s new)) ++ b.
Proof. exact replace_spec. Qed.
Print Assumptions c22_replace.
Example c22_replace_case : exists s', replace_child sam 7 1 = Ok s' /\
  content s' = chars (lit "ab") ++ [Nd 7] ++ chars (lit "t") ++ [Nd 2].
Proof. eexists. split; reflexivity. Qed.

(** Putting in front, taking out and replacing leave the text after every node
    as it was, the node taken out included. *)
Theorem c22_tails : forall s, wf s ->
  (forall n s', remove_child s n = Ok s' -> forall x, tail_of s' x = tail_of s x)
  /\ (forall new old s', replace_child s new old = Ok s' -> forall x, tail_of s' x = tail_of s x).
Proof.
  intros s Hw. split.
  - intros n s' E x. unfold remove_child in E. destruct (is_kid n (kids s)) eqn:K; [|discriminate]. injection E as <-. unfold tail_of at 1, lx_remove. cbn [kids loose].
    destruct (Nat.eqb_spec x n) as [->|N]; [rewrite tail_out by (now apply drop_gone); reflexivity|]. rewrite kid_tail_drop by exact N. reflexivity.
  - intros new old s' E x. unfold replace_child in E. destruct (is_kid old (kids s)) eqn:K; [|discriminate]. injection E as <-. unfold lx_replace. destruct (Nat.eqb_spec old new) as [->|D]; [reflexivity|].
    unfold tail_of at 1. cbn [kids loose].
    assert (K2 : is_kid old (drop_kid new (kids s)) = true).
    { destruct (is_kid new (kids s)) eqn:F; [|apply is_kid_out in F; now rewrite drop_out]. apply kid_split in F as (a & t & b & F & Fa). rewrite F in *. rewrite drop_at by exact Fa. rewrite is_kid_in in *. rewrite map_app, in_app_iff in *. cbn in K. intuition congruence. }
    assert (ND := drop_nodup new (kids s) Hw). assert (G := drop_gone new (kids s) Hw). apply kid_split in K2 as (a & t & b & F & Fa). assert (NS := nodup_split old t a b ltac:(rewrite <- F; exact ND)).
    assert (T : forall y, y <> new -> kid_tail y (kids s) = kid_tail y (a ++ (old, t) :: b)) by (intros y Y; rewrite <- F; symmetry; now apply kid_tail_drop). rewrite F, put_at by exact Fa. rewrite F in G, ND. rewrite kid_tail_app. cbn [kid_tail].
    rewrite map_app, in_app_iff in G. cbn in G. destruct (Nat.eqb_spec new x) as [<-|N].
    + rewrite tail_out by tauto. reflexivity.
    + destruct (Nat.eqb_spec x old) as [->|O].
      * rewrite tail_out by exact Fa. rewrite map_app in ND. cbn in ND. apply NoDup_remove_2 in ND. rewrite in_app_iff in ND. rewrite tail_out by tauto. reflexivity.
      * unfold tail_of. rewrite T by congruence. rewrite kid_tail_app. cbn [kid_tail]. destruct (Nat.eqb_spec old x); [congruence|]. reflexivity.
Qed.
Print Assumptions c22_tails.
Example c22_tails_case : exists s', replace_child sam 7 1 = Ok s' /\ tail_of s' 1 = lit "cd" /\ tail_of s' 7 = lit "t".
Proof. eexists. split; [reflexivity|]. split; reflexivity. Qed.

(** No history of these operations makes a node a child twice. *)
Inductive cop : Type := CAppend (l : list arg) | CPrepend (l : list arg) | CInsert (n : nat) (c : option nat)
  | CRemove (n : nat) | CReplace (new old : nat).
Definition crun (s : elem) (o : cop) : elem :=
  let r := match o with
           | CAppend l => Ok (append s l) | CPrepend l => Ok (prepend s l)
           | CInsert n c => insert_before s n c | CRemove n => remove_child s n
           | CReplace new old => replace_child s new old end in
  match r with Ok s' => s' | Err _ => s end.
Theorem c22_no_duplicates : forall ops s, wf s -> wf (fold_left crun ops s).
Proof.
  induction ops as [|o ops IH]; intros s H; [exact H|]. cbn [fold_left]. apply IH. unfold crun. destruct o; cbv beta iota zeta.
  - apply append_wf. exact H.
  - apply prepend_wf. exact H.
  - unfold insert_before. destruct c as [c|]; [|apply append_wf; exact H].
    destruct (negb (is_kid c (kids s))); cbv beta iota; [exact H|].
    destruct (if Nat.eqb c n then next_of n (kids s) else Some c); [apply lx_addprevious_wf|apply append_wf]; exact H.
  - unfold remove_child. destruct (is_kid n (kids s)); [|exact H]. apply drop_nodup. exact H.
  - unfold replace_child. destruct (is_kid old (kids s)) eqn:E; [|exact H]. unfold lx_replace.
    destruct (Nat.eqb_spec old new) as [|D]; [exact H|]. unfold wf. cbn [kids].
    assert (G := drop_nodup new _ H). assert (G2 := drop_gone new _ H).
    destruct (is_kid old (drop_kid new (kids s))) eqn:E2.
    + apply kid_split in E2 as (a & t & b & E2 & Ha). rewrite E2 in *. rewrite put_at by exact Ha.
      destruct (nodup_split _ _ _ _ G) as (_ & _ & G3). rewrite map_app in *. cbn in *. apply NoDup_Add with (a := new) (l := map fst a ++ map fst b).
      * apply Add_app.
      * split; [exact G3|]. rewrite in_app_iff in *. cbn in G2. tauto.
    + assert (X : put_kid old (new, tail_of s new) (drop_kid new (kids s)) = drop_kid new (kids s)); [|rewrite X; exact G].
      apply is_kid_out in E2. clear -E2. induction (drop_kid new (kids s)) as [|[m t] l IH]; cbn in *; [reflexivity|].
      destruct (Nat.eqb_spec m old); [subst; tauto|]. rewrite IH by tauto. reflexivity.
Qed.
Print Assumptions c22_no_duplicates.
