(** Proofs about style texts, case-insensitive mappings and qualified names. *)
From Coq Require Import Permutation Sorted.
From Verif Require Import PyBase PyText PyStrip PySplit PyDict UtilsModel UtilsSpec.
#[local] Open Scope N_scope.

Lemma free_forallb c t : free c t <-> forallb (fun x => negb (c =? x)) t = true.
Proof.
  unfold free. rewrite forallb_forall. split.
  - intros H x I. apply negb_true_iff, N.eqb_neq. intros ->. exact (H I).
  - intros H I. specialize (H c I). rewrite N.eqb_refl in H. discriminate H.
Qed.
Lemma free_all c l : Forall (free c) l -> Forall (fun w => forallb (fun x => negb (c =? x)) w = true) l.
Proof. apply Forall_impl. intros a. apply free_forallb. Qed.
Lemma split_frees c t : Forall (free c) (split_on c t).
Proof. apply (Forall_impl _ (fun a H => proj2 (free_forallb c a) H)). apply split_on_free. Qed.
Lemma split_of_join c l : l <> [] -> Forall (free c) l -> split_on c (join [c] l) = l.
Proof. intros N F. apply split_on_join; [exact N|now apply free_all]. Qed.

(** ** Reading *)
Lemma two_parts_iff x k v : two_parts x = Some (k, v) <-> declares x k v.
Proof.
  unfold two_parts, declares. split.
  - intros H. assert (E := join_split_on 58 x). assert (F := split_frees 58 x).
    destruct (split_on 58 x) as [|a [|b [|? ?]]]; try discriminate H. injection H as <- <-.
    inversion F as [|? ? Fa F']; subst. inversion F' as [|? ? Fb ?]; subst. exists a, b. auto.
  - intros (a & b & -> & Fa & Fb & <- & <-). change (a ++ [58] ++ b) with (join [58] [a; b]).
    rewrite split_of_join; [reflexivity|discriminate|auto].
Qed.

Lemma split_prepend c u t : forallb (fun x => negb (c =? x)) u = true ->
  exists x l, split_on c t = x :: l /\ split_on c (u ++ t) = (u ++ x) :: l.
Proof.
  intros H. unfold split_on. rewrite split_on_word by exact H. cbn [app].
  assert (G : forall t w u, exists x l, split_on_acc (N.eqb c) w t = (w ++ x) :: l /\ split_on_acc (N.eqb c) (u ++ w) t = (u ++ w ++ x) :: l).
  { clear. induction t as [|d t IH]; intros w u; cbn [split_on_acc].
    - exists [], []. now rewrite !app_nil_r.
    - destruct (c =? d); [exists [], (split_on_acc (N.eqb c) [] t); now rewrite !app_nil_r|].
      destruct (IH (w ++ [d]) u) as (x & l & A & B). exists ([d] ++ x), l. rewrite !app_assoc in *. now split. }
  destruct (G t [] u) as (x & l & A & B). exists x, l. rewrite app_nil_r in B. now split.
Qed.
Lemma split_append c u t : forallb (fun x => negb (c =? x)) u = true ->
  exists l x, split_on c t = l ++ [x] /\ split_on c (t ++ u) = l ++ [x ++ u].
Proof.
  intros H. unfold split_on. generalize (@nil N) as w. induction t as [|d t IH]; intros w.
  - exists [], w. cbn [app split_on_acc]. split; [reflexivity|]. rewrite <- (app_nil_r u) at 1. rewrite split_on_word by exact H. reflexivity.
  - cbn [app split_on_acc]. destruct (c =? d); [|apply IH].
    destruct (IH []) as (l & x & A & B). exists (w :: l), x. rewrite A, B. now split.
Qed.
Definition has_pair (x : text) := two_parts x.
Lemma space_free c u : is_space c = false -> forallb is_space u = true -> forallb (fun x => negb (c =? x)) u = true.
Proof.
  intros E H. rewrite forallb_forall in *. intros x I. apply negb_true_iff, N.eqb_neq. intros ->. rewrite (H x I) in E. discriminate.
Qed.
Lemma two_parts_left u x : forallb is_space u = true -> two_parts (u ++ x) = two_parts x.
Proof.
  intros H. unfold two_parts. destruct (split_prepend 58 u x) as (a & l & -> & ->); [now apply space_free|].
  destruct l as [|b [|? ?]]; try reflexivity. now rewrite strip_left.
Qed.
Lemma two_parts_right u x : forallb is_space u = true -> two_parts (x ++ u) = two_parts x.
Proof.
  intros H. unfold two_parts. destruct (split_append 58 u x) as (l & a & -> & ->); [now apply space_free|].
  destruct l as [|b [|c [|? ?]]]; cbn [app]; try reflexivity. now rewrite strip_right.
Qed.
Lemma filter_some_app {A} (a b : list (option A)) : filter_some (a ++ b) = filter_some a ++ filter_some b.
Proof. induction a as [|[x|] a IH]; cbn; [reflexivity|now rewrite IH|exact IH]. Qed.
Lemma filter_some_in {A} (l : list (option A)) x : In x (filter_some l) <-> In (Some x) l.
Proof.
  induction l as [|[y|] l IH]; cbn; [tauto| |].
  - rewrite IH. split; (intros [E|E]; [left; congruence|now right]).
  - rewrite IH. split; [now right|]. intros [E|E]; [discriminate|exact E].
Qed.
Definition pairs (t : text) : list (text * text) := filter_some (map two_parts (split_on 59 t)).
Lemma pairs_left u t : forallb is_space u = true -> pairs (u ++ t) = pairs t.
Proof.
  intros H. unfold pairs. destruct (split_prepend 59 u t) as (a & l & -> & ->); [now apply space_free|].
  cbn [map]. now rewrite two_parts_left.
Qed.
Lemma pairs_right u t : forallb is_space u = true -> pairs (t ++ u) = pairs t.
Proof.
  intros H. unfold pairs. destruct (split_append 59 u t) as (l & a & -> & ->); [now apply space_free|].
  rewrite !map_app. cbn [map]. now rewrite two_parts_right.
Qed.
Lemma pairs_strip t : pairs (strip t) = pairs t.
Proof.
  unfold strip. destruct (rdropwhile_split is_space (dropwhile is_space t)) as (s & E & F).
  transitivity (pairs (dropwhile is_space t)).
  - rewrite E at 2. now rewrite pairs_right.
  - rewrite <- (take_drop is_space t) at 2. rewrite pairs_left; [reflexivity|apply takewhile_forall].
Qed.
Lemma style_pairs t : style_to_dict (Some t) = dict_of (pairs t).
Proof.
  unfold style_to_dict. rewrite <- pairs_strip. destruct (strip t); reflexivity.
Qed.

Lemma dict_of_snoc {V} (l : list (text * V)) p : dict_of (l ++ [p]) = dset (dict_of l) (fst p) (snd p).
Proof. unfold dict_of. now rewrite fold_left_app. Qed.
Lemma dict_of_ok {V} (l : list (text * V)) : dict_ok (dict_of l).
Proof.
  induction l as [|p l IH] using rev_ind; [constructor|]. rewrite dict_of_snoc. now apply dset_ok.
Qed.
Lemma dict_of_get {V} (l : list (text * V)) k v :
  dget (dict_of l) k = Some v <-> exists a b, l = a ++ (k, v) :: b /\ ~ In k (map fst b).
Proof.
  induction l as [|[k' v'] l IH] using rev_ind.
  - split; [discriminate|]. intros (a & b & E & _). destruct a; discriminate E.
  - rewrite dict_of_snoc. cbn [fst snd]. rewrite dget_dset. destruct (text_eqb_spec k' k) as [->|N].
    + split.
      * injection 1 as ->. exists l, []. split; [reflexivity|intros []].
      * intros (a & b & E & F). destruct b as [|q b] using rev_ind.
        -- apply app_inj_tail in E. destruct E as [_ E]. now injection E as ->.
        -- clear IHb. rewrite app_comm_cons, app_assoc in E. apply app_inj_tail in E. destruct E as [_ <-].
           exfalso. apply F. rewrite map_app. apply in_or_app. right. now left.
    + rewrite IH. split.
      * intros (a & b & -> & F). exists a, (b ++ [(k', v')]). split; [now rewrite <- app_assoc|].
        rewrite map_app. intros I. apply in_app_or in I. destruct I as [I|[I|[]]]; [exact (F I)|exact (N I)].
      * intros (a & b & E & F). destruct b as [|q b] using rev_ind.
        -- apply app_inj_tail in E. destruct E as [_ E]. congruence.
        -- clear IHb. rewrite app_comm_cons, app_assoc in E. apply app_inj_tail in E. destruct E as [-> <-].
           exists a, b. split; [reflexivity|]. intros I. apply F. rewrite map_app. apply in_or_app. now left.
Qed.
Lemma filter_some_split {A B} (f : A -> option B) (l : list A) a y b :
  filter_some (map f l) = a ++ y :: b -> exists l1 x l2, l = l1 ++ x :: l2 /\ f x = Some y /\ filter_some (map f l2) = b.
Proof.
  revert a. induction l as [|x l IH]; intros a E; [destruct a; discriminate E|].
  cbn [map filter_some] in E. destruct (f x) as [z|] eqn:Z.
  - destruct a as [|z' a].
    + injection E as -> <-. exists [], x, l. auto.
    + injection E as -> E. destruct (IH a E) as (l1 & x' & l2 & -> & P & Q). exists (x :: l1), x', l2. auto.
  - destruct (IH a E) as (l1 & x' & l2 & -> & P & Q). exists (x :: l1), x', l2. auto.
Qed.
Lemma read_iff t k v : dget (style_to_dict (Some t)) k = Some v <-> last_declared t k v.
Proof.
  rewrite style_pairs, dict_of_get. unfold last_declared. split.
  - intros (a & b & E & N). unfold pairs in E. apply filter_some_split in E. destruct E as (l1 & x & l2 & E & X & B).
    exists l1, x, l2. rewrite <- E. split; [symmetry; apply join_split_on|]. split; [apply split_frees|].
    split; [now apply two_parts_iff|]. intros y w I D. apply two_parts_iff in D. apply N. rewrite <- B.
    apply (in_map fst _ (k, w)). apply filter_some_in. rewrite <- D. now apply in_map.
  - intros (l1 & x & l2 & -> & F & D & L). unfold pairs. rewrite split_of_join; [|destruct l1; discriminate|exact F].
    rewrite map_app, filter_some_app. cbn [map]. apply two_parts_iff in D. rewrite D. cbn [filter_some].
    do 2 eexists. split; [reflexivity|]. intros I. apply in_map_iff in I. destruct I as ([k' w] & <- & I).
    apply filter_some_in, in_map_iff in I. destruct I as (y & Y & I). apply two_parts_iff in Y. exact (L y w I Y).
Qed.

(** ** Writing *)
Lemma leb_before a : forall b, text_leb a b = true <-> before a b.
Proof.
  induction a as [|c a IH]; intros b; [split; [constructor|reflexivity]|].
  destruct b as [|d b]; [split; [discriminate|inversion 1]|]. cbn. rewrite orb_true_iff, andb_true_iff, N.ltb_lt, N.eqb_eq, IH. split.
  - intros [H|[-> H]]; [now apply before_lt|now apply before_eq].
  - inversion 1; subst; auto.
Qed.
Lemma before_total a : forall b, before a b \/ before b a.
Proof.
  induction a as [|c a IH]; intros b; [left; constructor|]. destruct b as [|d b]; [right; constructor|].
  destruct (N.lt_trichotomy c d) as [H|[->|H]]; [left; now apply before_lt| |right; now apply before_lt].
  destruct (IH b); [left|right]; now apply before_eq.
Qed.
Lemma before_antisym a : forall b, before a b -> before b a -> a = b.
Proof.
  induction a as [|c a IH]; intros b A B; [inversion B; reflexivity|].
  inversion A; subst; inversion B; subst; try lia. f_equal. now apply IH.
Qed.
Lemma before_trans a : forall b c, before a b -> before b c -> before a c.
Proof.
  induction a as [|x a IH]; intros b c A B; [constructor|].
  inversion A; subst; inversion B; subst; try (apply before_lt; lia). apply before_eq. eapply IH; eassumption.
Qed.
Lemma insert_perm x l : Permutation (insert_text x l) (x :: l).
Proof.
  induction l as [|y l IH]; [reflexivity|]. cbn. destruct (text_leb x y); [reflexivity|].
  rewrite IH. apply perm_swap.
Qed.
Lemma sort_perm l : Permutation (sort_texts l) l.
Proof. induction l as [|x l IH]; [reflexivity|]. cbn. rewrite insert_perm. now constructor. Qed.
Lemma insert_sorted x l : StronglySorted before l -> StronglySorted before (insert_text x l).
Proof.
  induction 1 as [|y l S IH F]; [repeat constructor|]. cbn. destruct (text_leb x y) eqn:E.
  - apply leb_before in E. constructor; [now constructor|]. constructor; [exact E|].
    revert F. apply Forall_impl. intros z. now apply before_trans.
  - constructor; [exact IH|]. assert (B : before y x).
    { destruct (before_total x y) as [B|B]; [|exact B]. apply leb_before in B. congruence. }
    rewrite insert_perm. now constructor.
Qed.
Lemma sort_sorted l : StronglySorted before (sort_texts l).
Proof. induction l as [|x l IH]; [constructor|]. cbn. now apply insert_sorted. Qed.
Lemma sorted_unique a : forall b, StronglySorted before a -> StronglySorted before b -> Permutation a b -> a = b.
Proof.
  induction a as [|x a IH]; intros b A B P; [symmetry; now apply Permutation_nil|].
  destruct b as [|y b]; [apply Permutation_sym, Permutation_nil in P; discriminate|].
  inversion A as [|? ? SA FA]; subst. inversion B as [|? ? SB FB]; subst.
  assert (E : x = y).
  { apply before_antisym.
    - assert (I : In y (x :: a)) by (rewrite P; now left). destruct I as [->|I]; [|now apply (proj1 (Forall_forall _ _) FA)].
      destruct (before_total y y); assumption.
    - assert (I : In x (y :: b)) by (rewrite <- P; now left). destruct I as [->|I]; [|now apply (proj1 (Forall_forall _ _) FB)].
      destruct (before_total x x); assumption. }
  subst y. f_equal. apply IH; auto. now apply Permutation_cons_inv in P.
Qed.
Lemma sort_ext a b : Permutation a b -> sort_texts a = sort_texts b.
Proof. intros P. apply sorted_unique; [apply sort_sorted..|]. now rewrite !sort_perm. Qed.
Lemma style_form d : dict_to_style (Some d) = join [32] (sort_texts (map declaration d)).
Proof. reflexivity. Qed.
Lemma write_perm d e : Permutation d e -> dict_to_style (Some d) = dict_to_style (Some e).
Proof. intros P. rewrite !style_form. f_equal. apply sort_ext. now apply Permutation_map. Qed.
Lemma write_sorted d : exists l, dict_to_style (Some d) = join (lit " ") l /\ Permutation l (map declaration d) /\ StronglySorted before l.
Proof. exists (sort_texts (map declaration d)). split; [reflexivity|]. split; [apply sort_perm|apply sort_sorted]. Qed.

(* reading what was written *)
Lemma free_app c a b : free c (a ++ b) <-> free c a /\ free c b.
Proof. unfold free. rewrite in_app_iff. tauto. Qed.
Lemma pair_of_item p u : neat (fst p) -> neat (snd p) -> forallb is_space u = true ->
  two_parts (u ++ fst p ++ [58; 32] ++ snd p) = Some p.
Proof.
  intros (A1 & A2 & A3) (B1 & B2 & B3) H. rewrite two_parts_left by exact H. destruct p as [k v]. cbn [fst snd] in *.
  apply two_parts_iff. exists k, ([32] ++ v). split; [reflexivity|]. split; [exact A3|]. split.
  - apply free_app. split; [intros [E|[]]; discriminate E|exact B3].
  - split; [exact A1|]. rewrite strip_left by reflexivity. exact B1.
Qed.
Lemma pairs_cons a t : free 59 a -> pairs (a ++ [59] ++ t) = filter_some [two_parts a] ++ pairs t.
Proof.
  intros F. unfold pairs, split_on. rewrite split_on_word by now apply free_forallb. cbn [app split_on_acc]. rewrite N.eqb_refl.
  cbn [map filter_some]. destruct (two_parts a); reflexivity.
Qed.
Lemma pairs_items l : Forall (fun p => neat (fst p) /\ neat (snd p)) l -> pairs (join [32] (map declaration l)) = l.
Proof.
  assert (G : forall l u, forallb is_space u = true -> Forall (fun p => neat (fst p) /\ neat (snd p)) l -> pairs (u ++ join [32] (map declaration l)) = l).
  { clear l. intros l u U F. revert u U. induction F as [|p l [A B] F IH]; intros u U.
    - cbn [map join]. rewrite app_nil_r. unfold pairs. rewrite split_on_single by now apply space_free.
      cbn [map]. replace (two_parts u) with (two_parts []); [reflexivity|]. rewrite <- (app_nil_r u) at 1. now rewrite two_parts_left.
    - assert (Fr : free 59 (u ++ fst p ++ [58; 32] ++ snd p)).
      { rewrite !free_app. destruct A as (_ & A & _), B as (_ & B & _). split; [|split; [exact A|split; [|exact B]]].
        - apply free_forallb. now apply space_free.
        - intros [E|[E|[]]]; discriminate E. }
      destruct l as [|q l].
      + cbn [map join]. unfold declaration. change (lit ": ") with [58; 32]. change (lit ";") with [59].
        replace (u ++ fst p ++ [58; 32] ++ snd p ++ [59]) with ((u ++ fst p ++ [58; 32] ++ snd p) ++ [59] ++ []) by now rewrite <- ?app_assoc.
        rewrite pairs_cons by exact Fr. rewrite pair_of_item by assumption. reflexivity.
      + cbn [map]. change (join [32] (declaration p :: declaration q :: map declaration l)) with (declaration p ++ [32] ++ join [32] (map declaration (q :: l))).
        unfold declaration at 1. change (lit ": ") with [58; 32]. change (lit ";") with [59].
        set (J := [32] ++ join [32] (map declaration (q :: l))).
        replace (u ++ (fst p ++ [58; 32] ++ snd p ++ [59]) ++ J) with ((u ++ fst p ++ [58; 32] ++ snd p) ++ [59] ++ J) by now rewrite <- ?app_assoc.
        rewrite pairs_cons by exact Fr. rewrite pair_of_item by assumption. cbn [filter_some app]. f_equal. apply (IH [32]). reflexivity. }
  apply (G l []). reflexivity.
Qed.
Lemma sort_map_pick d : exists e, Permutation e d /\ sort_texts (map declaration d) = map declaration e.
Proof.
  assert (P := sort_perm (map declaration d)). apply Permutation_map_inv in P. destruct P as (e & E & P). exists e. split; [now apply Permutation_sym|exact E].
Qed.
Lemma dget_perm {V} (d e : dict V) k : dict_ok d -> Permutation d e -> dget d k = dget e k.
Proof.
  intros D P. assert (E : dict_ok e) by (unfold dict_ok, dkeys in *; now rewrite <- P).
  destruct (dget d k) as [v|] eqn:A.
  - symmetry. apply in_dget; [exact E|]. rewrite <- P. now apply dget_in.
  - symmetry. apply dget_keys. intros I. apply (Permutation_in k (Permutation_sym (Permutation_map fst P))) in I. apply dget_keys in A. exact (A I).
Qed.
Lemma dict_of_id {V} (d : dict V) : dict_ok d -> dict_of d = d.
Proof.
  induction d as [|[k v] d IH] using rev_ind; [reflexivity|]. intros D. rewrite dict_of_snoc. cbn [fst snd].
  unfold dict_ok, dkeys in D. rewrite map_app in D. cbn in D. rewrite IH.
  - assert (N : ~ In k (dkeys d)). { apply NoDup_remove_2 in D. now rewrite app_nil_r in D. }
    clear -N. induction d as [|[a b] d IHd]; [reflexivity|]. cbn in *. destruct (text_eqb_spec a k) as [->|E]; [destruct N; now left|].
    f_equal. apply IHd. intuition.
  - unfold dict_ok. apply NoDup_remove_1 in D. now rewrite app_nil_r in D.
Qed.
Lemma written_perm d : dict_ok d -> Forall (fun p => neat (fst p) /\ neat (snd p)) d ->
  Permutation (style_to_dict (Some (dict_to_style (Some d)))) d.
Proof.
  intros D F. rewrite style_form. destruct (sort_map_pick d) as (e & P & ->). rewrite style_pairs, pairs_items; [|now rewrite P].
  rewrite dict_of_id; [exact P|]. unfold dict_ok, dkeys in *. now rewrite P.
Qed.

(** ** Case-insensitive mappings *)
Record ci_inv {V} (low : text -> text) (m : cimap V) : Prop := {
  inv_keys : dict_ok (ckeys m);
  inv_data : dict_ok (cdata m);
  inv_low : Forall (fun p => fst p = low (snd p)) (ckeys m);
  inv_same : dkeys (cdata m) = map snd (ckeys m) }.

Lemma inv_find {V} low (m : cimap V) k k' : ci_inv low m -> dget (ckeys m) (low k) = Some k' ->
  low k' = low k /\ In k' (dkeys (cdata m)) /\ forall x, In x (dkeys (cdata m)) -> low x = low k -> x = k'.
Proof.
  intros [K D L S] G. assert (I := dget_in _ _ _ G). split.
  - assert (E := proj1 (Forall_forall _ _) L _ I). cbn in E. congruence.
  - rewrite S. split; [exact (in_map snd _ _ I)|]. intros x X E. apply in_map_iff in X. destruct X as ([l x'] & X & J). cbn in X. subst x'.
    assert (E' := proj1 (Forall_forall _ _) L _ J). cbn in E'. subst l. rewrite E in J. apply in_dget in J; [|exact K]. congruence.
Qed.
Lemma inv_absent {V} low (m : cimap V) k : ci_inv low m -> dget (ckeys m) (low k) = None ->
  forall x, In x (dkeys (cdata m)) -> low x <> low k.
Proof.
  intros [K D L S] G x X E. rewrite S in X. apply in_map_iff in X. destruct X as ([l x'] & X & J). cbn in X. subst x'.
  assert (E' := proj1 (Forall_forall _ _) L _ J). cbn in E'. subst l. apply dget_keys in G. apply G. rewrite <- E. exact (in_map fst _ _ J).
Qed.
Lemma dget_at {V} (d : dict V) k : In k (dkeys d) -> exists v, dget d k = Some v.
Proof. intros I. now apply dget_some_keys. Qed.
Lemma map_snd_ddel (d : dict text) low k k' : dict_ok d -> Forall (fun p => fst p = low (snd p)) d -> dget d (low k) = Some k' -> 
  map snd (ddel d (low k)) = filter (fun x => negb (text_eqb x k')) (map snd d).
Proof.
  intros D F G. rewrite ddel_filter by exact D. assert (J := dget_in _ _ _ G).
  assert (Gn : forall p, In p d -> text_eqb (fst p) (low k) = text_eqb (snd p) k').
  { intros [l x] I. cbn. destruct (text_eqb_spec l (low k)) as [->|N].
    - apply in_dget in I; [|exact D]. rewrite G in I. injection I as <-. symmetry. apply text_eqb_refl.
    - destruct (text_eqb_spec x k') as [->|]; [|reflexivity]. exfalso. apply N.
      assert (A := proj1 (Forall_forall _ _) F _ I). assert (B := proj1 (Forall_forall _ _) F _ J). cbn in A, B. congruence. }
  clear D F G J. induction d as [|p d IH]; [reflexivity|]. cbn [filter map]. rewrite (Gn p) by now left.
  destruct (text_eqb (snd p) k'); cbn [negb map]; rewrite IH; auto; intros q I; apply Gn; now right.
Qed.
Lemma step_inv {V} low (m : cimap V) o : ci_inv low m -> ci_inv low (ci_step low m o).
Proof.
  intros I. assert (I' := I). destruct I as [K D L S]. destruct o as [k v|k]; cbn [ci_step].
  - unfold ci_set. destruct (dget (ckeys m) (low k)) as [k'|] eqn:G; cbn [cdata ckeys].
    + destruct (inv_find low m k k' I' G) as (_ & J & _). constructor; cbn [cdata ckeys]; auto; [now apply dset_ok|].
      rewrite dset_keys. unfold dhas. destruct (dget_at _ _ J) as (v' & ->). exact S.
    + assert (N := inv_absent low m k I' G). constructor; cbn [cdata ckeys]; [now apply dset_ok|now apply dset_ok| |].
      * apply Forall_forall. intros [a b] J. apply in_dget in J; [|now apply dset_ok]. rewrite dget_dset in J.
        destruct (text_eqb_spec (low k) a) as [<-|E]; [injection J as <-; reflexivity|]. apply dget_in in J. exact (proj1 (Forall_forall _ _) L _ J).
      * rewrite dset_keys. unfold dhas. destruct (dget (cdata m) k) as [v'|] eqn:E.
        -- exfalso. apply (N k); [|reflexivity]. apply dget_some_keys. now exists v'.
        -- rewrite S. clear -G. apply dget_keys in G. induction (ckeys m) as [|[a b] d IH]; [reflexivity|]. cbn in *.
           destruct (text_eqb_spec a (low k)) as [->|]; [destruct G; now left|]. cbn. f_equal. apply IH. intuition.
  - unfold ci_del. destruct (dget (ckeys m) (low k)) as [k'|] eqn:G; [|exact I'].
    destruct (dhas (cdata m) k') eqn:H; [|exact I']. constructor; cbn [cdata ckeys]; [now apply ddel_ok|now apply ddel_ok| |].
    + rewrite ddel_filter by exact K. apply Forall_forall. intros p J. apply filter_In in J. exact (proj1 (Forall_forall _ _) L _ (proj1 J)).
    + rewrite ddel_keys by exact D. rewrite (map_snd_ddel _ low k k') by assumption. now rewrite S.
Qed.
Lemma run_snoc {V} low (h : list (ci_op V)) o : ci_run low (h ++ [o]) = ci_step low (ci_run low h) o.
Proof. unfold ci_run. now rewrite fold_left_app. Qed.
Lemma run_inv {V} low (h : list (ci_op V)) : ci_inv low (ci_run low h).
Proof.
  induction h as [|o h IH] using rev_ind; [constructor; cbn; constructor|]. rewrite run_snoc. now apply step_inv.
Qed.
(* the value held under any spelling *)
Definition held {V} (low : text -> text) (m : cimap V) (k : text) : option V :=
  match dget (ckeys m) (low k) with None => None | Some k' => dget (cdata m) k' end.
Lemma step_held {V} low (m : cimap V) o k : ci_inv low m ->
  held low (ci_step low m o) k = if text_eqb (low (op_key o)) (low k) then match o with CSet _ x => Some x | CDel _ => None end else held low m k.
Proof.
  intros I. assert (I' := I). destruct I as [K D L S]. unfold held. destruct o as [j v|j]; cbn [ci_step op_key].
  - unfold ci_set. destruct (dget (ckeys m) (low j)) as [j'|] eqn:G; cbn.
    + destruct (text_eqb_spec (low j) (low k)) as [<-|N].
      * rewrite G, dget_dset, text_eqb_refl. reflexivity.
      * destruct (dget (ckeys m) (low k)) as [k'|] eqn:Gk; [|reflexivity]. rewrite dget_dset.
        destruct (text_eqb_spec j' k') as [<-|]; [|reflexivity]. exfalso. apply N.
        destruct (inv_find low m j j' I' G) as [A _]. destruct (inv_find low m k j' I' Gk) as [B _]. congruence.
    + rewrite dget_dset. destruct (text_eqb_spec (low j) (low k)) as [E|N].
      * rewrite dget_dset, text_eqb_refl. reflexivity.
      * destruct (dget (ckeys m) (low k)) as [k'|] eqn:Gk; [|reflexivity]. rewrite dget_dset.
        destruct (text_eqb_spec j k') as [<-|]; [|reflexivity]. exfalso. apply N. now destruct (inv_find low m k j I' Gk) as [A _].
  - unfold ci_del. destruct (dget (ckeys m) (low j)) as [j'|] eqn:G.
    + destruct (inv_find low m j j' I' G) as (A & J & _). destruct (dget_at _ _ J) as (v' & E). unfold dhas. rewrite E. cbn.
      rewrite dget_ddel by exact K. destruct (text_eqb_spec (low j) (low k)) as [X|N]; [reflexivity|].
      destruct (dget (ckeys m) (low k)) as [k'|] eqn:Gk; [|reflexivity]. rewrite dget_ddel by exact D.
      destruct (text_eqb_spec j' k') as [<-|]; [|reflexivity]. exfalso. apply N. destruct (inv_find low m k j' I' Gk) as [B _]. congruence.
    + destruct (text_eqb_spec (low j) (low k)) as [X|N]; [|reflexivity]. now rewrite <- X, G.
Qed.
Lemma value_after_snoc {V} low (h : list (ci_op V)) o k : forall v, value_after low (h ++ [o]) k v =
  if text_eqb (low (op_key o)) (low k) then match o with CSet _ x => Some x | CDel _ => None end else value_after low h k v.
Proof. induction h as [|p h IH]; intros v; cbn; [reflexivity|apply IH]. Qed.
Lemma run_held {V} low (h : list (ci_op V)) k : held low (ci_run low h) k = value_after low h k None.
Proof.
  induction h as [|o h IH] using rev_ind; [reflexivity|]. rewrite run_snoc, step_held by apply run_inv. rewrite value_after_snoc, IH. reflexivity.
Qed.
Lemma get_held {V} low (m : cimap V) k : ci_inv low m -> ci_get low m k = match held low m k with Some v => Ok v | None => Err KeyError end.
Proof. intros I. unfold ci_get, held. destruct (dget (ckeys m) (low k)); reflexivity. Qed.
Lemma contains_held {V} low (m : cimap V) k : ci_inv low m -> ci_contains low m k = is_some (held low m k).
Proof.
  intros I. unfold ci_contains, held, dhas. destruct (dget (ckeys m) (low k)) as [k'|] eqn:G; [|reflexivity].
  destruct (inv_find low m k k' I G) as (_ & J & _). destruct (dget_at _ _ J) as (v' & ->). reflexivity.
Qed.
Lemma del_held {V} low (m : cimap V) k : ci_inv low m ->
  ci_del low m k = if is_some (held low m k) then Ok (ci_step low m (CDel k)) else Err KeyError.
Proof.
  intros I. cbn [ci_step]. unfold ci_del, held. destruct (dget (ckeys m) (low k)) as [k'|] eqn:G; [|reflexivity].
  destruct (inv_find low m k k' I G) as (_ & J & _). unfold dhas. destruct (dget_at _ _ J) as (v' & ->). reflexivity.
Qed.

(* what is listed *)
Lemma births_snoc {V} low (h : list (ci_op V)) o : forall past,
  births low past (h ++ [o]) =
  filter (fun k => match o with CDel k' => negb (text_eqb (low k') (low k)) | _ => true end) (births low past h)
  ++ (if born low (past ++ h) o [] then [op_key o] else []).
Proof.
  induction h as [|p h IH]; intros past; cbn [births app].
  - rewrite !app_nil_r. reflexivity.
  - rewrite IH, filter_app. rewrite <- !app_assoc. cbn [app]. f_equal.
    destruct p as [k v|k]; cbn [born op_key]; [|reflexivity]. rewrite forallb_app. cbn [forallb]. rewrite andb_true_r.
    destruct (negb (is_some (value_after low past k None))); cbn [andb]; [|reflexivity].
    destruct (forallb _ h); cbn [andb filter]; [|reflexivity].
    destruct o as [k' v'|k']; [reflexivity|]. destruct (text_eqb (low k') (low k)); reflexivity.
Qed.
Lemma filter_true {A} (l : list A) : filter (fun _ => true) l = l.
Proof. induction l as [|x l IH]; cbn; [reflexivity|now rewrite IH]. Qed.
Lemma filter_ext_in' {A} (f g : A -> bool) l : (forall x, In x l -> f x = g x) -> filter f l = filter g l.
Proof. apply filter_ext_in. Qed.
Lemma run_iter {V} low (h : list (ci_op V)) : ci_iter (ci_run low h) = births low [] h.
Proof.
  induction h as [|o h IH] using rev_ind; [reflexivity|]. rewrite run_snoc, births_snoc. cbn [app]. rewrite <- IH.
  assert (I := run_inv low h). assert (Hh := run_held low h). remember (ci_run low h) as m eqn:Em. clear Em. destruct o as [k v|k]; cbn [ci_step born op_key forallb].
  - rewrite andb_true_r, <- Hh. rewrite filter_true. unfold ci_iter, ci_set, held. destruct (dget (ckeys m) (low k)) as [k'|] eqn:G; cbn [cdata].
    + destruct (inv_find low m k k' I G) as (_ & J & _). rewrite dset_keys. unfold dhas. destruct (dget_at _ _ J) as (v' & E). rewrite E. cbn. now rewrite app_nil_r.
    + rewrite dset_keys. unfold dhas. destruct (dget (cdata m) k) eqn:E; [|reflexivity].
      exfalso. apply (inv_absent low m k I G k); [|reflexivity]. apply dget_some_keys. eauto.
  - rewrite app_nil_r. unfold ci_iter, ci_del. destruct (dget (ckeys m) (low k)) as [k'|] eqn:G.
    + destruct (inv_find low m k k' I G) as (A & J & U). unfold dhas. destruct (dget_at _ _ J) as (v' & E). rewrite E. cbn [cdata]. clear E.
      rewrite ddel_keys by apply I. apply filter_ext_in. intros x X. f_equal. destruct (text_eqb_spec x k') as [->|N].
      * rewrite A. symmetry. apply text_eqb_refl.
      * destruct (text_eqb_spec (low k) (low x)) as [E|]; [|reflexivity]. exfalso. apply N. now apply U.
    + rewrite <- (filter_true (dkeys (cdata m))) at 1. apply filter_ext_in. intros x X.
      destruct (text_eqb_spec (low k) (low x)) as [E|]; [|reflexivity]. exfalso. exact (inv_absent low m k I G x X (eq_sym E)).
Qed.
Lemma run_distinct {V} low (h : list (ci_op V)) : NoDup (map low (ci_iter (ci_run low h))).
Proof.
  destruct (run_inv low h) as [K D L S]. unfold ci_iter. rewrite S.
  replace (map low (map snd (ckeys (ci_run low h)))) with (dkeys (ckeys (ci_run low h))); [exact K|].
  unfold dkeys. rewrite map_map. apply map_ext_in. intros p I. exact (proj1 (Forall_forall _ _) L p I).
Qed.
Lemma run_items {V} low (h : list (ci_op V)) k v : In (k, v) (cdata (ci_run low h)) <-> In k (births low [] h) /\ value_after low h k None = Some v.
Proof.
  rewrite <- run_iter, <- run_held. assert (I := run_inv low h). set (m := ci_run low h) in *.
  unfold ci_iter, held. split.
  - intros J. assert (X := in_map fst _ _ J). cbn in X. split; [exact X|]. destruct (dget (ckeys m) (low k)) as [k'|] eqn:G.
    + destruct (inv_find low m k k' I G) as (_ & _ & U). rewrite <- (U k X eq_refl). apply in_dget; [apply I|exact J].
    + exfalso. exact (inv_absent low m k I G k X eq_refl).
  - intros [X H]. destruct (dget (ckeys m) (low k)) as [k'|] eqn:G; [|discriminate].
    destruct (inv_find low m k k' I G) as (_ & _ & U). rewrite <- (U k X eq_refl) in H. now apply dget_in.
Qed.

(** ** Qualified names *)
Lemma no_space_iff t : no_space t <-> is_ascii_whitespace t = false.
Proof.
  unfold no_space, is_ascii_whitespace. split.
  - intros H. destruct (existsb ascii_space t) eqn:E; [|reflexivity]. apply existsb_exists in E. destruct E as (c & I & S).
    unfold ascii_space in S. apply existsb_exists in S. destruct S as (d & J & E). apply N.eqb_eq in E. subst d. destruct (H c I J).
  - intros H c I J. assert (existsb ascii_space t = true); [|congruence]. apply existsb_exists. exists c. split; [exact I|].
    unfold ascii_space. apply existsb_exists. exists c. split; [exact J|apply N.eqb_refl].
Qed.
Lemma free_negb c t : free c t <-> forallb (fun x => negb (x =? c)) t = true.
Proof.
  rewrite free_forallb. assert (E : forall l, forallb (fun x => negb (c =? x)) l = forallb (fun x => negb (x =? c)) l); [|now rewrite E].
  induction l as [|x l IH]; cbn; [reflexivity|]. now rewrite IH, N.eqb_sym.
Qed.
Lemma drop_cut c t : dropwhile (fun x => negb (x =? c)) t = [] -> free c t.
Proof. intros H. apply free_negb. now apply dropwhile_nil. Qed.
Lemma drop_found c t d r : dropwhile (fun x => negb (x =? c)) t = d :: r ->
  d = c /\ t = takewhile (fun x => negb (x =? c)) t ++ [c] ++ r /\ free c (takewhile (fun x => negb (x =? c)) t).
Proof.
  intros H. assert (S := dropwhile_stop (fun x => negb (x =? c)) t). rewrite H in S. cbn in S. rewrite negb_involutive in S. apply N.eqb_eq in S. subst d.
  split; [reflexivity|]. split; [|apply free_negb, takewhile_forall]. rewrite <- (take_drop (fun x => negb (x =? c)) t) at 1. now rewrite H.
Qed.
Lemma cut_at c a r : free c a -> takewhile (fun x => negb (x =? c)) (a ++ [c] ++ r) = a /\ dropwhile (fun x => negb (x =? c)) (a ++ [c] ++ r) = [c] ++ r.
Proof.
  intros F. apply free_negb in F. assert (Hn : head_not (fun x => negb (x =? c)) ([c] ++ r) = true).
  { cbn [app head_not]. rewrite N.eqb_refl. reflexivity. }
  split; [now apply takewhile_app|now apply dropwhile_app_stop].
Qed.
Lemma clark_match_some t ns l : clark_match t = Some (ns, l) <-> t = [123] ++ ns ++ [125] ++ l /\ free 125 ns.
Proof.
  unfold clark_match. split.
  - destruct t as [|c r]; [discriminate|]. destruct (N.eqb_spec c 123) as [->|]; [|discriminate].
    destruct (dropwhile (fun c => negb (c =? 125)) r) as [|d s] eqn:E; [discriminate|]. injection 1 as <- <-.
    apply drop_found in E. destruct E as (_ & E & F). split; [|exact F]. cbn [app]. f_equal. exact E.
  - intros [-> F]. cbn [app]. rewrite N.eqb_refl. destruct (cut_at 125 ns l F) as [A B]. cbn [app] in A, B. rewrite A, B. reflexivity.
Qed.
Lemma clark_match_none t : clark_match t = None <-> forall ns l, t <> [123] ++ ns ++ [125] ++ l.
Proof.
  split.
  - intros H ns l ->. unfold clark_match in H. cbn [app] in H. rewrite N.eqb_refl in H.
    destruct (dropwhile (fun c => negb (c =? 125)) (ns ++ 125 :: l)) eqn:E; [|discriminate]. apply drop_cut in E. apply E.
    apply in_or_app. right. now left.
  - intros H. destruct (clark_match t) as [[ns l]|] eqn:E; [|reflexivity]. apply clark_match_some in E. destruct E as [-> _]. now destruct (H ns l).
Qed.
Lemma split_colon_some t p l : split_colon t = Some (p, l) <-> t = p ++ [58] ++ l /\ free 58 p.
Proof.
  unfold split_colon. split.
  - destruct (dropwhile (fun c => negb (c =? 58)) t) as [|d s] eqn:E; [discriminate|]. injection 1 as <- <-.
    apply drop_found in E. destruct E as (_ & E & F). split; [exact E|exact F].
  - intros [-> F]. destruct (cut_at 58 p l F) as [A B]. rewrite A, B. reflexivity.
Qed.
Lemma split_colon_none t : split_colon t = None <-> free 58 t.
Proof.
  unfold split_colon. split.
  - destruct (dropwhile (fun c => negb (c =? 58)) t) eqn:E; [|discriminate]. intros _. now apply drop_cut.
  - intros F. rewrite dropwhile_all; [reflexivity|]. now apply free_negb.
Qed.
Lemma written_iff nsmap q p ns l : written nsmap q p ns l <->
  match clark_match q with
  | Some (ns, l) => (None, l, Some ns)
  | None => match split_colon q with Some (p, l) => (Some p, l, dget nsmap p) | None => (None, q, None) end
  end = (p, l, ns).
Proof.
  split.
  - destruct 1 as [ns l F|p l F Nc|l F Nc].
    + destruct (clark_match_some ([123] ++ ns ++ [125] ++ l) ns l) as [_ H]. rewrite H by auto. reflexivity.
    + apply clark_match_none in Nc. rewrite Nc. destruct (split_colon_some (p ++ [58] ++ l) p l) as [_ H]. rewrite H by auto. reflexivity.
    + apply clark_match_none in Nc. rewrite Nc. apply split_colon_none in F. rewrite F. reflexivity.
  - destruct (clark_match q) as [[n l']|] eqn:C.
    + intros [= <- <- <-]. apply clark_match_some in C. destruct C as [-> F]. now constructor.
    + assert (C' := proj1 (clark_match_none q) C). destruct (split_colon q) as [[p' l']|] eqn:S; intros [= <- <- <-].
      * apply split_colon_some in S. destruct S as [-> F]. now constructor.
      * apply split_colon_none in S. now constructor.
Qed.
Lemma written_total nsmap q : exists p ns l, written nsmap q p ns l.
Proof.
  destruct (match clark_match q with
  | Some (ns, l) => (None, l, Some ns)
  | None => match split_colon q with Some (p, l) => (Some p, l, dget nsmap p) | None => (None, q, None) end
  end) as [[p l] ns] eqn:E. exists p, ns, l. now apply written_iff.
Qed.
Lemma written_fun nsmap q p ns l p' ns' l' : written nsmap q p ns l -> written nsmap q p' ns' l' -> p = p' /\ ns = ns' /\ l = l'.
Proof. rewrite !written_iff. intros -> [= <- <- <-]. auto. Qed.
(* the outcome of the constructor *)
Definition outcome (namespace p ns : option text) (l : text) : result qname :=
  if is_empty p || is_empty (Some l) || is_empty ns then Err ValueError
  else if (is_some p && (negb (is_some namespace) || negb (is_some ns)))
          || match namespace, ns with Some a, Some b => negb (text_eqb b a) | _, _ => false end
  then Err NamespaceError
  else Ok (mkQN (match namespace with None => ns | _ => namespace end) l).
Definition given (namespace : option text) : option text := match namespace with Some [] => None | _ => namespace end.
Definition spaced (o : option text) : bool := match o with Some n => is_ascii_whitespace n | None => false end.
Lemma qualified_outcome namespace q nsmap p ns l : written nsmap q p ns l ->
  qualified namespace q nsmap =
  if spaced namespace then Err InvalidCharacterError
  else match q with [] => Err ValueError | _ => if is_ascii_whitespace q then Err InvalidCharacterError else outcome (given namespace) p ns l end.
Proof.
  intros W. apply written_iff in W. unfold qualified.
  replace (if is_empty namespace then None else namespace) with (given namespace) by (destruct namespace as [[|? ?]|]; reflexivity).
  replace (match given namespace with Some n => is_ascii_whitespace n | None => false end) with (spaced namespace) by (destruct namespace as [[|? ?]|]; reflexivity).
  destruct (spaced namespace); [reflexivity|]. destruct q as [|c q]; [reflexivity|]. destruct (is_ascii_whitespace (c :: q)); [reflexivity|].
  rewrite W. reflexivity.
Qed.
Lemma qualified_ok namespace q nsmap p ns l r : written nsmap q p ns l -> qualified namespace q nsmap = Ok r ->
  no_space q /\ (forall n, namespace = Some n -> no_space n) /\ l <> [] /\ ns <> Some [] /\
  match p with
  | Some p' => p' <> [] /\ exists n, namespace = Some n /\ n <> [] /\ ns = Some n /\ r = mkQN (Some n) l
  | None => match ns with
            | Some n => r = mkQN (Some n) l /\ (given namespace = None \/ namespace = Some n)
            | None => r = mkQN (given namespace) l
            end
  end.
Proof.
  intros W H. rewrite (qualified_outcome _ _ _ _ _ _ W) in H. destruct (spaced namespace) eqn:S; [discriminate|].
  destruct q as [|c q]; [discriminate|]. destruct (is_ascii_whitespace (c :: q)) eqn:Q; [discriminate|].
  split; [now apply no_space_iff|]. split; [intros n ->; now apply no_space_iff|].
  unfold outcome in H. destruct l as [|d l]; [destruct p as [[|? ?]|]; discriminate|]. split; [discriminate|].
  destruct ns as [[|e n]|].
  - destruct p as [[|? ?]|]; discriminate.
  - split; [discriminate|]. destruct p as [[|? ?]|]; [discriminate| |].
    + split; [discriminate|]. destruct (given namespace) as [m|] eqn:G; [|discriminate]. cbn [is_empty is_some negb orb andb] in H.
      destruct (text_eqb_spec (e :: n) m) as [<-|N]; [|discriminate]. injection H as <-. exists (e :: n).
      destruct namespace as [[|? ?]|]; [discriminate| |discriminate]. cbn in G. split; [exact G|]. repeat split; discriminate.
    + cbn [is_empty is_some negb orb andb] in H. destruct (given namespace) as [m|] eqn:G.
      * destruct (text_eqb_spec (e :: n) m) as [<-|N]; [|discriminate]. injection H as <-. split; [reflexivity|]. right.
        destruct namespace as [[|? ?]|]; [discriminate|exact G|discriminate].
      * injection H as <-. auto.
  - split; [discriminate|]. destruct p as [[|? ?]|]; [discriminate| |].
    + cbn [is_empty is_some negb orb andb] in H. rewrite orb_true_r in H. discriminate.
    + cbn [is_empty is_some negb orb andb] in H. destruct (given namespace) eqn:G; injection H as <-; reflexivity.
Qed.
Lemma no_space_app a b : no_space (a ++ b) <-> no_space a /\ no_space b.
Proof.
  unfold no_space. split.
  - intros H. split; intros c I; apply H, in_or_app; auto.
  - intros [A B] c I. apply in_app_or in I. destruct I; auto.
Qed.
Lemma written_clark nsmap q : (forall n, qns q = Some n -> n <> [] /\ free 125 n) ->
  (qns q = None -> free 58 (qlocal q) /\ forall ns l, qlocal q <> [123] ++ ns ++ [125] ++ l) ->
  written nsmap (clark q) None (qns q) (qlocal q).
Proof.
  destruct q as [[n|] l]; unfold clark; cbn [qns qlocal]; intros A B.
  - constructor. now apply A.
  - destruct (B eq_refl). now constructor.
Qed.
Lemma clark_again namespace q nsmap r : (forall n, namespace = Some n -> free 125 n) -> qualified namespace q nsmap = Ok r ->
  forall nsmap', qualified None (clark r) nsmap' = Ok r.
Proof.
  intros F H nsmap'. destruct (written_total nsmap q) as (p & ns & l & W). destruct (qualified_ok _ _ _ _ _ _ _ W H) as (Sq & Sn & L & N & R).
  assert (Wr : written nsmap' (clark r) None (qns r) (qlocal r) /\ qlocal r = l /\ no_space (clark r) /\ qns r <> Some []).
  { assert (Br : forall a b, no_space a -> no_space b -> no_space ([123] ++ a ++ [125] ++ b)).
    { intros a b A B. rewrite !no_space_app. split; [intros c [<-|[]]; vm_compute; intuition discriminate|].
      split; [exact A|]. split; [intros c [<-|[]]; vm_compute; intuition discriminate|exact B]. }
    assert (Sl : no_space l).
    { destruct W; auto; rewrite !no_space_app in Sq; tauto. }
    destruct p as [p|].
    - destruct R as (_ & n & -> & Nn & -> & ->). split; [|split; [reflexivity|split; [|cbn; congruence]]].
      + apply written_clark; cbn; [|discriminate]. intros m [= <-]. split; [exact Nn|now apply F].
      + cbn. apply Br; [now apply Sn|exact Sl].
    - destruct ns as [n|].
      + destruct R as [-> _]. inversion W; subst. split; [|split; [reflexivity|split; [|exact N]]].
        * apply written_clark; cbn; [|discriminate]. intros m [= <-]. split; [intros ->; now apply N|assumption].
        * exact Sq.
      + subst r. inversion W; subst. split; [|split; [reflexivity|split]].
        * apply written_clark; cbn; [|intros _; now split]. intros m E. destruct namespace as [[|? ?]|]; try discriminate. injection E as <-. split; [discriminate|now apply F].
        * destruct namespace as [[|c n]|]; cbn; [exact Sl| |exact Sl]. apply (Br (c :: n) l); [now apply Sn|exact Sl].
        * destruct namespace as [[|? ?]|]; discriminate. }
  destruct Wr as (Wr & El & Sc & Nn). rewrite (qualified_outcome _ _ _ _ _ _ Wr). cbn [spaced].
  apply no_space_iff in Sc. rewrite Sc. destruct r as [rn rl]. cbn [qns qlocal] in *. subst rl.
  destruct (clark (mkQN rn l)) eqn:C.
  - exfalso. unfold clark in C. cbn in C. destruct rn; [discriminate|]. now apply L.
  - unfold outcome. destruct l as [|d l]; [now destruct L|]. destruct rn as [[|? ?]|]; [now destruct Nn| |]; reflexivity.
Qed.
Lemma qualified_errors namespace q nsmap e : qualified namespace q nsmap = Err e -> In e [InvalidCharacterError; ValueError; NamespaceError].
Proof.
  destruct (written_total nsmap q) as (p & ns & l & W). rewrite (qualified_outcome _ _ _ _ _ _ W). unfold outcome. clear W.
  intros H. destruct q as [|c q]; repeat match type of H with context [if ?b then _ else _] => destruct b end; try discriminate; injection H as <-; cbn; tauto.
Qed.
