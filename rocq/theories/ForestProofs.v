From Coq Require Import ZArith Lia Permutation.
From Verif Require Import PyBase ForestModel ForestSpec.
#[local] Open Scope nat_scope.

Lemma tree_ind' (P : tree -> Prop) : (forall i k o ks, Forall P ks -> P (Nd i k o ks)) -> forall t, P t.
Proof.
  intros H. fix IH 1. intros [i k o ks]. apply H. induction ks as [|t ks IHks]; constructor; [apply IH|exact IHks].
Qed.
Lemma first_none {A B} (f : A -> option B) l : first_some f l = None <-> forall x, In x l -> f x = None.
Proof.
  induction l as [|x l IH]; cbn [first_some]; [split; [intros _ y []|reflexivity]|]. change ((fix go l := match l with [] => None | x :: r => match f x with Some y => Some y | None => go r end end) l) with (first_some f l).
  destruct (f x) eqn:E; split.
  - discriminate.
  - intros H. rewrite (H x) in E by now left. discriminate.
  - intros H y [<-|I]; [exact E|]. now apply IH.
  - intros H. apply IH. intros y I. apply H. now right.
Qed.
Lemma first_app {A B} (f : A -> option B) a b : first_some f (a ++ b) = match first_some f a with Some y => Some y | None => first_some f b end.
Proof.
  induction a as [|x a IH]; [reflexivity|]. cbn [app]. change (first_some f (x :: a ++ b)) with (match f x with Some y => Some y | None => first_some f (a ++ b) end).
  change (first_some f (x :: a)) with (match f x with Some y => Some y | None => first_some f a end). destruct (f x); [reflexivity|exact IH].
Qed.
Lemma first_cons {A B} (f : A -> option B) x l : first_some f (x :: l) = match f x with Some y => Some y | None => first_some f l end.
Proof. reflexivity. Qed.
Lemma first_split {A B} (f : A -> option B) l y : first_some f l = Some y -> exists a x b, l = a ++ x :: b /\ f x = Some y /\ first_some f a = None.
Proof.
  induction l as [|x l IH]; [discriminate|]. rewrite first_cons. destruct (f x) eqn:E.
  - intros [= <-]. exists [], x, l. auto.
  - intros H. destruct (IH H) as (a & z & b & -> & F & G). exists (x :: a), z, b. split; [reflexivity|]. split; [exact F|]. now rewrite first_cons, E.
Qed.
Lemma NoDup_app_iff {A} (a b : list A) : NoDup (a ++ b) <-> NoDup a /\ NoDup b /\ (forall x, In x a -> ~ In x b).
Proof.
  induction a as [|x a IH]; cbn [app].
  - split; [intros H; repeat split; [constructor|exact H|intros x []]|tauto].
  - rewrite !NoDup_cons_iff, IH, in_app_iff. split.
    + intros (H1 & H2 & H3 & H4). repeat split; auto. intros y [<-|I]; auto.
    + intros ((H1 & H2) & H3 & H4). repeat split; auto; [|intros y I; apply H4; now right]. intros [I|I]; [now apply H1|]. apply (H4 x); auto. now left.
Qed.

(** ** Contexts: a forest with a hole in a list of siblings *)
Inductive ctx := Top (b : forest) (l r : list tree) (a : forest) | Deep (c : ctx) (i : nat) (k : kind) (o : option nat) (l r : list tree).
Fixpoint fill (c : ctx) (m : list tree) : forest :=
  match c with Top b l r a => b ++ [l ++ m ++ r] ++ a | Deep c i k o l r => fill c [Nd i k o (l ++ m ++ r)] end.
Definition hole (c : ctx) (m : list nat) : list row :=
  match c with Top _ _ _ _ => [] | Deep c i k o l r => [(i, k, o, map id_of l ++ m ++ map id_of r)] end.
Fixpoint static (c : ctx) : list row :=
  match c with
  | Top b l r a => facts b ++ flat_map nodes l ++ flat_map nodes r ++ facts a
  | Deep c i k o l r => flat_map nodes l ++ flat_map nodes r ++ static c ++ hole c [i]
  end.
Definition key (x : row) : nat := match x with (q, _, _, _) => q end.
Definition kids (x : row) : list nat := match x with (_, _, _, l) => l end.
(* identities outside the hole *)
Fixpoint spine (c : ctx) : list nat :=
  match c with
  | Top b l r a => all b ++ flat_map ids l ++ flat_map ids r ++ all a
  | Deep c i k o l r => i :: flat_map ids l ++ flat_map ids r ++ spine c
  end.
(* roots, with those in the hole *)
Fixpoint tops (c : ctx) (m : list nat) : list nat :=
  match c with
  | Top b l r a => flat_map (map id_of) b ++ map id_of l ++ m ++ map id_of r ++ flat_map (map id_of) a
  | Deep c i k o l r => tops c [i]
  end.
Lemma all_app a b : all (a ++ b) = all a ++ all b. Proof. apply flat_map_app. Qed.
Lemma facts_app a b : facts (a ++ b) = facts a ++ facts b. Proof. apply flat_map_app. Qed.
Lemma all_one l : all [l] = flat_map ids l. Proof. unfold all. cbn [flat_map]. apply app_nil_r. Qed.
Lemma facts_one l : facts [l] = flat_map nodes l. Proof. unfold facts. cbn [flat_map]. apply app_nil_r. Qed.
Ltac perm := (* permutations of appends *)
  repeat rewrite <- app_assoc;
  match goal with
  | |- Permutation ?x ?x => apply Permutation_refl
  | _ => idtac
  end.
Lemma mid {A} (a b c d : list A) : Permutation (a ++ (b ++ c ++ d)) (b ++ d ++ a ++ c).
Proof. rewrite Permutation_app_comm. rewrite <- !app_assoc. apply Permutation_app_head. rewrite Permutation_app_comm. rewrite <- !app_assoc. apply Permutation_app_head. rewrite Permutation_app_comm. reflexivity. Qed.
Lemma fill_facts c : forall m, Permutation (facts (fill c m)) (static c ++ hole c (map id_of m) ++ flat_map nodes m).
Proof.
  induction c as [b l r a|c IH i k o l r]; intros m; cbn [fill static hole].
  - rewrite !facts_app, facts_one, !flat_map_app. cbn [app]. rewrite <- !app_assoc. apply Permutation_app_head, Permutation_app_head. rewrite (Permutation_app_comm (flat_map nodes m)). rewrite <- !app_assoc. reflexivity.
  - rewrite IH. cbn [map id_of flat_map nodes app]. rewrite app_nil_r, !flat_map_app, !map_app. rewrite <- !app_assoc.
    set (X := (i, k, o, map id_of l ++ map id_of m ++ map id_of r)). set (L := flat_map nodes l). set (R := flat_map nodes r). set (M := flat_map nodes m). set (S := static c). set (H := hole c [i]).
    transitivity ((S ++ H) ++ (X :: L ++ M ++ R)); [rewrite <- app_assoc; reflexivity|]. transitivity ((X :: L ++ M ++ R) ++ S ++ H); [apply Permutation_app_comm|]. cbn [app].
    transitivity (X :: L ++ R ++ M ++ S ++ H).
    { constructor. rewrite <- !app_assoc. apply Permutation_app_head. rewrite !app_assoc. apply Permutation_app_tail, Permutation_app_tail. apply Permutation_app_comm. }
    transitivity (X :: (L ++ R ++ S ++ H) ++ M).
    { constructor. rewrite <- !app_assoc. apply Permutation_app_head, Permutation_app_head. rewrite Permutation_app_comm. rewrite <- !app_assoc. reflexivity. }
    rewrite Permutation_middle. rewrite <- !app_assoc. reflexivity.
Qed.
Lemma fill_all c : forall m, Permutation (all (fill c m)) (spine c ++ flat_map ids m).
Proof.
  induction c as [b l r a|c IH i k o l r]; intros m; cbn [fill spine].
  - rewrite !all_app, all_one, !flat_map_app. rewrite <- !app_assoc. apply Permutation_app_head, Permutation_app_head. rewrite (Permutation_app_comm (flat_map ids m)). rewrite <- !app_assoc. reflexivity.
  - rewrite IH. cbn [flat_map ids]. rewrite app_nil_r, !flat_map_app. rewrite Permutation_app_comm. cbn [app]. constructor. rewrite <- !app_assoc. apply Permutation_app_head.
    rewrite Permutation_app_comm. rewrite <- !app_assoc. apply Permutation_app_head. reflexivity.
Qed.
(* every node is a root or a child *)
Lemma ids_kids t : Permutation (ids t) (id_of t :: flat_map kids (nodes t)).
Proof.
  induction t as [i k o ks IH] using tree_ind'. cbn [ids nodes id_of flat_map kids]. constructor. induction IH as [|t ks Ht IH IH2]; [reflexivity|]. cbn [flat_map map]. rewrite flat_map_app. rewrite Ht, IH2. cbn [app]. constructor.
  rewrite !app_assoc. apply Permutation_app_tail. apply Permutation_app_comm.
Qed.
Lemma ids_kids_list l : Permutation (flat_map ids l) (map id_of l ++ flat_map kids (flat_map nodes l)).
Proof.
  induction l as [|t l IH]; [reflexivity|]. cbn [flat_map map app]. rewrite flat_map_app, ids_kids, IH. cbn [app]. constructor. rewrite !app_assoc. apply Permutation_app_tail. apply Permutation_app_comm.
Qed.
Lemma all_kids s : Permutation (all s) (flat_map (map id_of) s ++ flat_map kids (facts s)).
Proof.
  induction s as [|g s IH]; [reflexivity|]. unfold all, facts in *. cbn [flat_map]. rewrite flat_map_app, ids_kids_list, IH. rewrite <- !app_assoc. apply Permutation_app_head. rewrite !app_assoc. apply Permutation_app_tail. apply Permutation_app_comm.
Qed.
Lemma fill_tops c : forall m, flat_map (map id_of) (fill c m) = tops c (map id_of m).
Proof.
  induction c as [b l r a|c IH i k o l r]; intros m; cbn [fill tops]; [|rewrite IH; reflexivity]. rewrite !flat_map_app. cbn [flat_map]. rewrite !map_app, app_nil_r, <- !app_assoc. reflexivity.
Qed.
Lemma nodes_keys t : map key (nodes t) = ids t.
Proof.
  induction t as [i k o ks IH] using tree_ind'. cbn [nodes ids map key]. f_equal. induction IH as [|t ks Ht IH IH2]; [reflexivity|]. cbn [flat_map]. rewrite map_app. now rewrite Ht, IH2.
Qed.
Lemma nodes_keys_list l : map key (flat_map nodes l) = flat_map ids l.
Proof. induction l as [|t l IH]; [reflexivity|]. cbn [flat_map]. now rewrite map_app, nodes_keys, IH. Qed.
Lemma facts_keys s : map key (facts s) = all s.
Proof. unfold facts, all. induction s as [|g s IH]; [reflexivity|]. cbn [flat_map]. now rewrite map_app, nodes_keys_list, IH. Qed.
Lemma Row_in s q k o l : Row s q k o l -> In q (all s).
Proof. intros H. rewrite <- facts_keys. exact (in_map key _ _ H). Qed.
Lemma keyed {A} (f : A -> nat) l x y : NoDup (map f l) -> In x l -> In y l -> f x = f y -> x = y.
Proof.
  induction l as [|z l IH]; [intros _ []|]. cbn [map]. rewrite NoDup_cons_iff. intros [N D] [<-|I] [<-|J] E; auto; elim N; [rewrite E|rewrite <- E]; now apply in_map.
Qed.
Lemma Row_det s q k o l k' o' l' : NoDup (all s) -> Row s q k o l -> Row s q k' o' l' -> k = k' /\ o = o' /\ l = l'.
Proof. rewrite <- facts_keys. intros D A B. pose proof (keyed key _ _ _ D A B eq_refl) as E. injection E as -> -> ->. auto. Qed.
Lemma in_Row s q : In q (all s) -> exists k o l, Row s q k o l.
Proof. rewrite <- facts_keys. intros H. apply in_map_iff in H. destruct H as ([[[q' k] o] l] & E & I). cbn [key] in E. subst q'. now exists k, o, l. Qed.

(** ** Finding a subtree *)
Lemma seek_in_ids n t u : seek n t = Some u -> id_of u = n /\ In n (ids t).
Proof.
  revert u. induction t as [i k o ks IH] using tree_ind'. intros u. cbn [seek ids]. destruct (Nat.eqb_spec i n) as [->|N]; [intros [= <-]; split; [reflexivity|now left]|]. intros H. apply first_split in H. destruct H as (a & x & b & -> & F & _).
  rewrite Forall_forall in IH. destruct (IH x ltac:(apply in_or_app; right; now left) u F) as [A B]. split; [exact A|]. right. apply in_flat_map. exists x. split; [apply in_or_app; right; now left|exact B].
Qed.
Lemma seek_none n t : seek n t = None <-> ~ In n (ids t).
Proof.
  induction t as [i k o ks IH] using tree_ind'. cbn [seek ids]. destruct (Nat.eqb_spec i n) as [->|N].
  - split; [discriminate|]. intros H. elim H. now left.
  - rewrite first_none. rewrite Forall_forall in IH. split.
    + intros H [E|I]; [now apply N|]. apply in_flat_map in I. destruct I as (x & I & J). apply (IH x I) in J; auto.
    + intros H x I. apply (IH x I). intros J. apply H. right. apply in_flat_map. eauto.
Qed.
Lemma swap_out n g t : ~ In n (ids t) -> swap n g t = [t].
Proof.
  induction t as [i k o ks IH] using tree_ind'. cbn [swap ids]. intros H. destruct (Nat.eqb_spec i n) as [->|N]; [elim H; now left|]. do 2 f_equal.
  assert (E : forall x, In x ks -> ~ In n (ids x)) by (intros x I J; apply H; right; apply in_flat_map; eauto). clear H. induction IH as [|t ks Ht IH IH2]; [reflexivity|]. cbn [flat_map]. rewrite Ht by (apply E; now left). cbn [app]. f_equal. apply IH2. intros x I. apply E. now right.
Qed.
Lemma swap_outs n g l : ~ In n (flat_map ids l) -> flat_map (swap n g) l = l.
Proof.
  induction l as [|t l IH]; [reflexivity|]. cbn [flat_map]. rewrite in_app_iff. intros H. rewrite swap_out by tauto. cbn [app]. f_equal. apply IH. tauto.
Qed.
Lemma swaps_out n g s : ~ In n (all s) -> swaps n g s = s.
Proof.
  unfold all, swaps. induction s as [|l s IH]; [reflexivity|]. cbn [flat_map map]. rewrite in_app_iff. intros H. rewrite swap_outs by tauto. f_equal. apply IH. tauto.
Qed.
(* a context is extended by one inside it *)
Fixpoint inside (c e : ctx) : ctx :=
  match e with Top _ l r _ => match c with Top b l' r' a => Top b (l' ++ l) (r ++ r') a | Deep c i k o l' r' => Deep c i k o (l' ++ l) (r ++ r') end | Deep e i k o l r => Deep (inside c e) i k o l r end.
(* what is below one list *)
Lemma seek_ctx n t u : seek n t = Some u -> exists e, fill e [u] = [[t]] /\ (NoDup (ids t) -> forall g, fill e (g u) = [swap n g t]).
Proof.
  revert u. induction t as [i k o ks IH] using tree_ind'. intros u. cbn [seek]. destruct (Nat.eqb_spec i n) as [->|N].
  - intros [= <-]. exists (Top [] [] [] []). split; [reflexivity|]. intros _ g. cbn [fill app swap]. now rewrite Nat.eqb_refl, app_nil_r.
  - intros H. apply first_split in H. destruct H as (a & x & b & -> & F & Z). rewrite Forall_forall in IH. destruct (IH x ltac:(apply in_or_app; right; now left) u F) as (e & E1 & E2).
    assert (G : forall e m y, fill e m = [y] -> fill (inside (Deep (Top [] [] [] []) i k o a b) e) m = [[Nd i k o (a ++ y ++ b)]]).
    { clear. induction e as [b0 l r a0|e IH i' k' o' l r]; intros m y; cbn [fill inside].
      - destruct b0 as [|z b0]; cbn [app]; [|intros [= _ H]; now destruct b0]. intros [= <- ->]. cbn [app]. now rewrite <- !app_assoc.
      - intros H. apply IH. exact H. }
    exists (inside (Deep (Top [] [] [] []) i k o a b) e). split; [rewrite (G e [u] [x] E1); reflexivity|]. intros D g. cbn [ids] in D. apply NoDup_cons_iff in D. destruct D as [_ D]. rewrite flat_map_app in D. cbn [flat_map] in D. rewrite !NoDup_app_iff in D.
    destruct D as (D1 & (D2 & D3 & D4) & D5). rewrite (G e (g u) (swap n g x) (E2 D2 g)). cbn [swap]. apply Nat.eqb_neq in N. rewrite N. rewrite flat_map_app. cbn [flat_map]. apply seek_in_ids in F. destruct F as [_ F].
    rewrite (swap_outs n g a) by (intros J; apply (D5 n J); apply in_or_app; now left). rewrite (swap_outs n g b) by (intros J; now apply (D4 n F)). reflexivity.
Qed.
Lemma seek_ctx_in s n t : seek_in s n = Some t -> id_of t = n /\ exists c, fill c [t] = s /\ (NoDup (all s) -> forall g, swaps n g s = fill c (g t)).
Proof.
  unfold seek_in. intros H. apply first_split in H. destruct H as (b & grp & a & -> & H & Zb). apply first_split in H. destruct H as (l & x & r & -> & F & Zl). split; [exact (proj1 (seek_in_ids _ _ _ F))|].
  destruct (seek_ctx n x t F) as (e & E1 & E2).
  assert (G : forall e m y, fill e m = [y] -> fill (inside (Top b l r a) e) m = b ++ [l ++ y ++ r] ++ a).
  { clear. induction e as [b0 l0 r0 a0|e IH i' k' o' l0 r0]; intros m y; cbn [fill inside].
    - destruct b0 as [|z b0]; cbn [app]; [|intros [= _ H]; now destruct b0]. intros [= <- ->]. now rewrite <- !app_assoc.
    - intros H. apply IH. exact H. }
  exists (inside (Top b l r a) e). split; [rewrite (G e [t] [x] E1); reflexivity|]. intros D g.
  unfold all in D. rewrite flat_map_app in D. cbn [flat_map] in D. rewrite flat_map_app in D. cbn [flat_map] in D. rewrite !NoDup_app_iff in D. destruct D as (D1 & ((D2 & (D3 & D4 & D5) & D6) & D7 & D8) & D9).
  rewrite (G e (g t) (swap n g x) (E2 D3 g)). unfold swaps. rewrite map_app. cbn [map]. rewrite flat_map_app. cbn [flat_map]. apply seek_in_ids in F. destruct F as [_ F].
  assert (B : In n (flat_map ids l ++ ids x ++ flat_map ids r)) by (apply in_or_app; right; apply in_or_app; now left).
  fold (swaps n g b) (swaps n g a). rewrite (swaps_out n g b) by (intros J; apply (D9 n J); rewrite !in_app_iff in *; tauto). rewrite (swaps_out n g a) by (intros J; exact (D8 n B J)).
  rewrite (swap_outs n g l) by (intros J; apply (D6 n J); apply in_or_app; now left). rewrite (swap_outs n g r) by (intros J; now apply (D5 n F)). reflexivity.
Qed.
Lemma seek_some s n : In n (all s) -> exists t, seek_in s n = Some t.
Proof.
  intros H. destruct (seek_in s n) as [t|] eqn:E; [eauto|]. exfalso. unfold seek_in in E. rewrite first_none in E. apply in_flat_map in H. destruct H as (grp & I & H). apply in_flat_map in H. destruct H as (t & J & H).
  specialize (E grp I). rewrite first_none in E. specialize (E t J). now apply seek_none in E.
Qed.
Lemma seek_in_some s n t : seek_in s n = Some t -> In n (all s).
Proof.
  unfold seek_in. intros H. apply first_split in H. destruct H as (b & grp & a & -> & H & _). apply first_split in H. destruct H as (l & x & r & -> & F & _). apply seek_in_ids in F. destruct F as [_ F].
  unfold all. rewrite flat_map_app. cbn [flat_map]. rewrite flat_map_app. cbn [flat_map]. rewrite !in_app_iff. tauto.
Qed.
