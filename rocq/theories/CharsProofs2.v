From Coq Require Import QArith Lia Setoid.
From Verif Require Import PyBase PyText PyList PySplit LookupModel TextModel TextSpec TextProofs TextProofs2 CharsModel CharsSpec CharsProofs.
#[local] Open Scope N_scope.

(** ** What is read *)
Lemma visible_app a b : visible (a ++ b) = visible a ++ visible b.
Proof. unfold visible. now rewrite filter_app. Qed.
Lemma visible_spaces s : forallb is_space s = true -> visible s = [].
Proof.
  intros H. unfold visible. induction s as [|c s IH]; [reflexivity|]. cbn [forallb] in H. apply andb_true_iff in H. destruct H as [H1 H2]. cbn [filter]. rewrite H1. now apply IH.
Qed.
Lemma visible_rstrip t : visible (rdropwhile is_space t) = visible t.
Proof. destruct (rdropwhile_split is_space t) as (s & E & F). rewrite E at 2. rewrite visible_app, (visible_spaces s F). now rewrite app_nil_r. Qed.
Lemma read_visible lib l : forall prev cs, read lib prev l = Ok cs -> visible (concat (map snd cs)) = visible (concat (map (c_unescape lib) (pieces l))).
Proof.
  induction l as [|[k ws t| |] l IH]; intros prev cs; cbn [read pieces map concat].
  - now intros [= <-].
  - rewrite visible_app, <- (visible_keeps lib ws t prev (match prev with None => true | Some _ => false end) false).
    destruct (normalize_text lib ws t prev _ false) as [|c o]; [intros H; now rewrite (IH _ _ H)|]. destruct (read lib (Some (c :: o)) l) as [cs2|] eqn:E; [|discriminate]. cbn [bind]. intros [= <-].
    cbn [map snd concat]. rewrite visible_app. now rewrite (IH _ _ E).
  - destruct prev; [apply IH|discriminate].
  - discriminate.
Qed.
Lemma trim_last_visible cs : visible (concat (map snd (trim_last cs))) = visible (concat (map snd cs)).
Proof.
  destruct cs as [|[k t] cs] using rev_ind; [reflexivity|]. rewrite trim_last_snoc, !map_app, !concat_app, !visible_app. cbn [map snd concat]. now rewrite !app_nil_r, visible_rstrip.
Qed.
Lemma read_owner lib l : forall prev cs k t, read lib prev l = Ok cs -> In (k, t) cs -> exists ws u, In (Piece k ws u) l.
Proof.
  induction l as [|[k0 ws t0| |] l IH]; intros prev cs k t; cbn [read].
  - intros [= <-] [].
  - destruct (normalize_text lib ws t0 prev _ false) as [|c o]; [intros H I; destruct (IH _ _ _ _ H I) as (w & u & X); exists w, u; now right|]. destruct (read lib (Some (c :: o)) l) as [cs2|] eqn:E; [|discriminate]. cbn [bind]. intros [= <-].
    intros [[= <- <-]|I]; [exists ws, t0; now left|]. destruct (IH _ _ _ _ E I) as (w & u & X). exists w, u. now right.
  - destruct prev; [|discriminate]. intros H I. destruct (IH _ _ _ _ H I) as (w & u & X). exists w, u. now right.
  - discriminate.
Qed.
Definition pieces_of (k : N) (l : list event) : nat := length (filter (fun e => match e with Piece k0 _ _ => N.eqb k0 k | _ => false end) l).
Lemma read_count lib l : forall prev cs k, read lib prev l = Ok cs -> (length (owned k cs) <= pieces_of k l)%nat.
Proof.
  unfold pieces_of, owned. induction l as [|[k0 ws t| |] l IH]; intros prev cs k; cbn [read filter].
  - intros [= <-]. cbn. lia.
  - destruct (normalize_text lib ws t prev _ false) as [|c o].
    + intros H. apply (IH _ _ k) in H. destruct (N.eqb k0 k); cbn [length]; lia.
    + destruct (read lib (Some (c :: o)) l) as [cs2|] eqn:E; [|discriminate]. cbn [bind]. intros [= <-]. apply (IH _ _ k) in E. cbn [filter fst]. destruct (N.eqb k0 k); cbn [map length]; lia.
  - destruct prev; [apply IH|discriminate].
  - discriminate.
Qed.
Lemma owned_map k {A B} (f : N * A -> N * B) l : (forall x, fst (f x) = fst x) -> length (owned k (map f l)) = length (owned k l).
Proof. intros H. unfold owned. rewrite !map_length. induction l as [|x l IH]; [reflexivity|]. cbn [map filter]. rewrite H. destruct (fst x =? k); cbn [length]; lia. Qed.
Lemma owned_length k {A B} (l : list (N * A)) (m : list (N * B)) : map fst l = map fst m -> length (owned k l) = length (owned k m).
Proof.
  unfold owned. rewrite !map_length. revert m. induction l as [|[a x] l IH]; intros [|[b y] m]; cbn [map fst filter]; [reflexivity|discriminate|discriminate|]. intros [= -> H]. specialize (IH m H).
  destruct (b =? k); cbn [length]; lia.
Qed.
Lemma owned_part k (l : list chunk) t : In t (owned k l) -> exists a b, concat (map snd l) = a ++ t ++ b.
Proof.
  unfold owned. induction l as [|[a x] l IH]; [intros []|]. cbn [filter fst map snd concat]. intros H.
  assert (D : x = t \/ In t (map snd (filter (fun x => fst x =? k) l))) by (destruct (a =? k); [destruct H as [H|H]; auto|auto]).
  destruct D as [-> |D]; [exists [], (concat (map snd l)); reflexivity|]. destruct (IH D) as (p & q & ->). exists (x ++ p), q. now rewrite <- app_assoc.
Qed.

(** ** The pieces of an element *)
Lemma events_keys e k ws t : In (Piece k ws t) (events e) -> In k (keys e).
Proof.
  induction e as [|key name shown w content kids IH] using celem_ind'; [intros []|]. cbn [events keys]. destruct (drawn name shown); [|intros []]. intros H. apply in_app_or in H. destruct H as [H|H].
  - destruct content; [|destruct H]. destruct H as [[= -> _ _]|[]]. now left.
  - apply in_flat_map in H. destruct H as ([x tl] & I & H). cbn [fst snd] in H. rewrite Forall_forall in IH. specialize (IH _ I). cbn [fst] in IH. destruct x as [|kk kn ks kw kt kks]; [destruct H as [H|[]]; discriminate|].
    apply in_app_or in H. destruct H as [H|H].
    + destruct (drawn kn ks); [|destruct H]. apply in_app_or in H. destruct H as [H|[H|[]]]; [|discriminate]. right. apply in_flat_map. exists (CE kk kn ks kw kt kks, tl). split; [exact I|]. cbn [fst]. now apply IH.
    + destruct (flows kn); [|destruct H]. destruct tl; [|destruct H]. destruct H as [[= -> _ _]|[]]. now left.
Qed.
Lemma keys_inside x e : inside x e -> x <> CO -> In (key_of x) (keys e).
Proof.
  induction 1 as [e|x key name shown ws t kids k tl I H IH]; intros NE.
  - destruct e; [congruence|]. now left.
  - cbn [keys]. right. apply in_flat_map. exists (k, tl). split; [exact I|]. now apply IH.
Qed.
Lemma pieces_of_app k a b : pieces_of k (a ++ b) = (pieces_of k a + pieces_of k b)%nat.
Proof. unfold pieces_of. now rewrite filter_app, app_length. Qed.
Lemma pieces_of_absent k l : (forall ws t, ~ In (Piece k ws t) l) -> pieces_of k l = 0%nat.
Proof.
  unfold pieces_of. induction l as [|[k0 ws t| |] l IH]; intros H; cbn [filter]; [reflexivity| | |].
  - destruct (k0 =? k) eqn:E; [apply N.eqb_eq in E; subst; now elim (H ws t); left|]. apply IH. intros w u I. apply (H w u). now right.
  - apply IH. intros w u I. apply (H w u). now right.
  - apply IH. intros w u I. apply (H w u). now right.
Qed.
Lemma NoDup_app_remove_l {A} (a b : list A) : NoDup (a ++ b) -> NoDup b.
Proof. induction a as [|x a IH]; [auto|]. cbn [app]. intros H. apply NoDup_cons_iff in H. now apply IH. Qed.
Lemma NoDup_app_remove_r {A} (a b : list A) : NoDup (a ++ b) -> NoDup a.
Proof.
  induction a as [|x a IH]; [constructor|]. cbn [app]. intros H. apply NoDup_cons_iff in H. destruct H as [H1 H2]. apply NoDup_cons_iff. split; [|now apply IH]. intros I. apply H1. apply in_or_app. now left.
Qed.
Lemma NoDup_flat_map {A} (f : A -> list N) l : NoDup (flat_map f l) -> forall p x q, l = p ++ x :: q -> NoDup (f x) /\ (forall k, In k (f x) -> forall y, In y p \/ In y q -> ~ In k (f y)).
Proof.
  intros ND p x q ->. rewrite flat_map_app in ND. cbn [flat_map] in ND. split.
  - apply NoDup_app_remove_l in ND. now apply NoDup_app_remove_r in ND.
  - intros k Hk y D Hy. destruct D as [D|D].
    + assert (I : In k (flat_map f p)) by (apply in_flat_map; eauto). clear - ND Hk I. induction (flat_map f p) as [|a r IH]; [destruct I|]. cbn [app] in ND. apply NoDup_cons_iff in ND. destruct ND as [N1 N2].
      destruct I as [-> |I]; [apply N1; apply in_or_app; right; apply in_or_app; now left|]. now apply IH.
    + assert (I : In k (flat_map f q)) by (apply in_flat_map; eauto). apply NoDup_app_remove_l in ND. clear - ND Hk I. induction (f x) as [|a r IH]; [destruct Hk|]. cbn [app] in ND. apply NoDup_cons_iff in ND. destruct ND as [N1 N2].
      destruct Hk as [-> |Hk]; [apply N1; apply in_or_app; now right|]. now apply IH.
Qed.
(* an element without children owns one piece at most *)
Lemma leaf_pieces x e : inside x e -> forall key name shown ws t, x = CE key name shown ws t [] -> NoDup (keys e) -> (pieces_of key (events e) <= 1)%nat.
Proof.
  induction 1 as [e|x key0 name0 shown0 ws0 t0 kids k tl I H IH]; intros key name shown ws t -> ND.
  - cbn [events flat_map]. destruct (drawn name shown); [|cbn; lia]. rewrite app_nil_r. destruct t; [|cbn; lia]. unfold pieces_of. cbn [piece filter]. destruct (key =? key); cbn; lia.
  - cbn [events]. destruct (drawn name0 shown0); [|cbn; lia]. cbn [keys] in ND. apply NoDup_cons_iff in ND. destruct ND as [N0 ND].
    assert (K : In key (keys k)) by (apply (keys_inside _ _ H); discriminate).
    assert (NE : key0 <> key). { intros ->. apply N0. apply in_flat_map. exists (k, tl). split; [exact I|exact K]. }
    assert (P0 : forall w u, pieces_of key (piece key0 w u) = 0%nat) by (intros w [u|]; [|reflexivity]; unfold pieces_of; cbn [piece filter]; apply N.eqb_neq in NE; now rewrite NE).
    rewrite pieces_of_app, P0. cbn [Nat.add]. destruct (in_split _ _ I) as (p & q & E). pose proof (NoDup_flat_map _ _ ND _ _ _ E) as [N1 N2]. cbn [fst] in N1, N2. subst kids.
    specialize (IH _ _ _ _ _ eq_refl N1). rewrite flat_map_app. cbn [flat_map fst snd]. rewrite !pieces_of_app.
    assert (Z : forall r, (forall y, In y r -> In y p \/ In y q) -> pieces_of key (flat_map (fun k : celem * option text => match fst k with CO => [Note] | CE _ n s _ _ _ => (if drawn n s then events (fst k) ++ [Close] else []) ++ (if flows n then piece key0 ws0 (snd k) else []) end) r) = 0%nat).
    { induction r as [|[y ty] r IHr]; intros Hr; [reflexivity|]. cbn [flat_map fst snd]. rewrite pieces_of_app, IHr by (intros z Iz; apply Hr; now right). rewrite Nat.add_0_r.
      assert (Y : ~ In key (keys y)) by (apply (N2 key K (y, ty)); apply Hr; now left). destruct y as [|yk yn ys yw yt yks]; [reflexivity|]. rewrite pieces_of_app.
      assert (E1 : pieces_of key (if drawn yn ys then events (CE yk yn ys yw yt yks) ++ [Close] else []) = 0%nat).
      { destruct (drawn yn ys); [|reflexivity]. rewrite pieces_of_app. rewrite pieces_of_absent; [reflexivity|]. intros w u IN. apply Y. now apply events_keys in IN. }
      rewrite E1. destruct (flows yn); [apply P0|reflexivity]. }
    rewrite (Z p), (Z q) by auto. rewrite Nat.add_0_r. cbn [Nat.add]. destruct k as [|kk kn ks kw kt kks]; [cbn; lia|]. rewrite pieces_of_app.
    assert (E2 : pieces_of key (if flows kn then piece key0 ws0 tl else []) = 0%nat) by (destruct (flows kn); [apply P0|reflexivity]). rewrite E2, Nat.add_0_r.
    destruct (drawn kn ks); [|cbn; lia]. rewrite pieces_of_app. cbn [Nat.add]. replace (pieces_of key [Close]) with 0%nat by reflexivity. lia.
Qed.
Lemma trim_trimmed cs : trim_last cs = trimmed cs.
Proof. destruct cs as [|[k t] cs] using rev_ind; [reflexivity|]. rewrite trim_last_snoc. unfold trimmed. now rewrite rev_app_distr; cbn [rev app]; rewrite rev_involutive. Qed.

(** ** Advances *)
Lemma sum_acc l : forall a, (fold_left Qplus l a == a + total l)%Q.
Proof. induction l as [|x l IH]; intros a; cbn [fold_left total]; [ring|]. rewrite IH. ring. Qed.
Lemma sum_total l : (sum l == total l)%Q.
Proof. unfold sum. rewrite sum_acc. ring. Qed.
Lemma total_app a b : (total (a ++ b) == total a + total b)%Q.
Proof. induction a as [|x a IH]; cbn [app total]; [ring|]. rewrite IH. ring. Qed.
Lemma total_concat l : (total (concat l) == total (map total l))%Q.
Proof. induction l as [|x l IH]; cbn [concat map total]; [reflexivity|]. now rewrite total_app, IH. Qed.
Lemma slice_nat {A} (l : list A) (a n : nat) : list_slice l (Z.of_nat a) (Z.of_nat a + Z.of_nat n) = firstn n (skipn a l).
Proof.
  unfold list_slice, clamp_index. assert (A0 : (Z.of_nat a <? 0)%Z = false) by (apply Z.ltb_ge; lia). assert (B0 : (Z.of_nat a + Z.of_nat n <? 0)%Z = false) by (apply Z.ltb_ge; lia). rewrite A0, B0, A0, B0.
  destruct (Z.of_nat (length l) <? Z.of_nat a)%Z eqn:E1.
  - apply Z.ltb_lt in E1. rewrite !skipn_all2 by lia. now rewrite !firstn_nil.
  - apply Z.ltb_ge in E1. rewrite Nat2Z.id. destruct (Z.of_nat (length l) <? Z.of_nat a + Z.of_nat n)%Z eqn:E2.
    + apply Z.ltb_lt in E2. rewrite !firstn_all2; [reflexivity| |]; rewrite skipn_length; lia.
    + f_equal. lia.
Qed.
Lemma sub_sum_nat adv (a n : nat) : (sub_sum adv (Z.of_nat a) (Z.of_nat n) == total (firstn n (skipn a adv)))%Q.
Proof. unfold sub_sum. assert (E : (Z.of_nat n =? -1)%Z = false) by (apply Z.eqb_neq; lia). rewrite E, slice_nat. apply sum_total. Qed.
Lemma sub_sum_rest adv (a : nat) : (sub_sum adv (Z.of_nat a) (-1) == total (skipn a adv))%Q.
Proof.
  unfold sub_sum. rewrite Z.eqb_refl. rewrite sum_total. unfold list_slice, clamp_index. assert (A0 : (Z.of_nat a <? 0)%Z = false) by (apply Z.ltb_ge; lia).
  assert (B0 : (Z.of_nat (length adv) <? 0)%Z = false) by (apply Z.ltb_ge; lia). assert (B1 : (Z.of_nat (length adv) <? Z.of_nat (length adv))%Z = false) by (apply Z.ltb_ge; lia). rewrite A0, B0, A0, B0, B1.
  rewrite !Nat2Z.id. destruct (Z.of_nat (length adv) <? Z.of_nat a)%Z eqn:E1.
  - apply Z.ltb_lt in E1. rewrite !skipn_all2 by lia. rewrite firstn_nil. reflexivity.
  - apply Z.ltb_ge in E1. rewrite firstn_all2; [reflexivity|]. rewrite skipn_length. lia.
Qed.
Lemma firstn_split {A} (l : list A) a b : firstn (a + b) l = firstn a l ++ firstn b (skipn a l).
Proof. revert l. induction a as [|a IH]; intros [|x l]; cbn [Nat.add firstn skipn app]; [now rewrite firstn_nil|reflexivity|now rewrite firstn_nil|]. now rewrite IH. Qed.
Lemma skipn_add {A} (l : list A) a b : skipn b (skipn a l) = skipn (a + b) l.
Proof. revert l. induction a as [|a IH]; intros [|x l]; cbn [Nat.add skipn]; [reflexivity|reflexivity|apply skipn_nil|apply IH]. Qed.
Lemma sub_sum_add adv (a n m : nat) : (sub_sum adv (Z.of_nat a) (Z.of_nat n) + sub_sum adv (Z.of_nat a + Z.of_nat n) (Z.of_nat m) == sub_sum adv (Z.of_nat a) (Z.of_nat n + Z.of_nat m))%Q.
Proof.
  rewrite <- !Nat2Z.inj_add, !sub_sum_nat, firstn_split, total_app, skipn_add. reflexivity.
Qed.
Lemma sub_sum_whole adv (a : nat) : (sub_sum adv 0 (Z.of_nat a) + sub_sum adv (Z.of_nat a) (-1) == sub_sum adv 0 (-1))%Q.
Proof.
  rewrite (sub_sum_nat adv 0 a), sub_sum_rest, (sub_sum_rest adv 0). cbn [skipn]. rewrite <- total_app, firstn_skipn. reflexivity.
Qed.
(* the advances of an element, or its refusal *)
Definition advances_of (lib : charlib) (shape : shaper) (l : line) : result (list Q) :=
  match nearest_text l with
  | None => Ok []
  | Some root => do cs <- chars_info lib root;
      match l with
      | [] => Err NotImplementedError_
      | self :: _ => if text_eqb (name_of self) (lit "text") then Ok (concat (map snd (shape cs)))
                     else if mem (name_of self) text_children then Ok (match owned (key_of self) (shape cs) with [] => [] | a :: _ => a end)
                     else Err NotImplementedError_
      end
  end.
Lemma sub_sum_nil a n : (sub_sum [] a n == 0)%Q.
Proof. unfold sub_sum, list_slice. cbn [length]. replace (skipn (clamp_index 0 a) []) with (@nil Q) by now rewrite skipn_nil. now rewrite firstn_nil. Qed.
Lemma length_advances lib shape l : (forall e, advances_of lib shape l = Err e -> forall a n, get_sub_string_length lib shape l a n = Err e) /\
  (forall adv, advances_of lib shape l = Ok adv -> forall a n, exists x, get_sub_string_length lib shape l a n = Ok x /\ (x == sub_sum adv a n)%Q).
Proof.
  unfold advances_of, get_sub_string_length. destruct (nearest_text l) as [root|].
  2:{ split; [discriminate|]. intros adv [= <-] a n. exists 0%Q. split; [reflexivity|]. symmetry. apply sub_sum_nil. }
  destruct (chars_info lib root) as [cs|e0]; cbn [bind].
  2:{ split; [|discriminate]. now intros e [= <-] a n. }
  destruct l as [|self up]; [split; [|discriminate]; now intros e [= <-] a n|].
  destruct (text_eqb (name_of self) (lit "text")). { split; [discriminate|]. intros adv [= <-] a n. eexists. split; reflexivity. }
  destruct (mem (name_of self) text_children). 2:{ split; [|discriminate]. now intros e [= <-] a n. }
  split; [discriminate|]. intros adv [= <-] a n. destruct (owned (key_of self) (shape cs)); [|eexists; split; reflexivity]. exists 0%Q. split; [reflexivity|]. symmetry. apply sub_sum_nil.
Qed.
Lemma length_inv lib shape l a n x : get_sub_string_length lib shape l a n = Ok x -> exists adv, advances_of lib shape l = Ok adv /\ (x == sub_sum adv a n)%Q.
Proof.
  intros H. destruct (length_advances lib shape l) as [H1 H2]. destruct (advances_of lib shape l) as [adv|e]; [|rewrite (H1 e eq_refl) in H; discriminate].
  destruct (H2 adv eq_refl a n) as (y & E & Y). rewrite H in E. injection E as <-. eauto.
Qed.
Lemma length_of lib shape l adv a n : advances_of lib shape l = Ok adv -> exists x, get_sub_string_length lib shape l a n = Ok x /\ (x == sub_sum adv a n)%Q.
Proof. intros H. now apply (proj2 (length_advances lib shape l)). Qed.
Lemma concat_lengths {A B} (l : list (N * list A)) (m : list (N * list B)) : map (fun x => (fst x, length (snd x))) l = map (fun x => (fst x, length (snd x))) m -> length (concat (map snd l)) = length (concat (map snd m)).
Proof. revert m. induction l as [|[a x] l IH]; intros [|[b y] m]; cbn [map fst snd concat]; try discriminate; [reflexivity|]. intros [= _ L H]. rewrite !app_length, L. now rewrite (IH m H). Qed.
Lemma owned_lengths {A B} k (l : list (N * list A)) (m : list (N * list B)) : map (fun x => (fst x, length (snd x))) l = map (fun x => (fst x, length (snd x))) m ->
  map (@length A) (owned k l) = map (@length B) (owned k m).
Proof.
  unfold owned. revert m. induction l as [|[a x] l IH]; intros [|[b y] m]; cbn [map fst snd filter]; try discriminate; [reflexivity|]. intros [= -> L H]. specialize (IH m H).
  destruct (b =? k); cbn [map snd]; [f_equal; [exact L|exact IH]|exact IH].
Qed.
Lemma advances_number lib shape l adv n : faithful shape -> advances_of lib shape l = Ok adv -> get_number_of_chars lib l = Ok n -> length adv = n.
Proof.
  intros F. unfold advances_of, get_number_of_chars, get_chars. destruct (nearest_text l) as [root|]; [|now intros [= <-] [= <-]]. destruct (chars_info lib root) as [cs|]; [|discriminate]. cbn [bind].
  destruct l as [|self up]; [discriminate|]. specialize (F cs). destruct (text_eqb (name_of self) (lit "text")).
  - intros [= <-] [= <-]. now apply concat_lengths.
  - destruct (mem (name_of self) text_children); [|discriminate]. intros [= <-]. apply (owned_lengths (key_of self)) in F. change (@owned (list N)) with (@owned text) in F.
    destruct (owned (key_of self) (shape cs)) as [|x r], (owned (key_of self) cs) as [|y s]; cbn [map] in F; try discriminate; cbn [bind]; intros [= <-]; [reflexivity|]. now injection F.
Qed.
