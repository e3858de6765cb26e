(** Proofs about unparsed values. *)
From Verif Require Import PyBase PyText PyCase PyList UnparsedModel UnparsedSpec.

(** ** The sequence *)
Lemma insert_end (l : list item) x : list_insert l (Z.of_nat (length l)) x = l ++ [x].
Proof.
  unfold list_insert, clamp_index. destruct (Z.ltb_spec (Z.of_nat (length l)) 0); [lia|]. destruct (Z.ltb_spec (Z.of_nat (length l)) 0); [lia|]. rewrite Z.ltb_irrefl, Nat2Z.id, firstn_all, skipn_all. reflexivity.
Qed.
Lemma append_spec l x : append l x = match x with Other => (l, Some TypeError) | _ => (l ++ [x], None) end.
Proof. unfold append, insert, set_int. rewrite insert_end. now destruct x. Qed.
Lemma extend_spec xs : forall l, extend l xs = (l ++ good_prefix xs, if all_good xs then None else Some TypeError).
Proof.
  induction xs as [|x xs IH]; intros l; cbn [extend good_prefix all_good forallb]; [now rewrite app_nil_r|].
  rewrite append_spec. destruct x; cbn [andb]; [rewrite IH, <- app_assoc; reflexivity|rewrite IH, <- app_assoc; reflexivity|now rewrite app_nil_r].
Qed.
Lemma bad_good xs : existsb bad xs = negb (all_good xs).
Proof. induction xs as [|x xs IH]; [reflexivity|]. cbn. rewrite IH. now destruct x. Qed.
Lemma norm_get {A} (l : list A) i k : norm_index (length l) i = Some k -> exists x, nth_error l k = Some x.
Proof.
  unfold norm_index. destruct (_ && _) eqn:E; [|discriminate]. intros [= <-]. apply andb_true_iff in E. destruct E as [A0 B]. apply Z.leb_le in A0. apply Z.ltb_lt in B.
  destruct (nth_error l (Z.to_nat (if (i <? 0)%Z then (i + Z.of_nat (length l))%Z else i))) eqn:N; [eauto|]. apply nth_error_None in N. lia.
Qed.
Lemma pop_spec l i : pop l i = del_int l i.
Proof.
  unfold pop, del_int, list_get, list_del. destruct (norm_index (length l) i) as [k|] eqn:E; [|reflexivity]. destruct (norm_get l i k E) as (x & ->). reflexivity.
Qed.
Lemma pop_last l : pop l (-1) = match l with [] => ([], Some IndexError) | _ => (removelast l, None) end.
Proof.
  rewrite pop_spec. destruct l as [|x l] using rev_ind; [reflexivity|]. clear IHl. rewrite removelast_last. unfold del_int, list_del, norm_index. rewrite app_length. cbn [length]. cbn [Z.ltb Z.compare].
  replace (-1 + Z.of_nat (length l + 1))%Z with (Z.of_nat (length l)) by lia. destruct (Z.leb_spec 0 (Z.of_nat (length l))); [|lia]. destruct (Z.ltb_spec (Z.of_nat (length l)) (Z.of_nat (length l + 1))); [|lia].
  cbn [andb]. rewrite Nat2Z.id. rewrite firstn_app, firstn_all, Nat.sub_diag. cbn [firstn]. rewrite app_nil_r. rewrite skipn_all2; [|rewrite app_length; cbn; lia]. rewrite app_nil_r.
  destruct l; reflexivity.
Qed.
Lemma clear_spec n : forall l, (length l < n)%nat -> clear_f n l = ([], None).
Proof.
  induction n as [|n IH]; intros l H; [lia|]. cbn [clear_f]. rewrite pop_last. destruct l as [|x l]; [reflexivity|]. apply IH.
  assert (E := app_removelast_last x (l := x :: l) ltac:(discriminate)). apply (f_equal (@length item)) in E. rewrite app_length in E. cbn [length] in *. lia.
Qed.
Lemma index_spec l t : forall i, match index_from l t i with
  | Some j => has_str t l = true /\ (i <= j < i + Z.of_nat (length l))%Z /\ firstn (Z.to_nat (j - i)) l ++ skipn (S (Z.to_nat (j - i))) l = without_first t l
  | None => has_str t l = false end.
Proof.
  induction l as [|x l IH]; intros i; cbn [index_from has_str existsb without_first]; [reflexivity|].
  assert (S : forall (H : match x with Str s => text_eqb s t | _ => false end = false), match index_from l t (i + 1) with
    | Some j => has_str t l = true /\ (i <= j < i + Z.of_nat (length (x :: l)))%Z /\ firstn (Z.to_nat (j - i)) (x :: l) ++ skipn (S (Z.to_nat (j - i))) (x :: l) = x :: without_first t l
    | None => has_str t l = false end).
  { intros _. specialize (IH (i + 1)%Z). destruct (index_from l t (i + 1)) as [j|]; [|exact IH]. destruct IH as (A & B & C). split; [exact A|]. cbn [length]. split; [lia|].
    replace (Z.to_nat (j - i)) with (S (Z.to_nat (j - (i + 1)))) by lia. cbn [firstn skipn app]. f_equal. exact C. }
  destruct x as [s| |]; cbn [orb]; [|now apply S|now apply S]. destruct (text_eqb s t); [|now apply S]. cbn [orb]. split; [reflexivity|]. cbn [length]. split; [lia|]. rewrite Z.sub_diag. reflexivity.
Qed.
Lemma remove_spec l t : remove l t = if has_str t l then (without_first t l, None) else (l, Some ValueError).
Proof.
  unfold remove. assert (H := index_spec l t 0). destruct (index_from l t 0) as [j|]; [|now rewrite H]. destruct H as (A & B & C). rewrite A. unfold del_int, list_del, norm_index.
  destruct (Z.ltb_spec j 0); [lia|]. destruct (Z.leb_spec 0 j); [|lia]. destruct (Z.ltb_spec j (Z.of_nat (length l))); [|lia]. cbn [andb]. rewrite Z.sub_0_r in C. now rewrite C.
Qed.
Lemma step_spec l o r : list_step l o = Some r -> ustep l o = r.
Proof.
  destruct o; cbn [list_step ustep]; try discriminate; intros [= <-].
  - unfold set_slice. rewrite bad_good. destruct (all_good xs); reflexivity.
  - unfold insert, set_int. destruct x; reflexivity.
  - apply append_spec.
  - apply extend_spec.
  - reflexivity.
  - reflexivity.
  - apply pop_spec.
  - apply remove_spec.
  - apply clear_spec. lia.
Qed.
(* members only *)
Lemma Forall_firstn' {A} (P : A -> Prop) n l : Forall P l -> Forall P (firstn n l).
Proof. revert n. induction l as [|x l IH]; intros [|n] H; cbn; try constructor; inversion H; subst; auto. Qed.
Lemma Forall_skipn' {A} (P : A -> Prop) n l : Forall P l -> Forall P (skipn n l).
Proof. revert n. induction l as [|x l IH]; intros [|n] H; cbn; auto. inversion H; subst; auto. Qed.
Lemma insert_members l i x : Forall member l -> member x -> Forall member (list_insert l i x).
Proof. intros H X. unfold list_insert. apply Forall_app. split; [now apply Forall_firstn'|constructor; [exact X|now apply Forall_skipn']]. Qed.
Lemma del_members l i : Forall member l -> Forall member (fst (del_int l i)).
Proof. intros H. unfold del_int, list_del. destruct (norm_index _ _); [|exact H]. apply Forall_app. split; [now apply Forall_firstn'|now apply Forall_skipn']. Qed.
Lemma slice_members l i j xs : Forall member l -> Forall member xs -> Forall member (list_set_slice l i j xs).
Proof. intros H X. unfold list_set_slice. apply Forall_app. split; [now apply Forall_firstn'|]. apply Forall_app. split; [exact X|now apply Forall_skipn']. Qed.
Lemma set_int_members l i x : Forall member l -> Forall member (fst (set_int l i x)).
Proof. intros H. unfold set_int. destruct (bad x) eqn:E; [exact H|]. apply insert_members; [exact H|]. intros ->. discriminate E. Qed.
Lemma good_members xs : all_good xs = true -> Forall member xs.
Proof. unfold all_good. rewrite forallb_forall. intros H. apply Forall_forall. intros x I ->. specialize (H _ I). discriminate H. Qed.
Lemma good_prefix_members xs : Forall member (good_prefix xs).
Proof. induction xs as [|[]]; cbn; constructor; auto; discriminate. Qed.
Lemma swaps_members n m : forall k l, Forall member l -> Forall member (fst (swaps n k m l)).
Proof.
  induction m as [|m IH]; intros k l H; cbn [swaps]; [exact H|]. destruct (list_get l _) as [a|]; [|exact H]. destruct (list_get l k) as [b|]; [|exact H].
  assert (A := set_int_members l k a H). destruct (set_int l k a) as [l1 [e|]]; [exact A|]. cbn [fst] in A.
  assert (B := set_int_members l1 (Z.of_nat n - k - 1) b A). destruct (set_int l1 _ b) as [l2 [e|]]; [exact B|]. now apply IH.
Qed.
Lemma step_members l o : Forall member l -> Forall member (fst (ustep l o)).
Proof.
  intros H. destruct o; cbn [ustep].
  - now apply set_int_members.
  - unfold set_slice. rewrite bad_good. destruct (all_good xs) eqn:E; [|exact H]. cbn. apply slice_members; [exact H|now apply good_members].
  - now apply set_int_members.
  - now apply set_int_members.
  - rewrite extend_spec. cbn. apply Forall_app. split; [exact H|apply good_prefix_members].
  - now apply del_members.
  - cbn. apply slice_members; [exact H|constructor].
  - rewrite pop_spec. now apply del_members.
  - unfold remove. destruct (index_from l t 0); [now apply del_members|exact H].
  - unfold clear. rewrite clear_spec by lia. constructor.
  - now apply swaps_members.
Qed.

(** ** Reification *)
Lemma tok_ind' (P : tok -> Prop) : (forall s c, P (TVal s c)) -> (forall n args, Forall P args -> P (TFun n args)) -> forall t, P t.
Proof. intros A B. fix F 1. intros [s c|n args]; [apply A|]. apply B. induction args as [|a r IH]; constructor; [apply F|exact IH]. Qed.
Definition finished (st : list item * text) : list item := fst st ++ flush_str (snd st).
Definition fallback_of (r : list tok) : option (list item) := match r with [] => None | _ => Some (reify r) end.
Lemma reify_val s c st : reify1 (TVal s c) st = (fst st, snd st ++ s). Proof. reflexivity. Qed.
Lemma loop_eq ts : forall st, (fix loop (ts : list tok) (st : list item * text) := match ts with [] => st | t :: r => loop r (reify1 t st) end) ts st = reify_loop ts st.
Proof. induction ts as [|t r IH]; intros st; [reflexivity|]. cbn [reify_loop]. apply IH. Qed.
Lemma reify_var n args st : is_var n = true ->
  reify1 (TFun n args) st = (fst st ++ flush_str (snd st) ++ [Ref (strip (flat_map ser (before_comma args))) (fallback_of (after_comma args))], []).
Proof.
  intros V. cbn [reify1]. rewrite V.
  assert (E : forall args acc, (fix var (args : list tok) (acc : text) : text * option (list item) :=
             match args with
             | [] => (acc, None)
             | TVal s true :: r =>
                 (acc, match r with
                       | [] => None
                       | _ => let st := (fix loop (ts : list tok) (st : list item * text) := match ts with [] => st | t :: r => loop r (reify1 t st) end) r ([], []) in
                              Some (fst st ++ flush_str (snd st))
                       end)
             | a :: r => var r (acc ++ ser a)
             end) args acc = (acc ++ flat_map ser (before_comma args), fallback_of (after_comma args))).
  { clear. induction args as [|a r IH]; intros acc; [cbn; now rewrite app_nil_r|]. destruct a as [s [|]|m args].
    - cbn [before_comma after_comma flat_map]. rewrite app_nil_r. destruct r as [|x r]; reflexivity.
    - rewrite IH. cbn [before_comma after_comma flat_map]. now rewrite <- app_assoc.
    - rewrite IH. cbn [before_comma after_comma flat_map]. now rewrite <- app_assoc. }
  rewrite E. reflexivity.
Qed.
Definition take_first (s : text) (u : list item) : text * list item := match u with Str x :: u' => (s ++ x, u') | _ => (s, u) end.
Definition take_last (u : list item) : text * list item := match rev u with Str x :: u' => (x, rev u') | _ => ([], u) end.
Lemma reify_fun n args st : is_var n = false -> exists s u s' u', take_first (snd st ++ n ++ lit "(") (reify args) = (s, u) /\ take_last u = (s', u') /\
  reify1 (TFun n args) st = (fst st ++ [Str s] ++ u', s' ++ lit ")").
Proof.
  intros V. cbn [reify1]. rewrite V. rewrite loop_eq. change (fst (reify_loop args ([], [])) ++ flush_str (snd (reify_loop args ([], [])))) with (reify args).
  unfold take_first, take_last. destruct (reify args) as [|[x|m f|] u].
  - exists (snd st ++ n ++ lit "("), [], [], []. repeat split.
  - eexists _, u, _, _. split; [rewrite <- !app_assoc; reflexivity|]. split; [apply surjective_pairing|]. destruct (rev u) as [|[y| |] w]; reflexivity.
  - eexists _, (Ref m f :: u), _, _. split; [reflexivity|]. split; [apply surjective_pairing|]. destruct (rev (Ref m f :: u)) as [|[y| |] w]; reflexivity.
  - eexists _, (Other :: u), _, _. split; [reflexivity|]. split; [apply surjective_pairing|]. destruct (rev (Other :: u)) as [|[y| |] w]; reflexivity.
Qed.
Lemma items_app a b : items_text (a ++ b) = items_text a ++ items_text b. Proof. apply flat_map_app. Qed.
Lemma flush_text s : items_text (flush_str s) = s. Proof. destruct s; [reflexivity|]. cbn. now rewrite app_nil_r. Qed.
Lemma take_first_text s u : fst (take_first s u) ++ items_text (snd (take_first s u)) = s ++ items_text u.
Proof. destruct u as [|[x| |] u]; try reflexivity. cbn. now rewrite <- app_assoc. Qed.
Lemma take_last_text u : items_text (snd (take_last u)) ++ fst (take_last u) = items_text u.
Proof.
  unfold take_last. destruct (rev u) as [|[x| |] w] eqn:E; cbn [fst snd]; try apply app_nil_r.
  assert (U : u = rev w ++ [Str x]) by (rewrite <- (rev_involutive u), E; reflexivity). rewrite U, items_app. cbn. now rewrite app_nil_r.
Qed.
Lemma take_first_eq s u (s' : text) u' : take_first s u = (s', u') -> s' ++ items_text u' = s ++ items_text u.
Proof. intros E. assert (T := take_first_text s u). rewrite E in T. exact T. Qed.
Lemma take_last_eq u (s' : text) u' : take_last u = (s', u') -> items_text u' ++ s' = items_text u.
Proof. intros E. assert (T := take_last_text u). rewrite E in T. exact T. Qed.
Definition st_text (st : list item * text) : text := items_text (fst st) ++ snd st.
Lemma finished_text st : items_text (finished st) = st_text st.
Proof. unfold finished, st_text. now rewrite items_app, flush_text. Qed.
(* size, for the suffix after a comma *)
Fixpoint size (t : tok) : nat := match t with TVal _ _ => 1 | TFun _ args => S (list_sum (map size args)) end.
Lemma sum_cons t r : list_sum (map size (t :: r)) = (size t + list_sum (map size r))%nat. Proof. reflexivity. Qed.
Lemma size_val s c : size (TVal s c) = 1%nat. Proof. reflexivity. Qed.
Lemma size_fun n a : size (TFun n a) = S (list_sum (map size a)). Proof. reflexivity. Qed.
Lemma after_size ts : (list_sum (map size (after_comma ts)) <= list_sum (map size ts))%nat.
Proof. induction ts as [|t r IH]; [reflexivity|]. destruct t as [s [|]|n a]; cbn [after_comma]; rewrite sum_cons; lia. Qed.
Lemma written_step k : forall ts, (list_sum (map size ts) < k)%nat -> forall w, written ts w -> forall st, st_text (reify_loop ts st) = st_text st ++ w.
Proof.
  induction k as [|k IH]; intros ts K w W st; [lia|]. destruct W as [|s c ts r W|n args ts a r V A R|n args ts r V E R|n args ts f r V E F R]; cbn [reify_loop].
  - now rewrite app_nil_r.
  - rewrite sum_cons, ?size_fun, ?size_val in K. rewrite (IH ts ltac:(lia) r W). unfold st_text. cbn [reify1 fst snd]. now rewrite <- !app_assoc.
  - rewrite sum_cons, ?size_fun, ?size_val in K. rewrite (IH ts ltac:(lia) r R). destruct (reify_fun n args st V) as (s & u & s' & u' & E1 & E2 & ->).
    assert (T1 := take_first_eq _ _ _ _ E1). assert (T2 := take_last_eq _ _ _ E2).
    assert (T3 : items_text (reify args) = a). { change (reify args) with (finished (reify_loop args ([], []))). rewrite finished_text, (IH args ltac:(lia) a A). reflexivity. }
    unfold st_text. cbn [fst snd]. rewrite items_app. change (items_text ([Str s] ++ u')) with (s ++ items_text u'). rewrite <- T2, T3 in T1.
    transitivity (items_text (fst st) ++ (s ++ items_text u' ++ s') ++ lit ")" ++ r); [now rewrite <- !app_assoc|]. rewrite T1. now rewrite <- !app_assoc.
  - rewrite sum_cons, ?size_fun, ?size_val in K. rewrite (IH ts ltac:(lia) r R). rewrite reify_var by exact V. rewrite E. unfold st_text. cbn [fst snd fallback_of]. rewrite !items_app, flush_text.
    cbn [items_text flat_map item_text]. rewrite !app_nil_r. now rewrite <- !app_assoc.
  - rewrite sum_cons, ?size_fun, ?size_val in K. rewrite (IH ts ltac:(lia) r R). rewrite reify_var by exact V. unfold fallback_of. destruct (after_comma args) as [|x y] eqn:Q; [congruence|].
    assert (T3 : items_text (reify (x :: y)) = f). { change (reify (x :: y)) with (finished (reify_loop (x :: y) ([], []))). rewrite finished_text, (IH (x :: y)) with (w := f); [reflexivity| |exact F].
      assert (Z := after_size args). rewrite Q in Z. lia. }
    unfold st_text. cbn [fst snd]. rewrite !items_app, flush_text. change (items_text [Ref (strip (flat_map ser (before_comma args))) (Some (reify (x :: y)))]) with ((lit "var(" ++ strip (flat_map ser (before_comma args)) ++ (lit "," ++ items_text (reify (x :: y))) ++ lit ")") ++ []).
    rewrite T3. rewrite !app_nil_r. now rewrite <- !app_assoc.
Qed.
Lemma reify_written ts w : written ts w -> items_text (reify ts) = w.
Proof. intros W. change (reify ts) with (finished (reify_loop ts ([], []))). rewrite finished_text. rewrite (written_step (S (list_sum (map size ts))) ts ltac:(lia) w W). reflexivity. Qed.
Lemma written_total k : forall ts, (list_sum (map size ts) < k)%nat -> exists w, written ts w.
Proof.
  induction k as [|k IH]; intros ts K; [lia|]. destruct ts as [|[s c|n args] ts]; [exists []; constructor| |]; rewrite sum_cons, ?size_fun, ?size_val in K.
  - destruct (IH ts ltac:(lia)) as (w & W). eexists. constructor. exact W.
  - destruct (IH ts ltac:(lia)) as (w & W). destruct (is_var n) eqn:V.
    + destruct (after_comma args) as [|x y] eqn:E; [eexists; apply w_var; eassumption|]. assert (Z := after_size args). rewrite E in Z. destruct (IH (x :: y) ltac:(lia)) as (f & F).
      eexists. apply w_var_or; [exact V|rewrite E; discriminate|rewrite E; exact F|exact W].
    + destruct (IH args ltac:(lia)) as (a & A). eexists. apply w_fun; eassumption.
Qed.
Lemma tidy_written ts : tidy ts -> written ts (flat_map ser ts).
Proof.
  assert (NC : forall a, has_comma a = false -> before_comma a = a /\ after_comma a = []).
  { induction a as [|t a IH]; [auto|]. destruct t as [s [|]|n x]; cbn; [discriminate| |]; intros H; destruct (IH H) as [-> ->]; auto. }
  assert (SP : forall b s f, has_comma b = false -> before_comma (b ++ TVal s true :: f) = b /\ after_comma (b ++ TVal s true :: f) = f).
  { induction b as [|t b IH]; intros s f; [auto|]. destruct t as [s0 [|]|n x]; cbn; [discriminate| |]; intros H; destruct (IH s f H) as [-> ->]; auto. }
  induction 1 as [|s c ts C T IH|n args ts V A IHA T IH|n args ts -> C S T IH|n args ts b s f -> -> -> C S NE F IHF T IH]; cbn [flat_map ser].
  - constructor.
  - now constructor.
  - rewrite <- !app_assoc. now constructor.
  - destruct (NC args C) as [E1 E2]. assert (W := w_var (lit "var") args ts _ eq_refl E2 IH). rewrite E1, S in W. rewrite <- !app_assoc. exact W.
  - destruct (SP b (lit ",") f C) as [E1 E2]. assert (W := w_var_or (lit "var") (b ++ TVal (lit ",") true :: f) ts (flat_map ser f) _ eq_refl ltac:(now rewrite E2) ltac:(now rewrite E2) IH). rewrite E1, S in W.
    rewrite flat_map_app. cbn [flat_map ser]. rewrite <- !app_assoc. exact W.
Qed.
(* no empty strings *)
Definition solid (x : item) : Prop := x <> Str [] /\ x <> Other.
Lemma flush_solid s : Forall solid (flush_str s). Proof. destruct s; constructor; [split; discriminate|constructor]. Qed.
Lemma reify1_solid t : forall st, Forall solid (fst st) -> Forall solid (fst (reify1 t st)).
Proof.
  induction t as [s c|n args IH] using tok_ind'; intros st H; [exact H|]. destruct (is_var n) eqn:V.
  - rewrite reify_var by exact V. cbn [fst]. apply Forall_app. split; [exact H|]. apply Forall_app. split; [apply flush_solid|]. constructor; [split; discriminate|constructor].
  - destruct (reify_fun n args st V) as (s & u & s' & u' & E1 & E2 & ->). cbn [fst]. 
    assert (L : forall ts st, Forall (fun t => forall st, Forall solid (fst st) -> Forall solid (fst (reify1 t st))) ts -> Forall solid (fst st) -> Forall solid (fst (reify_loop ts st))).
    { clear. induction ts as [|t ts IH]; intros st F H; [exact H|]. inversion F; subst. cbn [reify_loop]. apply IH; auto. }
    assert (R : Forall solid (reify args)). { unfold reify. apply Forall_app. split; [apply L; [exact IH|constructor]|apply flush_solid]. }
    assert (U : Forall solid u /\ s <> []).
    { unfold take_first in E1. destruct (reify args) as [|[x| |] w]; injection E1 as <- <-; split; try exact R; try (constructor); try (inversion R; assumption); intros Z; rewrite ?app_eq_nil in Z;
        repeat (match goal with H : _ ++ _ = [] |- _ => apply app_eq_nil in H; destruct H end); try discriminate. }
    apply Forall_app. split; [exact H|]. constructor; [split; [intros [= Z]; now apply U|discriminate]|]. unfold take_last in E2. destruct U as [U _].
    destruct (rev u) as [|[x| |] w] eqn:Q; injection E2 as <- <-; try exact U. apply Forall_rev. apply Forall_rev in U. rewrite Q in U. now inversion U.
Qed.
Lemma reify_solid ts : Forall solid (reify ts).
Proof.
  unfold reify. apply Forall_app. split; [|apply flush_solid]. assert (G : forall ts st, Forall solid (fst st) -> Forall solid (fst (reify_loop ts st))); [|apply G; constructor].
  clear. induction ts as [|t ts IH]; intros st H; [exact H|]. cbn [reify_loop]. apply IH. now apply reify1_solid.
Qed.
(* the references *)
Lemma refs_app a b : ref_names (a ++ b) = ref_names a ++ ref_names b. Proof. apply flat_map_app. Qed.
Lemma refs_flush s : ref_names (flush_str s) = []. Proof. now destruct s. Qed.
Lemma reify1_refs t : forall st, ref_names (fst (reify1 t st)) = ref_names (fst st) ++ var_names t.
Proof.
  induction t as [s c|n args IH] using tok_ind'; intros st; [cbn; now rewrite app_nil_r|]. cbn [var_names]. destruct (is_var n) eqn:V.
  - rewrite reify_var by exact V. cbn [fst]. rewrite !refs_app, refs_flush. reflexivity.
  - destruct (reify_fun n args st V) as (s & u & s' & u' & E1 & E2 & ->). cbn [fst]. rewrite !refs_app. f_equal. cbn [ref_names flat_map app].
    assert (L : forall ts st, Forall (fun t => forall st, ref_names (fst (reify1 t st)) = ref_names (fst st) ++ var_names t) ts -> ref_names (fst (reify_loop ts st)) = ref_names (fst st) ++ flat_map var_names ts).
    { clear. induction ts as [|t ts IH]; intros st F; [cbn; now rewrite app_nil_r|]. inversion F as [|? ? Ft Fs]; subst. cbn [reify_loop flat_map]. rewrite IH by exact Fs. rewrite Ft. now rewrite <- app_assoc. }
    assert (R : ref_names (reify args) = flat_map var_names args). { unfold reify. rewrite refs_app, refs_flush, app_nil_r. rewrite L by exact IH. reflexivity. }
    fold (ref_names u'). rewrite <- R. assert (A : ref_names u = ref_names (reify args)) by (unfold take_first in E1; destruct (reify args) as [|[x| |] w]; injection E1 as <- <-; reflexivity).
    rewrite <- A. unfold take_last in E2. destruct (rev u) as [|[x| |] w] eqn:Q; injection E2 as <- <-; try reflexivity.
    assert (U : u = rev w ++ [Str x]) by (rewrite <- (rev_involutive u), Q; reflexivity). rewrite U, refs_app. cbn. now rewrite app_nil_r.
Qed.
Lemma reify_refs ts : ref_names (reify ts) = flat_map var_names ts.
Proof.
  unfold reify. rewrite refs_app, refs_flush, app_nil_r. assert (G : forall ts st, ref_names (fst (reify_loop ts st)) = ref_names (fst st) ++ flat_map var_names ts); [|now rewrite G].
  clear. induction ts as [|t ts IH]; intros st; [cbn; now rewrite app_nil_r|]. cbn [reify_loop flat_map]. rewrite IH, reify1_refs. now rewrite <- app_assoc.
Qed.
