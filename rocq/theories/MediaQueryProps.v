(** C26, C27: media queries. *)
From Verif Require Import PyBase PyText PySplit PyDict MediaQueryModel MediaQuerySpec MediaQueryProofs.

(** An environment for the examples: a screen of 600px, lengths in px. *)
Definition demo_num (v : value) : option Q :=
  match v with
  | VInt z => Some (inject_Z z)
  | VText t => match rev t with
               | x :: p :: ds => if N.eqb x 120 && N.eqb p 112 && forallb is_digit ds
                                 then Some (inject_Z (fold_right (fun d n => Z.of_N d - 48 + 10 * n)%Z 0%Z ds)) else None
               | _ => None
               end
  end.
Definition demo_cmp (l r : value) : option Z :=
  match demo_num l, demo_num r with
  | Some a, Some b => Some (match Qcompare a b with Eq => 0 | Lt => -1 | Gt => 1 end)%Z
  | _, _ => None
  end.
Definition demo_ratio (v : value) : result Q :=
  match v with VInt z => Ok (inject_Z z) | VText t => if text_eqb t (lit "16/9") then Ok (16 # 9) else if text_eqb t (lit "4/3") then Ok (4 # 3) else Err ValueError end.
Definition demo : mqenv :=
  mkMq [(lit "media", VText (lit "screen")); (lit "width", VText (lit "600px")); (lit "height", VText (lit "800px"));
        (lit "orientation", VText (lit "portrait-primary")); (lit "hover", VText (lit "none")); (lit "color", VInt 8);
        (lit "scan", VText (lit "progressive")); (lit "aspect-ratio", VText (lit "16/9"))] demo_cmp demo_ratio.
Lemma demo_compares : compares demo_num demo_cmp.
Proof.
  intros l r a b A B. unfold demo_cmp. rewrite A, B. destruct (Qcompare_spec a b) as [H|H|H]; eexists; (split; [reflexivity|]);
    (split; [split; intros X; try discriminate X; try reflexivity; try exact H; try (rewrite X in H; exfalso; exact (Qlt_irrefl _ H)) |]);
    split; split; intros X; try discriminate X; try reflexivity; try exact H;
    try (rewrite H in X; exfalso; exact (Qlt_irrefl _ X)); try (exfalso; exact (Qlt_irrefl _ (Qlt_trans _ _ _ X H))).
Qed.
(* the truth about the demo environment *)
Definition demo_truth (t : tree) : bool :=
  match t with
  | TName n => match eval_name demo n with Ok r => fst r | Err _ => false end
  | TCompare a b => match eval_compare demo a b with Ok r => r | Err _ => false end
  | _ => false
  end.
Definition narrow := TCompare (OName (lit "width")) [(ONum (lit "700px"), OpLt)].  (* true *)
Definition wide := TCompare (OName (lit "width")) [(ONum (lit "700px"), OpGt)].    (* false *)

(** C26.  As long as every 'not' is about a single condition, a query means its
    Boolean reading, at any depth: queries that evaluate at all.
    Missing: 'not' about several conditions, which is wrong
    (c26_not_and_refuted, c26_not_or_refuted). *)
Theorem c26_boolean_partial : forall m v t, tells m v t -> grammatical t -> plain_nots t ->
  exists media, match_node m false t = Ok (truth v t, media).
Proof. intros m v t T G N. apply (match_truth m v t T N); auto. Qed.
Print Assumptions c26_boolean_partial.
(* screen and (width < 700px) and not (width > 700px) *)
Definition demo_query := TBool (Some BAnd) [BAnd; BAnd] [TName (lit "screen"); narrow; TNot (TBool None [] [wide])].
Example c26_boolean_case : tells demo demo_truth demo_query /\ grammatical demo_query /\ plain_nots demo_query /\ truth demo_truth demo_query = true /\
  match_node demo false demo_query = Ok (true, Some (lit "screen")).
Proof.
  repeat split; try reflexivity; try discriminate; try (intros [_ [H|[H|H]]]; (discriminate H || destruct H)); try (intros [[] _]).
  exists (Some (lit "screen")). reflexivity.
Qed.

(** 'not Q' holds exactly when Q does not, for Q of one condition *)
Theorem c26_not_partial : forall m v ops c, tells m v c -> match c with TName _ | TCompare _ _ => True | _ => False end -> ~ (In BAnd ops /\ In BOr ops) ->
  forall op b, (exists md, match_node m false (TBool op ops [c]) = Ok (b, md)) ->
    exists md, match_node m false (TNot (TBool op ops [c])) = Ok (negb b, md).
Proof.
  intros m v ops c T L M op b [md E].
  assert (G : forall t', t' = TBool op ops [c] \/ t' = TNot (TBool op ops [c]) -> tells m v t' /\ grammatical t' /\ plain_nots t').
  { intros t' [->| ->]; destruct c; try contradiction; cbn [tells grammatical plain_nots]; cbn in T; repeat split; auto; try discriminate. }
  destruct (G _ (or_introl eq_refl)) as (A1 & A2 & A3). destruct (G _ (or_intror eq_refl)) as (B1 & B2 & B3).
  destruct (c26_boolean_partial m v _ A1 A2 A3) as [md1 E1]. destruct (c26_boolean_partial m v _ B1 B2 B3) as [md2 E2].
  rewrite E1 in E. injection E as E _. exists md2. rewrite E2. rewrite <- E. reflexivity.
Qed.
Print Assumptions c26_not_partial.
Example c26_not_case : tells demo demo_truth narrow /\ match_node demo false (TBool None [] [narrow]) = Ok (true, None) /\
  match_node demo false (TNot (TBool None [] [narrow])) = Ok (false, None).
Proof. repeat split. Qed.

(** what 'not' about several conditions means: 'and' and 'or' are exchanged
    under it, so that not (a and b) is "neither a nor b", and not (a or b) is
    "not both" *)
Theorem c26_not_exchanges : forall m v op ops cs, cs <> [] -> ~ (In BAnd ops /\ In BOr ops) ->
  Forall (fun c => tells m v c /\ match c with TName _ | TCompare _ _ => True | _ => False end) cs ->
  exists media, match_node m false (TNot (TBool op ops cs)) =
    Ok (negb (match op with Some BAnd => existsb v cs | _ => forallb v cs end), media).
Proof.
  intros m v op ops cs NE M F. rewrite Forall_forall in F.
  destruct (match_not m v op ops cs) as [md E].
  { intros c I. destruct (F c I) as [T L]. destruct c; try contradiction; [exact T|]. cbn [child_eval]. cbn [tells] in T. rewrite T. eexists; reflexivity. }
  { exact NE. } { exact M. }
  exists md. rewrite E. f_equal. f_equal. f_equal.
  assert (X : forall c, In c cs -> truth v c = v c) by (intros c I; destruct (F c I) as [_ L]; destruct c; try contradiction; reflexivity).
  assert (X1 : existsb (truth v) cs = existsb v cs) by (clear -X; induction cs as [|c cs IH]; [reflexivity|]; cbn [existsb]; rewrite (X c (or_introl eq_refl)), IH by (intros; apply X; now right); reflexivity).
  assert (X2 : forallb (truth v) cs = forallb v cs) by (clear -X; induction cs as [|c cs IH]; [reflexivity|]; cbn [forallb]; rewrite (X c (or_introl eq_refl)), IH by (intros; apply X; now right); reflexivity).
  rewrite X1, X2. reflexivity.
Qed.
Print Assumptions c26_not_exchanges.
Example c26_not_exchanges_case : Forall (fun c => tells demo demo_truth c /\ match c with TName _ | TCompare _ _ => True | _ => False end) [narrow; wide] /\
  ~ (In BAnd [BAnd] /\ In BOr [BAnd]).
Proof. split; [repeat constructor|]. intros [_ [H|H]]; [discriminate|destruct H]. Qed.

(** not ((width < 700px) and (width > 700px)) does not match *)
Theorem c26_not_and_refuted : exists m v cs, tells m v (TBool (Some BAnd) [BAnd] cs) /\ truth v (TNot (TBool (Some BAnd) [BAnd] cs)) = true /\
  match_node m false (TNot (TBool (Some BAnd) [BAnd] cs)) = Ok (false, None).
Proof. exists demo, demo_truth, [narrow; wide]. repeat split. Qed.
Print Assumptions c26_not_and_refuted.
(** not ((width > 700px) or (width < 700px)) matches *)
Theorem c26_not_or_refuted : exists m v cs, tells m v (TBool (Some BOr) [BOr] cs) /\ truth v (TNot (TBool (Some BOr) [BOr] cs)) = false /\
  match_node m false (TNot (TBool (Some BOr) [BOr] cs)) = Ok (true, None).
Proof. exists demo, demo_truth, [wide; narrow]. repeat split. Qed.
Print Assumptions c26_not_or_refuted.

(** a query that mixes 'and' and 'or' is an error and does not match, and
    neither should its negation, but it does *)
Theorem c26_mixed : forall m no op ops cs, In BAnd ops -> In BOr ops -> match_node m no (TBool op ops cs) = Ok (false, None).
Proof. intros m no op ops cs A B. rewrite match_bool, (is_mixed ops A B). reflexivity. Qed.
Print Assumptions c26_mixed.
Example c26_mixed_case : In BAnd [BAnd; BOr] /\ In BOr [BAnd; BOr]. Proof. split; [left|right; left]; reflexivity. Qed.
Theorem c26_not_mixed_refuted : exists m ops cs, In BAnd ops /\ In BOr ops /\ match_node m false (TNot (TBool (Some BAnd) ops cs)) = Ok (true, None).
Proof. exists demo, [BAnd; BOr], [narrow; wide; wide]. repeat split; cbn; auto. Qed.
Print Assumptions c26_not_mixed_refuted.

(** a list matches iff one of its queries does, and the queries after the first
    that matches are not looked at *)
Theorem c26_list : forall m (f : tree -> bool) l, (forall t, In t l -> exists md, match_node m false t = Ok (f t, md)) ->
  exists b md, match_list m l = Ok (b, md) /\ (b = true <-> exists t, In t l /\ f t = true).
Proof.
  intros m f l H. destruct (match_list_spec m f l H) as [md E]. exists (existsb f l), md. split; [exact E|]. apply existsb_exists.
Qed.
Print Assumptions c26_list.
Example c26_list_case : match_list demo [TNot (TBool None [] [narrow]); demo_query] = Ok (true, Some (lit "screen")) /\
  match_list demo [TNot (TBool None [] [narrow])] = Ok (false, None).
Proof. split; reflexivity. Qed.
Theorem c26_list_first : forall m l1 t l2 md, Forall (fun t => exists d, match_node m false t = Ok (false, d)) l1 ->
  match_node m false t = Ok (true, md) -> match_list m (l1 ++ t :: l2) = Ok (true, md).
Proof.
  intros m l1 t l2 md H E. induction H as [|t1 l1 [d E1] _ IH]; cbn [app match_list].
  - rewrite E. reflexivity.
  - rewrite E1. cbn [bind fst]. exact IH.
Qed.
Print Assumptions c26_list_first.
Example c26_list_first_case : match_node demo false (TNot (TBool None [] [narrow])) = Ok (false, None) /\ match_node demo false demo_query = Ok (true, Some (lit "screen")).
Proof. split; reflexivity. Qed.

(** a media type matches the environment's, and 'all' matches any *)
Theorem c26_media_type : forall m n t, In n media_words -> dget (qenv m) (lit "media") = Some (VText t) ->
  exists b md, eval_name m n = Ok (b, md) /\ (b = true <-> n = lit "all" \/ n = t).
Proof.
  intros m n t T G. eexists _, _. split; [apply eval_name_media; eassumption|].
  rewrite Bool.orb_true_iff. destruct (text_eqb_spec n (lit "all")), (text_eqb_spec t n); intuition congruence.
Qed.
Print Assumptions c26_media_type.
Example c26_media_type_case : In (lit "print") media_words /\ eval_name demo (lit "print") = Ok (false, None).
Proof. split; [right; left; reflexivity|reflexivity]. Qed.

(** C27.  Comparisons of numbers, one-sided, two-sided or of any length: every
    neighbouring pair must compare as its operator says; a feature the
    environment does not have makes the comparison false. *)
Theorem c27_range : forall num m left rights, compares num (qcmp m) -> proper num m left ->
  Forall (fun p => proper num m (fst p)) rights ->
  eval_compare m left rights = Ok (chain num m (operand_num num m left) rights).
Proof. intros. now apply compare_chain. Qed.
Print Assumptions c27_range.
(* (500px < width <= 600px) *)
Example c27_range_case : compares demo_num (qcmp demo) /\
  chain demo_num demo (operand_num demo_num demo (ONum (lit "500px"))) [(OName (lit "width"), OpLt); (ONum (lit "600px"), OpLe)] = true /\
  proper demo_num demo (OName (lit "width")) /\
  eval_compare demo (ONum (lit "500px")) [(OName (lit "width"), OpLt); (ONum (lit "600px"), OpLe)] = Ok true.
Proof.
  split; [exact demo_compares|]. repeat split; try discriminate. cbn. intros H. repeat (destruct H as [H|H]; [discriminate H|]). exact H.
Qed.

(** the two-sided form is the conjunction of its two halves *)
Theorem c27_two_sided : forall num m a op1 n op2 b, compares num (qcmp m) -> num (VText a) <> None -> num (VText b) <> None ->
  proper num m (OName n) ->
  forall x y, eval_compare m (ONum a) [(OName n, op1)] = Ok x -> eval_compare m (OName n) [(ONum b, op2)] = Ok y ->
    eval_compare m (ONum a) [(OName n, op1); (ONum b, op2)] = Ok (x && y).
Proof.
  intros num m a op1 n op2 b C A B N x y X Y.
  rewrite (c27_range num m) in X by (auto; repeat constructor; apply N). rewrite (c27_range num m) in Y by (auto; repeat constructor; apply B).
  rewrite (c27_range num m) by (try exact C; try exact A; repeat apply Forall_cons; try apply Forall_nil; try exact N; exact B).
  injection X as <-. injection Y as <-. cbn [operand_num chain].
  destruct (num (VText a)) as [qa|]; [|congruence]. destruct (match dget (qenv m) n with Some v => num v | None => None end) as [v|]; [|now rewrite !Bool.andb_false_r].
  rewrite !Bool.andb_true_r. reflexivity.
Qed.
Print Assumptions c27_two_sided.
Example c27_two_sided_case : eval_compare demo (ONum (lit "500px")) [(OName (lit "width"), OpLt)] = Ok true /\
  eval_compare demo (OName (lit "width")) [(ONum (lit "550px"), OpLt)] = Ok false /\
  eval_compare demo (ONum (lit "500px")) [(OName (lit "width"), OpLt); (ONum (lit "550px"), OpLt)] = Ok false.
Proof. repeat split. Qed.

(** min- and max- *)
Theorem c27_min : forall num m n v x a b, compares num (qcmp m) -> numeric n -> n <> lit "grid" -> dget (qenv m) n = Some x ->
  num x = Some a -> num (VText v) = Some b ->
  exists r l rs, plain (lit "min-" ++ n) v = TCompare l rs /\ eval_compare m l rs = Ok r /\ (r = true <-> b <= a).
Proof.
  intros num m n v x a b C N G E A B. eexists _, _, _. split; [|split].
  - apply plain_min. intros I. apply (proj2 N). unfold discrete_features in I. cbn [In] in *. intuition congruence.
  - apply (c27_range num); [exact C| |constructor; [cbn; congruence|constructor]]. cbn. rewrite E. split; [exact N|congruence].
  - cbn [operand_num chain]. rewrite E, A, B. cbn [holds]. rewrite Bool.andb_true_r. apply Qle_bool_iff.
Qed.
Print Assumptions c27_min.
Theorem c27_max : forall num m n v x a b, compares num (qcmp m) -> numeric n -> n <> lit "grid" -> dget (qenv m) n = Some x ->
  num x = Some a -> num (VText v) = Some b ->
  exists r l rs, plain (lit "max-" ++ n) v = TCompare l rs /\ eval_compare m l rs = Ok r /\ (r = true <-> a <= b).
Proof.
  intros num m n v x a b C N G E A B. eexists _, _, _. split; [|split].
  - apply plain_max. intros I. apply (proj2 N). unfold discrete_features in I. cbn [In] in *. intuition congruence.
  - apply (c27_range num); [exact C| |constructor; [cbn; congruence|constructor]]. cbn. rewrite E. split; [exact N|congruence].
  - cbn [operand_num chain]. rewrite E, A, B. cbn [holds]. rewrite Bool.andb_true_r. apply Qle_bool_iff.
Qed.
Print Assumptions c27_max.
Theorem c27_plain : forall num m n v x a b, compares num (qcmp m) -> numeric n -> dget (qenv m) n = Some x ->
  num x = Some a -> num (VText v) = Some b -> (forall k, n <> lit "min-" ++ k) -> (forall k, n <> lit "max-" ++ k) ->
  exists r l rs, plain n v = TCompare l rs /\ eval_compare m l rs = Ok r /\ (r = true <-> a == b).
Proof.
  intros num m n v x a b C N E A B H1 H2. eexists _, _, _. split; [|split].
  - apply plain_eq; unfold has_prefix; match goal with |- text_eqb ?x ?y = false => destruct (text_eqb_spec x y) as [H|]; [|reflexivity] end; exfalso;
      [apply (H1 (skipn 4 n))|apply (H2 (skipn 4 n))]; rewrite <- H; symmetry; apply firstn_skipn.
  - apply (c27_range num); [exact C| |constructor; [cbn; congruence|constructor]]. cbn. rewrite E. split; [exact N|congruence].
  - cbn [operand_num chain]. rewrite E, A, B. cbn [holds]. rewrite Bool.andb_true_r. apply Qeq_bool_iff.
Qed.
Print Assumptions c27_plain.
Lemma width_numeric : numeric (lit "width").
Proof. split; [discriminate|]. intros H. cbn [In] in H. repeat (destruct H as [H|H]; [discriminate H|]). exact H. Qed.
Example c27_plain_case : numeric (lit "width") /\ lit "width" <> lit "grid" /\ demo_num (VText (lit "600px")) = Some (600 # 1) /\
  plain (lit "min-width") (lit "600px") = TCompare (OName (lit "width")) [(ONum (lit "600px"), OpGe)] /\
  eval_compare demo (OName (lit "width")) [(ONum (lit "600px"), OpGe)] = Ok true /\
  eval_compare demo (OName (lit "width")) [(ONum (lit "601px"), OpGe)] = Ok false.
Proof. split; [exact width_numeric|]. repeat split. discriminate. Qed.

(** (f = v), (f < v), (f > v): exactly one of them; (f <= v) is not (f > v),
    (f >= v) is not (f < v) *)
Theorem c27_trichotomy : forall num m n v x, compares num (qcmp m) -> numeric n -> dget (qenv m) n = Some x ->
  num x <> None -> num (VText v) <> None ->
  exists eq lt gt, (forall op, eval_compare m (OName n) [(ONum v, op)] =
      Ok (match op with OpEq => eq | OpLt => lt | OpGt => gt | OpLe => negb gt | OpGe => negb lt end)) /\
    ((eq = true /\ lt = false /\ gt = false) \/ (eq = false /\ lt = true /\ gt = false) \/ (eq = false /\ lt = false /\ gt = true)).
Proof.
  intros num m n v x C N E A B. destruct (num x) as [a|] eqn:EA; [|congruence]. destruct (num (VText v)) as [b|] eqn:EB; [|congruence].
  exists (holds OpEq a b), (holds OpLt a b), (holds OpGt a b). split.
  - intros op. rewrite (c27_range num m) by (try exact C; repeat apply Forall_cons; try apply Forall_nil; cbn; rewrite ?E; try (split; [exact N|]); congruence).
    cbn [operand_num chain]. rewrite E, EA, EB. rewrite Bool.andb_true_r. destruct op; cbn [holds]; rewrite ?Bool.negb_involutive; reflexivity.
  - cbn [holds]. destruct (Qeq_bool a b) eqn:X1; destruct (Qle_bool a b) eqn:X2; destruct (Qle_bool b a) eqn:X3; cbn [negb]; try tauto; exfalso;
      rewrite <- ?Bool.not_true_iff_false in *; rewrite ?Qle_bool_iff, ?Qeq_bool_iff in *.
    + apply X3. rewrite X1. apply Qle_refl.
    + apply X2. rewrite X1. apply Qle_refl.
    + apply X2. rewrite X1. apply Qle_refl.
    + apply X1. now apply Qle_antisym.
    + destruct (Qlt_le_dec a b) as [H|H]; [apply X2; now apply Qlt_le_weak|now apply X3].
Qed.
Print Assumptions c27_trichotomy.
Example c27_trichotomy_case : numeric (lit "width") /\ dget (qenv demo) (lit "width") = Some (VText (lit "600px")) /\ demo_num (VText (lit "700px")) <> None.
Proof. split; [exact width_numeric|]. split; [reflexivity|discriminate]. Qed.

(** a value the comparison cannot read makes the query false *)
Theorem c27_unreadable : forall m n v x op, numeric n -> dget (qenv m) n = Some x -> qcmp m x (VText v) = None ->
  eval_compare m (OName n) [(ONum v, op)] = Ok false.
Proof.
  intros m n v x op N E C. unfold eval_compare. rewrite E. cbn [compare_loop is_name]. unfold compare_one.
  destruct (numeric_not_discrete n N) as [D1 D2]. cbn [orb]. rewrite D1, D2. cbn [andb]. rewrite C. reflexivity.
Qed.
Print Assumptions c27_unreadable.
Example c27_unreadable_case : qcmp demo (VText (lit "600px")) (VText (lit "wide")) = None /\ numeric (lit "width").
Proof. split; [reflexivity|exact width_numeric]. Qed.

(** discrete features: equality, '<=' and '>=' the same, '<' and '>' never *)
Theorem c27_discrete : forall m n x op v,
  In n [lit "scan"; lit "update"; lit "overflow-block"; lit "overflow-inline"; lit "color-gamut"; lit "pointer"; lit "hover"; lit "any-pointer"; lit "any-hover"] ->
  dget (qenv m) n = Some x ->
  exists r, eval_compare m (OName n) [(ONum v, op)] = Ok r /\ (r = true <-> x = VText v /\ match op with OpEq | OpLe | OpGe => True | _ => False end).
Proof.
  intros m n x op v I E. eexists. split.
  - apply compare_discrete; [unfold discrete_features; cbn [In] in *; intuition| | |exact E];
      intros ->; cbn [In] in I; repeat (destruct I as [I|I]; [discriminate I|]); exact I.
  - rewrite Bool.andb_true_iff. assert (V : value_eqb x (VText v) = true <-> x = VText v).
    { destruct x as [t|z]; cbn [value_eqb]; [|split; discriminate]. destruct (text_eqb_spec t v); intuition congruence. }
    rewrite V. destruct op; cbn [op_eq]; intuition congruence.
Qed.
Print Assumptions c27_discrete.
Example c27_discrete_case : eval_compare demo (OName (lit "hover")) [(ONum (lit "none"), OpEq)] = Ok true /\
  eval_compare demo (OName (lit "hover")) [(ONum (lit "hover"), OpEq)] = Ok false.
Proof. split; reflexivity. Qed.
(** 'portrait' in a query is any portrait- orientation, and conversely *)
Theorem c27_orientation : forall m a b, dget (qenv m) (lit "orientation") = Some (VText a) ->
  exists r, eval_compare m (OName (lit "orientation")) [(ONum b, OpEq)] = Ok r /\ (r = true <-> same_orientation a b).
Proof. exact compare_orientation. Qed.
Print Assumptions c27_orientation.
Example c27_orientation_case : same_orientation (lit "portrait-primary") (lit "portrait") /\
  eval_compare demo (OName (lit "orientation")) [(ONum (lit "portrait"), OpEq)] = Ok true /\
  eval_compare demo (OName (lit "orientation")) [(ONum (lit "portrait-secondary"), OpEq)] = Ok false.
Proof.
  split; [|split; reflexivity]. right. left. split; [|exists (lit "primary"); reflexivity].
  unfold no_dash. vm_compute. intuition discriminate.
Qed.

(** a feature named without a value *)
Theorem c27_feature : forall m n v, ~ In n media_words -> dget (qenv m) n = Some v ->
  match v with VText _ => ~ In n [lit "grid"; lit "color"; lit "color-index"; lit "monochrome"] | VInt _ => True end ->
  exists b, eval_name m n = Ok (b, None) /\ (b = true <-> feature_on n v).
Proof. exact eval_name_on. Qed.
Print Assumptions c27_feature.
Example c27_feature_case : eval_name demo (lit "hover") = Ok (false, None) /\ eval_name demo (lit "color") = Ok (true, None) /\
  eval_name demo (lit "width") = Ok (true, None).
Proof. repeat split. Qed.
Theorem c27_missing : forall m n, ~ In n media_words -> dget (qenv m) n = None ->
  eval_name m n = Ok (false, None) /\ forall rights, eval_compare m (OName n) rights = Ok false.
Proof. intros m n T G. split; [now apply eval_name_off|]. intros rights. unfold eval_compare. rewrite G. reflexivity. Qed.
Print Assumptions c27_missing.
Example c27_missing_case : eval_name demo (lit "resolution") = Ok (false, None). Proof. reflexivity. Qed.
(** but a number of zero counts as on (by the standard it is off) *)
Theorem c27_zero_refuted : exists m, dget (qenv m) (lit "width") = Some (VText (lit "0px")) /\ eval_name m (lit "width") = Ok (true, None).
Proof. exists (mkMq [(lit "width", VText (lit "0px"))] demo_cmp demo_ratio). split; reflexivity. Qed.
Print Assumptions c27_zero_refuted.

(** aspect-ratio: '<=', '>' and '>=' compare the ratios, but '=' always holds
    and '<' holds of equal ratios *)
Theorem c27_aspect_ratio_partial : forall m x a b v op, dget (qenv m) (lit "aspect-ratio") = Some x ->
  qratio m x = Ok a -> qratio m (VText v) = Ok b ->
  exists r, eval_compare m (OName (lit "aspect-ratio")) [(ONum v, op)] = Ok r /\
    match op with
    | OpLe => r = true <-> a <= b
    | OpGt => r = true <-> b < a
    | OpGe => r = true <-> b <= a
    | OpLt => ~ a == b -> (r = true <-> a < b)
    | OpEq => a == b -> r = true
    end.
Proof.
  intros m x a b v op E A B. eexists. split; [eapply compare_ratio; eassumption|].
  destruct op; cbn [holds]; rewrite ?Bool.negb_true_iff, <- ?Bool.not_true_iff_false, ?Qle_bool_iff.
  - reflexivity.
  - intros Ne. split; [|apply Qlt_le_weak]. intros L. apply Qle_lteq in L. tauto.
  - reflexivity.
  - split; [apply Qnot_le_lt|apply Qlt_not_le].
  - reflexivity.
Qed.
Print Assumptions c27_aspect_ratio_partial.
Example c27_aspect_ratio_case : qratio demo (VText (lit "4/3")) = Ok (4 # 3) /\
  eval_compare demo (OName (lit "aspect-ratio")) [(ONum (lit "4/3"), OpGt)] = Ok true /\
  eval_compare demo (OName (lit "aspect-ratio")) [(ONum (lit "4/3"), OpLe)] = Ok false.
Proof. repeat split. Qed.
Theorem c27_aspect_ratio_refuted : exists m, qratio m (VText (lit "16/9")) = Ok (16 # 9) /\ qratio m (VText (lit "4/3")) = Ok (4 # 3) /\
  dget (qenv m) (lit "aspect-ratio") = Some (VText (lit "16/9")) /\
  eval_compare m (OName (lit "aspect-ratio")) [(ONum (lit "4/3"), OpEq)] = Ok true /\
  eval_compare m (OName (lit "aspect-ratio")) [(ONum (lit "16/9"), OpLt)] = Ok true /\
  eval_compare m (OName (lit "aspect-ratio")) [(ONum (lit "16/9"), OpEq)] = Ok true.
Proof. exists demo. repeat split. Qed.
Print Assumptions c27_aspect_ratio_refuted.
