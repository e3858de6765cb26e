From Coq Require Import ZArith Lia.
From Verif Require Import PyBase PyText PyList PySplit PyDict PyCase UtilsModel UtilsSpec UtilsProofs RulesModel RulesSpec.
#[local] Open Scope nat_scope.

Lemma node_ind' (P : node -> Prop) : (forall kw p b c inner, Forall P inner -> P (At kw p b c inner)) -> (forall p c, P (Qual p c)) -> P Bad -> forall nd, P nd.
Proof.
  intros H1 H2 H3. fix F 1. intros [kw p b c inner|p c|]; [|apply H2|exact H3]. apply H1. induction inner as [|x r IH]; constructor; [apply F|exact IH].
Qed.
Lemma rule_ind' (P : rule -> Prop) : (forall id k s p kids, Forall P kids -> P (Rl id k s p kids)) -> forall r, P r.
Proof. intros H. fix F 1. intros [id k s p kids]. apply H. induction kids as [|x r IH]; constructor; [apply F|exact IH]. Qed.

(** ** parse_rules *)
Lemma inner_eq resolve sheet parent l : forall m,
  (fix go (l : list node) (m : nat) : result (list rule * nat) :=
     match l with
     | [] => Ok ([], m)
     | x :: l' => do (a, m1) <- parse_node resolve sheet parent x m; do (b, m2) <- go l' m1; Ok (a ++ b, m2)
     end) l m = parse_rules resolve sheet parent l m.
Proof.
  induction l as [|x l IH]; intros m; [reflexivity|]. cbn [parse_rules]. destruct (parse_node resolve sheet parent x m) as [[a m1]|]; [|reflexivity]. cbn [bind]. now rewrite IH.
Qed.
Lemma parse_node_at resolve sheet parent kw prelude block content inner n : parse_node resolve sheet parent (At kw prelude block content inner) n =
      if text_eqb kw (lit "font-face") then
        if block then Ok ([Rl n (KFontFace content) sheet parent []], S n) else Err TypeError
      else if text_eqb kw (lit "font-feature-values") then
        if block then do fs <- features_of no_features inner; Ok ([Rl n (KFeatures prelude fs) sheet parent []], S n) else Err TypeError
      else if text_eqb kw (lit "import") then
        let '(href, media) := import_prelude resolve prelude in Ok ([Rl n (KImport href media) sheet parent []], S n)
      else if text_eqb kw (lit "media") then
        if block then do (kids, m) <- parse_rules resolve sheet (Some n) inner (S n); Ok ([Rl n (KMedia prelude) sheet parent kids], m) else Err TypeError
      else if text_eqb kw (lit "namespace") then
        let '(uri, prefix) := namespace_prelude prelude in Ok ([Rl n (KNamespace uri prefix) sheet parent []], S n)
      else Ok ([], n).
Proof. cbn [parse_node]. now rewrite inner_eq. Qed.
Lemma parse_app resolve sheet parent a : forall b n, parse_rules resolve sheet parent (a ++ b) n =
  do (x, m) <- parse_rules resolve sheet parent a n; do (y, m2) <- parse_rules resolve sheet parent b m; Ok (x ++ y, m2).
Proof.
  induction a as [|nd a IH]; intros b n; cbn [app parse_rules].
  - cbn [bind]. now destruct (parse_rules resolve sheet parent b n) as [[y m2]|].
  - destruct (parse_node resolve sheet parent nd n) as [[x m]|]; [|reflexivity]. cbn [bind]. rewrite IH. destruct (parse_rules resolve sheet parent a m) as [[y m2]|]; [|reflexivity]. cbn [bind].
    destruct (parse_rules resolve sheet parent b m2) as [[z m3]|]; [|reflexivity]. cbn [bind]. now rewrite app_assoc.
Qed.
(* the order of the table does not matter *)
Ltac kw_cases kw :=
  destruct (text_eqb_spec kw (lit "font-face")) as [Kw|Kf]; [subst kw|
  destruct (text_eqb_spec kw (lit "font-feature-values")) as [Kw|Kv]; [subst kw|
  destruct (text_eqb_spec kw (lit "import")) as [Kw|Ki]; [subst kw|
  destruct (text_eqb_spec kw (lit "media")) as [Kw|Km]; [subst kw|
  destruct (text_eqb_spec kw (lit "namespace")) as [Kw|Kn]; [subst kw|]]]]].
Lemma eqb_false a b : a <> b -> text_eqb b a = false.
Proof. intros H. destruct (text_eqb_spec b a) as [E|E]; [now elim H|reflexivity]. Qed.
Lemma node_type_other kw p b c i : kw <> lit "font-face" -> kw <> lit "font-feature-values" -> kw <> lit "import" -> kw <> lit "media" -> kw <> lit "namespace" ->
  node_type (At kw p b c i) = [].
Proof. intros H1 H2 H3 H4 H5. cbn [node_type kept_rules filter fst]. rewrite !eqb_false by assumption. reflexivity. Qed.
Lemma import_locator resolve l : (existsb locator l = false /\ import_prelude resolve l = (None, [])) \/
  (exists pre v media, existsb locator pre = false /\ (l = pre ++ Str v :: media \/ l = pre ++ Url v :: media) /\ import_prelude resolve l = (Some (resolve v), media)).
Proof.
  induction l as [|t l IH]; [left; split; reflexivity|].
  assert (X : (exists v, t = Str v \/ t = Url v) \/ (locator t = false /\ import_prelude resolve (t :: l) = import_prelude resolve l)) by (destruct t; cbn; eauto).
  destruct X as [(v & [-> | ->])|[N E]].
  - right. exists [], v, l. cbn. auto.
  - right. exists [], v, l. cbn. auto.
  - rewrite E. destruct IH as [[A B]|(pre & v & media & A & B & C)]; [left; cbn [existsb]; now rewrite N, A|]. right. exists (t :: pre), v, media. cbn [existsb app]. rewrite N, A. repeat split; [|exact C].
    destruct B as [-> | ->]; auto.
Qed.
Lemma final_cons {A} (x : A) l : final (x :: l) = match final l with Some y => Some y | None => Some x end.
Proof. unfold final. cbn [rev]. destruct (rev l); reflexivity. Qed.
Lemma namespace_acc l : forall u p, fold_left (fun s t => match t with Url v => (Some v, snd s) | Ident v => (fst s, v) | _ => s end) l (u, p) =
  (match final (urls l) with Some v => Some v | None => u end, match final (idents l) with Some v => v | None => p end).
Proof.
  induction l as [|[v|v|v|v|n|v] l IH]; intros u p; cbn [fold_left fst snd urls idents]; try (rewrite IH); try reflexivity.
  - rewrite final_cons. now destruct (final (idents l)).
  - rewrite final_cons. now destruct (final (urls l)).
Qed.
Lemma namespace_eq l : namespace_prelude l = (final (urls l), match final (idents l) with Some v => v | None => [] end).
Proof. unfold namespace_prelude. rewrite namespace_acc. now destruct (final (urls l)). Qed.

(* what one node makes *)
Record made (resolve : text -> text) (sheet parent : option nat) (nd : node) (n : nat) (rs : list rule) (m : nat) : Prop := {
  m_types : map type_of rs = node_type nd;
  m_desc : Forall2 (fun nd r => describes resolve nd (kind_of r)) (if known nd then [nd] else []) rs;
  m_placed : Forall (placed sheet parent) rs;
  m_le : n <= m;
  m_distinct : NoDup (flat_map ids rs);
  m_range : forall i, In i (flat_map ids rs) -> n <= i < m }.
Record mades (resolve : text -> text) (sheet parent : option nat) (l : list node) (n : nat) (rs : list rule) (m : nat) : Prop := {
  s_types : map type_of rs = flat_map node_type l;
  s_desc : Forall2 (fun nd r => describes resolve nd (kind_of r)) (filter known l) rs;
  s_placed : Forall (placed sheet parent) rs;
  s_le : n <= m;
  s_distinct : NoDup (flat_map ids rs);
  s_range : forall i, In i (flat_map ids rs) -> n <= i < m }.
Lemma NoDup_apart (a b : list nat) k : NoDup a -> NoDup b -> (forall i, In i a -> i < k) -> (forall i, In i b -> k <= i) -> NoDup (a ++ b).
Proof.
  induction a as [|x a IH]; intros A B L R; [exact B|]. cbn [app]. apply NoDup_cons_iff in A. destruct A as [A1 A2]. apply NoDup_cons_iff. split.
  - intros I. apply in_app_or in I. destruct I as [I|I]; [now apply A1|]. specialize (L x (or_introl eq_refl)). specialize (R x I). lia.
  - apply IH; auto. intros i I. apply L. now right.
Qed.
Lemma leaf_made resolve sheet parent nd n k : node_type nd = [rule_type k] -> describes resolve nd k -> made resolve sheet parent nd n [Rl n k sheet parent []] (S n).
Proof.
  intros T D. split; cbn [map type_of flat_map ids app].
  - now rewrite T.
  - unfold known. rewrite T. constructor; [exact D|constructor].
  - constructor; [|constructor]. cbn. auto.
  - lia.
  - constructor; [intros []|constructor].
  - intros i [<-|[]]. lia.
Qed.
Lemma placed_all sheet p l : fold_right and True (map (placed sheet p) l) <-> Forall (placed sheet p) l.
Proof. induction l as [|x l IH]; cbn [map fold_right]; [split; [constructor|auto]|]. rewrite Forall_cons_iff, IH. reflexivity. Qed.
Lemma list_mades resolve sheet parent l : Forall (fun nd => forall sheet parent n rs m, parse_node resolve sheet parent nd n = Ok (rs, m) -> made resolve sheet parent nd n rs m) l ->
  forall n rs m, parse_rules resolve sheet parent l n = Ok (rs, m) -> mades resolve sheet parent l n rs m.
Proof.
  induction 1 as [|nd l Hn Hl IH]; intros n rs m; cbn [parse_rules].
  - intros [= <- <-]. split; cbn; [reflexivity|constructor|constructor|lia|constructor|tauto].
  - destruct (parse_node resolve sheet parent nd n) as [[a m1]|] eqn:E1; [|discriminate]. cbn [bind]. destruct (parse_rules resolve sheet parent l m1) as [[b m2]|] eqn:E2; [|discriminate]. cbn [bind]. intros [= <- <-].
    apply Hn in E1. apply IH in E2. destruct E1 as [A1 A2 A3 A4 A5 A6], E2 as [B1 B2 B3 B4 B5 B6]. split.
    + rewrite map_app, A1, B1. reflexivity.
    + cbn [filter]. destruct (known nd); [cbn in A2; apply (Forall2_app A2 B2)|]. inversion A2. subst. exact B2.
    + apply Forall_app. auto.
    + lia.
    + rewrite flat_map_app. apply (NoDup_apart _ _ m1); auto; intros i I; [apply A6 in I|apply B6 in I]; lia.
    + intros i. rewrite flat_map_app. intros I. apply in_app_or in I. destruct I as [I|I]; [apply A6 in I|apply B6 in I]; lia.
Qed.
Lemma node_made resolve nd : forall sheet parent n rs m, parse_node resolve sheet parent nd n = Ok (rs, m) -> made resolve sheet parent nd n rs m.
Proof.
  induction nd as [kw p b c inner IH|p c|] using node_ind'; intros sheet parent n rs m.
  - rewrite parse_node_at. kw_cases kw.
    + destruct b; [|discriminate]. intros [= <- <-]. apply leaf_made; [reflexivity|constructor].
    + destruct b; [|discriminate]. destruct (features_of no_features inner) as [fs|]; [|discriminate]. cbn [bind]. intros [= <- <-]. apply leaf_made; [reflexivity|constructor].
    + destruct (import_locator resolve p) as [[A B]|(pre & v & media & A & B & C)].
      * rewrite B. intros [= <- <-]. apply leaf_made; [reflexivity|]. now constructor.
      * rewrite C. intros [= <- <-]. apply leaf_made; [reflexivity|]. destruct B as [-> | ->]; now constructor.
    + destruct b; [|discriminate]. destruct (parse_rules resolve sheet (Some n) inner (S n)) as [[kids m1]|] eqn:E; [|discriminate]. cbn [bind]. intros [= <- <-]. apply (list_mades resolve sheet (Some n) inner IH) in E.
      destruct E as [A1 A2 A3 A4 A5 A6]. split.
      * reflexivity.
      * constructor; [|constructor]. constructor.
      * constructor; [|constructor]. cbn [placed]. repeat split. now apply placed_all.
      * lia.
      * cbn [flat_map ids]. rewrite app_nil_r. constructor; [|exact A5]. intros I. apply A6 in I. lia.
      * intros i. cbn [flat_map ids]. rewrite app_nil_r. intros [<-|I]; [lia|]. apply A6 in I. lia.
    + rewrite namespace_eq. intros [= <- <-]. apply leaf_made; [reflexivity|constructor].
    + intros [= <- <-]. pose proof (node_type_other kw p b c inner Kf Kv Ki Km Kn) as T. split; rewrite ?T.
      * reflexivity.
      * unfold known. rewrite T. constructor.
      * constructor.
      * lia.
      * constructor.
      * intros i [].
  - intros [= <- <-]. apply leaf_made; [reflexivity|constructor].
  - intros [= <- <-]. split; cbn; [reflexivity|constructor|constructor|lia|constructor|tauto].
Qed.
Lemma rules_made resolve sheet parent l n rs m : parse_rules resolve sheet parent l n = Ok (rs, m) -> mades resolve sheet parent l n rs m.
Proof. apply list_mades. apply Forall_forall. intros nd _. apply node_made. Qed.

(** ** When parsing succeeds *)
Lemma features_total fs l : forallb (fun x => match x with At _ _ b' _ _ => b' | _ => true end) l = true <-> exists fs', features_of fs l = Ok fs'.
Proof.
  revert fs. induction l as [|[kw p b c i|p c|] l IH]; intros fs; cbn [features_of forallb]; try (rewrite <- (IH fs); reflexivity); [split; eauto|].
  destruct b; cbn [andb]; [apply IH|]. split; [discriminate|]. intros (fs' & H). discriminate H.
Qed.
Lemma node_total resolve nd : forall sheet parent n, blocked nd = true <-> exists rs m, parse_node resolve sheet parent nd n = Ok (rs, m).
Proof.
  induction nd as [kw p b c inner IH|p c|] using node_ind'; intros sheet parent n; [|cbn; split; eauto|cbn; split; eauto]. rewrite parse_node_at. cbn [blocked]. kw_cases kw; cbn [text_eqb].
  - replace (text_eqb (lit "font-face") (lit "media")) with false by reflexivity. replace (text_eqb (lit "font-face") (lit "font-face")) with true by reflexivity. destruct b; split; eauto; [discriminate|intros (? & ? & H); discriminate H].
  - replace (text_eqb (lit "font-feature-values") (lit "media")) with false by reflexivity. replace (text_eqb (lit "font-feature-values") (lit "font-face")) with false by reflexivity.
    replace (text_eqb (lit "font-feature-values") (lit "font-feature-values")) with true by reflexivity. destruct b; cbn [andb]; [|split; [discriminate|intros (? & ? & H); discriminate H]].
    rewrite (features_total no_features inner). split; [intros (fs & ->); cbn [bind]; eauto|]. destruct (features_of no_features inner); [eauto|intros (? & ? & H); discriminate H].
  - replace (text_eqb (lit "import") (lit "media")) with false by reflexivity. replace (text_eqb (lit "import") (lit "font-face")) with false by reflexivity.
    replace (text_eqb (lit "import") (lit "font-feature-values")) with false by reflexivity. split; [|reflexivity]. intros _. destruct (import_prelude resolve p). eauto.
  - replace (text_eqb (lit "media") (lit "media")) with true by reflexivity. destruct b; cbn [andb]; [|split; [discriminate|intros (? & ? & H); discriminate H]].
    assert (L : forall m, forallb blocked inner = true <-> exists rs m2, parse_rules resolve sheet (Some n) inner m = Ok (rs, m2)).
    { clear -IH. induction IH as [|nd l Hn Hl IHl]; intros m; cbn [forallb parse_rules]; [split; eauto|]. rewrite andb_true_iff, (Hn sheet (Some n) m). split.
      - intros [(rs & m1 & E) F]. rewrite E. cbn [bind]. apply (IHl m1) in F. destruct F as (rs2 & m2 & F). rewrite F. cbn [bind]. eauto.
      - destruct (parse_node resolve sheet (Some n) nd m) as [[a m1]|]; [|intros (? & ? & H); discriminate H]. cbn [bind]. destruct (parse_rules resolve sheet (Some n) l m1) as [[b m2]|] eqn:E; [|intros (? & ? & H); discriminate H].
        intros _. split; [eauto|]. apply (IHl m1). eauto. }
    rewrite (L (S n)). split; [intros (rs & m2 & ->); cbn [bind]; eauto|]. destruct (parse_rules resolve sheet (Some n) inner (S n)) as [[k m]|]; [eauto|intros (? & ? & H); discriminate H].
  - replace (text_eqb (lit "namespace") (lit "media")) with false by reflexivity. replace (text_eqb (lit "namespace") (lit "font-face")) with false by reflexivity.
    replace (text_eqb (lit "namespace") (lit "font-feature-values")) with false by reflexivity. split; [|reflexivity]. intros _. destruct (namespace_prelude p). eauto.
  - destruct (text_eqb_spec kw (lit "media")) as [X|_]; [now elim Km|]. destruct (text_eqb_spec kw (lit "font-face")) as [X|_]; [now elim Kf|]. destruct (text_eqb_spec kw (lit "font-feature-values")) as [X|_]; [now elim Kv|].
    split; eauto.
Qed.
Lemma rules_total resolve sheet parent l : forall n, forallb blocked l = true <-> exists rs m, parse_rules resolve sheet parent l n = Ok (rs, m).
Proof.
  induction l as [|nd l IH]; intros n; cbn [forallb parse_rules]; [split; eauto|]. rewrite andb_true_iff, (node_total resolve nd sheet parent n). split.
  - intros [(rs & m1 & E) F]. rewrite E. cbn [bind]. apply (IH m1) in F. destruct F as (rs2 & m2 & F). rewrite F. cbn [bind]. eauto.
  - destruct (parse_node resolve sheet parent nd n) as [[a m1]|]; [|intros (? & ? & H); discriminate H]. cbn [bind]. destruct (parse_rules resolve sheet parent l m1) as [[b m2]|] eqn:E; [|intros (? & ? & H); discriminate H].
    intros _. split; [eauto|]. apply (IH m1). eauto.
Qed.
