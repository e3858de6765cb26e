(** Reifying and parsing (C67). *)
From Coq Require Import ZArith NArith List Lia.
From Verif Require Import PyBase PyText PySplit PyDict PyCase DatasetModel DatasetProofs SupportModel SupportTable ShortModel ShortSpec TypedTable TypedModel TypedSpec TypedProofs.
#[local] Open Scope N_scope.
Import ListNotations.

Lemma mem_false t l : mem t l = false <-> ~ In t l.
Proof. rewrite <- mem_in. destruct (mem t l); intuition congruence. Qed.
Lemma opt_eqb_spec a b : opt_eqb a b = true <-> a = b.
Proof. destruct a as [x|], b as [y|]; cbn; try (split; congruence). destruct (text_eqb_spec x y); split; congruence. Qed.
Lemma same_type_spec (t : text) syn rest s :
  same_type (map snd ((t, syn) :: rest : list part)) s <-> syn = s /\ forallb (fun p : part => opt_eqb (snd p) syn) rest = true.
Proof.
  unfold same_type. cbn [map snd]. rewrite forallb_forall. split.
  - intros [_ H]. assert (E := H syn (or_introl eq_refl)). split; [exact E|]. intros x I0. apply opt_eqb_spec. rewrite E. apply H. right. now apply in_map.
  - intros [-> H]. split; [discriminate|]. intros x [X|I0]; [auto|]. apply in_map_iff in I0 as (p & <- & I0). now apply opt_eqb_spec, H.
Qed.
Definition good (L : lib) (name : text) (syns : list (option text)) (t : text) (v : tvalue) : Prop :=
  class name syns t (vkind_of v) /\ content L t v /\ vcss v = match vkind_of v with VNumeric => Some t | _ => None end /\ vassoc v = None.
Lemma keyword_value_spec t v : keyword_value t = Ok v <-> t <> [] /\ v = mkT VKeyword t None None.
Proof. destruct t; cbn; split; [discriminate|intuition congruence|intros [= <-]; split; [discriminate|reflexivity]|intros [_ ->]; reflexivity]. Qed.
Lemma good_keyword L name syns t v : class name syns t VKeyword -> (forall k, class name syns t k -> k = VKeyword) ->
  keyword_value t = Ok v <-> good L name syns t v.
Proof.
  intros C U. rewrite keyword_value_spec. unfold good. split.
  - intros [N0 ->]. cbn. auto.
  - intros (C' & X & S0 & A). apply U in C'. destruct v as [k x c a]. cbn in *. subst. cbn in *. destruct X as [X ->]. auto.
Qed.
Lemma good_style L name syns t v k : (k = VStyle \/ k = VImage) -> class name syns t k -> (forall k', class name syns t k' -> k' = k) ->
  Ok (mkT k t None None) = Ok v <-> good L name syns t v.
Proof.
  intros K C U. unfold good. split.
  - intros [= <-]. cbn. destruct K as [-> | ->]; cbn; auto.
  - intros (C' & X & S0 & A). apply U in C'. destruct v as [k' x c a]. cbn in *. subst. destruct K as [-> | ->]; cbn in *; subst; reflexivity.
Qed.
Lemma typed_unique name syns k k' : typed name syns k -> typed name syns k' -> k = k'.
Proof.
  assert (U : forall s s', same_type syns s -> same_type syns s' -> s = s').
  { intros s s' [N0 H] [_ H']. destruct syns as [|x r]; [congruence|]. rewrite <- (H x), <- (H' x) by now left. reflexivity. }
  assert (D : forall s, In s numbers -> ~ In s (map lit ["<color>"; "<custom-ident>"; "<image>"; "<url>"]%string)) by (intros s I0 J; cbn in I0, J; intuition (subst; discriminate)).
  assert (K : forall s s', same_type syns (Some s) -> In s (map lit ["<color>"; "<custom-ident>"; "<image>"; "<url>"]%string) -> same_type syns (Some s') -> In s' numbers -> False).
  { intros s s' A I0 B J. assert (E := U _ _ A B). injection E as ->. now apply (D s'). }
  intros H H'; destruct H; destruct H'; try reflexivity; exfalso;
    try match goal with
    | A : forall s, ~ same_type _ s, B : same_type _ _ |- _ => exact (A _ B)
    | A : In ?x ?l, B : ~ In ?x ?l |- _ => exact (B A)
    | A : same_type _ None, B : same_type _ (Some _) |- _ => discriminate (U _ _ A B)
    | A : same_type _ (Some (lit ?a)), B : same_type _ (Some ?b), J : In ?b numbers |- _ => refine (K _ _ A _ B J); cbn; tauto
    | A : same_type _ (Some (lit ?a)), B : same_type _ (Some (lit ?b)) |- _ => discriminate (U _ _ A B)
    end.
Qed.
Lemma class_unique name syns t k k' : class name syns t k -> class name syns t k' -> k = k'.
Proof. intros A B; destruct A; destruct B; try reflexivity; try contradiction. eapply typed_unique; eauto. Qed.
Lemma reify_spec L name comps v :
  reify L name comps = Ok v <-> good L name (map snd comps) (fold_keyword (join [32] (map fst comps))) v.
Proof.
  unfold reify. cbv zeta. set (t := fold_keyword (join [32] (map fst comps))). set (syns := map snd comps).
  destruct (mem t SupportModel.wide_keywords) eqn:W.
  { apply good_keyword; [apply c_wide, wide_mem, W|intros k; apply class_unique with (1 := c_wide _ _ _ (proj1 (wide_mem t) W)) || (intros C; symmetry; revert C; apply class_unique, c_wide, wide_mem, W)]. }
  apply mem_false in W. change (~ In t wide_words) in W.
  destruct (mem name keyword_properties) eqn:K.
  { apply mem_in in K. assert (C : class name syns t VKeyword) by now apply c_keyword. apply good_keyword; [exact C|intros k C'; eapply class_unique; eauto]. }
  apply mem_false in K.
  destruct (mem name plain_properties) eqn:P.
  { apply mem_in in P. assert (C : class name syns t VStyle) by now apply c_plain. apply good_style; [auto|exact C|intros k C'; eapply class_unique; eauto]. }
  apply mem_false in P.
  assert (G : forall k, typed name syns k -> class name syns t k) by (intros k T; now apply c_typed).
  assert (GK : typed name syns VKeyword -> keyword_value t = Ok v <-> good L name syns t v) by (intros T; apply good_keyword; [auto|intros k C'; eapply class_unique; eauto]).
  assert (GS : forall k, (k = VStyle \/ k = VImage) -> typed name syns k -> Ok (mkT k t None None) = Ok v <-> good L name syns t v) by (intros k KK T; apply good_style; [auto|auto|intros k' C'; eapply class_unique; eauto]).
  assert (MIX : (forall s, ~ same_type syns s) -> (if mem name (names ["text-indent"; "vertical-align"]%string) then keyword_value t else Ok (mkT VStyle t None None)) = Ok v <-> good L name syns t v).
  { intros M. destruct (mem name _) eqn:E; [apply mem_in in E|apply mem_false in E]; [apply GK, t_mixed_word|apply GS, t_mixed]; auto. }
  clearbody t. destruct comps as [|[x syn] rest].
  { apply MIX. intros s [H _]. now apply H. }
  assert (ST : forall s, same_type syns s <-> syn = s /\ forallb (fun p : part => opt_eqb (snd p) syn) rest = true) by (intros s; apply same_type_spec).
  clearbody syns. destruct (forallb _ rest) eqn:F.
  2:{ apply MIX. intros s H. apply ST in H as [_ H]. discriminate. }
  assert (S1 : same_type syns syn) by (apply ST; auto). clear MIX ST F.
  destruct syn as [s|].
  2:{ destruct (mem name _) eqn:E; [apply mem_in in E|apply mem_false in E]; [apply GK, t_size|apply GS, t_unknown]; auto. }
  destruct (text_eqb_spec s COLOR) as [->|C1]; [apply GS; [auto|now apply t_color]|].
  destruct (text_eqb_spec s CUSTOM_IDENT) as [->|C2]; [apply GK; now apply t_ident|].
  destruct (text_eqb_spec s IMAGE) as [->|C3]; [apply GS; [auto|now apply t_image]|].
  destruct (mem s numeric_syntaxes) eqn:N0.
  { apply mem_in in N0. change (In s numbers) in N0. assert (T : typed name syns VNumeric) by now apply (t_number _ _ s). unfold good. destruct (lnumeric L t) as [e|] eqn:E.
    - split; [discriminate|]. intros (C' & X & _). apply (class_unique _ _ _ _ _ (G _ T)) in C'. unfold content in X. rewrite <- C' in X. destruct X as [X _]. congruence.
    - split; [intros [= <-]; cbn; auto|]. intros (C' & X & S0 & A). apply (class_unique _ _ _ _ _ (G _ T)) in C'. destruct v as [k y c a]. cbn in *. subst. cbn in *. destruct X as [_ ->]. reflexivity. }
  apply mem_false in N0. destruct (text_eqb_spec s URL) as [->|C4].
  { assert (T : typed name syns VUrl) by now apply t_url. unfold good. destruct (url_value t) as [y|e] eqn:E; cbn [bind].
    - split; [intros [= <-]; cbn; auto|]. intros (C' & X & S0 & A). apply (class_unique _ _ _ _ _ (G _ T)) in C'. destruct v as [k z c a]. cbn in *. subst. cbn in *. congruence.
    - split; [discriminate|]. intros (C' & X & _). apply (class_unique _ _ _ _ _ (G _ T)) in C'. unfold content in X. rewrite <- C' in X. congruence. }
  split; [discriminate|]. intros (C' & _). exfalso. destruct C' as [| | |k _ _ _ T]; try contradiction.
  assert (U : forall s', same_type syns s' -> Some s = s') by (intros s' [NE H]; destruct S1 as [_ H']; destruct syns as [|z r]; [congruence|]; rewrite <- (H z), <- (H' z) by (now left); reflexivity).
  destruct T as [M|M|A _|A _|A|A|A|A|s' A I0]; try (apply (M _ S1)); apply U in A; try discriminate; try (injection A as ->; now (elim C1 || elim C2 || elim C3 || elim C4)).
Qed.

(** ** Groups *)
Lemma comma_spec k : comma k = true <-> k = KLit (lit ",").
Proof. destruct k; cbn; try (split; discriminate). destruct (text_eqb_spec v [44]) as [->|]; split; intros H; try reflexivity; try discriminate. injection H as ->. now elim n. Qed.
Lemma not_comma t : comma (fst t) = false <-> ~ is_comma t.
Proof. unfold is_comma. rewrite <- comma_spec. destruct (comma (fst t)); intuition congruence. Qed.
Lemma checked_spec L d t s : checked L d (fst t) = Ok s <-> accepted_as L d t s.
Proof.
  unfold checked, accepted_as. destruct (support (lcolor L) d (fst t)) as [[b o]|e]; cbn; [|split; discriminate]. destruct b; cbn; (split; intros X; [try discriminate; injection X as ->; reflexivity|try discriminate; injection X as ->; reflexivity]).
Qed.
Definition shown (p : part) : text := fst (with_unit (fst p) (snd p)).
Lemma written_spec k x s u : written_as (k, x) s u <-> fst (with_unit x s) = u.
Proof.
  unfold with_unit. cbn [fst]. destruct s as [s|].
  - assert (M : (text_eqb s LENGTH || text_eqb s LENGTH_PERCENTAGE)%bool = true <-> In s (map lit ["<length>"; "<length-percentage>"]%string)).
    { change (In s (map lit ["<length>"; "<length-percentage>"]%string)) with (LENGTH = s \/ LENGTH_PERCENTAGE = s \/ False). rewrite orb_true_iff.
      destruct (text_eqb_spec s LENGTH), (text_eqb_spec s LENGTH_PERCENTAGE); split; intros X; try (destruct X as [X|X]; discriminate); auto; destruct X as [X|[X|[]]]; congruence. }
    destruct (text_eqb s LENGTH || text_eqb s LENGTH_PERCENTAGE)%bool eqn:E; cbn [andb].
    + assert (I0 := proj1 M eq_refl). destruct (real_number x) eqn:R; split; intros H.
      * inversion H as [k0 x0 s0 I1 N1|k0 x0 s0 N1]; subst; [reflexivity|]. elim N1; [exact I0|now apply real_number_spec].
      * subst. now apply w_unit; [|apply real_number_spec].
      * inversion H; subst; [|reflexivity]. assert (X : real_number x = true) by now apply real_number_spec. congruence.
      * subst. apply w_same. intros _ X. apply real_number_spec in X. congruence.
    + split; intros H.
      * inversion H as [k0 x0 s0 I1 N1|k0 x0 s0 N1]; subst; [|reflexivity]. apply M in I1. congruence.
      * subst. apply w_same. intros X. apply M in X. congruence.
  - split; [intros H; now inversion H|intros <-; now apply w_same].
Qed.
(* the parts of the tokens between two commas *)
Definition part_of (t : token) (s : option text) : part := with_unit (snd t) s.
Inductive parts_of (L : lib) (d : descr) : list token -> list part -> Prop :=
| po_nil : parts_of L d [] []
| po_cons t s g ps : ~ is_comma t -> accepted_as L d t s -> parts_of L d g ps -> parts_of L d (t :: g) (part_of t s :: ps).
Lemma parts_app L d g ps g' ps' : parts_of L d g ps -> parts_of L d g' ps' -> parts_of L d (g ++ g') (ps ++ ps').
Proof. induction 1; cbn; auto using po_cons. Qed.
Lemma parts_nil L d g : parts_of L d g [] -> g = [].
Proof. inversion 1; reflexivity. Qed.
Lemma parts_no_comma L d g ps : parts_of L d g ps -> forall t, In t g -> ~ is_comma t.
Proof. induction 1; intros x []; subst; auto. Qed.
(* reading on from the tokens [g0] of a value *)
Lemma groups_sound L d ts : forall g0 cur gs, parts_of L d g0 cur -> groups L d ts cur = Ok gs ->
  exists pieces, between (g0 ++ ts) pieces /\ Forall2 (parts_of L d) pieces gs.
Proof.
  induction ts as [|[k x] r IH]; intros g0 cur gs P H; cbn [groups] in H.
  - injection H as <-. rewrite app_nil_r. destruct cur as [|c cur].
    + apply parts_nil in P. subst. exists []. split; constructor.
    + exists [g0]. split; [|now repeat constructor]. apply b_last; [intros ->; inversion P|eapply parts_no_comma; eauto].
  - destruct (comma k) eqn:C.
    + destruct (groups L d r []) as [rest|e] eqn:G; [|discriminate]. cbn [bind] in H. injection H as <-.
      destruct (IH [] [] rest (po_nil _ _) G) as (pieces & B & F). exists (g0 :: pieces). split; [|now constructor].
      apply b_comma; [eapply parts_no_comma; eauto|now apply comma_spec in C|exact B].
    + destruct (checked L d k) as [s|e] eqn:S0; [|discriminate]. cbn [bind] in H. change k with (fst (k, x)) in S0. apply checked_spec in S0.
      destruct (IH (g0 ++ [(k, x)]) (cur ++ [with_unit x s]) gs) as (pieces & B & F); [|exact H|exists pieces; rewrite <- app_assoc in B; auto].
      apply parts_app; [exact P|]. apply (po_cons L d (k, x) s); [now apply not_comma|exact S0|constructor].
Qed.
Lemma groups_run L d g ps : parts_of L d g ps -> forall r cur, groups L d (g ++ r) cur = groups L d r (cur ++ ps).
Proof.
  induction 1 as [|[k x] s g ps C S0 P IH]; intros r cur; cbn [app groups]; [now rewrite app_nil_r|].
  apply not_comma in C. cbn [fst] in C. rewrite C. apply checked_spec in S0. cbn [fst] in S0. rewrite S0. cbn [bind]. rewrite IH, <- app_assoc. reflexivity.
Qed.
Lemma groups_complete L d ts pieces : between ts pieces -> forall gs, Forall2 (parts_of L d) pieces gs -> groups L d ts [] = Ok gs.
Proof.
  induction 1 as [|g N0 C|g c r gs' C CC B IH]; intros gs F.
  - inversion F. reflexivity.
  - inversion F as [|? ps ? ? P F']; subst. inversion F'; subst. rewrite <- (app_nil_r g). rewrite (groups_run L d g ps P). cbn. destruct ps; [apply parts_nil in P; congruence|reflexivity].
  - inversion F as [|? ps ? rest P F']; subst. rewrite (groups_run L d g ps P). cbn [app groups]. destruct c as [k x].
    assert (E : comma k = true) by (apply comma_spec; exact CC). cbn [groups]. rewrite E, (IH _ F'). reflexivity.
Qed.
Lemma between_unique ts ps : between ts ps -> forall ps', between ts ps' -> ps = ps'.
Proof.
  assert (X : forall (g g' : list token) c c' r r', (forall t, In t g -> ~ is_comma t) -> (forall t, In t g' -> ~ is_comma t) -> is_comma c -> is_comma c' -> g ++ c :: r = g' ++ c' :: r' -> g = g' /\ r = r').
  { induction g as [|t g IHg]; intros [|t' g'] c c' r r' A B C C' E; cbn in E; injection E as E1 E2; subst.
    - auto.
    - elim (B t' (or_introl eq_refl) C).
    - elim (A c' (or_introl eq_refl) C').
    - destruct (IHg g' c c' r r') as [-> ->]; auto; intros t I0; [apply A|apply B]; now right. }
  induction 1 as [|g N0 C|g c r gs' C CC B IH]; intros ps' H.
  - inversion H; subst; auto; [congruence|]. destruct g; discriminate.
  - inversion H; subst; auto; [congruence|]. elim (C c); [apply in_or_app; right; now left|assumption].
  - inversion H as [E|g1 N1 C1 E|g1 c1 r1 gs1 C1 CC1 B1 E]; subst.
    + destruct g; discriminate.
    + elim (C1 c); [apply in_or_app; right; now left|assumption].
    + destruct (X _ _ _ _ _ _ C1 C CC1 CC E) as [-> ->]. f_equal. now apply IH.
Qed.
Lemma between_total (ts : list token) : exists ps, between ts ps.
Proof.
  assert (G : forall (ts g : list token), (forall t, In t g -> ~ is_comma t) -> exists ps, between (g ++ ts) ps).
  { clear ts. induction ts as [|t r IH]; intros g A.
    - rewrite app_nil_r. destruct g as [|t g]; [exists []; constructor|]. exists [t :: g]. apply b_last; [discriminate|exact A].
    - destruct (comma (fst t)) eqn:C.
      + destruct (IH [] (fun t (H : In t []) => match H with end)) as [ps B]. exists (g :: ps). apply b_comma; [exact A|now apply comma_spec|exact B].
      + destruct (IH (g ++ [t])) as [ps B]; [|exists ps; now rewrite <- app_assoc in B]. intros x I0. apply in_app_or in I0 as [I0|[->|[]]]; [auto|now apply not_comma]. }
  apply (G ts []). intros t [].
Qed.
(* parts as the specification sees them *)
Lemma parts_spec L d g ps : parts_of L d g ps -> Forall2 (accepted_as L d) g (map snd ps) /\ Forall2 (fun p x => written_as (fst p) (snd p) x) (combine g (map snd ps)) (map fst ps).
Proof.
  induction 1 as [|[k x] s g ps C S0 P [F1 F2]]; cbn [map combine]; split; try constructor; auto. cbn [fst snd]. now apply written_spec.
Qed.
Lemma parts_back L d g syns parts : (forall t, In t g -> ~ is_comma t) -> Forall2 (accepted_as L d) g syns -> Forall2 (fun p x => written_as (fst p) (snd p) x) (combine g syns) parts ->
  exists ps, parts_of L d g ps /\ map snd ps = syns /\ map fst ps = parts.
Proof.
  intros C F. revert parts C. induction F as [|[k x] s g syns A F IH]; intros parts C W; cbn [combine] in W.
  - inversion W. exists []. repeat split; constructor.
  - inversion W as [|? y ? rest W1 W2]; subst. destruct (IH rest) as (ps & P & <- & <-); [intros t I0; apply C; now right|exact W2|].
    exists (part_of (k, x) s :: ps). split; [apply po_cons; auto; apply C; now left|]. cbn [map snd fst part_of]. split; [reflexivity|]. cbn [fst snd] in W1. apply written_spec in W1. cbn [with_unit] in W1. now rewrite <- W1.
Qed.
Lemma reify_all_spec L name gs vs : reify_all L name gs = Ok vs <-> Forall2 (fun g v => reify L name g = Ok v) gs vs.
Proof.
  revert vs. induction gs as [|g r IH]; intros vs; cbn [reify_all].
  - split; [intros [= <-]; constructor|intros H; now inversion H].
  - destruct (reify L name g) as [v|e] eqn:E; cbn [bind]; [|split; [discriminate|intros H; inversion H; congruence]]. destruct (reify_all L name r) as [rest|e]; cbn [bind].
    + split; [intros [= <-]; constructor; [exact E|now apply IH]|intros H; inversion H; subst; f_equal; f_equal; [congruence|]]. apply IH in H4. congruence.
    + split; [discriminate|intros H; inversion H; subst]. apply IH in H4. discriminate.
Qed.
Lemma represents_spec L name d g v : (forall t, In t g -> ~ is_comma t) -> represents L name d g v <-> exists ps, parts_of L d g ps /\ reify L name ps = Ok v.
Proof.
  intros C. unfold represents. split.
  - intros (syns & parts & t & F & W & FO & CL & CO & CS & AS). destruct (parts_back L d g syns parts C F W) as (ps & P & <- & <-). exists ps. split; [exact P|]. apply reify_spec. apply folded_iff in FO. rewrite FO. unfold good. auto.
  - intros (ps & P & H). apply reify_spec in H. destruct H as (A & B & D & E). destruct (parts_spec L d g ps P) as [F W]. exists (map snd ps), (map fst ps), (fold_keyword (join [32] (map fst ps))). repeat (split; auto using fold_keyword_spec).
Qed.
Lemma Forall2_compose {A B C} (R : A -> B -> Prop) (S0 : B -> C -> Prop) l m n : Forall2 R l m -> Forall2 S0 m n -> Forall2 (fun a c => exists b, R a b /\ S0 b c) l n.
Proof. intros H. revert n. induction H; intros n H'; inversion H'; subst; constructor; eauto. Qed.
Lemma Forall2_split {A B C} (R : A -> B -> Prop) (S0 : B -> C -> Prop) l n : Forall2 (fun a c => exists b, R a b /\ S0 b c) l n -> exists m, Forall2 R l m /\ Forall2 S0 m n.
Proof. induction 1 as [|a c l n (b & P & Q) F (m & F1 & F2)]; [exists []; split; constructor|]. exists (b :: m). split; constructor; auto. Qed.
Lemma Forall2_iff_in {A B} (R R' : A -> B -> Prop) l m : (forall a b, In a l -> R a b <-> R' a b) -> Forall2 R l m <-> Forall2 R' l m.
Proof. intros H; split; intros F; induction F; constructor; try (apply H; [now left|assumption]); apply IHF; intros a b I0; apply H; now right. Qed.
Lemma between_pieces ts ps : between ts ps -> forall g, In g ps -> forall t, In t g -> ~ is_comma t.
Proof. induction 1; intros x I0; cbn in I0; [contradiction| |]; (destruct I0 as [<-|I0]; [assumption|]); [contradiction|]. exact (IHbetween x I0). Qed.
Lemma list_values L name d ts pieces vs : between ts pieces ->
  (do gs <- groups L d ts []; reify_all L name gs) = Ok vs <-> Forall2 (represents L name d) pieces vs.
Proof.
  intros B. rewrite (Forall2_iff_in _ _ _ _ (fun g v I0 => represents_spec L name d g v (between_pieces _ _ B g I0))). split.
  - destruct (groups L d ts []) as [gs|e] eqn:G; cbn [bind]; [|discriminate]. rewrite reify_all_spec. intros F.
    destruct (groups_sound L d ts [] [] gs (po_nil _ _) G) as (p' & B' & F'). cbn [app] in B'. rewrite (between_unique _ _ B _ B'). eapply Forall2_compose; eauto.
  - intros F. apply Forall2_split in F as (gs & F1 & F2). rewrite (groups_complete L d ts pieces B gs F1). cbn [bind]. now apply reify_all_spec.
Qed.
