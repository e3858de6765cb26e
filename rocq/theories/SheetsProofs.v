(** Lemmas for C73. *)
From Coq Require Import Lia.
From Verif Require Import PyBase PyText PyDict PySplit UtilsModel UrlModel TokenModel CascadeModel CascadeSpec CascadeProofs LoadModel SheetsModel SheetsSpec.
#[local] Open Scope N_scope.

(** ** Walking *)
Lemma node_ind' (P : node -> Prop) : (forall name a t kids, Forall P kids -> P (NElem name a t kids)) -> (forall t a, P (NPI t a)) -> P NNote -> forall n, P n.
Proof.
  intros HE HP HN. fix F 1. intros [name a t kids|t a|]; [|apply HP|exact HN]. apply HE. induction kids as [|k r IH]; constructor; [apply F|exact IH].
Qed.
Fixpoint walk_kids (p : list nat) (i : nat) (l : list node) : list (list nat * node) := match l with [] => [] | k :: r => walk (p ++ [i]) k ++ walk_kids p (S i) r end.
Lemma walk_elem p name a t kids : walk p (NElem name a t kids) = (p, NElem name a t kids) :: walk_kids p 0 kids.
Proof. cbn [walk]. f_equal. generalize O as i. induction kids as [|k r IH]; intros i; [reflexivity|]. cbn [walk_kids]. now rewrite <- IH. Qed.
Definition is_elem (n : node) : Prop := match n with NElem _ _ _ _ => True | _ => False end.
Lemma walk_kids_in P kids : Forall P kids -> (forall k, P k -> forall p x m, In (x, m) (walk p k) <-> exists q, x = p ++ q /\ at_way k q m /\ is_elem m) ->
  forall p i x m, In (x, m) (walk_kids p i kids) <-> exists j q k, nth_error kids j = Some k /\ x = p ++ (i + j)%nat :: q /\ at_way k q m /\ is_elem m.
Proof.
  intros F HP. induction F as [|k r Pk F IH]; intros p i x m; cbn [walk_kids].
  - split; [intros []|]. intros (j & q & k & E & _). destruct j; discriminate.
  - rewrite in_app_iff, (HP k Pk), (IH p (S i)). split.
    + intros [(q & -> & W & E)|(j & q & k' & E1 & -> & W & E)].
      * exists O, q, k. rewrite Nat.add_0_r, <- app_assoc. now repeat split.
      * exists (S j), q, k'. rewrite Nat.add_succ_r. now repeat split.
    + intros (j & q & k' & E1 & -> & W & E). destruct j as [|j].
      * left. injection E1 as ->. exists q. rewrite Nat.add_0_r, <- app_assoc. now repeat split.
      * right. exists j, q, k'. rewrite Nat.add_succ_r. now repeat split.
Qed.
Lemma walk_in n : forall p x m, In (x, m) (walk p n) <-> exists q, x = p ++ q /\ at_way n q m /\ is_elem m.
Proof.
  induction n as [name a t kids F|t a|] using node_ind'; intros p x m.
  - rewrite walk_elem. cbn [In]. rewrite (walk_kids_in _ kids F (fun k H => H)). split.
    + intros [E|(j & q & k & E & -> & W & EL)].
      * injection E as <- <-. exists []. rewrite app_nil_r. repeat split. constructor.
      * exists (j :: q). repeat split; [|exact EL]. now econstructor; [exact E|].
    + intros (q & -> & W & EL). inversion W as [?|? ? ? ? i k q' ? E W']; subst.
      * left. now rewrite app_nil_r.
      * right. exists i, q', k. now repeat split.
  - cbn [walk In]. split; [intros []|]. intros (q & _ & W & EL). inversion W; subst. destruct EL.
  - cbn [walk In]. split; [intros []|]. intros (q & _ & W & EL). inversion W; subst. destruct EL.
Qed.
Lemma asc_app {A} (lt : A -> A -> Prop) a b : ascending lt a -> ascending lt b -> (forall x y, In x a -> In y b -> lt x y) -> ascending lt (a ++ b).
Proof.
  intros HA HB H. induction HA as [|x a X HA IH]; [exact HB|]. cbn [app]. constructor.
  - intros y I. apply in_app_or in I. destruct I as [I|I]; [now apply X|]. apply H; [now left|exact I].
  - apply IH. intros x' y I. apply H. now right.
Qed.
Lemma asc_map {A B} (lt : A -> A -> Prop) (lt' : B -> B -> Prop) (f : A -> B) l : (forall x y, In x l -> In y l -> lt x y -> lt' (f x) (f y)) -> ascending lt l -> ascending lt' (map f l).
Proof.
  intros H HA. induction HA as [|x l X HA IH]; [constructor|]. cbn [map]. constructor.
  - intros y I. apply in_map_iff in I. destruct I as (z & <- & I). apply H; [now left|now right|now apply X].
  - apply IH. intros a b I J. apply H; now right.
Qed.
Lemma before_prefix p q r : before q r -> before (p ++ q) (p ++ r).
Proof. induction p as [|i p IH]; [auto|]. intros B. cbn [app]. apply before_same. now apply IH. Qed.
Lemma before_own p i q : before p (p ++ i :: q).
Proof. induction p as [|j p IH]; cbn [app]; [apply before_below|apply before_same, IH]. Qed.
Lemma walk_kids_ways p kids : forall i x, In x (map fst (walk_kids p i kids)) -> exists j q, (i <= j)%nat /\ x = p ++ j :: q.
Proof.
  induction kids as [|k r IH]; intros i x I; [destruct I|]. cbn [walk_kids] in I. rewrite map_app, in_app_iff in I. destruct I as [I|I].
  - apply in_map_iff in I. destruct I as ([y m] & <- & I). apply walk_in in I. destruct I as (q & -> & _). exists i, q. split; [lia|]. cbn [fst]. now rewrite <- app_assoc.
  - destruct (IH _ _ I) as (j & q & L & ->). exists j, q. split; [lia|reflexivity].
Qed.
Lemma walk_asc n : forall p, ascending before (map fst (walk p n)).
Proof.
  induction n as [name a t kids F|t a|] using node_ind'; intros p; [|constructor|constructor]. rewrite walk_elem. cbn [map fst]. constructor.
  - intros y I. apply walk_kids_ways in I. destruct I as (j & q & _ & ->). apply before_own.
  - generalize O as i. induction F as [|k r Pk F IH]; intros i; [constructor|]. cbn [walk_kids]. rewrite map_app. apply asc_app; [apply Pk|apply IH|].
    intros x y I J. apply in_map_iff in I. destruct I as ([z m] & <- & I). apply walk_in in I. destruct I as (q & -> & _). cbn [fst].
    apply walk_kids_ways in J. destruct J as (j & q' & L & ->). rewrite <- app_assoc. apply before_prefix. cbn [app]. apply before_left. lia.
Qed.

(** ** Collecting *)
Lemma collect_app {A} (f : A -> result (option sheet)) a b : collect f (a ++ b) = (do x <- collect f a; do y <- collect f b; Ok (x ++ y)).
Proof.
  induction a as [|x a IH]; cbn [app collect bind]; [now destruct (collect f b)|]. destruct (f x) as [s|e]; cbn [bind]; [|reflexivity].
  rewrite IH. destruct (collect f a) as [l|e]; cbn [bind]; [|reflexivity]. destruct (collect f b) as [m|e]; cbn [bind]; [|reflexivity]. destruct s; reflexivity.
Qed.
Lemma collect_map {A B} (f : B -> result (option sheet)) (g : A -> B) l : collect f (map g l) = collect (fun x => f (g x)) l.
Proof. induction l as [|x l IH]; [reflexivity|]. cbn [map collect]. now rewrite IH. Qed.
Lemma collect_ext {A} (f g : A -> result (option sheet)) l : (forall x, In x l -> f x = g x) -> collect f l = collect g l.
Proof. induction l as [|x l IH]; intros H; [reflexivity|]. cbn [collect]. rewrite (H x) by now left. rewrite IH; [reflexivity|]. intros y I. apply H. now right. Qed.
Lemma collect_filter {A} (f : A -> result (option sheet)) (g : A -> bool) l : collect f (filter g l) = collect (fun x => if g x then f x else Ok None) l.
Proof. induction l as [|x l IH]; [reflexivity|]. cbn [filter collect]. destruct (g x); cbn [collect bind]; rewrite IH; [reflexivity|]. now destruct (collect _ l). Qed.
Lemma collect_in {A} (f : A -> result (option sheet)) l : forall ss, collect f l = Ok ss -> (forall s, In s ss <-> exists x, In x l /\ f x = Ok (Some s)) /\ (forall x, In x l -> exists s, f x = Ok s).
Proof.
  induction l as [|x l IH]; intros ss H; cbn [collect] in H.
  - injection H as <-. split; [|intros x []]. intros s. split; [intros []|]. intros (x & [] & _).
  - destruct (f x) as [s0|e] eqn:E; [|discriminate]. cbn [bind] in H. destruct (collect f l) as [m|e]; [|discriminate]. cbn [bind] in H. destruct (IH m eq_refl) as [I1 I2].
    injection H as <-. split.
    + intros s. split.
      * intros I. destruct s0 as [s0|].
        -- destruct I as [<-|I]; [exists x; split; [now left|exact E]|]. apply I1 in I. destruct I as (y & I & F). exists y. split; [now right|exact F].
        -- apply I1 in I. destruct I as (y & I & F). exists y. split; [now right|exact F].
      * intros (y & [<-|I] & F); [rewrite E in F; injection F as ->; now left|].
        assert (J : In s m) by (apply I1; now exists y). destruct s0; [now right|exact J].
    + intros y [<-|I]; [now exists s0|now apply I2].
Qed.
Lemma collect_asc {A} (f : A -> result (option sheet)) (key : A -> owner) l : forall ss, collect f l = Ok ss -> (forall x s, In x l -> f x = Ok (Some s) -> s_owner s = key x) ->
  ascending precedes (map key l) -> ascending precedes (map s_owner ss).
Proof.
  induction l as [|x l IH]; intros ss H K HA; cbn [collect] in H; [injection H as <-; constructor|].
  destruct (f x) as [s0|e] eqn:E; [|discriminate]. cbn [bind] in H. destruct (collect f l) as [m|e] eqn:C; [|discriminate]. cbn [bind] in H. injection H as <-.
  cbn [map] in HA. inversion HA as [|? ? X HA']; subst. specialize (IH m eq_refl (fun y s I => K y s (or_intror I)) HA').
  destruct s0 as [s0|]; [|exact IH]. cbn [map]. constructor; [|exact IH]. intros o I. apply in_map_iff in I. destruct I as (s & <- & I).
  apply (collect_in f l m C) in I. destruct I as (y & I & F). rewrite (K y s (or_intror I) F), (K x s0 (or_introl eq_refl) E). apply X. now apply in_map.
Qed.
Lemma collect_err {A} (f : A -> result (option sheet)) l e : collect f l = Err e <-> exists a x b, l = a ++ x :: b /\ (forall y, In y a -> exists s, f y = Ok s) /\ f x = Err e.
Proof.
  split.
  - induction l as [|x l IH]; cbn [collect]; [discriminate|]. destruct (f x) as [s|e0] eqn:E; cbn [bind].
    + destruct (collect f l) as [m|e0]; cbn [bind]; [discriminate|]. intros H. destruct IH as (a & y & b & -> & A1 & F); [congruence|].
      exists (x :: a), y, b. split; [reflexivity|]. split; [|exact F]. intros z [<-|I]; [now exists s|now apply A1].
    + intros [= ->]. exists [], x, l. split; [reflexivity|]. split; [intros y []|exact E].
  - intros (a & x & b & -> & HA & F). induction a as [|y a IH]; cbn [app collect bind]; [now rewrite F|].
    destruct (HA y (or_introl eq_refl)) as [s ->]. cbn [bind]. now rewrite (IH (fun z I => HA z (or_intror I))).
Qed.
Lemma collect_all {A} (f : A -> result (option sheet)) l : (forall x, In x l -> exists s, f x = Ok s) -> exists ss, collect f l = Ok ss.
Proof.
  intros H. destruct (collect f l) as [ss|e] eqn:E; [now exists ss|]. apply collect_err in E. destruct E as (a & x & b & -> & _ & F). destruct (H x) as [s G]; [|congruence].
  apply in_or_app. right. now left.
Qed.

(** ** All nodes of a page *)
Definition page_nodes (p : page) : list (owner * node) := map (fun x => (OPI (fst x), snd x)) (numbered 0 (p_prolog p)) ++ map (fun x => (OElem (fst x), snd x)) (walk [] (p_root p)).
Definition node_sheet (c : ctx) (x : owner * node) : result (option sheet) :=
  match fst x with OAgent => Ok None | OPI i => pi_sheet c (i, snd x) | OElem w => if named (snd x) then element_sheet c (OElem w) (snd x) else Ok None end.
Lemma sheets_nodes c p : get_sheets c p = (do l <- collect (node_sheet c) (page_nodes p); Ok (agent_sheet c :: l)).
Proof.
  unfold get_sheets, page_nodes, prolog_sheets, tree_sheets. rewrite collect_app, !collect_map, collect_filter.
  rewrite (collect_ext (pi_sheet c) (fun x => node_sheet c (OPI (fst x), snd x))) by (now intros [i n] _).
  destruct (collect _ (numbered 0 (p_prolog p))) as [a|e]; cbn [bind]; [|reflexivity].
  rewrite (collect_ext (fun x => if named (snd x) then element_sheet c (OElem (fst x)) (snd x) else Ok None) (fun x => node_sheet c (OElem (fst x), snd x))) by (now intros [w n] _).
  now destruct (collect _ (walk [] (p_root p))).
Qed.
Lemma numbered_in {A} (l : list A) : forall i j x, In (j, x) (numbered i l) <-> exists k, j = (i + k)%nat /\ nth_error l k = Some x.
Proof.
  induction l as [|y l IH]; intros i j x; cbn [numbered In].
  - split; [intros []|]. intros (k & _ & E). destruct k; discriminate.
  - rewrite IH. split.
    + intros [[= <- <-]|(k & -> & E)]; [exists O; split; [lia|reflexivity]|]. exists (S k). split; [lia|exact E].
    + intros ([|k] & -> & E); [left; injection E as ->; f_equal; lia|]. right. exists k. split; [lia|exact E].
Qed.
Lemma numbered_asc {A} (l : list A) : forall i, ascending lt (map fst (numbered i l)).
Proof.
  induction l as [|y l IH]; intros i; [constructor|]. cbn [numbered map fst]. constructor; [|apply IH].
  intros j I. apply in_map_iff in I. destruct I as ([k x] & <- & I). apply numbered_in in I. destruct I as (m & -> & _). cbn [fst]. lia.
Qed.
Lemma nodes_in p o n : In (o, n) (page_nodes p) <-> owns p o n /\ match o with OElem _ => is_elem n | _ => True end.
Proof.
  unfold page_nodes. rewrite in_app_iff, !in_map_iff. destruct o as [|i|w]; cbn [owns].
  - split; [|intros [[] _]]. intros [([j m] & E & _)|([j m] & E & _)]; discriminate.
  - split.
    + intros [([j m] & E & I)|([j m] & E & _)]; [|discriminate]. injection E as -> ->. apply numbered_in in I. destruct I as (k & -> & I). now split.
    + intros [E _]. left. exists (i, n). split; [reflexivity|]. apply numbered_in. now exists i.
  - split.
    + intros [([j m] & E & _)|([j m] & E & I)]; [discriminate|]. injection E as -> ->. apply walk_in in I. destruct I as (q & -> & W & EL). now split.
    + intros [W EL]. right. exists (w, n). split; [reflexivity|]. apply walk_in. now exists w.
Qed.
Lemma nodes_asc p : ascending precedes (map fst (page_nodes p)).
Proof.
  unfold page_nodes. rewrite map_app, !map_map. cbn [fst]. apply asc_app.
  - rewrite <- (map_map fst OPI). apply (asc_map lt); [now cbn|]. apply numbered_asc.
  - rewrite <- (map_map fst OElem). apply (asc_map before); [now cbn|]. apply walk_asc.
  - intros x y I J. apply in_map_iff in I, J. destruct I as (a & <- & _), J as (b & <- & _). exact Logic.I.
Qed.

(** ** One node *)
Lemma get_or_spec a k d : attr_or a k d (get_or a k d).
Proof. unfold attr_or, get_or. destruct (dget a k); auto. Qed.
Lemma attr_or_fun a k d x y : attr_or a k d x -> attr_or a k d y -> x = y.
Proof. unfold attr_or. intros [H|[H ->]] [G|[G ->]]; congruence. Qed.
Lemma based_fun c b b' : based c b -> based c b' -> b = b'.
Proof. unfold based. destruct (c_uri c) as [u|]; [|congruence]. intros [[H ->]|[H ->]] [[G ->]|[G ->]]; tauto || reflexivity. Qed.
Lemma about_spec t : text_eqb (firstn 6 t) (lit "about:") = true <-> exists r, t = lit "about:" ++ r.
Proof.
  destruct (text_eqb_spec (firstn 6 t) (lit "about:")) as [E|E]; split; try discriminate; intros H.
  - exists (skipn 6 t). rewrite <- E. now rewrite firstn_skipn.
  - reflexivity.
  - destruct H as [r ->]. exfalso. apply E. reflexivity.
Qed.
Lemma sheet_url_spec c h : exists b, based c b /\ sheet_url c h = construct_text (c_web c) h b.
Proof.
  unfold sheet_url, based. destruct (c_uri c) as [u|]; [|now eexists]. destruct (text_eqb (firstn 6 u) (lit "about:")) eqn:E.
  - apply about_spec in E. exists (c_cwd c). auto.
  - exists u. split; [|reflexivity]. right. split; [|reflexivity]. intros H. apply about_spec in H. congruence.
Qed.
Lemma fetch_spec c o a h advice : attr_is a (lit "href") h ->
  match (do u <- sheet_url c h; do s <- parse_sheet c o a (snd (tostring u)) advice; Ok (Some s)) with
  | Ok (Some s) => carries a s /\ attr_or a (lit "media") [] (s_media s) /\ s_href s = Some h /\ leads c h advice (s_rules s) /\ s_owner s = o /\ forall e, ~ fails c h advice e
  | Ok None => False
  | Err e => fails c h advice e
  end.
Proof.
  intros A. destruct (sheet_url_spec c h) as (b & HB & E). rewrite E. clear E.
  destruct (construct_text (c_web c) h b) as [u|e] eqn:U; cbn [bind]; [|exists b; split; [exact HB|now left]].
  assert (K : forall rs s, s = mkSheet o (get_or a (lit "type") (lit "text/css")) (dget a (lit "href")) (dget a (lit "title")) (get_or a (lit "media") []) rs ->
    carries a s /\ attr_or a (lit "media") [] (s_media s) /\ s_href s = Some h /\ s_rules s = rs /\ s_owner s = o).
  { intros rs s ->. split; [split; [apply get_or_spec|reflexivity]|]. split; [apply get_or_spec|]. now repeat split. }
  assert (G : forall e, fails c h advice e -> e <> OtherError /\ (load (c_web c) (c_wire c) (snd (tostring u)) = Err e \/
       exists d hs, load (c_web c) (c_wire c) (snd (tostring u)) = Ok (d, hs) /\ c_bytes c (match advice with Some e => e | None => charset_of hs end) d = Err e)).
  { intros e (b' & HB' & [F|(u' & F & R)]); rewrite (based_fun c b' b HB' HB), U in F; [discriminate|]. injection F as <-. exact R. }
  unfold parse_sheet, css_encoding. destruct (load (c_web c) (c_wire c) (snd (tostring u))) as [[d hs]|e] eqn:L; cbn [bind].
  - destruct (c_bytes c _ d) as [rs|e] eqn:P; cbn [bind].
    + destruct (K rs _ eq_refl) as (K1 & K2 & K3 & K4 & K5). split; [exact K1|]. split; [exact K2|]. split; [exact K3|]. split.
      * exists b, u. split; [exact HB|]. split; [exact U|]. left. exists d, hs. split; [exact L|]. cbv zeta. left. rewrite K4. exact P.
      * split; [exact K5|]. intros e F. apply G in F. destruct F as [_ [F|(d' & hs' & F & F')]]; [discriminate|]. injection F as <- <-. congruence.
    + assert (X : e = OtherError \/ e <> OtherError) by (destruct e; (now left) || (right; discriminate)). destruct X as [->|X].
      * cbn [bind]. destruct (K [] _ eq_refl) as (K1 & K2 & K3 & K4 & K5). split; [exact K1|]. split; [exact K2|]. split; [exact K3|]. split.
        -- exists b, u. split; [exact HB|]. split; [exact U|]. left. exists d, hs. split; [exact L|]. cbv zeta. right. now split.
        -- split; [exact K5|]. intros e F. apply G in F. destruct F as [N [F|(d' & hs' & F & F')]]; [discriminate|]. injection F as <- <-. congruence.
      * assert (Y : fails c h advice e) by (exists b; split; [exact HB|]; right; exists u; split; [exact U|]; split; [exact X|]; right; now exists d, hs).
        destruct e; try exact Y; contradiction.
  - assert (X : e = OtherError \/ e <> OtherError) by (destruct e; (now left) || (right; discriminate)). destruct X as [->|X].
    + cbn [bind]. destruct (K [] _ eq_refl) as (K1 & K2 & K3 & K4 & K5). split; [exact K1|]. split; [exact K2|]. split; [exact K3|]. split.
      * exists b, u. split; [exact HB|]. split; [exact U|]. right. now split.
      * split; [exact K5|]. intros e F. apply G in F. destruct F as [N [F|(d' & hs' & F & F')]]; [congruence|discriminate].
    + assert (Y : fails c h advice e) by (exists b; split; [exact HB|]; right; exists u; split; [exact U|]; split; [exact X|]; now left).
      destruct e; try exact Y; contradiction.
Qed.

Lemma rel_spec a r : mem r (tokens (dget a (lit "rel"))) = true <-> has_rel a r.
Proof.
  rewrite mem_in. unfold has_rel, attr_is. destruct (dget a (lit "rel")) as [v|].
  - split; [intros I; now exists v|]. intros (v' & [= <-] & I). exact I.
  - split; [intros []|]. intros (v' & E & _). discriminate.
Qed.
Lemma styled_spec a : text_eqb (get_or a (lit "as") []) (lit "style") = true <-> styled a.
Proof.
  unfold styled, attr_is, get_or. destruct (dget a (lit "as")) as [v|].
  - destruct (text_eqb_spec v (lit "style")) as [->|N]; split; try discriminate; try reflexivity. intros [= ->]. contradiction.
  - split; discriminate.
Qed.
Lemma sheet_rel_spec a : let rel := tokens (dget a (lit "rel")) in let st := text_eqb (get_or a (lit "as") []) (lit "style") in
  mem (lit "alternate") rel || (negb (mem (lit "stylesheet") rel) && negb (mem (lit "preload") rel && st)) || (mem (lit "preload") rel && negb st) = false <-> sheet_rel a.
Proof.
  cbv zeta. unfold sheet_rel. rewrite <- !rel_spec, <- styled_spec.
  destruct (mem (lit "alternate") _), (mem (lit "stylesheet") _), (mem (lit "preload") _), (text_eqb _ _); cbn; intuition congruence.
Qed.
Lemma media_spec c a d : d = [] \/ d = lit "all" -> media_ok (c_win c) (get_or a (lit "media") d) = true <-> media_holds c a.
Proof.
  intros D. rewrite media_iff. unfold media_holds, attr_is, get_or. destruct (dget a (lit "media")) as [m|].
  - split; [intros H m' [= <-]; exact H|]. intros H. now apply H.
  - split; [intros _ m' E; discriminate|]. intros _. unfold holds. tauto.
Qed.
Definition outcome (c : ctx) (o : owner) (n : node) (r : result (option sheet)) : Prop :=
  match r with
  | Ok (Some s) => used c o n /\ sheet_for c n s /\ s_owner s = o /\ forall e, ~ stops c o n e
  | Ok None => ~ used c o n /\ forall e, ~ stops c o n e
  | Err e => stops c o n e
  end.
Lemma unused c o n : ~ used c o n -> ~ no_target o n -> outcome c o n (Ok None).
Proof. intros H1 H2. split; [exact H1|]. intros e [[X _]|[X _]]; contradiction. Qed.
Lemma link_outcome c w a t kids : outcome c (OElem w) (NElem (lit "link") a t kids) (link_sheet c (OElem w) a).
Proof.
  unfold link_sheet. destruct (_ || _ || _) eqn:R.
  - assert (NR : ~ sheet_rel a) by (intros X; apply sheet_rel_spec in X; cbv zeta in X; congruence).
    apply unused; [|intros (_ & X & _); contradiction]. intros (name & a' & t' & k' & [= <- <- <- <-] & _ & [(_ & X & _)|(X & _)]); [contradiction|discriminate].
  - apply sheet_rel_spec in R. unfold get_or. destruct (dget a (lit "href")) as [h|] eqn:E.
    2: { left. split; [|reflexivity]. split; [reflexivity|]. split; [exact R|]. right. now split. }
    destruct h as [|x r]; [left; split; [|reflexivity]; split; [reflexivity|]; split; [exact R|]; now left|].
    assert (NT : ~ no_target (OElem w) (NElem (lit "link") a t kids)) by (intros (_ & _ & [X|[X _]]); unfold attr_is in *; congruence).
    destruct (N.eqb_spec x 35) as [->|NX].
    + apply unused; [|exact NT]. intros (name & a' & t' & k' & [= <- <- <- <-] & _ & [(_ & _ & h & HH & _ & HN)|(X & _)]); [|discriminate].
      unfold attr_is in HH. rewrite E in HH. injection HH as <-. now apply (HN r).
    + fold (get_or a (lit "media") []). destruct (media_ok (c_win c) (get_or a (lit "media") [])) eqn:M.
      * apply media_spec in M; [|now left]. assert (UU : used c (OElem w) (NElem (lit "link") a t kids)).
        { exists (lit "link"), a, t, kids. split; [reflexivity|]. split; [exact M|]. left. split; [reflexivity|]. split; [exact R|]. exists (x :: r). split; [exact E|]. split; [discriminate|]. intros r' [= ? ?]. contradiction. }
        pose proof (fetch_spec c (OElem w) a (x :: r) None E) as F. destruct (do u <- _; _) as [[s|]|e]; [|contradiction|].
        -- destruct F as (F1 & F2 & F3 & F4 & F5 & F6). split; [exact UU|]. split; [split; [exact F1|]; left; split; [reflexivity|]; split; [exact F2|]; exists (x :: r); now repeat split|].
           split; [exact F5|]. intros e [[X _]|[_ [(_ & h & HH & HF)|(X & _)]]]; [now apply NT| |discriminate X].
           unfold attr_is in HH. rewrite E in HH. injection HH as <-. now apply (F6 e).
        -- right. split; [exact UU|]. left. split; [reflexivity|]. exists (x :: r). now split.
      * apply unused; [|exact NT]. intros (name & a' & t' & k' & [= <- <- <- <-] & X & _). apply (media_spec c a []) in X; [congruence|now left].
Qed.
Lemma style_outcome c w a t kids : outcome c (OElem w) (NElem (lit "style") a t kids) (style_sheet c (OElem w) a t).
Proof.
  assert (NT : ~ no_target (OElem w) (NElem (lit "style") a t kids)) by (intros (X & _); discriminate).
  unfold style_sheet. destruct t as [x|].
  2: { apply unused; [|exact NT]. intros (name & a' & t' & k' & [= <- <- <- <-] & _ & [(X & _)|(_ & X & _)]); [discriminate|now apply X]. }
  destruct (text_eqb_spec (get_or a (lit "type") (lit "text/css")) (lit "text/css")) as [T|T]; cbn [negb].
  2: { apply unused; [|exact NT]. intros (name & a' & t' & k' & [= <- <- <- <-] & _ & [(X & _)|(_ & _ & X)]); [discriminate|]. apply T.
       destruct (get_or_spec a (lit "type") (lit "text/css")) as [Y|[_ Y]]; [now apply X|exact Y]. }
  destruct (media_ok (c_win c) _) eqn:M.
  2: { apply unused; [|exact NT]. intros (name & a' & t' & k' & [= <- <- <- <-] & X & _). apply (media_spec c a (lit "all")) in X; [congruence|now right]. }
  apply media_spec in M; [|now right].
  assert (UU : used c (OElem w) (NElem (lit "style") a (Some x) kids)).
  { exists (lit "style"), a, (Some x), kids. split; [reflexivity|]. split; [exact M|]. right. split; [reflexivity|]. split; [discriminate|]. intros ty Y.
    rewrite <- T. eapply attr_or_fun; [left; exact Y|apply get_or_spec]. }
  assert (K : forall rs, (c_text c x = Ok rs \/ c_text c x = Err OtherError /\ rs = []) ->
    outcome c (OElem w) (NElem (lit "style") a (Some x) kids) (Ok (Some (mkSheet (OElem w) (get_or a (lit "type") (lit "text/css")) None (dget a (lit "title")) (get_or a (lit "media") (lit "all")) rs)))).
  { intros rs H. split; [exact UU|]. split; [|split; [reflexivity|]].
    - split; [split; [apply get_or_spec|reflexivity]|]. right. split; [reflexivity|]. split; [apply get_or_spec|]. split; [reflexivity|]. exists x. now split.
    - intros e [[X _]|[_ [(X & _)|(_ & y & [= <-] & Y & N)]]]; [now apply NT|discriminate|]. destruct H as [H|[H _]]; congruence. }
  destruct (c_text c x) as [rs|e] eqn:P; cbn [bind]; [apply K; now left|].
  assert (X : e = OtherError \/ e <> OtherError) by (destruct e; (now left) || (right; discriminate)). destruct X as [->|X]; [apply K; right; now split|].
  assert (Y : stops c (OElem w) (NElem (lit "style") a (Some x) kids) e) by (right; split; [exact UU|]; right; split; [reflexivity|]; exists x; now repeat split).
  destruct e; try exact Y; contradiction.
Qed.
Lemma pi_outcome c i n : outcome c (OPI i) n (pi_sheet c (i, n)).
Proof.
  unfold pi_sheet. cbn [fst snd]. destruct n as [name a t kids|t a|]; [apply unused; [intros (a' & h & X & _); discriminate|intros []]| |apply unused; [intros (a' & h & X & _); discriminate|intros []]].
  destruct (text_eqb_spec t (lit "xml-stylesheet")) as [->|N].
  2: { apply unused; [|intros [X _]; contradiction]. intros (a' & h & [= -> _] & _). now apply N. }
  destruct (dget a (lit "href")) as [h|] eqn:E.
  2: { apply unused; [|intros [_ X]; unfold attr_is in X; congruence]. intros (a' & h & [= <-] & _ & X & _). unfold attr_is in X. congruence. }
  destruct h as [|x r]; [left; split; [split; [reflexivity|exact E]|reflexivity]|].
  assert (NT : ~ no_target (OPI i) (NPI (lit "xml-stylesheet") a)) by (intros [_ X]; unfold attr_is in X; congruence).
  assert (AL : text_eqb (get_or a (lit "alternate") []) (lit "yes") = true <-> attr_is a (lit "alternate") (lit "yes")).
  { unfold attr_is, get_or. destruct (dget a (lit "alternate")) as [v|]; [|split; discriminate]. destruct (text_eqb_spec v (lit "yes")) as [->|NV]; split; try discriminate; try reflexivity. intros [= ->]. contradiction. }
  destruct ((x =? 35) || text_eqb (get_or a (lit "alternate") []) (lit "yes")) eqn:B.
  - apply unused; [|exact NT]. intros (a' & h & [= <-] & _ & X & [_ HN] & NA). unfold attr_is in X. rewrite E in X. injection X as <-.
    apply orb_true_iff in B. destruct B as [B|B]; [apply N.eqb_eq in B; subst x; now apply (HN r)|]. apply AL in B. contradiction.
  - apply orb_false_iff in B. destruct B as [B1 B2]. apply N.eqb_neq in B1.
    destruct (media_ok (c_win c) (get_or a (lit "media") [])) eqn:M.
    + apply media_spec in M; [|now left]. assert (UU : used c (OPI i) (NPI (lit "xml-stylesheet") a)).
      { exists a, (x :: r). split; [reflexivity|]. split; [exact M|]. split; [exact E|]. split; [split; [discriminate|]; intros r' [= ? ?]; contradiction|]. intros X. apply AL in X. congruence. }
      pose proof (fetch_spec c (OPI i) a (x :: r) (dget a (lit "charset")) E) as F. destruct (do u <- _; _) as [[s|]|e]; [|contradiction|].
      * destruct F as (F1 & F2 & F3 & F4 & F5 & F6). split; [exact UU|]. split; [split; [exact F1|]; split; [exact F2|]; exists (x :: r); now repeat split|].
        split; [exact F5|]. intros e [[X _]|[_ (h & HH & HF)]]; [now apply NT|]. unfold attr_is in HH. rewrite E in HH. injection HH as <-. now apply (F6 e).
      * right. split; [exact UU|]. exists (x :: r). now split.
    + apply unused; [|exact NT]. intros (a' & h & [= <-] & X & _). apply (media_spec c a []) in X; [congruence|now left].
Qed.
Lemma node_outcome c o n : o <> OAgent -> outcome c o n (node_sheet c (o, n)).
Proof.
  intros NO. destruct o as [|i|w]; [contradiction|apply pi_outcome|]. unfold node_sheet. cbn [fst snd]. destruct n as [name a t kids|t a|]; cbn [named element_sheet].
  - destruct (text_eqb_spec name (lit "link")) as [->|N1]; cbn [orb]; [apply link_outcome|]. destruct (text_eqb_spec name (lit "style")) as [->|N2]; [apply style_outcome|].
    apply unused; [|intros (X & _); contradiction]. intros (name' & a' & t' & k' & [= <- <- <- <-] & _ & [(X & _)|(X & _)]); contradiction.
  - apply unused; [|intros []]. intros (name' & a' & t' & k' & X & _). discriminate.
  - apply unused; [|intros []]. intros (name' & a' & t' & k' & X & _). discriminate.
Qed.
Lemma fails_fun c h adv e e' : fails c h adv e -> fails c h adv e' -> e = e'.
Proof.
  intros (b & HB & H) (b' & HB' & G). rewrite (based_fun c b' b HB' HB) in G. clear HB HB' b'.
  destruct H as [H|(u & H & _ & [K|(d & hs & K & L)])], G as [G|(u' & G & _ & [K'|(d' & hs' & K' & L')])]; rewrite H in G; try discriminate G; injection G as <-; try reflexivity; rewrite K in K'; try discriminate K'.
  - now injection K' as <-.
  - injection K' as <- <-. congruence.
Qed.
Lemma stops_used c o n : no_target o n -> ~ used c o n.
Proof.
  destruct o as [|i|w], n as [name a t kids|t a|]; try (intros H; exact (False_ind _ H)).
  - intros [-> X] (a' & h & [= <-] & _ & Y & [Z _] & _). unfold attr_is in *. congruence.
  - intros (-> & _ & X) (nm & a' & t' & k' & [= <- <- <- <-] & _ & [(_ & _ & h & Y & Z & _)|(Y & _)]); [|discriminate].
    unfold attr_is, attr_or in *. destruct X as [X|[X _]]; congruence.
Qed.
Lemma stops_fun c o n e e' : stops c o n e -> stops c o n e' -> e = e'.
Proof.
  intros [[T ->]|[UU H]] [[T' ->]|[UU' G]]; [reflexivity|apply (stops_used c) in T; contradiction|apply (stops_used c) in T'; contradiction|].
  destruct n as [name a t kids|t a|]; [| |contradiction].
  - destruct H as [(-> & h & A & F)|(-> & x & -> & F & _)], G as [(N & h' & A' & F')|(N & x' & X' & F' & _)]; try discriminate N.
    + unfold attr_is in *. rewrite A in A'. injection A' as <-. eapply fails_fun; eassumption.
    + injection X' as <-. congruence.
  - destruct H as (h & A & F), G as (h' & A' & F'). unfold attr_is in *. rewrite A in A'. injection A' as <-. eapply fails_fun; eassumption.
Qed.
Lemma leads_fun c h adv rs rs' : leads c h adv rs -> leads c h adv rs' -> rs = rs'.
Proof.
  intros (b & u & HB & U & H) (b' & u' & HB' & U' & G). rewrite (based_fun c b' b HB' HB), U in U'. injection U' as <-.
  destruct H as [(d & hs & L & H)|(L & ->)], G as [(d' & hs' & L' & G)|(L' & ->)]; rewrite L in L'; try discriminate L'; [|reflexivity].
  injection L' as <- <-. cbv zeta in *. destruct H as [H|[H ->]], G as [G|[G ->]]; congruence.
Qed.
Lemma sheet_for_fun c n s s' : s_owner s = s_owner s' -> sheet_for c n s -> sheet_for c n s' -> s = s'.
Proof.
  intros O H G. destruct s as [o ty hr ti me rs], s' as [o' ty' hr' ti' me' rs']. cbn [s_owner] in O. subst o'.
  destruct n as [name a t kids|t a|]; [| |contradiction]; unfold sheet_for, carries in *; cbn [s_type s_href s_title s_media s_rules] in *.
  - destruct H as [[T1 ->] H], G as [[T2 ->] G]. rewrite (attr_or_fun _ _ _ _ _ T1 T2). destruct H as [(-> & M1 & h & A & -> & L)|(-> & M1 & -> & x & -> & P)], G as [(N & M2 & h' & A' & -> & L')|(N & M2 & -> & x' & X' & P')]; try discriminate N.
    + unfold attr_is in *. rewrite A in A'. injection A' as <-. rewrite (attr_or_fun _ _ _ _ _ M1 M2), (leads_fun _ _ _ _ _ L L'). reflexivity.
    + injection X' as <-. rewrite (attr_or_fun _ _ _ _ _ M1 M2). f_equal. destruct P as [P|[P ->]], P' as [P'|[P' ->]]; congruence.
  - destruct H as ([T1 ->] & M1 & h & A & -> & L), G as ([T2 ->] & M2 & h' & A' & -> & L'). rewrite (attr_or_fun _ _ _ _ _ T1 T2), (attr_or_fun _ _ _ _ _ M1 M2).
    unfold attr_is in *. rewrite A in A'. injection A' as <-. now rewrite (leads_fun _ _ _ _ _ L L').
Qed.
Lemma way_fun n : forall w x y, at_way n w x -> at_way n w y -> x = y.
Proof.
  intros w. revert n. induction w as [|i w IH]; intros n x y H G; inversion H; inversion G; subst; [reflexivity|].
  match goal with X : NElem _ _ _ _ = NElem _ _ _ _ |- _ => injection X as -> -> -> -> end.
  match goal with X : nth_error _ _ = Some ?k, Y : nth_error _ _ = Some ?k' |- _ => rewrite X in Y; injection Y as -> end. eauto.
Qed.
Lemma owns_fun p o n m : owns p o n -> owns p o m -> n = m.
Proof. destruct o as [|i|w]; cbn [owns]; [intros []|congruence|apply way_fun]. Qed.
Lemma before_irrefl w : ~ before w w.
Proof. induction w as [|i w IH]; intros H; inversion H; subst; [lia|contradiction]. Qed.
Lemma precedes_irrefl o : ~ precedes o o.
Proof. destruct o; cbn; [tauto|lia|apply before_irrefl]. Qed.
Lemma before_asym w v : before w v -> before v w -> False.
Proof. intros H. induction H as [i p|i j p q L|i p q H IH]; intros G; inversion G; subst; try lia; auto. Qed.
Lemma precedes_asym x y : precedes x y -> precedes y x -> False.
Proof. destruct x, y; cbn; try tauto; [lia|apply before_asym]. Qed.
Lemma asc_unique (l : list owner) : forall m, ascending precedes l -> ascending precedes m -> (forall o, In o l <-> In o m) -> l = m.
Proof.
  induction l as [|x l IH]; intros [|y m] HL HM E; [reflexivity|exfalso; apply (E y); now left|exfalso; apply (E x); now left|].
  inversion HL as [|? ? X HL']; inversion HM as [|? ? Y HM']; subst.
  assert (x = y). { destruct (proj1 (E x) (or_introl eq_refl)) as [<-|I]; [reflexivity|]. destruct (proj2 (E y) (or_introl eq_refl)) as [<-|J]; [reflexivity|].
    exfalso. exact (precedes_asym x y (X y J) (Y x I)). }
  subst y. f_equal. apply IH; [exact HL'|exact HM'|]. intros o. split; intros I.
  - destruct (proj1 (E o) (or_intror I)) as [<-|J]; [exfalso; exact (precedes_irrefl x (X x I))|exact J].
  - destruct (proj2 (E o) (or_intror I)) as [<-|J]; [exfalso; exact (precedes_irrefl x (Y x I))|exact J].
Qed.
Lemma used_elem c w n : used c (OElem w) n -> is_elem n.
Proof. intros (name & a & t & k & -> & _). exact Logic.I. Qed.
Lemma stops_elem c w n e : stops c (OElem w) n e -> is_elem n.
Proof. intros [[H _]|[H _]]; [|now apply (used_elem c w)]. destruct n; [exact Logic.I|contradiction|contradiction]. Qed.
Lemma owns_agent p o n : owns p o n -> o <> OAgent.
Proof. now destruct o. Qed.
Lemma page_in c p l : get_sheets c p = Ok l -> exists r, l = agent_sheet c :: r /\ collect (node_sheet c) (page_nodes p) = Ok r.
Proof. rewrite sheets_nodes. destruct (collect _ _) as [r|e]; cbn [bind]; [|discriminate]. intros [= <-]. now exists r. Qed.
Lemma asc_split {A} (lt : A -> A -> Prop) a x b : ascending lt (a ++ x :: b) -> forall y, In y a -> lt y x.
Proof. induction a as [|z a IH]; intros H y []; inversion H; subst; [|now apply IH]. match goal with X : forall y, _ -> _ |- _ => apply X end. apply in_or_app. right. now left. Qed.

(** ** What does not matter *)
Definition bare (n : node) : node := match n with NElem name a t _ => NElem name a t [] | _ => n end.
Lemma listed_walk n : forall l, listed n l -> forall p, map bare (filter named (map snd (walk p n))) = l.
Proof.
  induction n as [name a t kids F|t a|] using node_ind'; intros l H p.
  - rewrite walk_elem. cbn [map snd filter].
    assert (K : forall ll, listed_all kids ll -> forall i, map bare (filter named (map snd (walk_kids p i kids))) = ll).
    { clear H l. induction F as [|k r Pk F IH]; intros ll H i; inversion H; subst; [reflexivity|]. cbn [walk_kids]. rewrite map_app, filter_app, map_app. f_equal; [now apply Pk|now apply IH]. }
    inversion H; subst; cbn [named].
    + match goal with X : _ \/ _ |- _ => destruct X as [->| ->] end; (match goal with |- context [if ?b then _ else _] => change b with true end); cbn iota; cbn [map bare]; f_equal; now apply K.
    + destruct (text_eqb_spec name (lit "link")); [contradiction|]. destruct (text_eqb_spec name (lit "style")); [contradiction|]. cbn [orb]. now apply K.
  - inversion H; subst. reflexivity.
  - inversion H; subst. reflexivity.
Qed.
Definition rmap {A B} (f : A -> B) (r : result A) : result B := match r with Ok x => Ok (f x) | Err e => Err e end.
Lemma parse_unowned c o o' a src adv : rmap unowned (parse_sheet c o a src adv) = rmap unowned (parse_sheet c o' a src adv).
Proof. unfold parse_sheet. destruct (do (b, h) <- _; _) as [rs|e]; [reflexivity|]. now destruct e. Qed.
Lemma element_unowned c o o' n : rmap (option_map unowned) (element_sheet c o n) = rmap (option_map unowned) (element_sheet c o' (bare n)).
Proof.
  destruct n as [name a t kids|t a|]; [|reflexivity|reflexivity]. cbn [element_sheet bare]. destruct (text_eqb name (lit "link")); [|destruct (text_eqb name (lit "style")); [|reflexivity]].
  - unfold link_sheet. destruct (_ || _ || _); [reflexivity|]. destruct (get_or a (lit "href") []) as [|x r]; [reflexivity|]. destruct (x =? 35); [reflexivity|]. destruct (media_ok _ _); [|reflexivity].
    destruct (sheet_url c (x :: r)) as [u|e]; cbn [bind]; [|reflexivity]. pose proof (parse_unowned c o o' a (snd (tostring u)) None) as P.
    destruct (parse_sheet c o a _ _), (parse_sheet c o' a _ _); cbn [rmap bind option_map] in *; congruence.
  - unfold style_sheet. destruct t as [x|]; [|reflexivity]. destruct (negb _); [reflexivity|]. destruct (media_ok _ _); [|reflexivity]. destruct (match c_text c x with Ok _ => _ | Err _ => _ end); reflexivity.
Qed.
Lemma collect_unowned {A B} (f : A -> result (option sheet)) (g : B -> result (option sheet)) l : forall m,
  map (fun x => rmap (option_map unowned) (f x)) l = map (fun x => rmap (option_map unowned) (g x)) m -> rmap (map unowned) (collect f l) = rmap (map unowned) (collect g m).
Proof.
  induction l as [|x l IH]; intros [|y m] E; try discriminate; [reflexivity|]. cbn [map] in E. injection E as E1 E2. cbn [collect].
  destruct (f x) as [s|e], (g y) as [s'|e']; cbn [rmap bind] in *; try congruence. specialize (IH m E2).
  destruct (collect f l), (collect g m); cbn [rmap bind] in *; try congruence. injection IH as IH. injection E1 as E1.
  destruct s, s'; cbn [option_map map] in *; congruence.
Qed.
Lemma tree_unowned c n m l : listed n l -> listed m l -> rmap (map unowned) (tree_sheets c n) = rmap (map unowned) (tree_sheets c m).
Proof.
  intros H G. unfold tree_sheets. apply collect_unowned.
  assert (K : forall k, listed k l -> map (fun x => rmap (option_map unowned) (element_sheet c (OElem (fst x)) (snd x))) (filter (fun x => named (snd x)) (walk [] k)) = map (fun x => rmap (option_map unowned) (element_sheet c OAgent x)) l).
  { intros k L. rewrite <- (listed_walk k l L []). rewrite map_map. generalize (walk [] k) as w. intros w. induction w as [|[q x] w IH]; [reflexivity|]. cbn [filter map snd].
    destruct (named x); cbn [map fst snd]; [|exact IH]. f_equal; [apply element_unowned|exact IH]. }
  now rewrite (K n H), (K m G).
Qed.
Lemma bare_id n : bare (bare n) = bare n.
Proof. now destruct n. Qed.
