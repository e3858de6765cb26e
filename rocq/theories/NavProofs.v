(** Proofs about navigation. *)
From Coq Require Import Lia Bool List.
From Verif Require Import PyBase PyText PyCase PyDict PySplit UrlModel UrlSpec UrlProofs UrlProofs2 UrlProofs3 UrlProofs4 NavModel NavSpec.
Import ListNotations.
#[local] Open Scope N_scope.

Lemma look_look u : look (look u) = look u.
Proof.
  unfold look. destruct (nonempty (u_port u) && text_eqb (port_of (u_protocol u)) (u_port u)) eqn:E; [|now rewrite E].
  cbn [u_port u_protocol with_host]. rewrite E. reflexivity.
Qed.
Lemma look_protocol u : u_protocol (look u) = u_protocol u.
Proof. unfold look. now destruct (_ && _). Qed.
Lemma look_pathname u : u_pathname (look u) = u_pathname u.
Proof. unfold look. now destruct (_ && _). Qed.
Lemma look_rest u : u_username (look u) = u_username u /\ u_password (look u) = u_password u /\ u_hostname (look u) = u_hostname u /\ u_port (look u) = u_port u /\ u_params (look u) = u_params u /\ u_hash (look u) = u_hash u.
Proof. unfold look. destruct (_ && _); now repeat split. Qed.
Lemma look_host u : get_host (look u) = get_host u.
Proof. unfold get_host. now rewrite look_look. Qed.
Lemma look_getpath u : get_pathname (look u) = get_pathname u.
Proof. unfold get_pathname. now rewrite look_protocol, look_pathname. Qed.
Lemma href_look u : href (look u) = href u.
Proof.
  unfold href, tostring. cbn [snd]. destruct (look_rest u) as (a & b & c & d & e & f).
  unfold get_search, get_hash. rewrite look_protocol, look_host, look_getpath, a, b, e, f. reflexivity.
Qed.
Lemma visitable_look u : visitable (look u) <-> visitable u.
Proof. unfold visitable. rewrite look_protocol, look_host, look_getpath. tauto. Qed.

Lemma nonempty_false t : nonempty t = false <-> t = [].
Proof. destruct t; cbn; split; congruence. Qed.
Lemma mem_two p a b : mem p [a; b] = true <-> p = a \/ p = b.
Proof.
  unfold mem. cbn [existsb]. rewrite orb_false_r, orb_true_iff.
  destruct (text_eqb_spec p a), (text_eqb_spec p b); intuition congruence.
Qed.
Lemma file_path u : u_protocol u = lit "file:" -> nonempty (get_pathname u) = true.
Proof.
  intros E. unfold get_pathname. rewrite E. cbn [opaque]. change (opaque (lit "file:")) with false. cbn [negb andb].
  destruct (u_pathname u) as [|c r]; [reflexivity|]. destruct (starts_slash (c :: r)); reflexivity.
Qed.
Lemma no_page_visitable u : no_page u = false <-> visitable u.
Proof.
  unfold no_page, visitable. rewrite !orb_false_iff, !andb_false_iff, !negb_false_iff. split.
  - intros [[X Y] Z]. split; [|split; [|split]].
    + intros [p h]. rewrite p, h in X. cbn in X. destruct X; discriminate.
    + intros p. rewrite p in Y. vm_compute in Y. discriminate.
    + intros p. rewrite p in Y. vm_compute in Y. discriminate.
    + intros [p q]. rewrite p, q in Z. destruct Z as [Z | Z]; [vm_compute in Z|cbn in Z]; discriminate.
  - intros (X & B & D & Z). split; [split|].
    + destruct (u_protocol u) as [|c r]; [right|now left]. destruct (get_host u); [exfalso; now apply X|reflexivity].
    + destruct (mem (u_protocol u) [lit "blob:"; lit "data:"]) eqn:M; [|reflexivity]. apply mem_two in M. destruct M; contradiction.
    + destruct (mem (u_protocol u) [lit "about:"; lit "file:"]) eqn:M; [right|now left]. apply mem_two in M. destruct M as [M | M]; [|now apply file_path].
      destruct (get_pathname u) eqn:P; [exfalso; now apply Z|reflexivity].
Qed.

Lemma go_arrives {A} (n : net A) (t : tab A) : arrival n t (t_url t) (fst (go n t)) (snd (go n t)).
Proof.
  unfold go. destruct (no_page (t_url t)) eqn:E.
  - apply arrive_nowhere. intros V. apply no_page_visitable in V. congruence.
  - apply no_page_visitable in E. unfold navigate. rewrite look_protocol, href_look.
    destruct (text_eqb_spec (u_protocol (t_url t)) (lit "about:")) as [P | P]; [now apply arrive_about|].
    destruct (t_impl t) eqn:I; [|rewrite <- I; now apply arrive_bare].
    destruct (n_fetch n (href (t_url t))) as [p|e] eqn:F; rewrite <- I; [now apply arrive_page|now apply arrive_failed].
Qed.
Lemma arrival_fun {A} (n : net A) (t : tab A) u t1 e1 t2 e2 : arrival n t u t1 e1 -> arrival n t u t2 e2 -> t1 = t2 /\ e1 = e2.
Proof. intros X Y. inversion X; inversion Y; subst; try contradiction; try congruence; split; congruence. Qed.
Lemma moved_arrives {A} (n : net A) (t : tab A) u : arrival n t u (fst (moved n t (u, None))) (snd (moved n t (u, None))).
Proof. unfold moved. pose proof (go_arrives n (mkTab u (t_root t) (t_impl t))) as G. destruct (go n _) as [t' e']. cbn [fst snd t_url] in *. inversion G; cbn [t_root t_impl] in *; [apply arrive_nowhere|apply arrive_about|apply arrive_page|apply arrive_failed|apply arrive_bare]; assumption. Qed.

Lemma arrival_shows {A} (n : net A) (t : tab A) u t' : arrival n t u t' None -> shows n t' /\ visitable (t_url t') /\ t_url t' = look u /\ t_impl t' = t_impl t.
Proof.
  intros X. inversion X; subst; (split; [|split; [now apply visitable_look|split; reflexivity]]).
  - left. cbn [t_url t_root]. now rewrite look_protocol.
  - right. cbn [t_url t_root]. rewrite look_protocol, href_look. split; [assumption|now exists p].
Qed.

Lemma moved_shows {A} (n : net A) (t : tab A) s t' : moved n t s = (t', None) -> shows n t' /\ visitable (t_url t') /\ t_url t' = look (fst s) /\ t_impl t' = t_impl t.
Proof.
  destruct s as [u [e|]]; [discriminate|]. intros E. pose proof (moved_arrives n t u) as G. rewrite E in G. cbn [fst snd] in G. now apply arrival_shows.
Qed.
Lemma loc_shows {A} (n : net A) (t : tab A) o t' : asks o = true -> loc_step n t o = (t', None) -> shows n t' /\ visitable (t_url t') /\ t_impl t' = t_impl t.
Proof.
  destruct o; intros K E; try discriminate; cbn [loc_step] in E.
  - apply moved_shows in E. tauto.
  - apply moved_shows in E. tauto.
  - apply moved_shows in E. tauto.
  - unfold reload in E. pose proof (go_arrives n t) as G. rewrite E in G. cbn [fst snd] in G. apply arrival_shows in G. tauto.
  - unfold move_to in E. destruct (normalize_url n src _); [|discriminate]. apply moved_shows in E. tauto.
Qed.
Lemma loc_impl {A} (n : net A) (t : tab A) o : t_impl (fst (loc_step n t o)) = t_impl t.
Proof.
  assert (G : forall t : tab A, t_impl (fst (go n t)) = t_impl t) by (intros; unfold go, navigate; destruct (no_page (t_url t0)), (text_eqb (u_protocol (look (t_url t0))) (lit "about:")), (t_impl t0) eqn:I; cbn; try destruct (n_fetch _ _); cbn; congruence).
  assert (M : forall (t : tab A) s, t_impl (fst (moved n t s)) = t_impl t) by (intros s [u [e|]]; cbn [moved fst]; [reflexivity|rewrite G; reflexivity]).
  destruct o; cbn [loc_step]; try apply M; try apply G; [reflexivity|]. unfold move_to. unfold set_href. destruct (normalize_url _ _ _); [rewrite M; reflexivity|reflexivity].
Qed.

(** ** Worlds *)
Lemma put_length {B} (l : list B) i x : length (put l i x) = length l.
Proof. revert i. induction l as [|y l IH]; intros [|i]; cbn; auto. Qed.
Lemma put_same {B} (l : list B) i x y : nth_error l i = Some y -> nth_error (put l i x) i = Some x.
Proof. revert i. induction l as [|z l IH]; intros [|i] H; cbn in *; try discriminate; auto. Qed.
Lemma put_other {B} (l : list B) i j x : i <> j -> nth_error (put l i x) j = nth_error l j.
Proof. revert i j. induction l as [|z l IH]; intros [|i] [|j] H; cbn; auto; congruence. Qed.
Lemma place_tab {A} (w : world A) x p : place_of w x = Some p -> exists t, tab_at w p = Some t.
Proof.
  destruct x as [|i]; cbn; [intros [= <-]; eexists; reflexivity|]. destruct (nth_error (w_docs w) i) as [[t|r]|] eqn:E; intros [= <-]; cbn; [|eexists; reflexivity]. rewrite E. eauto.
Qed.
Lemma tab_put_same {A} (w : world A) p t t' : tab_at w p = Some t -> tab_at (tab_put w p t') p = Some t'.
Proof. destruct p as [|i]; cbn; [reflexivity|]. destruct (nth_error (w_docs w) i) as [[u|r]|] eqn:E; try discriminate. intros _. now rewrite (put_same _ _ _ _ E). Qed.
Lemma tab_put_other {A} (w : world A) p q t' : p <> q -> tab_at (tab_put w p t') q = tab_at w q.
Proof. destruct p as [|i], q as [|j]; cbn; intros H; try reflexivity; [congruence|]. rewrite put_other; [reflexivity|congruence]. Qed.
Lemma tab_place {A} (w : world A) p : (exists t, tab_at w p = Some t) -> exists x, place_of w x = Some p.
Proof. destruct p as [|i]; intros [t E]; cbn in E; [now exists Win|]. exists (Doc i). cbn. destruct (nth_error (w_docs w) i) as [[u|r]|]; [reflexivity|discriminate|discriminate]. Qed.

Lemma step_loc {A} (n : net A) w x o p t : place_of w x = Some p -> tab_at w p = Some t -> world_step n w (WLoc x o) = (tab_put w p (fst (loc_step n t o)), snd (loc_step n t o)).
Proof. intros P T. cbn [world_step]. rewrite P, T. now destruct (loc_step n t o). Qed.

(* what happens elsewhere *)
Lemma elsewhere_keeps {A} (n : net A) w p o t : tab_at w p = Some t -> elsewhere w p o ->
  exists t', tab_at (fst (world_step n w o)) p = Some t' /\ t_root t' = t_root t /\ look (t_url t') = look (t_url t) /\ t_impl t' = t_impl t.
Proof.
  intros T K. destruct o as [x o|impl root|root|x root].
  - destruct (place_of w x) as [q|] eqn:P; [|cbn; rewrite P; eauto].
    destruct (place_tab w x q P) as [s S]. rewrite (step_loc n w x o q s P S). cbn [fst].
    destruct (asks o) eqn:Q.
    + assert (p <> q) by (destruct o; cbn in K; try discriminate Q; congruence). rewrite tab_put_other by congruence. eauto.
    + destruct o; try discriminate. cbn [loc_step fst].
      assert (D : p = q \/ p <> q) by (destruct p as [|i], q as [|j]; try (right; congruence); [now left|]; destruct (Nat.eq_dec i j); [left|right]; congruence).
      destruct D as [<- | D]; [|rewrite tab_put_other by congruence; eauto].
      rewrite T in S. injection S as <-. rewrite (tab_put_same _ _ _ _ T). eexists. repeat split. cbn [t_url]. apply look_look.
  - cbn [world_step fst]. exists t. split; [|auto]. destruct p as [|i]; [exact T|]. cbn in *. destruct (nth_error (w_docs w) i) eqn:E; [|discriminate].
    rewrite nth_error_app1, E; [exact T|]. apply nth_error_Some. congruence.
  - cbn [world_step fst]. exists t. split; [|auto]. destruct p as [|i]; [exact T|]. cbn in *. destruct (nth_error (w_docs w) i) eqn:E; [|discriminate].
    rewrite nth_error_app1, E; [exact T|]. apply nth_error_Some. congruence.
  - exists t. split; [|auto]. destruct x as [|j]; cbn [elsewhere] in K.
    + destruct p as [|i]; [congruence|exact T].
    + destruct p as [|i]; [exact T|]. assert (j <> i) by congruence. cbn in *. destruct (nth_error (w_docs w) j) as [[s|r]|]; cbn; try rewrite put_other by assumption; exact T.
Qed.
Lemma shows_same {A} (n : net A) t t' : t_root t' = t_root t -> look (t_url t') = look (t_url t) -> shows n t -> shows n t'.
Proof.
  intros R L. unfold shows. rewrite R. rewrite <- (look_protocol (t_url t')), <- (href_look (t_url t')), L, look_protocol, href_look. auto.
Qed.
Lemma elsewhere_run {A} (n : net A) ops : forall w p t, tab_at w p = Some t -> all_elsewhere n w p ops ->
  exists t', tab_at (fst (world_run n w ops)) p = Some t' /\ t_root t' = t_root t /\ look (t_url t') = look (t_url t).
Proof.
  induction ops as [|o ops IH]; intros w p t T E; [exists t; auto|]. cbn [all_elsewhere] in E. destruct E as [E1 E2].
  destruct (elsewhere_keeps n w p o t T E1) as (t1 & T1 & R1 & L1 & _). cbn [world_run]. destruct (world_step n w o) as [w1 e]. cbn [fst] in *.
  destruct (IH w1 p t1 T1 E2) as (t2 & T2 & R2 & L2). destruct (world_run n w1 ops) as [w2 es]. cbn [fst] in *. exists t2. repeat split; congruence.
Qed.

(** ** Assigning href does not depend on what there was *)
Lemma set_protocol_err u v t : snd (set_protocol u t) = snd (set_protocol v t).
Proof. unfold set_protocol. destruct t; [reflexivity|]. destruct (lower _); [reflexivity|]. now destruct (_ || _). Qed.

Definition hosts (u : url) := (u_hostname u, u_host u, u_port u).
Lemma set_port_same u v p : u_protocol u = u_protocol v -> u_hostname u = u_hostname v ->
  snd (set_port u p) = snd (set_port v p) /\ (snd (set_port u p) = None -> hosts (fst (set_port u p)) = hosts (fst (set_port v p))).
Proof.
  intros P Q. unfold set_port, hosts. destruct p as [|c p]; [split; [reflexivity|intros _; cbn; now rewrite Q]|]. destruct (_ || _); [split; [reflexivity|discriminate]|].
  split; [reflexivity|]. intros _. cbn [fst]. cbn. now rewrite P, Q.
Qed.
Lemma set_hostname_same w u v h : u_protocol u = u_protocol v -> u_port u = u_port v ->
  snd (set_hostname w u h) = snd (set_hostname w v h) /\ (snd (set_hostname w u h) = None -> hosts (fst (set_hostname w u h)) = hosts (fst (set_hostname w v h))).
Proof.
  intros P Q. unfold set_hostname, parse_host. destruct h as [|c h]; [cbv zeta; split; [reflexivity|intros _; unfold hosts; cbn; now rewrite Q]|].
  destruct (existsb _ _); [split; [reflexivity|discriminate]|]. destruct (idna w _) as [i|]; [|split; [reflexivity|discriminate]].
  set (np := if (1 <? _)%nat then _ else _). clearbody np. destruct np as [[m [p|]]|]; cbv zeta; [| |split; [reflexivity|discriminate]].
  - destruct (nonempty p); [now apply set_port_same|]. split; [reflexivity|]. intros _. unfold hosts. cbn. now rewrite Q.
  - cbn [u_port with_host with_hostname]. rewrite Q. now apply set_port_same.
Qed.
Lemma authority_same w u v n : u_protocol u = u_protocol v ->
  snd (authority w u n) = snd (authority w v n) /\ (snd (authority w u n) = None -> hosts (fst (authority w u n)) = hosts (fst (authority w v n))).
Proof.
  intros P. unfold authority. destruct n as [|c n]; [split; reflexivity|]. destruct (sp_port _) as [p|e]; [|split; [reflexivity|discriminate]]. cbv zeta.
  destruct (sp_hostname _); [|split; [reflexivity|discriminate]]. now apply set_hostname_same.
Qed.
Lemma parse_url_same w u v t : snd (parse_url w u t) = snd (parse_url w v t) /\ (snd (parse_url w u t) = None -> parse_url w u t = parse_url w v t).
Proof.
  rewrite !parse_url_eq. destruct (urlsplit t) as [s|e]; [|split; [reflexivity|discriminate]]. destruct (_ || _); [split; [reflexivity|discriminate]|].
  destruct (set_protocol_frame u (sp_scheme s)) as (p1 & E1). destruct (set_protocol_frame v (sp_scheme s)) as (p2 & E2).
  pose proof (set_protocol_err u v (sp_scheme s)) as E.
  assert (Q : snd (set_protocol u (sp_scheme s)) = None -> u_protocol (fst (set_protocol u (sp_scheme s))) = u_protocol (fst (set_protocol v (sp_scheme s)))).
  { unfold set_protocol. destruct (sp_scheme s); [reflexivity|]. destruct (lower _); [discriminate|]. destruct (_ || _); [discriminate|reflexivity]. }
  destruct (set_protocol u (sp_scheme s)) as [u1 e1], (set_protocol v (sp_scheme s)) as [v1 e2]. cbn [fst snd] in *. subst e2. destruct e1 as [e|]; [split; [reflexivity|discriminate]|]. specialize (Q eq_refl).
  destruct (authority_frame w u1 (sp_netloc s)) as (m & h & p & F1). destruct (authority_frame w v1 (sp_netloc s)) as (m' & h' & p' & F2).
  destruct (authority_same w u1 v1 (sp_netloc s) Q) as [R S].
  destruct (authority w u1 (sp_netloc s)) as [u2 e1], (authority w v1 (sp_netloc s)) as [v2 e2]. cbn [fst snd] in *. subst e2. destruct e1 as [e|]; [split; [reflexivity|discriminate]|].
  specialize (S eq_refl). subst u2 v2 u1 v1. unfold hosts in S. cbn in S. injection S as -> -> ->. cbn in Q. subst p2.
  cbv zeta. unfold set_pathname. destruct (sp_path s) as [|c r]; [split; reflexivity|]. cbn [u_protocol with_username with_password with_hostname with_host with_port with_protocol].
  destruct (_ && _); [split; [reflexivity|discriminate]|]. split; reflexivity.
Qed.

(** ** Assigning the attribute location *)
Lemma starts_about_spec t : starts_about t = true <-> exists r, t = lit "about:" ++ r.
Proof.
  unfold starts_about. destruct (text_eqb_spec (firstn 6 t) (lit "about:")) as [E | E]; split; try discriminate; intros H.
  - exists (skipn 6 t). rewrite <- E. now rewrite firstn_skipn.
  - reflexivity.
  - destruct H as [r ->]. exfalso. apply E. reflexivity.
Qed.
Lemma moved_again {A} (n : net A) t t' s : t_root t = t_root t' -> t_impl t = t_impl t' -> moved n t s = moved n t' s.
Proof. intros R I. unfold moved. destruct s as [u [e|]]; now rewrite R, I. Qed.
(* a URL of its own, whose text says it all *)
Lemma move_url {A} (n : net A) (t : tab A) src u : parse_url (n_web n) blank src = (u, None) -> parse_url (n_web n) blank (href u) = (u, None) ->
  snd (parse_url (n_web n) blank (if starts_about (href (t_url t)) then n_cwd n else href (t_url t))) = None ->
  (if starts_about (href (t_url t)) then n_cwd n else href (t_url t)) <> [] ->
  loc_step n t (LMove src) = loc_step n t (LHref src).
Proof.
  intros P R Bs NE. cbn [loc_step]. unfold move_to, normalize_url, construct_text. cbv zeta. set (base := if starts_about _ then _ else _) in *. clearbody base.
  destruct base as [|c r]; [congruence|]. destruct (parse_url (n_web n) blank (c :: r)) as [b [e|]]; [discriminate|].
  unfold construct. rewrite P. cbn [fst]. unfold set_href.
  assert (Q : forall v x, parse_url (n_web n) blank x = (u, None) -> parse_url (n_web n) v x = (u, None)).
  { intros v x E. destruct (parse_url_same (n_web n) blank v x) as [_ S]. rewrite E in S. cbn in S. now rewrite <- S. }
  rewrite !(Q _ _ R), !(Q _ _ P). apply moved_again; reflexivity.
Qed.
Lemma construct_text_again w t (b u : url) : parse_url w blank t = (blank, Some ValueError) -> opaque (u_protocol b) = false -> construct w t (Some b) = (Ok u, Some u) -> parse_url w blank (href u) = (u, None).
Proof.
  intros P O. unfold construct. rewrite O, P. destruct (base_paths w b t) as [b1 [e|]]; [discriminate|].
  assert (T : tostring b1 = (look b1, href b1)) by (unfold href, tostring; reflexivity). rewrite T.
  destruct (parse_url w blank (href b1)) as [u1 [e|]] eqn:E; [discriminate|]. intros [= -> <-]. rewrite href_look. exact E.
Qed.
Lemma move_text {A} (n : net A) (t : tab A) src u : starts_about (href (t_url t)) = false -> href (t_url t) <> [] -> parse_url (n_web n) blank (href (t_url t)) = (t_url t, None) ->
  fst (construct (n_web n) src (Some (t_url t))) = Ok u -> parse_url (n_web n) blank (href u) = (u, None) ->
  arrival n t u (fst (loc_step n t (LMove src))) (snd (loc_step n t (LMove src))).
Proof.
  intros Ab NE P C R. cbn [loc_step]. unfold move_to, normalize_url, construct_text. cbv zeta. rewrite Ab. destruct (href (t_url t)) as [|c r] eqn:HU; [congruence|]. rewrite P, C.
  unfold set_href. cbn [t_url]. destruct (parse_url_same (n_web n) blank (look (t_url t)) (href u)) as [_ S]. rewrite R in S. rewrite <- (S eq_refl).
  rewrite (moved_again n (mkTab (look (t_url t)) (t_root t) (t_impl t)) t) by reflexivity. apply moved_arrives.
Qed.
Lemma hier_opaque u : hierarchical u -> opaque (u_protocol u) = false.
Proof.
  intros [_ H]. unfold opaque, mem. apply not_true_is_false. intros E. apply H. apply existsb_exists in E. destruct E as (x & I & E). destruct (text_eqb_spec (u_protocol u) x); [now subst|discriminate].
Qed.
Lemma first_colon (a b r s : text) : ~ In 58 a -> ~ In 58 b -> a ++ 58 :: r = b ++ 58 :: s -> a = b.
Proof.
  revert b. induction a as [|x a IH]; intros [|y b] NA NB E; cbn in *; [reflexivity| | |]; injection E as E1 E2; try (subst; exfalso; tauto).
  f_equal; [exact E1|]. apply IH; tauto.
Qed.
Lemma stable_href w u : stable w u -> hierarchical u -> href u <> [] /\ starts_about (href u) = false.
Proof.
  intros St H. pose proof (hier_opaque u H) as O. destruct H as [NE NI].
  destruct (stable_protocol w u St NE) as (c & r & E & L & F & _).
  unfold href, tostring. cbn [snd]. cbv zeta. rewrite O. rewrite E. cbn [nonempty]. split; [discriminate|].
  apply not_true_is_false. intros X. apply starts_about_spec in X. destruct X as [q X].
  apply NI. left. rewrite E.
  assert (Y : c :: r = lit "about").
  { eapply (first_colon _ _ _ q); [| |].
    3:{ cbn [app] in X. rewrite <- !app_assoc in X. cbn [app] in X |- *. exact X. }
    - intros [J | J]; [subst c; discriminate L|]. rewrite forallb_forall in F. specialize (F _ J). discriminate F.
    - cbn. intuition discriminate. }
  change (lit "about:") with (lit "about" ++ [58]). rewrite <- Y. reflexivity.
Qed.

(** ** about:blank *)
Lemma clean_blank w : decodes w -> clean_path w (lit "blank") = lit "blank".
Proof.
  intros [D _]. assert (E : unquote w (lit "blank") = lit "blank").
  { assert (Q : quote [] (lit "blank") = lit "blank") by (vm_compute; reflexivity). rewrite <- Q at 1. apply D; [intros []|]. repeat constructor. }
  rewrite clean_path_raw, E. vm_compute. reflexivity.
Qed.
Lemma about_blank_is w : decodes w -> parse_url w blank (lit "about:blank") = (mkUrl (lit "about:") [] [] [] [] [] (lit "blank") [] [], None).
Proof.
  intros D. pose proof (clean_blank w D) as C. unfold parse_url.
  let v := eval vm_compute in (urlsplit (lit "about:blank")) in change (urlsplit (lit "about:blank")) with v.
  cbv beta iota zeta. cbn [sp_scheme sp_netloc sp_path sp_query sp_fragment nonempty negb andb orb].
  assert (U : unquote w [] = []) by (destruct D as [D _]; assert (X : quote [] [] = []) by reflexivity; rewrite <- X at 1; apply D; [intros []|constructor]).
  let v := eval vm_compute in (set_protocol blank [97; 98; 111; 117; 116]) in change (set_protocol blank [97; 98; 111; 117; 116]) with v.
  cbv beta iota zeta. unfold set_username, set_password, set_hash, set_pathname. cbn [sp_userinfo fst snd].
  change [98; 108; 97; 110; 107] with (lit "blank"). 
  change (sp_userinfo []) with (@None text, @None text). change (dropwhile (N.eqb 35) []) with (@nil N). cbv beta iota. rewrite !U, !C. vm_compute. reflexivity.
Qed.
