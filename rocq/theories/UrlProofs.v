From Verif Require Import PyBase PyText PyCase PyDict PySplit PyStrip UrlModel UrlSpec.
#[local] Open Scope N_scope.

(** ** What each setter writes *)
Lemma set_port_frame u t : exists h p, fst (set_port u t) = with_host (with_port u p) h.
Proof.
  unfold set_port. destruct t; [eexists _, _; reflexivity|]. destruct (_ || _); [|eexists _, _; reflexivity].
  exists (u_host u), (u_port u). now destruct u.
Qed.
Lemma parse_host_frame w u t b : exists n h p, fst (parse_host w u t b) = with_host (with_hostname (with_port u p) n) h.
Proof.
  assert (U : u = with_host (with_hostname (with_port u (u_port u)) (u_hostname u)) (u_host u)) by now destruct u.
  unfold parse_host. destruct t as [|c t]; [destruct b; [exists [], [], (u_port u)|exists [], [], []]; now destruct u|].
  destruct (existsb _ _); [eexists _, _, _; exact U|]. destruct (idna w _) as [h|]; [|eexists _, _, _; exact U]. cbv zeta.
  match goal with |- context [match ?x with Some _ => _ | None => _ end] => destruct x as [[n p]|] end; [|eexists _, _, _; exact U].
  destruct b, p as [p|]; cbn.
  - destruct p as [|x p]; cbn [nonempty]; [exists n, n, (u_port u); now destruct u|].
    destruct (set_port_frame (with_host (with_hostname u n) n) (x :: p)) as (h' & p' & E). rewrite E. now exists n, h', p'.
  - destruct (set_port_frame (with_host (with_hostname u n) n) (u_port u)) as (h' & p' & E). rewrite E. now exists n, h', p'.
  - destruct (set_port_frame (with_host (with_hostname u n) n) p) as (h' & p' & E). rewrite E. now exists n, h', p'.
  - now exists n, n, [].
Qed.
Lemma set_pathname_frame w u t : exists p, fst (set_pathname w u t) = with_pathname u p.
Proof. unfold set_pathname. destruct t; [eexists; reflexivity|]. destruct (_ && _); [exists (u_pathname u); now destruct u|eexists; reflexivity]. Qed.
Lemma set_protocol_frame u t : exists p, fst (set_protocol u t) = with_protocol u p.
Proof.
  unfold set_protocol. destruct t; [eexists; reflexivity|]. destruct (lower _); [exists (u_protocol u); now destruct u|].
  destruct (_ || _); [exists (u_protocol u); now destruct u|eexists; reflexivity].
Qed.
Lemma set_one w c d u t : touches c d = false -> get_comp d (fst (set_comp w c u t)) = get_comp d u.
Proof.
  destruct c; cbn [set_comp].
  1: destruct (set_protocol_frame u t) as (p & ->).
  4, 5: destruct (parse_host_frame w u t true) as (n & h & p & E), (parse_host_frame w u t false) as (n' & h' & p' & E'); unfold set_host, set_hostname; rewrite ?E, ?E'.
  6: destruct (set_port_frame u t) as (h & p & ->).
  7: destruct (set_pathname_frame w u t) as (p & ->).
  all: destruct d; cbn [touches]; intros T; try discriminate; destruct u; try reflexivity; unfold get_comp, get_host, look; cbn -[port_of]; destruct (_ && _); reflexivity.
Qed.
(* a refused value changes nothing, but for the host *)
Lemma set_failed w c u t e : c <> CHost -> c <> CHostname -> snd (set_comp w c u t) = Some e -> fst (set_comp w c u t) = u.
Proof.
  intros C1 C2. destruct c; cbn [set_comp]; try congruence; try discriminate.
  - unfold set_protocol. destruct t; [discriminate|]. destruct (lower _); [reflexivity|]. now destruct (_ || _).
  - unfold set_port. destruct t; [discriminate|]. now destruct (_ || _).
  - unfold set_pathname. destruct t; [discriminate|]. now destruct (_ && _).
Qed.
Lemma nonempty_false t : nonempty t = false -> t = [].
Proof. now destruct t. Qed.
Lemma nonempty_true t : nonempty t = true -> t <> [].
Proof. now destruct t. Qed.
Lemma opaque_in p : opaque p = true <-> In p [lit "about:"; lit "blob:"; lit "data:"].
Proof. apply mem_in. Qed.
(* the path is the same text unless the slash rule changes; the host, unless the port is the default of either *)
Lemma set_protocol_path w u t : opaque (u_protocol u) = opaque (u_protocol (fst (set_protocol u t))) -> get_comp CPathname (fst (set_comp w CProtocol u t)) = get_comp CPathname u.
Proof. cbn [set_comp get_comp]. destruct (set_protocol_frame u t) as (p & ->). unfold get_pathname. cbn. now intros <-. Qed.
Lemma set_protocol_host w u t : port_of (u_protocol u) <> u_port u -> port_of (u_protocol (fst (set_protocol u t))) <> u_port u ->
  get_comp CHost (fst (set_comp w CProtocol u t)) = get_comp CHost u.
Proof.
  cbn [set_comp get_comp]. destruct (set_protocol_frame u t) as (p & ->). unfold get_host, look. cbn. intros A B.
  destruct (text_eqb_spec (port_of p) (u_port u)); [contradiction|]. destruct (text_eqb_spec (port_of (u_protocol u)) (u_port u)); [contradiction|]. now rewrite !andb_false_r.
Qed.

(** ** The invariant *)
Definition fits (u : url) : Prop := host_fits u /\ port_fits u /\ protocol_fits u.
Lemma digit_range c : is_digit c = true <-> 48 <= c <= 57.
Proof. unfold is_digit. rewrite andb_true_iff, !N.leb_le. reflexivity. Qed.
Lemma digits_forall t : forallb is_digit t = true <-> Forall (fun c => 48 <= c <= 57) t.
Proof. rewrite forallb_forall, Forall_forall. split; intros H c I; apply digit_range, H, I. Qed.
Lemma set_port_fits u t : port_fits u -> host_fits u -> host_fits (fst (set_port u t)) /\ port_fits (fst (set_port u t)).
Proof.
  unfold set_port. destruct t as [|x t]; [intros _ _; split; left; reflexivity|].
  destruct (negb (forallb is_digit (x :: t)) || (65535 <? digits_val (x :: t))) eqn:E; [cbn; tauto|]. intros _ _.
  apply orb_false_iff in E as [E F]. apply negb_false_iff, digits_forall in E. apply N.ltb_ge in F.
  split; [|right; cbn [fst with_host with_port u_port]; tauto]. unfold host_fits. cbn [fst with_host with_port u_host u_hostname u_port]. destruct (_ && _); [now right|now left].
Qed.
Lemma parse_host_fits w u t b : port_fits u -> host_fits u -> host_fits (fst (parse_host w u t b)) /\ port_fits (fst (parse_host w u t b)).
Proof.
  intros P H. unfold parse_host. destruct t as [|c t]; [destruct b; cbn; (split; [left; reflexivity|]); [exact P|now left]|].
  destruct (existsb _ _); [tauto|]. destruct (idna w _) as [h|]; [|tauto]. cbv zeta.
  match goal with |- context [match ?x with Some _ => _ | None => _ end] => destruct x as [[n p]|] end; [|tauto].
  assert (Q : host_fits (with_host (with_hostname u n) n)) by now left.
  assert (R : port_fits (with_host (with_hostname u n) n)) by exact P.
  destruct b, p as [p|].
  - destruct (nonempty p); [now apply set_port_fits|tauto].
  - now apply set_port_fits.
  - now apply set_port_fits.
  - cbn. split; left; reflexivity.
Qed.
Lemma alnum_low c : is_up c = false -> is_alnum c || is_in c (lit "+-.") = true -> 97 <= c <= 122 \/ 48 <= c <= 57 \/ c = 43 \/ c = 45 \/ c = 46.
Proof.
  intros U. unfold is_alnum. rewrite U. cbn [orb]. rewrite !orb_true_iff. intros [[H|H]|H].
  - left. now apply is_low_iff.
  - right. left. now apply digit_range.
  - cbn in H. rewrite !orb_true_iff, !N.eqb_eq in H. intuition discriminate.
Qed.
Lemma set_protocol_fits u t : protocol_fits u -> protocol_fits (fst (set_protocol u t)).
Proof.
  intros P. unfold set_protocol. destruct t as [|x t]; [now left|]. pose proof (lower_no_up (rstrip 58 (x :: t))) as L.
  destruct (lower _) as [|c r]; [exact P|]. destruct (negb (is_up c || is_low c) || negb (forallb (fun c => is_alnum c || is_in c (lit "+-.")) r)) eqn:E; [exact P|].
  apply orb_false_iff in E as [A B]. apply negb_false_iff in A, B. cbn in L. apply andb_true_iff in L as [L M]. apply negb_true_iff in L.
  right. exists c, r. split; [reflexivity|]. split; [rewrite L in A; now apply is_low_iff in A|].
  rewrite forallb_forall in B, M. apply Forall_forall. intros y I. apply alnum_low; [apply negb_true_iff, M, I|apply B, I].
Qed.
Lemma set_comp_fits w c u t : fits u -> fits (fst (set_comp w c u t)).
Proof.
  intros (H & P & R). destruct c; cbn [set_comp]; try (split; [exact H|split; [exact P|exact R]]).
  - pose proof (set_protocol_fits u t R) as R'. destruct (set_protocol_frame u t) as (p & E). rewrite E in *. split; [exact H|split; [exact P|exact R']].
  - destruct (parse_host_fits w u t false P H) as [H' P']. unfold set_host. destruct (parse_host_frame w u t false) as (n & h & p & E). rewrite E in *. split; [exact H'|split; [exact P'|exact R]].
  - destruct (parse_host_fits w u t true P H) as [H' P']. unfold set_hostname. destruct (parse_host_frame w u t true) as (n & h & p & E). rewrite E in *. split; [exact H'|split; [exact P'|exact R]].
  - destruct (set_port_fits u t P H) as [H' P']. destruct (set_port_frame u t) as (h & p & E). rewrite E in *. split; [exact H'|split; [exact P'|exact R]].
  - destruct (set_pathname_frame w u t) as (p & ->). split; [exact H|split; [exact P|exact R]].
Qed.
Lemma look_fits u : fits u -> fits (look u).
Proof. intros F. unfold look. destruct (_ && _); [|exact F]. destruct F as (H & P & R). split; [now left|split; [exact P|exact R]]. Qed.
(* href: also when the port is set before the host is refused *)
Lemma sp_port_fits n p : sp_port n = Ok (Some p) -> p <= 65535.
Proof. unfold sp_port. destruct (snd _); [discriminate|]. destruct (_ && _) eqn:E; [|discriminate]. intros [= <-]. apply andb_true_iff in E as [_ E]. now apply N.leb_le. Qed.
Lemma digits_fits n : n <= 65535 -> Forall (fun c => 48 <= c <= 57) (digits n) /\ digits_val (digits n) <= 65535.
Proof. intros H. rewrite digits_val_digits. split; [apply digits_forall, digits_digits|exact H]. Qed.
Definition port_protocol (u : url) : Prop := port_fits u /\ protocol_fits u.
Lemma set_port_pp u t : port_fits u -> port_fits (fst (set_port u t)).
Proof.
  intros P. unfold set_port. destruct t as [|x t]; [now left|]. destruct (_ || _) eqn:E; [exact P|]. apply orb_false_iff in E as [E F]. apply negb_false_iff, digits_forall in E. apply N.ltb_ge in F. right. now split.
Qed.
Lemma parse_host_pp w u t b : port_fits u -> port_fits (fst (parse_host w u t b)).
Proof.
  intros P. unfold parse_host. destruct t as [|c t]; [destruct b; cbn; [exact P|now left]|].
  destruct (existsb _ _); [exact P|]. destruct (idna w _) as [h|]; [|exact P]. cbv zeta.
  match goal with |- context [match ?x with Some _ => _ | None => _ end] => destruct x as [[n p]|] end; [|exact P].
  assert (R : port_fits (with_host (with_hostname u n) n)) by exact P.
  destruct b, p as [p|]; [destruct (nonempty p); [now apply set_port_pp|exact R]|now apply set_port_pp|now apply set_port_pp|now left].
Qed.
(* what a successful assignment of the host name leaves *)
Lemma parse_host_ok w u t : t <> [] -> port_fits u -> snd (parse_host w u t true) = None -> host_fits (fst (parse_host w u t true)).
Proof.
  intros T P. unfold parse_host. destruct t as [|c t]; [contradiction|].
  destruct (existsb _ _); [discriminate|]. destruct (idna w _) as [h|]; [|discriminate]. cbv zeta.
  match goal with |- context [match ?x with Some _ => _ | None => _ end] => destruct x as [[n p]|] end; [|discriminate].
  assert (Q : host_fits (with_host (with_hostname u n) n)) by now left.
  assert (R : port_fits (with_host (with_hostname u n) n)) by exact P.
  intros _. destruct p as [p|]; [destruct (nonempty p); [now apply set_port_fits|exact Q]|now apply set_port_fits].
Qed.
Lemma sp_hostname_nonempty n h : sp_hostname n = Some h -> h <> [].
Proof.
  unfold sp_hostname. destruct (fst (sp_hostinfo n)) as [|x r]; [discriminate|]. intros [= <-]. cbn. destruct (negb (x =? 37)); [discriminate|]. cbn. discriminate.
Qed.
Definition authority (w : web) (u : url) (n : text) : setting :=
  match n with
  | [] => (with_host (with_hostname (with_port u []) []) [], None)
  | n => match sp_port n with
         | Err e => (u, Some e)
         | Ok p => let u := with_port u (match p with Some p => digits p | None => [] end) in
                   match sp_hostname n with None => (u, Some TypeError) | Some h => set_hostname w u h end
         end
  end.
Lemma authority_frame w u n : exists m h p, fst (authority w u n) = with_host (with_hostname (with_port u p) m) h.
Proof.
  assert (U : u = with_host (with_hostname (with_port u (u_port u)) (u_hostname u)) (u_host u)) by now destruct u.
  destruct n as [|c n]; [now exists [], [], []|]. unfold authority. destruct (sp_port _) as [p|e]; [|eexists _, _, _; exact U]. cbv zeta.
  destruct (sp_hostname _) as [h|].
  - destruct (parse_host_frame w (with_port u (match p with Some p => digits p | None => [] end)) h true) as (m & h' & p' & E). unfold set_hostname. rewrite E. now exists m, h', p'.
  - exists (u_hostname u), (u_host u), (match p with Some p => digits p | None => [] end). now destruct u.
Qed.
Lemma authority_fits w u n : port_fits u -> port_fits (fst (authority w u n)) /\ (snd (authority w u n) = None -> host_fits (fst (authority w u n))).
Proof.
  intros P. destruct n as [|c n]; [split; [now left|intros _; now left]|]. unfold authority. destruct (sp_port _) as [p|e] eqn:E; [|split; [exact P|discriminate]]. cbv zeta.
  assert (R : port_fits (with_port u (match p with Some p => digits p | None => [] end))).
  { destruct p as [p|]; [|now left]. right. apply digits_fits. eapply sp_port_fits, E. }
  destruct (sp_hostname _) as [h|] eqn:F; [|split; [exact R|discriminate]]. unfold set_hostname. split; [now apply parse_host_pp|].
  apply parse_host_ok; [|exact R]. eapply sp_hostname_nonempty, F.
Qed.
Lemma parse_url_eq w u t : parse_url w u t =
  match urlsplit t with
  | Err e => (u, Some e)
  | Ok s =>
      if (negb (nonempty (sp_scheme s)) && negb (nonempty (sp_netloc s))) || (mem (sp_scheme s) [lit "about"; lit "blob"; lit "data"] && negb (nonempty (sp_path s))) then (u, Some ValueError)
      else match set_protocol u (sp_scheme s) with
           | (u, Some e) => (u, Some e)
           | (u, None) =>
               match authority w u (sp_netloc s) with
               | (u, Some e) => (u, Some e)
               | (u, None) =>
                   let u := with_username u (quote [] (unquote w (match fst (sp_userinfo (sp_netloc s)) with Some x => x | None => [] end))) in
                   let u := with_password u (quote [] (unquote w (match snd (sp_userinfo (sp_netloc s)) with Some x => x | None => [] end))) in
                   match set_pathname w u (sp_path s) with
                   | (u, Some e) => (u, Some e)
                   | (u, None) => let u := fst (set_search u (sp_query s)) in set_hash w u (sp_fragment s)
                   end
               end
           end
  end.
Proof. unfold parse_url, authority. destruct (urlsplit t); [|reflexivity]. destruct (_ || _); [reflexivity|]. destruct (set_protocol _ _) as [u1 [e|]]; [reflexivity|]. destruct (sp_userinfo _). destruct (sp_netloc _); reflexivity. Qed.
Lemma parse_url_fits w u t : fits u -> port_protocol (fst (parse_url w u t)) /\ (snd (parse_url w u t) = None -> fits (fst (parse_url w u t))).
Proof.
  intros F. pose proof F as (H & P & R). rewrite parse_url_eq. destruct (urlsplit t) as [s|e]; [|split; [split; assumption|intros _; exact F]].
  destruct (_ || _); [split; [split; assumption|discriminate]|].
  destruct (set_protocol_frame u (sp_scheme s)) as (p1 & E1). pose proof (set_protocol_fits u (sp_scheme s) R) as R1.
  destruct (set_protocol u (sp_scheme s)) as [u1 [e|]]; cbn [fst] in E1, R1; subst u1; [split; [split; [exact P|exact R1]|discriminate]|].
  destruct (authority_frame w (with_protocol u p1) (sp_netloc s)) as (m & h & p & E2). destruct (authority_fits w (with_protocol u p1) (sp_netloc s) P) as [P2 H2].
  destruct (authority w (with_protocol u p1) (sp_netloc s)) as [u2 [e|]]; cbn [fst snd] in E2, P2, H2; subst u2; [split; [split; [exact P2|exact R1]|discriminate]|]. specialize (H2 eq_refl).
  cbv zeta. match goal with |- context [set_pathname w ?x ?y] => destruct (set_pathname_frame w x y) as (p3 & E3); destruct (set_pathname w x y) as [u3 [e|]]; cbn [fst] in E3; subst u3 end.
  - split; [split; [exact P2|exact R1]|discriminate].
  - split; [split; [exact P2|exact R1]|]. intros _. split; [exact H2|split; [exact P2|exact R1]].
Qed.
(* a step whose exception, if any, is not that of href *)
Definition step_ok (w : web) (u : url) (o : urlop) : Prop := match o with OHref t => snd (parse_url w u t) = None | _ => True end.
Fixpoint run_ok (w : web) (u : url) (ops : list urlop) : Prop := match ops with [] => True | o :: r => step_ok w u o /\ run_ok w (url_step w u o) r end.
Lemma step_fits w u o : fits u -> step_ok w u o -> fits (url_step w u o).
Proof. intros F S. destruct o as [c t| |t]; cbn in *; [now apply set_comp_fits|now apply look_fits|now apply parse_url_fits]. Qed.
Lemma run_fits w ops : forall u, fits u -> run_ok w u ops -> fits (url_run w u ops).
Proof. induction ops as [|o r IH]; intros u F R; [exact F|]. destruct R as [S R]. cbn. apply IH; [now apply step_fits|exact R]. Qed.
Lemma blank_fits : fits blank.
Proof. split; [now left|split; now left]. Qed.
(* without any condition *)
Lemma step_pp w u o : port_protocol u -> port_protocol (url_step w u o).
Proof.
  assert (SPP : forall c t, port_protocol u -> port_protocol (fst (set_comp w c u t))).
  { intros c t (P & R). destruct c; cbn [set_comp]; try (split; [exact P|exact R]).
    - pose proof (set_protocol_fits u t R) as R'. destruct (set_protocol_frame u t) as (p & E). rewrite E in *. split; [exact P|exact R'].
    - pose proof (parse_host_pp w u t false P) as P'. unfold set_host. destruct (parse_host_frame w u t false) as (n & h & p & E). rewrite E in *. split; [exact P'|exact R].
    - pose proof (parse_host_pp w u t true P) as P'. unfold set_hostname. destruct (parse_host_frame w u t true) as (n & h & p & E). rewrite E in *. split; [exact P'|exact R].
    - pose proof (set_port_pp u t P) as P'. destruct (set_port_frame u t) as (h & p & E). rewrite E in *. split; [exact P'|exact R].
    - destruct (set_pathname_frame w u t) as (p & ->). split; [exact P|exact R]. }
  intros PP. destruct o as [c t| |t]; cbn [url_step]; [now apply SPP|unfold look; destruct (_ && _); exact PP|].
  destruct PP as (P & R). rewrite parse_url_eq. destruct (urlsplit t) as [s|e]; [|split; assumption].
  destruct (_ || _); [split; assumption|].
  destruct (set_protocol_frame u (sp_scheme s)) as (p1 & E1). pose proof (set_protocol_fits u (sp_scheme s) R) as R1.
  destruct (set_protocol u (sp_scheme s)) as [u1 [e|]]; cbn [fst] in E1, R1; subst u1; [split; [exact P|exact R1]|].
  destruct (authority_frame w (with_protocol u p1) (sp_netloc s)) as (m & h & p & E2). destruct (authority_fits w (with_protocol u p1) (sp_netloc s) P) as [P2 _].
  destruct (authority w (with_protocol u p1) (sp_netloc s)) as [u2 [e|]]; cbn [fst] in E2, P2; subst u2; [split; [exact P2|exact R1]|].
  cbv zeta. match goal with |- context [set_pathname w ?x ?y] => destruct (set_pathname_frame w x y) as (p3 & E3); destruct (set_pathname w x y) as [u3 [e|]]; cbn [fst] in E3; subst u3 end; (split; [exact P2|exact R1]).
Qed.
Lemma run_pp w ops : forall u, port_protocol u -> port_protocol (url_run w u ops).
Proof. induction ops as [|o r IH]; intros u F; [exact F|]. cbn. apply IH, step_pp, F. Qed.
