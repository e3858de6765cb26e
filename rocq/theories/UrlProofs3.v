From Verif Require Import PyBase PyText PyCase PyDict PySplit PyStrip UrlModel UrlSpec UrlProofs UrlProofs2.
#[local] Open Scope N_scope.

(** ** Texts without certain characters *)
Definition avoids (l : list N) (t : text) : bool := forallb (fun c => negb (is_in c l)) t.
Lemma avoids_app l a b : avoids l (a ++ b) = avoids l a && avoids l b.
Proof. apply forallb_app. Qed.
Lemma avoids_cons l c t : avoids l (c :: t) = negb (is_in c l) && avoids l t.
Proof. reflexivity. Qed.
Lemma avoids_in l t : avoids l t = true <-> forall c, In c t -> ~ In c l.
Proof. unfold avoids. rewrite forallb_forall. split; intros H c I; specialize (H c I); [now apply negb_true_iff, is_in_not in H|now apply negb_true_iff, is_in_not]. Qed.
Lemma avoids_sub l m t : avoids l t = true -> forallb (fun c => is_in c l) m = true -> avoids m t = true.
Proof. rewrite !avoids_in, forallb_forall. intros H M c I J. apply (H c I), is_in_iff, M, J. Qed.
Lemma pred_avoids (f : N -> bool) l t : forallb f t = true -> forallb (fun c => negb (f c)) l = true -> avoids l t = true.
Proof. rewrite avoids_in, !forallb_forall. intros F L c I J. specialize (L c J). now rewrite (F c I) in L. Qed.
Lemma avoids_one c t : avoids [c] t = true -> is_in c t = false.
Proof. rewrite avoids_in. intros H. apply is_in_not. intros I. apply (H c I). now left. Qed.
Lemma quote_avoids safe l t : forallb (fun c => negb (qchar safe c)) l = true -> avoids l (quote safe t) = true.
Proof. apply pred_avoids, quote_qchar. Qed.
Lemma avoids_while c t : avoids [c] t = true -> forallb (fun x => negb (x =? c)) t = true.
Proof. rewrite avoids_in, forallb_forall. intros H x I. apply negb_true_iff, N.eqb_neq. intros ->. apply (H c I). now left. Qed.
Lemma cut_app c a b : avoids [c] a = true -> cut c (a ++ c :: b) = Some (a, b).
Proof.
  intros H. unfold cut. replace (is_in c (a ++ c :: b)) with true by (symmetry; apply is_in_iff, in_or_app; right; now left). apply avoids_while in H.
  rewrite takewhile_app, dropwhile_app_stop; try exact H; try reflexivity; cbn; now rewrite N.eqb_refl.
Qed.
Lemma cut_none c a : avoids [c] a = true -> cut c a = None.
Proof. intros H. unfold cut. now rewrite avoids_one. Qed.
Lemma cut_or_app c a b : avoids [c] a = true -> cut_or c (a ++ c :: b) = (a, b).
Proof. intros H. unfold cut_or. now rewrite cut_app. Qed.
Lemma cut_or_none c a : avoids [c] a = true -> cut_or c a = (a, []).
Proof. intros H. unfold cut_or. now rewrite cut_none. Qed.
Lemma before_last_app c a b : avoids [c] b = true -> before_last c (a ++ c :: b) = a ++ [c].
Proof.
  intros H. unfold before_last. replace (a ++ c :: b) with ((a ++ [c]) ++ b) by now rewrite <- app_assoc. rewrite rdropwhile_app by now apply avoids_while.
  apply rdropwhile_id. rewrite rev_app_distr. cbn. now rewrite N.eqb_refl.
Qed.
Lemma rcut_app c a b : avoids [c] b = true -> rcut c (a ++ c :: b) = Some (a, b).
Proof.
  intros H. unfold rcut. replace (is_in c (a ++ c :: b)) with true by (symmetry; apply is_in_iff, in_or_app; right; now left). rewrite before_last_app by exact H.
  rewrite removelast_last. replace (a ++ c :: b) with ((a ++ [c]) ++ b) by now rewrite <- app_assoc. now rewrite skipn_app, skipn_all, Nat.sub_diag.
Qed.
Lemma rcut_none c a : avoids [c] a = true -> rcut c a = None.
Proof. intros H. unfold rcut. now rewrite avoids_one. Qed.
Lemma filter_avoids l t : avoids l t = true -> filter (fun c => negb (is_in c l)) t = t.
Proof. intros H. unfold avoids in H. induction t as [|c t IH]; [reflexivity|]. cbn in *. apply andb_true_iff in H as [-> H]. now rewrite IH. Qed.
(* the query *)
Definition qpchar (safe : text) (c : N) : bool := qchar safe c || (c =? 43).
Lemma plus_char_q safe c : forallb (qpchar safe) (plus_char safe c) = true.
Proof.
  unfold plus_char. destruct (c =? 32); [cbn; unfold qpchar; now rewrite orb_true_r|]. pose proof (quote_char_qchar safe c) as H. rewrite forallb_forall in *. intros x I. unfold qpchar. now rewrite (H x I).
Qed.
Lemma hex_alnum c : is_hex c = true -> is_alnum c = true.
Proof.
  unfold is_hex, is_alnum. rewrite !orb_true_iff, andb_true_iff, !N.leb_le. intros [H|[A B]]; [now right|]. left. unfold to_low in *. destruct (is_up c) eqn:U; [now left|]. right. apply is_low_iff. lia.
Qed.
Lemma forallb_alnum safe t : forallb is_alnum t = true -> forallb (qpchar safe) t = true.
Proof. rewrite !forallb_forall. intros H x I. unfold qpchar. now rewrite (qchar_alnum safe x (H x I)). Qed.
Lemma ref_at_alnum t x r : ref_at t = Some (x, r) -> forallb is_alnum x = true.
Proof.
  assert (S : forall y, match y with 59 :: r' => Some r' | _ => None end = None \/ exists r', y = 59 :: r').
  { intros [|z y]; [now left|]. destruct (N.eq_dec z 59) as [->|Z]; [right; eauto|]. left. destruct z as [|q]; [reflexivity|]. do 6 (destruct q as [q|q|]; try reflexivity). contradiction. }
  unfold ref_at. destruct t as [|t0 t]; [discriminate|]. destruct t0 as [|q]; [discriminate|]. do 6 (destruct q as [q|q|]; try discriminate).
  destruct t as [|t1 t]; [discriminate|]. destruct t1 as [|q]; [discriminate|]. do 6 (destruct q as [q|q|]; try discriminate).
  destruct t as [|a [|b [|c [|d t]]]]; try discriminate.
  destruct (forallb is_digit [a; b; c; d]) eqn:D.
  - intros H. assert (x = [a; b; c; d]).
    { destruct t as [|z t]; [discriminate|]. destruct z as [|q]; [discriminate|]. do 6 (destruct q as [q|q|]; try discriminate). now injection H as <- _. }
    subst x. rewrite forallb_forall in *. intros y I. unfold is_alnum. rewrite (D y I). now rewrite orb_true_r.
  - destruct (N.eqb_spec (to_low a) 120) as [A|]; [|discriminate]. destruct t as [|e t]; [discriminate|]. destruct t as [|z t]; [discriminate|].
    intros H. assert (x = [a; b; c; d; e] /\ forallb is_hex [b; c; d; e] = true).
    { destruct z as [|q]; [discriminate|]. do 6 (destruct q as [q|q|]; try discriminate). destruct (forallb is_hex [b; c; d; e]); [|discriminate]. injection H as <- _. now split. }
    destruct H0 as [-> X]. cbn [forallb] in *. rewrite !andb_true_iff in X. destruct X as (X1 & X2 & X3 & X4 & _). rewrite (hex_alnum b X1), (hex_alnum c X2), (hex_alnum d X3), (hex_alnum e X4).
    replace (is_alnum a) with true; [reflexivity|]. symmetry. unfold is_alnum. unfold to_low in A. destruct (is_up a); [reflexivity|]. subst a. reflexivity.
Qed.
Lemma percent_lit safe t : forallb (fun c => is_alnum c || (c =? 37)) t = true -> forallb (qpchar safe) t = true.
Proof.
  rewrite !forallb_forall. intros H x I. specialize (H x I). apply orb_true_iff in H. unfold qpchar. destruct H as [H|H]; [now rewrite (qchar_alnum safe x H)|]. unfold qchar. rewrite H. now rewrite orb_true_r.
Qed.
Lemma quote_query_q safe t : forallb (qpchar safe) (quote_query safe t) = true.
Proof.
  unfold quote_query. generalize (S (length t)) as f. intros f. revert t. induction f as [|f IH]; intros t; [reflexivity|]. cbn [quote_refs].
  destruct (ref_at t) as [[x r]|] eqn:E.
  - rewrite !forallb_app, IH, (forallb_alnum safe x) by (eapply ref_at_alnum, E). now rewrite !percent_lit.
  - destruct t as [|c t]; [reflexivity|]. now rewrite forallb_app, plus_char_q, IH.
Qed.
Lemma get_search_avoids u : avoids [9; 10; 13; 35] (get_search u) = true.
Proof.
  unfold get_search. destruct (u_params u) as [|p d]; [reflexivity|]. rewrite avoids_cons. cbn [andb]. generalize (sort_params (p :: d)) as l. intros l.
  replace (negb (is_in 63 [9; 10; 13; 35])) with true by reflexivity. cbn [andb].
  assert (X : forall a, avoids [9; 10; 13; 35] (quote_query query_safe a) = true) by (intros a; apply (pred_avoids (qpchar query_safe)); [apply quote_query_q|reflexivity]).
  induction l as [|q l IH]; [reflexivity|]. cbn [map]. set (x := quote_query query_safe (fst q) ++ 61 :: quote_query query_safe (snd q)) in *.
  assert (XX : avoids [9; 10; 13; 35] x = true) by (unfold x; rewrite avoids_app, avoids_cons, !X; reflexivity).
  destruct l as [|z l]; [exact XX|]. cbn [map] in *. match goal with |- avoids _ (join _ (?a :: ?b :: ?r)) = true => change (join [38] (a :: b :: r)) with (a ++ [38] ++ join [38] (b :: r)) end.
  rewrite !avoids_app, XX, IH. reflexivity.
Qed.

(** ** What the setters read of the object *)
Lemma set_port_cong u v t : u_protocol u = u_protocol v -> u_hostname u = u_hostname v ->
  snd (set_port u t) = None -> set_port v t = (with_host (with_port v (u_port (fst (set_port u t)))) (u_host (fst (set_port u t))), None).
Proof. unfold set_port. intros <- <-. destruct t; [reflexivity|]. now destruct (_ || _). Qed.
Lemma parse_host_cong w u v t : t <> [] -> u_protocol u = u_protocol v -> u_port u = u_port v -> snd (parse_host w u t true) = None ->
  parse_host w v t true = (let r := fst (parse_host w u t true) in with_host (with_hostname (with_port v (u_port r)) (u_hostname r)) (u_host r), None).
Proof.
  intros T P O. unfold parse_host. destruct t as [|c t]; [contradiction|]. destruct (existsb _ _); [discriminate|]. destruct (idna w _) as [h|]; [|discriminate]. cbv zeta.
  match goal with |- context [match ?x with Some _ => _ | None => _ end] => destruct x as [[n p]|] end; [|discriminate].
  destruct p as [p|].
  - destruct (nonempty p); [|intros _; cbn; rewrite O; now destruct v]. intros H. rewrite (set_port_cong (with_host (with_hostname u n) n) (with_host (with_hostname v n) n) p); try assumption; [|reflexivity].
    destruct (set_port_frame (with_host (with_hostname u n) n) p) as (h' & p' & ->). reflexivity.
  - intros H. change (u_port (with_host (with_hostname v n) n)) with (u_port v). change (u_port (with_host (with_hostname u n) n)) with (u_port u) in *. rewrite <- O.
    rewrite (set_port_cong (with_host (with_hostname u n) n) (with_host (with_hostname v n) n) (u_port u)); try assumption; [|reflexivity].
    destruct (set_port_frame (with_host (with_hostname u n) n) (u_port u)) as (h' & p' & ->). reflexivity.
Qed.
Lemma set_pathname_cong w u v t : u_protocol u = u_protocol v -> snd (set_pathname w u t) = None -> set_pathname w v t = (with_pathname v (u_pathname (fst (set_pathname w u t))), None).
Proof. unfold set_pathname. intros <-. destruct t; [reflexivity|]. now destruct (_ && _). Qed.
Definition host_bad : text := [9; 10; 13; 32] ++ lit "#%/?@\".
Lemma host_bad_low c : is_in (to_low c) host_bad = is_in c host_bad.
Proof.
  unfold to_low. destruct (is_up c) eqn:U; [|reflexivity]. apply is_up_iff in U. transitivity false; [|symmetry]; apply is_in_not; intros I; cbn in I; repeat (destruct I as [I|I]; [lia|]); contradiction.
Qed.
Lemma parse_host_lower w u t : parse_host w u (lower t) true = parse_host w u t true.
Proof.
  unfold parse_host. rewrite lower_lower. fold host_bad. replace (existsb (fun c => is_in c host_bad) (lower t)) with (existsb (fun c => is_in c host_bad) t).
  - now destruct t.
  - unfold lower. induction t as [|c t IH]; [reflexivity|]. cbn [map existsb]. now rewrite host_bad_low, IH.
Qed.

(** ** Stable URLs *)
Lemma stable_protocol w u : stable w u -> u_protocol u <> [] ->
  exists c r, u_protocol u = c :: r ++ [58] /\ is_low c = true /\ forallb (fun c => is_alnum c || is_in c (lit "+-.")) r = true /\ lower (c :: r) = c :: r.
Proof.
  intros S P. specialize (S CProtocol). cbn [set_comp get_comp] in S. unfold set_protocol in S. pose proof (lower_no_up (rstrip 58 (u_protocol u))) as L.
  pose proof (lower_lower (rstrip 58 (u_protocol u))) as LL. destruct (u_protocol u) as [|x t] eqn:E; [contradiction|]. destruct (lower (rstrip 58 (x :: t))) as [|c r]; [discriminate|].
  destruct (negb (is_up c || is_low c) || negb (forallb (fun c => is_alnum c || is_in c (lit "+-.")) r)) eqn:B; [discriminate|].
  apply orb_false_iff in B as [B1 B2]. apply negb_false_iff in B1, B2. injection S as S. apply (f_equal u_protocol) in S. cbn [with_protocol u_protocol] in S. rewrite E in S.
  exists c, r. cbn in L. apply andb_true_iff in L as [L _]. apply negb_true_iff in L. rewrite L in B1. repeat split; auto.
Qed.
Lemma stable_path w u : stable w u -> opaque (u_protocol u) = false -> exists r, u_pathname u = 47 :: r.
Proof.
  intros S O. specialize (S CPathname). cbn [set_comp get_comp] in S. unfold get_pathname in S. rewrite O in S. cbn [negb andb] in S.
  destruct (starts_slash (u_pathname u)) eqn:E; [now apply starts_slash_iff|]. cbn [negb] in S. unfold set_pathname in S. destruct (_ && _) in S; [discriminate|].
  injection S as S. apply (f_equal u_pathname) in S. cbn [with_pathname u_pathname] in S. rewrite O in S. cbn [negb andb] in S. apply starts_slash_iff. rewrite <- S.
  match goal with |- starts_slash (if ?b then _ else _) = true => destruct b eqn:F end; [reflexivity|]. apply negb_false_iff in F. exact F.
Qed.
Lemma stable_path_avoids w u : stable w u -> opaque (u_protocol u) = false -> avoids [9; 10; 13; 35; 63] (u_pathname u) = true.
Proof.
  intros S O. destruct (stable_path w u S O) as (r & E). specialize (S CPathname). cbn [set_comp get_comp] in S. unfold get_pathname in S. rewrite O, E in S. cbn [negb andb starts_slash] in S.
  unfold set_pathname in S. destruct (_ && _) in S; [discriminate|]. injection S as S. apply (f_equal u_pathname) in S. cbn [with_pathname u_pathname] in S.
  assert (M : mem (u_protocol u) [lit "blob:"; lit "data:"] = false).
  { apply mem_not_in. intros I. apply Bool.not_true_iff_false in O. apply O. apply opaque_in. cbn in *. tauto. }
  unfold mem in M. cbn [existsb] in M. rewrite M in S. rewrite <- S, clean_path_raw. match goal with |- context [if ?b then _ else _] => destruct b end; [rewrite avoids_cons|]; rewrite quote_avoids; reflexivity.
Qed.
Lemma stable_hash_avoids w u : stable w u -> avoids [9; 10; 13] (u_hash u) = true.
Proof.
  intros S. specialize (S CHash). cbn [set_comp get_comp] in S. unfold set_hash in S. injection S as S. apply (f_equal u_hash) in S. cbn [with_hash u_hash] in S. rewrite <- S. now apply quote_avoids.
Qed.
Lemma stable_username w u : stable w u -> quote [] (unquote w (u_username u)) = u_username u.
Proof. intros S. specialize (S CUsername). cbn [set_comp get_comp] in S. unfold set_username in S. injection S as S. now apply (f_equal u_username) in S. Qed.
Lemma stable_password w u : stable w u -> quote [] (unquote w (u_password u)) = u_password u.
Proof. intros S. specialize (S CPassword). cbn [set_comp get_comp] in S. unfold set_password in S. injection S as S. now apply (f_equal u_password) in S. Qed.
Lemma stable_hostname_avoids w u : stable w u -> avoids host_bad (u_hostname u) = true.
Proof.
  intros S. specialize (S CHostname). cbn [set_comp get_comp] in S. unfold set_hostname, parse_host in S. destruct (u_hostname u) as [|c t]; [reflexivity|]. fold host_bad in S.
  destruct (existsb (fun c => is_in c host_bad) (c :: t)) eqn:E; [discriminate|]. unfold avoids. clear S. induction (c :: t) as [|x l IH]; [reflexivity|]. cbn in *. apply orb_false_iff in E as [-> E]. cbn. now apply IH.
Qed.
Lemma stable_look w u : stable w u -> look u = u.
Proof.
  intros S. unfold look. destruct (nonempty (u_port u) && text_eqb (port_of (u_protocol u)) (u_port u)) eqn:E; [|reflexivity]. apply andb_true_iff in E as [N D].
  specialize (S CPort). cbn [set_comp get_comp] in S. unfold set_port in S. destruct (u_port u) as [|x t] eqn:P; [discriminate|]. destruct (_ || _) in S; [discriminate|].
  rewrite D in S. cbn [negb] in S. rewrite andb_false_r in S. injection S as S. etransitivity; [|exact S]. rewrite <- P. now destruct u.
Qed.
Lemma usual_port p t : t <> [] -> port_of p = t -> In (p, t) usual_ports.
Proof.
  intros N. unfold port_of, default_port. destruct (dget _ p) as [x|] eqn:E; [|congruence]. intros <-. apply dget_in in E. cbn in *. intuition congruence.
Qed.
(* the port is shown, if there is a host *)
Lemma stable_host w u : stable w u -> ~ In (u_protocol u, u_port u) usual_ports -> u_port u <> [] -> u_hostname u <> [] -> u_host u = u_hostname u ++ 58 :: u_port u.
Proof.
  intros S D P N. specialize (S CPort). cbn [set_comp get_comp] in S. pose proof (usual_port (u_protocol u) (u_port u) P) as U. unfold set_port in S. destruct (u_port u) as [|x t]; [contradiction|].
  destruct (_ || _) in S; [discriminate|]. injection S as S. apply (f_equal u_host) in S. cbn [with_host with_port u_host] in S. rewrite <- S.
  destruct (u_hostname u); [contradiction|]. destruct (text_eqb_spec (port_of (u_protocol u)) (x :: t)) as [E|]; [apply U in E; contradiction|reflexivity].
Qed.
Lemma stable_host0 w u : stable w u -> u_port u = [] \/ u_hostname u = [] -> u_host u = u_hostname u.
Proof.
  intros S [P|H].
  - specialize (S CPort). cbn [set_comp get_comp] in S. rewrite P in S. injection S as S. now apply (f_equal u_host) in S.
  - specialize (S CHostname). cbn [set_comp get_comp] in S. rewrite H in S. injection S as S. apply (f_equal u_host) in S. now rewrite H.
Qed.
Lemma stable_port w u : stable w u -> u_port u <> [] -> forallb is_digit (u_port u) = true /\ digits_val (u_port u) <= 65535.
Proof.
  intros S P. specialize (S CPort). cbn [set_comp get_comp] in S. unfold set_port in S. destruct (u_port u) as [|x t]; [contradiction|].
  destruct (negb (forallb is_digit (x :: t)) || (65535 <? digits_val (x :: t))) eqn:E; [discriminate|]. apply orb_false_iff in E as [E F]. apply negb_false_iff in E. apply N.ltb_ge in F. now split.
Qed.
Lemma digits_avoid l t : forallb is_digit t = true -> forallb (fun c => negb (is_digit c)) l = true -> avoids l t = true.
Proof. apply pred_avoids. Qed.

(** ** Splitting the text *)
(* the part between "//" and the path *)
Definition auth_text (u : url) : text :=
  if nonempty (u_host u) && negb (text_eqb (u_protocol u) (lit "file:")) then
    (if nonempty (u_username u) then u_username u ++ (if nonempty (u_password u) then 58 :: u_password u else []) ++ [64] else []) ++ u_host u
  else [].
Lemma tostring_eq w u : stable w u -> hierarchical u -> snd (tostring u) = u_protocol u ++ lit "//" ++ auth_text u ++ u_pathname u ++ get_search u ++ get_hash u.
Proof.
  intros S [P O]. assert (Q : opaque (u_protocol u) = false) by (apply Bool.not_true_iff_false; rewrite opaque_in; exact O). unfold tostring, get_host. rewrite (stable_look w u S). cbn [snd].
  destruct (stable_path w u S Q) as (r & E). unfold get_pathname. rewrite Q, E. cbn [negb andb starts_slash]. unfold auth_text. destruct (u_protocol u) as [|c p]; [contradiction|].
  cbn [nonempty]. rewrite orb_true_r. rewrite <- !app_assoc. reflexivity.
Qed.
Lemma scheme_avoids c r : is_low c = true -> forallb (fun c => is_alnum c || is_in c (lit "+-.")) r = true -> avoids [9; 10; 13; 58] (c :: r) = true.
Proof.
  intros C R. apply (pred_avoids (fun c => is_alnum c || is_in c (lit "+-."))); [|reflexivity]. cbn [forallb]. rewrite R, andb_true_r. unfold is_alnum. rewrite C. now rewrite orb_true_r.
Qed.
Lemma urlsplit_text c r a path search hash :
  is_low c = true -> forallb (fun c => is_alnum c || is_in c (lit "+-.")) r = true -> lower (c :: r) = c :: r ->
  avoids [9; 10; 13; 35; 47; 63; 91; 93] a = true -> starts_slash path = true -> avoids [9; 10; 13; 35; 63] path = true ->
  (search = [] \/ exists q, search = 63 :: q) -> avoids [9; 10; 13; 35] search = true -> (hash = [] \/ exists h, hash = 35 :: h) -> avoids [9; 10; 13] hash = true ->
  urlsplit ((c :: r ++ [58]) ++ lit "//" ++ a ++ path ++ search ++ hash) = Ok (mkSplit (c :: r) a path (tl search) (tl hash)).
Proof.
  intros C R L A P PA SQ SA HQ HA. unfold urlsplit. pose proof (scheme_avoids c r C R) as SC.
  rewrite dropwhile_head by (cbn; apply is_low_iff in C; apply negb_true_iff, N.leb_gt; lia).
  rewrite filter_avoids.
  2: { change (c :: r ++ [58]) with ((c :: r) ++ [58]). rewrite !avoids_app. rewrite HA, (avoids_sub _ [9; 10; 13] search SA), (avoids_sub _ [9; 10; 13] path PA), (avoids_sub _ [9; 10; 13] a A), (avoids_sub _ [9; 10; 13] (c :: r) SC) by reflexivity. reflexivity. }
  replace ((c :: r ++ [58]) ++ lit "//" ++ a ++ path ++ search ++ hash) with ((c :: r) ++ 58 :: 47 :: 47 :: a ++ path ++ search ++ hash) by (cbn; now rewrite <- app_assoc).
  rewrite cut_app by now apply (avoids_sub _ [58] (c :: r) SC).
  rewrite C, R, orb_true_r, L. cbn [andb].
  assert (AA : forallb (fun c => negb (is_in c (lit "/?#"))) a = true) by exact (avoids_sub _ (lit "/?#") a A eq_refl).
  assert (HN : head_not (fun c => negb (is_in c (lit "/?#"))) (path ++ search ++ hash) = true) by (apply starts_slash_iff in P as (r' & ->); reflexivity).
  rewrite takewhile_app, dropwhile_app_stop by assumption.
  rewrite (avoids_one 91 a), (avoids_one 93 a) by (eapply avoids_sub; [exact A|reflexivity]). cbn [xorb].
  assert (X : cut_or 35 (path ++ search ++ hash) = (path ++ search, tl hash)).
  { assert (PS : avoids [35] (path ++ search) = true) by (rewrite avoids_app, (avoids_sub _ [35] path PA), (avoids_sub _ [35] search SA); reflexivity).
    destruct HQ as [->|(h & ->)]; [rewrite app_nil_r; now apply cut_or_none|rewrite app_assoc; now apply cut_or_app]. }
  rewrite X. assert (Y : cut_or 63 (path ++ search) = (path, tl search)).
  { pose proof (avoids_sub _ [63] path PA eq_refl) as PQ. destruct SQ as [->|(q & ->)]; [rewrite app_nil_r; now apply cut_or_none|now apply cut_or_app]. }
  now rewrite Y.
Qed.
(* reading the authority back *)
Lemma userinfo_avoids w u l : stable w u -> forallb (fun c => negb (qchar [] c)) l = true -> avoids l (u_username u) = true /\ avoids l (u_password u) = true.
Proof. intros S L. rewrite <- (stable_username w u S), <- (stable_password w u S). now rewrite !quote_avoids. Qed.
Lemma host_avoids w u : stable w u -> carried u -> avoids [9; 10; 13; 32; 35; 37; 47; 63; 64; 92; 91; 93] (u_host u) = true.
Proof.
  intros S (H & _ & D & _). assert (A : avoids [9; 10; 13; 32; 35; 37; 47; 63; 64; 92; 91; 93] (u_hostname u) = true).
  { pose proof (stable_hostname_avoids w u S) as B. rewrite avoids_in in *. intros c I J. destruct (H c I) as (_ & H1 & H2). cbn in J. repeat (destruct J as [J|J]; [try (now subst); apply (B c I); subst c; cbn; tauto|]). exact J. }
  destruct (u_port u) as [|x p] eqn:P; [rewrite (stable_host0 w u S); [exact A|now left]|].
  destruct (u_hostname u) as [|y h] eqn:E; [rewrite (stable_host0 w u S); [now rewrite E|now right]|].
  rewrite (stable_host w u S); [|now rewrite P|now rewrite P|now rewrite E]. rewrite E, avoids_app, A. rewrite avoids_cons. rewrite P.
  rewrite (digits_avoid _ (x :: p)); [reflexivity| |reflexivity]. rewrite <- P. apply (stable_port w u S). now rewrite P.
Qed.
Lemma auth_avoids w u : stable w u -> carried u -> avoids [9; 10; 13; 35; 47; 63; 91; 93] (auth_text u) = true.
Proof.
  intros S K. unfold auth_text. destruct (_ && _); [|reflexivity]. pose proof (host_avoids w u S K) as H.
  destruct (userinfo_avoids w u [9; 10; 13; 35; 47; 63; 91; 93] S eq_refl) as [U P].
  rewrite avoids_app, (avoids_sub _ [9; 10; 13; 35; 47; 63; 91; 93] (u_host u) H) by reflexivity. rewrite andb_true_r. destruct (nonempty (u_username u)); [|reflexivity].
  rewrite !avoids_app, U. destruct (nonempty (u_password u)); [rewrite avoids_cons, P; reflexivity|reflexivity].
Qed.
Definition port_part (u : url) : text := match u_port u with [] => [] | p => 58 :: p end.
Lemma auth_shape w u : stable w u -> carried u -> u_hostname u <> [] ->
  auth_text u = (if nonempty (u_username u) then u_username u ++ (if nonempty (u_password u) then 58 :: u_password u else []) ++ [64] else []) ++ u_hostname u ++ port_part u.
Proof.
  intros S K H. assert (E : u_host u = u_hostname u ++ port_part u).
  { unfold port_part. destruct (u_port u) as [|x p] eqn:P; [rewrite app_nil_r; apply (stable_host0 w u S); now left|]. rewrite <- P. apply (stable_host w u S); [apply K|now rewrite P|exact H]. }
  unfold auth_text. rewrite E. replace (nonempty (u_hostname u ++ port_part u)) with true by (destruct (u_hostname u); [contradiction|reflexivity]).
  destruct (text_eqb_spec (u_protocol u) (lit "file:")) as [F|]; [|reflexivity]. destruct K as (_ & _ & _ & _ & K). destruct (K (or_intror F)). contradiction.
Qed.
Lemma hostport_avoid w u : stable w u -> carried u -> u_hostname u <> [] -> avoids [64; 91] (u_hostname u ++ port_part u) = true.
Proof.
  intros S K H. pose proof (host_avoids w u S K) as A. replace (u_hostname u ++ port_part u) with (u_host u); [eapply avoids_sub; [exact A|reflexivity]|].
  unfold port_part. destruct (u_port u) as [|x p] eqn:P; [rewrite app_nil_r; apply (stable_host0 w u S); now left|]. rewrite <- P. apply (stable_host w u S); [apply K|now rewrite P|exact H].
Qed.
Lemma auth_userinfo w u : stable w u -> carried u -> u_hostname u <> [] ->
  sp_userinfo (auth_text u) = if nonempty (u_username u) then (Some (u_username u), if nonempty (u_password u) then Some (u_password u) else None) else (None, None).
Proof.
  intros S K H. rewrite (auth_shape w u S K H). pose proof (avoids_sub _ [64] _ (hostport_avoid w u S K H) eq_refl) as A. unfold sp_userinfo.
  destruct (userinfo_avoids w u [58] S eq_refl) as [U _].
  destruct (nonempty (u_username u)); [|cbn [app]; now rewrite rcut_none].
  match goal with |- context [rcut 64 ((?n ++ ?p ++ [64]) ++ ?r)] => replace ((n ++ p ++ [64]) ++ r) with ((n ++ p) ++ 64 :: r) by (rewrite <- !app_assoc; reflexivity) end. rewrite rcut_app by exact A.
  destruct (nonempty (u_password u)); [now rewrite cut_app|]. rewrite app_nil_r. now rewrite cut_none.
Qed.
Lemma auth_hostinfo w u : stable w u -> carried u -> u_hostname u <> [] -> sp_hostinfo (auth_text u) = (u_hostname u, u_port u).
Proof.
  intros S K H. rewrite (auth_shape w u S K H). pose proof (hostport_avoid w u S K H) as A. unfold sp_hostinfo.
  match goal with |- context [rcut 64 (?x ++ ?y)] => replace (match rcut 64 (x ++ y) with Some (_, h) => h | None => x ++ y end) with y end.
  - rewrite cut_none by exact (avoids_sub _ [91] _ A eq_refl). assert (HN : avoids [58] (u_hostname u) = true).
    { apply avoids_in. intros c I [<-|[]]. destruct K as (K & _). now destruct (K 58 I). }
    unfold port_part. destruct (u_port u) as [|x p]; [rewrite app_nil_r; now apply cut_or_none|now apply cut_or_app].
  - destruct (nonempty (u_username u)); [|cbn [app]; now rewrite rcut_none by exact (avoids_sub _ [64] _ A eq_refl)].
    match goal with |- context [rcut 64 ((?n ++ ?p ++ [64]) ++ ?r)] => replace ((n ++ p ++ [64]) ++ r) with ((n ++ p) ++ 64 :: r) by (rewrite <- !app_assoc; reflexivity) end. now rewrite rcut_app by exact (avoids_sub _ [64] _ A eq_refl).
Qed.
Lemma authority_back w u v : stable w u -> carried u -> u_protocol v = u_protocol u -> authority w v (auth_text u) = (with_host (with_hostname (with_port v (u_port u)) (u_hostname u)) (u_host u), None).
Proof.
  intros S K V. destruct (u_hostname u) as [|y h] eqn:E.
  - pose proof (stable_host0 w u S (or_intror E)) as H. rewrite E in H. destruct K as (_ & _ & _ & _ & K). destruct (K (or_introl E)) as (_ & P & _). unfold auth_text. rewrite H, P. reflexivity.
  - assert (N : u_hostname u <> []) by now rewrite E. unfold authority. destruct (auth_text u) as [|a0 ar] eqn:A.
    { rewrite (auth_shape w u S K N) in A. exfalso. apply app_eq_nil in A as [_ A]. rewrite E in A. discriminate. }
    rewrite <- A.
    assert (PP : sp_port (auth_text u) = Ok (match u_port u with [] => None | _ => Some (digits_val (u_port u)) end)).
    { unfold sp_port. rewrite (auth_hostinfo w u S K N). cbn [snd]. destruct (u_port u) as [|x p] eqn:P; [reflexivity|]. destruct (stable_port w u S) as [D B]; [now rewrite P|]. rewrite P in D, B. apply N.leb_le in B.
      transitivity (if forallb is_digit (x :: p) && (digits_val (x :: p) <=? 65535) then Ok (Some (digits_val (x :: p))) else Err ValueError); [reflexivity|]. now rewrite D, B. }
    assert (HH : sp_hostname (auth_text u) = Some (lower (u_hostname u))).
    { assert (HA : avoids [37] (u_hostname u) = true) by exact (avoids_sub _ [37] _ (stable_hostname_avoids w u S) eq_refl). apply avoids_while in HA.
      unfold sp_hostname. rewrite (auth_hostinfo w u S K N). cbn [fst]. rewrite E. rewrite E in HA. transitivity (Some (lower (takewhile (fun c => negb (c =? 37)) (y :: h)) ++ dropwhile (fun c => negb (c =? 37)) (y :: h))); [reflexivity|].
      now rewrite takewhile_all, dropwhile_all, app_nil_r by exact HA. }
    rewrite PP, HH. cbv zeta.
    assert (QQ : match (match u_port u with [] => None | _ => Some (digits_val (u_port u)) end) with Some p => digits p | None => [] end = u_port u).
    { destruct K as (_ & [->|(n & ->)] & _); [reflexivity|]. pose proof (digits_nonempty n) as D. destruct (digits n) as [|x p] eqn:F; [contradiction|]. rewrite <- F. now rewrite digits_val_digits. }
    rewrite QQ, <- E. unfold set_hostname. rewrite parse_host_lower.
    pose proof (S CHostname) as SH. cbn [set_comp get_comp] in SH. unfold set_hostname in SH.
    rewrite (parse_host_cong w u (with_port v (u_port u)) (u_hostname u) N); [|now rewrite <- V|reflexivity|now rewrite SH]. rewrite SH. reflexivity.
Qed.
Lemma set_protocol_scheme u c r : is_low c = true -> forallb (fun c => is_alnum c || is_in c (lit "+-.")) r = true -> lower (c :: r) = c :: r -> set_protocol u (c :: r) = (with_protocol u (c :: r ++ [58]), None).
Proof.
  intros C R L. unfold set_protocol. replace (rstrip 58 (c :: r)) with (c :: r).
  - rewrite L, C, R. now rewrite orb_true_r.
  - symmetry. apply rdropwhile_id. pose proof (scheme_avoids c r C R) as A. apply avoids_in with (c := hd 0 (rev (c :: r))) in A.
    + destruct (rev (c :: r)) as [|x y]; [reflexivity|]. cbn [hd] in A. cbn [head_not]. apply negb_true_iff, N.eqb_neq. intros <-. apply A. cbn. tauto.
    + apply in_rev. destruct (rev (c :: r)) as [|x y] eqn:E; [apply (f_equal (@length _)) in E; rewrite rev_length in E; discriminate|now left].
Qed.
Lemma get_search_shape u : get_search u = [] \/ exists q, get_search u = 63 :: q.
Proof. unfold get_search. destruct (u_params u); [now left|right; eauto]. Qed.
Lemma set_search_tl u : snd (set_search u (tl (get_search u))) = None /\ u_params (fst (set_search u (tl (get_search u)))) = u_params (fst (set_search u (get_search u))).
Proof. split; [reflexivity|]. destruct (get_search_shape u) as [->|(q & ->)]; [reflexivity|]. reflexivity. Qed.
Theorem roundtrip w u : stable w u -> hierarchical u -> carried u -> parse_url w blank (snd (tostring u)) = (u, None).
Proof.
  intros S HI K. rewrite (tostring_eq w u S HI). destruct HI as [P O]. assert (Q : opaque (u_protocol u) = false) by (apply Bool.not_true_iff_false; rewrite opaque_in; exact O).
  destruct (stable_protocol w u S P) as (c & r & E & C & R & L). destruct (stable_path w u S Q) as (pr & PE).
  rewrite parse_url_eq, E. rewrite (urlsplit_text c r (auth_text u) (u_pathname u) (get_search u) (get_hash u) C R L); first
    [ exact (auth_avoids w u S K) | exact (stable_path_avoids w u S Q) | exact (get_search_avoids u) | exact (get_search_shape u) | idtac ].
  2: rewrite PE; reflexivity.
  2: unfold get_hash; destruct (u_hash u); [now left|right; eauto].
  2: unfold get_hash; pose proof (stable_hash_avoids w u S) as HA; destruct (u_hash u); [reflexivity|]; rewrite avoids_cons, HA; reflexivity.
  cbn [sp_scheme sp_netloc sp_path sp_query sp_fragment nonempty negb andb orb].
  replace (mem (c :: r) [lit "about"; lit "blob"; lit "data"]) with false.
  2: { symmetry. apply mem_not_in. intros I. apply O. rewrite E. cbn in I. destruct I as [I|[I|[I|[]]]]; injection I as <- <-; cbn; tauto. }
  cbn [andb]. rewrite set_protocol_scheme by assumption. rewrite <- E. rewrite (authority_back w u (with_protocol blank (u_protocol u)) S K) by reflexivity. cbv zeta.
  set (v := with_host _ _).
  assert (UI : quote [] (unquote w (match fst (sp_userinfo (auth_text u)) with Some x => x | None => [] end)) = u_username u /\ quote [] (unquote w (match snd (sp_userinfo (auth_text u)) with Some x => x | None => [] end)) = u_password u).
  { pose proof (stable_username w u S) as SU. pose proof (stable_password w u S) as SP. destruct (u_hostname u) as [|y h] eqn:HN.
    - pose proof (stable_host0 w u S (or_intror HN)) as H. rewrite HN in H. destruct K as (_ & _ & _ & _ & K). destruct (K (or_introl HN)) as (_ & _ & UN & PN). rewrite UN in *. rewrite PN in *. unfold auth_text. rewrite H. cbn. now split.
    - assert (N : u_hostname u <> []) by now rewrite HN. rewrite (auth_userinfo w u S K N). destruct K as (_ & _ & _ & UP & _).
      destruct (u_username u) as [|a b]; cbn [nonempty fst snd]; [split; [exact SU|rewrite (UP eq_refl) in *; exact SP]|]. split; [exact SU|]. destruct (u_password u) as [|a' b']; exact SP. }
  destruct UI as [-> ->]. pose proof (S CPathname) as SPA. cbn [set_comp get_comp] in SPA. unfold get_pathname in SPA. rewrite Q, PE in SPA. cbn [negb andb starts_slash] in SPA. rewrite PE.
  rewrite (set_pathname_cong w u) by (reflexivity || now rewrite SPA). rewrite SPA. cbn [fst].
  pose proof (S CSearch) as SS. cbn [set_comp get_comp] in SS. destruct (set_search_tl u) as [_ ST]. rewrite SS in ST. cbn [fst] in ST.
  pose proof (S CHash) as SH. cbn [set_comp get_comp] in SH. unfold set_hash in *. f_equal.
  assert (HH : quote hash_safe (unquote w (dropwhile (N.eqb 35) (tl (get_hash u)))) = u_hash u).
  { injection SH as SH. apply (f_equal u_hash) in SH. cbn [with_hash u_hash] in SH. etransitivity; [|exact SH]. unfold get_hash. destruct (u_hash u); reflexivity. }
  rewrite HH. unfold set_search in *. cbn [fst with_params u_params] in *. rewrite ST. unfold v. clear. destruct u. reflexivity.
Qed.
