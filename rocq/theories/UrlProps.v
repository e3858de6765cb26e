(** C38: URL components.  C54: normalised paths. *)
From Coq Require Import Sorted.
From Verif Require Import PyBase PyText PyCase PyDict PySplit UrlModel UrlSpec UrlProofs UrlProofs2 UrlProofs3 UrlProofs4 UrlProofs5.
#[local] Open Scope N_scope.
Definition web0 := plain_web.
(* http://u:p@example.com:8080/a/b.svg?k=v+w#f, read from text *)
Definition url0 : url := mkUrl (lit "http:") (lit "u") (lit "p") (lit "example.com") (lit "example.com:8080") (lit "8080") (lit "/a/b.svg") [(lit "k", lit "v w")] (lit "f").
Example url0_read : parse_url web0 blank (lit "http://u:p@Example.com:8080/x/../a/./b.svg?k=v+w#f") =
  (url0, None).
Proof. vm_compute. reflexivity. Qed.
Lemma url0_stable : stable web0 url0.
Proof. intros []; vm_compute; reflexivity. Qed.
Lemma url0_hierarchical : hierarchical url0.
Proof. split; [discriminate|]. intros [E|[E|[E|[]]]]; discriminate E. Qed.
Lemma url0_carried : carried url0.
Proof.
  split; [intros c I; cbn in I; repeat (destruct I as [<-|I]; [repeat split; discriminate|]); contradiction|].
  split; [right; exists 8080; reflexivity|]. split; [intros I; cbn in I; repeat (destruct I as [I|I]; [discriminate I|]); contradiction|].
  split; [discriminate|]. intros [E|E]; discriminate E.
Qed.

(** ** Setting one component *)
(* the other components read as before: all of them for user, password, path, query and fragment; host, host name and port hang together; the scheme may show in host and path *)
Theorem c38_set_one w c d u t : touches c d = false -> get_comp d (fst (set_comp w c u t)) = get_comp d u.
Proof. apply set_one. Qed.
Print Assumptions c38_set_one.
Example c38_set_one_case : get_comp CSearch (fst (set_comp web0 CPathname url0 (lit "/c d/../e"))) = lit "?k=v+w" /\ get_comp CPathname (fst (set_comp web0 CPathname url0 (lit "/c d/../e"))) = lit "/e".
Proof. vm_compute. now split. Qed.
(* the scheme shows in the path only when the scheme becomes or was about, blob or data, and in the host only when the port is the usual one *)
Theorem c38_scheme_path w u t : (In (u_protocol u) [lit "about:"; lit "blob:"; lit "data:"] <-> In (u_protocol (fst (set_comp w CProtocol u t))) [lit "about:"; lit "blob:"; lit "data:"]) ->
  get_comp CPathname (fst (set_comp w CProtocol u t)) = get_comp CPathname u.
Proof. intros H. apply set_protocol_path. rewrite <- !opaque_in in H. cbn [set_comp] in H. destruct (opaque (u_protocol u)), (opaque (u_protocol (fst (set_protocol u t)))); try reflexivity; destruct H as [H1 H2]; [specialize (H1 eq_refl); discriminate|specialize (H2 eq_refl); discriminate]. Qed.
Print Assumptions c38_scheme_path.
Theorem c38_scheme_host w u t : ~ In (u_protocol u, u_port u) usual_ports -> ~ In (u_protocol (fst (set_comp w CProtocol u t)), u_port u) usual_ports -> u_port u <> [] -> get_comp CHost (fst (set_comp w CProtocol u t)) = get_comp CHost u.
Proof. intros A B N. apply set_protocol_host; intros E; [apply A|apply B]; now apply usual_port. Qed.
Print Assumptions c38_scheme_host.
Example c38_scheme_case : let v := fst (set_comp web0 CProtocol url0 (lit "WSS:")) in get_comp CProtocol v = lit "wss:" /\ get_comp CHost v = lit "example.com:8080" /\ get_comp CPathname v = lit "/a/b.svg".
Proof. vm_compute. now repeat split. Qed.
(* a value that is refused changes nothing (but see c38_refused_host_refuted) *)
Theorem c38_refused w c u t e : c <> CHost -> c <> CHostname -> snd (set_comp w c u t) = Some e -> fst (set_comp w c u t) = u.
Proof. apply set_failed. Qed.
Print Assumptions c38_refused.
Example c38_refused_case : set_comp web0 CPort url0 (lit "65536") = (url0, Some ValueError) /\ set_comp web0 CPathname url0 (lit "a\b") = (url0, Some ValueError) /\ set_comp web0 CProtocol url0 (lit "1x") = (url0, Some ValueError).
Proof. vm_compute. now repeat split. Qed.
Theorem c38_refused_host_refuted : exists w u t, snd (set_comp w CHost u t) = Some ValueError /\ get_comp CHostname (fst (set_comp w CHost u t)) <> get_comp CHostname u.
Proof. exists web0, url0, (lit "other:99999"). split; vm_compute; [reflexivity|discriminate]. Qed.
Print Assumptions c38_refused_host_refuted.
(* what a host sets: the name, or the address in brackets, and the port after it; the host shown has the port unless it is the usual one *)
Theorem c38_host w u t h n p : host_text t -> idna w (lower t) = Some h -> host_parts h n p -> port_text (match p with Some x => x | None => [] end) ->
  exists v, set_comp w CHost u t = (v, None) /\ get_comp CHostname v = n /\ get_comp CPort v = (match p with Some x => x | None => [] end) /\
    shown_host (u_protocol u) n (match p with Some x => x | None => [] end) (get_comp CHost v).
Proof. apply host_set. Qed.
Print Assumptions c38_host.
Example c38_host_case : host_parts (lit "[::1]:8080") (lit "[::1]") (Some (lit "8080")) /\ host_parts (lit "::1") (lit "[::1]") None /\
  map (fun t => let v := fst (set_comp web0 CHost url0 t) in (get_comp CHostname v, get_comp CPort v, get_comp CHost v)) [lit "[::1]:8080"; lit "::1"; lit "A.b:80"; lit "[::1]"] =
  [(lit "[::1]", lit "8080", lit "[::1]:8080"); (lit "[::1]", [], lit "[::1]"); (lit "a.b", lit "80", lit "a.b"); (lit "[::1]", [], lit "[::1]")].
Proof.
  split; [apply (hp_six_port (lit "::1") (lit "8080")); [exists [], [], (lit "1"); reflexivity|cbn; intuition discriminate]|].
  split; [apply hp_bare; [exists [], [], (lit "1"); reflexivity|intros r; discriminate]|]. vm_compute. reflexivity.
Qed.
(* the host name leaves the port unless one is given *)
Theorem c38_hostname w u t h n p : host_text t -> idna w (lower t) = Some h -> host_parts h n p -> port_fits u -> port_text (match p with Some x => x | None => [] end) ->
  exists v, set_comp w CHostname u t = (v, None) /\ get_comp CHostname v = n /\ get_comp CPort v = (match p with Some (c :: r) => c :: r | _ => u_port u end).
Proof. apply hostname_set. Qed.
Print Assumptions c38_hostname.
Example c38_hostname_case : map (fun t => let v := fst (set_comp web0 CHostname url0 t) in (get_comp CHostname v, get_comp CPort v, get_comp CHost v)) [lit "b"; lit "b:"; lit "b:9"] =
  [(lit "b", lit "8080", lit "b:8080"); (lit "b", lit "8080", lit "b"); (lit "b", lit "9", lit "b:9")].
Proof. vm_compute. reflexivity. Qed.
(* an empty port after the name keeps the port but the host shown loses it *)
Theorem c38_hostname_refuted : exists w u t, port_fits u /\ let v := fst (set_comp w CHostname u t) in
  snd (set_comp w CHostname u t) = None /\ ~ shown_host (get_comp CProtocol v) (get_comp CHostname v) (get_comp CPort v) (get_comp CHost v).
Proof.
  exists web0, url0, (lit "b:"). split; [right; split; [repeat constructor; discriminate|vm_compute; discriminate]|]. split; [reflexivity|].
  intros (_ & H). assert (E : get_comp CHost (fst (set_comp web0 CHostname url0 (lit "b:"))) = lit "b") by (vm_compute; reflexivity). rewrite E in H. clear E.
  assert (Z : lit "b" = get_comp CHostname (fst (set_comp web0 CHostname url0 (lit "b:"))) ++ lit ":" ++ get_comp CPort (fst (set_comp web0 CHostname url0 (lit "b:")))); [|vm_compute in Z; discriminate].
  apply H; [vm_compute; discriminate|vm_compute; discriminate|]. intros I. vm_compute in I. repeat (destruct I as [I|I]; [discriminate I|]). destruct I.
Qed.
Print Assumptions c38_hostname_refuted.
(* after any history the scheme and the port are well formed *)
Theorem c38_scheme_port w ops : let u := url_run w blank ops in port_fits u /\ protocol_fits u.
Proof. apply run_pp. split; now left. Qed.
Print Assumptions c38_scheme_port.
(* and the host shown is that of the URL, if no assignment of href was refused in the middle *)
Theorem c38_host_fits_partial w ops : run_ok w blank ops -> host_fits (url_run w blank ops).
Proof. intros R. apply (run_fits w ops blank blank_fits R). Qed.
Print Assumptions c38_host_fits_partial.
Example c38_host_fits_case : let ops := [OHref (lit "http://a:81/p"); OSet CHostname (lit "B.C"); OSet CPort (lit "82"); OLook; OSet CHost (lit "x:99999"); OSet CProtocol (lit "https")] in
  run_ok web0 blank ops /\ u_host (url_run web0 blank ops) = lit "x" /\ u_host (url_run web0 blank (firstn 3 ops)) = lit "b.c:82".
Proof. vm_compute. now repeat split. Qed.
Theorem c38_host_fits_refuted : exists w ops, ~ host_fits (url_run w blank ops).
Proof. exists web0, [OHref (lit "http://a:81/"); OHref (lit "http://b c:82/")]. vm_compute. intros [H|H]; discriminate H. Qed.
Print Assumptions c38_host_fits_refuted.
(* reading the host is not without effect *)
Theorem c38_read_refuted : exists w u, let to_https v := fst (set_comp w CProtocol v (lit "https")) in let to_http v := fst (set_comp w CProtocol v (lit "http")) in
  get_comp CHost (to_http (to_https u)) = lit "a:443" /\ get_comp CHost (to_http (look (to_https u))) = lit "a".
Proof. exists web0, (fst (parse_url web0 blank (lit "http://a:443/"))). vm_compute. now split. Qed.
Print Assumptions c38_read_refuted.
(* a component that was set keeps its value when it is set to it *)
Theorem c38_settled_partial w c u t v : decodes w -> unicode t -> In c [CProtocol; CUsername; CPassword; CPort] -> set_comp w c u t = (v, None) -> set_comp w c v (get_comp c v) = (v, None).
Proof.
  intros D U [<-|[<-|[<-|[<-|[]]]]]; cbn [set_comp get_comp].
  - apply settle_protocol.
  - unfold set_username. intros [= <-]. cbn [with_username u_username]. now rewrite settle_quote.
  - unfold set_password. intros [= <-]. cbn [with_password u_password]. now rewrite settle_quote.
  - apply settle_port.
Qed.
Print Assumptions c38_settled_partial.
Example c38_settled_case : decodes web0 /\ get_comp CUsername (fst (set_comp web0 CUsername url0 (lit "a@b%20" ++ [233]))) = lit "a%40b%20%C3%A9".
Proof. split; [exact plain_web_decodes|vm_compute; reflexivity]. Qed.
Theorem c38_settled_hash_refuted : exists w u t, let v := fst (set_comp w CHash u t) in fst (set_comp w CHash v (get_comp CHash v)) <> v.
Proof. exists web0, url0, (lit "a%2525"). vm_compute. discriminate. Qed.
Print Assumptions c38_settled_hash_refuted.

(** ** The text of a URL *)
(* reading the text of a URL gives its components *)
Theorem c38_roundtrip w u : stable w u -> hierarchical u -> carried u -> parse_url w blank (snd (tostring u)) = (u, None).
Proof. apply roundtrip. Qed.
Print Assumptions c38_roundtrip.
Example c38_roundtrip_case : stable web0 url0 /\ hierarchical url0 /\ carried url0 /\ snd (tostring url0) = lit "http://u:p@example.com:8080/a/b.svg?k=v+w#f".
Proof. split; [exact url0_stable|]. split; [exact url0_hierarchical|]. split; [exact url0_carried|vm_compute; reflexivity]. Qed.
Definition file0 : url := fst (parse_url web0 blank (lit "file:///home/a%20b/c.svg#x")).
Example c38_roundtrip_file : stable web0 file0 /\ snd (tostring file0) = lit "file:///home/a%20b/c.svg#x".
Proof. split; [intros []; vm_compute; reflexivity|vm_compute; reflexivity]. Qed.
Theorem c38_roundtrip_opaque w u : stable w u -> In (u_protocol u) [lit "about:"; lit "blob:"; lit "data:"] -> u_hostname u = [] -> u_port u = [] -> u_username u = [] -> u_password u = [] ->
  u_pathname u <> [] -> starts_slash (u_pathname u) = false -> (forall c, In c (u_pathname u) -> ~ In c [9; 10; 13; 35; 63]) -> parse_url w blank (snd (tostring u)) = (u, None).
Proof. intros. apply roundtrip_opaque; try assumption. now apply avoids_in. Qed.
Print Assumptions c38_roundtrip_opaque.
Definition data0 : url := fst (parse_url web0 blank (lit "data:image/svg+xml;base64,AAA=")).
Example c38_roundtrip_opaque_case : stable web0 data0 /\ u_pathname data0 = lit "image/svg+xml;base64,AAA=" /\ snd (tostring data0) = lit "data:image/svg+xml;base64,AAA=".
Proof. split; [intros []; vm_compute; reflexivity|vm_compute; now split]. Qed.
(* the query text carries the parameters *)
Theorem c38_search u v : in_order (u_params u) -> Forall (fun p => query_plain (fst p) /\ query_plain (snd p)) (u_params u) -> (forall p r, hd_error (u_params u) = Some p -> fst p <> 63 :: r) ->
  u_params (fst (set_search v (get_search u))) = u_params u.
Proof.
  intros O F H. apply search_back; [now apply in_order_ordered| |exact H]. eapply Forall_impl; [|exact F]. intros p [A B]. split; now apply query_plain_qsafe.
Qed.
Print Assumptions c38_search.
Example c38_search_case : let u := with_params blank [(lit "A", lit "1 (2)"); (lit "a b", []); (lit "ab", lit "%41?x")] in
  in_order (u_params u) /\ get_search u = lit "?A=1+(2)&a+b=&ab=%41?x".
Proof. split; [|vm_compute; reflexivity]. repeat constructor; cbn; lia. Qed.
(* what the text loses: the usual port, a password without a user, all after a second '=', the first of two equal keys, '+' *)
Theorem c38_roundtrip_refuted : exists w u1 u2 u3,
  (stable w u2 /\ snd (tostring u2) = lit "http://h/" /\ u_password u2 = lit "p") /\
  (u1 = fst (parse_url w blank (lit "http://h:80/")) /\ u_port u1 = lit "80" /\ u_port (fst (parse_url w blank (snd (tostring u1)))) = []) /\
  (u3 = fst (set_search (fst (parse_url w blank (lit "http://h/"))) (lit "a=b=c&d=1&d=2")) /\ snd (tostring u3) = lit "http://h/?a=b&d=2") /\
  get_search (with_params u3 [(lit "k", lit "1+1")]) = lit "?k=1+1" /\ u_params (fst (set_search u3 (lit "?k=1+1"))) = [(lit "k", lit "1 1")].
Proof.
  exists web0, (fst (parse_url web0 blank (lit "http://h:80/"))), (with_password (fst (parse_url web0 blank (lit "http://h/"))) (lit "p")), (fst (set_search (fst (parse_url web0 blank (lit "http://h/"))) (lit "a=b=c&d=1&d=2"))).
  split; [split; [intros []; vm_compute; reflexivity|vm_compute; now split]|]. vm_compute. now repeat split.
Qed.
Print Assumptions c38_roundtrip_refuted.

(** ** References against a base *)
(* a URL leaves the base as it is, and is the same as without it *)
Theorem c38_base_partial w t b u : parse_url w blank t = (u, None) -> construct w t (Some b) = (Ok u, Some b) /\ construct w t None = (Ok u, None).
Proof. intros H. unfold construct. now rewrite H. Qed.
Print Assumptions c38_base_partial.
Example c38_base_case : snd (parse_url web0 blank (lit "https://other/x")) = None.
Proof. vm_compute. reflexivity. Qed.
(* a path from the root, against a base: the base's scheme, user and host, and that path; the base object has become the result *)
Theorem c38_absolute_path w b r : decodes w -> unicode r -> stable w b -> hierarchical b -> carried b -> starts_slash r = false -> absolute w (47 :: r) -> (forall c, In c r -> ~ In c [9; 10; 13; 92]) ->
  construct w (47 :: r) (Some b) = (Ok (at_path b (clean_path w (47 :: r))), Some (at_path b (clean_path w (47 :: r)))).
Proof.
  intros D U S H K N A V. eapply absolute_path; try eassumption; [|reflexivity|]; [constructor; [lia|exact U]|]. rewrite avoids_cons. apply avoids_in in V. rewrite V. reflexivity.
Qed.
Print Assumptions c38_absolute_path.
Example c38_absolute_path_case : decodes web0 /\ stable web0 url0 /\ absolute web0 (lit "/c/../d") /\ clean_path web0 (lit "/c/../d") = lit "/d" /\
  construct web0 (lit "/c/../d") (Some url0) = (Ok (at_path url0 (lit "/d")), Some (at_path url0 (lit "/d"))).
Proof. split; [exact plain_web_decodes|]. split; [exact url0_stable|]. split; [eexists; left; vm_compute; reflexivity|]. vm_compute. now split. Qed.
(* a path without slash in front: the base's folder and that path *)
Theorem c38_relative_path w b f name t : decodes w -> unicode t -> unicode f -> stable w b -> hierarchical b -> carried b -> u_protocol b <> lit "file:" ->
  u_pathname b = f ++ lit "/" ++ name -> ~ In 47 name -> ends_slash f = false -> starts_slash (tl f) = false ->
  t <> [] -> starts_slash t = false -> (forall c r, t = c :: r -> 32 < c) -> (forall c, In c t -> ~ In c [9; 10; 13; 35; 58; 63; 92]) -> absolute w (f ++ lit "/" ++ t) ->
  construct w t (Some b) = (Ok (at_path b (clean_path w (f ++ lit "/" ++ t))), Some (at_path b (clean_path w (f ++ lit "/" ++ t)))).
Proof. intros D U UF S H K FI PN N F F2 T TS TH V A. apply (relative_path w b f name t); try assumption. now apply avoids_in. Qed.
Print Assumptions c38_relative_path.
Example c38_relative_path_case : u_pathname url0 = lit "/a" ++ lit "/" ++ lit "b.svg" /\ construct web0 (lit "../c/d") (Some url0) = (Ok (at_path url0 (lit "/c/d")), Some (at_path url0 (lit "/c/d"))).
Proof. vm_compute. now split. Qed.
(* so the base is changed *)
Theorem c38_base_refuted : exists w t b u b', construct w t (Some b) = (Ok u, Some b') /\ snd (tostring b') <> snd (tostring b).
Proof. exists web0, (lit "c"), url0, (at_path url0 (lit "/a/c")), (at_path url0 (lit "/a/c")). split; [vm_compute; reflexivity|vm_compute; discriminate]. Qed.
Print Assumptions c38_base_refuted.
(* a query after a path from the root becomes part of the path; a reference with a host takes no scheme from the base *)
Theorem c38_reference_refuted : exists w b u v b', construct w (lit "/c?y=1") (Some b) = (Ok u, Some b') /\ get_search u = [] /\ get_pathname u = lit "/c%3Fy=1" /\
  construct w (lit "//h/p") (Some b) = (Ok v, Some b) /\ u_protocol v = [] /\ snd (tostring v) = lit "/p".
Proof. exists web0, url0, (at_path url0 (lit "/c%3Fy=1")), (fst (parse_url web0 blank (lit "//h/p"))), (at_path url0 (lit "/c%3Fy=1")). vm_compute. now repeat split. Qed.
Print Assumptions c38_reference_refuted.

(** ** C54: paths *)
(* a path from the root is stored without ".", ".." and empty segments: those left after each ".." has removed the segment before it *)
Theorem c54_path w u t v : ~ In (u_protocol u) [lit "about:"; lit "blob:"; lit "data:"] -> t <> [] -> absolute w t -> set_comp w CPathname u t = (v, None) ->
  normal_path (get_comp CPathname v) /\
  exists lead segs trail, get_comp CPathname v = lead ++ join (lit "/") (map (quote (lit "&/:;=@[]_~")) segs) ++ trail /\ (lead = lit "/" \/ lead = lit "//") /\ (trail = [] \/ trail = lit "/") /\
    Forall plain_segment segs /\ shortens (split_on 47 (fix_backslash (unquote w t))) segs.
Proof.
  intros O T A. cbn [set_comp get_comp]. assert (Q : opaque (u_protocol u) = false) by (apply Bool.not_true_iff_false; rewrite opaque_in; exact O).
  assert (M : mem (u_protocol u) [lit "blob:"; lit "data:"] = false) by (apply mem_not_in; intros I; apply O; cbn in *; tauto).
  pose proof (clean_path_normal w t A) as N. pose proof (normal_starts _ N) as SS. unfold set_pathname. destruct t as [|c t]; [contradiction|]. destruct (_ && _); [discriminate|]. rewrite M, Q, SS. cbn [negb andb].
  intros [= <-]. unfold get_pathname. cbn [with_pathname u_protocol u_pathname]. rewrite Q, SS. cbn [negb andb]. split; [exact N|apply clean_path_shortens, A].
Qed.
Print Assumptions c54_path.
Example c54_path_case : absolute web0 (lit "/a/./b//%2E%2E/c d/") /\ get_comp CPathname (fst (set_comp web0 CPathname url0 (lit "/a/./b//%2E%2E/c d/"))) = lit "/a/c%20d/".
Proof. split; [eexists; left; vm_compute; reflexivity|vm_compute; reflexivity]. Qed.
(* normalising a normal path changes nothing *)
Theorem c54_settled w u t v : decodes w -> unicode t -> ~ In (u_protocol u) [lit "about:"; lit "blob:"; lit "data:"] -> absolute w t -> set_comp w CPathname u t = (v, None) -> set_comp w CPathname v (get_comp CPathname v) = (v, None).
Proof.
  intros D U O A E. cbn [set_comp get_comp] in *. destruct (settle_path w u t v D U O A E) as [P S]. pose proof (normal_starts _ (clean_path_normal w t A)) as SS. rewrite <- P in SS.
  unfold get_pathname. destruct (set_pathname_frame w u t) as (p & F). rewrite E in F. cbn [fst] in F. replace (u_protocol v) with (u_protocol u) by now rewrite F.
  replace (opaque (u_protocol u)) with false by (symmetry; apply Bool.not_true_iff_false; rewrite opaque_in; exact O). rewrite SS. exact S.
Qed.
Print Assumptions c54_settled.
Theorem c54_normpath_idempotent p : normpath (normpath p) = normpath p.
Proof. apply normpath_idem. Qed.
Print Assumptions c54_normpath_idempotent.
Example c54_normpath_case : normpath (lit "../a/../..//b/.") = lit "../../b" /\ normpath (lit "//a/..") = lit "//".
Proof. vm_compute. now split. Qed.
(* other paths are normalised before the slash is put in front *)
Theorem c54_relative_refuted : exists w u t, ~ normal_path (get_comp CPathname (fst (set_comp w CPathname u t))) /\ get_comp CPathname (fst (set_comp w CPathname u t)) = lit "/../b".
Proof.
  exists web0, url0, (lit "../b"). assert (E : get_comp CPathname (fst (set_comp web0 CPathname url0 (lit "../b"))) = lit "/../b") by (vm_compute; reflexivity). split; [|exact E]. rewrite E.
  intros (l & s & t & H & L & S & T). assert (X : In (lit "..") (split_on 47 (lit "/../b"))) by (vm_compute; tauto). rewrite H in X.
  assert (NJ : forall s, Forall plain_segment s -> forall x, In x (split_on 47 (join (lit "/") s)) -> x = [] \/ plain_segment x).
  { intros s' S' x I. destruct s' as [|a b]; [destruct I as [<-|[]]; now left|]. rewrite (split_on_join 47) in I; [right; rewrite Forall_forall in S'; now apply S'|discriminate|].
    apply comp_free. eapply Forall_impl; [|exact S']. intros y (_ & _ & _ & Z). exact Z. }
  assert (SL : forall t, In (lit "..") (split_on 47 (47 :: t)) -> In (lit "..") (split_on 47 t)) by (intros z I; rewrite split_on_cons_sep in I; destruct I as [I|I]; [discriminate I|exact I]).
  assert (ST : forall t, In (lit "..") (split_on 47 (t ++ [47])) -> In (lit "..") (split_on 47 t)) by (intros z I; rewrite split_on_trail in I; apply in_app_or in I as [I|[I|[]]]; [exact I|discriminate I]).
  assert (Y : In (lit "..") (split_on 47 (join (lit "/") s))).
  { assert (X1 : In (lit "..") (split_on 47 (join (lit "/") s ++ t))) by (destruct L as [->| ->]; [exact (SL _ X)|exact (SL _ (SL _ X))]). destruct T as [->| ->]; [now rewrite app_nil_r in X1|exact (ST _ X1)]. }
  destruct (NJ s S _ Y) as [Z|(_ & _ & Z & _)]; [discriminate Z|now apply Z].
Qed.
Print Assumptions c54_relative_refuted.
