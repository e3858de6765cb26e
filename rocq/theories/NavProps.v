(** C71: a location and the document it navigates. *)
From Coq Require Import Lia Bool List.
From Verif Require Import PyBase PyText PyCase PyDict PySplit UrlModel UrlSpec UrlProofs UrlProofs2 UrlProofs3 UrlProofs4 UrlProps NavModel NavSpec NavProofs.
Import ListNotations.
#[local] Open Scope N_scope.

(** A web for the examples: every http page is its address, files are missing. *)
Definition net0 : net text := mkNet plain_web (lit "file:///work") (fun a => if text_eqb (firstn 5 a) (lit "http:") then Ok a else Err OtherError).
Definition world0 : world text := new_world net0 (lit "<svg>").
Definition tab0 : tab text := mkTab url0 (Some (lit "old")) true.

(** ** What is shown *)
(* an attempt that raises nothing leaves the document with what its location now leads to *)
Theorem c71_shows {A} (n : net A) w x o p w' : asks o = true -> place_of w x = Some p -> world_step n w (WLoc x o) = (w', None) ->
  exists t', tab_at w' p = Some t' /\ shows n t' /\ visitable (t_url t').
Proof.
  intros K P E. destruct (place_tab w x p P) as [t T]. rewrite (step_loc n w x o p t P T) in E. destruct (loc_step n t o) as [t' e] eqn:L. cbn [fst snd] in E. injection E as <- ->.
  exists t'. split; [now apply (tab_put_same w p t)|]. destruct (loc_shows n t o t' K L) as (S & V & _). now split.
Qed.
Print Assumptions c71_shows.
Example c71_shows_case : let '(w', e) := world_step net0 world0 (WLoc Win (LMove (lit "http://h/a/../b.svg#v"))) in
  e = None /\ t_root (w_main w') = Some (lit "http://h/b.svg#v") /\ href (t_url (w_main w')) = lit "http://h/b.svg#v".
Proof. vm_compute. now repeat split. Qed.
(* and it stays so whatever is done with other locations and documents, and however often the location is read *)
Theorem c71_stays {A} (n : net A) w x o p ops w' es : asks o = true -> place_of w x = Some p -> snd (world_step n w (WLoc x o)) = None ->
  all_elsewhere n (fst (world_step n w (WLoc x o))) p ops -> world_run n w (WLoc x o :: ops) = (w', es) ->
  exists t', tab_at w' p = Some t' /\ shows n t'.
Proof.
  intros K P E EL R. cbn [world_run] in R. destruct (world_step n w (WLoc x o)) as [w1 e] eqn:ST. cbn [fst snd] in *. subst e.
  destruct (c71_shows n w x o p w1 K P ST) as (t1 & T1 & S1 & _). destruct (elsewhere_run n ops w1 p t1 T1 EL) as (t2 & T2 & R2 & L2).
  destruct (world_run n w1 ops) as [w2 es2]. cbn [fst] in T2. injection R as <- _. exists t2. split; [exact T2|]. now apply (shows_same n t1).
Qed.
Print Assumptions c71_stays.
Example c71_stays_case : let ops := [WNew true None; WView (Some (lit "v")); WLoc (Doc 0) (LHref (lit "http://k/")); WLoc Win LRead; WRoot (Doc 1) None; WLoc (Doc 0) (LPart PHash (lit "z"))] in
  all_elsewhere net0 (fst (world_step net0 world0 (WLoc Win (LHref (lit "http://h/a"))))) Main ops /\
  (let '(w', es) := world_run net0 world0 (WLoc Win (LHref (lit "http://h/a")) :: ops) in
   t_root (w_main w') = Some (lit "http://h/a") /\ map (fun d => match d with Alone t => t_root t | Viewed r => r end) (w_docs w') = [Some (lit "http://k/#z"); None]).
Proof. split; [cbn [all_elsewhere elsewhere]; repeat split; vm_compute; discriminate|vm_compute; now split]. Qed.

(* every outcome, once the URL has been set: nowhere to go, an empty document, the page, or the failure of fetching it *)
Theorem c71_outcome {A} (n : net A) (t : tab A) :
  (forall p c v u, names p c -> set_comp (n_web n) c (t_url t) v = (u, None) -> arrival n t u (fst (loc_step n t (LPart p v))) (snd (loc_step n t (LPart p v)))) /\
  (forall p c v u e, names p c -> set_comp (n_web n) c (t_url t) v = (u, Some e) -> loc_step n t (LPart p v) = (mkTab u (t_root t) (t_impl t), Some e)) /\
  (forall v u, parse_url (n_web n) blank v = (u, None) -> arrival n t u (fst (loc_step n t (LHref v))) (snd (loc_step n t (LHref v)))) /\
  (forall v e, snd (parse_url (n_web n) blank v) = Some e -> snd (loc_step n t (LHref v)) = Some e /\ t_root (fst (loc_step n t (LHref v))) = t_root t) /\
  (forall v, loc_step n t (LAssign v) = loc_step n t (LHref v)) /\
  arrival n t (t_url t) (fst (loc_step n t LReload)) (snd (loc_step n t LReload)).
Proof.
  split; [|split; [|split; [|split; [|split]]]].
  - intros p c v u NM E. assert (comp_of p = c) as X by (destruct NM; reflexivity). cbn [loc_step]. unfold set_part. rewrite X, E. apply moved_arrives.
  - intros p c v u e NM E. assert (comp_of p = c) as X by (destruct NM; reflexivity). cbn [loc_step]. unfold set_part. now rewrite X, E.
  - intros v u E. cbn [loc_step]. unfold set_href. destruct (parse_url_same (n_web n) blank (t_url t) v) as [_ S]. rewrite E in S. rewrite <- (S eq_refl). apply moved_arrives.
  - intros v e E. cbn [loc_step]. unfold set_href. destruct (parse_url_same (n_web n) blank (t_url t) v) as [S _]. rewrite E in S.
    destruct (parse_url (n_web n) (t_url t) v) as [u e']. cbn [snd] in S. subst e'. now split.
  - reflexivity.
  - apply go_arrives.
Qed.
Print Assumptions c71_outcome.
Example c71_outcome_case :
  let at_ o := let '(t, e) := loc_step net0 tab0 o in (href (t_url t), t_root t, e) in
  at_ (LPart PPort (lit "81")) = (lit "http://u:p@example.com:81/a/b.svg?k=v+w#f", Some (lit "http://u:p@example.com:81/a/b.svg?k=v+w#f"), None) /\
  at_ (LPart PPort (lit "x")) = (href url0, Some (lit "old"), Some ValueError) /\
  at_ (LPart PProtocol (lit "about")) = (lit "about:u:p@example.com:8080a/b.svg?k=v+w#f", None, None) /\
  at_ (LHref (lit "file:///a.svg")) = (lit "file:///a.svg", None, Some OtherError) /\
  at_ (LHref (lit "data:,x")) = (lit "data:,x", Some (lit "old"), Some ValueError) /\
  at_ (LHref (lit "x")) = (href url0, Some (lit "old"), Some ValueError).
Proof. vm_compute. now repeat split. Qed.
Theorem c71_outcome_one {A} (n : net A) t u t1 e1 t2 e2 : arrival n t u t1 e1 -> arrival n t u t2 e2 -> t1 = t2 /\ e1 = e2.
Proof. apply arrival_fun. Qed.
Print Assumptions c71_outcome_one.

(* the window starts at about:blank with its root, and so does a document made without it; one made for it shares its location *)
Theorem c71_start {A} (n : net A) svg impl r w : decodes (n_web n) ->
  (exists t, tab_at (new_world n svg) Main = Some t /\ href (t_url t) = lit "about:blank" /\ t_root t = Some svg /\ t_impl t = true /\ forall i, place_of (new_world n svg) (Doc i) = None) /\
  (exists w' t, world_step n w (WNew impl r) = (w', None) /\ place_of w' (Doc (length (w_docs w))) = Some (Own (length (w_docs w))) /\ tab_at w' (Own (length (w_docs w))) = Some t /\
    href (t_url t) = lit "about:blank" /\ t_root t = r /\ t_impl t = impl) /\
  (exists w', world_step n w (WView r) = (w', None) /\ place_of w' (Doc (length (w_docs w))) = Some Main /\ tab_at w' Main = tab_at w Main).
Proof.
  intros D. pose proof (about_blank_is _ D) as B. assert (H : href (about_blank (n_web n)) = lit "about:blank") by (unfold about_blank; rewrite B; vm_compute; reflexivity).
  split; [|split].
  - eexists. split; [reflexivity|]. split; [exact H|]. split; [reflexivity|]. split; [reflexivity|]. now intros [|i].
  - eexists _, _. split; [reflexivity|]. cbn [place_of tab_at w_docs]. rewrite nth_error_app2, Nat.sub_diag by reflexivity. split; [reflexivity|]. split; [reflexivity|]. split; [exact H|]. now split.
  - eexists. split; [reflexivity|]. cbn [place_of tab_at w_docs w_main]. rewrite nth_error_app2, Nat.sub_diag by reflexivity. now split.
Qed.
Print Assumptions c71_start.
Example c71_start_case : href (t_url (w_main world0)) = lit "about:blank" /\ t_root (w_main world0) = Some (lit "<svg>") /\ place_of (fst (world_step net0 world0 (WNew true None))) (Doc 0) = Some (Own 0).
Proof. vm_compute. now repeat split. Qed.

(** ** What is left alone *)
(* nothing changes but the location used and the document it navigates: not the other documents, not those that share the window's location *)
Theorem c71_apart {A} (n : net A) w x o p w' e : place_of w x = Some p -> world_step n w (WLoc x o) = (w', e) ->
  (forall q, q <> p -> tab_at w' q = tab_at w q) /\ length (w_docs w') = length (w_docs w) /\
  (forall i r, nth_error (w_docs w) i = Some (Viewed r) -> nth_error (w_docs w') i = Some (Viewed r)) /\ (p <> Main -> w_main w' = w_main w).
Proof.
  intros P E. destruct (place_tab w x p P) as [t T]. rewrite (step_loc n w x o p t P T) in E. injection E as <- _.
  split; [|split; [|split]].
  - intros q Q. apply tab_put_other. congruence.
  - destruct p; [reflexivity|]. apply put_length.
  - intros i r V. destruct p as [|j]; [exact V|]. cbn [tab_put w_docs]. destruct (Nat.eq_dec j i) as [-> | D]; [|now rewrite put_other].
    cbn in T. rewrite V in T. discriminate.
  - intros Q. destruct p; [congruence|reflexivity].
Qed.
Print Assumptions c71_apart.
(* an attribute that refuses its value leaves everything as it was, but for the host, of which the name may have been taken (C38) *)
Theorem c71_refused {A} (n : net A) w x p c v q t e : names p c -> p <> PHost -> p <> PHostname -> place_of w x = Some q -> tab_at w q = Some t ->
  snd (set_comp (n_web n) c (t_url t) v) = Some e -> world_step n w (WLoc x (LPart p v)) = (w, Some e).
Proof.
  intros NM H1 H2 P T E. assert (comp_of p = c) as X0 by (destruct NM; reflexivity). rewrite <- X0 in E. rewrite (step_loc n w x (LPart p v) q t P T). cbn [loc_step]. unfold set_part.
  pose proof (c38_refused (n_web n) (comp_of p) (t_url t) v e) as R. assert (X : fst (set_comp (n_web n) (comp_of p) (t_url t) v) = t_url t) by (apply R; [destruct p; cbn; congruence..|exact E]).
  destruct (set_comp (n_web n) (comp_of p) (t_url t) v) as [u e']. cbn [fst snd] in *. subst. cbn [moved fst snd]. f_equal.
  replace (mkTab (t_url t) (t_root t) (t_impl t)) with t by now destruct t.
  destruct q as [|i]; cbn in *; [injection T as <-; now destruct w|]. destruct (nth_error (w_docs w) i) as [[s|r]|] eqn:N; try discriminate. injection T as <-.
  destruct w as [m ds]. cbn in *. f_equal. clear - N. revert i N. induction ds as [|d ds IH]; intros [|i] N; cbn in *; try discriminate; [congruence|]. f_equal. now apply IH.
Qed.
Print Assumptions c71_refused.
Example c71_refused_case : snd (set_comp plain_web CPort url0 (lit "99999")) = Some ValueError /\ place_of world0 Win = Some Main.
Proof. vm_compute. now split. Qed.
(* a reference that is no URL either leaves everything but the host's note *)
Theorem c71_move_refused {A} (n : net A) (t : tab A) src e : normalize_url n src (href (t_url t)) = Err e ->
  snd (loc_step n t (LMove src)) = Some e /\ t_root (fst (loc_step n t (LMove src))) = t_root t /\ href (t_url (fst (loc_step n t (LMove src)))) = href (t_url t) /\
  forall o, loc_step n (fst (loc_step n t (LMove src))) o = loc_step n (fst (loc_step n t LRead)) o.
Proof. intros E. cbn [loc_step]. unfold move_to. rewrite E. cbn [fst snd t_root t_url]. split; [reflexivity|]. split; [reflexivity|]. split; [apply href_look|]. reflexivity. Qed.
Print Assumptions c71_move_refused.
Example c71_move_refused_case : normalize_url net0 (lit "http://:80/") (href url0) = Err TypeError.
Proof. vm_compute. reflexivity. Qed.

(** ** Ways to the same place *)
(* href does not depend on the URL before *)
Theorem c71_href_fresh {A} (n : net A) (t t' : tab A) v : snd (parse_url (n_web n) blank v) = None -> t_root t = t_root t' -> t_impl t = t_impl t' ->
  loc_step n t (LHref v) = loc_step n t' (LHref v).
Proof.
  intros E R I. cbn [loc_step]. unfold set_href.
  destruct (parse_url_same (n_web n) blank (t_url t) v) as [_ S1]. destruct (parse_url_same (n_web n) blank (t_url t') v) as [_ S2]. rewrite <- (S1 E), <- (S2 E). now apply moved_again.
Qed.
Print Assumptions c71_href_fresh.
(* reloading what is shown changes nothing, nor does giving an attribute the value it has *)
Theorem c71_reload {A} (n : net A) (t : tab A) : shows n t -> visitable (t_url t) -> t_impl t = true -> loc_step n t LReload = loc_step n t LRead.
Proof.
  intros S V I. cbn [loc_step]. unfold reload. pose proof (go_arrives n t) as G. destruct (go n t) as [t' e]. cbn [fst snd] in G.
  destruct S as [[P R] | (P & p & F & R)]; inversion G; subst; try contradiction; try congruence; rewrite R; congruence.
Qed.
Print Assumptions c71_reload.
Theorem c71_same_value {A} (n : net A) (t : tab A) p c : names p c -> stable (n_web n) (t_url t) -> loc_step n t (LPart p (get_comp c (t_url t))) = loc_step n t LReload.
Proof. intros NM S. assert (comp_of p = c) as <- by (destruct NM; reflexivity). cbn [loc_step]. unfold set_part. rewrite S. unfold reload. now destruct t. Qed.
Print Assumptions c71_same_value.
Example c71_reload_case : let t := fst (loc_step net0 tab0 LReload) in shows net0 t /\ visitable (t_url t) /\ stable plain_web (t_url t).
Proof.
  split; [right; split; [vm_compute; discriminate|eexists; vm_compute; now split]|]. split; [apply no_page_visitable; vm_compute; reflexivity|].
  change (stable web0 url0). exact url0_stable.
Qed.
(* assigning the attribute location: a URL goes where href goes, *)
Theorem c71_move_url_partial {A} (n : net A) (t : tab A) src u : stable (n_web n) (t_url t) -> hierarchical (t_url t) -> carried (t_url t) ->
  parse_url (n_web n) blank src = (u, None) -> stable (n_web n) u -> hierarchical u -> carried u -> loc_step n t (LMove src) = loc_step n t (LHref src).
Proof.
  intros St Ht Ct P S H C. destruct (stable_href _ _ St Ht) as [NE NA]. apply (move_url n t src u); [exact P|now apply c38_roundtrip| |]; rewrite NA.
  - pose proof (c38_roundtrip _ _ St Ht Ct) as R. unfold href. now rewrite R.
  - exact NE.
Qed.
Print Assumptions c71_move_url_partial.
Example c71_move_url_case : let u := fst (parse_url plain_web blank (lit "http://other/x")) in snd (parse_url plain_web blank (lit "http://other/x")) = None /\ stable plain_web u /\ hierarchical u /\
  fst (loc_step net0 tab0 (LMove (lit "http://other/x"))) = mkTab u (Some (lit "http://other/x")) true.
Proof. split; [vm_compute; reflexivity|]. split; [intros []; vm_compute; reflexivity|]. split; [split; [discriminate|cbn; intuition discriminate]|vm_compute; reflexivity]. Qed.
(* the location's own text reloads, *)
Theorem c71_move_self {A} (n : net A) (t : tab A) : stable (n_web n) (t_url t) -> hierarchical (t_url t) -> carried (t_url t) -> loc_step n t (LMove (href (t_url t))) = loc_step n t LReload.
Proof.
  intros St Ht Ct. pose proof (c38_roundtrip _ _ St Ht Ct) as R. rewrite (c71_move_url_partial n t (href (t_url t)) (t_url t)) by assumption.
  cbn [loc_step]. unfold set_href. destruct (parse_url_same (n_web n) blank (t_url t) (href (t_url t))) as [_ S]. unfold href in S at 1 2. rewrite R in S. rewrite <- (S eq_refl).
  cbn [moved]. unfold reload. now destruct t.
Qed.
Print Assumptions c71_move_self.
(* and a path goes to that path at the location's host: from its root, *)
Theorem c71_move_root {A} (n : net A) (t : tab A) r : let w := n_web n in let b := t_url t in
  decodes w -> unicode r -> stable w b -> hierarchical b -> carried b -> starts_slash r = false -> absolute w (47 :: r) -> (forall c, In c r -> ~ In c [9; 10; 13; 92]) ->
  arrival n t (at_path b (clean_path w (47 :: r))) (fst (loc_step n t (LMove (47 :: r)))) (snd (loc_step n t (LMove (47 :: r)))).
Proof.
  intros w b D U S H C SL AB AV. subst w b. destruct (stable_href _ _ S H) as [NE NA].
  pose proof (c38_absolute_path _ _ r D U S H C SL AB AV) as K.
  apply move_text; [exact NA|exact NE|now apply c38_roundtrip|now rewrite K|].
  eapply construct_text_again; [|apply hier_opaque; exact H|exact K]. apply slash_no_url; [now exists r|].
  apply avoids_in. intros c [<- | I]; [cbn; intuition discriminate|]. specialize (AV c I). cbn in *. tauto.
Qed.
Print Assumptions c71_move_root.
(* or beside its document *)
Theorem c71_move_beside {A} (n : net A) (t : tab A) f name src : let w := n_web n in let b := t_url t in
  decodes w -> unicode src -> unicode f -> stable w b -> hierarchical b -> carried b -> u_protocol b <> lit "file:" ->
  u_pathname b = f ++ lit "/" ++ name -> ~ In 47 name -> ends_slash f = false -> starts_slash (tl f) = false ->
  src <> [] -> starts_slash src = false -> (forall c r, src = c :: r -> 32 < c) -> (forall c, In c src -> ~ In c [9; 10; 13; 35; 58; 63; 92]) -> absolute w (f ++ lit "/" ++ src) ->
  arrival n t (at_path b (clean_path w (f ++ lit "/" ++ src))) (fst (loc_step n t (LMove src))) (snd (loc_step n t (LMove src))).
Proof.
  intros w b D U UF S H C NF P N EF SF NE0 SL HD AV AB. subst w b. destruct (stable_href _ _ S H) as [NE NA].
  pose proof (c38_relative_path _ _ f name src D U UF S H C NF P N EF SF NE0 SL HD AV AB) as K.
  apply move_text; [exact NA|exact NE|now apply c38_roundtrip|now rewrite K|].
  eapply construct_text_again; [|apply hier_opaque; exact H|exact K]. apply name_no_url; try assumption.
  apply avoids_in. intros c I. specialize (AV c I). cbn in *. tauto.
Qed.
Print Assumptions c71_move_beside.
Example c71_move_beside_case : let at_ src := let '(t, e) := loc_step net0 tab0 (LMove src) in (t_root t, e) in
  u_pathname url0 = lit "/a" ++ lit "/" ++ lit "b.svg" /\
  at_ (lit "../c.svg") = (Some (lit "http://u:p@example.com:8080/c.svg"), None) /\ at_ (lit "d/e.svg") = (Some (lit "http://u:p@example.com:8080/a/d/e.svg"), None) /\
  at_ (lit "/x//y") = (Some (lit "http://u:p@example.com:8080/x/y"), None).
Proof. vm_compute. now repeat split. Qed.
(* without a document yet, beside the current folder *)
Example c71_move_blank : href (t_url (fst (loc_step net0 (w_main world0) (LMove (lit "a.svg"))))) = lit "file:///a.svg" /\
  let dir := mkNet (mkWeb (unquote plain_web) (idna plain_web) (fun _ => true)) (lit "file:///work") (n_fetch net0) in
  href (t_url (fst (loc_step dir (w_main (new_world dir (lit "<svg>"))) (LMove (lit "a.svg"))))) = lit "file:///work/a.svg".
Proof. vm_compute. now split. Qed.
(* file: URLs are never without a page, though a check asks it *)
Theorem c71_file u : u_protocol u = lit "file:" -> visitable u.
Proof. intros E. unfold visitable. rewrite E. repeat split; try discriminate; intros [X _]; discriminate. Qed.
Print Assumptions c71_file.

(** ** Where location and document part *)
(* a URL without a page is refused, but the location keeps it *)
Theorem c71_nowhere_refuted : exists (n : net text) t o t', shows n t /\ loc_step n t o = (t', Some ValueError) /\ t_root t' = t_root t /\ href (t_url t') <> href (t_url t) /\ ~ shows n t'.
Proof.
  exists net0, (fst (loc_step net0 tab0 LReload)), (LHref (lit "data:,x")). eexists. split; [apply c71_reload_case|]. split; [vm_compute; reflexivity|]. split; [vm_compute; reflexivity|].
  split; [vm_compute; discriminate|]. intros [[P _] | (_ & p & F & _)]; [vm_compute in P; discriminate|vm_compute in F; discriminate].
Qed.
Print Assumptions c71_nowhere_refuted.
(* a page that cannot be fetched leaves no document *)
Theorem c71_failed_refuted : exists (n : net text) t o t' e, shows n t /\ loc_step n t o = (t', Some e) /\ t_root t <> None /\ t_root t' = None /\ href (t_url t') <> href (t_url t).
Proof.
  exists net0, (fst (loc_step net0 tab0 LReload)), (LHref (lit "file:///a.svg")). eexists _, _. split; [apply c71_reload_case|]. split; [vm_compute; reflexivity|]. vm_compute. repeat split; discriminate.
Qed.
Print Assumptions c71_failed_refuted.
(* a fragment is fetched as if it were another page *)
Theorem c71_fragment_refuted : exists (n : net text) t v t', shows n t /\ loc_step n t (LPart PHash v) = (t', None) /\ t_root t' <> t_root t /\
  firstn (length (href (t_url t)) - 1) (href (t_url t')) = firstn (length (href (t_url t)) - 1) (href (t_url t)).
Proof.
  exists net0, (fst (loc_step net0 tab0 LReload)), (lit "g"). eexists. split; [apply c71_reload_case|]. split; [vm_compute; reflexivity|]. split; [vm_compute; discriminate|vm_compute; reflexivity].
Qed.
Print Assumptions c71_fragment_refuted.
(* a location that lost its scheme, though the setter raised, cannot be left by way of the attribute location, but by href *)
Theorem c71_stuck_refuted : exists (n : net text) w w', world_step n w (WLoc Win (LPart PProtocol [])) = (w', Some ValueError) /\ w = world0 /\
  (forall src, snd (world_step n w' (WLoc Win (LMove src))) = Some ValueError) /\ snd (world_step n w' (WLoc Win (LHref (lit "http://h/a")))) = None.
Proof.
  exists net0, world0. eexists. split; [vm_compute; reflexivity|]. split; [reflexivity|]. split; [|vm_compute; reflexivity].
  intros src. rewrite (step_loc _ _ Win (LMove src) Main _ eq_refl eq_refl). cbn [snd loc_step w_main]. unfold move_to, normalize_url. 
  match goal with |- context [href ?u] => let h := eval vm_compute in (href u) in change (href u) with h end. reflexivity.
Qed.
Print Assumptions c71_stuck_refuted.
(* a URL that starts with its host is taken, but its path alone is fetched *)
Theorem c71_schemeless_refuted : exists (n : net text) t v t', loc_step n t (LHref v) = (t', None) /\ v = lit "//h/p" /\ get_host (t_url t') = lit "h" /\ t_root t' = Some (lit "/p").
Proof. exists (mkNet plain_web (lit "file:///work") (fun a => Ok a)), tab0, (lit "//h/p"). eexists. vm_compute. now repeat split. Qed.
Print Assumptions c71_schemeless_refuted.
(* a URL that is refused is taken for a path *)
Theorem c71_malformed_refuted : exists (n : net text) t src t', snd (parse_url (n_web n) blank src) = Some ValueError /\ src = lit "http://h:99999/x" /\
  loc_step n t (LMove src) = (t', None) /\ href (t_url t') = lit "http://u:p@example.com:8080/a/http:/h:99999/x".
Proof.
  exists net0, tab0, (lit "http://h:99999/x"), (fst (loc_step net0 tab0 (LMove (lit "http://h:99999/x")))).
  split; [vm_compute; reflexivity|]. split; [reflexivity|]. split; [vm_compute; reflexivity|vm_compute; reflexivity].
Qed.
Print Assumptions c71_malformed_refuted.
(* a document made for the window but not the window's: its location navigates the other *)
Theorem c71_viewed_refuted : exists (n : net text) w w' src, world_step n w (WLoc (Doc 0) (LMove src)) = (w', None) /\ nth_error (w_docs w) 0 = Some (Viewed (Some (lit "mine"))) /\
  w_docs w' = w_docs w /\ t_root (w_main w') = Some src /\ t_root (w_main w) <> Some src.
Proof.
  exists net0, (fst (world_step net0 world0 (WView (Some (lit "mine"))))). eexists _, (lit "http://h/a"). split; [vm_compute; reflexivity|]. vm_compute. repeat split. discriminate.
Qed.
Print Assumptions c71_viewed_refuted.
