(** C73: the style sheets of a document. *)
From Coq Require Import Lia.
From Verif Require NavModel NavProofs.
From Verif Require Import PyBase PyText PyDict PySplit UtilsModel UrlModel UrlSpec UrlProofs UrlProofs2 UrlProofs3 UrlProofs4 UrlProps TokenModel CascadeModel CascadeSpec CascadeProofs CascadeProps LoadModel LoadSpec LoadProofs LoadProps SheetsModel SheetsSpec SheetsProofs.
#[local] Open Scope N_scope.

(** A net that gives back the URLs asked for, apart from those of one host, and parsers that make one rule, with the encoding and the content. *)
Definition wire0 : wire := mkWire (fun u => if text_eqb (firstn 11 u) (lit "http://dead") then Err OtherError else Ok (u, [])) (fun _ b => Ok b).
Definition bytes0 (e : text) (b : body) : result (list rule) := match b with BBytes b => Ok [RStyle b [(e, ([], []))]] | _ => Err TypeError end.
Definition ctx0 (win : option (text -> bool)) : ctx := mkCtx win (Some (lit "http://h/d/page.svg")) web0 (lit "file:///") wire0 bytes0 (fun t => Ok [RStyle t []]) [ROther 0].
Definition pi_ (l : list (text * text)) : node := NPI (lit "xml-stylesheet") l.
Definition link_ (l : list (text * text)) : node := NElem (lit "link") l None [].
Definition style_ (l : list (text * text)) (t : string) : node := NElem (lit "style") l (Some (lit t)) [].
Definition at_ (k v : string) : text * text := (lit k, lit v).
Definition page0 : page := mkPage
  [NNote; pi_ [at_ "href" "a.css"; at_ "charset" "latin-1"]; NPI (lit "other") [at_ "href" "x.css"]; pi_ [at_ "href" "b.css"; at_ "alternate" "yes"]; pi_ [at_ "href" "#part"]; pi_ [at_ "href" "c.css"; at_ "media" "print"]]
  (NElem (lit "svg") [] None
    [NElem (lit "g") [] None [style_ [] "one"; link_ [at_ "rel" "preload stylesheet"; at_ "as" "style"; at_ "href" "../d.css"; at_ "title" "D"]];
     NNote; style_ [at_ "type" "text/x"] "two"; link_ [at_ "rel" "stylesheet"; at_ "href" "http://dead/e.css"]; style_ [at_ "media" "print"] "three"; link_ [at_ "rel" "alternate stylesheet"; at_ "href" "f.css"]]).

(** The list is the sheet of the user agent, then the sheets of exactly the nodes to be used, those before the root and then those of the tree, each in document order;
    and each is what its node says. *)
Theorem c73_sheets c p l : get_sheets c p = Ok l ->
  exists r, l = mkSheet OAgent (lit "text/css") None None [] (c_agent c) :: r /\ ascending precedes (map s_owner l) /\
    (forall o, In o (map s_owner r) <-> exists n, owns p o n /\ used c o n) /\
    (forall s, In s r -> exists n, owns p (s_owner s) n /\ sheet_for c n s).
Proof.
  intros H. destruct (page_in c p l H) as (r & -> & C). destruct (collect_in _ _ _ C) as [I1 I2]. exists r. split; [reflexivity|].
  assert (K : forall x s, In x (page_nodes p) -> node_sheet c x = Ok (Some s) -> s_owner s = fst x /\ used c (fst x) (snd x) /\ sheet_for c (snd x) s).
  { intros [o n] s I E. apply nodes_in in I. destruct I as [I _]. pose proof (node_outcome c o n (owns_agent p o n I)) as O. rewrite E in O. destruct O as (O1 & O2 & O3 & _). now repeat split. }
  assert (P : forall s, In s r -> exists n, owns p (s_owner s) n /\ used c (s_owner s) n /\ sheet_for c n s).
  { intros s I. apply I1 in I. destruct I as ([o n] & I & E). destruct (K _ _ I E) as (-> & U & F). apply nodes_in in I. exists n. cbn [fst snd] in *. tauto. }
  split; [|split].
  - cbn [map]. constructor.
    + intros o I. apply in_map_iff in I. destruct I as (s & <- & I). destruct (P s I) as (n & O & _). cbn [s_owner agent_sheet]. destruct (s_owner s); [contradiction|exact Logic.I|exact Logic.I].
    + eapply (collect_asc _ fst); [exact C| |apply nodes_asc]. intros x s I E. now destruct (K x s I E).
  - intros o. split.
    + intros I. apply in_map_iff in I. destruct I as (s & <- & I). destruct (P s I) as (n & O & U & _). now exists n.
    + intros (n & O & U). assert (I : In (o, n) (page_nodes p)) by (apply nodes_in; split; [exact O|]; destruct o; [exact Logic.I|exact Logic.I|exact (used_elem c path n U)]).
      destruct (I2 _ I) as [x E]. pose proof (node_outcome c o n (owns_agent p o n O)) as OC. rewrite E in OC. destruct x as [s|]; [|destruct OC; contradiction].
      destruct OC as (_ & _ & <- & _). apply in_map. apply I1. now exists (s_owner s, n).
  - intros s I. destruct (P s I) as (n & O & _ & F). now exists n.
Qed.
Print Assumptions c73_sheets.
Example c73_sheets_case :
  let show win := match get_sheets (ctx0 win) page0 with Ok l => map (fun s => (s_owner s, s_rules s)) l | Err _ => [] end in
  show None = [(OAgent, [ROther 0]); (OPI 1, [RStyle (lit "http://h/d/a.css") [(lit "latin-1", ([], []))]]); (OElem [0; 0]%nat, [RStyle (lit "one") []]);
               (OElem [0; 1]%nat, [RStyle (lit "http://h/d.css") [(lit "utf-8", ([], []))]]); (OElem [3%nat], [])] /\
  map fst (show (Some (fun _ => true))) = [OAgent; OPI 1; OPI 5; OElem [0; 0]%nat; OElem [0; 1]%nat; OElem [3%nat]; OElem [4%nat]].
Proof. split; vm_compute; reflexivity. Qed.
(* and this says all: there is one such list *)
Theorem c73_determined c p l r : get_sheets c p = Ok l -> ascending precedes (map s_owner (mkSheet OAgent (lit "text/css") None None [] (c_agent c) :: r)) ->
  (forall o, In o (map s_owner r) <-> exists n, owns p o n /\ used c o n) -> (forall s, In s r -> exists n, owns p (s_owner s) n /\ sheet_for c n s) ->
  l = mkSheet OAgent (lit "text/css") None None [] (c_agent c) :: r.
Proof.
  intros H HA HU HF. destruct (c73_sheets c p l H) as (r' & -> & HA' & HU' & HF'). f_equal. cbn [map] in HA, HA'. inversion HA as [|? ? _ A1]; inversion HA' as [|? ? _ A2]; subst.
  assert (E : map s_owner r' = map s_owner r) by (apply asc_unique; [exact A2|exact A1|]; intros o; now rewrite HU, HU').
  clear - E HF HF'. revert r E HF. induction r' as [|s' r' IH]; intros [|s r] E HF; try discriminate; [reflexivity|]. cbn [map] in E. injection E as E1 E2. f_equal.
  - destruct (HF' s' (or_introl eq_refl)) as (n' & O' & F'). destruct (HF s (or_introl eq_refl)) as (n & O & F). rewrite <- E1 in O. rewrite (owns_fun p _ n n' O O') in F. exact (sheet_for_fun c n' s' s E1 F' F).
  - apply IH; [intros x I; apply HF'; now right|exact E2|intros x I; apply HF; now right].
Qed.
Print Assumptions c73_determined.

(** The collection fails exactly where some node stops it, with the exception of the first that does. *)
Theorem c73_fails c p e : get_sheets c p = Err e <->
  exists o n, owns p o n /\ stops c o n e /\ forall o' n' e', owns p o' n' -> precedes o' o -> ~ stops c o' n' e'.
Proof.
  rewrite sheets_nodes. assert (K : (do l <- collect (node_sheet c) (page_nodes p); Ok (agent_sheet c :: l)) = Err e <-> collect (node_sheet c) (page_nodes p) = Err e).
  { destruct (collect _ _); cbn [bind]; split; congruence. }
  rewrite K, collect_err. clear K. split.
  - intros (a & [o n] & b & E & HA & F). assert (I : In (o, n) (page_nodes p)) by (rewrite E; apply in_or_app; right; now left).
    pose proof I as J. apply nodes_in in J. destruct J as [O _]. pose proof (node_outcome c o n (owns_agent p o n O)) as OC. rewrite F in OC.
    exists o, n. split; [exact O|]. split; [exact OC|]. intros o' n' e' O' PR ST.
    assert (I' : In (o', n') (page_nodes p)) by (apply nodes_in; split; [exact O'|]; destruct o'; [exact Logic.I|exact Logic.I|exact (stops_elem c path n' e' ST)]).
    assert (IA : In (o', n') a).
    { rewrite E in I'. apply in_app_or in I'. destruct I' as [I'|[I'|I']]; [exact I'|injection I' as -> _; exfalso; exact (precedes_irrefl _ PR)|]. exfalso.
      pose proof (nodes_asc p) as AS. rewrite E, map_app in AS. cbn [map fst] in AS. clear - AS PR I'. induction (map fst a) as [|z l IH]; cbn [app] in AS; inversion AS; subst; [|now apply IH].
      apply (precedes_asym o o'); [|exact PR]. match goal with X : forall y, In y _ -> _ |- _ => apply X end. now apply (in_map fst) in I'. }
    destruct (HA _ IA) as [s G]. pose proof (node_outcome c o' n' (owns_agent p o' n' O')) as OC'. rewrite G in OC'. destruct s; [destruct OC' as (_ & _ & _ & X)|destruct OC' as (_ & X)]; exact (X e' ST).
  - intros (o & n & O & ST & FI). assert (I : In (o, n) (page_nodes p)) by (apply nodes_in; split; [exact O|]; destruct o; [exact Logic.I|exact Logic.I|exact (stops_elem c path n e ST)]).
    apply in_split in I. destruct I as (a & b & E). exists a, (o, n), b. split; [exact E|]. split.
    + intros [o' n'] I. assert (I' : In (o', n') (page_nodes p)) by (rewrite E; apply in_or_app; now left). apply nodes_in in I'. destruct I' as [O' _].
      pose proof (nodes_asc p) as AS. rewrite E, map_app in AS. cbn [map fst] in AS. pose proof (asc_split _ _ _ _ AS o' (in_map fst _ _ I)) as PR.
      pose proof (node_outcome c o' n' (owns_agent p o' n' O')) as OC. destruct (node_sheet c (o', n')) as [s|e']; [now exists s|]. exfalso. exact (FI o' n' e' O' PR OC).
    + pose proof (node_outcome c o n (owns_agent p o n O)) as OC. destruct (node_sheet c (o, n)) as [[s|]|e']; [destruct OC as (_ & _ & _ & X); now elim (X e)|destruct OC as (_ & X); now elim (X e)|].
      now rewrite (stops_fun c o n e e' ST OC).
Qed.
Print Assumptions c73_fails.
Example c73_fails_case : let p := mkPage [] (NElem (lit "svg") [] None [style_ [] "one"; link_ [at_ "rel" "stylesheet"; at_ "href" "data:text/css,a"]; link_ [at_ "rel" "stylesheet"]]) in
  get_sheets (ctx0 None) p = Err TypeError /\ stops (ctx0 None) (OElem [2%nat]) (link_ [at_ "rel" "stylesheet"]) IndexError.
Proof.
  split; [vm_compute; reflexivity|]. left. split; [|reflexivity]. split; [reflexivity|]. split; [|right; now split]. split; [|split].
  - intros (v & E & I). injection E as <-. vm_compute in I. intuition discriminate.
  - left. exists (lit "stylesheet"). split; [reflexivity|]. vm_compute. now left.
  - intros (v & E & I). injection E as <-. vm_compute in I. intuition discriminate.
Qed.
(* so where nothing stops it there is a list: sheets that cannot be reached do not *)
Theorem c73_total c p : (forall o n e, owns p o n -> ~ stops c o n e) -> exists l, get_sheets c p = Ok l.
Proof. intros H. destruct (get_sheets c p) as [l|e] eqn:E; [now exists l|]. apply c73_fails in E. destruct E as (o & n & O & S & _). exfalso. exact (H o n e O S). Qed.
Print Assumptions c73_total.

(** The rules of a document are those of its sheets, one sheet after the other, without those of media that do not hold. *)
Theorem c73_rules c p l : get_sheets c p = Ok l -> page_rules c p = Ok (concat (map (fun s => flatten (c_win c) (s_rules s)) l)).
Proof. intros H. unfold page_rules. rewrite H. cbn [bind]. now rewrite c44_sheets, map_map. Qed.
Print Assumptions c73_rules.
Example c73_rules_case : page_rules (ctx0 None) page0 = Ok [ROther 0; RStyle (lit "http://h/d/a.css") [(lit "latin-1", ([], []))]; RStyle (lit "one") []; RStyle (lit "http://h/d.css") [(lit "utf-8", ([], []))]].
Proof. vm_compute. reflexivity. Qed.
(** Nothing but the links and styles matters, nor how deep they are. *)
Theorem c73_others c p q l : p_prolog p = p_prolog q -> listed (p_root p) l -> listed (p_root q) l -> page_rules c p = page_rules c q /\
  (forall ss, get_sheets c p = Ok ss -> exists ss', get_sheets c q = Ok ss' /\ map unowned ss' = map unowned ss).
Proof.
  intros E H G. pose proof (tree_unowned c _ _ l H G) as T. unfold page_rules, get_sheets. rewrite E. destruct (prolog_sheets c (p_prolog q)) as [a|e]; cbn [bind]; [|now split].
  destruct (tree_sheets c (p_root p)) as [b|e], (tree_sheets c (p_root q)) as [b'|e']; cbn [rmap bind] in *; try discriminate T.
  - injection T as T. split.
    + f_equal. f_equal. cbn [map]. f_equal. rewrite !map_app. f_equal. assert (U : forall l, map s_rules l = map s_rules (map unowned l)) by (intros m; now rewrite map_map). now rewrite (U b), (U b'), T.
    + intros ss [= <-]. eexists. split; [reflexivity|]. cbn [map]. f_equal. rewrite !map_app. now f_equal.
  - injection T as ->. split; [reflexivity|]. discriminate.
Qed.
Print Assumptions c73_others.
Example c73_others_case : let l := [NElem (lit "style") [] (Some (lit "one")) []; NElem (lit "link") [at_ "rel" "stylesheet"] None []] in
  listed (NElem (lit "svg") [] None [NElem (lit "defs") [] None [style_ [] "one"]; NNote; link_ [at_ "rel" "stylesheet"]]) l /\
  listed (NElem (lit "svg") [] (Some (lit "x")) [NElem (lit "style") [] (Some (lit "one")) [NElem (lit "a") [] None []; link_ [at_ "rel" "stylesheet"]]]) l.
Proof.
  cbv zeta. split.
  - apply listed_other; [|discriminate|discriminate].
    apply (all_cons _ _ [NElem (lit "style") [] (Some (lit "one")) []] [NElem (lit "link") [at_ "rel" "stylesheet"] None []]).
    + apply listed_other; [|discriminate|discriminate]. apply (all_cons _ _ [NElem (lit "style") [] (Some (lit "one")) []] []); [|constructor]. apply listed_elem; [constructor|now right].
    + apply (all_cons _ _ []); [constructor|]. apply (all_cons _ _ [NElem (lit "link") [at_ "rel" "stylesheet"] None []] []); [|constructor]. apply listed_elem; [constructor|now left].
  - apply listed_other; [|discriminate|discriminate]. apply (all_cons _ _ [NElem (lit "style") [] (Some (lit "one")) []; NElem (lit "link") [at_ "rel" "stylesheet"] None []] []); [|constructor].
    apply listed_elem; [|now right]. apply (all_cons _ _ [] [NElem (lit "link") [at_ "rel" "stylesheet"] None []]).
    + apply listed_other; [constructor|discriminate|discriminate].
    + apply (all_cons _ _ [NElem (lit "link") [at_ "rel" "stylesheet"] None []] []); [|constructor]. apply listed_elem; [constructor|now left].
Qed.
(** The attribute sheet of a link or style is its sheet in the document's list. *)
Theorem c73_sheet c p l w name a t kids : get_sheets c p = Ok l -> at_way (p_root p) w (NElem name a t kids) -> name = lit "link" \/ name = lit "style" ->
  (forall s, element_sheet c (OElem w) (NElem name a t kids) = Ok (Some s) <-> In s l /\ s_owner s = OElem w) /\
  (element_sheet c (OElem w) (NElem name a t kids) = Ok None <-> ~ In (OElem w) (map s_owner l)).
Proof.
  intros H W N. destruct (c73_sheets c p l H) as (r & -> & _ & HU & HF). destruct (page_in c p _ H) as (r' & E' & C). injection E' as <-. destruct (collect_in _ _ _ C) as [I1 I2].
  assert (O : owns p (OElem w) (NElem name a t kids)) by exact W.
  assert (I : In (OElem w, NElem name a t kids) (page_nodes p)) by (apply nodes_in; split; [exact O|exact Logic.I]).
  pose proof (node_outcome c (OElem w) (NElem name a t kids) (fun X => ltac:(discriminate X))) as OC.
  assert (E : node_sheet c (OElem w, NElem name a t kids) = element_sheet c (OElem w) (NElem name a t kids)).
  { unfold node_sheet. cbn [fst snd named]. destruct N as [-> | ->]; reflexivity. }
  destruct (I2 _ I) as [x X]. rewrite E in *. rewrite X in *. split.
  - intros s. split.
    + intros [= ->]. destruct OC as (_ & _ & OC & _). split; [right; apply I1; exists (OElem w, NElem name a t kids); split; [exact I|now rewrite E]|exact OC].
    + intros [[<-|J] OW]; [discriminate OW|]. destruct (HF s J) as (n & O' & F). rewrite OW in O'. rewrite <- (owns_fun p (OElem w) _ _ O O') in F.
      destruct x as [s'|]; [|exfalso; destruct OC as [OC _]; apply OC; assert (J' : In (OElem w) (map s_owner r)) by (rewrite <- OW; now apply in_map);
        apply HU in J'; destruct J' as (n' & O'' & U); rewrite (owns_fun p (OElem w) _ _ O O''); exact U].
      destruct OC as (_ & F' & OW' & _). do 2 f_equal. apply (sheet_for_fun c (NElem name a t kids) s' s); [congruence|exact F'|exact F].
  - split.
    + intros [= ->]. destruct OC as [OC _]. intros [J|J]; [discriminate J|]. apply HU in J. destruct J as (n' & O'' & U). rewrite (owns_fun p (OElem w) _ _ O'' O) in U. contradiction.
    + intros J. destruct x as [s|]; [|reflexivity]. exfalso. apply J. right. apply HU. destruct OC as (U & _). now exists (NElem name a t kids).
Qed.
Print Assumptions c73_sheet.
Example c73_sheet_case : at_way (p_root page0) [3%nat] (link_ [at_ "rel" "stylesheet"; at_ "href" "http://dead/e.css"]) /\
  element_sheet (ctx0 None) (OElem [3%nat]) (link_ [at_ "rel" "stylesheet"; at_ "href" "http://dead/e.css"]) = Ok (Some (mkSheet (OElem [3%nat]) (lit "text/css") (Some (lit "http://dead/e.css")) None [] [])).
Proof. split; [eapply way_down; [reflexivity|constructor]|vm_compute; reflexivity]. Qed.

(** References are taken beside the document, *)
Theorem c73_beside c b f name t adv rs : let w := c_web c in c_uri c = Some (snd (tostring b)) ->
  decodes w -> unicode t -> unicode f -> stable w b -> hierarchical b -> carried b -> u_protocol b <> lit "file:" ->
  u_pathname b = f ++ lit "/" ++ name -> ~ In 47 name -> ends_slash f = false -> starts_slash (tl f) = false ->
  t <> [] -> starts_slash t = false -> (forall x r, t = x :: r -> 32 < x) -> (forall x, In x t -> ~ In x [9; 10; 13; 35; 58; 63; 92]) -> absolute w (f ++ lit "/" ++ t) ->
  (leads c t adv rs <-> fetched c (snd (tostring (at_path b (clean_path w (f ++ lit "/" ++ t))))) adv rs).
Proof.
  intros w UR D U UF S H K NF PN N EF SF T TS TH V A. pose proof (c38_relative_path w b f name t D U UF S H K NF PN N EF SF T TS TH V A) as R.
  assert (NE : snd (tostring b) <> [] /\ ~ exists r, snd (tostring b) = lit "about:" ++ r).
  { pose proof (NavProofs.stable_href w b S H) as [X Y]. split; [exact X|]. intros Z. apply NavProofs.starts_about_spec in Z. unfold NavModel.href in Y. congruence. }
  assert (C : construct_text w t (snd (tostring b)) = Ok (at_path b (clean_path w (f ++ lit "/" ++ t)))).
  { unfold construct_text. destruct (snd (tostring b)) as [|x y] eqn:E; [now destruct NE|]. rewrite <- E. rewrite (c38_roundtrip w b S H K). now rewrite R. }
  split.
  - intros (b' & u & HB & HC & HF). unfold based in HB. rewrite UR in HB. destruct HB as [[Z _]|[_ ->]]; [now destruct NE|]. fold w in HC. rewrite C in HC. injection HC as <-. exact HF.
  - intros HF. exists (snd (tostring b)), (at_path b (clean_path w (f ++ lit "/" ++ t))). split; [|split; [exact C|exact HF]]. unfold based. rewrite UR. right. now split.
Qed.
Print Assumptions c73_beside.
Example c73_beside_case : let c := mkCtx None (Some (snd (tostring url0))) web0 (lit "file:///") wire0 bytes0 (fun t => Ok []) [] in
  u_pathname url0 = lit "/a" ++ lit "/" ++ lit "b.svg" /\ fetched c (lit "http://u:p@example.com:8080/c.css") None [RStyle (lit "http://u:p@example.com:8080/c.css") [(lit "utf-8", ([], []))]].
Proof. split; [vm_compute; reflexivity|]. left. exists (BBytes (lit "http://u:p@example.com:8080/c.css")), ci_empty. split; vm_compute; [reflexivity|now left]. Qed.
(** or in full, wherever the document is. *)
Theorem c73_full c h u adv rs : (exists b, based c b /\ snd (parse_url (c_web c) blank b) = None /\ b <> []) -> parse_url (c_web c) blank h = (u, None) -> (leads c h adv rs <-> fetched c (snd (tostring u)) adv rs).
Proof.
  intros (b & HB & PB & NB) P. assert (C : construct_text (c_web c) h b = Ok u).
  { unfold construct_text. destruct b as [|x y]; [contradiction|]. destruct (parse_url (c_web c) blank (x :: y)) as [bu [e|]]; [discriminate|]. now destruct (c38_base_partial (c_web c) h bu u P) as [-> _]. }
  split.
  - intros (b' & u' & HB' & HC & HF). rewrite (based_fun c b' b HB' HB), C in HC. injection HC as <-. exact HF.
  - intros HF. exists b, u. now split; [|split].
Qed.
Print Assumptions c73_full.
Example c73_full_case : based (ctx0 None) (lit "http://h/d/page.svg") /\ snd (parse_url web0 blank (lit "http://h/d/page.svg")) = None /\ snd (parse_url web0 blank (lit "http://k/s.css")) = None.
Proof. split; [right; split; [|reflexivity]; intros (r & E); discriminate|vm_compute; now split]. Qed.

(** The claim that a link without target is passed over is false: with one such link, or one instruction with an empty reference, no element of the document has any rules. *)
Theorem c73_no_target_refuted c p o n : owns p o n -> no_target o n -> exists e, get_sheets c p = Err e /\ page_rules c p = Err e.
Proof.
  intros O T. destruct (get_sheets c p) as [l|e] eqn:E; [|exists e; split; [reflexivity|]; unfold page_rules; now rewrite E]. exfalso.
  assert (I : In (o, n) (page_nodes p)) by (apply nodes_in; split; [exact O|]; destruct o; [exact Logic.I|exact Logic.I|destruct n; [exact Logic.I|contradiction|contradiction]]).
  destruct (page_in c p l E) as (r & _ & C). destruct (collect_in _ _ _ C) as [_ I2]. destruct (I2 _ I) as [x X]. pose proof (node_outcome c o n (owns_agent p o n O)) as OC. rewrite X in OC.
  assert (S : stops c o n IndexError) by (left; now split). destruct x; [destruct OC as (_ & _ & _ & OC)|destruct OC as (_ & OC)]; exact (OC _ S).
Qed.
Print Assumptions c73_no_target_refuted.
Example c73_no_target_case : no_target (OPI 0) (pi_ [at_ "href" ""]) /\ page_rules (ctx0 None) (mkPage [pi_ [at_ "href" ""]] (NElem (lit "svg") [] None [style_ [] "one"])) = Err IndexError.
Proof. split; [split; reflexivity|vm_compute; reflexivity]. Qed.
(** Nor is it true that the sheets that work are used when another does not: a data: URL of text loads as text, and where the parser of bytes refuses that, the collection ends. *)
Theorem c73_data_refuted : exists c p, (forall e t, c_bytes c e (BStr t) = Err TypeError) /\ p = mkPage [] (NElem (lit "svg") [] None [style_ [] "one"; link_ [at_ "rel" "stylesheet"; at_ "href" "data:text/css,a"]]) /\
  page_rules c p = Err TypeError.
Proof. exists (ctx0 None). eexists. split; [reflexivity|]. split; [reflexivity|]. vm_compute. reflexivity. Qed.
Print Assumptions c73_data_refuted.
(** The claim that only CSS is taken for CSS is false: the type of an instruction or a link is not looked at. *)
Theorem c73_type_refuted : exists c p rs, p_prolog p = [pi_ [at_ "type" "text/xsl"; at_ "href" "a.xsl"]] /\ page_rules c p = Ok (c_agent c ++ rs) /\ rs = [RStyle (lit "http://h/d/a.xsl") [(lit "utf-8", ([], []))]].
Proof. exists (ctx0 None), (mkPage [pi_ [at_ "type" "text/xsl"; at_ "href" "a.xsl"]] (NElem (lit "svg") [] None [])). eexists. split; [reflexivity|]. split; vm_compute; reflexivity. Qed.
Print Assumptions c73_type_refuted.
(** The claim that relations and media are read in either case is false, and that of the text of a style which a comment starts. *)
Theorem c73_case_refuted : exists c, c_win c = None /\
  page_rules c (mkPage [] (NElem (lit "svg") [] None [link_ [at_ "rel" "StyleSheet"; at_ "href" "a.css"]; style_ [at_ "media" "ALL"] "one"; NElem (lit "style") [] None [NNote]])) = Ok (c_agent c).
Proof. exists (ctx0 None). split; [reflexivity|]. vm_compute. reflexivity. Qed.
Print Assumptions c73_case_refuted.
