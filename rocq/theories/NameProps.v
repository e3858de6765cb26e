(** C79: names of attributes and elements. *)
From Coq Require Import Sorting.Permutation Sorting.Sorted Lia.
From Verif Require Import PyBase PyText PyDict UtilsModel UtilsSpec UtilsProofs UtilsProps AttrModel AttrSpec AttrProofs AttrProps NameModel NameSpec NameProofs.
#[local] Open Scope N_scope.

(** A namespace and a qualified name stand for one expanded name at most; every
    method reads the attribute of that name and refuses a pair that stands for
    none, leaving everything as it was. *)
Theorem c79_reading w e ns q v : reachable w ->
  (forall x, means ns q x ->
     get_attribute_ns w e ns q = Ok (lookup w e (clark x)) /\
     has_attribute_ns w e ns q = Ok (match lookup w e (clark x) with Some _ => true | None => false end) /\
     snd (set_attribute_ns w e ns q v) = Ok tt /\ snd (remove_attribute_ns w e ns q) = Ok tt /\
     (lookup w e (clark x) = None -> snd (get_attribute_node_ns w e ns q) = Ok None) /\
     (forall t, lookup w e (clark x) = Some t -> exists a w', get_attribute_node_ns w e ns q = (w', Ok (Some a)) /\
        belongs w' a e (clark x) /\ attr_value w' a = Some t)) /\
  ((forall x, ~ means ns q x) -> exists err, In err [InvalidCharacterError; ValueError; NamespaceError] /\
     get_attribute_ns w e ns q = Err err /\ has_attribute_ns w e ns q = Err err /\
     set_attribute_ns w e ns q v = (w, Err err) /\ remove_attribute_ns w e ns q = (w, Err err) /\
     get_attribute_node_ns w e ns q = (w, Err err)).
Proof.
  intros R. split.
  - intros x M. unfold get_attribute_ns, has_attribute_ns, set_attribute_ns, remove_attribute_ns, get_attribute_node_ns. rewrite (means_expanded _ _ _ M).
    cbn [bind snd]. split; [reflexivity|]. split; [reflexivity|]. split; [reflexivity|]. split; [reflexivity|]. destruct (c21_get w e (clark x) R) as [A B].
    split.
    + intros L. apply A in L. destruct (nm_get w e (clark x)) as [? [|]]; [discriminate|reflexivity].
    + intros t L. destruct (B t L) as (a & w' & G & Bl & V & _). exists a, w'. now rewrite G.
  - intros N. destruct (expanded ns q) as [n|err] eqn:E; [apply expanded_ok in E; destruct E as (x & M & _); destruct (N x M)|]. exists err.
    unfold get_attribute_ns, has_attribute_ns, set_attribute_ns, remove_attribute_ns, get_attribute_node_ns. rewrite E. split; [|repeat split].
    unfold expanded in E. destruct (qualified ns q ns_map) eqn:Q; [discriminate|]. cbn [bind] in E. injection E as <-. exact (c39_errors _ _ _ _ Q).
Qed.
Print Assumptions c79_reading.
Example c79_reading_ex : means (Some (lit "http://www.w3.org/1999/xlink")) (lit "xlink:href") (mkQN (Some (lit "http://www.w3.org/1999/xlink")) (lit "href"))
  /\ forall x, ~ means None (lit "xlink:href") x.
Proof. split; [apply means_iff; vm_compute; reflexivity|]. intros x M. apply means_iff in M. vm_compute in M. discriminate M. Qed.

(** After any history of setting, removing and asking for nodes, by whatever
    spellings, on any elements, an attribute has the value of the last
    operation that names it, and any spelling reads it. *)
Theorem c79_history w h e x ns q ns' q' v v' : reachable w -> Forall (fun o => whole (op_ns o)) h -> whole ns -> whole ns' ->
  means ns q x -> means ns' q' x -> get_attribute_ns w e ns q = Ok v ->
  (history e x h v v' <-> get_attribute_ns (n_run w h) e ns' q' = Ok v').
Proof.
  intros R F W W' M M'. unfold get_attribute_ns. rewrite (means_expanded _ _ _ M), (means_expanded _ _ _ M'). cbn [bind]. intros [= <-].
  pose proof (history_holds e x ns q W M h w R F) as H. split.
  - intros K. f_equal. exact (history_fun _ _ _ _ _ _ H K).
  - intros [= <-]. exact H.
Qed.
Print Assumptions c79_history.
Definition xl : option text := Some (lit "http://www.w3.org/1999/xlink").
Definition some_history : list nop :=
  [NSet 0 xl (lit "xlink:href") (Some (lit "#a")); NSet 0 None (lit "href") (Some (lit "#b")); NNode 0 None (lit "href");
   NSet 1 xl (lit "href") (Some (lit "#c")); NSet 0 None (lit "xlink:href") (Some (lit "#d"))].
Example c79_history_ex :
  let w := n_run (start (fun _ => [])) some_history in
  get_attribute w 0 (lit "{http://www.w3.org/1999/xlink}href") = Ok (Some (lit "#a")) /\ get_attribute w 0 (lit "href") = Ok (Some (lit "#b"))
  /\ get_attribute_ns w 1 xl (lit "href") = Ok (Some (lit "#c")) /\ get_attribute w 1 (lit "href") = Ok None.
Proof. vm_compute. repeat split. Qed.
(** A value that is empty or None removes. *)
Theorem c79_empty w e ns q x v : reachable w -> whole ns -> means ns q x -> In v [None; Some []] ->
  get_attribute_ns (fst (set_attribute_ns w e ns q v)) e ns q = Ok None /\ has_attribute_ns (fst (set_attribute_ns w e ns q v)) e ns q = Ok false.
Proof.
  intros R W M I. unfold get_attribute_ns, has_attribute_ns, set_attribute_ns. rewrite (means_expanded _ _ _ M). cbn [bind fst].
  rewrite set_lookup by exact R. destruct I as [<-|[<-|[]]]; split; reflexivity.
Qed.
Print Assumptions c79_empty.

(** The three spellings of a name in a mapped namespace reach the same
    attribute; the prefix without the namespace is refused. *)
Theorem c79_spellings p n l : In (p, n) known_prefixes -> word l -> free 58 l -> bare l ->
  means (Some n) (p ++ [58] ++ l) (mkQN (Some n) l) /\ means (Some n) l (mkQN (Some n) l) /\
  (forall ns, In ns [None; Some []; Some n] -> means ns ([123] ++ n ++ [125] ++ l) (mkQN (Some n) l)) /\
  (forall ns x, In ns [None; Some []] -> ~ means ns (p ++ [58] ++ l) x).
Proof.
  intros I L F B.
  assert (P : word p /\ free 58 p /\ free 123 p /\ word n /\ free 125 n).
  { cbn in I. repeat (destruct I as [[= <- <-]|I]; [unfold word, no_space, free; repeat split; try discriminate; try (intros c J; cbn in J |- *; intuition subst; discriminate); intros J; cbn in J; intuition discriminate|]). destruct I. }
  destruct P as (Wp & Fp & Hp & Wn & Fn).
  assert (Bp : bare (p ++ [58] ++ l)).
  { intros a b E. destruct p as [|c p]; [now destruct Wp|]. cbn in E. injection E as -> _. apply Hp. now left. }
  split; [|split; [|split]].
  - apply M_prefix; auto. now split.
  - apply M_in; auto. now split.
  - intros ns J. apply M_clark; auto. destruct J as [<-|[<-|[<-|[]]]]; [left; now left|left; now right|right; now split].
  - intros ns x J M. apply means_iff in M. apply c39_prefix in M; auto; try exact (proj1 Wp); try exact (proj2 Wp); try exact (proj1 L); try exact (proj2 L).
    destruct M as (m & -> & N & _). destruct J as [J|[[= J]|[]]]; [discriminate|]. apply N. now symmetry.
Qed.
Print Assumptions c79_spellings.
Example c79_spellings_ex : In (lit "xml", lit "http://www.w3.org/XML/1998/namespace") known_prefixes /\ word (lit "lang") /\ free 58 (lit "lang") /\ bare (lit "lang").
Proof.
  split; [cbn; auto|]. split; [split; [discriminate|apply no_space_iff; reflexivity]|]. split; [intros J; cbn in J; intuition discriminate|].
  intros a b E. cbn in E. discriminate E.
Qed.
(** The finding: getAttribute('xml:lang') of the DOM does not find the
    attribute that setAttributeNS has put under that qualified name. *)
Theorem c79_prefix_refuted : exists w e ns q v, snd (set_attribute_ns w e ns q (Some v)) = Ok tt /\
  get_attribute_ns (fst (set_attribute_ns w e ns q (Some v))) e ns q = Ok (Some v) /\
  get_attribute (fst (set_attribute_ns w e ns q (Some v))) e q = Err NamespaceError.
Proof. exists (start (fun _ => [])), 0%nat, (Some (lit "http://www.w3.org/XML/1998/namespace")), (lit "xml:lang"), (lit "fr"). vm_compute. repeat split. Qed.
Print Assumptions c79_prefix_refuted.

(** get_attribute_names lists every name once, in the order of code points;
    the names in it read back as themselves. *)
Theorem c79_names w e : reachable w ->
  Sorted before (get_attribute_names w e) /\ NoDup (get_attribute_names w e) /\
  (forall n, In n (get_attribute_names w e) <-> lookup w e n <> None) /\
  (has_attributes w e = true <-> get_attribute_names w e <> []).
Proof.
  intros R. pose proof (i_dic w (reachable_inv w R) e) as [D _]. unfold get_attribute_names, has_attributes.
  pose proof (sort_perm (dkeys (attrib (elems w e)))) as P.
  split; [apply StronglySorted_Sorted, sort_sorted|]. split; [exact (Permutation_NoDup (Permutation_sym P) D)|]. split.
  - intros n. unfold lookup. rewrite dget_keys. split.
    + intros I N. exact (N (Permutation_in _ P I)).
    + intros N. apply (Permutation_in _ (Permutation_sym P)). destruct (in_dec (list_eq_dec N.eq_dec) n (dkeys (attrib (elems w e)))) as [I|I]; [exact I|now destruct N].
  - apply Permutation_length in P. unfold dkeys in *. rewrite map_length in P. rewrite <- P, Bool.negb_true_iff, Nat.eqb_neq.
    destruct (sort_texts _); cbn; split; congruence.
Qed.
Print Assumptions c79_names.
Theorem c79_names_spelt w e ns q x n : reachable w -> whole ns -> means ns q x -> n = clark x ->
  means None n x /\ (In n (get_attribute_names w e) <-> has_attribute_ns w e ns q = Ok true) /\ get_attribute w e n = get_attribute_ns w e ns q.
Proof.
  intros R W M ->. assert (M0 : means None (clark x) x).
  { apply means_iff. apply means_iff in M. exact (c39_roundtrip_partial _ _ _ _ W M ns_map). }
  split; [exact M0|]. destruct (c79_names w e R) as (_ & _ & I & _). rewrite I. unfold has_attribute_ns, get_attribute, get_attribute_ns.
  rewrite (means_expanded _ _ _ M), (means_expanded _ _ _ M0). cbn [bind]. split; [|reflexivity].
  destruct (lookup w e (clark x)); cbn [is_some]; split; congruence.
Qed.
Print Assumptions c79_names_spelt.
Example c79_names_ex : get_attribute_names (n_run (start (fun _ => [])) some_history) 0 = [lit "href"; lit "{http://www.w3.org/1999/xlink}href"].
Proof. vm_compute. reflexivity. Qed.

(** remove_attribute_node gives back a detached Attr and the attribute is gone;
    an Attr whose name the element has not is a KeyError. *)
Theorem c79_remove_node w e a : reachable w ->
  let n := aname (attrs w a) in
  (forall v, lookup w e n = Some v -> exists b w', remove_attribute_node w e a = (w', Ok b) /\ lookup w' e n = None /\
     aname (attrs w' b) = n /\ aowner (attrs w' b) = None /\ attr_value w' b = Some v /\ (belongs w a e n -> b = a)) /\
  (lookup w e n = None -> snd (remove_attribute_node w e a) = Err KeyError).
Proof.
  intros R n. unfold remove_attribute_node. fold n. split.
  - intros v L. destruct (c21_remove_named w e n v R L) as (b & w' & -> & A & B & C & D & E & _). exists b, w'.
    assert (K : detach w' b = w') by (unfold detach; now rewrite C). rewrite K. repeat (split; [auto|]). intros H. symmetry. now apply E.
  - intros L. unfold remove_named_item, nm_get. rewrite L. reflexivity.
Qed.
Print Assumptions c79_remove_node.
(** The finding: the Attr of another element removes this element's attribute
    of the same name, where the DOM has a NotFoundError. *)
Theorem c79_remove_node_refuted : exists w e e' a b w', reachable w /\ e <> e' /\ belongs w a e' (aname (attrs w a)) /\
  remove_attribute_node w e a = (w', Ok b) /\ b <> a /\ lookup w e (aname (attrs w a)) <> None /\ lookup w' e (aname (attrs w a)) = None.
Proof.
  exists (run (start (fun _ => [(lit "x", lit "1")])) [OGet 1 (lit "x")]), 0%nat, 1%nat, 0%nat, 1%nat.
  eexists. split; [eexists; eexists; split; [|reflexivity]; intros e; unfold dict_ok; cbn; constructor; [intros []|constructor]|].
  split; [discriminate|]. split; [split; [apply Nat.ltb_lt; vm_compute; reflexivity|split; reflexivity]|]. split; [reflexivity|].
  split; [discriminate|]. split; [vm_compute; discriminate|reflexivity].
Qed.
Print Assumptions c79_remove_node_refuted.

(** ** Elements *)
(** A created element has the local name asked for and, in a namespace, reports
    that namespace; its tag reads back as the name asked for. *)
Theorem c79_created mk ns q x nsmap : fair mk -> whole ns -> means ns q x ->
  exists el, fst (create_element_ns mk ns q nsmap) = Ok el /\ el_tag el = clark x /\ local_name el = qlocal x /\
    (forall n, qns x = Some n -> namespace_uri el = Some n) /\
    (qns x = None -> tag_name el = qlocal x /\
       namespace_uri el = Some (match nsmap with Some m => match pget m None with Some d => d | None => svg_ns end | None => svg_ns end)).
Proof.
  intros Fm W M. destruct (means_shape _ _ _ W M) as (A & B & C). unfold create_element_ns.
  set (m0 := match nsmap with Some m => m | None => [] end). set (m := match pget m0 None with Some _ => m0 | None => m0 ++ [(None, svg_ns)] end).
  apply means_iff in M. rewrite M. cbn [bind fst]. eexists. split; [reflexivity|].
  assert (K : clark_match (clark x) = match qns x with Some n => Some (n, qlocal x) | None => None end) by (apply clark_match_clark; [intros n E; now apply A|exact B]).
  specialize (Fm (clark x) m). unfold makeelement. destruct (mk (clark x) m) as [p m'].
  unfold local_name, namespace_uri, tag_name, local_name. cbn [el_tag el_prefix el_nsmap]. rewrite K in *. destruct (qns x) as [n|] eqn:E.
  - split; [reflexivity|]. split; [reflexivity|]. split; [|discriminate]. intros ? [= <-]. exact (proj1 Fm).
  - destruct Fm as [-> Fm]. split; [reflexivity|]. split; [unfold clark; now rewrite E|]. split; [discriminate|]. intros _. rewrite Fm.
    split; [unfold clark; now rewrite E|]. subst m m0. destruct nsmap as [m|]; [|reflexivity]. destruct (pget m None) eqn:P; [exact P|].
    rewrite pget_app by exact P. reflexivity.
Qed.
Print Assumptions c79_created.
(* a maker as lxml: the first binding of the namespace, else a new prefix *)
Definition fresh (m : prefixes) : text := flat_map (fun p => match fst p with Some k => k | None => [] end) m ++ lit "n".
Definition some_maker : maker := fun name m =>
  match clark_match name with
  | Some (ns, _) => match find (fun p => match pget m (fst p) with Some v => text_eqb v ns | None => false end) m with
                    | Some (p, _) => (p, m)
                    | None => (Some (fresh m), m ++ [(Some (fresh m), ns)])
                    end
  | None => (None, m)
  end.
Lemma fresh_new m : pget m (Some (fresh m)) = None.
Proof.
  assert (L : forall k, In (Some k) (map fst m) -> (length k < length (fresh m))%nat).
  { intros k. unfold fresh. rewrite app_length. cbn [length lit]. induction m as [|[k' v] m IH]; [intros []|]. cbn [map flat_map fst].
    rewrite app_length. intros [->|I]; [cbn; lia|]. specialize (IH I). cbn in *. lia. }
  unfold pget. destruct (find _ m) as [[k v]|] eqn:E; [|reflexivity]. apply find_some in E. destruct E as [I E]. cbn [fst] in E.
  destruct (key_eqb_spec k (Some (fresh m))) as [->|]; [|discriminate]. apply (in_map fst) in I. cbn [fst] in I. specialize (L _ I). lia.
Qed.
Lemma some_maker_fair : fair some_maker.
Proof.
  intros name m. unfold some_maker. destruct (clark_match name) as [[ns l]|]; [|now split].
  destruct (find _ m) as [[p v]|] eqn:E.
  - apply find_some in E. destruct E as [_ E]. cbn [fst] in E. split; [|auto]. destruct (pget m p) as [u|]; [|discriminate].
    destruct (text_eqb_spec u ns); congruence.
  - pose proof (fresh_new m) as F. split.
    + rewrite pget_app by exact F. destruct (key_eqb_spec (Some (fresh m)) (Some (fresh m))); congruence.
    + intros k u H. rewrite pget_app by exact F. destruct (key_eqb_spec (Some (fresh m)) k); congruence.
Qed.
Example c79_created_ex :
  exists el, fst (create_element_ns some_maker (Some svg_ns) (lit "svg") None) = Ok el /\ el_tag el = lit "{http://www.w3.org/2000/svg}svg" /\ tag_name el = lit "svg" /\ fair some_maker
  /\ exists h, fst (create_element_ns some_maker (Some xhtml_ns) (lit "html:video") (Some [(Some (lit "html"), xhtml_ns)])) = Ok h /\ tag_name h = lit "html:video" /\ namespace_uri h = Some xhtml_ns.
Proof. eexists. split; [reflexivity|]. split; [reflexivity|]. split; [reflexivity|]. split; [exact some_maker_fair|]. eexists. split; [reflexivity|]. split; reflexivity. Qed.
(** What is asked for is refused exactly if it stands for no name, with the
    errors of QualifiedName. *)
Theorem c79_creation_refused mk ns q nsmap :
  ((exists x, means ns q x) <-> exists el, fst (create_element_ns mk ns q nsmap) = Ok el) /\
  (forall err, fst (create_element_ns mk ns q nsmap) = Err err -> In err [InvalidCharacterError; ValueError; NamespaceError]).
Proof.
  unfold create_element_ns. cbn [fst]. destruct (qualified ns q ns_map) as [x|err] eqn:Q; cbn [bind].
  - split; [|discriminate]. apply means_iff in Q. split; eauto.
  - split; [|intros ? [= <-]; exact (c39_errors _ _ _ _ Q)]. split; [intros [x M]; apply means_iff in M; congruence|intros [? H]; discriminate].
Qed.
Print Assumptions c79_creation_refused.
(** The dict that the caller passes gets the default namespace, even when the
    creation fails, and loses nothing. *)
Theorem c79_caller_map mk ns q m : exists m', snd (create_element_ns mk ns q (Some m)) = Some m' /\
  (forall k, k <> None -> pget m' k = pget m k) /\ pget m' None = Some (match pget m None with Some d => d | None => svg_ns end).
Proof.
  unfold create_element_ns. cbn [snd]. eexists. split; [reflexivity|]. destruct (pget m None) as [d|] eqn:P; [now split|].
  split; [|now rewrite pget_app by exact P]. intros [k|] K; [|congruence]. now rewrite pget_app by exact P.
Qed.
Print Assumptions c79_caller_map.
Theorem c79_caller_map_refuted mk : exists ns q m m', create_element_ns mk ns q (Some m) = (Err NamespaceError, Some m') /\ m' <> m.
Proof. exists None, (lit "svg:g"), [], [(None, svg_ns)]. split; [reflexivity|discriminate]. Qed.
Print Assumptions c79_caller_map_refuted.
(** The finding: an element created in no namespace reports the SVG one. *)
Theorem c79_no_namespace_refuted mk : fair mk -> exists el, fst (create_element mk (lit "g") None) = Ok el /\
  el_tag el = lit "g" /\ namespace_uri el = Some svg_ns.
Proof.
  intros F. destruct (c79_created mk None (lit "g") (mkQN None (lit "g")) None F) as (el & A & B & _ & _ & D); [intros n; discriminate|apply means_iff; reflexivity|].
  exists el. split; [exact A|]. split; [exact B|]. now apply D.
Qed.
Print Assumptions c79_no_namespace_refuted.

(** The class of an element: the one registered for its local name; if there is
    none, HTMLElement in the XHTML namespace and SVGElement elsewhere. *)
Theorem c79_class ns l :
  (In l svg_names -> class_of ns l = CSvg l) /\ (In l html_names -> class_of ns l = CHtml l) /\
  (~ In l svg_names -> ~ In l html_names -> class_of ns l = CHtmlElement <-> ns = Some xhtml_ns) /\
  (~ In l svg_names -> ~ In l html_names -> class_of ns l = CSvgElement <-> ns <> Some xhtml_ns).
Proof.
  assert (E : forall a, reflect (In l a) (existsb (text_eqb l) a)).
  { intros a. destruct (existsb (text_eqb l) a) eqn:X; constructor.
    - apply existsb_exists in X. destruct X as (y & I & Y). destruct (text_eqb_spec l y); [now subst|discriminate].
    - intros I. assert (existsb (text_eqb l) a = true); [|congruence]. apply existsb_exists. exists l. split; [exact I|apply text_eqb_refl]. }
  assert (D : In l svg_names -> ~ In l html_names).
  { intros I J. cbn in J. repeat (destruct J as [<-|J]; [destruct (E svg_names); [vm_compute in I; repeat (destruct I as [I|I]; [discriminate|]); destruct I|contradiction]|]). destruct J. }
  unfold class_of. destruct (E svg_names) as [I|I]; destruct (E html_names) as [J|J]; try (destruct (D I J)).
  - split; [auto|]. split; [contradiction|]. split; contradiction.
  - split; [contradiction|]. split; [auto|]. split; contradiction.
  - split; [contradiction|]. split; [contradiction|]. destruct ns as [n|]; [|split; intros _ _; split; congruence].
    destruct (text_eqb_spec n xhtml_ns) as [->|X]; split; intros _ _; split; congruence.
Qed.
Print Assumptions c79_class.
Example c79_class_ex : class_of None (lit "rect") = CSvg (lit "rect") /\ class_of (Some xhtml_ns) (lit "source") = CHtmlElement /\ class_of (Some svg_ns) (lit "filter") = CSvgElement.
Proof. vm_compute. repeat split. Qed.
(** The finding: the namespace does not matter for a registered name, so that
    a paragraph's link in XHTML is an SVGAElement. *)
Theorem c79_class_refuted : class_of (Some xhtml_ns) (lit "a") = CSvg (lit "a") /\ class_of (Some (lit "urn:other")) (lit "video") = CHtml (lit "video").
Proof. vm_compute. split; reflexivity. Qed.
Print Assumptions c79_class_refuted.

(** The prefix that an Attr reports is bound to its namespace in the map of the
    element it was made for; none in no namespace; None also when no prefix is
    bound to the namespace. *)
Theorem c79_attr_prefix m ns :
  (forall p, attr_prefix m ns = Some p -> exists n, ns = Some n /\ In (Some p, n) m) /\
  (attr_prefix m ns = None <-> (forall n, ns = Some n -> (forall k, ~ In (k, n) m) \/ exists a b, m = a ++ (None, n) :: b /\ forall k, ~ In (k, n) a)).
Proof.
  destruct ns as [n|]; cbn [attr_prefix]; [|split; [discriminate|]; split; [intros _ n; discriminate|reflexivity]].
  assert (X : match find (fun p => text_eqb (snd p) n) m with
              | Some (p, n') => n' = n /\ exists a b, m = a ++ (p, n) :: b /\ forall k, ~ In (k, n) a
              | None => forall k, ~ In (k, n) m end).
  { induction m as [|[k v] m IH]; cbn [find snd]; [now intros k|]. destruct (text_eqb_spec v n) as [->|E].
    - split; [reflexivity|]. exists [], m. split; [reflexivity|]. now intros k'.
    - destruct (find _ m) as [[p n']|].
      + destruct IH as (-> & a & b & -> & N). split; [reflexivity|]. exists ((k, v) :: a), b. split; [reflexivity|]. intros k' [[= <- ->]|I]; [congruence|exact (N k' I)].
      + intros k' [[= <- ->]|I]; [congruence|exact (IH k' I)]. }
  destruct (find _ m) as [[p n']|].
  - destruct X as (-> & a & b & -> & N). split.
    + intros p' ->. exists n. split; [reflexivity|]. apply in_or_app. right. now left.
    + split.
      * intros -> ? [= <-]. right. now exists a, b.
      * intros H. destruct (H n eq_refl) as [H1|(a' & b' & E & N')]; [destruct (H1 p); apply in_or_app; right; now left|].
        assert (U : forall a' a, a ++ (p, n) :: b = a' ++ (None, n) :: b' -> (forall k, ~ In (k, n) a) -> (forall k, ~ In (k, n) a') -> p = None).
        { clear. induction a' as [|y a' IH]; intros [|x a] E A A'; cbn in E.
          - now injection E.
          - injection E as -> _. destruct (A None). now left.
          - injection E as <- _. destruct (A' p). now left.
          - injection E as -> E. apply (IH a E); intros k I; [apply (A k)|apply (A' k)]; now right. }
        exact (U a' a E N N').
  - split; [discriminate|]. split; [|reflexivity]. intros _ ? [= <-]. now left.
Qed.
Print Assumptions c79_attr_prefix.
Example c79_attr_prefix_ex : attr_prefix [(None, svg_ns); (Some (lit "xlink"), lit "http://www.w3.org/1999/xlink")] xl = Some (lit "xlink")
  /\ attr_prefix [(None, svg_ns)] (Some (lit "http://www.w3.org/XML/1998/namespace")) = None.
Proof. vm_compute. split; reflexivity. Qed.
