(** Qualified names (C39), case-insensitive mappings (C40), style texts (C41). *)
From Coq Require Import Permutation Sorted.
From Verif Require Import PyBase PyText PyStrip PySplit PyDict PyCase UtilsModel UtilsSpec UtilsProofs.
#[local] Open Scope N_scope.

(** ** C39 *)
Definition svg_map : dict text := [(lit "xlink", lit "http://www.w3.org/1999/xlink"); (lit "xml", lit "http://www.w3.org/XML/1998/namespace")].
(* every text is written in exactly one of the three ways *)
Theorem c39_forms nsmap q : exists p ns l, written nsmap q p ns l /\
  forall p' ns' l', written nsmap q p' ns' l' -> p' = p /\ ns' = ns /\ l' = l.
Proof.
  destruct (written_total nsmap q) as (p & ns & l & W). exists p, ns, l. split; [exact W|]. intros p' ns' l' W'. exact (written_fun _ _ _ _ _ _ _ _ W' W).
Qed.
Print Assumptions c39_forms.
Lemma nonspace_ok namespace : (forall n, namespace = Some n -> no_space n) -> spaced namespace = false.
Proof. destruct namespace; intros H; [apply no_space_iff; now apply H|reflexivity]. Qed.
Lemma nonempty_text (q : text) A (a b : A) : q <> [] -> match q with [] => a | _ => b end = b.
Proof. destruct q; [congruence|reflexivity]. Qed.
(* '{ns}local' is accepted when no other namespace was given *)
Theorem c39_clark namespace ns l nsmap : ns <> [] -> l <> [] -> no_space ns -> no_space l -> free 125 ns ->
  qualified namespace ([123] ++ ns ++ [125] ++ l) nsmap = Ok (mkQN (Some ns) l) <-> In namespace [None; Some []; Some ns].
Proof.
  intros N L Sn Sl F. set (q := [123] ++ ns ++ [125] ++ l).
  assert (W : written nsmap q None (Some ns) l) by now constructor.
  assert (Q : is_ascii_whitespace q = false).
  { apply no_space_iff. unfold q. rewrite !no_space_app. repeat split; auto; intros c [<-|[]]; vm_compute; intuition discriminate. }
  split.
  - intros H. destruct (qualified_ok _ _ _ _ _ _ _ W H) as (_ & _ & _ & _ & _ & [G|G]); destruct namespace as [[|? ?]|]; cbn in *; try discriminate; auto.
  - intros I. rewrite (qualified_outcome _ _ _ _ _ _ W), Q.
    rewrite nonspace_ok by (destruct I as [<-|[<-|[<-|[]]]]; intros m [= <-]; [intros c []|exact Sn]).
    rewrite nonempty_text by discriminate. unfold outcome. destruct l as [|d l]; [congruence|]. destruct ns as [|e ns]; [congruence|].
    destruct I as [<-|[<-|[<-|[]]]]; cbn [given is_empty is_some negb orb andb]; [reflexivity|reflexivity|]. now rewrite text_eqb_refl.
Qed.
Print Assumptions c39_clark.
(* 'prefix:local' is accepted when the prefix stands for the namespace given *)
Theorem c39_prefix namespace p l nsmap r : p <> [] -> l <> [] -> no_space p -> no_space l -> free 58 p ->
  (forall a b, p ++ [58] ++ l <> [123] ++ a ++ [125] ++ b) ->
  qualified namespace (p ++ [58] ++ l) nsmap = Ok r <->
  exists n, namespace = Some n /\ n <> [] /\ no_space n /\ dget nsmap p = Some n /\ r = mkQN (Some n) l.
Proof.
  intros P L Sp Sl F Nc. assert (W : written nsmap (p ++ [58] ++ l) (Some p) (dget nsmap p) l) by now constructor.
  assert (Q : is_ascii_whitespace (p ++ [58] ++ l) = false).
  { apply no_space_iff. rewrite !no_space_app. repeat split; auto; intros c [<-|[]]; vm_compute; intuition discriminate. }
  split.
  - intros H. destruct (qualified_ok _ _ _ _ _ _ _ W H) as (_ & Sn & _ & _ & _ & n & E1 & E2 & E3 & E4). exists n. repeat split; auto.
  - intros (n & -> & N & Sn & G & ->). rewrite (qualified_outcome _ _ _ _ _ _ W), Q, G.
    rewrite nonspace_ok by (intros m [= <-]; exact Sn). rewrite nonempty_text by (destruct p; [congruence|discriminate]).
    unfold outcome. destruct l as [|d l]; [congruence|]. destruct n as [|e n]; [congruence|]. destruct p as [|a p]; [congruence|].
    cbn [given is_empty is_some negb orb andb]. now rewrite text_eqb_refl.
Qed.
Print Assumptions c39_prefix.
(* a prefix without its namespace, a prefix standing for nothing, or two different namespaces *)
Theorem c39_namespace_error namespace q nsmap p ns l : written nsmap q p ns l -> q <> [] -> no_space q ->
  (forall n, namespace = Some n -> no_space n) -> p <> Some [] -> l <> [] -> ns <> Some [] ->
  qualified namespace q nsmap = Err NamespaceError <->
  (p <> None /\ (In namespace [None; Some []] \/ ns = None)) \/ (exists a b, namespace = Some a /\ a <> [] /\ ns = Some b /\ a <> b).
Proof.
  intros W Q Sq Sn P L N. rewrite (qualified_outcome _ _ _ _ _ _ W), nonspace_ok, nonempty_text by assumption.
  apply no_space_iff in Sq. rewrite Sq. unfold outcome. destruct l as [|d l]; [congruence|]. clear W Sn Sq.
  destruct p as [[|? ?]|]; [now destruct P| |]; (destruct ns as [[|? b]|]; [now destruct N| |]); destruct namespace as [[|? a]|];
    cbn [given is_empty is_some negb orb andb]; 
    try (match goal with |- context [text_eqb ?x ?y] => destruct (text_eqb_spec x y) as [E|E]; cbn [negb] end);
    (split; [intros H|intros [[H [I|I]]|(x & y & H1 & H2 & H3 & H4)]]); try discriminate; try congruence; try reflexivity;
    try (left; split; [discriminate|cbn; tauto]); try (right; do 2 eexists; repeat split; [discriminate|congruence]);
    try (destruct I as [I|[I|[]]]; discriminate).
Qed.
Print Assumptions c39_namespace_error.
Theorem c39_invalid_characters namespace q nsmap :
  qualified namespace q nsmap = Err InvalidCharacterError <-> (exists n, namespace = Some n /\ ~ no_space n) \/ ~ no_space q.
Proof.
  destruct (written_total nsmap q) as (p & ns & l & W). rewrite (qualified_outcome _ _ _ _ _ _ W).
  assert (D : forall t, ~ no_space t <-> is_ascii_whitespace t = true).
  { intros t. rewrite no_space_iff. destruct (is_ascii_whitespace t); split; congruence. }
  assert (S : spaced namespace = true <-> exists n, namespace = Some n /\ ~ no_space n).
  { destruct namespace as [n|]; cbn [spaced].
    - rewrite <- D. split; [intros H; now exists n|]. intros (m & [= <-] & H). exact H.
    - split; [discriminate|]. intros (m & E & _). discriminate. }
  rewrite <- S, D. destruct (spaced namespace); [split; [now left|reflexivity]|].
  destruct q as [|c q]; [split; [discriminate|intros [H|H]; discriminate]|].
  destruct (is_ascii_whitespace (c :: q)); [split; [now right|reflexivity]|].
  split; [|intros [H|H]; discriminate]. unfold outcome. destruct (_ || _ || _); [discriminate|].
  match goal with |- context [if ?b then _ else _] => destruct b end; discriminate.
Qed.
Print Assumptions c39_invalid_characters.
Theorem c39_errors namespace q nsmap e : qualified namespace q nsmap = Err e -> In e [InvalidCharacterError; ValueError; NamespaceError].
Proof. apply qualified_errors. Qed.
Print Assumptions c39_errors.
(* a name without prefix takes the namespace given, the empty one meaning none *)
Theorem c39_plain namespace l nsmap : l <> [] -> no_space l -> free 58 l -> (forall a b, l <> [123] ++ a ++ [125] ++ b) ->
  (forall n, namespace = Some n -> no_space n) ->
  qualified namespace l nsmap = Ok (mkQN (match namespace with Some [] => None | _ => namespace end) l).
Proof.
  intros L Sl F Nc Sn. assert (W : written nsmap l None None l) by now constructor.
  rewrite (qualified_outcome _ _ _ _ _ _ W), nonspace_ok, nonempty_text by assumption. apply no_space_iff in Sl. rewrite Sl.
  unfold outcome. destruct l; [congruence|]. destruct namespace as [[|? ?]|]; reflexivity.
Qed.
Print Assumptions c39_plain.
(* an empty prefix, local name or namespace *)
Theorem c39_value_error namespace q nsmap p ns l : written nsmap q p ns l -> no_space q -> (forall n, namespace = Some n -> no_space n) ->
  (q = [] \/ p = Some [] \/ l = [] \/ ns = Some []) <-> qualified namespace q nsmap = Err ValueError.
Proof.
  intros W Sq Sn. rewrite (qualified_outcome _ _ _ _ _ _ W), nonspace_ok by exact Sn. apply no_space_iff in Sq. rewrite Sq.
  destruct q as [|c q]; [split; auto|]. unfold outcome.
  split.
  - intros [H | [ -> | [ -> | -> ]]]; [discriminate|reflexivity| |]; destruct p as [[|? ?]|]; try destruct l; reflexivity.
  - destruct (is_empty p) eqn:P; [destruct p as [[|? ?]|]; try discriminate; auto|].
    destruct l as [|d l]; [auto|]. destruct ns as [[|? ?]|]; [auto| |]; cbn [is_empty orb];
    match goal with |- context [if ?b then _ else _] => destruct b end; discriminate.
Qed.
Print Assumptions c39_value_error.
(* the constructed name reads back as the same name *)
Theorem c39_roundtrip_partial namespace q nsmap r : (forall n, namespace = Some n -> free 125 n) -> qualified namespace q nsmap = Ok r ->
  forall nsmap', qualified None (clark r) nsmap' = Ok r.
Proof. apply clark_again. Qed.
Print Assumptions c39_roundtrip_partial.
(* missing: a namespace containing a brace *)
Theorem c39_roundtrip_refuted : exists namespace q r r', qualified namespace q [] = Ok r /\ qualified None (clark r) [] = Ok r' /\ r' <> r.
Proof.
  exists (Some (lit "urn:a}b")), (lit "x"), (mkQN (Some (lit "urn:a}b")) (lit "x")), (mkQN (Some (lit "urn:a")) (lit "b}x")).
  split; [reflexivity|]. split; [reflexivity|]. intros H. vm_compute in H. discriminate H.
Qed.
Print Assumptions c39_roundtrip_refuted.
(* two names print alike only if they are the same *)
Theorem c39_injective a b q q' nsmap nsmap' r r' : (forall n, a = Some n -> free 125 n) -> (forall n, b = Some n -> free 125 n) ->
  qualified a q nsmap = Ok r -> qualified b q' nsmap' = Ok r' -> clark r = clark r' -> r = r'.
Proof.
  intros A B H H' E. assert (X := clark_again _ _ _ _ A H []). assert (Y := clark_again _ _ _ _ B H' []). rewrite E, Y in X. congruence.
Qed.
Print Assumptions c39_injective.
(* the finding: a mapped prefix is refused unless the namespace is given too *)
Theorem c39_prefix_alone_refuted : exists q p n l, written svg_map q (Some p) (Some n) l /\ qualified None q svg_map = Err NamespaceError.
Proof.
  exists (lit "xml:lang"), (lit "xml"), (lit "http://www.w3.org/XML/1998/namespace"), (lit "lang"). split; [|reflexivity].
  apply written_iff. reflexivity.
Qed.
Print Assumptions c39_prefix_alone_refuted.
Example c39_ex1 : qualified (Some (lit "http://www.w3.org/1999/xlink")) (lit "xlink:href") svg_map
  = Ok (mkQN (Some (lit "http://www.w3.org/1999/xlink")) (lit "href"))
  /\ clark (mkQN (Some (lit "http://www.w3.org/1999/xlink")) (lit "href")) = lit "{http://www.w3.org/1999/xlink}href".
Proof. split; reflexivity. Qed.
Example c39_ex2 : qualified None (lit "{http://www.w3.org/1999/xlink}href") svg_map = Ok (mkQN (Some (lit "http://www.w3.org/1999/xlink")) (lit "href")).
Proof. reflexivity. Qed.
Example c39_ex3 : qualified (Some (lit "urn:x")) (lit "a b") svg_map = Err InvalidCharacterError
  /\ qualified (Some (lit "urn:x")) (lit "xml:lang") svg_map = Err NamespaceError
  /\ qualified (Some (lit "urn:x")) (lit ":lang") svg_map = Err ValueError /\ qualified None (lit "{}x") [] = Err ValueError.
Proof. repeat split. Qed.

(** ** C40 *)
Theorem c40_lookup {V} low (h : list (ci_op V)) k :
  ci_get low (ci_run low h) k = match value_after low h k None with Some v => Ok v | None => Err KeyError end.
Proof. rewrite get_held by apply run_inv. now rewrite run_held. Qed.
Print Assumptions c40_lookup.
Theorem c40_contains {V} low (h : list (ci_op V)) k : ci_contains low (ci_run low h) k = is_some (value_after low h k None).
Proof. rewrite contains_held by apply run_inv. now rewrite run_held. Qed.
Print Assumptions c40_contains.
(* a deletion fails exactly for an absent key *)
Theorem c40_delete {V} low (h : list (ci_op V)) k :
  ci_del low (ci_run low h) k = if is_some (value_after low h k None) then Ok (ci_run low (h ++ [CDel k])) else Err KeyError.
Proof. rewrite del_held by apply run_inv. now rewrite run_held, run_snoc. Qed.
Print Assumptions c40_delete.
(* iteration: the spellings that introduced the keys, in the order of introduction *)
Theorem c40_iter {V} low (h : list (ci_op V)) : ci_iter (ci_run low h) = births low [] h /\ NoDup (map low (ci_iter (ci_run low h))).
Proof. split; [apply run_iter|apply run_distinct]. Qed.
Print Assumptions c40_iter.
Theorem c40_items {V} low (h : list (ci_op V)) k v :
  In (k, v) (cdata (ci_run low h)) <-> In k (births low [] h) /\ value_after low h k None = Some v.
Proof. apply run_items. Qed.
Print Assumptions c40_items.
Theorem c40_len {V} low (h : list (ci_op V)) : ci_len (ci_run low h) = length (births low [] h).
Proof. rewrite <- run_iter. unfold ci_len, ci_iter, dkeys. now rewrite map_length. Qed.
Print Assumptions c40_len.
(* every key present is listed under one spelling *)
Theorem c40_listed {V} low (h : list (ci_op V)) k : is_some (value_after low h k None) = true <-> exists k', In k' (births low [] h) /\ low k' = low k.
Proof.
  rewrite <- run_iter, <- run_held. assert (I := run_inv low h). rewrite <- contains_held by exact I. unfold ci_contains, dhas, ci_iter.
  destruct (dget (ckeys (ci_run low h)) (low k)) as [k'|] eqn:G.
  - split; [intros _|reflexivity]. exists k'. destruct (inv_find low _ k k' I G) as (A & B & _). auto.
  - split; [discriminate|]. intros (k' & X & E). destruct (inv_absent low _ k I G k' X E).
Qed.
Print Assumptions c40_listed.
(* two mappings answering every lookup alike may still differ *)
Theorem c40_eq_refuted : exists h g : list (ci_op text), (forall k, ci_get lower (ci_run lower h) k = ci_get lower (ci_run lower g) k)
  /\ ci_eq (ci_run lower h) (ci_run lower g) = false.
Proof.
  exists [CSet (lit "Content-Type") (lit "a")], [CSet (lit "content-type") (lit "a")]. split; [|reflexivity].
  intros k. rewrite !c40_lookup. reflexivity.
Qed.
Print Assumptions c40_eq_refuted.
Definition h40 : list (ci_op text) := [CSet (lit "Content-Type") (lit "a"); CSet (lit "X") (lit "1"); CSet (lit "CONTENT-TYPE") (lit "b");
  CDel (lit "x"); CSet (lit "x") (lit "2"); CDel (lit "y")].
Example c40_ex1 : ci_get lower (ci_run lower h40) (lit "content-type") = Ok (lit "b") /\ ci_iter (ci_run lower h40) = [lit "Content-Type"; lit "x"]
  /\ ci_del lower (ci_run lower h40) (lit "q") = Err KeyError.
Proof. repeat split. Qed.

(** ** C41 *)
(* a name has the value of its last declaration, and only declared values appear *)
Theorem c41_read t k v : dget (style_to_dict (Some t)) k = Some v <-> last_declared t k v.
Proof. apply read_iff. Qed.
Print Assumptions c41_read.
Theorem c41_keys_once t : dict_ok (style_to_dict t).
Proof. destruct t as [t|]; [|constructor]. rewrite style_pairs. apply dict_of_ok. Qed.
Print Assumptions c41_keys_once.
(* every declaration, one space between, in the order of the texts *)
Theorem c41_write d : exists l, dict_to_style (Some d) = join (lit " ") l /\ Permutation l (map declaration d) /\ StronglySorted before l.
Proof. apply write_sorted. Qed.
Print Assumptions c41_write.
Theorem c41_roundtrip_partial d : dict_ok d -> Forall (fun p => neat (fst p) /\ neat (snd p)) d ->
  Permutation (style_to_dict (Some (dict_to_style (Some d)))) d /\
  forall k, dget (style_to_dict (Some (dict_to_style (Some d)))) k = dget d k.
Proof.
  intros D F. assert (P := written_perm d D F). split; [exact P|]. intros k. symmetry. apply dget_perm; [exact D|now apply Permutation_sym].
Qed.
Print Assumptions c41_roundtrip_partial.
(* the text depends on the declarations only *)
Theorem c41_order d e : Permutation d e -> dict_to_style (Some d) = dict_to_style (Some e).
Proof. apply write_perm. Qed.
Print Assumptions c41_order.
(* once written, reading and writing changes nothing *)
Theorem c41_stable d : dict_ok d -> Forall (fun p => neat (fst p) /\ neat (snd p)) d ->
  dict_to_style (Some (style_to_dict (Some (dict_to_style (Some d))))) = dict_to_style (Some d).
Proof. intros D F. apply write_perm. now apply written_perm. Qed.
Print Assumptions c41_stable.
(* missing: a value containing a colon is lost *)
Theorem c41_colon_refuted : exists d : dict text, dict_ok d /\ d <> [] /\ style_to_dict (Some (dict_to_style (Some d))) = [].
Proof.
  exists [(lit "fill", lit "url(http://localhost/a.svg#g)")]. split; [repeat constructor; intros []|]. split; [discriminate|reflexivity].
Qed.
Print Assumptions c41_colon_refuted.
Theorem c41_semicolon_refuted : exists d : dict text, dict_ok d /\ dget d (lit "cursor") = Some (lit "url(a;b)")
  /\ dget (style_to_dict (Some (dict_to_style (Some d)))) (lit "cursor") = Some (lit "url(a").
Proof. exists [(lit "cursor", lit "url(a;b)")]. split; [repeat constructor; intros []|]. split; reflexivity. Qed.
Print Assumptions c41_semicolon_refuted.
Definition d41 : dict text := [(lit "stroke-width", lit "2px"); (lit "fill", lit "red")].
Example c41_ex1 : dict_to_style (Some d41) = lit "fill: red; stroke-width: 2px;" /\ dict_ok d41 /\ Forall (fun p => neat (fst p) /\ neat (snd p)) d41.
Proof.
  split; [reflexivity|]. split; [repeat constructor; vm_compute; intuition discriminate|].
  repeat constructor; unfold free; vm_compute; intuition discriminate.
Qed.
Example c41_ex2 : style_to_dict (Some (lit " fill:red; x;fill : blue ")) = [(lit "fill", lit "blue")].
Proof. reflexivity. Qed.
