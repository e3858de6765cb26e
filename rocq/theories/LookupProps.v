(** C59: finding elements.  C60: text content. *)
From Coq Require Import Sorted.
From Verif Require Import PyBase PyText PyDict PySplit LookupModel LookupSpec LookupProofs.
#[local] Open Scope N_scope.

Definition svg_ns : text := lit "http://www.w3.org/2000/svg".
Definition el (l : string) (a : dict text) (t : option text) (k : list (xnode * option text)) : xnode := XElem (mkName None (Some svg_ns) (lit l)) a t k.
Definition doc0 : xnode :=
  el "svg" [] None
    [(el "g" [(lit "id", lit "a"); (lit "class", lit "big red")] None
        [(XOther, None); (XElem (mkName (Some (lit "h")) (Some (lit "urn:h")) (lit "g")) [(lit "class", lit "red  small")] None [], None)], None);
     (el "text" [(lit "id", lit "a"); (lit "class", lit "redder")] (Some (lit "x")) [], None);
     (XElem (mkName None None (lit "g")) [] None [], None)].

(** ** C59 *)
(* the elements of a name, all of them, once each and in document order *)
Theorem c59_tag s n q : q <> lit "*" -> lists s n (named q) (by_tag s n q).
Proof.
  intros Q. apply select_lists. intros x X. destruct (text_eqb_spec q (lit "*")) as [|_]; [contradiction|]. now apply qname_iff.
Qed.
Print Assumptions c59_tag.
Theorem c59_all s n : lists s n (fun _ => True) (by_tag s n (lit "*")).
Proof. apply select_lists. intros x X. now rewrite text_eqb_refl. Qed.
Print Assumptions c59_all.
Example c59_tag_case : by_tag true doc0 (lit "g") = [[0]; [2]]%nat /\ by_tag true doc0 (lit "h:g") = [[0; 1]]%nat /\ by_tag false doc0 (lit "*") = [[0]; [0; 1]; [1]; [2]]%nat /\ by_tag true doc0 (lit "svg") = [[]] /\ by_tag false doc0 (lit "svg") = [].
Proof. vm_compute. repeat split. Qed.
(* such a list is the only one *)
Theorem c59_unique s n P l m : lists s n P l -> lists s n P m -> l = m.
Proof. exact (lists_unique s n P l m). Qed.
Print Assumptions c59_unique.
Theorem c59_local n l : lists false n (local_named l) (by_local n l).
Proof. apply select_lists. intros x X. now apply local_iff. Qed.
Print Assumptions c59_local.
Theorem c59_tag_ns s n u l : lists s n (fun x => (u = lit "*" \/ in_ns u x) /\ (l = lit "*" \/ local_named l x)) (by_tag_ns s n (Some u) l).
Proof.
  apply select_lists. intros x X. rewrite andb_true_iff, !orb_true_iff, !text_eqb_iff, <- ns_iff, <- local_iff, !text_eqb_iff by exact X. reflexivity.
Qed.
Print Assumptions c59_tag_ns.
Example c59_tag_ns_case : by_tag_ns true doc0 (Some svg_ns) (lit "g") = [[0]]%nat /\ by_tag_ns true doc0 (Some (lit "*")) (lit "g") = [[0]; [0; 1]; [2]]%nat /\ by_tag_ns true doc0 (Some []) (lit "*") = [[2]]%nat.
Proof. vm_compute. repeat split. Qed.
(* None stands for every namespace, not for none *)
Theorem c59_no_ns s n l : by_tag_ns s n None l = by_tag_ns s n (Some (lit "*")) l.
Proof. unfold by_tag_ns. rewrite text_eqb_refl. reflexivity. Qed.
Print Assumptions c59_no_ns.
Theorem c59_no_ns_refuted : exists n p x, In p (by_tag_ns true n None (lit "g")) /\ at_path n p = Some x /\ in_ns svg_ns x.
Proof. exists doc0, [0%nat]. eexists. split; [vm_compute; now left|]. split; [reflexivity|]. do 4 eexists. split; [reflexivity|now left]. Qed.
Print Assumptions c59_no_ns_refuted.
(* the first element with the id, itself included *)
Theorem c59_id n i p : by_id n i = Some p <->
  (exists x, at_path n p = Some x /\ has_attr (lit "id") i x) /\ forall q y, at_path n q = Some y -> has_attr (lit "id") i y -> q = p \/ doc_before p q.
Proof.
  set (f := fun x => match attr_of x (lit "id") with Some t => text_eqb t i | None => false end).
  assert (L : lists true n (has_attr (lit "id") i) (select true f n)).
  { apply select_lists. intros x X. destruct x as [nm a t k|]; [|destruct X]. unfold f. cbn [attr_of]. split.
    - intros H. destruct (dget a (lit "id")) as [v|] eqn:E; [|discriminate]. apply text_eqb_iff in H as ->. now exists nm, a, t, k.
    - intros (nm' & a' & t' & k' & [= <- <- <- <-] & E). rewrite E. apply text_eqb_refl. }
  assert (EL : forall x, has_attr (lit "id") i x -> is_elem x) by (intros x (? & ? & ? & ? & -> & _); exact I).
  destruct L as [S M]. unfold by_id. fold f. split.
  - intros H. destruct (select true f n) as [|p0 l] eqn:E; [discriminate|]. cbn in H. injection H as ->. split.
    + destruct (proj1 (M p) (or_introl eq_refl)) as (x & A & _ & _ & B). now exists x.
    + intros q y A B. assert (J : In q (p :: l)) by (apply M; exists y; repeat split; auto; discriminate). destruct J as [<-|J]; [now left|right]. inversion_clear S as [|? ? _ F]. rewrite Forall_forall in F. now apply F.
  - intros [(x & A & B) F]. assert (J : In p (select true f n)) by (apply M; exists x; repeat split; auto; discriminate). destruct (select true f n) as [|p0 l] eqn:E; [destruct J|]. cbn. f_equal.
    destruct J as [->|J]; [reflexivity|]. destruct (proj1 (M p0) (or_introl eq_refl)) as (y & A' & _ & _ & B'). destruct (F p0 y A' B') as [->|G]; [reflexivity|]. inversion_clear S as [|? ? _ H]. rewrite Forall_forall in H. specialize (H p J).
    exfalso. clear - G H. revert p H G. induction p0 as [|a p0 IH]; intros [|b p]; cbn; try tauto. intros [H|[-> H]] [G|[G' G]]; try lia. now apply (IH p).
Qed.
Print Assumptions c59_id.
Theorem c59_id_none n i : by_id n i = None <-> forall q y, at_path n q = Some y -> ~ has_attr (lit "id") i y.
Proof.
  destruct (by_id n i) as [p|] eqn:E.
  - split; [discriminate|]. intros H. apply c59_id in E as [(x & A & B) _]. destruct (H p x A B).
  - split; [intros _|reflexivity]. intros q y A B. unfold by_id in E. set (f := fun x => match attr_of x (lit "id") with Some t => text_eqb t i | None => false end) in E.
    destruct B as (nm & a & t & k & -> & D). assert (J : In q (select true f n)).
    { unfold select, axis. apply in_map_iff. exists (q, XElem nm a t k). split; [reflexivity|]. apply filter_In. split; [apply walk_in; now exists q|]. unfold f. cbn [snd attr_of]. rewrite D. apply text_eqb_refl. }
    destruct (select true f n); [destruct J|discriminate].
Qed.
Print Assumptions c59_id_none.
Example c59_id_case : by_id doc0 (lit "a") = Some [0]%nat /\ by_id doc0 (lit "b") = None.
Proof. vm_compute. now split. Qed.
(* a search from a child finds what a search from its parent finds in it *)
Theorem c59_within s nm a t kids i c tl q p : nth_error kids i = Some (c, tl) -> q <> lit "*" ->
  (In p (by_tag true c q) <-> In (i :: p) (by_tag s (XElem nm a t kids) q)).
Proof.
  intros N Q. destruct (c59_tag true c q Q) as [_ M], (c59_tag s (XElem nm a t kids) q Q) as [_ M']. rewrite M, M'. cbn [at_path]. rewrite N. split; intros (x & A & B & _ & D); exists x; repeat split; auto; discriminate.
Qed.
Print Assumptions c59_within.

Lemma class_iff ws pss x : Forall (fun w => clean w = true) ws -> Forall2 (fun w ps => forall s r, after ps s = Some r <-> s = w ++ r) ws pss -> is_elem x -> only_spaces x ->
  (forallb (fun p => re_test p (class_of x)) pss = true <-> forall w, In w ws -> In w (classes x)).
Proof.
  intros C F X O. destruct x as [nm a t k|]; [|destruct X]. assert (W : classes (XElem nm a t k) = split_ws (class_of (XElem nm a t k))) by (unfold classes, class_of; cbn [attr_of]; now destruct (dget a (lit "class"))). rewrite W.
  assert (S : forall c, In c (class_of (XElem nm a t k)) -> is_space c = true -> c = 32).
  { unfold class_of. cbn [attr_of]. destruct (dget a (lit "class")) as [v|] eqn:E; [|intros c []]. intros c I. apply (O v); [now exists nm, a, t, k|exact I]. }
  clear O W. induction F as [|w ps ws pss H F IH]; [cbn; split; [intros _ w []|reflexivity]|]. inversion_clear C as [|? ? C1 C2]. cbn [forallb]. rewrite andb_true_iff, (IH C2), (re_test_word w ps _ C1 H S). split.
  - intros [A B] v [<-|V]; auto.
  - intros A. split; [apply A; now left|intros v V; apply A; now right].
Qed.
(** Class names.  Missing: classes separated by other white space than spaces,
    names with characters that are special in regular expressions. *)
Theorem c59_class_partial s n names nsmap : split_ws names <> [] -> Forall plain_name (split_ws names) -> (forall p x, at_path n p = Some x -> only_spaces x) ->
  exists l, fst (by_class s n names nsmap) = Ok l /\ lists s n (fun x => forall w, In w (split_ws names) -> In w (classes x)) l.
Proof.
  intros N P O. unfold by_class. pose proof (split_clean names) as C. destruct (patterns_plain _ P) as (pss & E & F). destruct (split_ws names) as [|w ws] eqn:W; [contradiction|]. cbn [fst]. rewrite E. eexists. split; [reflexivity|].
  pose proof (select_lists s n (fun x => forallb (fun p => re_test p (class_of x)) pss) (fun x => forallb (fun p => re_test p (class_of x)) pss = true) (fun x _ => iff_refl _)) as [S M].
  split; [exact S|]. intros p. rewrite M. split; intros (x & A & B & D & G); exists x; repeat split; auto; [intros v V; revert v V; apply (class_iff _ pss); eauto|apply (class_iff (w :: ws)); eauto].
Qed.
Print Assumptions c59_class_partial.
Example c59_class_case : fst (by_class true doc0 (lit " small red ") None) = Ok [[0; 1]]%nat /\ fst (by_class true doc0 (lit "red") None) = Ok [[0]; [0; 1]]%nat.
Proof. vm_compute. now split. Qed.
(* no names, no elements *)
Theorem c59_class_none s n names nsmap : split_ws names = [] -> by_class s n names nsmap = (Ok [], nsmap).
Proof. unfold by_class. now intros ->. Qed.
Print Assumptions c59_class_none.
(* a dot in a name matches any character; a tab does not separate classes *)
Theorem c59_class_refuted : exists n1 n2, fst (by_class true n1 (lit "a.b") None) = Ok [[]] /\ ~ In (lit "a.b") (classes n1) /\ fst (by_class true n2 (lit "a") None) = Ok [] /\ In (lit "a") (classes n2).
Proof.
  exists (el "g" [(lit "class", lit "axb")] None []), (el "g" [(lit "class", lit "a" ++ [9] ++ lit "b")] None []). split; [vm_compute; reflexivity|]. split; [vm_compute; intros [H|[]]; discriminate|]. split; [vm_compute; reflexivity|vm_compute; now left].
Qed.
Print Assumptions c59_class_refuted.
(* the caller's prefixes are changed *)
Theorem c59_prefixes_refuted : exists n, snd (by_class true n (lit "a") (Some [])) <> Some [].
Proof. exists XOther. vm_compute. discriminate. Qed.
Print Assumptions c59_prefixes_refuted.

(** ** C60 *)
Definition text0 : xnode := el "text" [] (Some (lit "a")) [(el "tspan" [] (Some (lit "b")) [(el "tspan" [] None [], Some (lit "c"))], Some (lit "d")); (el "tspan" [] (Some (lit "e")) [], None)].
(* text and tspan with nothing but tspan in them: all text, in order.
   Missing: comments, and elements other than 'tspan', in the text *)
Theorem c60_text_partial n : spans n -> local_named (lit "text") n \/ local_named (lit "tspan") n -> text_content n = Some (all_text n).
Proof.
  intros S L. assert (T : text_content n = Some (chars_of n)) by (destruct L as [L|L]; destruct L as (nm & a & t & k & -> & E); unfold text_content; rewrite E; reflexivity).
  rewrite T, chars_pruned. now rewrite pruned_spans.
Qed.
Print Assumptions c60_text_partial.
Example c60_text_case : spans text0 /\ text_content text0 = Some (lit "abcde").
Proof. split; [|vm_compute; reflexivity]. assert (L : forall a t k, local_named (lit "tspan") (el "tspan" a t k)) by (intros; do 4 eexists; split; reflexivity). repeat (constructor; cbn [fst]; auto). Qed.
(* in general: the text of what is left without the other children and what follows them *)
Theorem c60_text n : local_named (lit "text") n \/ local_named (lit "tspan") n -> text_content n = Some (all_text (pruned n)).
Proof.
  intros L. assert (T : text_content n = Some (chars_of n)) by (destruct L as [L|L]; destruct L as (nm & a & t & k & -> & E); unfold text_content; rewrite E; reflexivity).
  now rewrite T, chars_pruned.
Qed.
Print Assumptions c60_text.
(* the text after a comment or a title is lost, and all of a link and a text path *)
Theorem c60_text_refuted : exists n1 n2 n3, (all_text n1 = lit "ab" /\ text_content n1 = Some (lit "a")) /\ (all_text n2 = lit "atb" /\ text_content n2 = Some (lit "a")) /\ (all_text n3 = lit "abc" /\ text_content n3 = Some (lit "a")).
Proof.
  exists (el "text" [] (Some (lit "a")) [(XOther, Some (lit "b"))]), (el "text" [] (Some (lit "a")) [(el "title" [] (Some (lit "t")) [], Some (lit "b"))]), (el "text" [] (Some (lit "a")) [(el "textPath" [] (Some (lit "b")) [], Some (lit "c"))]).
  vm_compute. now repeat split.
Qed.
Print Assumptions c60_text_refuted.
(* descriptive elements: the text before the first child; other elements: nothing *)
Theorem c60_descriptive nm a t kids : In (x_local nm) [lit "desc"; lit "metadata"; lit "title"] -> text_content (XElem nm a t kids) = t /\ (kids = [] -> t <> None -> text_content (XElem nm a t kids) = Some (all_text (XElem nm a t kids))).
Proof. intros H. apply mem_in in H. unfold text_content, descriptive. rewrite H. split; [reflexivity|]. intros -> N. cbn. destruct t; [now rewrite app_nil_r|contradiction]. Qed.
Print Assumptions c60_descriptive.
Theorem c60_other_refuted : exists n, all_text n = lit "x" /\ text_content n = None.
Proof. exists (el "g" [] None [(el "text" [] (Some (lit "x")) [], None)]). vm_compute. now split. Qed.
Print Assumptions c60_other_refuted.
(* what is set is what there is *)
Theorem c60_set n t : In (local_of n) [lit "desc"; lit "metadata"; lit "title"; lit "text"; lit "tspan"] -> text_content (set_text_content n (Some t)) = Some t /\ all_text (set_text_content n (Some t)) = t /\
  (forall k, attr_of (set_text_content n (Some t)) k = attr_of n k) /\ local_of (set_text_content n (Some t)) = local_of n /\ forall p, p <> [] -> at_path (set_text_content n (Some t)) p = None.
Proof.
  destruct n as [nm a t0 k|]; [|cbn; intros H; repeat (destruct H as [H|H]; [discriminate|]); destruct H]. cbn [local_of set_text_content]. intros H. split; [|split; [cbn; now rewrite app_nil_r|]].
  - unfold text_content. cbn [In] in H. repeat (destruct H as [H|H]; [rewrite <- H; cbn; now rewrite ?app_nil_r|]). destruct H.
  - split; [reflexivity|]. split; [reflexivity|]. intros [|[|i] p] Q; [contradiction|reflexivity|reflexivity].
Qed.
Print Assumptions c60_set.
Example c60_set_case : text_content (set_text_content text0 (Some (lit "new"))) = Some (lit "new").
Proof. vm_compute. reflexivity. Qed.
