(** C58: search parameters. *)
From Coq Require Import Sorted Permutation.
From Verif Require Import PyBase PyText PyDict PySplit UrlModel UrlSpec UrlProofs4 SearchParamsModel SearchParamsSpec SearchParamsProofs.
#[local] Open Scope N_scope.

(** Parameters with characters of every kind. *)
Definition params0 : dict text := [(lit "b&c", lit "1+1=2"); ([233; 128512], lit "50% off"); (lit "a b", [])].
(* whatever the keys and values, the text read back gives them, sorted by key *)
Theorem c58_read d : dict_ok d -> Forall (fun p => unicode (fst p) /\ unicode (snd p)) d ->
  Permutation d (read_form (params_text d)) /\ in_order (read_form (params_text d)).
Proof. intros D F. rewrite read_params by exact F. split; [apply sort_perm|]. apply in_order_ordered. now apply sort_ordered. Qed.
Print Assumptions c58_read.
Example c58_read_case : dict_ok params0 /\ params_text params0 = lit "a+b=&b%26c=1%2B1%3D2&%C3%A9%F0%9F%98%80=50%25+off".
Proof. split; [|vm_compute; reflexivity]. repeat constructor; cbn; intuition discriminate. Qed.
(* so different parameters have different texts *)
Theorem c58_injective a b : dict_ok a -> dict_ok b -> Forall (fun p => unicode (fst p) /\ unicode (snd p)) a -> Forall (fun p => unicode (fst p) /\ unicode (snd p)) b ->
  params_text a = params_text b -> Permutation a b.
Proof. intros A B F G E. destruct (c58_read a A F) as [P _], (c58_read b B G) as [Q _]. rewrite E in P. now rewrite P. Qed.
Print Assumptions c58_injective.
(* and the order in which they were set does not matter *)
Theorem c58_order a b : dict_ok a -> Permutation a b -> params_text a = params_text b.
Proof. exact (params_order a b). Qed.
Print Assumptions c58_order.
Example c58_order_case : Permutation params0 (rev params0) /\ params0 <> rev params0 /\ params_text (rev params0) = params_text params0.
Proof. split; [apply Permutation_rev|]. split; [discriminate|vm_compute; reflexivity]. Qed.
(* the text needs no further quoting *)
Theorem c58_chars d : Forall form_char (params_text d).
Proof. exact (params_chars d). Qed.
Print Assumptions c58_chars.
(* nothing to say, nothing said *)
Theorem c58_empty d : params_text d = [] <-> d = [].
Proof.
  split; [|intros ->; reflexivity]. destruct d as [|p d]; [reflexivity|]. intros E. exfalso. rewrite params_text_eq in E by discriminate. pose proof (sort_nonempty (p :: d) ltac:(discriminate)) as N.
  destruct (sort_params (p :: d)) as [|q l]; [contradiction|]. cbn [map] in E. assert (X : form_pair q = []) by (destruct l; [exact E|]; now apply app_eq_nil in E as [X _]). unfold form_pair in X. now destruct (form_text (fst q)).
Qed.
Print Assumptions c58_empty.

(** The mapping: after any operations each key is there once, with the last
    value it was given since it was last taken away. *)
Theorem c58_new l k : dict_ok (params_new l) /\ dget (params_new l) k = last_of l k None.
Proof. exact (new_get l k). Qed.
Print Assumptions c58_new.
Theorem c58_run l ops k : dict_ok (params_run (params_new l) ops) /\ dget (params_run (params_new l) ops) k = fold_left (value_after k) ops (last_of l k None).
Proof. destruct (new_get l k) as [D E]. rewrite <- E. now apply run_get. Qed.
Print Assumptions c58_run.
Example c58_run_case : params_run (params_new [(lit "a", lit "1"); (lit "b", lit "2"); (lit "a", lit "3")])
    [PSetDefault (lit "a") (lit "4"); PDel (lit "b"); PDel (lit "c"); PUpdate [(lit "d", []); (lit "b", lit "5")]; PPop (lit "d")] = [(lit "a", lit "3"); (lit "b", lit "5")].
Proof. vm_compute. reflexivity. Qed.
(* only deleting a key that is not there fails, and then nothing changes *)
Theorem c58_error d o e : snd (params_step d o) = Some e -> (exists k, o = PDel k /\ e = KeyError /\ dget d k = None) /\ fst (params_step d o) = d.
Proof. intros H. apply step_error in H as (k & -> & -> & E). split; [eauto|]. cbn. unfold dhas. now rewrite E. Qed.
Print Assumptions c58_error.
Theorem c58_delete_missing d k : dget d k = None -> snd (params_step d (PDel k)) = Some KeyError.
Proof. intros E. apply step_error. eauto. Qed.
Print Assumptions c58_delete_missing.

(** Given to URL.search, the text sets the parameters if they are letters,
    digits, spaces and some signs: the setter does not decode.
    Missing: all other characters. *)
Theorem c58_search_partial u d : dict_ok d -> Forall (fun p => form_plain (fst p) /\ form_plain (snd p)) d ->
  Permutation d (u_params (fst (set_search u (params_text d)))).
Proof. intros D F. rewrite search_of_params by assumption. apply sort_perm. Qed.
Print Assumptions c58_search_partial.
Example c58_search_case : u_params (fst (set_search blank (params_text [(lit "b", lit "x y"); (lit "A*", lit "1.5")]))) = [(lit "A*", lit "1.5"); (lit "b", lit "x y")].
Proof. vm_compute. reflexivity. Qed.
Theorem c58_search_refuted : exists u d, dict_ok d /\ d = [(lit "k", lit "a&b")] /\ u_params (fst (set_search u (params_text d))) = [(lit "k", lit "a%26b")].
Proof. exists blank, [(lit "k", lit "a&b")]. split; [repeat constructor; cbn; tauto|]. split; [reflexivity|vm_compute; reflexivity]. Qed.
Print Assumptions c58_search_refuted.
(* URL.search, unlike this text, confuses parameters *)
Theorem c58_confused_refuted : exists u v, dget (u_params u) (lit "k") = Some (lit "1+1") /\ dget (u_params v) (lit "k") = Some (lit "1 1") /\ get_search u = get_search v /\
  params_text (u_params u) <> params_text (u_params v).
Proof. exists (with_params blank [(lit "k", lit "1+1")]), (with_params blank [(lit "k", lit "1 1")]). split; [reflexivity|]. split; [reflexivity|]. split; [vm_compute; reflexivity|vm_compute; discriminate]. Qed.
Print Assumptions c58_confused_refuted.
