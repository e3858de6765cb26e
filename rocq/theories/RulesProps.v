(** C63: trees of CSS rules. *)
From Coq Require Import ZArith Lia.
From Verif Require Import PyBase PyText PyList PySplit PyDict PyCase UtilsModel UtilsSpec UtilsProofs UtilsProps RulesModel RulesSpec RulesProofs RulesProofs2.
#[local] Open Scope nat_scope.

Definition res1 (t : text) : text := lit "http://h/" ++ t.
Definition styl (s : text) : node := Qual [Ident s] [Ident (lit "color"); Lit (lit ":"); Ident (lit "red")].
Definition medi (inner : list node) : node := At (lit "media") [Ident (lit "print")] true [] inner.
Definition page : list node :=
  [At (lit "import") [Other (lit " "); Str (lit "a.css"); Ident (lit "print")] false [] []; At (lit "charset") [] false [] []; styl (lit "p"); Bad;
   medi [styl (lit "q"); medi [styl (lit "r")]; At (lit "font-face") [] true [] []]; At (lit "namespace") [Ident (lit "svg"); Url (lit "u")] false [] []].

(** The rules made are those of the kept at-rules and the qualified rules, in order, with
    their CSSOM types; nothing else makes a rule. *)
Theorem c63_types resolve sheet parent l n rs m : parse_rules resolve sheet parent l n = Ok (rs, m) -> map type_of rs = flat_map node_type l.
Proof. intros H. exact (s_types _ _ _ _ _ _ _ (rules_made _ _ _ _ _ _ _ H)). Qed.
Print Assumptions c63_types.
(** Each rule says what its node says: selector, block, media, address and namespace. *)
Theorem c63_describes resolve sheet parent l n rs m : parse_rules resolve sheet parent l n = Ok (rs, m) -> Forall2 (fun nd r => describes resolve nd (kind_of r)) (filter known l) rs.
Proof. intros H. exact (s_desc _ _ _ _ _ _ _ (rules_made _ _ _ _ _ _ _ H)). Qed.
Print Assumptions c63_describes.
Example c63_describes_ex : exists rs m, parse_rules res1 (Some 0) None page 0 = Ok (rs, m) /\ map type_of rs = [3; 1; 4; 10]%N /\
  map kind_of rs = [KImport (Some (lit "http://h/a.css")) [Ident (lit "print")]; KStyle [Ident (lit "p")] [Ident (lit "color"); Lit (lit ":"); Ident (lit "red")];
                    KMedia [Ident (lit "print")]; KNamespace (Some (lit "u")) (lit "svg")].
Proof. eexists _, _. split; [vm_compute; reflexivity|]. split; reflexivity. Qed.
(** A media rule holds exactly the rules of its block, made under it. *)
Theorem c63_media resolve sheet parent p c inner n rs m : parse_node resolve sheet parent (At (lit "media") p true c inner) n = Ok (rs, m) ->
  exists kids, rs = [Rl n (KMedia p) sheet parent kids] /\ parse_rules resolve sheet (Some n) inner (S n) = Ok (kids, m) /\ map type_of kids = flat_map node_type inner.
Proof.
  rewrite parse_node_at. replace (text_eqb (lit "media") (lit "font-face")) with false by reflexivity. replace (text_eqb (lit "media") (lit "font-feature-values")) with false by reflexivity.
  replace (text_eqb (lit "media") (lit "import")) with false by reflexivity. replace (text_eqb (lit "media") (lit "media")) with true by reflexivity.
  destruct (parse_rules resolve sheet (Some n) inner (S n)) as [[kids k]|] eqn:E; [|discriminate]. cbn [bind]. intros [= <- <-]. exists kids. split; [reflexivity|]. split; [reflexivity|]. exact (c63_types _ _ _ _ _ _ _ E).
Qed.
Print Assumptions c63_media.
(** Every rule of the tree names the sheet and the rule it is in; no rule object is there
    twice. *)
Theorem c63_parents resolve sheet parent l n rs m : parse_rules resolve sheet parent l n = Ok (rs, m) ->
  Forall (placed sheet parent) rs /\ NoDup (flat_map ids rs) /\ forall i, In i (flat_map ids rs) -> n <= i < m.
Proof. intros H. destruct (rules_made _ _ _ _ _ _ _ H). auto. Qed.
Print Assumptions c63_parents.
Example c63_parents_ex : exists rs m, parse_rules res1 (Some 0) None page 0 = Ok (rs, m) /\ flat_map ids rs = seq 0 8 /\ m = 8. Proof. eexists _, _. split; [vm_compute; reflexivity|]. split; reflexivity. Qed.
(** Reading two pieces one after the other is reading them joined. *)
Theorem c63_join resolve sheet parent a b n x m y k : parse_rules resolve sheet parent a n = Ok (x, m) -> parse_rules resolve sheet parent b m = Ok (y, k) -> parse_rules resolve sheet parent (a ++ b) n = Ok (x ++ y, k).
Proof. intros A B. rewrite parse_app, A. cbn [bind]. rewrite B. reflexivity. Qed.
Print Assumptions c63_join.
(** Reading fails exactly when a rule that must have a block has none. *)
Theorem c63_total resolve sheet parent l n : (exists rs m, parse_rules resolve sheet parent l n = Ok (rs, m)) <-> forallb blocked l = true.
Proof. now rewrite rules_total. Qed.
Print Assumptions c63_total.
(** False: a broken at-rule only loses itself.  "p{} @media print;" loses the whole sheet. *)
Theorem c63_broken_refuted : forallb blocked [styl (lit "p")] = true /\ parse_rules res1 (Some 0) None [styl (lit "p"); At (lit "media") [Ident (lit "print")] false [] []] 0 = Err TypeError.
Proof. split; reflexivity. Qed.
Print Assumptions c63_broken_refuted.
(** False: a namespace rule keeps its name.  With a string it has none. *)
Theorem c63_namespace_refuted : exists rs m, parse_rules res1 (Some 0) None [At (lit "namespace") [Ident (lit "svg"); Str (lit "u")] false [] []] 0 = Ok (rs, m) /\ map kind_of rs = [KNamespace None (lit "svg")].
Proof. eexists _, _. split; reflexivity. Qed.
Print Assumptions c63_namespace_refuted.

(** ** Feature values *)
(** A feature value is the last one declared under its name, upper and lower case alike,
    in all the blocks of its feature type, whatever is between the tokens. *)
Theorem c63_features nodes es : Forall2 wrote nodes es -> exists fs, features_of no_features nodes = Ok fs /\
  forall ft, In ft feature_words -> exists held, dget fs ft = Some held /\
    forall nm, ci_get lower held nm = match value_after lower (history_of ft es) nm None with Some v => Ok v | None => Err KeyError end.
Proof.
  intros H. destruct (features_follow nodes es H no_features [] follows_start) as (fs & E & F). exists fs. split; [exact E|]. intros ft I. exists (ci_run lower (history_of ft es)). split.
  - rewrite F. cbn [app]. replace (mem ft feature_types) with true; [reflexivity|]. symmetry. unfold mem. apply existsb_exists. exists ft. split; [exact I|apply text_eqb_refl].
  - intros nm. apply c40_lookup.
Qed.
Print Assumptions c63_features.
(** Only the six feature types are kept. *)
Theorem c63_feature_types nodes es fs ft : Forall2 wrote nodes es -> features_of no_features nodes = Ok fs -> ~ In ft feature_words -> dget fs ft = None.
Proof.
  intros H E I. destruct (features_follow nodes es H no_features [] follows_start) as (fs' & E' & F). rewrite E in E'. injection E' as <-. rewrite F. destruct (mem ft feature_types) eqn:M; [|reflexivity]. elim I.
  unfold mem in M. apply existsb_exists in M. destruct M as (x & J & K). destruct (text_eqb_spec ft x) as [Q|Q]; [now subst|discriminate].
Qed.
Print Assumptions c63_feature_types.
(** Whatever the tokens are, the lists kept are not empty and hold no negative number. *)
Theorem c63_feature_values nodes fs ft m k v : features_of no_features nodes = Ok fs -> dget fs ft = Some m -> dget (cdata m) k = Some v -> v <> [] /\ Forall (fun n => (0 <= n)%Z) v.
Proof.
  intros E. apply (values_of nodes no_features fs); [|exact E]. clear. intros ft m k v D W. exfalso. revert D W. rewrite (follows_start ft). destruct (mem ft feature_types); [|discriminate]. intros [= <-]. cbn. discriminate.
Qed.
Print Assumptions c63_feature_values.
Definition swash : node := At (lit "swash") [] true [Other (lit " "); Ident (lit "Fancy"); Lit (lit ":"); Other (lit " "); Int 1; Other (lit " "); Int 2; Lit (lit ";"); Ident (lit "flowing"); Lit (lit ":"); Int 3; Lit (lit ";")] [].
Definition swash2 : node := At (lit "swash") [] true [Ident (lit "fancy"); Lit (lit ":"); Int 7; Lit (lit ";")] [].
Example c63_features_ex : Forall2 wrote [swash; swash2] [(lit "swash", [(lit "Fancy", [1; 2]%Z); (lit "flowing", [3]%Z)]); (lit "swash", [(lit "fancy", [7]%Z)])] /\
  exists fs held, features_of no_features [swash; swash2] = Ok fs /\ dget fs (lit "swash") = Some held /\ ci_get lower held (lit "FANCY") = Ok [7]%Z /\ ci_get lower held (lit "flowing") = Ok [3]%Z.
Proof.
  split; [|eexists _, _; split; [vm_compute; reflexivity|split; [reflexivity|split; reflexivity]]].
  repeat (apply Forall2_cons; [eexists _, _, _; split; [reflexivity|]; split; [vm_compute; reflexivity|repeat (apply Forall_cons; [split; [discriminate|repeat (apply Forall_cons; [lia|]); apply Forall_nil]|]); apply Forall_nil]|]). apply Forall2_nil.
Qed.
(** False: the last declaration of a block needs no semicolon.  Without one it is lost. *)
Theorem c63_last_refuted : features_of no_features [At (lit "swash") [] true [Ident (lit "fancy"); Lit (lit ":"); Int 7] []] = Ok no_features.
Proof. reflexivity. Qed.
Print Assumptions c63_last_refuted.

(** ** Edits *)
(** Through every history of insertions and deletions, in the sheet and in its media
    rules, failed ones among them, every rule names the sheet and the rule it is in, and no
    rule object is there twice. *)
Theorem c63_history resolve s ops : sheet_ok s -> sheet_ok (edits resolve s ops) /\ sid (edits resolve s ops) = sid s /\ owner_rule (edits resolve s ops) = owner_rule s.
Proof. apply edits_ok. Qed.
Print Assumptions c63_history.
Theorem c63_history_start resolve i owner l n rs m ops : parse_rules resolve (Some i) owner l n = Ok (rs, m) -> sheet_ok (edits resolve (mkSheet i owner rs m) ops).
Proof.
  intros H. apply edits_ok. destruct (rules_made _ _ _ _ _ _ _ H) as [_ _ A3 A4 A5 A6]. split; cbn [sid owner_rule css_rules fresh]; auto. intros j I. apply A6 in I. lia.
Qed.
Print Assumptions c63_history_start.
Definition sheet1 : style_sheet := match parse_rules res1 (Some 0) None page 0 with Ok (rs, m) => mkSheet 0 None rs m | Err _ => mkSheet 0 None [] 0 end.
Example c63_history_ex : let s := edits res1 sheet1 [Insert [2; 1] [styl (lit "x"); styl (lit "y")] 0; Delete [] 9; Delete [2] (-1); Insert [0] [styl (lit "x")] 0; Delete [] 0] in
  map ids (css_rules s) = [[1]; [2; 3; 4; 8; 9; 5]; [7]] /\ fresh s = 10. Proof. split; reflexivity. Qed.
(* where a Python slice at [i] starts *)
Definition start (len : nat) (i : Z) : nat := Z.to_nat (Z.min (Z.of_nat len) (if (i <? 0)%Z then Z.max 0 (Z.of_nat len + i) else i)).
Lemma clamp_start len i : clamp_index len i = start len i.
Proof.
  unfold clamp_index, start. cbv zeta. destruct (Z.ltb_spec i 0).
  - destruct (Z.ltb_spec (i + Z.of_nat len) 0); [now replace (Z.to_nat _) with 0 by lia|]. destruct (Z.ltb_spec (Z.of_nat len) (i + Z.of_nat len)); lia.
  - destruct (Z.ltb_spec i 0); [lia|]. destruct (Z.ltb_spec (Z.of_nat len) i); lia.
Qed.
(** An insertion puts the new rules at the index, in order, and moves no other. *)
Theorem c63_insert resolve s nodes i s' : edit resolve s (Insert [] nodes i) = Ok s' -> exists new, parse_rules resolve (Some (sid s)) (owner_rule s) nodes (fresh s) = Ok (new, fresh s') /\
  css_rules s' = firstn (start (length (css_rules s)) i) (css_rules s) ++ new ++ skipn (start (length (css_rules s)) i) (css_rules s).
Proof.
  unfold edit. cbn [at_place]. destruct (parse_rules _ _ _ _ _) as [[new m]|]; [|discriminate]. cbn [bind]. intros [= <-]. exists new. cbn [fresh css_rules]. split; [reflexivity|]. unfold list_set_slice. now rewrite Nat.max_id, clamp_start.
Qed.
Print Assumptions c63_insert.
(** It fails exactly as reading the new rules does. *)
Theorem c63_insert_total resolve s nodes i : (exists s', edit resolve s (Insert [] nodes i) = Ok s') <-> forallb blocked nodes = true.
Proof.
  rewrite <- (c63_total resolve (Some (sid s)) (owner_rule s) nodes (fresh s)). unfold edit. cbn [at_place]. destruct (parse_rules _ _ _ _ _) as [[new m]|]; cbn [bind]; split; [eauto|eauto|intros (? & X); discriminate X|intros (? & ? & X); discriminate X].
Qed.
Print Assumptions c63_insert_total.
(** A deletion takes exactly the rule at the index; outside the list it fails. *)
Theorem c63_delete resolve s i : let len := Z.of_nat (length (css_rules s)) in
  ((- len <= i < len)%Z -> exists a r b s', css_rules s = a ++ r :: b /\ Z.of_nat (length a) = (if i <? 0 then len + i else i)%Z /\ edit resolve s (Delete [] i) = Ok s' /\ css_rules s' = a ++ b) /\
  (~ (- len <= i < len)%Z -> edit resolve s (Delete [] i) = Err IndexError).
Proof.
  cbv zeta. unfold edit. cbn [at_place]. unfold list_del, norm_index. cbv zeta. set (len := length (css_rules s)). set (j := if (i <? 0)%Z then (i + Z.of_nat len)%Z else i). split; intros H.
  - assert (J : (0 <= j < Z.of_nat len)%Z) by (unfold j; destruct (Z.ltb_spec i 0); lia). replace ((0 <=? j)%Z && (j <? Z.of_nat len)%Z)%bool with true by (symmetry; apply andb_true_iff; split; [apply Z.leb_le|apply Z.ltb_lt]; lia).
    cbn [bind]. destruct (nth_error (css_rules s) (Z.to_nat j)) as [r|] eqn:E; [|apply nth_error_None in E; fold len in E; lia]. exists (firstn (Z.to_nat j) (css_rules s)), r, (skipn (S (Z.to_nat j)) (css_rules s)).
    eexists. split; [now apply split_nth|]. split; [|split; [reflexivity|reflexivity]]. rewrite firstn_length. fold len. unfold j in *. destruct (Z.ltb_spec i 0); lia.
  - assert (J : ~ (0 <= j < Z.of_nat len)%Z) by (unfold j; destruct (Z.ltb_spec i 0); lia). destruct ((0 <=? j)%Z && (j <? Z.of_nat len)%Z)%bool eqn:B; [|reflexivity]. apply andb_true_iff in B. destruct B as [B1 B2]. apply Z.leb_le in B1. apply Z.ltb_lt in B2. lia.
Qed.
Print Assumptions c63_delete.
Lemma split_same {A} (a c b d : list A) : length a = length c -> a ++ b = c ++ d -> a = c.
Proof. revert c. induction a as [|x a IH]; intros [|y c]; cbn [length app]; try discriminate; [reflexivity|]. intros [= L] [= -> E]. f_equal. now apply IH. Qed.
(** Deleting a rule just inserted at an index of the list restores the rules. *)
Theorem c63_undo resolve s nodes i s1 r m : (0 <= i <= Z.of_nat (length (css_rules s)))%Z -> parse_rules resolve (Some (sid s)) (owner_rule s) nodes (fresh s) = Ok ([r], m) ->
  edit resolve s (Insert [] nodes i) = Ok s1 -> exists s2, edit resolve s1 (Delete [] i) = Ok s2 /\ css_rules s2 = css_rules s.
Proof.
  intros L P E. apply c63_insert in E. destruct E as (new & P' & C). rewrite P in P'. injection P' as <- _. set (k := start (length (css_rules s)) i) in *. assert (K : Z.of_nat k = i) by (unfold k, start; destruct (Z.ltb_spec i 0); lia).
  assert (W : length (firstn k (css_rules s)) = k) by (rewrite firstn_length; lia). cbn [app] in C. assert (LL : length (css_rules s1) = S (length (css_rules s))).
  { rewrite C, app_length. cbn [length]. rewrite W, skipn_length. lia. }
  destruct (c63_delete resolve s1 i) as [D _]. destruct D as (a & x & b & s2 & D1 & D2 & D3 & D4); [rewrite LL; lia|]. exists s2. split; [exact D3|]. rewrite D4. rewrite C in D1. replace (i <? 0)%Z with false in D2 by (symmetry; apply Z.ltb_ge; lia).
  assert (LA : length a = k) by lia. assert (A : a = firstn k (css_rules s)) by (apply (split_same a _ (x :: b) (r :: skipn k (css_rules s))); [congruence|now symmetry]).
  subst a. apply app_inv_head in D1. injection D1 as _ <-. apply firstn_skipn.
Qed.
Print Assumptions c63_undo.
Example c63_undo_ex : exists s1 s2, edit res1 sheet1 (Insert [] [styl (lit "x")] 4) = Ok s1 /\ map type_of (css_rules s1) = [3; 1; 4; 10; 1]%N /\ edit res1 s1 (Delete [] 4) = Ok s2 /\ css_rules s2 = css_rules sheet1.
Proof. eexists _, _. split; [vm_compute; reflexivity|]. split; [reflexivity|]. split; reflexivity. Qed.
(** An edit inside a media rule changes no other rule of the sheet, and not the types of
    its rules. *)
Theorem c63_elsewhere resolve s o i place s' : edit resolve s o = Ok s' -> match o with Insert p _ _ | Delete p _ => p end = i :: place ->
  length (css_rules s') = length (css_rules s) /\ (forall j, j <> i -> nth_error (css_rules s') j = nth_error (css_rules s) j) /\
  exists id m sh p kids kids', nth_error (css_rules s) i = Some (Rl id (KMedia m) sh p kids) /\ nth_error (css_rules s') i = Some (Rl id (KMedia m) sh p kids').
Proof.
  assert (G : forall sheet parent l f l' n, at_place (i :: place) sheet parent l f = Ok (l', n) -> length l' = length l /\ (forall j, j <> i -> nth_error l' j = nth_error l j) /\
     exists id m sh p kids kids', nth_error l i = Some (Rl id (KMedia m) sh p kids) /\ nth_error l' i = Some (Rl id (KMedia m) sh p kids')).
  { intros sheet parent l f l' n. cbn [at_place]. destruct (nth_error l i) as [[id k sh p kids]|] eqn:E; [|discriminate]. destruct k as [a b|a|a b|a b|m|a b]; try discriminate.
    destruct (at_place place sh (Some id) kids f) as [[kids' n']|]; [|discriminate]. pose proof (split_nth l i _ E) as S. assert (LI : length (firstn i l) = i) by (rewrite firstn_length; assert (i < length l) by (apply nth_error_Some; congruence); lia).
    remember (firstn i l) as u. remember (skipn (Datatypes.S i) l) as v. clear Hequ Heqv. cbn [bind]. intros [= <- <-]. subst l. split; [now rewrite !app_length|]. split.
    - intros j J. destruct (Nat.lt_ge_cases j (length u)) as [X|X]; [now rewrite !nth_error_app1|]. rewrite !nth_error_app2 by exact X. destruct (j - length u) as [|q] eqn:Q; [lia|reflexivity].
    - exists id, m, sh, p, kids, kids'. split; [reflexivity|]. rewrite nth_error_app2 by lia. now replace (i - length u) with 0 by lia. }
  intros H P. unfold edit in H. destruct o as [q nodes k|q k]; subst q; (destruct (at_place _ _ _ _ _) as [[l n]|] eqn:E in H; [|discriminate]; cbn [bind] in H; injection H as <-; cbn [css_rules]; exact (G _ _ _ _ _ _ E)).
Qed.
Print Assumptions c63_elsewhere.
Example c63_elsewhere_ex : exists s', edit res1 sheet1 (Delete [2; 1] 0) = Ok s' /\ flat_map ids (css_rules s') = [0; 1; 2; 3; 4; 6; 7]. Proof. eexists. split; reflexivity. Qed.
(** False (CSSOM): an insertion adds one rule or fails; an index past the end fails; an
    import rule comes before style rules and never inside a media rule. *)
Theorem c63_cssom_refuted :
  (exists s', edit res1 sheet1 (Insert [] [styl (lit "x"); styl (lit "y")] 0) = Ok s' /\ length (css_rules s') = 6) /\
  (exists s', edit res1 sheet1 (Insert [] [styl (lit "x")] 99) = Ok s' /\ length (css_rules s') = 5) /\
  (exists s', edit res1 sheet1 (Insert [] [] 0) = Ok s' /\ css_rules s' = css_rules sheet1) /\
  (exists s', edit res1 sheet1 (Insert [2] [At (lit "import") [Str (lit "b")] false [] []] 99) = Ok s' /\ flat_map (fun r => map type_of (kids_of r)) (css_rules s') = [1; 4; 5; 3]%N).
Proof. repeat split; eexists; (split; [vm_compute; reflexivity|]; reflexivity). Qed.
Print Assumptions c63_cssom_refuted.
