(** Proofs about loading. *)
From Coq Require Import Lia Bool List.
From Verif Require Import PyBase PyText PyCase PyDict PySplit PyStrip UtilsModel UtilsSpec UtilsProofs UtilsProps UrlModel UrlSpec UrlProofs UrlProofs2 UrlProofs3 UrlProofs4 LoadModel LoadSpec.
Import ListNotations.
#[local] Open Scope N_scope.

(** ** base64 *)
Lemma b64_char_val n : n < 64 -> b64_val (b64_char n) = Some n /\ b64_char n <> 61 /\ b64_char n < 128.
Proof.
  intros L. unfold b64_char, b64_val, is_up, is_low, is_digit.
  destruct (N.ltb_spec n 26); [|destruct (N.ltb_spec n 52); [|destruct (N.ltb_spec n 62); [|destruct (N.eqb_spec n 62)]]].
  - replace (65 <=? n + 65) with true by (symmetry; apply N.leb_le; lia). replace (n + 65 <=? 90) with true by (symmetry; apply N.leb_le; lia). cbn [andb]. split; [f_equal; lia|lia].
  - replace (n + 71 <=? 90) with false by (symmetry; apply N.leb_gt; lia). rewrite andb_false_r.
    replace (97 <=? n + 71) with true by (symmetry; apply N.leb_le; lia). replace (n + 71 <=? 122) with true by (symmetry; apply N.leb_le; lia). cbn [andb]. split; [f_equal; lia|lia].
  - replace (65 <=? n - 4) with false by (symmetry; apply N.leb_gt; lia). replace (97 <=? n - 4) with false by (symmetry; apply N.leb_gt; lia). cbn [andb].
    replace (48 <=? n - 4) with true by (symmetry; apply N.leb_le; lia). replace (n - 4 <=? 57) with true by (symmetry; apply N.leb_le; lia). cbn [andb]. split; [f_equal; lia|lia].
  - subst n. vm_compute. repeat split; discriminate.
  - assert (n = 63) by lia. subst n. vm_compute. repeat split; discriminate.
Qed.
Lemma a2b_char n q l p t : n < 64 -> a2b q l p (b64_char n :: t) =
  (if q =? 0 then a2b 1 n 0 t
   else if q =? 1 then do b <- a2b 2 (n mod 16) 0 t; Ok (l * 4 + n / 16 :: b)
   else if q =? 2 then do b <- a2b 3 (n mod 4) 0 t; Ok (l * 16 + n / 4 :: b)
   else do b <- a2b 0 0 0 t; Ok (l * 64 + n :: b)).
Proof. intros L. destruct (b64_char_val n L) as (V & E & _). cbn [a2b]. replace (b64_char n =? 61) with false by (symmetry; now apply N.eqb_neq). now rewrite V. Qed.
Ltac dm2 a b := let q := fresh "q" in let r := fresh "r" in pose proof (N.div_mod' a b); assert (a mod b < b) by (apply N.mod_lt; discriminate); set (r := a mod b) in *; set (q := a / b) in *; clearbody q r.
Ltac dm := repeat match goal with
 | |- context [?a mod ?b] => dm2 a b
 | |- context [?a / ?b] => dm2 a b
 | _ : context [?a mod ?b] |- _ => dm2 a b
 | _ : context [?a / ?b] |- _ => dm2 a b
 end; lia.
Lemma three_ind {A} (P : list A -> Prop) : P [] -> (forall x, P [x]) -> (forall x y, P [x; y]) -> (forall x y z r, P r -> P (x :: y :: z :: r)) -> forall l, P l.
Proof.
  intros H0 H1 H2 H3. assert (K : forall n l, (length l < n)%nat -> P l).
  { induction n as [|n IH]; intros l L; [lia|]. destruct l as [|x [|y [|z r]]]; auto. apply H3, IH. cbn in L. lia. }
  intros l. apply (K (S (length l))). lia.
Qed.
Lemma bytes_cons x r : bytes (x :: r) -> x < 256 /\ bytes r.
Proof. intros H. inversion H. now split. Qed.
Lemma a2b_encode b : bytes b -> a2b 0 0 0 (b64encode b) = Ok b.
Proof.
  induction b as [|x|x y|x y z r IH] using three_ind; intros B; cbn [b64encode].
  - reflexivity.
  - apply bytes_cons in B as [L _]. rewrite a2b_char by dm. cbn [N.eqb]. rewrite a2b_char by dm. cbn [N.eqb Pos.eqb]. match goal with |- context [a2b 2 ?l 0 [61; 61]] => change (a2b 2 l 0 [61; 61]) with (@Ok (list N) []) end. cbn [bind]. repeat f_equal. dm.
  - apply bytes_cons in B as [L B]. apply bytes_cons in B as [L2 _]. rewrite a2b_char by dm. cbn [N.eqb]. rewrite a2b_char by dm. cbn [N.eqb Pos.eqb]. rewrite a2b_char by dm. cbn [N.eqb Pos.eqb]. match goal with |- context [a2b 3 ?l 0 [61]] => change (a2b 3 l 0 [61]) with (@Ok (list N) []) end. cbn [bind]. repeat f_equal; dm.
  - apply bytes_cons in B as [L B]. apply bytes_cons in B as [L2 B]. apply bytes_cons in B as [L3 B].
    rewrite a2b_char by dm. cbn [N.eqb Pos.eqb]. rewrite a2b_char by dm. cbn [N.eqb Pos.eqb]. rewrite a2b_char by dm. cbn [N.eqb Pos.eqb]. rewrite a2b_char by dm. cbn [N.eqb Pos.eqb].
    rewrite (IH B). cbn [bind]. repeat f_equal; dm.
Qed.
Lemma b64encode_chars b : bytes b -> forall c, In c (b64encode b) -> c = 61 \/ exists n, n < 64 /\ c = b64_char n.
Proof.
  induction b as [|x|x y|x y z r IH] using three_ind; intros B c I; cbn [b64encode In] in I.
  - contradiction.
  - apply bytes_cons in B as [L _]. destruct I as [<- | [<- | [<- | [<- | []]]]]; auto; right; eexists; (split; [|reflexivity]); dm.
  - apply bytes_cons in B as [L B]. apply bytes_cons in B as [L2 _]. destruct I as [<- | [<- | [<- | [<- | []]]]]; auto; right; eexists; (split; [|reflexivity]); dm.
  - apply bytes_cons in B as [L B]. apply bytes_cons in B as [L2 B]. apply bytes_cons in B as [L3 B].
    destruct I as [<- | [<- | [<- | [<- | I]]]]; [right; eexists; (split; [|reflexivity]); dm..|]. now apply IH.
Qed.
Lemma b64_char_plain n : n < 64 -> is_alnum (b64_char n) = true \/ b64_char n = 43 \/ b64_char n = 47.
Proof.
  intros L. destruct (b64_char_val n L) as (V & _). unfold b64_val in V. unfold is_alnum. destruct (is_up _); [now left|]. destruct (is_low _); [now left|]. destruct (is_digit _); [now left|].
  destruct (N.eqb_spec (b64_char n) 43); [auto|]. destruct (N.eqb_spec (b64_char n) 47); [auto|discriminate].
Qed.
Lemma alnum_range c : is_alnum c = true -> 48 <= c <= 57 \/ 65 <= c <= 90 \/ 97 <= c <= 122.
Proof. unfold is_alnum, is_up, is_low, is_digit. rewrite !orb_true_iff, !andb_true_iff, !N.leb_le. lia. Qed.
Lemma b64encode_range b : bytes b -> forall c, In c (b64encode b) -> c = 43 \/ 47 <= c <= 57 \/ c = 61 \/ 65 <= c <= 90 \/ 97 <= c <= 122.
Proof.
  intros B c I. destruct (b64encode_chars b B c I) as [-> | (n & L & ->)]; [lia|]. destruct (b64_char_plain n L) as [P | [P | P]]; [apply alnum_range in P|..]; lia.
Qed.
Lemma b64_roundtrip b : bytes b -> b64decode (b64encode b) = Ok b.
Proof.
  intros B. unfold b64decode. replace (forallb _ _) with true; [now apply a2b_encode|]. symmetry. apply forallb_forall. intros c I. apply N.ltb_lt. pose proof (b64encode_range b B c I). lia.
Qed.
(* characters outside the alphabet are skipped *)
Lemma a2b_skip c : b64_val c = None -> c <> 61 -> forall s q l p t, a2b q l p (s ++ c :: t) = a2b q l p (s ++ t).
Proof.
  intros V E. induction s as [|x s IH]; intros q l p t.
  - cbn [app]. cbn [a2b]. replace (c =? 61) with false by (symmetry; now apply N.eqb_neq). now rewrite V.
  - cbn [app a2b]. destruct (x =? 61); [destruct (2 <=? q); [destruct (4 <=? _); [reflexivity|apply IH]|apply IH]|].
    destruct (b64_val x); [|apply IH]. rewrite !IH. reflexivity.
Qed.
Lemma b64_skip c s t : c < 128 -> b64_val c = None -> c <> 61 -> b64decode (s ++ c :: t) = b64decode (s ++ t).
Proof. intros L V E. unfold b64decode. rewrite !forallb_app. cbn [forallb]. replace (c <? 128) with true by (symmetry; now apply N.ltb_lt). cbn [andb]. now rewrite a2b_skip. Qed.

(** ** Headers and content types *)
Lemma fold_run {V} (l : list (text * V)) : forall h, fold_left (fun m p => ci_set lower m (fst p) (snd p)) l (ci_run lower h) = ci_run lower (h ++ map (fun p => CSet (fst p) (snd p)) l).
Proof.
  induction l as [|[k v] l IH]; intros h; [now rewrite app_nil_r|]. cbn [fold_left map fst snd].
  replace (ci_set lower (ci_run lower h) k v) with (ci_run lower (h ++ [CSet k v])) by (unfold ci_run; rewrite fold_left_app; reflexivity).
  rewrite IH, <- app_assoc. reflexivity.
Qed.
Lemma value_after_sets l k v : value_after lower (map (fun p => CSet (fst p) (snd p)) l) k v = match last_value k l with Some x => Some x | None => v end.
Proof.
  revert v. induction l as [|[k' x] l IH]; intros v; [reflexivity|]. cbn [map fst snd value_after op_key last_value]. rewrite IH.
  destruct (last_value k l); [reflexivity|]. now destruct (text_eqb _ _).
Qed.
Lemma header_get l k : ci_get lower (header_map l) k = match last_value k l with Some x => Ok x | None => Err KeyError end.
Proof. unfold header_map. rewrite c40_lookup, value_after_sets. now destruct (last_value k l). Qed.
(* a mapping copied has the same values *)
Lemma last_value_in l k v : last_value k l = Some v -> exists k', In (k', v) l /\ lower k' = lower k.
Proof.
  induction l as [|[k' x] l IH]; [discriminate|]. cbn [last_value]. destruct (last_value k l) as [y|].
  - intros [= ->]. destruct (IH eq_refl) as (k2 & I & E). exists k2. split; [now right|exact E].
  - destruct (text_eqb_spec (lower k') (lower k)); [|discriminate]. intros [= ->]. exists k'. split; [now left|assumption].
Qed.
Lemma last_value_none l k : last_value k l = None -> forall k' v, In (k', v) l -> lower k' <> lower k.
Proof.
  induction l as [|[k' x] l IH]; [intros _ ? ? []|]. cbn [last_value]. destruct (last_value k l); [discriminate|]. destruct (text_eqb_spec (lower k') (lower k)); [discriminate|].
  intros _ k2 v [E | I]; [injection E as <- <-; assumption|now apply (IH eq_refl k2 v)].
Qed.
Lemma copy_get h k : ci_get lower (fold_left (fun m p => ci_set lower m (fst p) (snd p)) (cdata (ci_run lower h)) (@ci_empty text)) k = ci_get lower (ci_run lower h) k.
Proof.
  change (@ci_empty text) with (ci_run lower (@nil (ci_op text))). rewrite fold_run. cbn [app]. rewrite !c40_lookup, value_after_sets.
  destruct (last_value k (cdata (ci_run lower h))) as [v|] eqn:L.
  - destruct (last_value_in _ _ _ L) as (k' & I & E). apply c40_items in I as [_ I].
    assert (X : value_after lower h k None = value_after lower h k' None).
    { clear - E. generalize (@None text). induction h as [|o h IH]; intros v; [reflexivity|]. cbn [value_after]. rewrite E. apply IH. }
    now rewrite X, I.
  - destruct (value_after lower h k None) as [v|] eqn:G; [|reflexivity]. exfalso.
    assert (S : is_some (value_after lower h k None) = true) by now rewrite G. apply c40_listed in S as (k' & B & E).
    assert (X : value_after lower h k' None = Some v).
    { rewrite <- G. clear - E. generalize (@None text). induction h as [|o h IH]; intros w; [reflexivity|]. cbn [value_after]. rewrite E. apply IH. }
    apply (last_value_none _ _ L k' v); [|exact E]. apply c40_items. now split.
Qed.
Lemma part_of_split k v : ~ In 61 k -> ~ In 61 v -> split_on 61 (k ++ lit "=" ++ v) = [k; v].
Proof.
  intros K V. change (k ++ lit "=" ++ v) with (join [61] [k; v]). apply split_on_join; [discriminate|].
  repeat constructor; apply forallb_forall; intros x I; apply negb_true_iff, N.eqb_neq; intros <-; contradiction.
Qed.
Lemma split_count c t : length (split_on c t) = S (count_occ N.eq_dec t c).
Proof.
  unfold split_on. generalize (@nil N). induction t as [|x t IH]; intros w; [reflexivity|]. cbn [split_on_acc count_occ].
  destruct (N.eqb_spec c x) as [D | D], (N.eq_dec x c) as [E | E]; try congruence; cbn [length]; now rewrite IH.
Qed.
Lemma fold_params ps : Forall part_ok ps -> forall h, fold_left get_param (map part_of ps) (ci_run lower h) = ci_run lower (h ++ map (fun p => CSet (fst p) (snd p)) (values ps)).
Proof.
  induction 1 as [|p ps P F IH]; intros h; [cbn; now rewrite app_nil_r|]. cbn [map fold_left]. destruct P as [_ P]. destruct p as [k v|t]; cbn [part_of].
  - destruct P as [K V]. unfold get_param at 2. rewrite (part_of_split k v K V).
    replace (ci_set lower (ci_run lower h) k v) with (ci_run lower (h ++ [CSet k v])) by (unfold ci_run; rewrite fold_left_app; reflexivity).
    rewrite IH, <- app_assoc. reflexivity.
  - unfold get_param at 2. pose proof (split_count 61 t) as L. destruct (split_on 61 t) as [|a [|b [|c r]]]; cbn in L; try (rewrite IH; reflexivity). exfalso. apply P. lia.
Qed.
Lemma split_parts l : l <> [] -> Forall part_text l -> map strip (split_on 59 (join (lit ";") l)) = l.
Proof.
  intros NE F. change (lit ";") with [59]. rewrite split_on_join; [|exact NE|].
  - clear NE. induction F as [|t l [S _] F IH]; [reflexivity|]. cbn [map]. now rewrite S, IH.
  - eapply Forall_impl; [|exact F]. intros t [_ N]. apply forallb_forall. intros x I. apply negb_true_iff, N.eqb_neq. intros <-. contradiction.
Qed.
Lemma content_type_read l m ps : last_value (lit "Content-Type") l = Some (content_type m ps) -> part_text m -> Forall part_ok ps ->
  get_content_type (header_map l) = Some (m, ci_run lower (map (fun p => CSet (fst p) (snd p)) (values ps))).
Proof.
  intros L M P. unfold get_content_type. cbv zeta. unfold header_map at 1. rewrite copy_get. fold (header_map l). rewrite header_get, L. unfold content_type. rewrite split_parts; [| discriminate|].
  - change (@ci_empty text) with (ci_run lower (@nil (ci_op text))). now rewrite fold_params.
  - constructor; [exact M|]. apply Forall_map. eapply Forall_impl; [|exact P]. now intros p [X _].
Qed.
Lemma content_type_none l : last_value (lit "Content-Type") l = None -> get_content_type (header_map l) = None.
Proof. intros L. unfold get_content_type. cbv zeta. unfold header_map at 1. rewrite copy_get. fold (header_map l). now rewrite header_get, L. Qed.

(** ** Data URLs *)
Lemma lit_cons_split (p : text) : lit "data:" ++ p = lit "data" ++ 58 :: p.
Proof. reflexivity. Qed.
Lemma data_url w p : url_text p -> p <> [] -> starts_slash p = false -> exists u, parse_url w blank (lit "data:" ++ p) = (u, None) /\ u_protocol u = lit "data:" /\ u_pathname u = p.
Proof.
  intros U NE SL. apply avoids_in in U. rewrite parse_url_eq. unfold urlsplit.
  rewrite (dropwhile_head _ (lit "data:" ++ p)) by reflexivity.
  rewrite filter_avoids by (rewrite avoids_app; rewrite (avoids_sub _ _ _ U) by reflexivity; reflexivity).
  rewrite lit_cons_split, cut_app by reflexivity.
  replace (match lit "data" with c :: s0 => if (is_up c || is_low c) && forallb (fun c => is_alnum c || is_in c (lit "+-.")) s0 then (lower (c :: s0), p) else ([], lit "data" ++ 58 :: p) | [] => ([], lit "data" ++ 58 :: p) end) with (lit "data", p) by (vm_compute; reflexivity).
  cbv beta iota zeta.
  match goal with |- context [match ?m with (a, b) => @?k a b end] => assert (M : m = ([] : text, p)); [|rewrite M; clear M] end.
  { destruct p as [|x r]; [reflexivity|]. destruct (N.eq_dec x 47) as [-> | X]; [discriminate|]. destruct x as [|q]; [reflexivity|]. do 6 (destruct q as [q|q|]; try reflexivity). contradiction. }
  cbv beta iota zeta. change (xorb (is_in 91 []) (is_in 93 [])) with false. cbv iota.
  rewrite cut_or_none by (apply (avoids_sub _ _ _ U); reflexivity). cbv beta iota. rewrite cut_or_none by (apply (avoids_sub _ _ _ U); reflexivity). cbv beta iota.
  cbn [sp_scheme sp_netloc sp_path sp_query sp_fragment].
  destruct p as [|c r]; [congruence|]. change (nonempty (c :: r)) with true. change (nonempty (lit "data")) with true. cbn [negb]. rewrite andb_false_r. cbn [andb orb].
  change (set_protocol blank (lit "data")) with (with_protocol blank (lit "data:"), @None pyerr). cbv beta iota. cbn [authority].
  unfold set_pathname. cbn [u_protocol with_protocol with_username with_password with_host with_hostname with_port].
  change (is_some (default_port (lit "data:"))) with false. cbn [andb]. change (mem (lit "data:") [lit "blob:"; lit "data:"]) with true. change (opaque (lit "data:")) with true. cbn [negb andb].
  unfold set_hash, set_search. eexists. split; [reflexivity|]. split; reflexivity.
Qed.
Lemma load_data_url w n p : url_text p -> p <> [] -> starts_slash p = false -> load w n (lit "data:" ++ p) = load_data w p.
Proof.
  intros U NE SL. destruct (data_url w p U NE SL) as (u & E & P & Q). unfold load, construct. rewrite E. cbn [fst bind]. rewrite P.
  change (text_eqb (lit "data:") (lit "data:")) with true. cbv iota. unfold get_pathname. rewrite P. change (opaque (lit "data:")) with true. cbn [negb andb]. now rewrite Q, SL.
Qed.
Lemma stripped_join l : Forall (fun t => strip t = t) l -> strip (join (lit ";") l) = join (lit ";") l.
Proof.
  intros F. apply stripped_strip. induction F as [|t l S F IH]; [split; reflexivity|]. apply strip_iff in S. destruct S as [S1 S2].
  destruct l as [|x l]; [cbn [join]; now split|]. cbn [join]. change (lit ";") with [59] in *. destruct IH as [_ I2]. split.
  - destruct t; [reflexivity|exact S1].
  - cbn [join] in I2. rewrite !rev_app_distr. destruct (rev (join [59] (x :: l))) as [|y r] eqn:R; cbn [join] in R; rewrite R in *; [cbn; reflexivity|exact I2].
Qed.
Lemma remove_first_app x a b : ~ In x a -> remove_first x (a ++ x :: b) = a ++ b.
Proof.
  induction a as [|y a IH]; intros N; cbn [app remove_first]; [now rewrite text_eqb_refl|]. destruct (text_eqb_spec x y); [exfalso; apply N; left; congruence|]. f_equal. apply IH. intros I. apply N. now right.
Qed.
Lemma data_cut (ct d : text) : ~ In 44 ct -> cut 44 (ct ++ lit "," ++ d) = Some (ct, d).
Proof. intros N. change (lit "," ++ d) with (44 :: d). apply cut_app, avoids_in. intros c I [<- | []]. contradiction. Qed.
Lemma join_in (l : list text) c : In c (join (lit ";") l) -> c = 59 \/ exists t, In t l /\ In c t.
Proof.
  induction l as [|t l IH]; [intros []|]. destruct l as [|x l]; cbn [join]; [intros I; right; exists t; split; [now left|exact I]|].
  intros I. apply in_app_or in I as [I | I]; [right; exists t; split; [now left|exact I]|]. destruct I as [<- | I]; [now left|]. destruct (IH I) as [-> | (y & Y & J)]; [now left|]. right. exists y. split; [now right|exact J].
Qed.
(* percent-decoding of what has no percent sign *)
Lemma head_all f t : (forall c, In c t -> f c = false) -> head_not f t = true.
Proof. intros H. destruct t as [|c t]; [reflexivity|]. cbn. now rewrite H by now left. Qed.
Lemma unquote_plain w t : decodes w -> unicode t -> ~ In 37 t -> unquote w t = t.
Proof.
  intros [D _] U N. assert (Q : quote t t = t).
  { unfold quote. assert (G : forall s, incl s t -> flat_map (quote_char t) s = s).
    { induction s as [|c s IH]; intros I; [reflexivity|]. cbn [flat_map]. rewrite quote_safe_char, IH; [reflexivity|intros x X; apply I; now right|].
      unfold safe_char. replace (is_in c t) with true; [now rewrite orb_true_r|]. symmetry. apply is_in_iff, I. now left. }
    apply G, incl_refl. }
  rewrite <- Q at 1. now apply D.
Qed.
Lemma qchar_space c : qchar [] c = true -> is_space c = false.
Proof.
  intros Q. assert (R : 37 <= c <= 126).
  { unfold qchar, safe_char in Q. rewrite !orb_true_iff in Q. destruct Q as [[[Q | Q] | Q] | Q].
    - apply alnum_range in Q. lia.
    - apply is_in_iff in Q. cbn in Q. lia.
    - discriminate.
    - apply N.eqb_eq in Q. lia. }
  unfold is_space. repeat rewrite orb_false_iff. rewrite !andb_false_iff, !N.leb_gt, !N.eqb_neq. lia.
Qed.
Lemma url_text_ok t : avoids [9; 10; 13; 35; 63] t = true -> url_text t.
Proof. intros H. exact (proj1 (avoids_in _ _) H). Qed.
