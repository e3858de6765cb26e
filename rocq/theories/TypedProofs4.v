(** Property maps (C67). *)
From Coq Require Import ZArith NArith List Lia.
From Verif Require Import PyBase PyText PySplit PyDict PyCase DatasetModel DatasetProofs SupportModel SupportTable SupportSpec SupportProofs SupportProofs2 SupportProofs3 SupportProps ShortModel ShortSpec ShortProofs ShortProofs2 TypedTable TypedModel TypedSpec TypedProofs TypedProofs2 TypedProofs3.
#[local] Open Scope N_scope.
Import ListNotations.

Lemma fits_spec name a : match a with AText _ => True | AOther => False | AValue v => match vassoc v with Some p => text_eqb name p = true | None => True end end <-> fits_name name a.
Proof. destruct a as [t|v|]; cbn; try tauto. destruct (vassoc v) as [p|]; [|intuition]. destruct (text_eqb_spec name p); split; intros H; try congruence; auto; [right; congruence|]. destruct H as [H|H]; congruence. Qed.
Lemma wrong_arg_none name l : wrong_arg name l = None <-> Forall (fits_name name) l.
Proof.
  induction l as [|a r IH]; cbn [wrong_arg]; [split; constructor|]. rewrite Forall_cons_iff, <- (fits_spec name a), <- IH. destruct a as [t|v|]; [tauto| |split; [discriminate|tauto]].
  destruct (vassoc v) as [p|]; [|tauto]. destruct (text_eqb name p); [tauto|]. split; [discriminate|]. intros [H _]. discriminate.
Qed.
Lemma lone_spec l : (Nat.ltb 1 (length l) && existsb unparsed l)%bool = false <-> lone l.
Proof.
  unfold lone. rewrite andb_false_iff, Nat.ltb_ge. split; (intros [H|H]; [now left|right]).
  - intros v I0 E. assert (X : existsb unparsed l = true) by (apply existsb_exists; exists (AValue v); split; [exact I0|cbn; now rewrite E]). congruence.
  - destruct (existsb unparsed l) eqn:E; [|reflexivity]. apply existsb_exists in E as (a & I0 & U). destruct a as [t|v|]; try discriminate U. elim (H v I0). cbn in U. now destruct (vkind_of v).
Qed.
Lemma wrong_args_none name l : wrong_args name l = None <-> may_set name l.
Proof.
  unfold wrong_args, may_set. rewrite <- wrong_arg_none, <- lone_spec. destruct (wrong_arg name l); [split; [discriminate|intros [H _]; discriminate]|]. destruct (_ && _)%bool; split; auto; [discriminate|intros [_ H]; discriminate].
Qed.
Lemma joined_spec name l t : joined name l t <-> set_text name l = t.
Proof.
  unfold joined, set_text. destruct (mem name list_valued_properties) eqn:E; [apply mem_in in E|apply mem_false in E]; intuition congruence.
Qed.
(* the operations of a map are operations of the block *)
Definition ops_of (L : lib) (b : block) (n : text) (rest : list dop) : list dop := if contains b n then DRemove n :: rest else rest.
Lemma delete_run L b n : breadonly b = false -> sm_delete L b n = (fold_left (drun (lcss L)) (ops_of L b n []) b, None).
Proof. intros R. unfold sm_delete, ops_of. destruct (contains b n); [|reflexivity]. cbn [fold_left drun]. unfold remove_property. rewrite R. reflexivity. Qed.
Lemma contains_key b n : contains b (key n) = contains b n.
Proof. unfold contains. now rewrite key_key. Qed.
Lemma set_run L b n l : breadonly b = false ->
  fst (sm_set L b n l) = match wrong_args (key n) l with Some _ => b | None => fold_left (drun (lcss L)) (ops_of L b (key n) [DSet (key n) (set_text (key n) l) None]) b end.
Proof.
  intros R. unfold sm_set. cbv zeta. destruct (wrong_args (key n) l); [reflexivity|]. rewrite (delete_run L b (key n) R). unfold ops_of. destruct (contains b (key n)); cbn [fold_left drun].
  - destruct (set_property _ _ _ _ None); reflexivity.
  - destruct (set_property _ _ _ _ None); reflexivity.
Qed.
Lemma written_key n : written (key n) = written n.
Proof. unfold written. now rewrite key_key. Qed.
Lemma drun_list_ok c ops b : block_ok b -> breadonly b = false -> block_ok (fold_left (drun c) ops b) /\ breadonly (fold_left (drun c) ops b) = false.
Proof. revert b. induction ops as [|o r IH]; intros b B R; [auto|]. cbn [fold_left]. apply IH; [now apply drun_ok|now apply drun_writable]. Qed.
Lemma mrun_ok L table reg o b : block_ok b -> breadonly b = false -> block_ok (mrun L table reg b o) /\ breadonly (mrun L table reg b o) = false.
Proof.
  intros B R. assert (SET : forall n l, block_ok (fst (sm_set L b n l)) /\ breadonly (fst (sm_set L b n l)) = false) by (intros n l; rewrite set_run by exact R; destruct (wrong_args _ _); [auto|now apply drun_list_ok]).
  destruct o as [n l|n|n l|n a|n|n|n]; cbn [mrun]; auto.
  - rewrite delete_run by exact R. now apply drun_list_ok.
  - unfold sm_setdefault. destruct (sm_get_all L table reg b n) as [|[]]; auto. apply SET.
  - unfold sm_pop. destruct (sm_get_all L table reg b n); [|auto]. rewrite delete_run by exact R. now apply drun_list_ok.
Qed.
Lemma parse_all_key L table reg n t : parse_all L table reg (key n) t = parse_all L table reg n t.
Proof. unfold parse_all. now rewrite key_key. Qed.
Definition quiet (L : lib) (table : dict descr) (reg : list text) : Prop := forall n t, parse_all L table reg n t <> Err KeyError.
Lemma step_keep L b n q ops : block_ok b -> breadonly b = false -> is_shorthand q = false -> key n <> q -> (is_shorthand (key n) = true -> ~ In q (written n)) ->
  (forall o, In o ops -> dop_name o = n) -> dget (bdecls (fold_left (drun (lcss L)) ops b)) q = dget (bdecls b) q.
Proof.
  intros B R Q K W. revert b B R. induction ops as [|o r IH]; intros b B R H; [reflexivity|]. cbn [fold_left].
  assert (N0 : dop_name o = n) by (apply H; now left). rewrite IH; [|now apply drun_ok|now apply drun_writable|intros x I0; apply H; now right].
  rewrite step_latest; [|exact B|exact R|exact Q|now rewrite N0]. destruct o as [m v p|m]; cbn [dop_name latest_step] in *; subst m; destruct (text_eqb_spec (key n) q); congruence.
Qed.
Lemma delete_at L b n : block_ok b -> breadonly b = false -> is_shorthand (key n) = false -> dget (bdecls (fold_left (drun (lcss L)) (ops_of L b n []) b)) (key n) = None.
Proof.
  intros B R Q. unfold ops_of. destruct (contains b n) eqn:C; cbn [fold_left].
  - rewrite step_latest; auto; [|cbn [dop_name]; congruence]. cbn [latest_step]. now rewrite text_eqb_refl.
  - unfold contains, dhas in C. destruct (dget (bdecls b) (key n)); [discriminate|reflexivity].
Qed.
Lemma ops_names L b n rest : (forall o, In o rest -> dop_name o = n) -> forall o, In o (ops_of L b n rest) -> dop_name o = n.
Proof. intros H o I0. unfold ops_of in I0. destruct (contains b n); [|auto]. destruct I0 as [<-|I0]; auto. Qed.
Lemma m_same L table reg q e o e' : e' = e -> (match o with MSet n _ | MDelete n | MPop n => key n <> q | _ => True end) -> mstep L table reg q e o e'.
Proof. intros ->. apply m_other. Qed.
Lemma mstep_run L table reg q o b : quiet L table reg -> block_ok b -> breadonly b = false -> is_shorthand q = false ->
  (forall n, In n (mop_names o) -> is_shorthand (key n) = true -> ~ In q (written n)) ->
  mstep L table reg q (dget (bdecls b) q) o (dget (bdecls (mrun L table reg b o)) q).
Proof.
  intros QU B R Q W. destruct o as [n l|n|n l|n a|n|n|n]; cbn [mrun mop_names] in *; try now apply m_other.
  - rewrite set_run by exact R. destruct (text_eqb_spec (key n) q) as [K|K].
    + subst q. destruct (wrong_args (key n) l) as [e|] eqn:E.
      * apply m_refused; [reflexivity|]. intros M. apply wrong_args_none in M. congruence.
      * apply wrong_args_none in E. set (t := set_text (key n) l). assert (J : joined (key n) l t) by now apply joined_spec.
        set (b1 := fold_left (drun (lcss L)) (ops_of L b (key n) []) b).
        assert (X : fold_left (drun (lcss L)) (ops_of L b (key n) [DSet (key n) t None]) b = drun (lcss L) b1 (DSet (key n) t None)) by (unfold b1, ops_of; destruct (contains b (key n)); reflexivity).
        assert (B1 : block_ok b1 /\ breadonly b1 = false) by (apply drun_list_ok; assumption). destruct B1 as [B1 R1].
        assert (D1 : dget (bdecls b1) (key n) = None) by (unfold b1; rewrite <- (key_key n) at 2; apply delete_at; auto; now rewrite key_key).
        rewrite X, step_latest; auto; [|cbn [dop_name]; rewrite key_key; congruence]. rewrite D1. cbn [latest_step]. rewrite key_key, text_eqb_refl.
        destruct (nonempty (normalize_text t)) eqn:NE; [|apply (m_set_nothing _ _ _ _ _ n l t); auto; congruence].
        destruct (stored (lcss L) t) as [w|] eqn:S0; [|apply (m_set_nothing _ _ _ _ _ n l t); auto]. apply (m_set _ _ _ _ _ n l t w); auto.
    + apply m_same; [|exact K]. destruct (wrong_args (key n) l); [reflexivity|].
      apply (step_keep L b (key n)); auto; [now rewrite key_key|rewrite key_key, written_key; apply W; now left|]. apply ops_names. intros o [<-|[]]. reflexivity.
  - rewrite delete_run by exact R. cbn [fst]. destruct (text_eqb_spec (key n) q) as [K|K].
    + subst q. rewrite delete_at by auto. now apply m_delete.
    + apply m_same; [|exact K]. apply (step_keep L b n); auto; [apply W; now left|apply ops_names; intros o []].
  - unfold sm_setdefault. destruct (sm_get_all L table reg b n) as [vs|e] eqn:E; cbn [fst]; [now apply m_other|]. destruct e; cbn [fst]; try now apply m_other.
    exfalso. unfold sm_get_all in E. destruct (contains b n); [|discriminate]. now apply QU in E.
  - destruct (text_eqb_spec (key n) q) as [K|K].
    + subst q. unfold sm_pop, sm_get_all. rewrite (delete_run L b n R). unfold contains at 1, dhas. unfold get_property_value. rewrite Q.
      destruct (dget (bdecls b) (key n)) as [[v p]|] eqn:E.
      * destruct (parse_all L table reg n v) as [vs|e] eqn:P; cbn [fst].
        -- rewrite delete_at by auto. apply m_pop; [reflexivity|]. intros v' p' [= <- <-]. exists vs. now rewrite parse_all_key.
        -- rewrite E. apply (m_pop_raises _ _ _ _ _ n v p e); [reflexivity|reflexivity|now rewrite parse_all_key].
      * cbn [fst]. rewrite delete_at by auto. apply m_pop; [reflexivity|discriminate].
    + apply m_same; [|exact K]. unfold sm_pop. destruct (sm_get_all L table reg b n); [|reflexivity]. rewrite (delete_run L b n R). cbn [fst].
      apply (step_keep L b n); auto; [apply W; now left|apply ops_names; intros o []].
Qed.
Lemma mhistory_run L table reg q h : quiet L table reg -> is_shorthand q = false -> forall b, block_ok b -> breadonly b = false ->
  (forall o n, In o h -> In n (mop_names o) -> is_shorthand (key n) = true -> ~ In q (written n)) ->
  mhistory L table reg q (dget (bdecls b) q) h (dget (bdecls (fold_left (mrun L table reg) h b)) q).
Proof.
  intros QU Q. induction h as [|o h IH]; intros b B R W; [constructor|]. cbn [fold_left]. destruct (mrun_ok L table reg o b B R) as [B' R'].
  eapply h_cons; [apply mstep_run; auto; intros n; apply W; now left|]. apply IH; auto. intros o' n I0. apply W. now right.
Qed.
Lemma mstep_fun L table reg q e o x y : mstep L table reg q e o x -> mstep L table reg q e o y -> x = y.
Proof.
  assert (J : forall l t t', joined q l t -> joined q l t' -> t = t') by (intros l t t' A B; apply joined_spec in A, B; congruence).
  intros A B. destruct A as [o A|n A|n A P|n v p er A E P|n l A M|n l t w A M T NE S0|n l t A M T S0]; inversion B; subst; auto; try contradiction; try congruence.
  all: try match goal with H : forall v p, Some _ = Some (v, p) -> _ |- _ => destruct (H _ _ eq_refl) as [? ?]; congruence end.
  all: try match goal with T : joined ?q ?l ?t, T' : joined ?q ?l ?t' |- _ => rewrite (J _ _ _ T T') in *; try congruence end.
  all: match goal with H : _ -> stored _ _ = None, H' : nonempty _ = true |- _ => specialize (H H'); congruence end.
Qed.

(** ** What parsing raises *)
Lemma check_raises L d ts e : (forall k e, support (lcolor L) d k = Err e -> In e [ValueError; NotImplementedError_]) -> check_all L d ts = Err e -> In e [ValueError; NotImplementedError_].
Proof.
  intros S0. assert (C : forall k e, checked L d k = Err e -> In e [ValueError; NotImplementedError_]) by (intros k x; unfold checked; destruct (support (lcolor L) d k) as [[[] o]|y] eqn:E; cbn; [discriminate|intros [= <-]; auto|intros [= <-]; now apply S0 in E]).
  induction ts as [|[k x] r IH]; cbn [check_all]; [discriminate|]. destruct (comma k); [exact IH|]. destruct (checked L d k) eqn:E; cbn [bind]; [|intros [= <-]; now apply C in E]. destruct (check_all L d r); cbn [bind]; [discriminate|exact IH].
Qed.
Lemma groups_raises L d ts e : (forall k e, support (lcolor L) d k = Err e -> In e [ValueError; NotImplementedError_]) -> forall cur, groups L d ts cur = Err e -> In e [ValueError; NotImplementedError_].
Proof.
  intros S0. assert (C : forall k e, checked L d k = Err e -> In e [ValueError; NotImplementedError_]) by (intros k x; unfold checked; destruct (support (lcolor L) d k) as [[[] o]|y] eqn:E; cbn; [discriminate|intros [= <-]; auto|intros [= <-]; now apply S0 in E]).
  induction ts as [|[k x] r IH]; intros cur; cbn [groups]; [discriminate|]. destruct (comma k).
  - specialize (IH []). destruct (groups L d r []); cbn [bind]; [discriminate|exact IH].
  - destruct (checked L d k) eqn:E; cbn [bind]; [apply IH|intros [= <-]; now apply C in E].
Qed.
Lemma reify_raises L name g e : reify L name g = Err e -> In e [ValueError; IndexError] \/ exists x, lnumeric L x = Some e.
Proof.
  unfold reify. cbv zeta. set (t := fold_keyword _). clearbody t. unfold keyword_value.
  assert (U : forall v, (do v <- url_value t; Ok (mkT VUrl v None None)) = Err v -> In v [ValueError; IndexError]) by (intros v; unfold url_value; destruct (match url_inner t with Some r => r | None => t end); cbn; [intros [= <-]; auto|discriminate]).
  repeat match goal with |- context [if ?b then _ else _] => destruct b | |- context [match t with [] => _ | _ => _ end] => destruct t | |- context [match g with [] => _ | _ => _ end] => destruct g as [|[? [?|]] ?] end;
  try discriminate; try (intros [= <-]; cbn; now auto);
  repeat match goal with |- context [if ?b then _ else _] => destruct b end; try discriminate; try (intros [= <-]; cbn; now auto); try (intros X; apply U in X; auto);
  match goal with |- context [lnumeric L ?x] => destruct (lnumeric L x) eqn:E; [intros [= <-]; eauto|discriminate] end.
Qed.
Lemma reify_all_raises L name gs e : reify_all L name gs = Err e -> In e [ValueError; IndexError] \/ exists x, lnumeric L x = Some e.
Proof. induction gs as [|g r IH]; cbn [reify_all]; [discriminate|]. destruct (reify L name g) eqn:E; cbn [bind]; [|intros [= <-]; eapply reify_raises; eauto]. destruct (reify_all L name r); cbn [bind]; [discriminate|exact IH]. Qed.
Lemma support_raises cw t k e : support cw (descriptor t) k = Err e -> In e [ValueError; NotImplementedError_].
Proof. assert (X := support_total cw t k). destruct (broken k) as [e0|] eqn:BR; [|destruct X as [a X]; congruence]. rewrite X. intros [= <-]. destruct k; try discriminate BR; injection BR as <-; cbn; auto. Qed.
Lemma parse_raises L reg name t e : parse_all L css_property_descriptor_map reg name t = Err e ->
  In e [ValueError; NotImplementedError_; IndexError] \/ exists x, lnumeric L x = Some e.
Proof.
  unfold parse_all. cbv zeta. set (u := fold_keyword t). destruct (_ || _)%bool; [discriminate|].
  set (d := match dget css_property_descriptor_map (key name) with Some d => d | None => descriptor ANY end).
  assert (S0 : forall k e, support (lcolor L) d k = Err e -> In e [ValueError; NotImplementedError_]).
  { intros k x. unfold d. destruct (dget css_property_descriptor_map (key name)) as [d0|] eqn:G; [|apply support_raises].
    assert (D : d0 = descriptor (d_syntax d0)) by (revert G; apply map_descriptors; discriminate). rewrite D. apply support_raises. }
  assert (W : forall x, In x [ValueError; NotImplementedError_] -> In x [ValueError; NotImplementedError_; IndexError]) by (cbn; intuition).
  assert (W' : forall x, In x [ValueError; IndexError] -> In x [ValueError; NotImplementedError_; IndexError]) by (cbn; intuition).
  destruct (mem (key name) single_multi_valued_properties).
  - destruct (check_all L d (ltokens L u)) as [ss|x] eqn:C; cbn [bind].
    + destruct (reify_all L (key name) _) as [vs|x] eqn:R; cbn [bind]; [|intros [= <-]; apply reify_all_raises in R as [R|R]; auto].
      destruct (_ && _)%bool; cbn [bind]; [intros [= <-]; cbn; auto|]. destruct (map _ vs) as [|? [|? ?]]; discriminate.
    + intros [= <-]. left. apply W. eapply check_raises; eauto.
  - destruct (groups L d (ltokens L u) []) as [ss|x] eqn:C; cbn [bind].
    + destruct (reify_all L (key name) _) as [vs|x] eqn:R; cbn [bind]; [|intros [= <-]; apply reify_all_raises in R as [R|R]; auto].
      destruct (_ && _)%bool; cbn [bind]; [intros [= <-]; cbn; auto|]. destruct (map _ vs) as [|? [|? ?]]; discriminate.
    + intros [= <-]. left. apply W. eapply groups_raises; eauto.
Qed.
Lemma quiet_table L reg : (forall x, lnumeric L x <> Some KeyError) -> quiet L css_property_descriptor_map reg.
Proof. intros H n t E. apply parse_raises in E as [E|[x E]]; [cbn in E; intuition discriminate|now apply H in E]. Qed.
