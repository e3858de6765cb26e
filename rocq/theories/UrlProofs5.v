(** The host and its port. *)
From Coq Require Import Lia.
From Verif Require Import PyBase PyText PyCase PyDict PySplit UrlModel UrlSpec UrlProofs UrlProofs2 UrlProofs3.
#[local] Open Scope N_scope.

Lemma before_last_app c a b : ~ In c b -> before_last c (a ++ c :: b) = a ++ [c].
Proof.
  intros N. unfold before_last. change (c :: b) with ([c] ++ b). rewrite app_assoc, rdropwhile_app.
  - apply rdropwhile_id. rewrite rev_app_distr. cbn. rewrite N.eqb_refl. reflexivity.
  - apply forallb_forall. intros x I. destruct (N.eqb_spec x c) as [->|]; [contradiction|reflexivity].
Qed.
Lemma colons_none t : ~ In 58 t -> count_occ N.eq_dec t 58%N = O.
Proof. apply count_occ_not_In. Qed.
Lemma colons_two t : two_colons t -> (1 < count_occ N.eq_dec t 58%N)%nat.
Proof. intros (x & y & z & ->). rewrite count_occ_app. cbn. rewrite count_occ_app. cbn. lia. Qed.
Lemma colons_mono a t b : (count_occ N.eq_dec t 58%N <= count_occ N.eq_dec (a ++ t ++ b) 58%N)%nat.
Proof. rewrite !count_occ_app. lia. Qed.
Lemma is_in_spec c t : is_in c t = true <-> In c t.
Proof. unfold is_in. rewrite existsb_exists. split; [intros (x & I & E); apply N.eqb_eq in E; now subst|intros I; exists c; split; [exact I|apply N.eqb_refl]]. Qed.
Definition split_host (h : text) : option (text * option text) :=
  let colons := count_occ N.eq_dec h 58 in
  if (1 <? colons)%nat then
    match h with
    | 91 :: _ => if is_in 93 h then Some (before_last 93 h, Some (tl (skipn (length (before_last 93 h)) h))) else None
    | _ => Some (91 :: h ++ [93], None)
    end
  else if (colons =? 1)%nat then Some (removelast (before_last 58 h), Some (skipn (length (before_last 58 h)) h))
  else Some (h, None).
Lemma split_parts h n p : host_parts h n p -> split_host h = Some (n, p).
Proof.
  intros H. unfold split_host. destruct H as [h H|n p Hn Hp|a A|a p A Hp|h A B].
  - rewrite (colons_none h H). reflexivity.
  - rewrite count_occ_app. cbn [count_occ]. destruct (N.eq_dec 58 58); [|congruence]. rewrite (colons_none n Hn), (colons_none p Hp). cbn [Nat.ltb Nat.leb Nat.add Nat.eqb].
    rewrite (before_last_app 58 n p Hp), removelast_last. f_equal. f_equal. f_equal. change (58 :: p) with ([58] ++ p). rewrite app_assoc. now rewrite skipn_app, skipn_all, Nat.sub_diag.
  - assert (C := colons_two a A). assert (D := colons_mono [91] a [93]). cbn [app] in D. replace (1 <? _)%nat with true by (symmetry; apply Nat.ltb_lt; lia).
    replace (is_in 93 (91 :: a ++ [93])) with true by (symmetry; apply is_in_spec; right; apply in_or_app; right; now left).
    change (91 :: a ++ [93]) with ((91 :: a) ++ 93 :: []). rewrite (before_last_app 93 (91 :: a) []) by tauto. rewrite skipn_all. reflexivity.
  - assert (C := colons_two a A). assert (D := colons_mono [91] a (93 :: 58 :: p)). cbn [app] in D. replace (1 <? _)%nat with true by (symmetry; apply Nat.ltb_lt; lia).
    replace (is_in 93 (91 :: a ++ 93 :: 58 :: p)) with true by (symmetry; apply is_in_spec; right; apply in_or_app; right; now left).
    change (91 :: a ++ 93 :: 58 :: p) with ((91 :: a) ++ 93 :: 58 :: p). rewrite (before_last_app 93 (91 :: a) (58 :: p)) by (intros [E|I]; [discriminate|contradiction]).
    change (93 :: 58 :: p) with ([93] ++ 58 :: p). rewrite (app_assoc (91 :: a)). rewrite skipn_app, skipn_all, Nat.sub_diag. reflexivity.
  - assert (C := colons_two h A). replace (1 <? _)%nat with true by (symmetry; apply Nat.ltb_lt; lia). destruct h as [|c r]; [reflexivity|].
    destruct (N.eq_dec c 91) as [->|N]; [exfalso; exact (B _ eq_refl)|]. destruct c as [|q]; [reflexivity|].
    do 7 (destruct q as [q|q|]; try reflexivity). all: try reflexivity; congruence.
Qed.
Lemma host_chars_ok t : host_text t -> existsb (fun c => is_in c ([9; 10; 13; 32] ++ lit "#%/?@\")) t = false.
Proof.
  intros (_ & H). destruct (existsb _ t) eqn:E; [|reflexivity]. exfalso. apply existsb_exists in E as (c & I & M). apply is_in_spec in M. exact (H c I M).
Qed.
Lemma port_set u p : port_text p -> exists v, set_port u p = (v, None) /\ u_hostname v = u_hostname u /\ u_port v = p /\
  u_host v = (if nonempty p && nonempty (u_hostname u) && negb (text_eqb (port_of (u_protocol u)) p) then u_hostname u ++ 58 :: p else u_hostname u) /\ u_protocol v = u_protocol u.
Proof.
  intros (D & L). unfold set_port. destruct p as [|c p]; [eexists; cbn; repeat split|].
  assert (F : forallb is_digit (c :: p) = true). { apply forallb_forall. intros x I. rewrite Forall_forall in D. specialize (D x I). unfold is_digit. destruct (N.leb_spec 48 x), (N.leb_spec x 57); try reflexivity; lia. }
  rewrite F. cbn [negb orb]. assert (Q : (65535 <? digits_val (c :: p)) = false) by (apply N.ltb_ge; exact L). rewrite Q. eexists. split; [reflexivity|]. cbn. repeat split.
Qed.
Lemma shown v protocol n p : u_protocol v = protocol -> u_hostname v = n -> u_port v = p ->
  u_host v = (if nonempty p && nonempty n && negb (text_eqb (port_of protocol) p) then n ++ 58 :: p else n) -> shown_host protocol n p (get_host v).
Proof.
  intros E1 E2 E3 E4. unfold get_host, look. rewrite E1, E2, E3. split.
  - intros H. destruct (nonempty p && text_eqb (port_of protocol) p) eqn:A; [reflexivity|]. rewrite E4. destruct H as [-> |[-> |H]].
    + rewrite andb_false_r. reflexivity.
    + reflexivity.
    + destruct (nonempty p && nonempty n && negb (text_eqb (port_of protocol) p)) eqn:B; [|reflexivity]. exfalso. apply andb_prop in B as (B & B3). apply andb_prop in B as (B1 & B2).
      apply negb_true_iff in B3. assert (Z : text_eqb (port_of protocol) p = true); [|congruence]. cbn in H. destruct H as [H|[H|[H|[H|[H|[H|[]]]]]]]; injection H as <- <-; reflexivity.
  - intros Nn Np U. destruct (text_eqb_spec (port_of protocol) p) as [E|NE].
    + exfalso. apply U. apply usual_port; assumption.
    + rewrite andb_false_r, E4. destruct p; [congruence|]. destruct n; [congruence|]. reflexivity.
Qed.
Lemma parse_split w u t h n p b : host_text t -> idna w (lower t) = Some h -> host_parts h n p ->
  parse_host w u t b = let v := with_host (with_hostname u n) n in
    match b, p with
    | false, None => (with_port v [], None)
    | false, Some p => set_port v p
    | true, None => set_port v (u_port v)
    | true, Some p => if nonempty p then set_port v p else (v, None)
    end.
Proof.
  intros T I H. assert (C := host_chars_ok t T). assert (S := split_parts h n p H). unfold split_host in S. unfold parse_host. destruct t as [|c t]; [destruct T as (T & _); congruence|].
  rewrite C, I. cbv zeta in *. rewrite S. reflexivity.
Qed.
Lemma host_set w u t h n p : host_text t -> idna w (lower t) = Some h -> host_parts h n p -> port_text (match p with Some x => x | None => [] end) ->
  exists v, set_comp w CHost u t = (v, None) /\ get_comp CHostname v = n /\ get_comp CPort v = (match p with Some x => x | None => [] end) /\
    shown_host (u_protocol u) n (match p with Some x => x | None => [] end) (get_comp CHost v).
Proof.
  intros T I H P. cbn [set_comp get_comp]. unfold set_host. rewrite (parse_split w u t h n p false T I H). cbv zeta. destruct p as [p|].
  - destruct (port_set (with_host (with_hostname u n) n) p P) as (v & E & E1 & E2 & E3 & E4). exists v. cbn in E1, E3, E4. repeat split; auto; apply (shown v (u_protocol u) n p); auto.
  - eexists. split; [reflexivity|]. split; [reflexivity|]. split; [reflexivity|]. apply shown; reflexivity.
Qed.
Lemma fits_text u : port_fits u -> port_text (u_port u).
Proof. intros [E|H]; [rewrite E; split; [constructor|cbn; lia]|exact H]. Qed.
Lemma hostname_set w u t h n p : host_text t -> idna w (lower t) = Some h -> host_parts h n p -> port_fits u -> port_text (match p with Some x => x | None => [] end) ->
  exists v, set_comp w CHostname u t = (v, None) /\ get_comp CHostname v = n /\ get_comp CPort v = (match p with Some (c :: r) => c :: r | _ => u_port u end).
Proof.
  intros T I H F P. cbn [set_comp get_comp]. unfold set_hostname. rewrite (parse_split w u t h n p true T I H). cbv zeta. destruct p as [[|c p]|].
  - eexists. repeat split.
  - cbn [nonempty]. destruct (port_set (with_host (with_hostname u n) n) (c :: p) P) as (v & E & E1 & E2 & _). exists v. auto.
  - destruct (port_set (with_host (with_hostname u n) n) (u_port u) (fits_text u F)) as (v & E & E1 & E2 & _). exists v. auto.
Qed.
