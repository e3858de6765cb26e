(** Proofs for C12: transform text round-trips. *)
From Verif Require Import PyBase PyText FormatModel FormatSpec FormatProofs NumScan NumScanProofs
  MatrixModel MatrixSpec MatrixProofs MatrixProofs2 TransformModel TransformSpec TransformProofs.
Local Open Scope N_scope.

Definition sep_char (c : N) : bool := is_space c || (c =? 44).
Definition num_char (c : N) : bool := is_digit c || (c =? 45) || (c =? 46).

Lemma num_char_props c : num_char c = true -> is_space c = false /\ not_close c = true.
Proof.
  unfold num_char, is_space, not_close, is_digit. intros H.
  repeat match type of H with
         | (_ || _)%bool = true => apply orb_prop in H as [H|H]
         | (_ && _)%bool = true => apply andb_prop in H as [? ?]
         end;
  repeat match goal with
         | H : (_ =? _) = true |- _ => apply N.eqb_eq in H
         | H : (_ <=? _) = true |- _ => apply N.leb_le in H
         end;
  (split; [|apply negb_true_iff]; rewrite ?orb_false_iff, ?andb_false_iff, ?N.eqb_neq, ?N.leb_gt; lia).
Qed.
Lemma sep_not_close c : sep_char c = true -> not_close c = true.
Proof.
  unfold sep_char, is_space, not_close. intros H. apply negb_true_iff, N.eqb_neq. intros ->.
  vm_compute in H. discriminate.
Qed.
Lemma separator_chars d : separator d = true -> forallb sep_char d = true.
Proof. destruct d; [reflexivity|exact (fun H => H)]. Qed.

Lemma format_chars p x : (0 < p)%nat -> format_number p x <> [] /\ forallb num_char (format_number p x) = true.
Proof.
  intros Hp. rewrite fixed_shape by exact Hp.
  destruct (canonical_fmt p (negative x) (scaled p x)) as (s & i & f & E & Hs & Hi & Di & Df & _).
  rewrite E. split.
  - destruct Hs as [-> | ->]; [destruct i; [congruence|discriminate]|discriminate].
  - assert (G : forall l, forallb is_digit l = true -> forallb num_char l = true).
    { intros l H. rewrite forallb_forall in *. intros c Hc. unfold num_char. now rewrite (H c Hc). }
    rewrite !forallb_app, (G i Di).
    assert (Gs : forallb num_char s = true) by (destruct Hs as [-> | ->]; reflexivity).
    assert (Gf : forallb num_char (match f with [] => [] | _ => 46 :: f end) = true).
    { destruct f as [|c f]; [reflexivity|]. change (46 :: c :: f) with ([46] ++ c :: f).
      rewrite forallb_app, (G _ Df). reflexivity. }
    rewrite Gs, Gf. reflexivity.
Qed.

(** *** join *)
Lemma join_cons_ne d (x : text) l : l <> [] -> join d (x :: l) = x ++ d ++ join d l.
Proof. destruct l; [congruence|reflexivity]. Qed.
Lemma join_forall (q : N -> bool) d l : forallb q d = true -> Forall (fun x => forallb q x = true) l ->
  forallb q (join d l) = true.
Proof.
  intros Hd H. induction H as [|x l Hx Hl IH]; [reflexivity|].
  destruct l as [|y l]; [exact Hx|]. rewrite join_cons_ne by discriminate.
  rewrite !forallb_app, Hx, Hd, IH. reflexivity.
Qed.
Definition piece (q : N -> bool) (x : text) : Prop := x <> [] /\ forallb (fun c => negb (q c)) x = true.
Lemma piece_head q x r : piece q x -> head_not q (x ++ r) = true.
Proof. intros [H1 H2]. destruct x as [|c x]; [congruence|]. cbn [app head_not]. cbn [forallb] in H2. now apply andb_prop in H2. Qed.
Lemma piece_rev q x : piece q x -> piece q (rev x).
Proof.
  intros [H1 H2]. split.
  - intros E. apply H1. rewrite <- (rev_involutive x), E. reflexivity.
  - rewrite forallb_forall in *. intros c Hc. rewrite <- in_rev in Hc. auto.
Qed.
Lemma join_head q d l : l <> [] -> Forall (piece q) l -> head_not q (join d l) = true.
Proof.
  intros Hl H. destruct H as [|x l Hx H]; [congruence|]. destruct l as [|y l].
  - cbn. rewrite <- (app_nil_r x). now apply piece_head.
  - rewrite join_cons_ne by discriminate. now apply piece_head.
Qed.
Lemma join_last q d l : l <> [] -> Forall (piece q) l -> head_not q (rev (join d l)) = true.
Proof.
  intros Hl H. induction H as [|x l Hx H IH]; [congruence|]. destruct l as [|y l].
  - cbn. rewrite <- (app_nil_r (rev x)). now apply piece_head, piece_rev.
  - rewrite join_cons_ne by discriminate. rewrite !rev_app_distr, <- app_assoc.
    assert (IH' := IH ltac:(discriminate)).
    destruct (rev (join d (y :: l))) as [|c r] eqn:E.
    + exfalso. inversion H as [|? ? Hy ?]; subst.
      assert (Z : join d (y :: l) = []) by (rewrite <- (rev_involutive (join d (y :: l))), E; reflexivity).
      destruct Hy as [Hy _]. apply Hy. destruct l; [exact Z|].
      rewrite join_cons_ne in Z by discriminate. destruct y; [reflexivity|discriminate].
    + exact IH'.
Qed.

(** *** one function *)
Lemma strip_prefix_len p : forall t r, strip_prefix p t = Some r -> (length r + length p = length t)%nat.
Proof.
  induction p as [|a p IH]; intros t r; cbn [strip_prefix].
  - intros [= ->]. cbn. lia.
  - destruct t as [|b t]; [discriminate|]. destruct (a =? b); [|discriminate].
    intros H. apply IH in H. cbn [length] in *. lia.
Qed.
Lemma scan_name_len tys : forall t ty r, scan_name tys t = Some (ty, r) -> (length r <= length t)%nat.
Proof.
  induction tys as [|x tys IH]; intros t ty r; cbn [scan_name]; [discriminate|].
  destruct (strip_prefix (name_of x) t) as [r'|] eqn:E.
  - intros [= <- <-]. apply strip_prefix_len in E. lia.
  - apply IH.
Qed.
Lemma scan_function_shrinks : shrinks scan_function.
Proof.
  intros t a r. unfold scan_function.
  destruct (scan_name function_types t) as [[ty r0]|] eqn:E; [|discriminate].
  apply scan_name_len in E. pose proof (dropwhile_len is_space r0) as L.
  destruct (dropwhile is_space r0) as [|c r1]; [discriminate|].
  destruct (c =? 40); [|discriminate].
  pose proof (take_drop_len not_close r1) as L2.
  destruct (takewhile not_close r1); [discriminate|].
  destruct (dropwhile not_close r1) as [|c2 r2]; [discriminate|].
  destruct (match r2 with [] => true | c :: _ => is_space c || (c =? 44) end); [|discriminate].
  intros [= _ <-]. cbn [length] in *. lia.
Qed.

Definition stops (r : text) : bool := match r with [] => true | c :: _ => is_space c || (c =? 44) end.
Lemma scan_name_name ty r : ty <> UNKNOWN -> scan_name function_types (name_of ty ++ r) = Some (ty, r).
Proof. intros H. destruct ty; [congruence| reflexivity..]. Qed.
Lemma scan_function_app ty vs r : ty <> UNKNOWN -> vs <> [] -> forallb not_close vs = true ->
  stops r = true ->
  scan_function (name_of ty ++ lit "(" ++ vs ++ lit ")" ++ r) = Some ((ty, vs), r).
Proof.
  intros Hty Hvs Hc Hr. unfold scan_function. rewrite scan_name_name by exact Hty.
  change (lit "(" ++ vs ++ lit ")" ++ r) with (40 :: vs ++ 41 :: r).
  rewrite dropwhile_head by reflexivity. change (40 =? 40) with true. cbv iota.
  rewrite takewhile_app, dropwhile_app_stop by (auto; reflexivity).
  destruct vs as [|v vs]; [congruence|]. change (stops r) with
    (match r with [] => true | c :: _ => is_space c || (c =? 44) end) in Hr.
  rewrite Hr. reflexivity.
Qed.

(** *** abbreviation *)
Definition R6 := rounded precision.
Lemma prec_pos : (0 < precision)%nat. Proof. unfold precision; lia. Qed.

Lemma text_eqb_eq a b : text_eqb a b = true -> a = b.
Proof. destruct (text_eqb_spec a b); congruence. Qed.

Lemma abbreviate_spec t : known t = true -> exists vs,
  abbreviate (type_of t) (format_number_sequence precision (values_of t))
    = format_number_sequence precision vs /\ vs <> [] /\
  forall ws, Forall2 Qeq ws (map R6 vs) ->
    exists u, set_transform (type_of t) ws = Ok u /\ image R6 t u.
Proof.
  assert (G0 : forall x, text_eqb (format_number precision x) (lit "0") = true -> (R6 x == 0)%Q).
  { intros x H. apply text_eqb_eq in H. apply format_zero_iff in H; [exact H|exact prec_pos]. }
  assert (G1 : forall x y, text_eqb (format_number precision x) (format_number precision y) = true ->
            (R6 x == R6 y)%Q).
  { intros x y H. apply text_eqb_eq in H. apply format_eq_iff in H; [exact H|exact prec_pos]. }
  destruct t; intros K; [discriminate K|..]; cbn [type_of values_of abbreviate format_number_sequence map].
  - eexists [a; b; c; d; e; f]. split; [reflexivity|]. split; [discriminate|]. cbn [map]. intros ws H.
    repeat match goal with H : Forall2 _ _ (_ :: _) |- _ => inversion H; clear H; subst
                         | H : Forall2 _ _ [] |- _ => inversion H; clear H; subst end.
    eexists. split; [reflexivity|]. split; [reflexivity|]. cbn.
    repeat constructor; symmetry; assumption.
  - destruct (text_eqb _ _) eqn:E.
    + exists [tx]. split; [reflexivity|]. split; [discriminate|]. cbn [map]. intros ws H.
      repeat match goal with H : Forall2 _ _ (_ :: _) |- _ => inversion H; clear H; subst
                         | H : Forall2 _ _ [] |- _ => inversion H; clear H; subst end.
      eexists. split; [reflexivity|]. split; [reflexivity|]. cbn. repeat constructor; [symmetry; assumption|auto].
    + exists [tx; ty]. split; [reflexivity|]. split; [discriminate|]. cbn [map]. intros ws H.
      repeat match goal with H : Forall2 _ _ (_ :: _) |- _ => inversion H; clear H; subst
                         | H : Forall2 _ _ [] |- _ => inversion H; clear H; subst end.
      eexists. split; [reflexivity|]. split; [reflexivity|]. cbn. repeat constructor; symmetry; assumption.
  - destruct (text_eqb _ _) eqn:E.
    + exists [sx]. split; [reflexivity|]. split; [discriminate|]. cbn [map]. intros ws H.
      repeat match goal with H : Forall2 _ _ (_ :: _) |- _ => inversion H; clear H; subst
                         | H : Forall2 _ _ [] |- _ => inversion H; clear H; subst end.
      eexists. split; [reflexivity|]. split; [reflexivity|]. cbn. repeat constructor; [symmetry; assumption|].
      rewrite <- (G1 _ _ E). symmetry; assumption.
    + exists [sx; sy]. split; [reflexivity|]. split; [discriminate|]. cbn [map]. intros ws H.
      repeat match goal with H : Forall2 _ _ (_ :: _) |- _ => inversion H; clear H; subst
                         | H : Forall2 _ _ [] |- _ => inversion H; clear H; subst end.
      eexists. split; [reflexivity|]. split; [reflexivity|]. cbn. repeat constructor; symmetry; assumption.
  - destruct (text_eqb (format_number precision cx) (lit "0") && text_eqb (format_number precision cy) (lit "0")) eqn:E.
    + apply andb_prop in E as [E1 E2].
      exists [angle]. split; [reflexivity|]. split; [discriminate|]. cbn [map]. intros ws H.
      repeat match goal with H : Forall2 _ _ (_ :: _) |- _ => inversion H; clear H; subst
                         | H : Forall2 _ _ [] |- _ => inversion H; clear H; subst end.
      eexists. split; [reflexivity|]. split; [reflexivity|]. cbn. repeat constructor; [symmetry; assumption|auto..].
    + exists [angle; cx; cy]. split; [reflexivity|]. split; [discriminate|]. cbn [map]. intros ws H.
      repeat match goal with H : Forall2 _ _ (_ :: _) |- _ => inversion H; clear H; subst
                         | H : Forall2 _ _ [] |- _ => inversion H; clear H; subst end.
      eexists. split; [reflexivity|]. split; [reflexivity|]. cbn. repeat constructor; symmetry; assumption.
  - exists [angle]. split; [reflexivity|]. split; [discriminate|]. cbn [map]. intros ws H.
    repeat match goal with H : Forall2 _ _ (_ :: _) |- _ => inversion H; clear H; subst
                         | H : Forall2 _ _ [] |- _ => inversion H; clear H; subst end.
    eexists. split; [reflexivity|]. split; [reflexivity|]. cbn. repeat constructor; symmetry; assumption.
  - exists [angle]. split; [reflexivity|]. split; [discriminate|]. cbn [map]. intros ws H.
    repeat match goal with H : Forall2 _ _ (_ :: _) |- _ => inversion H; clear H; subst
                         | H : Forall2 _ _ [] |- _ => inversion H; clear H; subst end.
    eexists. split; [reflexivity|]. split; [reflexivity|]. cbn. repeat constructor; symmetry; assumption.
Qed.

Lemma numbers_text d vs : separator d = true -> vs <> [] ->
  let s := join d (format_number_sequence precision vs) in
  s <> [] /\ forallb not_close s = true /\ strip s = s /\
  Forall2 Qeq (scan_numbers s) (map R6 vs).
Proof.
  intros Hd Hv s.
  assert (P : Forall (piece is_space) (format_number_sequence precision vs)).
  { apply Forall_forall. intros x Hx. apply in_map_iff in Hx as (v & <- & _).
    destruct (format_chars precision v prec_pos) as [F1 F2]. split; [exact F1|].
    rewrite forallb_forall in *. intros c Hc. destruct (num_char_props c (F2 c Hc)) as [-> _]. reflexivity. }
  assert (N : format_number_sequence precision vs <> []) by (destruct vs; [congruence|discriminate]).
  assert (H1 : head_not is_space s = true) by (apply join_head; assumption).
  assert (H2 : head_not is_space (rev s) = true) by (apply join_last; assumption).
  split.
  { unfold s. destruct vs as [|v vs]; [congruence|].
    destruct (format_chars precision v prec_pos) as [F1 _]. cbn [format_number_sequence map].
    destruct vs; [exact F1|]. cbn [map]. rewrite join_cons_ne by discriminate.
    intros E. apply app_eq_nil in E as [E _]. contradiction. }
  split.
  { apply join_forall.
    - pose proof (separator_chars d Hd) as C. rewrite forallb_forall in *.
      intros c Hc. apply sep_not_close; auto.
    - apply Forall_forall. intros x Hx. apply in_map_iff in Hx as (v & <- & _).
      destruct (format_chars precision v prec_pos) as [_ F2].
      rewrite forallb_forall in *. intros c Hc. now apply num_char_props; auto. }
  split; [now apply strip_id|].
  pose proof (scan_join precision d vs [] prec_pos Hd eq_refl) as J.
  rewrite !app_nil_r in J. exact J.
Qed.

(** delimiters the property speaks about: white space and commas *)
Definition good_delimiter (d : text) : bool := forallb sep_char d.
Lemma default_separator d : good_delimiter d = true -> separator (default_delimiter d) = true.
Proof. destruct d; [reflexivity|exact (fun H => H)]. Qed.

Lemma transform_scan d t r : good_delimiter d = true -> known t = true -> stops r = true ->
  exists vs, scan_function (transform_tostring d t ++ r) = Some ((type_of t, vs), r) /\
    exists u, set_transform (type_of t) (scan_numbers (strip vs)) = Ok u /\ image R6 t u.
Proof.
  intros Hd Hk Hr. apply default_separator in Hd.
  destruct (abbreviate_spec t Hk) as (vs & E & Hv & W).
  destruct (numbers_text _ vs Hd Hv) as (N1 & N2 & N3 & N4).
  set (s := join (default_delimiter d) (format_number_sequence precision vs)) in *.
  exists s. split.
  - assert (T : transform_tostring d t = name_of (type_of t) ++ lit "(" ++ s ++ lit ")").
    { unfold s. rewrite <- E. destruct t; [discriminate Hk|reflexivity..]. }
    rewrite T, <- !app_assoc. apply scan_function_app; auto. destruct t; [discriminate Hk|discriminate..].
  - rewrite N3. apply W. exact N4.
Qed.

(** *** lists *)
Lemma scan_name_first c t : scan_name function_types (c :: t) <> None ->
  c = 109 \/ c = 116 \/ c = 115 \/ c = 114.
Proof.
  intros H.
  destruct (N.eq_dec c 109); [auto|]. destruct (N.eq_dec c 116); [auto|].
  destruct (N.eq_dec c 115); [auto|]. destruct (N.eq_dec c 114); [auto|].
  exfalso; apply H. cbn [scan_name function_types name_of lit map list_ascii_of_string strip_prefix].
  change (N_of_ascii "m") with 109. change (N_of_ascii "t") with 116.
  change (N_of_ascii "s") with 115. change (N_of_ascii "r") with 114.
  rewrite !(N.eqb_sym _ c). 
  repeat (match goal with |- context [c =? ?k] => destruct (N.eqb_spec c k); [congruence|] end).
  reflexivity.
Qed.
Lemma scan_function_space c t : is_space c = true -> scan_function (c :: t) = None.
Proof.
  intros H. unfold scan_function.
  destruct (scan_name function_types (c :: t)) as [[ty r]|] eqn:E; [|reflexivity].
  exfalso. assert (N : scan_name function_types (c :: t) <> None) by congruence.
  apply scan_name_first in N. destruct N as [->|[->|[->| ->]]]; discriminate H.
Qed.
Lemma scan_skip_spaces s t : forallb is_space s = true ->
  finditer scan_function (s ++ t) = finditer scan_function t.
Proof. apply finditer_skip; [exact scan_function_shrinks|exact scan_function_space]. Qed.

Lemma rdropwhile_app2 f a b : rdropwhile f b <> [] -> rdropwhile f (a ++ b) = a ++ rdropwhile f b.
Proof.
  intros H. unfold rdropwhile in *. rewrite rev_app_distr.
  destruct (dropwhile f (rev b)) as [|c r] eqn:E; [cbn in H; congruence|].
  assert (G : forall u v, dropwhile f u = c :: r -> dropwhile f (u ++ v) = (c :: r) ++ v).
  { induction u as [|x u IH]; intros v Hu; [discriminate|]. cbn [dropwhile app] in *.
    destruct (f x); [auto|]. injection Hu as -> ->. reflexivity. }
  rewrite (G _ _ E), rev_app_distr, rev_involutive. reflexivity.
Qed.
Lemma rdropwhile_nil f b : rdropwhile f b = [] -> forallb f b = true.
Proof.
  intros H. destruct (rdropwhile_split f b) as (s & E & Hs). rewrite H in E. cbn in E. now subst b.
Qed.
Lemma strip_scan t : finditer scan_function (strip t) = finditer scan_function (rdropwhile is_space t).
Proof.
  unfold strip. rewrite <- (take_drop is_space t) at 2.
  destruct (rdropwhile is_space (dropwhile is_space t)) as [|c r] eqn:E.
  - apply rdropwhile_nil in E.
    assert (A : forallb is_space (takewhile is_space t ++ dropwhile is_space t) = true)
      by (rewrite forallb_app, takewhile_forall, E; reflexivity).
    rewrite <- (app_nil_l (takewhile _ _ ++ _)), (rdropwhile_app is_space [] _ A). reflexivity.
  - rewrite rdropwhile_app2 by congruence. rewrite E. symmetry. apply scan_skip_spaces, takewhile_forall.
Qed.

Lemma tostring_last d t : known t = true -> exists a, transform_tostring d t = a ++ [41].
Proof.
  intros K. exists (name_of (type_of t) ++ lit "(" ++ join (default_delimiter d)
    (abbreviate (type_of t) (format_number_sequence precision (values_of t)))).
  destruct t; [discriminate K|..]; unfold transform_tostring; rewrite <- !app_assoc; reflexivity.
Qed.
Lemma rdropwhile_close a : rdropwhile is_space (a ++ [41]) = a ++ [41].
Proof. apply rdropwhile_id. rewrite rev_app_distr. reflexivity. Qed.

Lemma list_scan d l : good_delimiter d = true ->
  exists us, make_all (finditer scan_function (rdropwhile is_space (list_tostring d l))) = Ok us /\
    Forall2 (image R6) (filter known l) us.
Proof.
  intros Hd. unfold list_tostring. induction l as [|t l IH].
  - exists []. split; [reflexivity|constructor].
  - destruct IH as (us & IH1 & IH2).
    destruct (known t) eqn:K; cbn [filter map]; rewrite K.
    + destruct (tostring_last d t K) as (a & Ea).
      destruct (map (transform_tostring d) l) as [|y ys] eqn:Em.
      * destruct l; [|discriminate]. cbn [join]. rewrite Ea, rdropwhile_close, <- Ea.
        destruct (transform_scan d t [] Hd K eq_refl) as (vs & S & u & U1 & U2).
        rewrite app_nil_r in S.
        rewrite (finditer_some _ _ _ _ scan_function_shrinks S). cbn [finditer finditer_f length make_all].
        rewrite U1. cbn [bind]. exists [u]. split; [reflexivity|]. repeat constructor. all: apply U2.
      * rewrite join_cons_ne by discriminate.
        set (rest := join (lit " ") (y :: ys)) in *.
        destruct (rdropwhile is_space rest) as [|c r] eqn:Er.
        -- apply rdropwhile_nil in Er. rewrite rdropwhile_app by (rewrite forallb_app, Er; reflexivity).
           rewrite Ea, rdropwhile_close, <- Ea.
           destruct (transform_scan d t [] Hd K eq_refl) as (vs & S & u & U1 & U2).
           rewrite app_nil_r in S.
           rewrite (finditer_some _ _ _ _ scan_function_shrinks S). cbn [make_all].
           rewrite U1, IH1. cbn [bind]. exists (u :: us). split; [reflexivity|constructor; assumption].
        -- rewrite app_assoc, rdropwhile_app2, <- app_assoc, Er by congruence.
           destruct (transform_scan d t (lit " " ++ c :: r) Hd K eq_refl) as (vs & S & u & U1 & U2).
           rewrite (finditer_some _ _ _ _ scan_function_shrinks S). cbn [make_all].
           rewrite scan_skip_spaces by reflexivity. rewrite U1, IH1. cbn [bind].
           exists (u :: us). split; [reflexivity|constructor; assumption].
    + destruct t; try discriminate K. cbn [transform_tostring].
      destruct (map (transform_tostring d) l) as [|y ys] eqn:Em.
      * exists us. split; [exact IH1|exact IH2].
      * rewrite join_cons_ne by discriminate. cbn [app].
        set (rest := join (lit " ") (y :: ys)) in *.
        destruct (rdropwhile is_space rest) as [|c r] eqn:Er.
        -- apply rdropwhile_nil in Er.
           rewrite <- (app_nil_l (lit " " ++ rest)), rdropwhile_app by (rewrite forallb_app, Er; reflexivity).
           exists us. split; [exact IH1|exact IH2].
        -- rewrite rdropwhile_app2 by congruence. rewrite Er, scan_skip_spaces by reflexivity.
           exists us. split; [exact IH1|exact IH2].
Qed.

Lemma transforms_roundtrip d l : good_delimiter d = true ->
  exists us, parse_transforms (list_tostring d l) = Ok us /\ Forall2 (image R6) (filter known l) us.
Proof. intros Hd. unfold parse_transforms. rewrite strip_scan. now apply list_scan. Qed.

(** *** exact numbers *)
Lemma places_rounded x : decimal_places precision x -> (R6 x == x)%Q.
Proof.
  intros [k Hk]. apply (rounded_exact precision x k). rewrite Hk.
  apply Qmult_comp; [reflexivity|]. apply Qinv_comp. unfold Qof. rewrite N2Z.inj_pow, nat_N_Z. reflexivity.
Qed.
Lemma image_same t u : Forall (decimal_places precision) (values_of t) -> image R6 t u -> same t u.
Proof.
  intros H [E V]. split; [exact E|]. revert H V. generalize (values_of t) (values_of u).
  intros l. induction l as [|x l IH]; intros l' H V; cbn [map] in V; inversion V; subst; constructor.
  - inversion H; subst. rewrite <- (places_rounded x); assumption.
  - inversion H; subst. auto.
Qed.

Lemma transforms_roundtrip_exact d l : good_delimiter d = true ->
  Forall (fun t => known t = true /\ Forall (decimal_places precision) (values_of t)) l ->
  exists us, parse_transforms (list_tostring d l) = Ok us /\ Forall2 same l us.
Proof.
  intros Hd H. destruct (transforms_roundtrip d l Hd) as (us & U1 & U2). exists us. split; [exact U1|].
  clear U1. revert us U2. induction H as [|t l [K V] Hl IH]; intros us U2; cbn [filter] in U2.
  - inversion U2. constructor.
  - rewrite K in U2. inversion U2; subst. constructor; [apply image_same; assumption|auto].
Qed.

Lemma same_meaning o t u p : oracle_ext o -> same t u -> veq (g_transform o t p) (g_transform o u p).
Proof.
  intros Ho [E V]. destruct t, u; cbn in E; try discriminate; cbn [values_of] in V;
    repeat match goal with H : Forall2 _ (_ :: _) _ |- _ => inversion H; clear H; subst end;
    unfold g_transform, g_translate, g_scale, g_rot2, g_skew_x, g_skew_y; repeat split; cbn;
    repeat match goal with
           | H : (?a == ?b)%Q |- context [ocos o ?a] => destruct (Ho a b H) as (? & ? & ?); progress (rewrite ?(proj1 (Ho a b H)))
           | H : (?a == ?b)%Q |- context [otan o ?a] => rewrite (proj2 (proj2 (Ho a b H)))
           end;
    repeat match goal with
           | H : (?a == ?b)%Q |- context [osin o ?a] => rewrite (proj1 (proj2 (Ho a b H)))
           end;
    repeat match goal with
           | H : (?a == ?b)%Q |- _ => progress (rewrite ?H); clear H
           end; try reflexivity.
Qed.
Lemma g_transform_proper o t p q : veq p q -> veq (g_transform o t p) (g_transform o t q).
Proof.
  intros (A & B & C & D). destruct t; unfold g_transform, g_translate, g_scale, g_rot2, g_skew_x, g_skew_y;
    repeat split; cbn; rewrite ?A, ?B, ?C, ?D; reflexivity.
Qed.
Lemma same_list_meaning o l l' p : oracle_ext o -> Forall2 same l l' ->
  veq (g_list o l p) (g_list o l' p).
Proof.
  intros Ho H. induction H as [|t u l l' Ht Hl IH]; [apply veq_refl|].
  unfold g_list in *; cbn [fold_right]. eapply veq_trans; [apply same_meaning; eassumption|].
  now apply g_transform_proper.
Qed.
Lemma same_known l l' : Forall2 same l l' -> forallb known l = forallb known l'.
Proof.
  induction 1 as [|t u l l' [E _] Hl IH]; [reflexivity|]. cbn [forallb]. rewrite IH.
  destruct t, u; cbn in E; try discriminate; reflexivity.
Qed.

Lemma matrix_roundtrip o d l m : oracle_basic o -> oracle_ext o -> good_delimiter d = true ->
  Forall (fun t => Forall (decimal_places precision) (values_of t)) l ->
  list_matrix o l = Ok (Some m) ->
  exists us m', parse_transforms (list_tostring d l) = Ok us /\ list_matrix o us = Ok (Some m') /\ deq m' m.
Proof.
  intros Ho He Hd Hv Hm.
  assert (K : forallb known l = true).
  { destruct (forallb known l) eqn:E; [reflexivity|]. rewrite (list_unknown o l E) in Hm. discriminate. }
  assert (N : l <> []) by (intros ->; discriminate).
  destruct (transforms_roundtrip_exact d l Hd) as (us & U1 & U2).
  { rewrite Forall_forall in *. rewrite forallb_forall in K. auto. }
  destruct (list_meaning o l Ho N K) as (a & A1 & A2 & _ & A3). rewrite A1 in Hm; injection Hm as <-.
  destruct (list_meaning o us Ho) as (b & B1 & B2 & _ & B3).
  { intros ->. inversion U2; subst; congruence. }
  { rewrite <- (same_known _ _ U2). exact K. }
  exists us, b. split; [exact U1|]. split; [exact B1|]. split; [|congruence].
  apply act_ext. intros p. eapply veq_trans; [apply B3|]. apply veq_sym.
  eapply veq_trans; [apply A3|]. now apply same_list_meaning.
Qed.

(** DOMMatrix.tostring is the text of the matrix(...) transform *)
Lemma matrix_text d m t : from_matrix m = Ok t -> matrix_tostring d m = transform_tostring d t.
Proof.
  unfold from_matrix, matrix_tostring. destruct (is2d m) eqn:E; [|discriminate].
  unfold tolist. rewrite E. intros [= <-]. reflexivity.
Qed.
Lemma matrix_text_roundtrip d m : good_delimiter d = true -> is2d m = true ->
  exists u, parse_transforms (matrix_tostring d m) = Ok [u] /\ type_of u = MATRIX /\
    Forall2 Qeq (map R6 (tolist m)) (values_of u).
Proof.
  intros Hd E.
  destruct (from_matrix m) as [t|e] eqn:F; [|unfold from_matrix, tolist in F; rewrite E in F; discriminate].
  rewrite (matrix_text d m t F).
  destruct (transforms_roundtrip d [t] Hd) as (us & U1 & U2). cbn in U1.
  assert (V : type_of t = MATRIX /\ values_of t = tolist m).
  { unfold from_matrix, tolist in *. rewrite E in *. injection F as <-. split; reflexivity. }
  destruct V as [V1 V2]. assert (K : known t = true) by (destruct t; [discriminate V1|reflexivity..]).
  cbn [filter] in U2. rewrite K in U2. inversion U2 as [|? u ? us' [I1 I2] W]; subst. inversion W; subst.
  exists u. split; [exact U1|]. split; [congruence|]. rewrite <- V2. exact I2.
Qed.

From Coq Require Qround.
Lemma quarter_ext : oracle_ext quarter_oracle.
Proof.
  intros a b H. assert (E : quarter a = quarter b).
  { unfold quarter. change (Qnum a / QDen a)%Z with (Qround.Qfloor (Qnum a # Qden a)).
    change (Qnum b / QDen b)%Z with (Qround.Qfloor (Qnum b # Qden b)).
    replace (Qnum a # Qden a) with a by (destruct a; reflexivity).
    replace (Qnum b # Qden b) with b by (destruct b; reflexivity).
    now rewrite (Qround.Qfloor_comp a b H). }
  unfold quarter_oracle, qcos, qsin; cbn. rewrite E. repeat split; reflexivity.
Qed.
