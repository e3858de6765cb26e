(** Path data text: parsing is compositional, and reads back what tostring
    writes. *)
From Verif Require Import PyBase PyText NumScan NumScanProofs FormatModel FormatSpec FormatProofs
  MatrixModel PathModel PathTextModel PathTextSpec TransformSpec TransformTextProofs.
Local Open Scope N_scope.

Notation notc := (fun x => negb (is_command x)).
Lemma scan_command_shrinks : shrinks scan_command.
Proof.
  intros t a r. unfold scan_command. destruct t as [|c t]; [discriminate|].
  destruct (command_of c) as [[k b]|]; [|discriminate].
  pose proof (dropwhile_len notc t) as L.
  destruct (takewhile notc t), (dropwhile notc t) eqn:E; try discriminate; intros [= <- <-]; cbn in *; lia.
Qed.
Lemma space_not_command c : is_space c = true -> is_command c = false.
Proof.
  intros H. unfold is_command, command_of.
  assert (A : forall n, is_space n = false -> (c =? n) = false).
  { intros n Hn. apply N.eqb_neq. intros ->. congruence. }
  cbn [find kinds code]. rewrite !A by reflexivity. reflexivity.
Qed.
Lemma num_not_command c : num_char c = true -> is_command c = false.
Proof.
  intros H. unfold is_command, command_of.
  assert (A : forall n, num_char n = false -> (c =? n) = false).
  { intros n Hn. apply N.eqb_neq. intros ->. congruence. }
  cbn [find kinds code]. rewrite !A by reflexivity. reflexivity.
Qed.
Lemma scan_command_none c t : is_command c = false -> scan_command (c :: t) = None.
Proof. unfold is_command, scan_command. destruct (command_of c); [discriminate|reflexivity]. Qed.

Lemma takewhile_mid f a b : head_not f (dropwhile f a) = true -> dropwhile f a <> [] ->
  takewhile f (a ++ b) = takewhile f a /\ dropwhile f (a ++ b) = dropwhile f a ++ b.
Proof.
  intros _. induction a as [|c a IH]; cbn; [congruence|]. destruct (f c) eqn:E.
  - intros H. destruct (IH H) as [-> ->]. split; reflexivity.
  - intros _. split; reflexivity.
Qed.
Lemma dropwhile_nil f a : dropwhile f a = [] -> forallb f a = true.
Proof. induction a as [|c a IH]; cbn; [reflexivity|]. destruct (f c); [auto|discriminate]. Qed.

Lemma finditer_command c k r t : command_of c = Some (k, r) ->
  takewhile notc t <> [] \/ dropwhile notc t = [] ->
  finditer scan_command (c :: t) = (k, r, takewhile notc t) :: finditer scan_command (dropwhile notc t).
Proof.
  intros C H. apply finditer_some; [exact scan_command_shrinks|]. unfold scan_command. rewrite C.
  destruct (takewhile notc t), (dropwhile notc t); try reflexivity. destruct H; congruence.
Qed.
Lemma finditer_no_command c t : scan_command (c :: t) = None ->
  finditer scan_command (c :: t) = finditer scan_command t.
Proof. apply finditer_none. exact scan_command_shrinks. Qed.
Lemma finditer_all_notc t : forallb notc t = true -> finditer scan_command t = [].
Proof.
  induction t as [|c t IH]; [reflexivity|]. cbn [forallb]. intros H. apply andb_prop in H as [H1 H2].
  rewrite finditer_no_command; [auto|]. apply scan_command_none. now destruct (is_command c).
Qed.
(** the three cases of a command letter *)
Lemma command_cases c t k r : command_of c = Some (k, r) ->
  (forallb notc t = true /\ finditer scan_command (c :: t) = [(k, r, t)]) \/
  (dropwhile notc t <> [] /\ takewhile notc t = [] /\
     finditer scan_command (c :: t) = finditer scan_command t) \/
  (dropwhile notc t <> [] /\ takewhile notc t <> [] /\
     finditer scan_command (c :: t) = (k, r, takewhile notc t) :: finditer scan_command (dropwhile notc t)).
Proof.
  intros C. destruct (dropwhile notc t) as [|x d] eqn:E.
  - left. split; [now apply dropwhile_nil|]. rewrite (finditer_command _ _ _ _ C) by auto.
    rewrite E, takewhile_all by (now apply dropwhile_nil). reflexivity.
  - right. destruct (takewhile notc t) as [|y v] eqn:F.
    + left. split; [discriminate|]. split; [reflexivity|]. apply finditer_no_command.
      unfold scan_command. rewrite C, E, F. reflexivity.
    + right. split; [discriminate|]. split; [discriminate|]. rewrite (finditer_command _ _ _ _ C).
      * rewrite E, F. reflexivity.
      * left. rewrite F. discriminate.
Qed.

(** text that ends a command: empty, or its last character is no letter *)
Definition closed (a : text) : bool := match rev a with c :: _ => negb (is_command c) | [] => true end.
Definition opens (b : text) : bool := match b with c :: _ => is_command c | [] => false end.
Lemma closed_cons c a : closed (c :: a) = true -> a <> [] -> closed a = true.
Proof.
  unfold closed. cbn [rev]. destruct (rev a) as [|x r] eqn:E.
  - intros _ H. exfalso. apply H. rewrite <- (rev_involutive a), E. reflexivity.
  - cbn. auto.
Qed.
Lemma closed_app a b : closed (a ++ b) = true -> b <> [] -> closed b = true.
Proof.
  induction a as [|c a IH]; [auto|]. cbn [app]. intros H Hb. apply IH; [|exact Hb].
  apply (closed_cons c); [exact H|]. destruct a, b; cbn; congruence.
Qed.

Lemma finditer_app a b : closed a = true -> opens b = true ->
  finditer scan_command (a ++ b) = finditer scan_command a ++ finditer scan_command b.
Proof.
  intros Ca Ob. remember (length a) as n eqn:Hn. assert (L : (length a <= n)%nat) by lia. clear Hn.
  revert a Ca L. induction n as [|n IH]; intros a Ca L.
  { destruct a; [reflexivity|cbn in L; lia]. }
  destruct a as [|c a]; [reflexivity|]. cbn [length] in L. cbn [app].
  destruct (command_of c) as [[k r]|] eqn:C.
  2:{ rewrite !finditer_no_command by (apply scan_command_none; unfold is_command; now rewrite C).
      destruct a as [|x a']; [reflexivity|]. apply IH; [|lia]. apply (closed_cons c); [exact Ca|discriminate]. }
  assert (Na : a <> []).
  { intros ->. unfold closed in Ca. cbn in Ca. unfold is_command in Ca. now rewrite C in Ca. }
  assert (Ca' : closed a = true) by (apply (closed_cons c); assumption).
  assert (Ob' : head_not notc b = true) by (destruct b as [|x b']; [discriminate|cbn in *; now rewrite Ob]).
  destruct (command_cases c a k r C) as [(F & E)|[(D & T & E)|(D & T & E)]].
  - rewrite E. rewrite (finditer_command _ _ _ _ C).
    + rewrite takewhile_app, dropwhile_app_stop by assumption. reflexivity.
    + left. rewrite takewhile_app by assumption. exact Na.
  - rewrite E. rewrite finditer_no_command; [apply IH; [assumption|lia]|].
    unfold scan_command. rewrite C. destruct (takewhile_mid notc a b (dropwhile_stop _ _) D) as [-> ->].
    rewrite T. destruct (dropwhile notc a); [congruence|reflexivity].
  - destruct (takewhile_mid notc a b (dropwhile_stop _ _) D) as [T1 D1].
    rewrite E, (finditer_command _ _ _ _ C), T1, D1 by (left; rewrite T1; exact T).
    cbn [app]. f_equal. apply IH.
    + rewrite <- (take_drop notc a) in Ca'. apply closed_app in Ca'; assumption.
    + pose proof (dropwhile_len notc a). lia.
Qed.

(** stripping the text does not matter *)
Definition read (t : text) : list seg := flat_map build (finditer scan_command t).
Lemma strip_app_space t s : forallb is_space s = true -> strip (t ++ s) = strip t.
Proof.
  intros H. unfold strip. destruct (dropwhile is_space t) as [|c r] eqn:E.
  - apply dropwhile_nil in E. rewrite dropwhile_app by exact E. rewrite dropwhile_all by exact H. reflexivity.
  - destruct (takewhile_mid is_space t s (dropwhile_stop _ _)) as [_ ->]; [congruence|].
    rewrite rdropwhile_app by exact H. now rewrite E.
Qed.
Lemma read_trail t s : forallb is_space s = true -> read (t ++ s) = read t.
Proof.
  intros Hs. remember (length t) as n eqn:Hn. assert (L : (length t <= n)%nat) by lia. clear Hn.
  assert (Hs' : forallb notc s = true).
  { rewrite forallb_forall in *. intros x Hx. rewrite space_not_command by auto. reflexivity. }
  revert t L. unfold read. induction n as [|n IH]; intros t L.
  { destruct t; [|cbn in L; lia]. cbn [app]. now rewrite finditer_all_notc. }
  destruct t as [|c t]; [cbn [app]; now rewrite finditer_all_notc|]. cbn [length] in L. cbn [app].
  destruct (command_of c) as [[k r]|] eqn:C.
  2:{ rewrite !finditer_no_command by (apply scan_command_none; unfold is_command; now rewrite C). apply IH; lia. }
  destruct (command_cases c t k r C) as [(F & E)|[(D & T & E)|(D & T & E)]].
  - assert (F' : forallb notc (t ++ s) = true) by (rewrite forallb_app, F; exact Hs').
    rewrite E. rewrite (finditer_command _ _ _ _ C) by (right; now apply dropwhile_all).
    rewrite takewhile_all, dropwhile_all by exact F'. cbn [flat_map]. rewrite finditer_nil. cbn [flat_map].
    f_equal. unfold build. rewrite strip_app_space by exact Hs. reflexivity.
  - rewrite E. rewrite finditer_no_command; [apply IH; lia|].
    unfold scan_command. rewrite C. destruct (takewhile_mid notc t s (dropwhile_stop _ _) D) as [-> ->].
    rewrite T. destruct (dropwhile notc t); [congruence|reflexivity].
  - destruct (takewhile_mid notc t s (dropwhile_stop _ _) D) as [T1 D1].
    rewrite E, (finditer_command _ _ _ _ C), T1, D1 by (left; rewrite T1; exact T).
    cbn [flat_map]. f_equal. apply IH. pose proof (dropwhile_len notc t). lia.
Qed.
Lemma parse_read t : path_parse t = read t.
Proof.
  unfold path_parse. change (read (strip t) = read t). unfold strip.
  destruct (rdropwhile_split is_space (dropwhile is_space t)) as (s & E & Hs).
  transitivity (read (dropwhile is_space t)).
  - rewrite E at 2. now rewrite read_trail.
  - rewrite <- (take_drop is_space t) at 2. unfold read. f_equal. symmetry.
    apply (finditer_skip scan_command is_space); [exact scan_command_shrinks| |apply takewhile_forall].
    intros c t' H. apply scan_command_none. now apply space_not_command.
Qed.
Lemma parse_app a b : closed a = true -> opens b = true -> path_parse (a ++ b) = path_parse a ++ path_parse b.
Proof. intros A B. rewrite !parse_read. unfold read. rewrite finditer_app by assumption. apply flat_map_app. Qed.
Lemma parse_one c k r v : command_of c = Some (k, r) -> forallb notc v = true ->
  path_parse (c :: v) = build (k, r, v).
Proof.
  intros C V. rewrite parse_read. unfold read. rewrite (finditer_command _ _ _ _ C) by (right; now apply dropwhile_all).
  rewrite takewhile_all, dropwhile_all by exact V. cbn [flat_map]. rewrite finditer_nil. cbn. now rewrite app_nil_r.
Qed.
Lemma command_letter k r : command_of (letter_of k r) = Some (k, r).
Proof. destruct k, r; reflexivity. Qed.

(** *** grouping *)
Lemma chunks_f_fuel n : (0 < n)%nat -> forall f g l, (length l <= f)%nat -> (length l <= g)%nat ->
  chunks_f f n l = chunks_f g n l.
Proof.
  intros Hn. induction f as [|f IH]; intros g l Lf Lg.
  - destruct l; [|cbn in Lf; lia]. destruct g; [reflexivity|]. cbn [chunks_f length].
    destruct (Nat.ltb_spec 0 n); [reflexivity|lia].
  - destruct g as [|g].
    + destruct l; [|cbn in Lg; lia]. cbn [chunks_f length]. destruct (Nat.ltb_spec 0 n); [reflexivity|lia].
    + cbn [chunks_f]. destruct (Nat.ltb_spec (length l) n); [reflexivity|]. f_equal.
      apply IH; rewrite skipn_length; lia.
Qed.
Lemma chunks_cons n a l : (0 < n)%nat -> length a = n -> chunks n (a ++ l) = a :: chunks n l.
Proof.
  intros Hn Ha. unfold chunks. destruct (length (a ++ l)) as [|f] eqn:E; [rewrite app_length in E; lia|].
  cbn [chunks_f]. rewrite app_length in E. rewrite app_length.
  destruct (Nat.ltb_spec (length a + length l) n); [lia|].
  rewrite firstn_app, <- Ha, firstn_all, Nat.sub_diag, skipn_app, skipn_all, Nat.sub_diag.
  cbn [firstn skipn app]. rewrite app_nil_r. f_equal. apply chunks_f_fuel; lia.
Qed.
Lemma chunks_short n l : (length l < n)%nat -> chunks n l = [].
Proof.
  intros H. unfold chunks. destruct (length l) as [|f] eqn:E; [reflexivity|]. cbn [chunks_f].
  rewrite E. destruct (Nat.ltb_spec (S f) n); [reflexivity|lia].
Qed.
(** the groups are the numbers in order, fewer than n of them left over *)
Lemma chunks_spec n l : (0 < n)%nat -> exists r, l = concat (chunks n l) ++ r /\ (length r < n)%nat /\
  Forall (fun a => length a = n) (chunks n l).
Proof.
  intros Hn. remember (length l) as m eqn:Hm. assert (L : (length l <= m)%nat) by lia. clear Hm.
  revert l L. induction m as [|m IH]; intros l L.
  - destruct l; [|cbn in L; lia]. exists []. cbn. repeat split; [lia|constructor].
  - destruct (Nat.ltb_spec (length l) n) as [H|H].
    + rewrite chunks_short by exact H. exists l. repeat split; [exact H|constructor].
    + destruct (IH (skipn n l)) as (r & E & R & F); [rewrite skipn_length; lia|].
      assert (W : chunks n l = firstn n l :: chunks n (skipn n l)).
      { rewrite <- (firstn_skipn n l) at 1. apply chunks_cons; [exact Hn|]. apply firstn_length_le. exact H. }
      rewrite W. exists r. cbn [concat]. rewrite <- app_assoc, <- E, firstn_skipn. repeat split; [exact R|].
      constructor; [apply firstn_length_le; exact H|exact F].
Qed.

Lemma make_values k r a : length a = argc k -> values (make k r a) = a /\ kind (make k r a) = Some k /\
  isrelative (make k r a) = r.
Proof.
  intros H. destruct k; cbn in H;
    repeat (destruct a as [|? a]; [discriminate H|]; cbn in H; apply Nat.succ_inj in H);
    (destruct a as [|? a]; [|discriminate H]); cbn; auto.
Qed.
Lemma make_self g : complete g = true -> valid g = true ->
  exists k, kind g = Some k /\ make k (isrelative g) (values g) = g /\ length (values g) = argc k.
Proof.
  intros C V. destruct g; try discriminate; eexists; (split; [reflexivity|]); split; try reflexivity;
    cbn; repeat match goal with p : pt |- _ => destruct p end; reflexivity.
Qed.
(** what a command with numbers parses to *)
Lemma parse_group k r v : k <> KZ -> forallb notc v = true ->
  let l := path_parse (letter_of k r :: v) in
  Forall (fun g => kind g = Some k /\ isrelative g = r) l /\
  exists rest, scan_numbers (strip v) = concat (map values l) ++ rest /\ (length rest < argc k)%nat.
Proof.
  intros K V l. unfold l. rewrite (parse_one _ k r v (command_letter k r) V).
  assert (A : (0 < argc k)%nat) by (destruct k; cbn; try lia; congruence).
  assert (B : build (k, r, v) = map (make k r) (chunks (argc k) (scan_numbers (strip v)))).
  { destruct k; try reflexivity. congruence. }
  rewrite B. destruct (chunks_spec (argc k) (scan_numbers (strip v)) A) as (rest & E & R & F). split.
  - apply Forall_map. eapply Forall_impl; [|exact F]. cbn. intros a Ha.
    destruct (make_values k r a Ha) as (_ & -> & ->). split; reflexivity.
  - exists rest. split; [|exact R]. rewrite map_map.
    replace (map (fun x => values (make k r x)) (chunks (argc k) (scan_numbers (strip v))))
      with (chunks (argc k) (scan_numbers (strip v))); [exact E|].
    clear E B. induction F as [|a l' Ha F IH]; [reflexivity|]. cbn [map]. rewrite <- IH.
    destruct (make_values k r a Ha) as (-> & _). reflexivity.
Qed.

(** *** number texts *)
Inductive numtext : list Q -> text -> Prop :=
| nt_one x : numtext [x] (fmt6 x)
| nt_cons x c l t : sep_char c = true -> numtext l t -> numtext (x :: l) (fmt6 x ++ c :: t).
Lemma numtext_app a w b u : numtext a w -> numtext b u -> numtext (a ++ b) (w ++ 32 :: u).
Proof.
  intros H G. induction H; cbn [app].
  - now apply nt_cons.
  - rewrite <- app_assoc. cbn [app]. now apply nt_cons.
Qed.
Lemma sep_not_command c : sep_char c = true -> is_command c = false.
Proof.
  unfold sep_char. intros H. apply orb_prop in H as [H|H]; [now apply space_not_command|].
  apply N.eqb_eq in H. subst c. reflexivity.
Qed.
Lemma fmt6_chars x : fmt6 x <> [] /\ forallb num_char (fmt6 x) = true.
Proof. apply format_chars, prec_pos. Qed.
Lemma fmt6_notc x : forallb notc (fmt6 x) = true.
Proof.
  destruct (fmt6_chars x) as [_ H]. rewrite forallb_forall in *. intros c Hc.
  rewrite num_not_command by auto. reflexivity.
Qed.
Lemma numtext_notc l t : numtext l t -> forallb notc t = true.
Proof.
  induction 1; [apply fmt6_notc|]. rewrite forallb_app, fmt6_notc. cbn [forallb].
  rewrite sep_not_command by assumption. exact IHnumtext.
Qed.
Lemma fmt6_piece x : piece is_space (fmt6 x).
Proof.
  destruct (fmt6_chars x) as [N H]. split; [exact N|]. rewrite forallb_forall in *. intros c Hc.
  destruct (num_char_props c (H c Hc)) as [-> _]. reflexivity.
Qed.
Lemma numtext_ne l t : numtext l t -> t <> [].
Proof.
  intros H. destruct (fmt6_chars (hd 0%Q l)) as [N _]. destruct H; cbn [hd] in N; [exact N|].
  destruct (fmt6 x); [congruence|discriminate].
Qed.
Lemma numtext_strip l t : numtext l t -> strip t = t.
Proof.
  intros H. apply strip_id.
  - destruct H; [rewrite <- (app_nil_r (fmt6 x))|]; apply piece_head, fmt6_piece.
  - induction H.
    + rewrite <- (app_nil_r (rev _)). apply piece_head, piece_rev, fmt6_piece.
    + rewrite rev_app_distr. cbn [rev]. rewrite <- app_assoc.
      destruct (rev t) as [|y u] eqn:E; [|exact IHnumtext].
      exfalso. apply (numtext_ne _ _ H0). rewrite <- (rev_involutive t), E. reflexivity.
Qed.
Lemma numtext_scan l t : numtext l t -> Forall2 Qeq (scan_numbers t) (map R6 l).
Proof.
  induction 1.
  - destruct (scan_format precision x [] prec_pos eq_refl) as (v & E & V). rewrite app_nil_r in E.
    unfold scan_numbers, fmt6. rewrite (finditer_some _ _ _ _ scan_number_shrinks E). rewrite finditer_nil.
    constructor; [exact V|constructor].
  - assert (S : separator [c] = true) by (cbn; unfold sep_char in H; now rewrite H).
    destruct (scan_format precision x ([c] ++ t) prec_pos (separator_ended [c] t S)) as (v & E & V).
    unfold scan_numbers, fmt6. change (c :: t) with ([c] ++ t).
    rewrite (finditer_some _ _ _ _ scan_number_shrinks E).
    constructor; [exact V|]. fold (scan_numbers ([c] ++ t)). rewrite separator_skip by exact S. exact IHnumtext.
Qed.

Definition closepath (g : seg) : bool := match g with SZ _ => true | _ => false end.
Lemma values_numtext g : complete g = true -> valid g = true -> closepath g = false ->
  numtext (values g) (values_text g).
Proof.
  intros C V Z. destruct g; try discriminate; cbn [values values_text]; unfold format_pairs, format_number_sequence;
    cbn [map flat_pairs flat_map to_pairs join app fst snd]; fold fmt6;
    repeat rewrite <- app_assoc; cbn [app];
    repeat first [apply nt_one | apply nt_cons; [reflexivity|]].
Qed.

(** *** reading one group *)
Definition alike (k : cmd) (r : bool) (g : seg) : Prop := kind g = Some k /\ isrelative g = r /\ complete g = true /\ valid g = true.
Lemma alike_len k r g : alike k r g -> length (values g) = argc k.
Proof.
  intros (K & R & C & V). destruct (make_self g C V) as (k' & K' & _ & L).
  rewrite K in K'. injection K' as <-. exact L.
Qed.
Lemma Forall2_len {A B} (R : A -> B -> Prop) l l' : Forall2 R l l' -> length l = length l'.
Proof. induction 1; cbn; congruence. Qed.
Lemma Forall2_Qeq_sym l l' : Forall2 Qeq l l' -> Forall2 Qeq l' l.
Proof. induction 1; constructor; auto. symmetry. assumption. Qed.
Lemma read_segs k r segs : k <> KZ -> Forall (alike k r) segs -> forall us,
  Forall2 Qeq us (map R6 (concat (map values segs))) ->
  Forall2 written segs (map (make k r) (chunks (argc k) us)).
Proof.
  intros K H. assert (A : (0 < argc k)%nat) by (destruct k; cbn; try lia; congruence).
  induction H as [|g segs Hg H IH]; intros us E; cbn [map concat] in E.
  - inversion E; subst. rewrite chunks_short by exact A. constructor.
  - rewrite map_app in E. apply Forall2_app_inv_r in E as (a & us' & E1 & E2 & ->).
    assert (L : length a = argc k).
    { rewrite (Forall2_len _ _ _ E1), map_length. now apply alike_len with r. }
    rewrite chunks_cons by assumption. cbn [map]. constructor; [|apply IH; exact E2].
    destruct (make_values k r a L) as (V1 & V2 & V3). destruct Hg as (G1 & G2 & _).
    split; [congruence|]. split; [congruence|]. rewrite V1.
    apply Forall2_Qeq_sym. exact E1.
Qed.

Definition pending (k : cmd) (r : bool) (segs : list seg) (w : text) : Prop :=
  (k = KZ /\ w = [] /\ segs = [SZ r]) \/
  (k <> KZ /\ Forall (alike k r) segs /\ numtext (concat (map values segs)) w).
Lemma pending_notc k r segs w : pending k r segs w -> forallb notc w = true.
Proof. intros [(_ & -> & _)|(_ & _ & H)]; [reflexivity|]. now apply numtext_notc in H. Qed.
Lemma pending_read k r segs w s : pending k r segs w -> forallb is_space s = true ->
  Forall2 written segs (path_parse (letter_of k r :: w ++ s)).
Proof.
  intros H Hs.
  assert (Hs' : forallb notc s = true).
  { rewrite forallb_forall in *. intros x Hx. rewrite space_not_command by auto. reflexivity. }
  rewrite (parse_one _ k r) by
    (try apply command_letter; rewrite forallb_app, (pending_notc _ _ _ _ H), Hs'; reflexivity).
  destruct H as [(-> & -> & ->)|(K & A & T)].
  - cbn. constructor; [|constructor]. repeat split. constructor.
  - assert (B : build (k, r, w ++ s) = map (make k r) (chunks (argc k) (scan_numbers (strip (w ++ s))))).
    { destruct k; try reflexivity. congruence. }
    rewrite B. apply read_segs; [exact K|exact A|].
    rewrite strip_app_space by exact Hs. rewrite (numtext_strip _ _ T). now apply numtext_scan.
Qed.

Definition nonempty (t : text) : bool := match t with [] => false | _ => true end.
Definition spaced (ps : list text) : text := flat_map (fun p => 32 :: p) (filter nonempty ps).
Lemma join_spaced x ps : join [32] (x :: filter nonempty ps) = x ++ spaced ps.
Proof.
  unfold spaced. revert x. induction (filter nonempty ps) as [|y l IH]; intros x.
  - cbn. now rewrite app_nil_r.
  - rewrite join_cons_ne by discriminate. rewrite IH. reflexivity.
Qed.
Lemma letter_of_inj k r k' r' : letter_of k r = letter_of k' r' -> k = k' /\ r = r'.
Proof.
  intros H. pose proof (command_letter k r) as A. rewrite H, command_letter in A. now injection A.
Qed.
Lemma valid_letter g : complete g = true -> valid g = true ->
  exists k, kind g = Some k /\ letter g = Some (letter_of k (isrelative g)) /\
  seg_tostring g = Ok (letter_of k (isrelative g) :: values_text g) /\
  (k = KZ -> g = SZ (isrelative g)) /\ (k <> KZ -> closepath g = false).
Proof. intros C V. destruct g; try discriminate; eexists; repeat split; try reflexivity; try discriminate; intros; congruence. Qed.

Definition fits (last : option N) (l : list seg) : Prop :=
  no_double_close l = true /\ forall r l', last = Some (letter_of KZ r) -> l <> SZ r :: l'.
Lemma fits_tail g l last : fits last (g :: l) -> fits (letter g) l.
Proof.
  intros [H _]. split.
  - destruct g; try exact H. cbn [no_double_close] in H. destruct l as [|[]]; try exact H.
    apply andb_prop in H as [_ H]. exact H.
  - intros r l' E ->. destruct g; cbn in E; try discriminate;
      try (injection E; intros E'; first [destruct rel, r; discriminate E' | destruct r; discriminate E']).
    injection E as E. apply letter_of_inj in E as [_ ->].
    cbn [no_double_close] in H. rewrite Bool.eqb_reflx in H. discriminate.
Qed.

Lemma run l : forall last k r segs w, pending k r segs w ->
  last = Some (letter_of k r) \/ last = None ->
  forallb complete l = true -> fits last l ->
  exists ps, pieces last l = Ok ps /\
    Forall2 written (segs ++ filter valid l) (path_parse (letter_of k r :: w ++ spaced ps)).
Proof.
  induction l as [|g l IH]; intros last k r segs w Hp Hl Hc Hf.
  - exists []. split; [reflexivity|]. cbn [filter]. rewrite app_nil_r. now apply pending_read.
  - cbn [forallb] in Hc. apply andb_prop in Hc as [Hg Hc]. pose proof (fits_tail _ _ _ Hf) as Hf'.
    destruct (valid g) eqn:V.
    2:{ destruct g; try discriminate V. cbn [letter kind] in Hf'.
        destruct (IH None k r segs w Hp (or_intror eq_refl) Hc Hf') as (ps & E & F).
        exists ([] :: ps). cbn [pieces seg_tostring letter kind bind]. rewrite E. cbn [bind]. split.
        - destruct (same_letter last None); reflexivity.
        - exact F. }
    destruct (valid_letter g Hg V) as (k' & K' & L' & T' & Z1 & Z2). cbn [filter]. rewrite V.
    cbn [pieces]. rewrite T', L'. cbn [bind].
    destruct (same_letter last (Some (letter_of k' (isrelative g)))) eqn:SL.
    + destruct Hl as [->| ->]; [|discriminate SL]. cbn in SL. apply N.eqb_eq in SL.
      apply letter_of_inj in SL as [<- ER]. rewrite <- ER in T', L', Z1 |- *. symmetry in ER.
      assert (NZ : k <> KZ).
      { intros ->. destruct Hf as [_ Hf]. apply (Hf r l eq_refl). f_equal. exact (Z1 eq_refl). }
      destruct Hp as [(? & _)|(_ & A & T)]; [contradiction|].
      assert (T2 : numtext (values g) (values_text g)) by (apply values_numtext; auto).
      destruct (IH (Some (letter_of k r)) k r (segs ++ [g]) (w ++ 32 :: values_text g)) as (ps & E & F).
      * right. split; [exact NZ|]. split.
        -- apply Forall_app. split; [exact A|]. constructor; [|constructor]. repeat split; assumption.
        -- rewrite map_app, concat_app. cbn [map concat]. rewrite app_nil_r. now apply numtext_app.
      * left; reflexivity.
      * exact Hc.
      * now rewrite L' in Hf'.
      * rewrite E. cbn [bind tl]. eexists. split; [reflexivity|]. rewrite <- app_assoc in F.
        rewrite <- app_assoc in F. cbn [app] in F. unfold spaced. cbn [filter].
        destruct (values_text g) as [|x v] eqn:EV; [apply numtext_ne in T2; congruence|].
        cbn [nonempty flat_map]. rewrite <- app_comm_cons. exact F.
    + destruct (IH (Some (letter_of k' (isrelative g))) k' (isrelative g) [g] (values_text g)) as (ps & E & F).
      * destruct (cmd_eq_dec k' KZ) as [->|NZ].
        -- left. rewrite (Z1 eq_refl). cbn. auto.
        -- right. split; [exact NZ|]. split; [repeat constructor; assumption|].
           cbn [map concat]. rewrite app_nil_r. apply values_numtext; auto.
      * left; reflexivity.
      * exact Hc.
      * now rewrite L' in Hf'.
      * rewrite E. cbn [bind]. eexists. split; [reflexivity|]. unfold spaced. cbn [filter nonempty flat_map].
        fold (spaced ps).
        replace (letter_of k r :: w ++ (32 :: letter_of k' (isrelative g) :: values_text g) ++ spaced ps)
          with ((letter_of k r :: w ++ [32]) ++ (letter_of k' (isrelative g) :: values_text g ++ spaced ps)).
        2:{ cbn [app]. rewrite <- app_assoc. reflexivity. }
        rewrite parse_app.
        -- apply Forall2_app; [now apply pending_read|exact F].
        -- unfold closed. change (letter_of k r :: w ++ [32]) with ((letter_of k r :: w) ++ [32]).
           rewrite rev_app_distr. reflexivity.
        -- cbn [opens]. unfold is_command. now rewrite command_letter.
Qed.

Lemma path_roundtrip l : forallb complete l = true -> no_double_close l = true ->
  exists t, path_tostring l = Ok t /\ Forall2 written (filter valid l) (path_parse t).
Proof.
  intros Hc Hd. unfold path_tostring. change (fun t : list N => _) with nonempty.
  assert (F : fits None l) by (split; [exact Hd|discriminate]). clear Hd. revert Hc F.
  induction l as [|g l IH]; intros Hc Hf.
  - exists []. split; [reflexivity|constructor].
  - cbn [forallb] in Hc. apply andb_prop in Hc as [Hg Hc]. pose proof (fits_tail _ _ _ Hf) as Hf'.
    destruct (valid g) eqn:V.
    + destruct (valid_letter g Hg V) as (k & K & L & T & Z1 & Z2). cbn [filter]. rewrite V.
      destruct (run l (Some (letter_of k (isrelative g))) k (isrelative g) [g] (values_text g)) as (ps & E & G).
      * destruct (cmd_eq_dec k KZ) as [->|NZ].
        -- left. rewrite (Z1 eq_refl). cbn. auto.
        -- right. split; [exact NZ|]. split; [repeat constructor; assumption|].
           cbn [map concat]. rewrite app_nil_r. apply values_numtext; auto.
      * left; reflexivity.
      * exact Hc.
      * now rewrite L in Hf'.
      * cbn [pieces]. rewrite T, L. cbn [bind same_letter]. rewrite E. cbn [bind filter nonempty].
        eexists. split; [reflexivity|]. rewrite join_spaced. exact G.
    + destruct g; try discriminate V. cbn [letter kind] in Hf'.
      destruct (IH Hc Hf') as (t & E & G). exists t. split; [|exact G].
      cbn [pieces seg_tostring letter kind bind same_letter tl].
      destruct (pieces None l) as [ps|e]; [|exact E]. exact E.
Qed.

Lemma written_same g h : Forall (decimal_places precision) (values g) -> written g h -> seg_same g h.
Proof.
  intros D (K & R & V). split; [exact K|]. split; [exact R|]. revert D V. generalize (values g) (values h).
  induction l as [|x l IH]; intros l' D V; cbn [map] in V; inversion V; subst; constructor.
  - inversion D; subst. rewrite <- (places_rounded x); assumption.
  - inversion D; subst. auto.
Qed.
Lemma path_roundtrip_exact l : forallb complete l = true -> forallb valid l = true -> no_double_close l = true ->
  Forall (fun g => Forall (decimal_places precision) (values g)) l ->
  exists t, path_tostring l = Ok t /\ Forall2 seg_same l (path_parse t).
Proof.
  intros Hc Hv Hd H. destruct (path_roundtrip l Hc Hd) as (t & E & F). exists t. split; [exact E|].
  assert (X : filter valid l = l).
  { clear - Hv. induction l as [|g l IH]; [reflexivity|]. cbn in *. apply andb_prop in Hv as [-> Hv]. f_equal; auto. }
  rewrite X in F. clear - F H. induction F; constructor; inversion H; subst; auto. now apply written_same.
Qed.
