(** Lemmas on computed style. *)
From Coq Require Import Lia Lqa.
From Verif Require Import PyBase PyText PySplit PyStrip PyDict NumScan FormatModel FormatSpec FormatProofs NumScanProofs FontTextModel CascadeModel CascadeSpec CascadeProofs CascadeProofs2 CascadeProofs3 CascadeProps
  FeatModel LengthModel LengthSpec LengthProofs FontSizeModel FontSizeSpec FontSizeProofs ViewModel ViewProofs GeomModel GeomSpec GeomProofs ComputedModel ComputedSpec.
#[local] Open Scope Q_scope.

Lemma bind_inv {A B} (r : result A) (k : A -> result B) b : bind r k = Ok b -> exists a, r = Ok a /\ k a = Ok b.
Proof. destruct r as [a|e]; [intros H; exists a; now split|discriminate]. Qed.
Ltac inv_bind H := let a := fresh "a" in let E := fresh "E" in apply bind_inv in H; destruct H as (a & E & H).

(** ** Texts *)
Lemma amount_parse t n u : amount t n u -> exists m, parse t = Ok (m, u) /\ m == n.
Proof.
  intros (a & w & b & E & A & B & N & U). set (v := match u with Some v => v | None => [] end) in *.
  assert (P : forallb plain (w ++ v) = true /\ w ++ v <> []).
  { destruct (numeral_plain w n N) as [P Z]. destruct (unit_finished u U) as (_ & _ & C & _). split; [now rewrite forallb_app, P|].
    destruct w; [congruence|discriminate]. }
  destruct P as [P Z]. unfold parse. assert (E' : t = a ++ (w ++ v) ++ b) by (rewrite E, <- app_assoc; reflexivity).
  rewrite E', strip_inside by (auto; now apply plain_not_space).
  destruct (unit_finished u U) as (F & G & _ & M). destruct (numeral_scan w n _ N F) as (x & S & V). exists x. split; [|exact V].
  unfold v, text in *. rewrite S. transitivity (LengthModel.normalize x u); [|apply M]. f_equal. exact G.
Qed.
Lemma value_sized m u c d s : sized c d u Length s -> exists v, value (mkL m u c c None) None d = Ok v /\ v == m * s.
Proof.
  intros S. set (x := mkL m u c c d). assert (E : value (mkL m u c c None) None d = value x None None) by (unfold value; cbn; now destruct d).
  rewrite E. destruct (value_spec x None Length s 1) as (v & X & V); auto.
  - apply s_none.
  - discriminate.
  - intros t' m' p. discriminate.
  - exists v. split; [exact X|]. change (v * 1 == m * s) in V. rewrite <- V. ring.
Qed.

(** ** What a length looks_up to *)
Lemma sized_same c c' d u k s : sized c d u k s -> cvw c' = cvw c -> cvh c' = cvh c -> diagonal c' = diagonal c -> metric c' = metric c ->
  (u = Some (lit "rem") -> root_size c' = root_size c) ->
  (u = Some (lit "em") \/ u = Some (lit "%") \/ metric_unit u -> parent_size c' = parent_size c) -> sized c' d u k s.
Proof.
  intros S A B C D R P. destruct S; try (constructor; fail).
  - rewrite <- P by auto. constructor.
  - rewrite <- R by auto. constructor.
  - rewrite <- A. constructor.
  - rewrite <- B. constructor.
  - rewrite <- A, <- B. constructor.
  - rewrite <- A, <- B. constructor.
  - rewrite <- A. now constructor.
  - rewrite <- B. now constructor.
  - rewrite <- C. now constructor.
  - rewrite <- P by auto. now constructor.
  - apply s_font; congruence.
  - rewrite <- P by (right; right; eexists; split; [reflexivity|assumption]). eapply s_font_0; eauto; congruence.
  - rewrite <- P by (right; right; eexists; split; [reflexivity|assumption]). apply s_no_font; auto; congruence.
Qed.
Lemma uin_iff u l : uin u l = true <-> exists v, u = Some v /\ In v l.
Proof.
  unfold uin. destruct u as [t|].
  - rewrite mem_in. split; [eauto|]. intros (v & [= ->] & I). exact I.
  - split; [discriminate|]. intros (v & [=] & _).
Qed.
Lemma font_uin u : u = Some (lit "em") \/ u = Some (lit "%") \/ metric_unit u -> uin u font_units = true.
Proof.
  intros [-> |[-> |(v & -> & I)]]; try reflexivity. apply uin_iff. exists v. split; [reflexivity|]. right. right. exact I.
Qed.
Lemma fetch_looks k chain u c c' : fetch k chain u = Ok c' -> looks_up (fst k) chain u c -> forall d s, sized c d u Length s -> sized c' d u Length s.
Proof.
  destruct chain as [|n anc]; cbn [fetch looks_up].
  - intros [= <-] -> d s S. exact S.
  - intros F (A & B & C & D & R & P) d s S. inv_bind F. inv_bind F. inv_bind F. injection F as <-.
    apply (sized_same c); cbn [cvw cvh diagonal metric root_size parent_size]; auto.
    + intros U. rewrite U in E. change (uin (Some (lit "rem")) [lit "rem"]) with true in E. rewrite (R U) in E. congruence.
    + intros U. rewrite (font_uin u U) in E0. specialize (P U). destruct anc as [|m anc]; congruence.
Qed.
Lemma length_reads k chain d t v q : length_at k chain d t = Ok v -> reads (fst k) chain d t q -> v == q.
Proof.
  intros L (n & u & c & s & A & R & S & Q). destruct (amount_parse t n u A) as (m & P & M). unfold length_at in L. rewrite P in L. cbn [bind fst snd] in L.
  inv_bind L. assert (S' := fetch_looks k chain u c a E R d s S). destruct (value_sized m u a d s S') as (w & W & V). rewrite W in L. injection L as <-.
  now rewrite V, M.
Qed.
(* absolute units ask nothing *)
Lemma absolute_fetch k chain u : absolute_unit u -> exists c, fetch k chain u = Ok c /\ looks_up (fst k) chain u c.
Proof.
  intros U. assert (X : uin u [lit "rem"] = false /\ uin u font_units = false /\ uin u metric_units = false).
  { destruct u as [v|]; [|now repeat split]. cbn in U. repeat destruct U as [<- |U]; now repeat split. }
  destruct X as (X1 & X2 & X3). destruct chain as [|n anc]; [exists no_context; now split|]. cbn [fetch]. rewrite X1, X2, X3. cbn [bind]. eexists. split; [reflexivity|].
  cbn. repeat split.
  - intros ->. discriminate X1.
  - intros H. rewrite (font_uin u H) in X2. discriminate.
Qed.
Lemma absolute_sized u : absolute_unit u -> exists s, forall c d, sized c d u Length s.
Proof.
  destruct u as [v|]; intros U; [|eexists; intros; apply s_none]. cbn in U. repeat destruct U as [<- |U]; try destruct U; eexists; intros; constructor.
Qed.
Lemma absolute_length k chain d t n u s : amount t n u -> absolute_unit u -> (forall c d, sized c d u Length s) -> exists v, length_at k chain d t = Ok v /\ v == n * s.
Proof.
  intros A U S. destruct (absolute_fetch k chain u U) as (c & F & _). destruct (amount_parse t n u A) as (m & P & M). unfold length_at. rewrite P. cbn [bind fst snd]. rewrite F. cbn [bind].
  destruct (value_sized m u c d s (S c d)) as (v & W & V). exists v. split; [exact W|]. now rewrite V, M.
Qed.

(** ** More fuel gives the same *)
Definition calls_le (k k' : calls) : Prop :=
  (forall chain q, fst k chain = Ok q -> fst k' chain = Ok q) /\ (forall chain r, snd k chain = Ok r -> snd k' chain = Ok r).
Lemma fetch_le k k' chain u c : calls_le k k' -> fetch k chain u = Ok c -> fetch k' chain u = Ok c.
Proof.
  intros [L1 L2]. destruct chain as [|n anc]; [auto|]. cbn [fetch]. intros F. inv_bind F. inv_bind F. inv_bind F.
  assert (X : (if uin u [lit "rem"] then fst k' [last anc n] else Ok (root_size (g_ctx (s_geo n)))) = Ok a) by (destruct (uin u [lit "rem"]); auto).
  rewrite X. cbn [bind]. assert (Y : (if uin u font_units then match anc with [] => Ok 16 | _ => fst k' anc end else Ok (parent_size (g_ctx (s_geo n)))) = Ok a0)
    by (destruct (uin u font_units); [destruct anc; auto|auto]).
  rewrite Y. cbn [bind]. assert (Z : (if uin u metric_units then snd k' (n :: anc) else Ok []) = Ok a1) by (destruct (uin u metric_units); auto).
  rewrite Z. exact F.
Qed.
Lemma length_le k k' chain d t q : calls_le k k' -> length_at k chain d t = Ok q -> length_at k' chain d t = Ok q.
Proof. intros L H. unfold length_at in *. inv_bind H. rewrite E. cbn [bind]. inv_bind H. rewrite (fetch_le k k' _ _ _ L E0). exact H. Qed.
Lemma line_le k k' chain t q : calls_le k k' -> line_at k chain t = Ok q -> line_at k' chain t = Ok q.
Proof.
  intros L H. unfold line_at in *. inv_bind H. rewrite E. cbn [bind]. destruct (uin (snd a) [lit "%"]); [exact H|]. inv_bind H. rewrite (fetch_le k k' _ _ _ L E0). exact H.
Qed.
Definition node_le (a b : fnode) : Prop := f_attr a = f_attr b /\ forall t q, f_len a t = Ok q -> f_len b t = Ok q.
Lemma nodes_le k k' anc : calls_le k k' -> Forall2 node_le (size_nodes k anc) (size_nodes k' anc).
Proof.
  intros L. induction anc as [|n r IH]; [constructor|]. cbn [size_nodes]. apply Forall2_cons; [|exact IH]. split; [reflexivity|]. cbn [f_len]. intros t q. now apply length_le.
Qed.
Lemma absolute_le d (len len' : text -> result Q) v q : (forall t q, len t = Ok q -> len' t = Ok q) -> absolute_size d len v = Ok q -> absolute_size d len' v = Ok q.
Proof. intros L H. unfold absolute_size in *. destruct (keyword_size d v); [exact H|]. inv_bind H. rewrite (L _ _ E). exact H. Qed.
Lemma walk_le d factor a b : Forall2 node_le a b -> forall s q, size_walk d factor a s = Ok q -> size_walk d factor b s = Ok q.
Proof.
  induction 1 as [|x y a b [N L] F IH]; intros s q; [auto|]. cbn [size_walk]. rewrite <- N. destruct (f_attr x) as [v|]; [|apply IH].
  destruct (relative_size v); [apply IH|]. intros H. inv_bind H. rewrite (absolute_le d _ _ v a0 L E). cbn [bind]. now apply IH.
Qed.
Lemma Forall2_rev' {A B} (R : A -> B -> Prop) l m : Forall2 R l m -> Forall2 R (rev l) (rev m).
Proof. induction 1; [constructor|]. cbn [rev]. apply Forall2_app; [assumption|]. apply Forall2_cons; [assumption|constructor]. Qed.
Lemma size_from_le k k' chain s q : calls_le k k' -> size_from k chain s = Ok q -> size_from k' chain s = Ok q.
Proof.
  intros L H. unfold size_from in *. inv_bind H. rewrite E. cbn [bind]. unfold compute_font_size in *. destruct (relative_size a).
  - inv_bind H. rewrite (walk_le _ _ _ _ (Forall2_rev' _ _ _ (nodes_le k k' (tl chain) L)) _ _ E0). exact H.
  - exact (absolute_le 16 _ _ a q (fun t q => length_le k k' chain None t q L) H).
Qed.
Lemma line_height_le (p p' : text -> result (bool * Q)) v fs q : (forall t x, p t = Ok x -> p' t = Ok x) -> compute_line_height p v fs = Ok q -> compute_line_height p' v fs = Ok q.
Proof. intros L H. unfold compute_line_height in *. destruct (text_eqb v (lit "normal")); [exact H|]. inv_bind H. now rewrite (L _ _ E). Qed.
