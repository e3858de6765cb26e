(** Proofs about parsing math functions. *)
From Verif Require Import PyBase PyText PyList PySplit PyDict PyCase CssTypeModel CssUnitModel CssUnitSpec CssUnitProofs CssMathModel CssMathSpec CssMathProofs CssCalcModel CssCalcSpec.
From Coq Require Import Lqa Lia.
#[local] Open Scope Q_scope.

(** * The heap *)
Lemma nth_upd h n f m : nth_error (upd h n f) m = if Nat.eqb n m then option_map f (nth_error h n) else nth_error h m.
Proof.
  unfold upd. destruct (nth_error h n) eqn:E.
  - revert n m E. induction h as [|a h IH]; intros [|n] [|m] E; try discriminate; cbn in *; auto.
  - destruct (Nat.eqb_spec n m); subst; auto.
Qed.
Lemma upd_length h n f : length (upd h n f) = length h.
Proof. unfold upd. destruct (nth_error h n); auto. revert n. induction h; intros [|n]; cbn; auto. Qed.
Lemma nth_new h (x : node) : nth_error (h ++ [x]) (length h) = Some x.
Proof. rewrite nth_error_app2, Nat.sub_diag by lia. reflexivity. Qed.
Lemma nth_old h (x : node) n y : nth_error h n = Some y -> nth_error (h ++ [x]) n = Some y.
Proof. intros E. rewrite nth_error_app1; auto. apply nth_error_Some. congruence. Qed.
Lemma nth_lt {A} (h : list A) n y : nth_error h n = Some y -> (n < length h)%nat.
Proof. intros E. apply nth_error_Some. congruence. Qed.
Lemma get_nth h n x : nth_error h n = Some x -> get h n = x.
Proof. unfold get. now intros ->. Qed.

(** * What a value in the heap is worth, and which nodes it is made of *)
Definition combine (o : option nop) (qs : list Q) (q : Q) : Prop :=
  match o, qs with
  | None, _ :: _ | Some OSum, _ :: _ => q == Qsum qs
  | Some OProduct, _ :: _ => q == Qprod qs
  | Some OMin, _ :: _ => q == least qs
  | Some OMax, _ :: _ => q == greatest qs
  | Some OInvert, [x] => q == / x
  | Some ONegate, [x] => q == - x
  | Some OClamp, [a; b; c] => q == clamped a b c
  | _, _ => False
  end.
Inductive val (size : text -> Q) (h : mheap) (A : nat -> Prop) : nval -> Q -> Prop :=
  | val_u v u q : q == v * size u -> val size h A (VU v u) q
  | val_n n x qs q : A n -> nth_error h n = Some x -> vals size h A (nvals x) qs -> combine (oper x) qs q -> val size h A (VN n) q
with vals (size : text -> Q) (h : mheap) (A : nat -> Prop) : list nval -> list Q -> Prop :=
  | vals_nil : vals size h A [] []
  | vals_cons v q vs qs : val size h A v q -> vals size h A vs qs -> vals size h A (v :: vs) (q :: qs).
Scheme val_i := Induction for val Sort Prop with vals_i := Induction for vals Sort Prop.
Combined Scheme val_vals_ind from val_i, vals_i.

Lemma combine_eq o qs q q' : q == q' -> combine o qs q -> combine o qs q'.
Proof. intros E. destruct o as [[]|]; destruct qs as [|? [|? [|? [|? ?]]]]; cbn; auto; intros H; now rewrite <- E. Qed.
Lemma val_eq size h A v q q' : q == q' -> val size h A v q -> val size h A v q'.
Proof. intros E H. inversion H; subst. { constructor. now rewrite <- E. } econstructor; eauto. eapply combine_eq; eauto. Qed.
Lemma frame_both size h (A : nat -> Prop) h' (A' : nat -> Prop) : (forall n x, A n -> nth_error h n = Some x -> A' n /\ exists x', nth_error h' n = Some x' /\ oper x' = oper x /\ nvals x' = nvals x) ->
  (forall v q, val size h A v q -> val size h' A' v q) /\ (forall v q, vals size h A v q -> vals size h' A' v q).
Proof.
  intros F. apply (val_vals_ind size h A (fun v q _ => val size h' A' v q) (fun v q _ => vals size h' A' v q)).
  - intros. now constructor.
  - intros n x qs q An E _ IH C. destruct (F _ _ An E) as (A1 & x' & E' & O & V). econstructor; eauto. { rewrite V. apply IH. } now rewrite O.
  - constructor.
  - intros. now constructor.
Qed.
Definition own (lo : nat) (ex : list nat) (n : nat) : Prop := (lo <= n)%nat /\ ~ In n ex.
Lemma vals_app size h A v q vs qs : vals size h A vs qs -> val size h A v q -> vals size h A (vs ++ [v]) (qs ++ [q]).
Proof. induction 1; intros; cbn; repeat constructor; auto. Qed.
Lemma vals_length size h A vs qs : vals size h A vs qs -> length vs = length qs.
Proof. induction 1; cbn; auto. Qed.
Lemma vals_split size h A vs1 vs2 qs : vals size h A (vs1 ++ vs2) qs -> exists q1 q2, qs = q1 ++ q2 /\ vals size h A vs1 q1 /\ vals size h A vs2 q2.
Proof.
  revert qs. induction vs1 as [|v vs1 IH]; cbn; intros qs H. { exists [], qs. repeat split; auto. constructor. }
  inversion H; subst. destruct (IH _ H4) as (q1 & q2 & -> & V1 & V2). exists (q :: q1), q2. repeat split; auto. now constructor.
Qed.
Lemma Qsum_snoc l q : Qsum (l ++ [q]) == Qsum l + q.
Proof. induction l; cbn. lra. unfold Qsum in *. rewrite IHl. lra. Qed.
Lemma Qprod_snoc l q : Qprod (l ++ [q]) == Qprod l * q.
Proof. induction l; cbn. ring. unfold Qprod in *. rewrite IHl. ring. Qed.

(** * Making expressions *)
Lemma fold_eq (f : Q -> Q -> Q) (P : forall a a' b b', a == a' -> b == b' -> f a b == f a' b') l l' a a' :
  Forall2 Qeq l l' -> a == a' -> fold_left f l a == fold_left f l' a'.
Proof. intros F. revert a a'. induction F; cbn; intros; auto. Qed.
Lemma combine_worth size o es qs q : Forall2 (fun e q => worth size e == q) es qs -> combine o qs q ->
  exists e, build o es = Ok e /\ worth size e == q.
Proof.
  intros F C.
  assert (SUM : Qsum (map (worth size) es) == Qsum qs) by (clear C; induction F; cbn; [reflexivity|unfold Qsum in *; now rewrite IHF, H]).
  assert (PROD : Qprod (map (worth size) es) == Qprod qs) by (clear C SUM; induction F; cbn; [reflexivity|unfold Qprod in *; now rewrite IHF, H]).
  assert (EQ : Forall2 Qeq (map (worth size) es) qs) by (clear C SUM PROD; induction F; constructor; auto).
  assert (MIN : least (map (worth size) es) == least qs).
  { unfold least. inversion EQ; [reflexivity|]. apply fold_eq; auto. intros ? ? ? ? E1 E2. now rewrite E1, E2. }
  assert (MAX : greatest (map (worth size) es) == greatest qs).
  { unfold greatest. inversion EQ; [reflexivity|]. apply fold_eq; auto. intros ? ? ? ? E1 E2. now rewrite E1, E2. }
  destruct F as [|e q1 es qs E1 F]. { destruct o as [[]|]; destruct C. }
  destruct o as [[]|]; cbn [build].
  1,2,5,6,8: eexists; split; [reflexivity|]; cbn [combine] in C; cbn [worth]; rewrite C; auto.
  1,2: inversion F; subst; [|destruct C]; eexists; split; [reflexivity|]; cbn in *; now rewrite C, E1.
  inversion F as [|e2 q2 es2 qs2 E2 F2]; subst; [destruct C|]. inversion F2 as [|e3 q3 es3 qs3 E3 F3]; subst; [destruct C|].
  inversion F3; subst; [|destruct C]. eexists; split; [reflexivity|]. cbn in *. rewrite C. unfold clamped. now rewrite E1, E2, E3.
Qed.
Lemma opts_more (l : list nval) h n k es : opts (map (reify n h) l) = Some es -> (n <= k)%nat ->
  (forall v r, In v l -> reify n h v = Some r -> reify k h v = Some r) -> opts (map (reify k h) l) = Some es.
Proof.
  revert es. induction l as [|v l IH]; cbn; intros es O L F; auto.
  destruct (reify n h v) eqn:E; [|discriminate]. rewrite (F v _ (or_introl eq_refl) E).
  destruct (opts (map (reify n h) l)) eqn:E2; [|discriminate]. rewrite (IH _ eq_refl L) by (intros; apply F; auto). auto.
Qed.
Lemma reify_more h n : forall k v r, (n <= k)%nat -> reify n h v = Some r -> reify k h v = Some r.
Proof.
  induction n as [|n IH]; intros [|k] [q u|i] r L H; cbn in *; auto; try discriminate; [lia|].
  destruct (opts (map (reify n h) (nvals (get h i)))) eqn:E; [|discriminate].
  erewrite opts_more; eauto. lia. intros. eapply IH; eauto. lia.
Qed.
Lemma reify_val size h A :
  (forall v q, val size h A v q -> exists n e, reify n h v = Some (Ok e) /\ worth size e == q) /\
  (forall vs qs, vals size h A vs qs -> exists n es, opts (map (reify n h) vs) = Some (map Ok es) /\ Forall2 (fun e q => worth size e == q) es qs).
Proof.
  apply (val_vals_ind size h A (fun v q _ => exists n e, reify n h v = Some (Ok e) /\ worth size e == q)
    (fun vs qs _ => exists n es, opts (map (reify n h) vs) = Some (map Ok es) /\ Forall2 (fun e q => worth size e == q) es qs)).
  - intros v u q E. exists O, (EUnit v u). split; auto. cbn. now rewrite E.
  - intros n x qs q _ E _ (k & es & O & F) C. destruct (combine_worth _ _ _ _ _ F C) as (e & B & W).
    exists (S k), e. split; auto. cbn. rewrite (get_nth _ _ _ E), O.
    assert (R : results (map Ok es) = Ok es) by (clear; induction es as [|e es IH]; cbn; [auto|now rewrite IH]). rewrite R. cbn. now rewrite B.
  - exists O, []. split; auto.
  - intros v q vs qs _ (n & e & R & W) _ (k & es & O & F). exists (Nat.max n k), (e :: es). split; [|constructor; auto].
    cbn. rewrite (reify_more h n (Nat.max n k) v _ (Nat.le_max_l _ _) R).
    rewrite (opts_more vs h k (Nat.max n k) _ O (Nat.le_max_r _ _)); auto. intros ? ? _ RR. exact (reify_more h k _ _ _ (Nat.le_max_r _ _) RR).
Qed.

(** * The loop *)
Fixpoint loop (args : list comp) (h : mheap) (cur : nat) {struct args} : result (mheap * nat) :=
  match args with
  | [] => Ok (h, cur)
  | arg :: rest =>
      match arg with
      | CLit c =>
          if text_eqb c (lit ",") && takes_commas (oper (get h cur)) then loop rest h cur
          else if text_eqb c (lit "*") then (do hc <- star h cur; let '(h, cur) := hc in loop rest h cur)
          else if text_eqb c (lit "+") then (let '(h, cur) := plus h cur in loop rest h cur)
          else if text_eqb c (lit "/") then
            match rest with
            | [] => Err ValueError
            | t :: rest' => do hv <- parse_numeric t h (Some cur); let '(h, v) := hv in
                            do h <- slash h cur v; loop rest' h cur
            end
          else if text_eqb c (lit "-") then
            match rest with
            | [] => Err ValueError
            | t :: rest' => do hv <- parse_numeric t h (Some cur); let '(h, v) := hv in
                            do hc <- dash h cur v; let '(h, cur) := hc in loop rest' h cur
            end
          else Err ValueError
      | _ => do hv <- parse_numeric arg h (Some cur); let '(h, v) := hv in loop rest (upd h cur (push v)) cur
      end
  end.
Lemma parse_fun name args h root : parse_numeric (CFun name args) h root =
  do op <- function_op name;
  match args with
  | [] => Err ValueError
  | _ => do hc <- loop args (h ++ [mkN root op []]) (length h); let '(h, cur) := hc in Ok (h, VN (climb (length h) h root cur))
  end.
Proof. cbn [parse_numeric]. destruct (function_op name); [|reflexivity]. destruct args; reflexivity. Qed.
Lemma loop_operand m rest h cur : loop (tokens m :: rest) h cur = do hv <- parse_numeric (tokens m) h (Some cur); let '(h, v) := hv in loop rest (upd h cur (push v)) cur.
Proof. destruct m; reflexivity. Qed.
Lemma loop_comma rest h cur : takes_commas (oper (get h cur)) = true -> loop (CLit (lit ",") :: rest) h cur = loop rest h cur.
Proof. intros H. cbn [loop]. rewrite H. reflexivity. Qed.
Lemma loop_add rest h cur : loop (CLit (lit "+") :: rest) h cur = let '(h, cur) := plus h cur in loop rest h cur.
Proof. reflexivity. Qed.
Lemma loop_mul rest h cur : loop (CLit (lit "*") :: rest) h cur = do hc <- star h cur; let '(h, cur) := hc in loop rest h cur.
Proof. reflexivity. Qed.
Lemma loop_div t rest h cur : loop (CLit (lit "/") :: t :: rest) h cur = do hv <- parse_numeric t h (Some cur); let '(h, v) := hv in do h <- slash h cur v; loop rest h cur.
Proof. reflexivity. Qed.
Lemma loop_sub t rest h cur : loop (CLit (lit "-") :: t :: rest) h cur = do hv <- parse_numeric t h (Some cur); let '(h, v) := hv in do hc <- dash h cur v; let '(h, cur) := hc in loop rest h cur.
Proof. reflexivity. Qed.

(** what parsing one operand does: it adds nodes, and its value is made of them *)
Definition operand (size : text -> Q) (t : comp) (q : Q) : Prop :=
  forall h r, (r < length h)%nat ->
  exists h' v, parse_numeric t h (Some r) = Ok (h', v) /\ (length h <= length h')%nat /\
    (forall n, (n < length h)%nat -> nth_error h' n = nth_error h n) /\ val size h' (own (length h) []) v q.

(** the state of the loop: [a] is the sum of the finished terms, [b] the last one *)
Definition inv (size : text -> Q) (s : reading) (root : option nat) (lo : nat) (h : mheap) (cur : nat) (a b : Q) : Prop :=
  (lo <= cur)%nat /\
  match s with
  | OneTerm => exists x, nth_error h cur = Some (mkN root None [x]) /\ val size h (own lo [cur]) x b /\ a == 0
  | FirstProduct => exists xs qs, nth_error h cur = Some (mkN root (Some OProduct) xs) /\ vals size h (own lo [cur]) xs qs /\
                                  (2 <= length xs)%nat /\ b == Qprod qs /\ a == 0
  | InSum => exists xs qs x, nth_error h cur = Some (mkN root (Some OSum) (xs ++ [x])) /\ vals size h (own lo [cur]) xs qs /\
                             (1 <= length xs)%nat /\ val size h (own lo [cur]) x b /\ a == Qsum qs
  | LaterProduct => exists p xs qs ys rs, (lo <= p)%nat /\ p <> cur /\
                      nth_error h cur = Some (mkN (Some p) (Some OProduct) ys) /\ (2 <= length ys)%nat /\
                      vals size h (own lo [cur; p]) ys rs /\ b == Qprod rs /\
                      nth_error h p = Some (mkN root (Some OSum) (xs ++ [VN cur])) /\
                      vals size h (own lo [cur; p]) xs qs /\ a == Qsum qs
  | AfterProduct => exists p xs qs ys z q, (lo <= p)%nat /\ p <> cur /\
                      nth_error h cur = Some (mkN (Some p) (Some OProduct) ys) /\ (2 <= length ys)%nat /\
                      nth_error h p = Some (mkN root (Some OSum) (xs ++ [z])) /\
                      vals size h (own lo [p]) xs qs /\ val size h (own lo [p]) z q /\ a + b == Qsum qs + q
  end.
Ltac look := repeat first
  [ rewrite nth_upd
  | match goal with
    | |- context [Nat.eqb ?a ?a] => rewrite Nat.eqb_refl
    | |- context [if Nat.eqb ?a ?b then _ else _] => destruct (Nat.eqb_spec a b); [exfalso; lia|]
    | |- context [if Nat.eqb ?a ?b then _ else _] => destruct (Nat.eqb_spec a b); [subst|exfalso; lia]
    | |- context [nth_error (?h ++ [?x]) ?k] => first [rewrite (nth_new h x) | rewrite (@nth_error_app1 _ h [x] k) by (rewrite ?upd_length, ?app_length in *; cbn [length] in *; lia)
        | replace k with (length h) by (rewrite ?upd_length, ?app_length in *; cbn [length] in *; lia); rewrite (nth_new h x) ]
    | E : nth_error ?h ?k = Some _ |- context [nth_error ?h ?k] => rewrite E
    | U : forall n, (n < length ?h)%nat -> nth_error ?h' n = nth_error ?h n |- context [nth_error ?h' ?k] => rewrite (U k) by lia
    end ]; cbn [option_map].
Ltac fr := let n := fresh "n" in let x := fresh "x" in let L := fresh "L" in let NI := fresh "NI" in let E := fresh "E" in let T := fresh "T" in
  intros n x [L NI] E; pose proof (nth_lt _ _ _ E) as T; cbn [In] in *; rewrite ?upd_length, ?app_length in *; cbn [length] in *;
  split; [split; [lia|cbn [In]; lia]|look; eauto].
Ltac frame H := match type of H with
  | val ?s ?h ?A ?v ?q => refine (proj1 (frame_both s h A _ _ _) v q H); fr
  | vals ?s ?h ?A ?v ?q => refine (proj2 (frame_both s h A _ _ _) v q H); fr
  end.
Lemma get_upd_same h n f x : nth_error h n = Some x -> get (upd h n f) n = f x.
Proof. intros E. apply get_nth. rewrite nth_upd, Nat.eqb_refl, E. reflexivity. Qed.
Lemma pop_snoc h n p o vs v : nth_error h n = Some (mkN p o (vs ++ [v])) -> pop h n = Ok (v, upd h n (set_vals vs)).
Proof. intros E. unfold pop. rewrite (get_nth _ _ _ E). cbn [nvals]. rewrite rev_app_distr. cbn. now rewrite rev_involutive. Qed.
Definition lower_same (lo : nat) (h h' : mheap) : Prop := (length h <= length h')%nat /\ forall n, (n < lo)%nat -> nth_error h' n = nth_error h n.

(** after '+': a sum waiting for its next term *)
Definition open_sum size root lo h cur a : Prop :=
  (lo <= cur)%nat /\ exists xs qs, nth_error h cur = Some (mkN root (Some OSum) xs) /\ vals size h (own lo [cur]) xs qs /\ (1 <= length xs)%nat /\ a == Qsum qs.
Lemma close_sum size root lo h cur a t q rest m : open_sum size root lo h cur a -> operand size t q -> t = tokens m ->
  exists h', loop (t :: rest) h cur = loop rest h' cur /\ inv size InSum root lo h' cur a q /\ lower_same lo h h'.
Proof.
  intros (L & xs & qs & E & V & N & Ea) O ->. pose proof (nth_lt _ _ _ E) as T.
  destruct (O h cur T) as (h' & v & P & Le & U & W). rewrite loop_operand, P. cbn [bind].
  eexists. split; [reflexivity|]. split; [split; [auto|]|split].
  - exists xs, qs, v. split; [look; reflexivity|]. split; [frame V|]. split; [auto|]. split; [|auto]. frame W.
  - rewrite upd_length. lia.
  - intros n Hn. look. reflexivity.
Qed.
Definition rooted (nested : bool) (root : option nat) (lo : nat) : Prop :=
  if nested then exists r, root = Some r /\ (r < lo)%nat else root = None.

Lemma step_add size nested root lo h cur a b s s' : rooted nested root lo -> inv size s root lo h cur a b -> next nested s Add = Some s' ->
  s' = InSum /\ exists h' cur', plus h cur = (h', cur') /\ open_sum size root lo h' cur' (a + b) /\ lower_same lo h h'.
Proof.
  intros R (L & I) X. unfold plus. destruct s; cbn in X.
  - injection X as <-. split; auto. destruct I as (x & E & V & Ea). rewrite (get_nth _ _ _ E). cbn [oper].
    eexists _, _. split; [reflexivity|]. split; [split; [auto|]|].
    + exists [x], [b]. split; [look; reflexivity|]. split; [constructor; [frame V|constructor]|]. split; [cbn; auto|]. cbn. rewrite Ea. lra.
    + split; [rewrite upd_length; lia|]. intros n Hn. look. reflexivity.
  - destruct nested; [discriminate|]. injection X as <-. split; auto. cbn in R. subst root.
    destruct I as (xs & qs & E & V & N & Eb & Ea). rewrite (get_nth _ _ _ E). cbn [oper]. pose proof (nth_lt _ _ _ E) as T.
    assert (C : climb (length h) h None cur = cur).
    { destruct (length h) as [|k] eqn:K; [lia|]. cbn. rewrite (get_nth _ _ _ E). reflexivity. }
    rewrite C, (get_nth _ _ _ E). cbn [nparent].
    eexists _, _. split; [reflexivity|]. split; [split; [lia|]|].
    + exists [VN cur], [b]. split; [look; reflexivity|]. split; [|split; [cbn; auto|cbn; rewrite Ea; lra]].
      constructor; [|constructor]. eapply val_n; [split; [lia|cbn; lia]|look; reflexivity|cbn; frame V|cbn].
      destruct qs; [apply vals_length in V; cbn in *; lia|exact Eb].
    + split; [rewrite upd_length, app_length; lia|]. intros n Hn. look. reflexivity.
  - injection X as <-. split; auto. destruct I as (xs & qs & x & E & V & N & W & Ea). rewrite (get_nth _ _ _ E). cbn [oper].
    eexists _, _. split; [reflexivity|]. split; [split; [auto|]|].
    + exists (xs ++ [x]), (qs ++ [b]). split; [auto|]. split; [now apply vals_app|]. split; [rewrite app_length; lia|]. rewrite Qsum_snoc. lra.
    + split; [lia|]. auto.
  - destruct nested; [discriminate|]. injection X as <-. split; auto. cbn in R. subst root.
    destruct I as (p & xs & qs & ys & rs & Lp & D & E & N & Vy & Eb & Ep & Vx & Ea). rewrite (get_nth _ _ _ E). cbn [oper].
    pose proof (nth_lt _ _ _ E) as T. pose proof (nth_lt _ _ _ Ep) as Tp.
    assert (C : climb (length h) h None cur = p).
    { destruct (length h) as [|[|k]] eqn:K; [lia|lia|]. cbn. rewrite (get_nth _ _ _ E). cbn. rewrite (get_nth _ _ _ Ep). reflexivity. }
    rewrite C, (get_nth _ _ _ Ep). cbn [nparent].
    eexists _, _. split; [reflexivity|]. split; [split; [lia|]|].
    + exists [VN p], [Qsum (qs ++ [b])]. split; [look; reflexivity|]. split; [|split; [cbn; auto|cbn; rewrite Qsum_snoc; lra]].
      constructor; [|constructor]. eapply val_n; [split; [lia|cbn; lia]|look; reflexivity|cbn [nvals set_parent]; apply vals_app; [frame Vx|]|cbn].
      * eapply val_n; [split; [lia|cbn; lia]|look; reflexivity|cbn; frame Vy|cbn]. destruct rs; [apply vals_length in Vy; cbn in *; lia|exact Eb].
      * destruct qs; reflexivity.
    + split; [rewrite upd_length, app_length; lia|]. intros n Hn. look. reflexivity.
  - destruct nested; [discriminate|]. injection X as <-. split; auto. cbn in R. subst root.
    destruct I as (p & xs & qs & ys & z & q & Lp & D & E & N & Ep & Vx & Vz & Ea). rewrite (get_nth _ _ _ E). cbn [oper].
    pose proof (nth_lt _ _ _ E) as T. pose proof (nth_lt _ _ _ Ep) as Tp.
    assert (C : climb (length h) h None cur = p).
    { destruct (length h) as [|[|k]] eqn:K; [lia|lia|]. cbn. rewrite (get_nth _ _ _ E). cbn. rewrite (get_nth _ _ _ Ep). reflexivity. }
    rewrite C, (get_nth _ _ _ Ep). cbn [nparent].
    eexists _, _. split; [reflexivity|]. split; [split; [lia|]|].
    + exists [VN p], [Qsum (qs ++ [q])]. split; [look; reflexivity|]. split; [|split; [cbn; auto|cbn; rewrite Qsum_snoc; lra]].
      constructor; [|constructor]. eapply val_n; [split; [lia|cbn; lia]|look; reflexivity|cbn [nvals set_parent]; apply vals_app; [frame Vx|frame Vz]|cbn].
      destruct qs; reflexivity.
    + split; [rewrite upd_length, app_length; lia|]. intros n Hn. look. reflexivity.
Qed.
(** after '*': a product waiting for its next factor *)
Definition open_product size (s : reading) root lo h cur a b : Prop :=
  (lo <= cur)%nat /\
  match s with
  | FirstProduct => exists xs qs, nth_error h cur = Some (mkN root (Some OProduct) xs) /\ vals size h (own lo [cur]) xs qs /\
                                  (1 <= length xs)%nat /\ b == Qprod qs /\ a == 0
  | LaterProduct => exists p xs qs ys rs, (lo <= p)%nat /\ p <> cur /\
                      nth_error h cur = Some (mkN (Some p) (Some OProduct) ys) /\ (1 <= length ys)%nat /\
                      vals size h (own lo [cur; p]) ys rs /\ b == Qprod rs /\
                      nth_error h p = Some (mkN root (Some OSum) (xs ++ [VN cur])) /\
                      vals size h (own lo [cur; p]) xs qs /\ a == Qsum qs
  | _ => False
  end.
Lemma close_product size s root lo h cur a b t q rest m : open_product size s root lo h cur a b -> operand size t q -> t = tokens m ->
  exists h', loop (t :: rest) h cur = loop rest h' cur /\ inv size s root lo h' cur a (b * q) /\ lower_same lo h h'.
Proof.
  intros (L & I) O ->. destruct s; try contradiction.
  - destruct I as (xs & qs & E & V & N & Eb & Ea). pose proof (nth_lt _ _ _ E) as T.
    destruct (O h cur T) as (h' & v & P & Le & U & W). rewrite loop_operand, P. cbn [bind].
    eexists. split; [reflexivity|]. split; [split; [auto|]|split].
    + exists (xs ++ [v]), (qs ++ [q]). split; [look; reflexivity|]. split; [apply vals_app; [frame V|frame W]|].
      rewrite app_length, Qprod_snoc, Eb. cbn. split; [lia|]. split; [reflexivity|auto].
    + rewrite upd_length. lia.
    + intros n Hn. look. reflexivity.
  - destruct I as (p & xs & qs & ys & rs & Lp & D & E & N & Vy & Eb & Ep & Vx & Ea). pose proof (nth_lt _ _ _ E) as T. pose proof (nth_lt _ _ _ Ep) as Tp.
    destruct (O h cur T) as (h' & v & P & Le & U & W). rewrite loop_operand, P. cbn [bind].
    eexists. split; [reflexivity|]. split; [split; [auto|]|split].
    + exists p, xs, qs, (ys ++ [v]), (rs ++ [q]). split; [auto|]. split; [auto|]. split; [look; reflexivity|].
      rewrite app_length, Qprod_snoc, Eb. cbn. split; [lia|]. split; [apply vals_app; [frame Vy|frame W]|]. split; [reflexivity|].
      split; [look; reflexivity|]. split; [frame Vx|auto].
    + rewrite upd_length. lia.
    + intros n Hn. look. reflexivity.
Qed.
Lemma step_mul size nested root lo h cur a b s s' : inv size s root lo h cur a b -> next nested s Mul = Some s' ->
  exists h' cur', star h cur = Ok (h', cur') /\ open_product size s' root lo h' cur' a b /\ lower_same lo h h'.
Proof.
  intros (L & I) X. unfold star. destruct s; cbn in X; try discriminate; injection X as <-.
  - destruct I as (x & E & V & Ea). rewrite (get_nth _ _ _ E). cbn [oper].
    eexists _, _. split; [reflexivity|]. split; [split; [auto|]|].
    + exists [x], [b]. split; [look; reflexivity|]. split; [constructor; [frame V|constructor]|]. split; [cbn; auto|]. cbn. split; [ring|auto].
    + split; [rewrite upd_length; lia|]. intros n Hn. look. reflexivity.
  - destruct I as (xs & qs & E & V & N & Eb & Ea). rewrite (get_nth _ _ _ E). cbn [oper].
    eexists _, _. split; [reflexivity|]. split; [split; [auto|]|].
    + exists xs, qs. repeat split; auto. lia.
    + split; auto.
  - destruct I as (xs & qs & x & E & V & N & W & Ea). rewrite (get_nth _ _ _ E). cbn [oper]. pose proof (nth_lt _ _ _ E) as T.
    rewrite (pop_snoc _ _ _ _ _ _ E). cbn [bind]. rewrite upd_length.
    eexists _, _. split; [reflexivity|]. split; [split; [lia|]|].
    + exists cur, xs, qs, [x], [b]. split; [auto|]. split; [lia|]. split; [look; reflexivity|].
      split; [cbn; auto|]. split; [constructor; [frame W|constructor]|]. split; [cbn; ring|]. split; [look; reflexivity|]. split; [frame V|auto].
    + split; [rewrite upd_length, app_length, upd_length; lia|]. intros n Hn. look. reflexivity.
  - destruct I as (p & xs & qs & ys & rs & Lp & D & E & N & Vy & Eb & Ep & Vx & Ea). rewrite (get_nth _ _ _ E). cbn [oper].
    eexists _, _. split; [reflexivity|]. split; [split; [auto|]|].
    + exists p, xs, qs, ys, rs. repeat split; auto. lia.
    + split; auto.
Qed.
Lemma step_div size nested root lo h cur a b s s' h' v q : inv size s root lo h cur a b -> next nested s Div = Some s' ->
  (length h <= length h')%nat -> (forall n, (n < length h)%nat -> nth_error h' n = nth_error h n) -> val size h' (own (length h) []) v q ->
  exists h2, slash h' cur v = Ok h2 /\ inv size s' root lo h2 cur a (b / q) /\ lower_same lo h h2.
Proof.
  intros (L & I) X Le U W. unfold slash. destruct s; cbn in X; try discriminate; injection X as <-.
  - destruct I as (x & E & V & Ea). pose proof (nth_lt _ _ _ E) as T.
    assert (E1 : nth_error h' cur = Some (mkN root None [x])) by (rewrite U; auto).
    rewrite (get_nth _ _ _ E1). cbn [oper]. rewrite (get_nth _ _ _ (nth_old _ _ _ _ E1)). cbn [nvals length Nat.eqb].
    eexists. split; [reflexivity|]. split; [split; [auto|]|].
    + exists [x; VN (length h')], [b; / q]. split; [look; reflexivity|]. split; [|split; [cbn; auto|split; [cbn; unfold Qdiv; ring|auto]]].
      constructor; [frame V|constructor; [|constructor]]. eapply val_n; [split; [lia|cbn; lia]|look; reflexivity|cbn [nvals]; constructor; [frame W|constructor]|cbn; reflexivity].
    + split; [rewrite ?upd_length, ?app_length; lia|]. intros n Hn. look. reflexivity.
  - destruct I as (xs & qs & E & V & N & Eb & Ea). pose proof (nth_lt _ _ _ E) as T.
    assert (E1 : nth_error h' cur = Some (mkN root (Some OProduct) xs)) by (rewrite U; auto).
    rewrite (get_nth _ _ _ E1). cbn [oper].
    eexists. split; [reflexivity|]. split; [split; [auto|]|].
    + exists (xs ++ [VN (length h')]), (qs ++ [/ q]). split; [look; reflexivity|]. split; [|split; [rewrite app_length; cbn; lia|split; [rewrite Qprod_snoc, Eb; reflexivity|auto]]].
      apply vals_app; [frame V|]. eapply val_n; [split; [lia|cbn; lia]|look; reflexivity|cbn [nvals]; constructor; [frame W|constructor]|cbn; reflexivity].
    + split; [rewrite ?upd_length, ?app_length; lia|]. intros n Hn. look. reflexivity.
  - destruct I as (xs & qs & x & E & V & N & Vx & Ea). pose proof (nth_lt _ _ _ E) as T.
    assert (E1 : nth_error h' cur = Some (mkN root (Some OSum) (xs ++ [x]))) by (rewrite U; auto).
    rewrite (get_nth _ _ _ E1). cbn [oper]. rewrite (get_nth _ _ _ (nth_old _ _ _ _ E1)). cbn [nvals]. rewrite app_length.
    destruct (Nat.eqb_spec (length xs + length [x]) 1) as [K|_]; [cbn in K; lia|].
    rewrite (pop_snoc _ _ _ _ _ _ (nth_old _ _ _ _ E1)). cbn [bind]. rewrite upd_length, app_length. cbn [length].
    eexists. split; [reflexivity|]. split; [split; [auto|]|].
    + eexists xs, qs, _. split; [look; reflexivity|]. split; [frame V|]. split; [auto|]. split; [|auto].
      eapply val_n with (qs := [b; / q]); [split; [lia|cbn; lia]|look; reflexivity| |cbn; unfold Qdiv; ring].
      cbn [nvals]. constructor; [frame Vx|constructor; [|constructor]].
      eapply val_n; [split; [lia|cbn; lia]|look; reflexivity|cbn [nvals]; constructor; [frame W|constructor]|cbn; reflexivity].
    + split; [rewrite ?upd_length, ?app_length, ?upd_length, ?app_length; lia|]. intros n Hn. look. reflexivity.
  - destruct I as (p & xs & qs & ys & rs & Lp & D & E & N & Vy & Eb & Ep & Vx & Ea). pose proof (nth_lt _ _ _ E) as T. pose proof (nth_lt _ _ _ Ep) as Tp.
    assert (E1 : nth_error h' cur = Some (mkN (Some p) (Some OProduct) ys)) by (rewrite U; auto).
    rewrite (get_nth _ _ _ E1). cbn [oper].
    eexists. split; [reflexivity|]. split; [split; [auto|]|].
    + exists p, xs, qs, (ys ++ [VN (length h')]), (rs ++ [/ q]). split; [auto|]. split; [auto|]. split; [look; reflexivity|]. split; [rewrite app_length; cbn; lia|].
      split; [|split; [rewrite Qprod_snoc, Eb; reflexivity|split; [look; reflexivity|split; [frame Vx|auto]]]].
      apply vals_app; [frame Vy|]. eapply val_n; [split; [lia|cbn; lia]|look; reflexivity|cbn [nvals]; constructor; [frame W|constructor]|cbn; reflexivity].
    + split; [rewrite ?upd_length, ?app_length; lia|]. intros n Hn. look. reflexivity.
Qed.
Lemma step_sub size nested root lo h cur a b s s' h' v q : rooted nested root lo -> inv size s root lo h cur a b -> next nested s Sub = Some s' ->
  (length h <= length h')%nat -> (forall n, (n < length h)%nat -> nth_error h' n = nth_error h n) -> val size h' (own (length h) []) v q ->
  exists h2 cur2, dash h' cur v = Ok (h2, cur2) /\ inv size s' root lo h2 cur2 (a + b) (- q) /\ lower_same lo h h2.
Proof.
  intros R (L & I) X Le U W. unfold dash. destruct s; cbn in X.
  - injection X as <-. destruct I as (x & E & V & Ea). pose proof (nth_lt _ _ _ E) as T.
    assert (E1 : nth_error h' cur = Some (mkN root None [x])) by (rewrite U; auto).
    rewrite (get_nth _ _ _ E1). cbn [oper]. rewrite (get_nth _ _ _ (nth_old _ _ _ _ E1)). cbn [nvals length Nat.eqb].
    eexists _, _. split; [reflexivity|]. split; [split; [auto|]|].
    + exists [x], [b], (VN (length h')). split; [look; reflexivity|]. split; [constructor; [frame V|constructor]|]. split; [cbn; auto|]. split; [|cbn; rewrite Ea; lra].
      eapply val_n; [split; [lia|cbn; lia]|look; reflexivity|cbn [nvals]; constructor; [frame W|constructor]|cbn; reflexivity].
    + split; [rewrite ?upd_length, ?app_length; lia|]. intros n Hn. look. reflexivity.
  - destruct nested; [discriminate|]. injection X as <-. cbn in R. subst root.
    destruct I as (xs & qs & E & V & N & Eb & Ea). pose proof (nth_lt _ _ _ E) as T.
    assert (E1 : nth_error h' cur = Some (mkN None (Some OProduct) xs)) by (rewrite U; auto).
    rewrite (get_nth _ _ _ E1). cbn [oper]. rewrite (get_nth _ _ _ (nth_old _ _ _ _ E1)). cbn [nvals].
    destruct (Nat.eqb_spec (length xs) 1) as [K|_]; [lia|]. cbn [nparent].
    eexists _, _. split; [reflexivity|]. split; [split; [rewrite app_length; lia|]|].
    + exists [VN cur], [b], (VN (length h')). rewrite app_length. cbn [length]. split; [look; reflexivity|]. split; [constructor; [|constructor]|].
      * eapply val_n; [split; [lia|cbn; lia]|look; reflexivity|cbn; frame V|cbn]. destruct qs; [apply vals_length in V; cbn in *; lia|exact Eb].
      * split; [cbn; auto|]. split; [|cbn; rewrite Ea; lra].
        eapply val_n; [split; [lia|cbn; lia]|look; reflexivity|cbn [nvals set_parent]; constructor; [frame W|constructor]|cbn; reflexivity].
    + split; [rewrite ?upd_length, ?app_length; lia|]. intros n Hn. look. reflexivity.
  - injection X as <-. destruct I as (xs & qs & x & E & V & N & Vx & Ea). pose proof (nth_lt _ _ _ E) as T.
    assert (E1 : nth_error h' cur = Some (mkN root (Some OSum) (xs ++ [x]))) by (rewrite U; auto).
    rewrite (get_nth _ _ _ E1). cbn [oper].
    eexists _, _. split; [reflexivity|]. split; [split; [auto|]|].
    + exists (xs ++ [x]), (qs ++ [b]), (VN (length h')). split; [look; reflexivity|]. split; [apply vals_app; [frame V|frame Vx]|]. split; [rewrite app_length; lia|].
      split; [|rewrite Qsum_snoc; lra].
      eapply val_n; [split; [lia|cbn; lia]|look; reflexivity|cbn [nvals]; constructor; [frame W|constructor]|cbn; reflexivity].
    + split; [rewrite ?upd_length, ?app_length; lia|]. intros n Hn. look. reflexivity.
  - injection X as <-.
    destruct I as (p & xs & qs & ys & rs & Lp & D & E & N & Vy & Eb & Ep & Vx & Ea). pose proof (nth_lt _ _ _ E) as T. pose proof (nth_lt _ _ _ Ep) as Tp.
    assert (E1 : nth_error h' cur = Some (mkN (Some p) (Some OProduct) ys)) by (rewrite U; auto).
    assert (E2 : nth_error h' p = Some (mkN root (Some OSum) (xs ++ [VN cur]))) by (rewrite U; auto).
    rewrite (get_nth _ _ _ E1). cbn [oper]. rewrite (get_nth _ _ _ (nth_old _ _ _ _ E1)). cbn [nvals nparent].
    destruct (Nat.eqb_spec (length ys) 1) as [K|_]; [lia|].
    rewrite (pop_snoc _ _ _ _ _ _ (nth_old _ _ _ _ E2)). cbn [bind]. rewrite upd_length, app_length. cbn [length].
    eexists _, _. split; [reflexivity|]. split; [split; [auto|]|].
    + exists p, xs, qs, ys, (VN (length h' + 1)), (b + - q). split; [auto|]. split; [auto|]. split; [look; reflexivity|]. split; [auto|]. split; [look; reflexivity|].
      split; [frame Vx|]. split; [|rewrite Ea; lra].
      eapply val_n with (qs := [b; - q]); [split; [lia|cbn; lia]|look; reflexivity| |cbn; lra].
      cbn [nvals]. constructor; [|constructor; [|constructor]].
      * eapply val_n; [split; [lia|cbn; lia]|look; reflexivity|cbn; frame Vy|cbn]. destruct rs; [apply vals_length in Vy; cbn in *; lia|exact Eb].
      * eapply val_n; [split; [lia|cbn; lia]|look; reflexivity|cbn [nvals]; constructor; [frame W|constructor]|cbn; reflexivity].
    + split; [rewrite ?upd_length, ?app_length, ?upd_length, ?app_length; lia|]. intros n Hn. look. reflexivity.
  - injection X as <-.
    destruct I as (p & xs & qs & ys & z & w & Lp & D & E & N & Ep & Vx & Vz & Ea). pose proof (nth_lt _ _ _ E) as T. pose proof (nth_lt _ _ _ Ep) as Tp.
    assert (E1 : nth_error h' cur = Some (mkN (Some p) (Some OProduct) ys)) by (rewrite U; auto).
    assert (E2 : nth_error h' p = Some (mkN root (Some OSum) (xs ++ [z]))) by (rewrite U; auto).
    rewrite (get_nth _ _ _ E1). cbn [oper]. rewrite (get_nth _ _ _ (nth_old _ _ _ _ E1)). cbn [nvals nparent].
    destruct (Nat.eqb_spec (length ys) 1) as [K|_]; [lia|].
    rewrite (pop_snoc _ _ _ _ _ _ (nth_old _ _ _ _ E2)). cbn [bind]. rewrite upd_length, app_length. cbn [length].
    eexists _, _. split; [reflexivity|]. split; [split; [auto|]|].
    + exists p, xs, qs, ys, (VN (length h' + 1)), (w + - q). split; [auto|]. split; [auto|]. split; [look; reflexivity|]. split; [auto|]. split; [look; reflexivity|].
      split; [frame Vx|]. split; [|rewrite Ea; lra].
      eapply val_n with (qs := [w; - q]); [split; [lia|cbn; lia]|look; reflexivity| |cbn; lra].
      cbn [nvals]. constructor; [frame Vz|constructor; [|constructor]].
      eapply val_n; [split; [lia|cbn; lia]|look; reflexivity|cbn [nvals]; constructor; [frame W|constructor]|cbn; reflexivity].
    + split; [rewrite ?upd_length, ?app_length, ?upd_length, ?app_length; lia|]. intros n Hn. look. reflexivity.
Qed.
Lemma lower_trans lo h1 h2 h3 : lower_same lo h1 h2 -> lower_same lo h2 h3 -> lower_same lo h1 h3.
Proof. intros (A & B) (C & D). split; [lia|]. intros n Hn. rewrite D, B; auto. Qed.
Lemma calc_loop size nested root lo l : rooted nested root lo -> Forall (fun p => operand size (tokens (snd p)) (meaning size (snd p))) l ->
  forall h cur s a b, inv size s root lo h cur a b -> ops_ok nested s (map fst l) ->
  exists h' cur' s' a' b', loop (concat (map (fun p => [CLit (sign_text (fst p)); tokens (snd p)]) l)) h cur = Ok (h', cur') /\
    inv size s' root lo h' cur' a' b' /\ a' + b' == run a b (map (fun p => (fst p, meaning size (snd p))) l) /\ lower_same lo h h'.
Proof.
  intros R F. induction F as [|[o m] l O F IH]; intros h cur s a b I OK.
  { exists h, cur, s, a, b. split; [auto|]. split; [auto|]. split; [reflexivity|]. split; auto. }
  cbn [map fst snd ops_ok concat app] in *. destruct (next nested s o) as [s'|] eqn:X; [|contradiction].
  assert (T : (cur < length h)%nat).
  { destruct I as (_ & I). destruct s; [destruct I as (? & E & _)|destruct I as (? & ? & E & _)|destruct I as (? & ? & ? & E & _)|destruct I as (? & ? & ? & ? & ? & ? & ? & E & _)|destruct I as (? & ? & ? & ? & ? & ? & ? & ? & E & _)]; exact (nth_lt _ _ _ E). }
  destruct o; cbn [sign_text run].
  - destruct (step_add size nested root lo h cur a b s s' R I X) as (-> & h1 & c1 & P & OS & S1).
    destruct (close_sum size root lo h1 c1 (a + b) _ _ (concat (map (fun p => [CLit (sign_text (fst p)); tokens (snd p)]) l)) m OS O eq_refl) as (h2 & P2 & I2 & S2).
    destruct (IH h2 c1 InSum _ _ I2 OK) as (h3 & c3 & s3 & a3 & b3 & P3 & I3 & E3 & S3).
    exists h3, c3, s3, a3, b3. rewrite loop_add, P. cbv zeta iota. rewrite P2. split; [auto|]. split; [auto|]. split; [auto|]. eapply lower_trans; [|eauto]. eapply lower_trans; eauto.
  - destruct (O h cur T) as (h1 & v & P & Le & U & W).
    destruct (step_sub size nested root lo h cur a b s s' h1 v _ R I X Le U W) as (h2 & c2 & P2 & I2 & S2).
    destruct (IH h2 c2 s' _ _ I2 OK) as (h3 & c3 & s3 & a3 & b3 & P3 & I3 & E3 & S3).
    exists h3, c3, s3, a3, b3. rewrite loop_sub, P. cbn [bind]. rewrite P2. cbn [bind]. split; [auto|]. split; [auto|]. split; [auto|]. eapply lower_trans; eauto.
  - destruct (step_mul size nested root lo h cur a b s s' I X) as (h1 & c1 & P & OS & S1).
    destruct (close_product size s' root lo h1 c1 a b _ _ (concat (map (fun p => [CLit (sign_text (fst p)); tokens (snd p)]) l)) m OS O eq_refl) as (h2 & P2 & I2 & S2).
    destruct (IH h2 c1 s' _ _ I2 OK) as (h3 & c3 & s3 & a3 & b3 & P3 & I3 & E3 & S3).
    exists h3, c3, s3, a3, b3. rewrite loop_mul, P. cbn [bind]. rewrite P2. split; [auto|]. split; [auto|]. split; [auto|]. eapply lower_trans; [|eauto]. eapply lower_trans; eauto.
  - destruct (O h cur T) as (h1 & v & P & Le & U & W).
    destruct (step_div size nested root lo h cur a b s s' h1 v _ I X Le U W) as (h2 & P2 & I2 & S2).
    destruct (IH h2 cur s' _ _ I2 OK) as (h3 & c3 & s3 & a3 & b3 & P3 & I3 & E3 & S3).
    exists h3, c3, s3, a3, b3. rewrite loop_div, P. cbn [bind]. rewrite P2. cbn [bind]. split; [auto|]. split; [auto|]. split; [auto|]. eapply lower_trans; eauto.
Qed.
Lemma climb_root h root cur o vs nested lo : rooted nested root lo -> nth_error h cur = Some (mkN root o vs) -> climb (length h) h root cur = cur.
Proof.
  intros R E. pose proof (nth_lt _ _ _ E). destruct (length h); [lia|]. cbn. rewrite (get_nth _ _ _ E). cbn.
  destruct nested; cbn in R; [|now subst]. destruct R as (r & -> & _). now rewrite Nat.eqb_refl.
Qed.
Lemma climb_two h root cur p o o' vs vs' nested lo : rooted nested root lo -> (lo <= p)%nat -> p <> cur -> nth_error h cur = Some (mkN (Some p) o vs) ->
  nth_error h p = Some (mkN root o' vs') -> climb (length h) h root cur = p.
Proof.
  intros R L D E E'. pose proof (nth_lt _ _ _ E). pose proof (nth_lt _ _ _ E'). destruct (length h) as [|[|k]]; [lia|lia|]. cbn. rewrite (get_nth _ _ _ E). cbn. rewrite (get_nth _ _ _ E'). cbn.
  destruct nested; cbn in R; [|now subst]. destruct R as (r & -> & Lr). destruct (Nat.eqb_spec p r); [lia|]. now rewrite Nat.eqb_refl.
Qed.
Lemma finish size nested root lo h cur s a b : rooted nested root lo -> inv size s root lo h cur a b ->
  val size h (own lo []) (VN (climb (length h) h root cur)) (a + b).
Proof.
  intros R (L & I). destruct s.
  - destruct I as (x & E & V & Ea). rewrite (climb_root _ _ _ _ _ _ _ R E).
    eapply val_n with (qs := [b]); [split; auto|exact E| |cbn; lra]. cbn. constructor; [frame V|constructor].
  - destruct I as (xs & qs & E & V & N & Eb & Ea). rewrite (climb_root _ _ _ _ _ _ _ R E).
    eapply val_n; [split; auto|exact E|cbn; frame V|cbn]. destruct qs; [apply vals_length in V; cbn in *; lia|]. rewrite Ea, Eb. ring.
  - destruct I as (xs & qs & x & E & V & N & Vx & Ea). rewrite (climb_root _ _ _ _ _ _ _ R E).
    eapply val_n; [split; auto|exact E|cbn; apply vals_app; [frame V|frame Vx]|cbn]. pose proof (Qsum_snoc qs b) as Q. destruct (qs ++ [b]) eqn:D; [destruct qs; discriminate|]. rewrite Q. lra.
  - destruct I as (p & xs & qs & ys & rs & Lp & D & E & N & Vy & Eb & Ep & Vx & Ea). rewrite (climb_two _ _ _ _ _ _ _ _ _ _ R Lp D E Ep).
    eapply val_n with (qs := qs ++ [b]); [split; auto|exact Ep|cbn; apply vals_app; [frame Vx|]|cbn].
    + eapply val_n; [split; auto|exact E|cbn; frame Vy|cbn]. destruct rs; [apply vals_length in Vy; cbn in *; lia|exact Eb].
    + pose proof (Qsum_snoc qs b) as Q. destruct (qs ++ [b]) eqn:G; [destruct qs; discriminate|]. rewrite Q. lra.
  - destruct I as (p & xs & qs & ys & z & w & Lp & D & E & N & Ep & Vx & Vz & Ea). rewrite (climb_two _ _ _ _ _ _ _ _ _ _ R Lp D E Ep).
    eapply val_n with (qs := qs ++ [w]); [split; auto|exact Ep|cbn; apply vals_app; [frame Vx|frame Vz]|cbn].
    pose proof (Qsum_snoc qs w) as Q. destruct (qs ++ [w]) eqn:G; [destruct qs; discriminate|]. rewrite Q. lra.
Qed.
Definition pick_op (k : pick) : nop := match k with Least => OMin | Greatest => OMax | Between => OClamp end.
Definition open_pick size (k : pick) root lo h cur qs : Prop :=
  (lo <= cur)%nat /\ exists xs, nth_error h cur = Some (mkN root (Some (pick_op k)) xs) /\ vals size h (own lo [cur]) xs qs.
Lemma pick_step size k root lo h cur qs t q rest m : open_pick size k root lo h cur qs -> operand size t q -> t = tokens m ->
  exists h', loop (t :: rest) h cur = loop rest h' cur /\ open_pick size k root lo h' cur (qs ++ [q]) /\ lower_same lo h h'.
Proof.
  intros (L & xs & E & V) O ->. pose proof (nth_lt _ _ _ E) as T.
  destruct (O h cur T) as (h' & v & P & Le & U & W). rewrite loop_operand, P. cbn [bind].
  eexists. split; [reflexivity|]. split; [split; [auto|]|split].
  - exists (xs ++ [v]). split; [look; reflexivity|]. apply vals_app; [frame V|frame W].
  - rewrite upd_length. lia.
  - intros n Hn. look. reflexivity.
Qed.
Lemma pick_loop size k root lo l : Forall (fun m => operand size (tokens m) (meaning size m)) l ->
  forall h cur qs, open_pick size k root lo h cur qs ->
  exists h', loop (concat (map (fun y => [CLit (lit ","); tokens y]) l)) h cur = Ok (h', cur) /\ open_pick size k root lo h' cur (qs ++ map (meaning size) l) /\ lower_same lo h h'.
Proof.
  induction 1 as [|m l O F IH]; intros h cur qs I.
  { exists h. cbn [map concat loop]. rewrite app_nil_r. split; [auto|]. split; [auto|]. split; auto. }
  cbn [map concat app]. rewrite loop_comma by (destruct I as (_ & xs & E & _); rewrite (get_nth _ _ _ E); destruct k; reflexivity).
  destruct (pick_step size k root lo h cur qs _ _ (concat (map (fun y => [CLit (lit ","); tokens y]) l)) m I O eq_refl) as (h1 & P & I1 & S1).
  destruct (IH _ _ _ I1) as (h2 & P2 & I2 & S2). exists h2. rewrite P, P2. split; [auto|]. rewrite <- app_assoc in I2. split; [exact I2|]. eapply lower_trans; eauto.
Qed.

Section MathInd.
  Context (P : math -> Prop)
    (HN : forall v u, P (MNum v u))
    (HC : forall name x l, P x -> Forall (fun p => P (snd p)) l -> P (MCalc name x l))
    (HP : forall k name x l, P x -> Forall P l -> P (MPick k name x l)).
  Fixpoint math_all (m : math) : P m :=
    match m with
    | MNum v u => HN v u
    | MCalc name x l => HC name x l (math_all x) ((fix go (l : list (sign * math)) : Forall (fun p => P (snd p)) l :=
        match l with [] => Forall_nil _ | p :: r => Forall_cons p (math_all (snd p)) (go r) end) l)
    | MPick k name x l => HP k name x l (math_all x) ((fix go (l : list math) : Forall P l :=
        match l with [] => Forall_nil _ | p :: r => Forall_cons p (math_all p) (go r) end) l)
    end.
End MathInd.
Lemma conj_Forall {A} (f : A -> Prop) l : conj (map f l) <-> Forall f l.
Proof. induction l; cbn; split; intros H; auto. constructor; [|apply IHl]; apply H. inversion H; subst. split; [auto|now apply IHl]. Qed.

(** parsing under any root *)
Definition parses_to size nested m : Prop :=
  forall h root, rooted nested root (length h) ->
  exists h' v, parse_numeric (tokens m) h root = Ok (h', v) /\ lower_same (length h) h h' /\ val size h' (own (length h) []) v (meaning size m).
Lemma operand_of size m : parses_to size true m -> operand size (tokens m) (meaning size m).
Proof.
  intros P h r L. destruct (P h (Some r)) as (h' & v & E & (S1 & S2) & V). { now exists r. }
  exists h', v. auto.
Qed.
Lemma function_calc name : lower name = lit "calc" -> function_op name = Ok None.
Proof. unfold function_op. now intros ->. Qed.
Lemma function_pick k name : lower name = pick_name k -> function_op name = Ok (Some (pick_op k)).
Proof. unfold function_op. intros ->. destruct k; reflexivity. Qed.
Lemma parse_math size : forall m nested, understood nested m -> parses_to size nested m.
Proof.
  apply (math_all (fun m => forall nested, understood nested m -> parses_to size nested m)).
  - intros v u nested K h root R. cbn in *.
    assert (C := proj2 (create_known (lower u) (lower_lower u)) K). unfold unit_value. destruct (create_type (lower u)); [|discriminate]. cbn.
    exists h, (VU v (lower u)). split; [auto|]. split; [split; auto|]. constructor. reflexivity.
  - intros name x l IHx IHl nested (Nm & OK & Kx & Kl) h root R. apply conj_Forall in Kl.
    cbn [tokens]. rewrite parse_fun, (function_calc _ Nm). cbn [bind].
    assert (O := operand_of _ _ (IHx true Kx)).
    destruct (O (h ++ [mkN root None []]) (length h)) as (h1 & v & P & Le & U & W). { rewrite app_length. cbn. lia. }
    rewrite loop_operand, P. cbn [bind]. rewrite app_length in Le, U. cbn [length] in Le, U.
    assert (E1 : nth_error h1 (length h) = Some (mkN root None [])) by (rewrite U by lia; apply nth_new).
    assert (I : inv size OneTerm root (length h) (upd h1 (length h) (push v)) (length h) 0 (meaning size x)).
    { split; [auto|]. exists v. split; [look; reflexivity|]. split; [|reflexivity].
      refine (proj1 (frame_both _ _ _ _ _ _) _ _ W). intros n y [A B] E. rewrite app_length in A. cbn in A. split; [split; [lia|cbn; lia]|]. look. eauto. }
    assert (F : Forall (fun p => operand size (tokens (snd p)) (meaning size (snd p))) l).
    { clear - IHl Kl. induction IHl; constructor; inversion Kl; subst; auto. apply operand_of. auto. }
    destruct (calc_loop size nested root (length h) l R F _ _ _ _ _ I OK) as (h2 & c2 & s2 & a2 & b2 & P2 & I2 & E2 & (S1 & S2)).
    rewrite P2. cbn [bind]. eexists _, _. split; [reflexivity|]. split.
    + rewrite upd_length in S1. split; [lia|]. intros n Hn. rewrite S2, nth_upd by auto. destruct (Nat.eqb_spec (length h) n); [lia|]. rewrite U, nth_error_app1 by lia. auto.
    + eapply val_eq; [|exact (finish size nested root (length h) h2 c2 s2 a2 b2 R I2)]. exact E2.
  - intros k name x l IHx IHl nested (Nm & K3 & Kx & Kl) h root R. apply conj_Forall in Kl.
    cbn [tokens]. rewrite parse_fun, (function_pick _ _ Nm). cbn [bind].
    assert (O := operand_of _ _ (IHx true Kx)).
    assert (I0 : open_pick size k root (length h) (h ++ [mkN root (Some (pick_op k)) []]) (length h) []).
    { split; [auto|]. exists []. split; [apply nth_new|constructor]. }
    destruct (pick_step size k root (length h) _ _ [] _ _ (concat (map (fun y => [CLit (lit ","); tokens y]) l)) x I0 O eq_refl) as (h1 & P1 & I1 & S1).
    assert (F : Forall (fun p => operand size (tokens p) (meaning size p)) l).
    { clear - IHl Kl. induction IHl; constructor; inversion Kl; subst; auto. apply operand_of. auto. }
    destruct (pick_loop size k root (length h) l F _ _ _ I1) as (h2 & P2 & (L & xs & E & V) & S2).
    rewrite P1, P2. cbn [bind]. rewrite (climb_root _ _ _ _ _ _ _ R E). eexists _, _. split; [reflexivity|]. split.
    + destruct (lower_trans _ _ _ _ S1 S2) as (A & B). rewrite app_length in A. split; [lia|]. intros n Hn. rewrite B by auto. now rewrite nth_error_app1.
    + eapply val_n; [split; auto|exact E|cbn [nvals]; frame V|]. cbn [oper app map meaning].
      destruct k; cbn [pick_op combine picked]; try reflexivity. specialize (K3 eq_refl). destruct l as [|? [|? [|]]]; cbn in K3; try discriminate. cbn. reflexivity.
Qed.
Lemma understood_parses size m : understood false m -> exists e, parses (tokens m) (Ok e) /\ worth size e == meaning size m.
Proof.
  intros U. destruct (parse_math size m false U [] None eq_refl) as (h & v & P & _ & V).
  destruct (proj1 (reify_val size h _) v _ V) as (n & e & R & W). exists e. split; [|auto].
  exists n. intros k L. unfold parse. rewrite P. eapply reify_more; eauto.
Qed.
Lemma ops_sum nested l : (forall o, In o l -> o = Add \/ o = Sub) -> ops_ok nested OneTerm l.
Proof.
  intros H. assert (S : forall l, (forall o, In o l -> o = Add \/ o = Sub) -> ops_ok nested InSum l).
  { clear. induction l as [|o l IH]; cbn; intros H; auto. destruct (H o (or_introl eq_refl)) as [-> | ->]; apply IH; auto. }
  destruct l as [|o l]; cbn; auto. destruct (H o (or_introl eq_refl)) as [-> | ->]; apply S; intros; apply H; cbn; auto.
Qed.
Lemma ops_product nested l : (forall o, In o l -> o = Mul \/ o = Div) -> ops_ok nested OneTerm l.
Proof.
  intros H. assert (S : forall l, (forall o, In o l -> o = Mul \/ o = Div) -> ops_ok nested FirstProduct l).
  { clear. induction l as [|o l IH]; cbn; intros H; auto. destruct (H o (or_introl eq_refl)) as [-> | ->]; apply IH; auto. }
  destruct l as [|o l]; cbn; auto. destruct (H o (or_introl eq_refl)) as [-> | ->]; apply S; intros; apply H; cbn; auto.
Qed.
Lemma unmixed_understood : forall m nested, unmixed m -> understood nested m.
Proof.
  apply (math_all (fun m => forall nested, unmixed m -> understood nested m)).
  - auto.
  - intros name x l IHx IHl nested (A & B & C & D). split; [auto|]. split. { destruct B; [now apply ops_sum|now apply ops_product]. } split; [auto|].
    apply conj_Forall in D. apply conj_Forall. rewrite Forall_forall in *. intros p I. apply IHl; auto.
  - intros k name x l IHx IHl nested (A & B & C & D). split; [auto|]. split; [auto|]. split; [auto|].
    apply conj_Forall in D. apply conj_Forall. rewrite Forall_forall in *. intros p I. apply IHl; auto.
Qed.

(** * What is accepted *)
Lemma text_eqb_eq a b : text_eqb a b = true -> a = b.
Proof. destruct (text_eqb_spec a b); congruence. Qed.
Section CompInd.
  Context (P : comp -> Prop)
    (HN : forall v u, P (CNum v u)) (HF : forall name args, Forall P args -> P (CFun name args)) (HL : forall c, P (CLit c)) (HO : P COther).
  Fixpoint comp_all (t : comp) : P t :=
    match t with
    | CNum v u => HN v u
    | CFun name args => HF name args ((fix go (l : list comp) : Forall P l := match l with [] => Forall_nil _ | p :: r => Forall_cons p (comp_all p) (go r) end) args)
    | CLit c => HL c
    | COther => HO
    end.
End CompInd.
Definition ok_arg (a : comp) : Prop := well_formed a \/ exists c, a = CLit c /\ In c [lit ","; lit "+"; lit "-"; lit "*"; lit "/"].
Lemma loop_ok args : Forall (fun t => forall h r x, parse_numeric t h r = Ok x -> well_formed t) args ->
  forall h cur x, loop args h cur = Ok x -> Forall ok_arg args.
Proof.
  intros F. remember (length args) as n eqn:Ln. revert args F Ln. induction n as [n IH] using lt_wf_ind. intros args F Ln h cur x E.
  destruct args as [|arg rest]; [constructor|]. inversion F as [|? ? Fa Fr]; subst. cbn [loop] in E.
  assert (GO : (forall h' c', loop rest h' c' = Ok x -> Forall ok_arg rest)) by (intros; eapply (IH (length rest)); eauto; cbn; lia).
  assert (GEN : (exists h' v, parse_numeric arg h (Some cur) = Ok (h', v) /\ loop rest (upd h' cur (push v)) cur = Ok x) -> Forall ok_arg (arg :: rest)).
  { intros (h' & v & P & R). constructor; [left; eauto|eauto]. }
  destruct arg as [v u|name args|c|].
  1, 2, 4: apply GEN; destruct (parse_numeric _ h (Some cur)) as [[h' v']|]; [|discriminate]; cbn [bind] in E; eauto.
  clear GEN. unfold ok_arg.
  assert (LITS : forall k, In k [lit ","; lit "+"; lit "-"; lit "*"; lit "/"] -> text_eqb c k = true -> ok_arg (CLit c)).
  { intros k I T. apply text_eqb_eq in T. subst. right. eauto. }
  destruct (text_eqb c (lit ",") && takes_commas (oper (get h cur))) eqn:T0.
  { apply andb_prop in T0; destruct T0 as [T0 _]. constructor; [apply (LITS (lit ",")); cbn [In]; tauto|eauto]. }
  destruct (text_eqb c (lit "*")) eqn:T1.
  { destruct (star h cur) as [[h' c']|]; [|discriminate]. cbn [bind] in E. constructor; [apply (LITS (lit "*")); cbn [In]; tauto|eauto]. }
  destruct (text_eqb c (lit "+")) eqn:T2.
  { destruct (plus h cur) as [h' c']. constructor; [apply (LITS (lit "+")); cbn [In]; tauto|eauto]. }
  destruct (text_eqb c (lit "/")) eqn:T3.
  { destruct rest as [|t rest']; [discriminate|]. destruct (parse_numeric t h (Some cur)) as [[h' v']|] eqn:P; [|discriminate]. cbn [bind] in E.
    destruct (slash h' cur v') as [h2|]; [|discriminate]. cbn [bind] in E. inversion Fr; subst.
    constructor; [apply (LITS (lit "/")); cbn [In]; tauto|]. constructor; [left; eauto|]. eapply (IH (length rest')); eauto; cbn; lia. }
  destruct (text_eqb c (lit "-")) eqn:T4; [|discriminate].
  destruct rest as [|t rest']; [discriminate|]. destruct (parse_numeric t h (Some cur)) as [[h' v']|] eqn:P; [|discriminate]. cbn [bind] in E.
  destruct (dash h' cur v') as [[h2 c2]|]; [|discriminate]. cbn [bind] in E. inversion Fr; subst.
  constructor; [apply (LITS (lit "-")); cbn [In]; tauto|]. constructor; [left; eauto|]. eapply (IH (length rest')); eauto; cbn; lia.
Qed.
Lemma numeric_ok : forall t h r x, parse_numeric t h r = Ok x -> well_formed t.
Proof.
  apply (comp_all (fun t => forall h r x, parse_numeric t h r = Ok x -> well_formed t)).
  - intros v u h r x E. cbn in E. cbn. apply (create_known (lower u) (lower_lower u)). unfold unit_value in E. destruct (create_type (lower u)); [reflexivity|discriminate].
  - intros name args F h r x E. rewrite parse_fun in E. destruct (function_op name) as [op|] eqn:N; [|discriminate]. cbn [bind] in E.
    destruct args as [|a args]; [discriminate|]. destruct (loop (a :: args) _ _) as [[h' c']|] eqn:L; [|discriminate].
    cbn [well_formed]. split; [|split; [discriminate|]].
    + unfold function_op in N. cbn [In]. destruct (text_eqb (lower name) (lit "calc")) eqn:T1; [apply text_eqb_eq in T1; auto|].
      destruct (text_eqb (lower name) (lit "clamp")) eqn:T2; [apply text_eqb_eq in T2; auto|].
      destruct (text_eqb (lower name) (lit "max")) eqn:T3; [apply text_eqb_eq in T3; auto|].
      destruct (text_eqb (lower name) (lit "min")) eqn:T4; [apply text_eqb_eq in T4; auto|discriminate].
    + apply conj_Forall. exact (loop_ok _ F _ _ _ L).
  - intros c h r x E. discriminate.
  - intros h r x E. discriminate.
Qed.
Lemma parses_unique t r r' : parses t r -> parses t r' -> r = r'.
Proof. intros (n & A) (k & B). specialize (A (Nat.max n k) (Nat.le_max_l _ _)). specialize (B (Nat.max n k) (Nat.le_max_r _ _)). congruence. Qed.
Lemma understood_all m : understood false m -> exists e, parses (tokens m) (Ok e) /\ forall size, worth size e == meaning size m.
Proof.
  intros U. destruct (understood_parses (fun _ => 1) m U) as (e & P & _). exists e. split; [auto|]. intros size.
  destruct (understood_parses size m U) as (e' & P' & W). assert (X := parses_unique _ _ _ P P'). injection X as <-. auto.
Qed.
