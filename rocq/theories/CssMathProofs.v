(** Proofs about printed math expressions. *)
From Verif Require Import PyBase PyText PySplit PyDict CssUnitModel CssMathModel CssMathSpec.
#[local] Open Scope Q_scope.

(** ** Induction on expressions *)
Section ExprInd.
  Context (P : expr -> Prop).
  Context (HU : forall v u, P (EUnit v u)) (HS : forall l, Forall P l -> P (ESum l)) (HP : forall l, Forall P l -> P (EProduct l))
          (HN : forall x, P x -> P (ENegate x)) (HI : forall x, P x -> P (EInvert x)) (Hm : forall l, Forall P l -> P (EMin l))
          (HM : forall l, Forall P l -> P (EMax l)) (HC : forall a b c, P a -> P b -> P c -> P (EClamp a b c)).
  Fixpoint expr_all (e : expr) : P e :=
    let all := fix all (l : list expr) : Forall P l := match l with [] => Forall_nil P | x :: r => Forall_cons x (expr_all x) (all r) end in
    match e with
    | EUnit v u => HU v u
    | ESum l => HS l (all l)
    | EProduct l => HP l (all l)
    | ENegate x => HN x (expr_all x)
    | EInvert x => HI x (expr_all x)
    | EMin l => Hm l (all l)
    | EMax l => HM l (all l)
    | EClamp a b c => HC a b c (expr_all a) (expr_all b) (expr_all c)
    end.
End ExprInd.

Lemma conj_in {A} (f : A -> Prop) l x : conj (map f l) -> In x l -> f x.
Proof. induction l as [|y l IH]; [intros _ []|]. cbn. intros (A1 & A2) [->|I]; auto. Qed.
Lemma conj_all {A} (f : A -> Prop) l : (forall x, In x l -> f x) -> conj (map f l).
Proof. induction l as [|y l IH]; cbn; auto. Qed.

(** ** Reading with enough fuel *)
Definition ev (f : nat -> option (Q * list piece)) (v : Q) (r : list piece) : Prop :=
  exists n, forall m, (n <= m)%nat -> exists v', f m = Some (v', r) /\ v' == v.
Definition evl (f : nat -> option (list Q * list piece)) (v : list Q) (r : list piece) : Prop :=
  exists n, forall m, (n <= m)%nat -> exists v', f m = Some (v', r) /\ Forall2 Qeq v' v.
Lemma ev_eq f v w r : v == w -> ev f v r -> ev f w r.
Proof. intros E (n & H). exists n. intros m L. destruct (H m L) as (v' & A & B). exists v'. split; [exact A|]. now rewrite B. Qed.

Lemma sum_rest_eq size m : forall a b ts x r, a == b -> sum_rest size m a ts = Some (x, r) -> exists y, sum_rest size m b ts = Some (y, r) /\ x == y.
Proof.
  induction m as [|m IH]; intros a b ts x r E H; [discriminate H|]. cbn [sum_rest] in *.
  destruct ts as [|p ts]; [injection H as <- <-; eauto|].
  destruct p; try (injection H as <- <-; eauto; fail).
  - destruct (read_product size m ts) as [[v r']|]; [|discriminate H]. apply (IH _ (b + v)) in H; [exact H|]. now rewrite E.
  - destruct (read_product size m ts) as [[v r']|]; [|discriminate H]. apply (IH _ (b - v)) in H; [exact H|]. now rewrite E.
Qed.
Lemma product_rest_eq size m : forall a b ts x r, a == b -> product_rest size m a ts = Some (x, r) -> exists y, product_rest size m b ts = Some (y, r) /\ x == y.
Proof.
  induction m as [|m IH]; intros a b ts x r E H; [discriminate H|]. cbn [product_rest] in *.
  destruct ts as [|p ts]; [injection H as <- <-; eauto|].
  destruct p; try (injection H as <- <-; eauto; fail).
  - destruct (read_value size m ts) as [[v r']|]; [|discriminate H]. apply (IH _ (b * v)) in H; [exact H|]. now rewrite E.
  - destruct (read_value size m ts) as [[v r']|]; [|discriminate H]. apply (IH _ (b / v)) in H; [exact H|]. now rewrite E.
Qed.

(* one step, then go on *)
Ltac fuel n1 n2 := exists (S (max n1 n2)); intros m L; destruct m as [|m]; [lia|].
Lemma ev_sum size ts v r w r' : ev (fun n => read_product size n ts) v r -> ev (fun n => sum_rest size n v r) w r' -> ev (fun n => read_sum size n ts) w r'.
Proof.
  intros (n1 & H1) (n2 & H2). fuel n1 n2. destruct (H1 m ltac:(lia)) as (v' & A & B). destruct (H2 m ltac:(lia)) as (w' & C & D).
  cbn [read_sum]. rewrite A. destruct (sum_rest_eq _ _ _ v' _ _ _ (Qeq_sym _ _ B) C) as (y & Y & Z). exists y. split; [exact Y|]. now rewrite <- Z.
Qed.
Lemma ev_plus size acc ts v r w r' : ev (fun n => read_product size n ts) v r -> ev (fun n => sum_rest size n (acc + v) r) w r' ->
  ev (fun n => sum_rest size n acc (PPlus :: ts)) w r'.
Proof.
  intros (n1 & H1) (n2 & H2). fuel n1 n2. destruct (H1 m ltac:(lia)) as (v' & A & B). destruct (H2 m ltac:(lia)) as (w' & C & D).
  cbn [sum_rest]. rewrite A. destruct (sum_rest_eq _ _ _ (acc + v') _ _ _ ltac:(now rewrite B) C) as (y & Y & Z). exists y. split; [exact Y|]. now rewrite <- Z.
Qed.
Lemma ev_minus size acc ts v r w r' : ev (fun n => read_product size n ts) v r -> ev (fun n => sum_rest size n (acc - v) r) w r' ->
  ev (fun n => sum_rest size n acc (PMinus :: ts)) w r'.
Proof.
  intros (n1 & H1) (n2 & H2). fuel n1 n2. destruct (H1 m ltac:(lia)) as (v' & A & B). destruct (H2 m ltac:(lia)) as (w' & C & D).
  cbn [sum_rest]. rewrite A. destruct (sum_rest_eq _ _ _ (acc - v') _ _ _ ltac:(now rewrite B) C) as (y & Y & Z). exists y. split; [exact Y|]. now rewrite <- Z.
Qed.
Lemma ev_product size ts v r w r' : ev (fun n => read_value size n ts) v r -> ev (fun n => product_rest size n v r) w r' -> ev (fun n => read_product size n ts) w r'.
Proof.
  intros (n1 & H1) (n2 & H2). fuel n1 n2. destruct (H1 m ltac:(lia)) as (v' & A & B). destruct (H2 m ltac:(lia)) as (w' & C & D).
  cbn [read_product]. rewrite A. destruct (product_rest_eq _ _ _ v' _ _ _ (Qeq_sym _ _ B) C) as (y & Y & Z). exists y. split; [exact Y|]. now rewrite <- Z.
Qed.
Lemma ev_times size acc ts v r w r' : ev (fun n => read_value size n ts) v r -> ev (fun n => product_rest size n (acc * v) r) w r' ->
  ev (fun n => product_rest size n acc (PTimes :: ts)) w r'.
Proof.
  intros (n1 & H1) (n2 & H2). fuel n1 n2. destruct (H1 m ltac:(lia)) as (v' & A & B). destruct (H2 m ltac:(lia)) as (w' & C & D).
  cbn [product_rest]. rewrite A. destruct (product_rest_eq _ _ _ (acc * v') _ _ _ ltac:(now rewrite B) C) as (y & Y & Z). exists y. split; [exact Y|]. now rewrite <- Z.
Qed.
Lemma ev_divide size acc ts v r w r' : ev (fun n => read_value size n ts) v r -> ev (fun n => product_rest size n (acc / v) r) w r' ->
  ev (fun n => product_rest size n acc (PDivide :: ts)) w r'.
Proof.
  intros (n1 & H1) (n2 & H2). fuel n1 n2. destruct (H1 m ltac:(lia)) as (v' & A & B). destruct (H2 m ltac:(lia)) as (w' & C & D).
  cbn [product_rest]. rewrite A. destruct (product_rest_eq _ _ _ (acc / v') _ _ _ ltac:(now rewrite B) C) as (y & Y & Z). exists y. split; [exact Y|]. now rewrite <- Z.
Qed.
(* text that does not go on as a product, or as a sum *)
Definition no_factor (ts : list piece) : Prop := match ts with PTimes :: _ | PDivide :: _ => False | _ => True end.
Definition no_term (ts : list piece) : Prop := match ts with PPlus :: _ | PMinus :: _ => False | _ => True end.
Lemma ev_product_end size acc ts : no_factor ts -> ev (fun n => product_rest size n acc ts) acc ts.
Proof.
  intros H. exists 1%nat. intros m L. destruct m as [|m]; [lia|]. exists acc. split; [|reflexivity].
  cbn [product_rest]. destruct ts as [|[] ts]; try reflexivity; destruct H.
Qed.
Lemma ev_sum_end size acc ts : no_term ts -> ev (fun n => sum_rest size n acc ts) acc ts.
Proof.
  intros H. exists 1%nat. intros m L. destruct m as [|m]; [lia|]. exists acc. split; [|reflexivity].
  cbn [sum_rest]. destruct ts as [|[] ts]; try reflexivity; destruct H.
Qed.
Lemma sum_rest_acc size a b ts w r : a == b -> ev (fun n => sum_rest size n a ts) w r -> ev (fun n => sum_rest size n b ts) w r.
Proof.
  intros E (n & H). exists n. intros m L. destruct (H m L) as (v & A & B). destruct (sum_rest_eq _ _ _ b _ _ _ E A) as (y & Y & Z). exists y.
  split; [exact Y|]. now rewrite <- Z.
Qed.
Lemma product_rest_acc size a b ts w r : a == b -> ev (fun n => product_rest size n a ts) w r -> ev (fun n => product_rest size n b ts) w r.
Proof.
  intros E (n & H). exists n. intros m L. destruct (H m L) as (v & A & B). destruct (product_rest_eq _ _ _ b _ _ _ E A) as (y & Y & Z). exists y.
  split; [exact Y|]. now rewrite <- Z.
Qed.

(** ** Texts that read as a value, a product, a sum *)
Definition valueish (size : text -> Q) (T : list piece) (d : Q) : Prop := forall rest, ev (fun n => read_value size n (T ++ rest)) d rest.
Definition productish (size : text -> Q) (T : list piece) (d : Q) : Prop :=
  (forall rest v r, ev (fun n => product_rest size n d rest) v r -> ev (fun n => read_product size n (T ++ rest)) v r) /\
  (forall acc rest v r, ev (fun n => product_rest size n (acc * d) rest) v r -> ev (fun n => product_rest size n acc (PTimes :: T ++ rest)) v r).
Definition sumish (size : text -> Q) (T : list piece) (d : Q) : Prop :=
  (forall rest v r, no_factor rest -> ev (fun n => sum_rest size n d rest) v r -> ev (fun n => read_sum size n (T ++ rest)) v r) /\
  (forall acc rest v r, no_factor rest -> ev (fun n => sum_rest size n (acc + d) rest) v r -> ev (fun n => sum_rest size n acc (PPlus :: T ++ rest)) v r).

Lemma value_product size T d : valueish size T d -> productish size T d.
Proof.
  intros H. split.
  - intros rest v r E. exact (ev_product _ _ _ _ _ _ (H rest) E).
  - intros acc rest v r E. exact (ev_times _ _ _ _ _ _ _ (H rest) E).
Qed.
Lemma product_sum size T d : productish size T d -> sumish size T d.
Proof.
  intros (H & _). split.
  - intros rest v r N E. refine (ev_sum _ _ _ _ _ _ (H rest _ _ (ev_product_end _ _ _ N)) E).
  - intros acc rest v r N E. refine (ev_plus _ _ _ _ _ _ _ (H rest _ _ (ev_product_end _ _ _ N)) E).
Qed.
Lemma product_minus size T d acc rest v r : productish size T d -> no_factor rest ->
  ev (fun n => sum_rest size n (acc - d) rest) v r -> ev (fun n => sum_rest size n acc (PMinus :: T ++ rest)) v r.
Proof. intros (H & _) N E. refine (ev_minus _ _ _ _ _ _ _ (H rest _ _ (ev_product_end _ _ _ N)) E). Qed.
Lemma value_divide size T d acc rest v r : valueish size T d ->
  ev (fun n => product_rest size n (acc / d) rest) v r -> ev (fun n => product_rest size n acc (PDivide :: T ++ rest)) v r.
Proof. intros H E. refine (ev_divide _ _ _ _ _ _ _ (H rest) E). Qed.
Lemma sumish_eq size T d e : d == e -> sumish size T d -> sumish size T e.
Proof.
  intros E (A & B). split; intros.
  - apply A; auto. apply (sum_rest_acc _ e); [now symmetry|auto].
  - apply B; auto. apply (sum_rest_acc _ (acc + e)); [now rewrite E|auto].
Qed.
Lemma productish_eq size T d e : d == e -> productish size T d -> productish size T e.
Proof.
  intros E (A & B). split; intros.
  - apply A; auto. apply (product_rest_acc _ e); [now symmetry|auto].
  - apply B; auto. apply (product_rest_acc _ (acc * e)); [now rewrite E|auto].
Qed.
Lemma valueish_eq size T d e : d == e -> valueish size T d -> valueish size T e.
Proof. intros E A rest. apply (ev_eq _ d); auto. Qed.

Lemma sum_closed size T d rest : sumish size T d -> ev (fun n => read_sum size n (T ++ PClose :: rest)) d (PClose :: rest).
Proof. intros (A & _). apply A; [exact I|]. apply ev_sum_end. exact I. Qed.
Lemma wrap_value size T d : forall nested, sumish size T d -> valueish size (wrapped nested false T) d.
Proof.
  intros nested H rest. destruct (sum_closed size T d rest H) as (n & E). exists (S n). intros m L. destruct m as [|m]; [lia|].
  destruct (E m ltac:(lia)) as (v' & A & B). exists v'. split; [|exact B].
  cbn [wrapped]. destruct nested; cbn [app read_value]; rewrite <- app_assoc; cbn [app]; rewrite A; reflexivity.
Qed.

(** Lists of arguments *)
Lemma read_list_ok size : forall (Ts : list (list piece)) ds rest, Ts <> [] -> Forall2 (sumish size) Ts ds ->
  evl (fun n => read_list size n (commas Ts ++ PClose :: rest)) ds (PClose :: rest).
Proof.
  intros Ts ds rest N F. induction F as [|T d Ts ds H F IH]; [congruence|].
  destruct Ts as [|T2 Ts].
  - inversion F; subst. destruct (sum_closed size T d rest H) as (n & E).
    exists (S n). intros m L. destruct m as [|m]; [lia|]. destruct (E m ltac:(lia)) as (v & A & B). exists [v]. split; [|auto].
    cbn [commas read_list]. now rewrite A.
  - destruct (IH ltac:(discriminate)) as (n2 & E2). destruct H as (A & _).
    assert (E1 := A (PComma :: commas (T2 :: Ts) ++ PClose :: rest) d (PComma :: commas (T2 :: Ts) ++ PClose :: rest) I (ev_sum_end size d (PComma :: commas (T2 :: Ts) ++ PClose :: rest) I)).
    destruct E1 as (n1 & E1). fuel n1 n2. destruct (E1 m ltac:(lia)) as (v & C & D). destruct (E2 m ltac:(lia)) as (vs & G & K).
    exists (v :: vs). split; [|auto]. cbn [read_list]. change (commas (T :: T2 :: Ts)) with (T ++ PComma :: commas (T2 :: Ts)). rewrite <- app_assoc.
    cbn [app]. now rewrite C, G.
Qed.
Lemma fold_compat (f : Q -> Q -> Q) : (forall a b c d, a == b -> c == d -> f a c == f b d) ->
  forall l l', Forall2 Qeq l l' -> forall x y, x == y -> fold_left f l x == fold_left f l' y.
Proof. intros C l l' F. induction F; cbn; auto. Qed.
Lemma Qmin_compat a b c d : a == b -> c == d -> Qmin a c == Qmin b d.
Proof. intros -> ->. reflexivity. Qed.
Lemma Qmax_compat a b c d : a == b -> c == d -> Qmax a c == Qmax b d.
Proof. intros -> ->. reflexivity. Qed.
Lemma least_eq l l' : Forall2 Qeq l l' -> least l == least l'.
Proof. intros F. destruct F as [|x y l l' E F]; [reflexivity|]. cbn. apply fold_compat; auto using Qmin_compat. Qed.
Lemma greatest_eq l l' : Forall2 Qeq l l' -> greatest l == greatest l'.
Proof. intros F. destruct F as [|x y l l' E F]; [reflexivity|]. cbn. apply fold_compat; auto using Qmax_compat. Qed.
Lemma clamped_eq a b c a' b' c' : a == a' -> b == b' -> c == c' -> clamped a b c == clamped a' b' c'.
Proof. intros A B C. unfold clamped. apply Qmax_compat; [exact A|]. now apply Qmin_compat. Qed.

Lemma min_value size Ts ds : Ts <> [] -> Forall2 (sumish size) Ts ds -> valueish size (PMin :: commas Ts ++ [PClose]) (least ds).
Proof.
  intros N F rest. destruct (read_list_ok size Ts ds rest N F) as (n & E). exists (S n). intros m L. destruct m as [|m]; [lia|].
  destruct (E m ltac:(lia)) as (vs & A & B). exists (least vs). split; [|now apply least_eq].
  cbn [app read_value]. rewrite <- app_assoc. cbn [app]. now rewrite A.
Qed.
Lemma max_value size Ts ds : Ts <> [] -> Forall2 (sumish size) Ts ds -> valueish size (PMax :: commas Ts ++ [PClose]) (greatest ds).
Proof.
  intros N F rest. destruct (read_list_ok size Ts ds rest N F) as (n & E). exists (S n). intros m L. destruct m as [|m]; [lia|].
  destruct (E m ltac:(lia)) as (vs & A & B). exists (greatest vs). split; [|now apply greatest_eq].
  cbn [app read_value]. rewrite <- app_assoc. cbn [app]. now rewrite A.
Qed.
Lemma clamp_value size Ta Tb Tc a b c : sumish size Ta a -> sumish size Tb b -> sumish size Tc c ->
  valueish size (PClamp :: commas [Ta; Tb; Tc] ++ [PClose]) (clamped a b c).
Proof.
  intros A B C rest. assert (F : Forall2 (sumish size) [Ta; Tb; Tc] [a; b; c]) by auto.
  destruct (read_list_ok size [Ta; Tb; Tc] [a; b; c] rest ltac:(discriminate) F) as (n & E). exists (S n). intros m L. destruct m as [|m]; [lia|].
  destruct (E m ltac:(lia)) as (vs & G & H). inversion H as [|x ? ? ? H1 H2]; subst. inversion H2 as [|y ? ? ? H3 H4]; subst. inversion H4 as [|z ? ? ? H5 H6]; subst. inversion H6; subst.
  exists (clamped x y z). split.
  - cbn [app read_value]. rewrite <- app_assoc. change ([PClose] ++ rest) with (PClose :: rest). now rewrite G.
  - now apply clamped_eq.
Qed.

(** ** The main induction *)
Definition ok_at (size : text -> Q) (e : expr) : Prop := forall nested bare, faithful bare e ->
  let T := show nested bare e in
  (looseness bare e = 0%nat -> valueish size T (worth size e)) /\
  ((looseness bare e <= 1)%nat -> productish size T (worth size e)) /\
  sumish size T (worth size e).

Lemma ok_value size e nested bare : valueish size (show nested bare e) (worth size e) ->
  (looseness bare e = 0%nat -> valueish size (show nested bare e) (worth size e)) /\
  ((looseness bare e <= 1)%nat -> productish size (show nested bare e) (worth size e)) /\
  sumish size (show nested bare e) (worth size e).
Proof. intros V. assert (P := value_product _ _ _ V). split; [auto|]. split; [auto|]. now apply product_sum. Qed.

Definition okk (size : text -> Q) (e : expr) : Prop := ok_at size e /\ match e with ENegate z | EInvert z => ok_at size z | _ => True end.
Definition terms (bare : bool) (r : list expr) : list piece :=
  flat_map (fun y => match y with ENegate z => PMinus :: show true bare z | _ => PPlus :: show true bare y end) r.
Definition factors (bare : bool) (r : list expr) : list piece :=
  flat_map (fun y => match y with EInvert z => PDivide :: show true bare z | _ => PTimes :: show true bare y end) r.
Lemma no_factor_terms bare r : forall rest, no_factor rest -> no_factor (terms bare r ++ rest).
Proof. intros rest N. destruct r as [|y r]; [exact N|]. unfold terms. cbn [flat_map]. destruct y; exact I. Qed.
Lemma terms_ok size bare r : Forall (okk size) r ->
  conj (map (fun y => match y with ENegate z => faithful bare z /\ (looseness bare z <= 1)%nat | _ => faithful bare y end) r) ->
  forall acc rest v t, no_factor rest -> ev (fun n => sum_rest size n (acc + Qsum (map (worth size) r)) rest) v t ->
  ev (fun n => sum_rest size n acc (terms bare r ++ rest)) v t.
Proof.
  induction 1 as [|y r (K & Kz) F IH]; intros C acc rest v t N E.
  - cbn in *. apply (sum_rest_acc _ (acc + 0)); [ring|exact E].
  - cbn [map conj] in C. destruct C as (Cy & Cr). change (terms bare (y :: r)) with ((match y with ENegate z => PMinus :: show true bare z | _ => PPlus :: show true bare y end) ++ terms bare r).
    rewrite <- app_assoc.
    change (Qsum (map (worth size) (y :: r))) with (worth size y + Qsum (map (worth size) r)) in E.
    assert (N2 := no_factor_terms bare r rest N).
    assert (G : faithful bare y -> ev (fun n => sum_rest size n acc ((PPlus :: show true bare y) ++ terms bare r ++ rest)) v t).
    { intros Fx. destruct (K true bare Fx) as (_ & _ & (_ & S2)). apply S2; [exact N2|]. apply IH; auto.
      apply (sum_rest_acc _ (acc + (worth size y + Qsum (map (worth size) r)))); [ring|exact E]. }
    destruct y; try (apply G; exact Cy).
    destruct Cy as (Cz & Lz). destruct (Kz true bare Cz) as (_ & P & _).
    cbn [app]. apply (product_minus _ _ (worth size y)); auto. apply IH; auto.
    apply (sum_rest_acc _ (acc + (worth size (ENegate y) + Qsum (map (worth size) r)))); [cbn [worth]; ring|exact E].
Qed.
Lemma factors_ok size bare r : Forall (okk size) r ->
  conj (map (fun y => match y with EInvert z => faithful bare z /\ looseness bare z = 0%nat | _ => faithful bare y /\ (looseness bare y <= 1)%nat end) r) ->
  forall acc rest v t, ev (fun n => product_rest size n (acc * Qprod (map (worth size) r)) rest) v t ->
  ev (fun n => product_rest size n acc (factors bare r ++ rest)) v t.
Proof.
  induction 1 as [|y r (K & Kz) F IH]; intros C acc rest v t E.
  - cbn in *. apply (product_rest_acc _ (acc * 1)); [ring|exact E].
  - cbn [map conj] in C. destruct C as (Cy & Cr). change (factors bare (y :: r)) with ((match y with EInvert z => PDivide :: show true bare z | _ => PTimes :: show true bare y end) ++ factors bare r).
    rewrite <- app_assoc.
    change (Qprod (map (worth size) (y :: r))) with (worth size y * Qprod (map (worth size) r)) in E.
    assert (G : faithful bare y /\ (looseness bare y <= 1)%nat -> ev (fun n => product_rest size n acc ((PTimes :: show true bare y) ++ factors bare r ++ rest)) v t).
    { intros (Fx & Lx). destruct (K true bare Fx) as (_ & P & _). destruct (P Lx) as (_ & P2). apply P2. apply IH; auto.
      apply (product_rest_acc _ (acc * (worth size y * Qprod (map (worth size) r)))); [ring|exact E]. }
    destruct y; try (apply G; exact Cy).
    destruct Cy as (Cz & Lz). destruct (Kz true bare Cz) as (V & _).
    cbn [app]. apply (value_divide _ _ (worth size y)); auto. apply IH; auto.
    apply (product_rest_acc _ (acc * (worth size (EInvert y) * Qprod (map (worth size) r)))); [cbn [worth]; unfold Qdiv; ring|exact E].
Qed.

Lemma shown size e : size (lit "number") == 1 -> okk size e.
Proof.
  intros One.
  induction e using expr_all.
  - split; [|exact I]. intros nested bare _. apply ok_value. intros rest. exists 1%nat. intros m L. destruct m as [|m]; [lia|].
    exists (v * size u). split; reflexivity.
  - split; [|exact I]. intros nested bare Fa. destruct l as [|x r]; [destruct Fa|]. cbn [faithful] in Fa. destruct Fa as (Fx & Fr).
    inversion H as [|? ? (Kx & _) Kr]; subst. destruct (Kx true bare Fx) as (_ & _ & (S1 & S2)).
    assert (S : sumish size (show true bare x ++ terms bare r) (worth size (ESum (x :: r)))).
    { split.
      - intros rest v t N E. rewrite <- app_assoc. apply S1; [now apply no_factor_terms|]. now apply (terms_ok size bare r Kr Fr).
      - intros acc rest v t N E. rewrite <- app_assoc. apply S2; [now apply no_factor_terms|]. apply (terms_ok size bare r Kr Fr); auto.
        apply (sum_rest_acc _ (acc + worth size (ESum (x :: r)))); [cbn [worth map Qsum fold_right]; unfold Qsum; ring|exact E]. }
    destruct bare.
    + cbn [looseness]. split; [discriminate|]. split; [intros L; exfalso; lia|]. exact S.
    + apply ok_value. change (show nested false (ESum (x :: r))) with (wrapped nested false (show true false x ++ terms false r)). now apply wrap_value.
  - split; [|exact I]. intros nested bare Fa. destruct l as [|x r]; [destruct Fa|]. cbn [faithful] in Fa. destruct Fa as ((Fx & Lx) & Fr).
    inversion H as [|? ? (Kx & _) Kr]; subst. destruct (Kx true bare Fx) as (_ & P & _). destruct (P Lx) as (P1 & P2).
    assert (S : productish size (show true bare x ++ factors bare r) (worth size (EProduct (x :: r)))).
    { split.
      - intros rest v t E. rewrite <- app_assoc. apply P1. now apply (factors_ok size bare r Kr Fr).
      - intros acc rest v t E. rewrite <- app_assoc. apply P2. apply (factors_ok size bare r Kr Fr); auto.
        apply (product_rest_acc _ (acc * worth size (EProduct (x :: r)))); [cbn [worth map Qprod fold_right]; unfold Qprod; ring|exact E]. }
    destruct bare.
    + cbn [looseness]. split; [discriminate|]. split; [intros _; exact S|]. apply product_sum. exact S.
    + apply ok_value. change (show nested false (EProduct (x :: r))) with (wrapped nested false (show true false x ++ factors false r)). apply wrap_value.
      now apply product_sum.
  - split; [|apply IHe]. intros nested bare Fa. destruct e; try (destruct Fa; fail). cbn [faithful] in Fa.
    assert (V : valueish size [PDash; PNum v u] (worth size (ENegate (EUnit v u)))).
    { intros rest. exists 1%nat. intros m L. destruct m as [|m]; [lia|]. exists (- v * size u). split; [|cbn [worth]; ring].
      cbn [app read_value]. destruct (Qleb_spec 0 v); [reflexivity|lra]. }
    apply ok_value. cbn [show]. destruct bare; [exact V|]. apply wrap_value. now apply product_sum, value_product.
  - split; [|apply IHe]. intros nested bare (Fx & Lx). destruct IHe as (K & _). destruct (K nested bare Fx) as (V & _). specialize (V Lx).
    assert (S : productish size (PNum 1 (lit "number") :: PDivide :: show nested bare e) (worth size (EInvert e))).
    { assert (One' : 1 * size (lit "number") == 1) by (rewrite One; reflexivity).
      assert (V1 : valueish size [PNum 1 (lit "number")] 1).
      { intros rest. exists 1%nat. intros m L. destruct m as [|m]; [lia|]. exists (1 * size (lit "number")). split; [reflexivity|exact One']. }
      destruct (value_product _ _ _ V1) as (P1 & P2). split.
      - intros rest v t E. apply (P1 (PDivide :: show nested bare e ++ rest)). apply (value_divide _ _ (worth size e)); auto.
        apply (product_rest_acc _ (worth size (EInvert e))); [cbn [worth]; unfold Qdiv; ring|exact E].
      - intros acc rest v t E. apply (P2 acc (PDivide :: show nested bare e ++ rest)). apply (value_divide _ _ (worth size e)); auto.
        apply (product_rest_acc _ (acc * worth size (EInvert e))); [cbn [worth]; unfold Qdiv; ring|exact E]. }
    destruct bare.
    + cbn [looseness show wrapped]. split; [discriminate|]. split; [intros _; exact S|]. now apply product_sum.
    + apply ok_value. cbn [show]. apply wrap_value. now apply product_sum.
  - split; [|exact I]. intros nested bare (N & Fa). apply ok_value. cbn [show worth]. apply min_value.
    + intros E. apply N. now destruct l.
    + clear N. induction H as [|x l (K & _) F IH]; cbn [map]; [constructor|]. cbn [map conj] in Fa. destruct Fa as (Fx & Fl). constructor; [apply (K true true Fx)|auto].
  - split; [|exact I]. intros nested bare (N & Fa). apply ok_value. cbn [show worth]. apply max_value.
    + intros E. apply N. now destruct l.
    + clear N. induction H as [|x l (K & _) F IH]; cbn [map]; [constructor|]. cbn [map conj] in Fa. destruct Fa as (Fx & Fl). constructor; [apply (K true true Fx)|auto].
  - split; [|exact I]. intros nested bare (Fa & Fb & Fc). destruct IHe1 as (K1 & _). destruct IHe2 as (K2 & _). destruct IHe3 as (K3 & _). apply ok_value. cbn [show worth].
    apply clamp_value; [apply (K1 nested bare Fa)|apply (K2 nested bare Fb)|apply (K3 nested bare Fc)].
Qed.

Lemma faithful_reads size e : size (lit "number") == 1 -> faithful false e -> reads size (tostring e) (worth size e).
Proof.
  intros One F. destruct (proj1 (shown size e One) false false F) as (V & _). specialize (V eq_refl []). rewrite app_nil_r in V. exact V.
Qed.
Lemma plain_faithful : forall e, (plain e -> faithful false e) /\ match e with ENegate z | EInvert z => plain z -> faithful false z | _ => True end.
Proof.
  induction e using expr_all.
  - split; auto.
  - split; [|exact I]. destruct l as [|x r]; [intros []|]. cbn [plain faithful]. inversion H as [|? ? (Hx & _) Hr]; subst. intros (A & B). split; [auto|].
    apply conj_all. intros y I. assert (B' := conj_in _ r y B I). assert (H' := proj1 (Forall_forall _ _) Hr y I). cbv beta in B'. destruct H' as (H1 & H2).
    destruct y; auto.
  - split; [|exact I]. intros (N & A). destruct l as [|x r]; [congruence|]. cbn [faithful]. inversion H as [|? ? (Hx & _) Hr]; subst. cbn [map conj] in A. destruct A as (A & B).
    split; [split; [auto|cbn; lia]|]. apply conj_all. intros y I. assert (B' := conj_in _ r y B I). assert (H' := proj1 (Forall_forall _ _) Hr y I).
    destruct H' as (H1 & H2). destruct y; (split; [|cbn; lia]); auto.
  - destruct IHe as (A & _). split; [|exact A]. cbn. destruct e; auto.
  - destruct IHe as (A & _). split; [|exact A]. cbn. intros H. split; [auto|reflexivity].
  - split; [intros []|exact I].
  - split; [intros []|exact I].
  - split; [|exact I]. cbn. intros (A & B & C). split; [now apply IHe1|]. split; [now apply IHe2|now apply IHe3].
Qed.
