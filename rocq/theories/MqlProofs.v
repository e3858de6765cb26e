(** Lemmas for the media query list. *)
From Coq Require Import Qabs Qminmax Lqa Lia Qreduction.
From Verif Require Import PyBase PyText PyStrip PySplit PyDict NumScan NumScanProofs CssUnitModel LengthModel LengthSpec LengthProofs LengthProps
  ScreenModel FormatModel FormatSpec FormatProofs MediaQueryModel MediaQuerySpec MediaQueryProofs MqParseModel MqParseSpec MqParseProofs2 MqParseProps MqlModel MqlSpec.
#[local] Open Scope Q_scope.

(** ** Numbers as text *)
Lemma Ok_inj {A} (x y : A) : Ok x = Ok y -> x = y.
Proof. now intros [= ->]. Qed.
Lemma zstr_shape z : zstr z = shape (if (z <? 0)%Z then [45%N] else []) (digits (Z.abs_N z)) [].
Proof. unfold zstr, shape. now rewrite !app_nil_r. Qed.
Lemma zstr_value z : decimal (z <? 0)%Z (digits (Z.abs_N z)) [] 0 == inject_Z z.
Proof.
  unfold decimal. rewrite app_nil_r, digits_val_digits. cbn [length]. change (Qpower 10 (0 - Z.of_nat 0)) with 1.
  destruct (Z.ltb_spec z 0); rewrite N2Z.inj_abs_N; rewrite ?Z.abs_neq, ?Z.abs_eq by lia; rewrite ?inject_Z_opp; ring.
Qed.
Lemma zstr_clean z : forallb (fun c => negb (is_space c)) (zstr z) = true.
Proof.
  unfold zstr. rewrite forallb_app. apply andb_true_intro. split; [now destruct (z <? 0)%Z|].
  assert (D := digits_digits (Z.abs_N z)). rewrite forallb_forall in *. intros c I. rewrite digit_not_space; auto.
Qed.
Lemma parse_zstr z : exists q, LengthModel.parse (zstr z ++ px) = Ok (q, Some px) /\ q == inject_Z z.
Proof.
  unfold LengthModel.parse. rewrite clean_strip by (rewrite forallb_app, zstr_clean; reflexivity).
  rewrite zstr_shape, scan_shape_finished; [|apply digits_nonempty|apply digits_digits|reflexivity|repeat split].
  eexists. split; [reflexivity|apply zstr_value].
Qed.

Lemma zstr_sign z w : scan_sign (zstr z ++ w) = ((z <? 0)%Z, digits (Z.abs_N z) ++ w).
Proof.
  unfold zstr. rewrite <- app_assoc. destruct (z <? 0)%Z; [reflexivity|]. cbn [app].
  apply scan_sign_digit; [apply digits_nonempty|apply digits_digits].
Qed.
Lemma zstr_pos d : zstr (Zpos d) = digits (Npos d).
Proof. reflexivity. Qed.
Lemma signed z : (if (z <? 0)%Z then - Z.of_N (digits_val (digits (Z.abs_N z))) else Z.of_N (digits_val (digits (Z.abs_N z))))%Z = z.
Proof. rewrite digits_val_digits, N2Z.inj_abs_N. destruct (Z.ltb_spec z 0); lia. Qed.
Lemma read_frac p z n : n <> 0%N -> exists q, read_ratio p (VText (zstr z ++ [47%N] ++ digits n)) = Ok q /\ q == inject_Z z / inject_Z (Z.of_N n).
Proof.
  intros Nz. unfold read_ratio.
  rewrite clean_strip.
  2:{ rewrite !forallb_app, zstr_clean. cbn [forallb andb]. change (negb (is_space 47)) with true. cbn [andb].
      assert (D := digits_digits n). rewrite forallb_forall in *. intros c I. rewrite digit_not_space; auto. }
  rewrite zstr_sign. rewrite takewhile_app, dropwhile_app_stop by (try apply digits_digits; reflexivity). rewrite signed.
  destruct (digits (Z.abs_N z)) as [|c0 r0] eqn:E0; [now destruct (digits_nonempty (Z.abs_N z))|].
  cbn [app]. change ((47 =? 47)%N) with true. cbv iota. destruct (digits n) as [|c r] eqn:E; [now destruct (digits_nonempty n)|]. rewrite <- E, digits_digits.
  unfold LengthModel.div. rewrite digits_val_digits.
  destruct (Qeqb_spec (inject_Z (Z.of_N n)) 0) as [Q0|Q0].
  { exfalso. apply (inject_Z_injective (Z.of_N n) 0) in Q0. lia. }
  eexists. split; [reflexivity|]. reflexivity.
Qed.
Lemma read_int p z : read_ratio p (VText (zstr z)) = Ok (inject_Z z).
Proof.
  unfold read_ratio. rewrite clean_strip by apply zstr_clean. assert (E := zstr_sign z []). rewrite !app_nil_r in E. rewrite E.
  rewrite takewhile_all, dropwhile_all by apply digits_digits. rewrite signed.
  destruct (digits (Z.abs_N z)) as [|c r] eqn:E0; [now destruct (digits_nonempty (Z.abs_N z))|]. reflexivity.
Qed.
Lemma ratio_back p a b t : ratio_text a b = Ok t -> exists q, read_ratio p (VText t) = Ok q /\ q == inject_Z a / inject_Z b.
Proof.
  unfold ratio_text. destruct (b =? 0)%Z; [discriminate|]. set (q := Qred (inject_Z a / inject_Z b)). cbv zeta. intros E0. apply Ok_inj in E0. subst t. assert (E : q == inject_Z a / inject_Z b) by apply Qred_correct.
  assert (Eq : inject_Z (Qnum q) / inject_Z (Zpos (Qden q)) == q).
  { destruct q as [n d]. unfold Qdiv, Qinv, Qmult, Qeq, inject_Z. cbn. lia. }
  destruct (Pos.eq_dec (Qden q) 1) as [D|D].
  - rewrite D. rewrite app_nil_r, read_int. eexists. split; [reflexivity|]. rewrite D in Eq.
    apply (Qeq_trans _ q); [|exact E]. apply (Qeq_trans _ (inject_Z (Qnum q) / inject_Z 1)); [|exact Eq]. unfold Qdiv. change (/ inject_Z 1) with 1. ring.
  - replace (match Qden q with 1%positive => [] | d => [47%N] ++ zstr (Zpos d) end) with ([47%N] ++ digits (Npos (Qden q))) by (destruct (Qden q); [reflexivity..|congruence]).
    destruct (read_frac p (Qnum q) (Npos (Qden q))) as (r & R & V); [discriminate|]. exists r. split; [exact R|]. exact (Qeq_trans _ _ _ V (Qeq_trans _ _ _ Eq E)).
Qed.
Lemma read_ratio_of p a b : b <> 0%N -> exists q, read_ratio p (VText (ratio_of a b)) = Ok q /\ q == inject_Z (Z.of_N a) / inject_Z (Z.of_N b).
Proof.
  intros B. unfold ratio_of. replace (digits a) with (zstr (Z.of_N a)); [now apply read_frac|].
  unfold zstr. destruct (Z.ltb_spec (Z.of_N a) 0); [lia|]. cbn [app]. f_equal. lia.
Qed.

(** ** Comparing *)
Lemma holds_eq op a a' b b' : a == a' -> b == b' -> holds op a b = holds op a' b'.
Proof. intros E F. destruct op; cbn [holds]; rewrite E, F; reflexivity. Qed.
Lemma clear_eq z a a' b b' : a == a' -> b == b' -> clear z a b -> clear z a' b'.
Proof. intros E F [C|C]; [left; now rewrite <- E, <- F|right; now rewrite <- E, <- F]. Qed.
Lemma cmp_holds c l r x y k s sy : length_of c l = Ok x -> length_of c r = Ok y -> together x y -> measures x k s -> measures y k sy -> 0 < s ->
  steady (ctx x) (lunit x) -> clear s (num x * s) (num y * sy) ->
  exists z, mql_compare c l r = Ok z /\ (z = 0%Z <-> num x * s == num y * sy) /\ ((0 < z)%Z <-> num y * sy < num x * s) /\ ((z < 0)%Z <-> num x * s < num y * sy).
Proof.
  intros L R T M My P ST C. unfold mql_compare. rewrite L, R. cbn [bind].
  assert (NZ : ~ s == 0) by lra.
  destruct (c33_trichotomy x y k s sy T M My NZ ST) as (l0 & e & g & El & Ee & Eg & _ & _ & Tri).
  destruct (c33_order x y k s sy T M My P ST) as (O1 & O2 & O3 & O4). rewrite Ee. cbn [bind].
  destruct e.
  - exists 0%Z. split; [reflexivity|]. assert (num x * s == num y * sy) by (destruct C as [C|C]; [exact C|]; specialize (O4 Ee); exfalso; exact (Qlt_not_le _ _ C O4)).
    split; [tauto|]. split; split; intros W; try lia; exfalso; lra.
  - rewrite Eg. cbn [bind]. assert (D : ~ num x * s == num y * sy) by (intros W; specialize (O3 W); congruence).
    destruct g.
    + exists 1%Z. split; [reflexivity|]. specialize (O2 Eg). split; [split; intros W; [lia|contradiction]|]. split; split; intros W; try lia; try lra; exfalso; lra.
    + exists (-1)%Z. split; [reflexivity|]. destruct Tri as [Tri|[Tri|Tri]]; [|discriminate Tri|discriminate Tri].
      injection Tri as ->. specialize (O1 El). split; [split; intros W; [lia|contradiction]|]. split; split; intros W; try lia; try lra; exfalso; lra.
Qed.
(* one comparison of the loop *)
Lemma one_holds m c ln rn n l r x y k s sy a b op : qcmp m = compare_func c -> numeric n ->
  length_of c l = Ok x -> length_of c r = Ok y -> together x y -> measures x k s -> measures y k sy -> 0 < s -> steady (ctx x) (lunit x) ->
  a == num x * s -> b == num y * sy -> clear s a b ->
  compare_one m ln rn (Some n) l r op = Ok (if holds op a b then Some r else None).
Proof.
  intros Q N L R T M My P ST A B C. destruct (numeric_not_discrete n N) as [D1 D2]. cbn [andb] in D1.
  destruct (cmp_holds c l r x y k s sy L R T M My P ST (clear_eq s a _ b _ A B C)) as (z & E & C1 & C2 & C3).
  assert (G : match qcmp m l r with None => Ok None | Some c => Ok (if Z.eqb c 0 && op_eq op || Z.ltb 0 c && op_gt op || Z.ltb c 0 && op_lt op then Some r else None) end
              = Ok (if holds op a b then Some r else None)).
  { rewrite Q. unfold compare_func. rewrite E, (sign_holds op _ _ z C1 C2 C3). rewrite (holds_eq op a _ b _ A B). reflexivity. }
  unfold compare_one. rewrite <- andb_assoc, D1, D2, !andb_false_r. exact G.
Qed.
Lemma one_kind m c ln rn n l r x y k s k' sy op : qcmp m = compare_func c -> numeric n ->
  length_of c l = Ok x -> length_of c r = Ok y -> measures x k s -> measures y k' sy -> k <> k' ->
  compare_one m ln rn (Some n) l r op = Ok None.
Proof.
  intros Q N L R M My D. destruct (numeric_not_discrete n N) as [D1 D2]. cbn [andb] in D1.
  unfold compare_one. rewrite <- andb_assoc, D1, D2, !andb_false_r, Q. unfold compare_func, mql_compare. rewrite L, R. cbn [bind].
  destruct (c33_dimensions x y k s k' sy M My D) as (_ & _ & _ & _ & E & _). rewrite E. reflexivity.
Qed.

(** ** The conditions *)
Definition env_of (p : printing) (s : situation) (e : env) : mqenv := mkMq e (compare_func (st_ctx s)) (read_ratio p).
Definition made (p : printing) (s : situation) (ar dar : text) : env :=
  let sc := st_screen s in
     [(lit "media", VText (st_media s));
      (lit "width", VText (fst (view_text p s) ++ px));
      (lit "height", VText (snd (view_text p s) ++ px));
      (lit "aspect-ratio", VText ar);
      (lit "orientation", VText (orientation_type sc));
      (lit "resolution", VText (p_float p (device_pixel_ratio s) ++ lit "dppx"));
      (lit "scan", VText (st_scan s));
      (lit "grid", VInt 0);
      (lit "update", VText (st_update s));
      (lit "overflow-block", VText (lit "none"));
      (lit "overflow-inline", VText (lit "none"));
      (lit "color", VInt (s_depth sc));
      (lit "color-index", VInt (2 ^ s_depth sc));
      (lit "monochrome", VInt (s_mono sc));
      (lit "color-gamut", VText (st_gamut s));
      (lit "device-width", VText (zstr (s_width sc) ++ px));
      (lit "device-height", VText (zstr (s_height sc) ++ px));
      (lit "device-aspect-ratio", VText dar)].
Lemma conditions_made p s : settled s -> exists ar dar, conditions p s = Ok (made p s ar dar) /\
  ratio_text (to_int (fst (view s))) (to_int (snd (view s))) = Ok ar /\ ratio_text (s_width (st_screen s)) (s_height (st_screen s)) = Ok dar.
Proof.
  intros (H1 & H2 & H3). change (window_size s) with (view s) in H1. unfold conditions.
  assert (R : forall a b, b <> 0%Z -> exists t, ratio_text a b = Ok t).
  { intros a b B. unfold ratio_text. destruct (Z.eqb_spec b 0); [contradiction|]. eauto. }
  destruct (R (to_int (fst (view s))) _ H1) as (ar & Ea). destruct (R (s_width (st_screen s)) _ H2) as (dar & Ed).
  exists ar, dar. rewrite Ea, Ed. cbn [bind]. unfold shifted. destruct (Z.ltb_spec (s_depth (st_screen s)) 0); [lia|]. cbn [bind]. auto.
Qed.
Lemma dget_unknown p s ar dar n : ~ In n known -> dget (made p s ar dar) n = None.
Proof.
  intros K. unfold made, known in *. cbn [map In] in K.
  repeat (cbn [dget]; match goal with |- context [text_eqb ?a ?b] => destruct (text_eqb_spec a b) as [X|_]; [exfalso; apply K; rewrite <- ?X, ?X; clear; cbn; tauto|] end).
  reflexivity.
Qed.
Lemma steady_px c : steady c (Some px).
Proof. intros t m q [= <-] I. exfalso. cbn in I. decompose [or] I; discriminate || assumption. Qed.
Lemma steady_none c : steady c None.
Proof. intros t m q E. discriminate. Qed.
Lemma steady_dppx c : steady c (Some (lit "dppx")).
Proof. intros t m q [= <-] I. exfalso. cbn in I. decompose [or] I; discriminate || assumption. Qed.
Lemma numeric_by n : n <> lit "aspect-ratio" -> mem n [lit "orientation"; lit "scan"; lit "update"; lit "overflow-block"; lit "overflow-inline"; lit "color-gamut";
          lit "pointer"; lit "hover"; lit "any-pointer"; lit "any-hover"] = false -> numeric n.
Proof. intros A B. split; [exact A|]. now apply mem_not_in. Qed.
Lemma measured_numeric s n kd a : measured s n kd a -> numeric n /\ number_like n = false.
Proof. intros M. destruct M; (split; [apply numeric_by; [discriminate|reflexivity]|reflexivity]). Qed.
Lemma measured_env p s ar dar n kd a : faithful p s -> measured s n kd a ->
  exists v x, dget (made p s ar dar) n = Some v /\ length_of (st_ctx s) v = Ok x /\ measures x kd 1 /\ ctx x = st_ctx s /\ ldir x = None /\
    steady (ctx x) (lunit x) /\ a == num x * 1.
Proof.
  intros (RR & RB) M.
  assert (Z : forall z, exists x, length_of (st_ctx s) (VText (zstr z ++ px)) = Ok x /\ measures x Length 1 /\ ctx x = st_ctx s /\ ldir x = None /\
    steady (ctx x) (lunit x) /\ inject_Z z == num x * 1).
  { intros z. destruct (parse_zstr z) as (q & E & V). unfold length_of. rewrite E. cbn [bind fst snd]. eexists. split; [reflexivity|].
    split; [apply s_px|]. split; [reflexivity|]. split; [reflexivity|]. split; [apply steady_px|]. cbn [num]. rewrite V. ring. }
  assert (F : forall f u k, prints p f -> (u = px /\ k = Length) \/ (u = lit "dppx" /\ k = Resolution) -> exists x, length_of (st_ctx s) (VText (p_float p f ++ u)) = Ok x /\ measures x k 1 /\ ctx x = st_ctx s /\ ldir x = None /\
    steady (ctx x) (lunit x) /\ f == num x * 1).
  { intros f u k RF U. destruct (RF u) as (y & E & V). { destruct U as [[-> _]|[-> _]]; cbn; auto. }
    unfold length_of. rewrite E. cbn [bind fst snd]. eexists. split; [reflexivity|]. destruct U as [[-> ->]|[-> ->]].
    - split; [apply s_px|]. split; [reflexivity|]. split; [reflexivity|]. split; [apply steady_px|]. cbn [num]. rewrite V. ring.
    - split; [apply s_dppx|]. split; [reflexivity|]. split; [reflexivity|]. split; [apply steady_dppx|]. cbn [num]. rewrite V. ring. }
  assert (Y : forall z, exists x, length_of (st_ctx s) (VInt z) = Ok x /\ measures x Length 1 /\ ctx x = st_ctx s /\ ldir x = None /\
    steady (ctx x) (lunit x) /\ inject_Z z == num x * 1).
  { intros z. eexists. split; [reflexivity|]. split; [apply s_none|]. split; [reflexivity|]. split; [reflexivity|]. split; [apply steady_none|]. cbn [num]. ring. }
  destruct M.
  - unfold window_size, view, view_text in *. destruct (st_root s) as [[[w h] c]|] eqn:Rt; cbn [fst snd].
    + destruct (F w px Length (proj1 RB) (or_introl (conj eq_refl eq_refl))) as (x & Fx). eexists. exists x. split; [unfold made, view_text; rewrite Rt; cbn [fst snd]; reflexivity|exact Fx].
    + destruct (Z (fst (st_inner s))) as (x & Zx). eexists. exists x. split; [unfold made, view_text; rewrite Rt; cbn [fst snd]; reflexivity|exact Zx].
  - unfold window_size, view, view_text in *. destruct (st_root s) as [[[w h] c]|] eqn:Rt; cbn [fst snd].
    + destruct (F h px Length (proj2 RB) (or_introl (conj eq_refl eq_refl))) as (x & Fx). eexists. exists x. split; [unfold made, view_text; rewrite Rt; cbn [fst snd]; reflexivity|exact Fx].
    + destruct (Z (snd (st_inner s))) as (x & Zx). eexists. exists x. split; [unfold made, view_text; rewrite Rt; cbn [fst snd]; reflexivity|exact Zx].
  - destruct (F (device_pixel_ratio s) (lit "dppx") Resolution RR (or_intror (conj eq_refl eq_refl))) as (x & Fx). eexists. exists x. split; [reflexivity|exact Fx].
  - destruct (Y (s_depth (st_screen s))) as (x & Fx). eexists. exists x. split; [reflexivity|exact Fx].
  - destruct (Y (2 ^ s_depth (st_screen s))%Z) as (x & Fx). eexists. exists x. split; [reflexivity|exact Fx].
  - destruct (Y (s_mono (st_screen s))) as (x & Fx). eexists. exists x. split; [reflexivity|exact Fx].
  - destruct (Y 0%Z) as (x & Fx). eexists. exists x. split; [reflexivity|exact Fx].
  - destruct (Z (s_width (st_screen s))) as (x & Fx). eexists. exists x. split; [reflexivity|exact Fx].
  - destruct (Z (s_height (st_screen s))) as (x & Fx). eexists. exists x. split; [reflexivity|exact Fx].
Qed.
Lemma amounts_length s v kd z b : amounts s v kd z b -> exists y, length_of (st_ctx s) (VText v) = Ok y /\ measures y kd z /\ ctx y = st_ctx s /\ ldir y = None /\
  0 < z /\ steady (ctx y) (lunit y) /\ b == num y * z.
Proof.
  intros (n & u & E & S0 & P & ST & B). unfold length_of. rewrite E. cbn [bind fst snd]. eexists. split; [reflexivity|].
  cbn [ctx ldir lunit num]. repeat (split; [first [exact S0|reflexivity|exact P|exact ST]|]). exact B.
Qed.

(** ** Every fact comes out *)
Lemma operand_num_like t : number_like t = true -> operand_tree t = ONum t.
Proof. intros E. unfold operand_tree. now rewrite E. Qed.
Lemma operand_name t : number_like t = false -> operand_tree t = OName t.
Proof. intros E. unfold operand_tree. now rewrite E. Qed.
Lemma bound_plain x : match x with 109%N :: _ => False | _ => True end -> bound_name x x OpEq.
Proof. intros H. apply bn_plain; intros y ->; exact H. Qed.
Lemma one_not_zero : 0 < 1. Proof. reflexivity. Qed.
Lemma fact_out p s ar dar f b x : faithful p s -> (0 <= s_depth (st_screen s))%Z -> ratio_text (to_int (fst (view s))) (to_int (snd (view s))) = Ok ar ->
  fact s f b -> feature_tree f x -> comes_out (env_of p s (made p s ar dar)) x b.
Proof.
  intros RB Dp Ar Ft Tr. set (m := env_of p s (made p s ar dar)). assert (QM : qcmp m = compare_func (st_ctx s)) by reflexivity.
  assert (QE : qenv m = made p s ar dar) by reflexivity. assert (QR : qratio m = read_ratio p) by reflexivity.
  destruct Ft as [i n j k v l y o kd a z b Bn Ms Am Cl | i n j k v l y o kd a kd' z b Bn Ms Am Kd | i n j o k v l kd a z b Ms Nl Am Cl
    | i v j o k n l kd a z b Ms Nl Am Cl | i v j o k n j2 o2 k2 v2 l kd a z b z2 b2 Ms Nl Nl2 Am Cl Am2 Cl2 | i j k a b l Nz | i j k a b l Nz
    | i j k v l b Nd Hb | i n j k v l w b Iw Hb | n b Nm Nn Hb | i n j k v l y o Bn Nk ].
  - rewrite (feature_tree_fun _ _ _ Tr (ft_plain i n j k v l y o Bn)). cbn [comes_out]. clear Tr.
    destruct (measured_env p s ar dar y kd a RB Ms) as (w & lx & G & Lx & Mx & Cx & Dx & Sx & Ax).
    destruct (amounts_length s v kd z b Am) as (ly & Ly & My & Cy & Dy & Pz & Sy & Ay).
    unfold eval_compare. rewrite QE, G. cbn [compare_loop is_name].
    rewrite (one_holds m (st_ctx s) true false y w (VText v) lx ly kd 1 z a b o QM (proj1 (measured_numeric _ _ _ _ Ms)) Lx Ly) by
      (first [split; congruence | assumption | reflexivity]).
    cbn [bind]. destruct (holds o a b); reflexivity.
  - rewrite (feature_tree_fun _ _ _ Tr (ft_plain i n j k v l y o Bn)). cbn [comes_out]. clear Tr.
    destruct (measured_env p s ar dar y kd a RB Ms) as (w & lx & G & Lx & Mx & Cx & Dx & Sx & Ax).
    destruct (amounts_length s v kd' z b Am) as (ly & Ly & My & Cy & Dy & Pz & Sy & Ay).
    unfold eval_compare. rewrite QE, G. cbn [compare_loop is_name].
    rewrite (one_kind m (st_ctx s) true false y w (VText v) lx ly kd 1 kd' z o QM (proj1 (measured_numeric _ _ _ _ Ms)) Lx Ly Mx My Kd). reflexivity.
  - rewrite (feature_tree_fun _ _ _ Tr (ft_range i n j o k v l)). cbn [comes_out]. clear Tr. destruct (measured_numeric _ _ _ _ Ms) as [Nu Nn].
    rewrite (operand_num_like v Nl), (operand_name n Nn).
    destruct (measured_env p s ar dar n kd a RB Ms) as (w & lx & G & Lx & Mx & Cx & Dx & Sx & Ax).
    destruct (amounts_length s v kd z b Am) as (ly & Ly & My & Cy & Dy & Pz & Sy & Ay).
    unfold eval_compare. rewrite QE, G. cbn [compare_loop is_name].
    rewrite (one_holds m (st_ctx s) true false n w (VText v) lx ly kd 1 z a b o QM Nu Lx Ly) by (first [split; congruence | assumption | reflexivity]).
    cbn [bind]. destruct (holds o a b); reflexivity.
  - rewrite (feature_tree_fun _ _ _ Tr (ft_range i v j o k n l)). cbn [comes_out]. clear Tr. destruct (measured_numeric _ _ _ _ Ms) as [Nu Nn].
    rewrite (operand_num_like v Nl), (operand_name n Nn).
    destruct (measured_env p s ar dar n kd a RB Ms) as (w & lx & G & Lx & Mx & Cx & Dx & Sx & Ax).
    destruct (amounts_length s v kd z b Am) as (ly & Ly & My & Cy & Dy & Pz & Sy & Ay).
    unfold eval_compare. cbn [compare_loop is_name]. rewrite QE, G.
    rewrite (one_holds m (st_ctx s) false true n (VText v) w ly lx kd z 1 b a o QM Nu Ly Lx) by (first [split; congruence | assumption | reflexivity]).
    cbn [bind]. destruct (holds o b a); reflexivity.
  - rewrite (feature_tree_fun _ _ _ Tr (ft_range2 i v j o k n j2 o2 k2 v2 l)). cbn [comes_out]. clear Tr. destruct (measured_numeric _ _ _ _ Ms) as [Nu Nn].
    rewrite (operand_num_like v Nl), (operand_num_like v2 Nl2), (operand_name n Nn).
    destruct (measured_env p s ar dar n kd a RB Ms) as (w & lx & G & Lx & Mx & Cx & Dx & Sx & Ax).
    destruct (amounts_length s v kd z b Am) as (ly & Ly & My & Cy & Dy & Pz & Sy & Ay).
    destruct (amounts_length s v2 kd z2 b2 Am2) as (ly2 & Ly2 & My2 & Cy2 & Dy2 & Pz2 & Sy2 & Ay2).
    unfold eval_compare. cbn [compare_loop is_name]. rewrite QE, G.
    rewrite (one_holds m (st_ctx s) false true n (VText v) w ly lx kd z 1 b a o QM Nu Ly Lx) by (first [split; congruence | assumption | reflexivity]).
    cbn [bind]. destruct (holds o b a); [|reflexivity].
    rewrite (one_holds m (st_ctx s) true false n w (VText v2) lx ly2 kd 1 z2 a b2 o2 QM Nu Lx Ly2) by (first [split; congruence | assumption | reflexivity]).
    cbn [bind andb]. destruct (holds o2 a b2); reflexivity.
  - rewrite (feature_tree_fun _ _ _ Tr (ft_plain i _ j k _ l (lit "aspect-ratio") OpGe (bn_min (lit "aspect-ratio") ltac:(apply mem_not_in; reflexivity)))). cbn [comes_out].
    destruct (ratio_back p _ _ ar Ar) as (q1 & R1 & V1). destruct (read_ratio_of p a b Nz) as (q2 & R2 & V2).
    rewrite (compare_ratio m (VText ar) q1 q2 (ratio_of a b) OpGe) by (first [reflexivity | rewrite QR; assumption]).
    f_equal. apply holds_eq; assumption.
  - rewrite (feature_tree_fun _ _ _ Tr (ft_plain i _ j k _ l (lit "aspect-ratio") OpLe (bn_max (lit "aspect-ratio") ltac:(apply mem_not_in; reflexivity)))). cbn [comes_out].
    destruct (ratio_back p _ _ ar Ar) as (q1 & R1 & V1). destruct (read_ratio_of p a b Nz) as (q2 & R2 & V2).
    rewrite (compare_ratio m (VText ar) q1 q2 (ratio_of a b) OpLe) by (first [reflexivity | rewrite QR; assumption]).
    f_equal. apply holds_eq; assumption.
  - rewrite (feature_tree_fun _ _ _ Tr (ft_plain i _ j k _ l _ OpEq (bound_plain (lit "orientation") Logic.I))). cbn [comes_out].
    destruct (compare_orientation m (orientation_type (st_screen s)) v eq_refl) as (r & E & Hr). rewrite E. f_equal.
    apply Bool.eq_true_iff_eq. rewrite Hr, Hb. unfold same_orientation. split; [|tauto].
    intros [X|[(_ & X)|(X & _)]]; [|exact X|].
    + exfalso. apply Nd. rewrite <- X. clear. unfold orientation_type.
      destruct (s_height (st_screen s) <? s_width (st_screen s))%Z, (s_angle (st_screen s) =? 0)%Z, (s_angle (st_screen s) =? 90)%Z, (s_angle (st_screen s) =? 180)%Z, (s_angle (st_screen s) =? 270)%Z; cbn; tauto.
    + exfalso. apply X. clear. unfold orientation_type.
      destruct (s_height (st_screen s) <? s_width (st_screen s))%Z, (s_angle (st_screen s) =? 0)%Z, (s_angle (st_screen s) =? 90)%Z, (s_angle (st_screen s) =? 180)%Z, (s_angle (st_screen s) =? 270)%Z; cbn; tauto.
  - assert (NB : bound_name n n OpEq /\ In n discrete_features /\ n <> lit "grid" /\ n <> lit "orientation" /\ dget (qenv m) n = Some (VText w)).
    { cbn [In] in Iw. repeat (destruct Iw as [Iw|Iw]; [injection Iw as <- <-; (split; [apply bound_plain; exact Logic.I|]; split; [apply mem_in; reflexivity|]; split; [discriminate|]; split; [discriminate|]; reflexivity)|]). destruct Iw. }
    destruct NB as (Bn & D1 & D2 & D3 & D4).
    rewrite (feature_tree_fun _ _ _ Tr (ft_plain i n j k v l n OpEq Bn)). cbn [comes_out]. rewrite (compare_discrete m n _ OpEq v D1 D2 D3 D4). cbn [op_eq andb value_eqb]. f_equal.
    apply Bool.eq_true_iff_eq. rewrite Hb. destruct (text_eqb_spec w v); intuition congruence.
  - rewrite (feature_tree_fun _ _ _ Tr (ft_bool n)). cbn [comes_out]. exists None. clear Tr.
    assert (GO : forall v, dget (qenv m) n = Some v -> (match v with VText _ => ~ In n [lit "grid"; lit "color"; lit "color-index"; lit "monochrome"] | VInt _ => True end) ->
      (feature_on n v <-> stands s n) -> eval_name m n = Ok (b, None)).
    { intros v E K W. destruct (eval_name_on m n v Nm E K) as (r & Er & Hr). rewrite Er. do 2 f_equal. apply Bool.eq_true_iff_eq. tauto. }
    destruct (mem n known) eqn:Kn.
    + apply mem_in in Kn. unfold known in Kn. cbn [map In] in Kn.
      repeat (destruct Kn as [Kn|Kn]; [subst n; try congruence; (eapply GO; [reflexivity|first [exact Logic.I|apply mem_not_in; reflexivity]|]); clear -s Dp; unfold stands, feature_on; cbn [In]|]); [..|destruct Kn].
      all: consts; cbn [orb]; try tauto.
      all: try solve [intuition discriminate].
      all: try solve [split; [intros H; tauto|intros H; decompose [or and] H; try discriminate; congruence || tauto]].
      split; [tauto|intros _; apply Z.pow_pos_nonneg; lia].
    + apply mem_not_in in Kn. rewrite eval_name_off; [|exact Nm|rewrite QE; now apply dget_unknown]. do 2 f_equal. symmetry. apply Bool.not_true_iff_false. rewrite Hb.
      intros [I|[(-> & _)|[(-> & _)|(-> & _)]]]; apply Kn; [|apply mem_in; reflexivity..].
      cbn [In] in I. repeat (destruct I as [I|I]; [subst n; apply mem_in; reflexivity|]). destruct I.
  - rewrite (feature_tree_fun _ _ _ Tr (ft_plain i n j k v l y o Bn)). cbn [comes_out]. unfold eval_compare. rewrite QE, dget_unknown by exact Nk. reflexivity.
Qed.

Lemma type_out p s ar dar t b : type_fact s t b -> comes_out (env_of p s (made p s ar dar)) (TName t) b.
Proof.
  intros [I H]. cbn [comes_out]. rewrite (eval_name_media (env_of p s (made p s ar dar)) t (st_media s) I eq_refl).
  replace (text_eqb t (lit "all") || text_eqb (st_media s) t) with b; [eauto|].
  apply Bool.eq_true_iff_eq. rewrite H, Bool.orb_true_iff. destruct (text_eqb_spec t (lit "all")), (text_eqb_spec (st_media s) t); intuition congruence.
Qed.
Lemma right_sincere p s ar dar v q : faithful p s -> (0 <= s_depth (st_screen s))%Z ->
  ratio_text (to_int (fst (view s))) (to_int (snd (view s))) = Ok ar -> right s v q -> sincere (env_of p s (made p s ar dar)) v q.
Proof.
  intros RB Dp Ar R.
  assert (OK : forall f, fact s f (t_feature v f) -> forall x, feature_tree f x -> comes_out (env_of p s (made p s ar dar)) x (t_feature v f)).
  { intros f F x T. exact (fact_out p s ar dar f _ x RB Dp Ar F T). }
  destruct q as [pr t|pr t a b f ks|n f ks]; cbn [right sincere] in *.
  - now apply type_out.
  - destruct R as (R1 & R2 & R3). split; [now apply type_out|]. split; [auto|]. revert R3. apply Forall_impl. intros k. apply OK.
  - destruct R as (R2 & R3). split; [auto|]. revert R3. apply Forall_impl. intros k. apply OK.
Qed.
(* only ValueError *)
Lemma length_of_shape c v x : length_of c v = Ok x -> ctx x = c /\ ldir x = None /\ (lunit x = None \/ exists u, lunit x = Some u /\ In u supported).
Proof.
  destruct v as [t|z]; unfold length_of; [|intros [= <-]; auto]. destruct (LengthModel.parse t) as [[n u]|] eqn:E; [|discriminate]. cbn [bind fst snd]. intros [= <-].
  split; [reflexivity|]. split; [reflexivity|]. cbn [lunit].
  assert (T : of_text t = Ok (mkL n u no_context no_context None)) by (unfold of_text; rewrite E; reflexivity). exact (c33_units _ _ T).
Qed.
Lemma length_of_err c v e : length_of c v = Err e -> e = ValueError.
Proof.
  destruct v as [t|z]; unfold length_of; [|discriminate]. destruct (LengthModel.parse t) as [[n u]|e0] eqn:E; [discriminate|]. cbn [bind]. intros [= <-].
  unfold LengthModel.parse, normalize in E. destruct (scan_number (strip t)) as [[? ?]|]; [|now injection E as <-]. destruct (scan_unit _); [|discriminate]. destruct (mem _ _); [discriminate|now injection E as <-].
Qed.
Lemma compare_errors c l r e : (forall u k z, sized c None u k z -> ~ z == 0) -> (forall u, steady c u) -> mql_compare c l r = Err e -> e = ValueError.
Proof.
  intros NZ ST. unfold mql_compare. destruct (length_of c l) as [x|e1] eqn:El; [|cbn [bind]; intros [= <-]; now apply length_of_err in El].
  destruct (length_of c r) as [y|e1] eqn:Er; [|cbn [bind]; intros [= <-]; now apply length_of_err in Er]. cbn [bind].
  destruct (length_of_shape _ _ _ El) as (C1 & D1 & U1). destruct (length_of_shape _ _ _ Er) as (C2 & D2 & U2).
  assert (SZ : forall w, ctx w = c -> ldir w = None -> (lunit w = None \/ exists u, lunit w = Some u /\ In u supported) -> exists k z, measures w k z).
  { intros w Cw Dw [Uw|(u & Uw & I)]; unfold measures; rewrite Uw; [exists Length, 1; constructor|apply c33_sizes; exact I]. }
  destruct (SZ x C1 D1 U1) as (k & z & Mx). destruct (SZ y C2 D2 U2) as (k' & z' & My).
  assert (KD : k = k' \/ k <> k') by (destruct k, k'; auto; right; discriminate). destruct KD as [<-|KD].
  - assert (NZz : ~ z == 0) by (apply (NZ (lunit x) k); unfold measures in Mx; rewrite C1, D1 in Mx; exact Mx).
    destruct (c33_trichotomy x y k z z') as (l0 & e0 & g & _ & Ee & Eg & _); try assumption; [split; congruence|rewrite C1; apply ST|].
    { rewrite Ee. cbn [bind]. destruct e0; [discriminate|]. rewrite Eg. discriminate. }
  - destruct (c33_dimensions x y k z k' z' Mx My KD) as (_ & _ & _ & _ & Ee & _). rewrite Ee. cbn [bind]. now intros [= <-].
Qed.
