(** Decoding undoes encoding. *)
From Coq Require Import Lia ZArith.
From Verif Require Import PyBase PyText UrlModel SegModel BufModel BufSpec.
#[local] Open Scope N_scope.

Lemma surrogate_spec c : surrogate c = true <-> lone c.
Proof. unfold surrogate, lone. destruct (N.leb_spec 55296 c), (N.leb_spec c 57343); cbn; intuition (try discriminate; try lia). Qed.
Lemma character_not c : character c -> surrogate c = false.
Proof. intros H. destruct (surrogate c) eqn:E; [|reflexivity]. apply surrogate_spec in E. unfold lone, character in *. lia. Qed.
Lemma trail_some a : a < 64 -> trail (128 + a) = Some a.
Proof. intros H. unfold trail. destruct (N.leb_spec 128 (128 + a)); [|lia]. destruct (N.ltb_spec (128 + a) 192); [|lia]. cbn. f_equal. lia. Qed.
Ltac bool := repeat match goal with
  | |- context [?a <? ?b] => destruct (N.ltb_spec a b); try lia
  | |- context [?a <=? ?b] => destruct (N.leb_spec a b); try lia
  end; cbn [andb orb negb].
Lemma next8_utf8 c r : character c -> exists n, units8 c n /\ length (utf8 c) = n /\ next8 (utf8 c ++ r) = Some (c, n).
Proof.
  intros H. unfold utf8. destruct (N.ltb_spec c 128) as [A|A]; [exists 1%nat; split; [constructor; exact A|]; split; [reflexivity|]; cbn [app next8]; bool; reflexivity|].
  destruct (N.ltb_spec c 2048) as [B|B].
  - exists 2%nat. split; [constructor; lia|]. split; [reflexivity|]. cbn [app next8].
    assert (D := N.div_mod c 64 ltac:(discriminate)). assert (M := N.mod_lt c 64 ltac:(discriminate)). set (m := c mod 64) in *. set (q := c / 64) in *. clearbody m q.
    bool. rewrite trail_some by exact M. f_equal. f_equal. lia.
  - destruct (N.ltb_spec c 65536) as [C|C].
    + exists 3%nat. split; [constructor; lia|]. split; [reflexivity|]. cbn [app next8].
      assert (D := N.div_mod c 64 ltac:(discriminate)). assert (M := N.mod_lt c 64 ltac:(discriminate)).
      assert (D2 := N.div_mod (c / 64) 64 ltac:(discriminate)). assert (M2 := N.mod_lt (c / 64) 64 ltac:(discriminate)). rewrite N.div_div in D2 by discriminate. change (64 * 64) with 4096 in D2.
      set (m := c mod 64) in *. set (m2 := (c / 64) mod 64) in *. set (q := c / 4096) in *. set (q1 := c / 64) in *. clearbody m m2 q q1.
      assert (E : (224 + q - 224) * 4096 + m2 * 64 + m = c) by lia. bool. rewrite !trail_some by assumption. cbv zeta. rewrite E, (character_not c H). bool. reflexivity.
    + exists 4%nat. split; [constructor; lia|]. split; [reflexivity|]. cbn [app next8].
      assert (D := N.div_mod c 64 ltac:(discriminate)). assert (M := N.mod_lt c 64 ltac:(discriminate)).
      assert (D2 := N.div_mod (c / 64) 64 ltac:(discriminate)). assert (M2 := N.mod_lt (c / 64) 64 ltac:(discriminate)). rewrite N.div_div in D2 by discriminate. change (64 * 64) with 4096 in D2.
      assert (D3 := N.div_mod (c / 4096) 64 ltac:(discriminate)). assert (M3 := N.mod_lt (c / 4096) 64 ltac:(discriminate)). rewrite N.div_div in D3 by discriminate. change (4096 * 64) with 262144 in D3.
      set (m := c mod 64) in *. set (m2 := (c / 64) mod 64) in *. set (m3 := (c / 4096) mod 64) in *. set (q := c / 262144) in *. set (q1 := c / 64) in *. set (q2 := c / 4096) in *. clearbody m m2 m3 q q1 q2.
      assert (E : (240 + q - 240) * 262144 + m3 * 4096 + m2 * 64 + m = c) by lia. assert (L : c < 1114112) by (unfold character in H; lia).
      bool. rewrite !trail_some by assumption. cbv zeta. rewrite E. bool. reflexivity.
Qed.
Lemma next16_units c r : character c -> exists n, units16 c n /\ length (units_of c) = n /\ next16 (units_of c ++ r) = Some (c, n).
Proof.
  intros H. unfold units_of. destruct (N.ltb_spec c 65536) as [A|A].
  - exists 1%nat. split; [constructor; exact A|]. split; [reflexivity|]. cbn [app next16]. rewrite (character_not c H). reflexivity.
  - exists 2%nat. split; [constructor; exact A|]. split; [reflexivity|]. cbn [app next16]. assert (L : c < 1114112) by (unfold character in H; lia).
    assert (D := N.div_mod (c - 65536) 1024 ltac:(discriminate)). assert (M := N.mod_lt (c - 65536) 1024 ltac:(discriminate)).
    set (m := (c - 65536) mod 1024) in *. set (q := (c - 65536) / 1024) in *. clearbody m q.
    assert (S1 : surrogate (55296 + q) = true) by (apply surrogate_spec; unfold lone; lia). rewrite S1. cbn [negb].
    unfold is_high, SegModel.is_low. bool. f_equal. f_equal. lia.
Qed.
Lemma next32_one c r : character c -> exists n, units32 c n /\ length [c] = n /\ next32 ([c] ++ r) = Some (c, n).
Proof. intros H. exists 1%nat. split; [constructor|]. split; [reflexivity|]. cbn. rewrite (character_not c H). unfold character in H. bool. reflexivity. Qed.

Lemma decode_placed (units : N -> nat -> Prop) (next : list N -> option (N * nat)) (f : N -> list N) :
  next [] = None -> (forall c r, character c -> exists n, units c n /\ length (f c) = n /\ next (f c ++ r) = Some (c, n)) -> (forall c, f c <> []) ->
  forall t fuel o, Forall character t -> (length (flat_map f t) <= fuel)%nat -> placed units o t (decode next fuel o (flat_map f t)).
Proof.
  intros E Nx Ne. induction t as [|c t IH]; intros fuel o F L; cbn [flat_map].
  - destruct fuel; cbn; rewrite ?E; constructor.
  - inversion F as [|? ? Fc Ft]; subst. cbn [flat_map] in L. rewrite app_length in L. destruct (Nx c (flat_map f t) Fc) as (n & U & Ln & Q).
    destruct fuel as [|fuel]; [exfalso; specialize (Ne c); destruct (f c); [congruence|cbn in L; lia]|]. cbn [decode]. rewrite Q. rewrite <- Ln at 2. rewrite skipn_app, skipn_all, Nat.sub_diag. cbn [skipn app].
    apply (pl_cons units o c n); [exact U|]. apply IH; [exact Ft|]. specialize (Ne c). destruct (f c); [congruence|]. cbn in L. lia.
Qed.
Lemma utf8_some c : utf8 c <> []. Proof. unfold utf8. destruct (c <? 128), (c <? 2048), (c <? 65536); discriminate. Qed.
Lemma units_some c : units_of c <> []. Proof. unfold units_of. destruct (c <? 65536); discriminate. Qed.
Lemma encode_ok f t : Forall character t -> encode f t = Ok (flat_map f t).
Proof.
  intros F. unfold encode. replace (existsb surrogate t) with false; [reflexivity|]. symmetry. destruct (existsb surrogate t) eqn:E; [|reflexivity]. exfalso.
  apply existsb_exists in E as (c & I & S). rewrite Forall_forall in F. rewrite (character_not c (F c I)) in S. discriminate.
Qed.
Lemma encode_err f t : (exists c, In c t /\ lone c) -> encode f t = Err UnicodeError_.
Proof.
  intros (c & I & L). unfold encode. replace (existsb surrogate t) with true; [reflexivity|]. symmetry. apply existsb_exists. exists c. split; [exact I|]. apply surrogate_spec, L.
Qed.
Lemma utf8_zero c : In 0 (utf8 c) <-> c = 0.
Proof.
  unfold utf8. destruct (N.ltb_spec c 128); [cbn; split; [now intros [<-|[]]|intros ->; now left]|].
  assert (T : forall k x, 0 < k -> k + x <> 0) by (intros; lia).
  destruct (c <? 2048), (c <? 65536); (split; [|intros ->; lia]); intros K; exfalso; repeat (destruct K as [K|K]; [revert K; apply T; reflexivity|]); destruct K.
Qed.
Lemma until_none l : ~ In 0 l -> forall r, until_nul (l ++ 0 :: r) = l.
Proof.
  induction l as [|x l IH]; intros H r; [reflexivity|]. cbn. destruct (N.eqb_spec x 0) as [->|]; [exfalso; apply H; now left|]. f_equal. apply IH. intros I. apply H. now right.
Qed.
Lemma utf8_no_zero t : ~ In 0 t -> ~ In 0 (flat_map utf8 t).
Proof. intros H I. apply in_flat_map in I as (c & Ic & Iz). apply utf8_zero in Iz. subst. exact (H Ic). Qed.
Lemma until_before t a : before_nul t a -> until_nul (flat_map utf8 t ++ [0]) = flat_map utf8 a.
Proof.
  intros [t' H|a' b H]; [apply until_none, utf8_no_zero, H|]. rewrite flat_map_app. cbn [flat_map]. change (utf8 0) with [0]. rewrite <- !app_assoc. cbn [app]. apply until_none, utf8_no_zero, H.
Qed.
Lemma before_in t a c : before_nul t a -> In c a -> In c t.
Proof. intros [t' _|a' b _] I; [exact I|apply in_or_app; now left]. Qed.
Lemma before_exists t : exists a, before_nul t a.
Proof.
  induction t as [|c t (a & H)]; [exists []; constructor; intros []|]. destruct (N.eq_dec c 0) as [->|N]; [exists []; apply (bn_some [] t); intros []|].
  exists (c :: a). destruct H as [t H|a b H].
  - constructor. intros [E|I]; [congruence|contradiction].
  - apply (bn_some (c :: a) b). intros [E|I]; [congruence|contradiction].
Qed.
Lemma placed_fun (units : N -> nat -> Prop) : (forall c n m, units c n -> units c m -> n = m) -> forall t o l l', placed units o t l -> placed units o t l' -> l = l'.
Proof.
  intros U. induction t as [|c t IH]; intros o l l' H H'; inversion H; inversion H'; subst; [reflexivity|]. f_equal. assert (n = n0) by eauto. subst. eauto.
Qed.
Lemma placed_chars units t o l : placed units o t l -> map fst l = t.
Proof. intros H. induction H; [reflexivity|]. cbn. now f_equal. Qed.
