From Verif Require Import PyBase PyText PySplit PyCase PyDict DatasetModel DatasetSpec.
From Coq Require Import Lia.
Local Open Scope N_scope.

Definition enc (key : text) : text := flat_map (fun c => if is_up c then [dash; c] else [c]) key.
Fixpoint dec (t : text) : text :=
  match t with
  | [] => []
  | c :: r => match r with
              | d :: r' => if (c =? dash) && is_low d then to_up d :: dec r' else c :: dec r
              | [] => [c]
              end
  end.
Lemma dec_cons c r : dec (c :: r) = match r with
              | d :: r' => if (c =? dash) && is_low d then to_up d :: dec r' else c :: dec r
              | [] => [c]
              end.
Proof. reflexivity. Qed.
Lemma dec_low d r : is_low d = true -> dec (dash :: d :: r) = to_up d :: dec r.
Proof. intros H. cbn [dec]. rewrite N.eqb_refl, H. reflexivity. Qed.
Lemma dec_other c r : c <> dash -> dec (c :: r) = c :: dec r.
Proof. intros H. rewrite dec_cons. destruct r; [reflexivity|]. destruct (N.eqb_spec c dash); [congruence|reflexivity]. Qed.
Lemma dec_dash r : match r with d :: _ => is_low d = false | [] => True end -> dec (dash :: r) = dash :: dec r.
Proof. intros H. rewrite dec_cons. destruct r; [reflexivity|]. rewrite H, andb_false_r. reflexivity. Qed.
Lemma lower_cons c t : lower (c :: t) = to_low c :: lower t.
Proof. reflexivity. Qed.
Lemma enc_cons c t : enc (c :: t) = (if is_up c then [dash; c] else [c]) ++ enc t.
Proof. reflexivity. Qed.

Lemma dec_enc k : has_dash_low k = false -> dec (lower (enc k)) = k.
Proof.
  induction k as [|c k IH]; intros H; [reflexivity|].
  assert (Hk : has_dash_low k = false) by (destruct k as [|d k]; [reflexivity|]; cbn [has_dash_low] in H; apply orb_false_iff in H; apply H).
  specialize (IH Hk). rewrite enc_cons. destruct (is_up c) eqn:U.
  - cbn [app]. rewrite !lower_cons. change (to_low dash) with dash. rewrite dec_low by now apply to_low_up.
    now rewrite to_up_to_low, IH.
  - cbn [app]. rewrite lower_cons, (to_low_id c U). destruct (N.eq_dec c dash) as [->|E]; [|now rewrite dec_other, IH].
    rewrite dec_dash, IH; [reflexivity|]. destruct k as [|d k]; [exact I|]. rewrite enc_cons.
    destruct (is_up d) eqn:Ud; [reflexivity|]. cbn [app]. rewrite lower_cons, (to_low_id d Ud).
    cbn [has_dash_low] in H. rewrite N.eqb_refl in H. apply orb_false_iff in H. apply H.
Qed.
Lemma convert_name_ok k n : convert_name k = Ok n <-> has_dash_low k = false /\ n = data_prefix ++ lower (enc k).
Proof.
  unfold convert_name. destruct (has_dash_low k); [split; [discriminate|intros []; discriminate]|].
  rewrite lower_app. change (lower data_prefix) with data_prefix. split; [injection 1; auto|intros [_ ->]; reflexivity].
Qed.
Lemma convert_name_inj k1 k2 n : convert_name k1 = Ok n -> convert_name k2 = Ok n -> k1 = k2.
Proof.
  intros H1 H2. apply convert_name_ok in H1, H2. destruct H1 as [D1 E1], H2 as [D2 E2]. subst n.
  apply app_inv_head in E2. apply (f_equal dec) in E2. now rewrite !dec_enc in E2 by assumption.
Qed.
Lemma has_dash_low_spec k : has_dash_low k = false <-> no_dash_letter k.
Proof.
  unfold no_dash_letter. induction k as [|x k IH].
  - split; [|reflexivity]. intros _ a b c. left. destruct a; discriminate.
  - destruct k as [|y k].
    + split; [|reflexivity]. intros _ a b c. left. destruct a as [|? [|? ?]]; discriminate.
    + change (has_dash_low (x :: y :: k)) with (((x =? dash) && is_low y) || has_dash_low (y :: k)).
      rewrite orb_false_iff, IH. split.
      * intros [H1 H2] a b c. destruct a as [|z a].
        -- destruct (is_low c) eqn:L; [|right; now apply is_low_false]. left. intros E. injection E as -> -> _.
           rewrite L, N.eqb_refl in H1. discriminate.
        -- destruct (H2 a b c) as [H|H]; [left|now right]. intros E. injection E as _ E. contradiction.
      * intros H. split.
        -- destruct (N.eqb_spec x dash) as [->|]; [|reflexivity]. cbn. apply is_low_false.
           destruct (H [] k y) as [K|K]; [destruct K; reflexivity|exact K].
        -- intros a b c. destruct (H (x :: a) b c) as [K|K]; [left|now right]. intros E. apply K. cbn. now rewrite E.
Qed.

(** the simple bodies *)
Lemma part_text_snoc first w c : w <> [] -> is_up c = false -> part_text first (w ++ [c]) = part_text first w ++ [c].
Proof.
  intros N U. destruct w as [|x w]; [congruence|]. cbn [app part_text]. destruct first; [reflexivity|]. cbn [capitalize app].
  rewrite lower_app. cbn [lower map]. now rewrite to_low_id.
Qed.
Lemma split_on_acc_cons f w t : exists a l, split_on_acc f w t = a :: l.
Proof. revert w. induction t as [|c t IH]; intros w; cbn; [now eexists; eexists|]. destruct (f c); [now eexists; eexists|apply IH]. Qed.
Lemma parts_key_cons first p l : p <> [] -> parts_key first (p :: l) = part_text first p ++ parts_key false l.
Proof. intros N. destruct p; [congruence|]. destruct l; reflexivity. Qed.
Lemma parts_dec t : forall w first, w <> [] -> dashes_ok t ->
  parts_key first (split_on_acc (N.eqb dash) w t) = part_text first w ++ dec t.
Proof.
  remember (length t) as n eqn:L. assert (Hn : (length t <= n)%nat) by lia. clear L. revert t Hn.
  induction n as [|n IH]; intros t Hn w first N D.
  - destruct t; [|cbn in Hn; lia]. cbn [split_on_acc]. rewrite parts_key_cons by exact N. reflexivity.
  - destruct t as [|c t]; [cbn [split_on_acc]; rewrite parts_key_cons by exact N; reflexivity|].
    cbn [dashes_ok] in D. destruct D as (U & E & D). cbn [split_on_acc]. destruct (N.eqb_spec dash c) as [<-|X].
    + specialize (E eq_refl). destruct t as [|d t]; [destruct E|].
      rewrite parts_key_cons by exact N. cbn [split_on_acc]. destruct (N.eqb_spec dash d) as [<-|Y]; [unfold dash in E; lia|].
      cbn [app]. rewrite IH; [|cbn in *; lia|discriminate|apply D].
      rewrite dec_low by now apply is_low_iff. reflexivity.
    + rewrite IH; [|cbn in Hn; lia|destruct w; discriminate|exact D].
      rewrite part_text_snoc by (try exact N; now apply is_up_false). rewrite <- app_assoc. cbn [app].
      rewrite dec_other by congruence. reflexivity.
Qed.
Lemma body_key t : simple_body t -> parts_key true (split_on dash t) = dec t.
Proof.
  intros [H D]. unfold split_on. destruct t as [|c t]; [reflexivity|]. cbn [split_on_acc].
  destruct (N.eqb_spec dash c) as [<-|X]; [now destruct H|]. cbn [app]. rewrite parts_dec; [|discriminate|apply D].
  rewrite dec_other by congruence. reflexivity.
Qed.
Lemma enc_dashes k : ~ In dash k -> dashes_ok (lower (enc k)).
Proof.
  induction k as [|c k IH]; intros H; [exact I|]. rewrite enc_cons.
  assert (Hc : c <> dash) by (intros ->; apply H; now left). assert (Hk : ~ In dash k) by (intros X; apply H; now right).
  destruct (is_up c) eqn:U; cbn [app]; rewrite !lower_cons; cbn [dashes_ok].
  - change (to_low dash) with 45. pose proof (to_low_up c U) as L. apply is_low_iff in L.
    split; [lia|]. split; [intros _; exact L|]. split; [lia|]. split; [lia|now apply IH].
  - rewrite (to_low_id c U). apply is_up_false in U. unfold dash in *. split; [exact U|]. split; [congruence|now apply IH].
Qed.
Lemma enc_body k : simple_key k -> simple_body (lower (enc k)).
Proof.
  intros [H U]. split; [|now apply enc_dashes]. destruct k as [|c k]; [exact I|]. rewrite enc_cons.
  apply is_up_false in U. rewrite U. cbn [app]. rewrite lower_cons, (to_low_id c U). intros ->. apply H. now left.
Qed.
Lemma dec_no_dash t : dashes_ok t -> ~ In dash (dec t).
Proof.
  remember (length t) as n eqn:L. assert (Hn : (length t <= n)%nat) by lia. clear L. revert t Hn.
  induction n as [|n IH]; intros t Hn D.
  - destruct t; [intros []|cbn in Hn; lia].
  - destruct t as [|c t]; [intros []|]. cbn [dashes_ok] in D. destruct D as (U & E & D).
    destruct (N.eq_dec c dash) as [->|X].
    + specialize (E eq_refl). destruct t as [|d t]; [destruct E|]. rewrite dec_low by now apply is_low_iff.
      intros [H|H].
      * apply is_low_iff in E. destruct (to_up_low d E) as [V _]. rewrite H in V. discriminate.
      * revert H. apply IH; [cbn in *; lia|apply D].
    + rewrite dec_other by exact X. intros [H|H]; [congruence|]. revert H. apply IH; [cbn in *; lia|exact D].
Qed.
Lemma enc_dec t : dashes_ok t -> lower (enc (dec t)) = t.
Proof.
  remember (length t) as n eqn:L. assert (Hn : (length t <= n)%nat) by lia. clear L. revert t Hn.
  induction n as [|n IH]; intros t Hn D.
  - destruct t; [reflexivity|cbn in Hn; lia].
  - destruct t as [|c t]; [reflexivity|]. cbn [dashes_ok] in D. destruct D as (U & E & D).
    destruct (N.eq_dec c dash) as [->|X].
    + specialize (E eq_refl). destruct t as [|d t]; [destruct E|]. apply is_low_iff in E. rewrite dec_low by exact E.
      destruct (to_up_low d E) as [V W]. rewrite enc_cons, V. cbn [app]. rewrite !lower_cons, W.
      rewrite IH; [reflexivity|cbn in *; lia|apply D].
    + rewrite dec_other by exact X. apply is_up_false in U. rewrite enc_cons, U. cbn [app]. rewrite lower_cons, (to_low_id c U).
      rewrite IH; [reflexivity|cbn in *; lia|exact D].
Qed.
Lemma no_dash_has k : ~ In dash k -> has_dash_low k = false.
Proof.
  induction k as [|c k IH]; intros H; [reflexivity|]. destruct k as [|d k]; [reflexivity|].
  change (has_dash_low (c :: d :: k)) with (((c =? dash) && is_low d) || has_dash_low (d :: k)). rewrite IH by (intros X; apply H; now right).
  destruct (N.eqb_spec c dash) as [->|]; [destruct H; now left|reflexivity].
Qed.
Lemma dec_simple t : simple_body t -> simple_key (dec t).
Proof.
  intros [H D]. split; [now apply dec_no_dash|]. destruct t as [|c t]; [exact I|]. rewrite dec_other by exact H. apply D.
Qed.
Lemma skip_prefix t : skipn (length data_prefix) (data_prefix ++ t) = t.
Proof. reflexivity. Qed.
Lemma key_name k n : simple_key k -> convert_name k = Ok n -> convert_key n = k.
Proof.
  intros S H. apply convert_name_ok in H. destruct H as [D ->]. unfold convert_key. rewrite skip_prefix.
  rewrite body_key by now apply enc_body. now apply dec_enc.
Qed.
Lemma name_key t : simple_body t -> convert_name (convert_key (data_prefix ++ t)) = Ok (data_prefix ++ t) /\
  simple_key (convert_key (data_prefix ++ t)).
Proof.
  intros S. unfold convert_key. rewrite skip_prefix, body_key by exact S. split; [|now apply dec_simple].
  apply convert_name_ok. split; [apply no_dash_has, dec_no_dash, S|]. now rewrite enc_dec by apply S.
Qed.

Lemma starts_with_spec p : forall t, starts_with p t = true <-> exists r, t = p ++ r.
Proof.
  induction p as [|a p IH]; intros t; cbn; [split; [now exists t|reflexivity]|].
  destruct t as [|b t]; [split; [discriminate|intros (r & H); discriminate]|].
  rewrite andb_true_iff, N.eqb_eq, IH. split.
  - intros [-> (r & ->)]. now exists r.
  - intros (r & H). injection H as -> ->. split; [reflexivity|now exists r].
Qed.
Lemma listed_spec n : listed n = true <-> exists r, n = data_prefix ++ r /\ forallb (fun c => negb (is_up c)) r = true.
Proof.
  unfold listed. rewrite andb_true_iff, starts_with_spec. split.
  - intros [(r & ->) H]. exists r. split; [reflexivity|]. unfold islower in H. apply andb_true_iff in H. destruct H as [_ H].
    rewrite forallb_app in H. apply andb_true_iff in H. apply H.
  - intros (r & -> & H). split; [now exists r|]. unfold islower. rewrite existsb_app, forallb_app, H. reflexivity.
Qed.
Lemma convert_name_listed k n : convert_name k = Ok n -> listed n = true.
Proof.
  intros H. apply convert_name_ok in H. destruct H as [_ ->]. apply listed_spec. eexists. split; [reflexivity|]. apply lower_no_up.
Qed.

(** the characters of a name *)
Definition nchar (c : N) : bool := in_ranges (name_start ++ name_more) c.
Lemma nchar_low c : nchar (to_low c) = nchar c.
Proof.
  unfold to_low. destruct (is_up c) eqn:U; [|reflexivity]. apply is_up_iff in U. unfold nchar, in_ranges.
  assert (A : existsb (fun r => (fst r <=? c + 32) && (c + 32 <=? snd r)) (name_start ++ name_more) = true).
  { apply existsb_exists. exists (97,122). split; [cbn; tauto|]. cbn [fst snd]. apply andb_true_iff. split; apply N.leb_le; lia. }
  assert (B : existsb (fun r => (fst r <=? c) && (c <=? snd r)) (name_start ++ name_more) = true).
  { apply existsb_exists. exists (65,90). split; [cbn; tauto|]. cbn [fst snd]. apply andb_true_iff. split; apply N.leb_le; lia. }
  congruence.
Qed.
Lemma forallb_enc (f : N -> bool) k : (forall c, f (to_low c) = f c) -> f dash = true ->
  forallb f (lower (enc k)) = forallb f k.
Proof.
  intros L D. induction k as [|c k IH]; [reflexivity|]. rewrite enc_cons. destruct (is_up c); cbn [app]; rewrite !lower_cons; cbn [forallb];
  rewrite IH, !L, ?D; reflexivity.
Qed.
Lemma validate_prefix t : validate_name (data_prefix ++ t) = forallb nchar t.
Proof. reflexivity. Qed.
Lemma colon_neg (t : text) : existsb (N.eqb 58) t = negb (forallb (fun c => negb (58 =? c)) t).
Proof. induction t as [|c t IH]; [reflexivity|]. cbn [existsb forallb]. rewrite IH, negb_andb, negb_involutive. reflexivity. Qed.
Lemma set_ok d k v : v <> [] ->
  (forall d', set d k v = Ok d' -> exists n, convert_name k = Ok n /\ d' = dset d n v) /\
  (is_ok (set d k v) = true <-> no_dash_letter k /\ forall c, In c k -> nchar c = true /\ c <> 58).
Proof.
  intros N. destruct v as [|v0 v]; [congruence|]. unfold set. split.
  - intros d'. destruct (convert_name k) as [n|]; [|discriminate]. cbn [bind]. destruct (validate_name n); [|discriminate].
    destruct (existsb _ n); [discriminate|]. injection 1 as <-. now exists n.
  - rewrite <- has_dash_low_spec. destruct (convert_name k) as [n|e] eqn:E.
    + apply convert_name_ok in E. destruct E as [D ->]. cbn [bind]. rewrite validate_prefix.
      rewrite (forallb_enc nchar k nchar_low eq_refl).
      rewrite existsb_app, colon_neg. change (existsb (N.eqb 58) data_prefix) with false. cbn [orb]. rewrite colon_neg.
      rewrite (forallb_enc (fun c => negb (58 =? c)) k).
      2:{ intros c. f_equal. unfold to_low. destruct (is_up c) eqn:U; [|reflexivity]. apply is_up_iff in U.
          destruct (N.eqb_spec 58 (c + 32)), (N.eqb_spec 58 c); lia || reflexivity. }
      2: reflexivity.
      change (negb (forallb (fun c => negb (58 =? c)) data_prefix)) with false. cbn [orb].
      destruct (forallb nchar k) eqn:F1; [destruct (forallb (fun c => negb (58 =? c)) k) eqn:F2|]; cbn [negb is_ok].
      * split; [|reflexivity]. intros _. split; [exact D|]. rewrite forallb_forall in F1, F2. intros c I. split; [now apply F1|].
        intros ->. specialize (F2 _ I). discriminate.
      * split; [discriminate|]. intros [_ H]. exfalso. assert (forallb (fun c => negb (58 =? c)) k = true) as X; [|congruence].
        apply forallb_forall. intros c I. destruct (N.eqb_spec 58 c); [|reflexivity]. destruct (H c I). congruence.
      * split; [discriminate|]. intros [_ H]. exfalso. assert (forallb nchar k = true) as X; [|congruence].
        apply forallb_forall. intros c I. now apply H.
    + cbn [bind is_ok]. split; [discriminate|]. intros [D _]. unfold convert_name in E. rewrite D in E. discriminate.
Qed.
