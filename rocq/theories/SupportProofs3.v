(** Lemmas for SupportProps.v: lists of tokens, and the syntax "*". *)
From Coq Require Import ZArith NArith List Lia.
From Verif Require Import PyBase PyText PySplit PyDict PyCase DatasetModel DatasetProofs SupportModel SupportTable SupportSpec SupportProofs SupportProofs2.
#[local] Open Scope N_scope.
Import ListNotations.

Lemma comma_word s : wf s -> mem [44] (d_identifiers (descriptor (render s))) = existsb (fun t => match t with TWord w => text_eqb w (lit ",") | _ => false end) (terms s).
Proof.
  intros W. rewrite identifiers_render by exact W. unfold has_word. induction (terms s) as [|t l IH]; [reflexivity|]. cbn [existsb]. rewrite IH. f_equal. destruct t as [n|n a|w]; try reflexivity.
  change (lit ",") with [44]. destruct (text_eqb_spec w [44]) as [->|E]; [reflexivity|]. destruct (text_eqb_spec [44] w) as [<-|]; [now elim E|reflexivity].
Qed.
Lemma scan_render cw s ks : wf s -> text_eqb (render s) ANY = false -> forall n,
  scan_tokens cw (descriptor (render s)) ks n =
  match first_bad cw s ks with
  | Some k => match broken k with Some e => Err e | None => Ok None end
  | None => Ok (Some (n + length (filter keyword ks))%nat)
  end.
Proof.
  intros W A. induction ks as [|k ks IH]; intros n; cbn [scan_tokens first_bad filter]; [now rewrite Nat.add_0_r|].
  unfold fine. change (comma k) with (is_comma k). change (wide_token k) with (keyword k). destruct (is_comma k) eqn:C.
  - rewrite comma_word by exact W. change (d_syntax (descriptor (render s))) with (render s).
    assert (K : keyword k = false) by (destruct k; try discriminate C; reflexivity). rewrite K.
    destruct (existsb (N.eqb 35) (render s) || _); [apply IH|]. destruct k; try discriminate C. reflexivity.
  - destruct (keyword k) eqn:K.
    + assert (U : accepted cw s k = true) by (unfold accepted; destruct k; try discriminate K; cbn [universal keyword] in *; now rewrite K). rewrite U, IH. cbn [length]. now rewrite Nat.add_succ_r.
    + assert (X := support_render cw s k W A). destruct (broken k) as [e|] eqn:B.
      * rewrite X. cbn [bind]. assert (U : accepted cw s k = false). { unfold accepted. rewrite accepts_split. destruct k; try discriminate B; reflexivity. } rewrite U, B. reflexivity.
      * destruct X as (o & -> & _). cbn [bind fst]. destruct (accepted cw s k); [apply IH|]. now rewrite B.
Qed.
Lemma filter_none {A} (f : A -> bool) l : Nat.ltb 0 (length (filter f l)) = existsb f l.
Proof. induction l as [|a l IH]; [reflexivity|]. cbn [filter existsb]. destruct (f a); [reflexivity|exact IH]. Qed.
Lemma supports_render cw s ks : wf s -> text_eqb (render s) ANY = false -> supports cw (descriptor (render s)) ks = verdict cw s ks.
Proof.
  intros W A. unfold supports, verdict. rewrite scan_render by assumption. destruct (first_bad cw s ks) as [k|]; [destruct (broken k); reflexivity|]. cbn [bind Nat.add]. rewrite filter_none, negb_andb. f_equal. f_equal.
  destruct (Nat.ltb_spec 1 (length ks)), (Nat.leb_spec (length ks) 1); try reflexivity; lia.
Qed.

(** ** Verdicts *)
Lemma first_bad_none cw s ks : first_bad cw s ks = None <-> Forall (fun k => fine cw s k = true) ks.
Proof.
  induction ks as [|k ks IH]; cbn [first_bad]; [split; [constructor|reflexivity]|]. destruct (fine cw s k) eqn:F.
  - rewrite IH. split; [now constructor|]. now inversion 1.
  - split; [discriminate|]. inversion 1. congruence.
Qed.
Lemma verdict_true cw s ks : verdict cw s ks = Ok true <-> Forall (fun k => fine cw s k = true) ks /\ (existsb keyword ks = true -> length ks = 1%nat).
Proof.
  unfold verdict. rewrite <- first_bad_none. destruct (first_bad cw s ks) as [k|] eqn:E.
  - split; [destruct (broken k); discriminate|now intros [H _]].
  - destruct (existsb keyword ks) eqn:K; cbn [negb orb].
    + split.
      * intros [= H]. split; [reflexivity|]. intros _. apply Nat.leb_le in H. destruct ks as [|k [|k' ks]]; cbn in *; try lia; try reflexivity; try discriminate.
      * intros [_ H]. now rewrite H.
    + split; [intros _; split; [reflexivity|discriminate]|reflexivity].
Qed.
Lemma accepted_incl cw s s' k : incl (terms s) (terms s') -> accepted cw s k = true -> accepted cw s' k = true.
Proof.
  intros I. unfold accepted. rewrite !orb_true_iff, !existsb_exists. intros [H|(t & J & H)]; [now left|right; exists t; auto].
Qed.
Lemma fine_incl cw s s' k : incl (terms s) (terms s') -> (existsb (N.eqb 35) (render s) = true -> existsb (N.eqb 35) (render s') = true) -> fine cw s k = true -> fine cw s' k = true.
Proof.
  intros I H. unfold fine. destruct (is_comma k); [|now apply accepted_incl]. rewrite !orb_true_iff, !existsb_exists. intros [X|(t & J & E)]; [left|right; exists t; auto]. rewrite <- existsb_exists in *. auto.
Qed.
Lemma first_bad_same cw s s' ks : (forall k, fine cw s k = fine cw s' k) -> first_bad cw s ks = first_bad cw s' ks.
Proof. intros H. induction ks as [|k ks IH]; [reflexivity|]. cbn [first_bad]. now rewrite H, IH. Qed.
Lemma terms_alternative s s' : terms (alternative s s') = terms s ++ terms s'.
Proof. unfold terms, items, alternative. cbn [fst snd]. rewrite <- flat_map_app. f_equal. rewrite map_app. cbn [map fst]. rewrite <- !app_assoc. reflexivity. Qed.
Lemma render_alternative s s' : render (alternative s s') = render s ++ 124 :: render s'.
Proof. unfold render, alternative. cbn [fst snd]. rewrite map_app, concat_app. cbn [map concat fst snd sep_text]. rewrite <- !app_assoc. reflexivity. Qed.

(** ** Any syntax text *)
Lemma flag_total t k : In k (ANY :: typed_keys) -> text_eqb t ANY = false -> exists b, flag (descriptor t) k = Ok b.
Proof.
  intros I A. unfold flag, descriptor. cbn [d_components]. rewrite A. destruct (dget _ k) as [b|] eqn:E; [eauto|]. apply dget_keys in E. elim E. unfold dkeys. cbn [map fst]. rewrite map_map. cbn [fst]. rewrite map_id. exact I.
Qed.
Lemma support_total cw t k : match broken k with Some e => support cw (descriptor t) k = Err e | None => exists a, support cw (descriptor t) k = Ok a end.
Proof.
  assert (D : exists d, d = descriptor t) by eauto. destruct D as [d D]. rewrite <- D.
  assert (F : (forall x, In x (ANY :: typed_keys) -> exists b, flag d x = Ok b) \/ flag d ANY = Ok true).
  { subst d. destruct (text_eqb t ANY) eqn:A; [right|left; intros; now apply flag_total]. unfold flag, descriptor. cbn [d_components]. now rewrite A. }
  clear D t.
  assert (FT : forall ks, incl ks typed_keys -> (flag d ANY = Ok true) \/ exists b, flags d ks = Ok b).
  { destruct F as [F|F]; [|now left]. right. induction ks as [|x ks IH]; cbn [flags]; [eauto|]. destruct (F x) as [b ->]; [right; apply H; now left|]. cbn [bind]. destruct b; [eauto|]. apply IH. intros y Y. apply H. now right. }
  assert (FA : forall ks, incl ks typed_keys -> exists b, flags d (ANY :: ks) = Ok b).
  { intros ks I. cbn [flags]. destruct F as [F|F].
    - destruct (F ANY) as [b ->]; [now left|]. cbn [bind]. destruct b; [eauto|]. destruct (FT ks I) as [X|X]; [|exact X]. clear -F I. induction ks as [|x ks IH]; cbn [flags]; [eauto|]. destruct (F x) as [b ->]; [right; apply I; now left|]. cbn [bind]. destruct b; [eauto|]. apply IH. intros y Y. apply I. now right.
    - rewrite F. cbn [bind]. eauto. }
  assert (W0 : forall ks ty (z : result answer), incl ks typed_keys -> (flag d ANY = Ok true \/ exists a, z = Ok a) -> exists a, when d (ANY :: ks) ty z = Ok a).
  { intros ks ty z I [X|[a ->]]; unfold when; [cbn [flags]; rewrite X; cbn [bind]; unfold yes; eauto|]. destruct (FA ks I) as [b ->]. cbn [bind]. destruct b; unfold yes; eauto. }
  assert (W1 : forall ks ty (z : result answer), incl ks typed_keys -> (flag d ANY = Ok true \/ exists a, z = Ok a) -> flag d ANY = Ok true \/ exists a, when d ks ty z = Ok a).
  { intros ks ty z I [X|[a ->]]; [now left|]. destruct (FT ks I) as [X|[b X]]; [now left|]. right. unfold when. rewrite X. cbn [bind]. destruct b; unfold yes; eauto. }
  assert (NO : exists a, no = Ok a) by (unfold no; eauto). assert (NO' : flag d ANY = Ok true \/ exists a, no = Ok a) by auto.
  assert (IN : forall x, mem x typed_keys = true -> incl [x] typed_keys) by (intros x X y [<-|[]]; now apply mem_in).
  assert (IN2 : forall x x', mem x typed_keys && mem x' typed_keys = true -> incl [x; x'] typed_keys) by (intros x x' X y Y; apply andb_true_iff in X as [X1 X2]; apply mem_in in X1, X2; destruct Y as [<-|[<-|[]]]; assumption).
  assert (ID : forall v, exists a, (if mem (lower v) wide_keywords then Ok (true, None)
      else if mem v (d_identifiers d) then yes CUSTOM_IDENT
      else do b <- flags d [ANY; COLOR];
        if b && text_eqb (lower v) (lit "currentcolor") then yes CUSTOM_IDENT
        else if b && cw v then yes COLOR else when d [ANY; CUSTOM_IDENT; STRING] CUSTOM_IDENT no) = Ok a).
  { intros v. destruct (mem (lower v) wide_keywords); [eauto|]. destruct (mem v (d_identifiers d)); [unfold yes; eauto|]. destruct (FA [COLOR] (IN COLOR eq_refl)) as [b ->]. cbn [bind]. destruct (b && _); [unfold yes; eauto|]. destruct (b && _); [unfold yes; eauto|]. apply W0; auto. }
  destruct k as [u|f|v|v|v|v|i| | | |]; cbn [broken support]; try reflexivity; try apply ID.
  - repeat (match goal with |- context [if ?x then _ else _] => destruct x end); auto.
  - repeat (match goal with |- context [if ?x then _ else _] => destruct x end); eauto.
  - destruct (FA [COLOR] (IN COLOR eq_refl)) as [b ->]. cbn [bind]. destruct (b && _); [unfold yes|]; eauto.
  - destruct (mem v (d_identifiers d)); [unfold yes; eauto|]. auto.
  - destruct (FA [INTEGER] (IN INTEGER eq_refl)) as [b B]. assert (X : exists b, (if i then flags d [ANY; INTEGER] else Ok false) = Ok b) by (destruct i; eauto). destruct X as [b' ->]. cbn [bind]. destruct b'; [unfold yes; eauto|]. apply W0; [auto|]. apply W1; [auto|]. apply W1; [auto|]. apply W1; auto.
  - apply W0; auto.
  - apply W0; auto.
Qed.
Lemma wide_alone cw t v : wide v = true -> supports cw (descriptor t) [KIdent v] = Ok true.
Proof. intros W. unfold supports. cbn [scan_tokens comma wide_token]. change (mem (lower v) wide_keywords) with (wide v). rewrite W. reflexivity. Qed.
Lemma scan_count cw d ks : forall n m, scan_tokens cw d ks n = Ok (Some m) -> m = (n + length (filter keyword ks))%nat.
Proof.
  induction ks as [|k ks IH]; intros n m; cbn [scan_tokens filter]; [intros [= <-]; cbn; lia|]. change (wide_token k) with (keyword k). destruct (comma k) eqn:C.
  - assert (K : keyword k = false) by (destruct k; try discriminate C; reflexivity). rewrite K. destruct (existsb (N.eqb 35) (d_syntax d) || _); [apply IH|discriminate].
  - destruct (keyword k); [intros H; apply IH in H; cbn [length]; lia|]. destruct (support cw d k) as [[[] o]|e]; cbn [bind fst]; [apply IH|discriminate|discriminate].
Qed.
Lemma wide_never cw t ks : existsb keyword ks = true -> (1 < length ks)%nat -> supports cw (descriptor t) ks <> Ok true.
Proof.
  intros K L. unfold supports. destruct (scan_tokens cw (descriptor t) ks 0) as [[m|]|e] eqn:E; cbn [bind]; [|discriminate|discriminate]. apply scan_count in E. cbn [Nat.add] in E. subst m. rewrite filter_none, K. apply Nat.ltb_lt in L. now rewrite L.
Qed.
