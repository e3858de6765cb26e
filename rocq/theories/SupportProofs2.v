(** Lemmas for SupportProps.v: support and supports on a written syntax. *)
From Coq Require Import ZArith NArith List Lia.
From Verif Require Import PyBase PyText PySplit PyDict PyCase DatasetModel DatasetProofs SupportModel SupportSpec SupportProofs.
#[local] Open Scope N_scope.
Import ListNotations.

Definition has_type (s : syntax) (n : text) : bool := existsb (fun t => match t with TType m => text_eqb m n | _ => false end) (terms s).
Definition has_fun (s : syntax) (f : text) : bool := existsb (fun t => match t with TFun n _ => text_eqb f (lower n) | _ => false end) (terms s).
Definition has_word (s : syntax) (w : text) : bool := existsb (fun t => match t with TWord v => text_eqb w v && negb (reserved v) | _ => false end) (terms s).

(** ** The descriptor of a written syntax *)
Definition free (x : N) (t : text) : bool := forallb (fun c => negb (c =? x)) t.
Lemma prefix_type nm : forall n m, free 62 nm = true -> free 62 n = true -> starts_with (nm ++ [62]) (n ++ 62 :: m) = text_eqb n nm.
Proof.
  induction nm as [|a nm IH]; intros [|b n] m A B; cbn [app starts_with text_eqb].
  - reflexivity.
  - cbn [free forallb] in B. apply andb_true_iff in B as [B _]. apply negb_true_iff in B. rewrite N.eqb_sym, B. reflexivity.
  - cbn [free forallb] in A. apply andb_true_iff in A as [A _]. apply negb_true_iff in A. rewrite A. reflexivity.
  - cbn [free forallb] in A, B. apply andb_true_iff in A as [_ A]. apply andb_true_iff in B as [_ B]. rewrite (IH n m A B), (N.eqb_sym a b). reflexivity.
Qed.
Lemma prefix_fun nm : forall n m, free 40 nm = true -> free 62 n = true -> starts_with (nm ++ [62]) (n ++ 40 :: m) = false.
Proof.
  induction nm as [|a nm IH]; intros [|b n] m A B; cbn [app starts_with].
  - reflexivity.
  - cbn [free forallb] in B. apply andb_true_iff in B as [B _]. apply negb_true_iff in B. rewrite N.eqb_sym, B. reflexivity.
  - cbn [free forallb] in A. apply andb_true_iff in A as [A _]. apply negb_true_iff in A. rewrite A. reflexivity.
  - cbn [free forallb] in A, B. apply andb_true_iff in A as [_ A]. apply andb_true_iff in B as [_ B]. rewrite (IH n m A B). apply andb_false_r.
Qed.
Lemma prefix_term nm t m : free 62 nm = true -> free 40 nm = true -> wf_term t = true ->
  starts_with (60 :: nm ++ [62]) (term_text t ++ m) = match t with TType n => text_eqb n nm | _ => false end.
Proof.
  intros A B H. destruct t as [n|n a|w]; cbn [wf_term term_text] in *.
  - cbn [app starts_with N.eqb Pos.eqb andb]. rewrite <- app_assoc. apply prefix_type; [exact A|]. revert H. apply forallb_impl. intros c X. apply andb_true_iff in X as [_ X]. cbn [existsb] in X. destruct (c =? 62); [discriminate X|reflexivity].
  - cbn [app starts_with N.eqb Pos.eqb andb]. rewrite <- app_assoc. apply prefix_fun; [exact B|]. apply andb_true_iff in H as [H _]. apply andb_true_iff in H as [_ H]. revert H. apply forallb_impl. intros c X. destruct (name_plain c X) as (_ & Y & _). apply negb_true_iff. now apply N.eqb_neq.
  - destruct w as [|c w]; [discriminate H|]. apply andb_true_iff in H as [H _]. apply andb_true_iff in H as [H _]. cbn [app starts_with]. apply negb_true_iff in H. rewrite N.eqb_sym, H. reflexivity.
Qed.
Lemma typed_flag s nm : wf s -> free 62 nm = true -> free 40 nm = true -> existsb (starts_with (60 :: nm ++ [62])) (components (render s)) = has_type s nm.
Proof.
  intros H A B. rewrite components_render by exact H. apply wf_items in H. unfold has_type, terms. induction (items s) as [|i l IH]; [reflexivity|]. inversion H; subst. cbn [flat_map]. rewrite !existsb_app, IH by assumption. f_equal.
  unfold termed, wf_item, item_text in *. destruct (fst i) as [t|]; [|reflexivity]. cbn [existsb]. f_equal. now apply prefix_term.
Qed.
Lemma dget_map {A} (f : text -> A) keys k : In k keys -> dget (map (fun k => (k, f k)) keys) k = Some (f k).
Proof.
  induction keys as [|a keys IH]; intros H; [easy|]. cbn [map dget]. destruct (text_eqb_spec a k) as [->|E]; [reflexivity|]. destruct H as [->|H]; [easy|auto].
Qed.
Lemma flag_any s : text_eqb (render s) ANY = false -> flag (descriptor (render s)) ANY = Ok false.
Proof. intros H. unfold flag, descriptor. cbn [d_components]. rewrite H. reflexivity. Qed.
Lemma flag_type s k : wf s -> text_eqb (render s) ANY = false -> In (60 :: k ++ [62]) typed_keys -> free 62 k = true -> free 40 k = true -> flag (descriptor (render s)) (60 :: k ++ [62]) = Ok (has_type s k).
Proof.
  intros W H I A B. unfold flag, descriptor. cbn [d_components]. rewrite H. cbn [dget]. change (text_eqb ANY (60 :: k ++ [62])) with false. cbn iota. rewrite (dget_map (fun k => existsb (starts_with k) (components (render s))) _ _ I). now rewrite typed_flag.
Qed.
Lemma function_type n : forallb (fun c => plain c && negb (existsb (N.eqb c) [62; 40])) n = true -> function_name (60 :: n ++ [62]) = None.
Proof.
  intros H. unfold function_name. cbn [N.eqb Pos.eqb]. destruct (match takewhile name_char (n ++ [62]) with [] => false | a :: _ => name_start a end); [|reflexivity].
  assert (X : forallb (fun c => negb (c =? 40)) (dropwhile name_char (n ++ [62])) = true).
  { assert (Y : forallb (fun c => negb (c =? 40)) (n ++ [62]) = true).
    { rewrite forallb_app. apply andb_true_iff. split; [|reflexivity]. revert H. apply forallb_impl. intros c X. apply andb_true_iff in X as [_ X]. cbn [existsb] in X. destruct (c =? 40); [|reflexivity]. rewrite orb_true_r in X. discriminate X. }
    revert Y. generalize (n ++ [62]). clear. induction l as [|c l IH]; [reflexivity|]. cbn [forallb dropwhile]. intros Y. destruct (name_char c); [apply IH; now apply andb_true_iff in Y|exact Y]. }
  destruct (dropwhile name_char (n ++ [62])) as [|p r]; [reflexivity|]. cbn [forallb] in X. apply andb_true_iff in X as [X _]. apply negb_true_iff in X. now rewrite X.
Qed.
Lemma function_fun n a : wf_term (TFun n a) = true -> function_name (term_text (TFun n a)) = Some n.
Proof.
  cbn [wf_term term_text]. intros H. apply andb_true_iff in H as [H Ha]. apply andb_true_iff in H as [Hs Hn]. unfold function_name. cbn [N.eqb Pos.eqb].
  rewrite takewhile_app, dropwhile_app_stop by (exact Hn || reflexivity). rewrite Hs. cbn [N.eqb Pos.eqb andb].
  rewrite dropwhile_app_stop; [reflexivity| |reflexivity]. revert Ha. apply forallb_impl. intros c X. now apply andb_true_iff in X.
Qed.
Lemma function_word w : wf_term (TWord w) = true -> function_name w = None.
Proof.
  cbn [wf_term]. destruct w as [|c w]; [discriminate|]. intros H. apply andb_true_iff in H as [H _]. apply andb_true_iff in H as [H _]. apply negb_true_iff in H. cbn [function_name]. now rewrite H.
Qed.
Lemma functions_render s f : wf s -> mem f (d_functions (descriptor (render s))) = text_eqb f (lit "var") || has_fun s f.
Proof.
  intros H. unfold descriptor. cbn [d_functions]. rewrite stripped_render by exact H. unfold mem. cbn [existsb]. f_equal. unfold has_fun. unfold wf in H. induction (terms s) as [|t l IH]; [reflexivity|]. inversion H as [|? ? Ht Hl]; subst. cbn [map flat_map existsb]. rewrite existsb_app, IH by assumption. f_equal.
  destruct t as [n|n a|w].
  - cbn [term_text]. rewrite function_type by exact Ht. reflexivity.
  - rewrite function_fun by exact Ht. cbn [existsb]. apply orb_false_r.
  - cbn [term_text]. rewrite function_word by exact Ht. reflexivity.
Qed.
Lemma identifiers_render s v : wf s -> mem v (d_identifiers (descriptor (render s))) = has_word s v.
Proof.
  intros H. unfold descriptor. cbn [d_identifiers]. rewrite stripped_render by exact H. unfold mem, has_word. unfold wf in H. induction (terms s) as [|t l IH]; [reflexivity|]. inversion H as [|? ? Ht Hl]; subst. specialize (IH Hl). cbn [map filter existsb].
  destruct t as [n|n a|w]; cbn [term_text hd]; try exact IH.
  cbn [wf_term] in Ht. destruct w as [|c w]; [discriminate Ht|]. apply andb_true_iff in Ht as [Ht L]. apply andb_true_iff in Ht as [Hc _]. cbn [hd]. rewrite Hc. cbn [andb].
  apply negb_true_iff in L. cbn [existsb] in L. apply orb_false_iff in L as [L _]. rewrite L. cbn [negb andb].
  assert (R : existsb (text_eqb (lower (c :: w))) (color_keywords ++ wide_keywords) = reserved (c :: w)) by reflexivity. rewrite R. destruct (reserved (c :: w)); cbn [negb existsb]; [rewrite andb_false_r; exact IH|]. now rewrite andb_true_r, IH.
Qed.

(** ** The specification, sorted by kind of term *)
Lemma mem_fits s F : existsb (fun t => match t with TType n => mem n F | _ => false end) (terms s) = existsb (has_type s) F.
Proof.
  apply eq_iff_eq_true. rewrite !existsb_exists. split.
  - intros (t & I & E). destruct t as [n| |]; try discriminate. apply mem_in in E. exists n. split; [exact E|]. unfold has_type. rewrite existsb_exists. exists (TType n). split; [exact I|apply text_eqb_refl].
  - intros (n & I & E). unfold has_type in E. rewrite existsb_exists in E. destruct E as (t & J & E). exists t. split; [exact J|]. destruct t as [m| |]; try discriminate. destruct (text_eqb_spec m n) as [->|]; [|discriminate]. now apply mem_in.
Qed.
Lemma accepts_split cw s k : existsb (fun t => accepts cw t k) (terms s) =
  existsb (has_type s) (fits cw k) ||
  match k with
  | KFun f => has_fun s f && match builtin f with [] => true | _ => false end
  | KIdent v | KString v | KLit v => has_word s v
  | _ => false
  end.
Proof.
  rewrite <- mem_fits. unfold has_fun, has_word. generalize (terms s). induction l as [|t l IH]; [cbn [existsb]; destruct k; reflexivity|]. cbn [existsb]. rewrite IH. clear IH. destruct t as [n|n a|w]; cbn [accepts].
  - destruct k; cbn [orb]; rewrite ?orb_false_r, ?orb_assoc; reflexivity.
  - destruct k; cbn [orb]; try reflexivity. rewrite andb_orb_distrib_l. destruct (text_eqb name (lower n) && match builtin name with [] => true | _ => false end); cbn [orb]; [now rewrite orb_true_r|reflexivity].
  - destruct k; cbn [orb]; try reflexivity; destruct (text_eqb v w && negb (reserved w)); cbn [orb]; try reflexivity; now rewrite orb_true_r.
Qed.

Definition named (k : text) : text := 60 :: k ++ [62].
Definition type_of_answer (cw : text -> bool) (s : syntax) (k : stok) (o : option text) : Prop :=
  match o with
  | None => universal k = true \/ exists f, k = KFun f /\ has_fun s f = true
  | Some ty => (exists n, ty = named n /\ has_type s n = true /\ In n (fits cw k)) \/
      ty = named (lit "custom-ident") /\
      match k with
      | KIdent v | KString v => has_word s v = true \/ has_type s (lit "string") = true \/ (has_type s (lit "color") = true /\ lower v = lit "currentcolor")
      | KLit v => has_word s v = true
      | KNum _ => has_type s (lit "string") = true
      | _ => False
      end
  end.

Lemma length_units_split u : mem u angle_units = false -> mem u time_units = false -> mem u resolution_units = false ->
  mem u length_units = mem u (words ["em"; "ex"; "cap"; "ch"; "ic"; "rem"; "lh"; "rlh"; "vw"; "vh"; "vi"; "vb"; "vmin"; "vmax"; "cm"; "mm"; "q"; "in"; "pt"; "pc"; "px"; "hz"; "khz"; "fr"]%string).
Proof.
  intros A B C. unfold length_units.
  change (map lit ["em"; "ex"; "cap"; "ch"; "ic"; "rem"; "lh"; "rlh"; "vw"; "vh"; "vi"; "vb"; "vmin"; "vmax"; "cm"; "mm"; "q"; "in"; "pt"; "pc"; "px"; "deg"; "grad"; "rad"; "turn"; "s"; "ms"; "hz"; "khz"; "dpi"; "dpcm"; "dppx"; "fr"]%string)
    with (words ["em"; "ex"; "cap"; "ch"; "ic"; "rem"; "lh"; "rlh"; "vw"; "vh"; "vi"; "vb"; "vmin"; "vmax"; "cm"; "mm"; "q"; "in"; "pt"; "pc"; "px"]%string ++ angle_units ++ time_units ++ words ["hz"; "khz"]%string ++ resolution_units ++ words ["fr"%string]).
  change (words ["em"; "ex"; "cap"; "ch"; "ic"; "rem"; "lh"; "rlh"; "vw"; "vh"; "vi"; "vb"; "vmin"; "vmax"; "cm"; "mm"; "q"; "in"; "pt"; "pc"; "px"; "hz"; "khz"; "fr"]%string)
    with (words ["em"; "ex"; "cap"; "ch"; "ic"; "rem"; "lh"; "rlh"; "vw"; "vh"; "vi"; "vb"; "vmin"; "vmax"; "cm"; "mm"; "q"; "in"; "pt"; "pc"; "px"]%string ++ words ["hz"; "khz"]%string ++ words ["fr"%string]).
  unfold mem in *. rewrite !existsb_app, A, B, C. reflexivity.
Qed.
Lemma hex_same v : hex_color v = forallb hex_digit v && hex_lengths v.
Proof. unfold hex_color, hex_lengths. cbn [existsb]. f_equal. destruct (length v =? 8)%nat, (length v =? 6)%nat, (length v =? 4)%nat, (length v =? 3)%nat; reflexivity. Qed.

Lemma ident_case s cw v d k : k = KIdent v \/ k = KString v ->
  (forall v, mem v (d_identifiers d) = has_word s v) ->
  flag d ANY = Ok false -> flag d COLOR = Ok (has_type s (lit "color")) -> flag d CUSTOM_IDENT = Ok (has_type s (lit "custom-ident")) -> flag d STRING = Ok (has_type s (lit "string")) ->
  exists o, support cw d k = Ok (universal k || (existsb (has_type s) (fits cw k) || has_word s v), o) /\ (universal k || (existsb (has_type s) (fits cw k) || has_word s v) = true -> type_of_answer cw s k o).
Proof.
  intros K ID F0 F1 F2 F3.
  assert (X : exists o, (if mem (lower v) wide_keywords then Ok (true, None)
      else if mem v (d_identifiers d) then yes CUSTOM_IDENT
      else do b <- flags d [ANY; COLOR];
        if b && text_eqb (lower v) (lit "currentcolor") then yes CUSTOM_IDENT
        else if b && cw v then yes COLOR else when d [ANY; CUSTOM_IDENT; STRING] CUSTOM_IDENT no)
      = Ok (wide v || (existsb (has_type s) (fits cw (KIdent v)) || has_word s v), o) /\ (wide v || (existsb (has_type s) (fits cw (KIdent v)) || has_word s v) = true -> type_of_answer cw s (KIdent v) o)).
  2: { destruct K as [-> | ->]; [exact X|]. destruct X as (o & X & T). exists o. split; [exact X|]. intros H. specialize (T H). destruct o as [ty|]; [exact T|]. left. destruct T as [T|(f & T & _)]; [exact T|discriminate]. }
  change (wide v) with (mem (lower v) wide_keywords). destruct (mem (lower v) wide_keywords) eqn:EW; cbn [orb]; [eexists; split; [reflexivity|]; intros _; left; exact EW|].
  rewrite ID. destruct (has_word s v) eqn:EH; [rewrite orb_true_r; eexists; split; [reflexivity|]; intros _; right; auto|]. rewrite orb_false_r.
  unfold when, flags. rewrite F0, F1, F2, F3. cbn [bind]. cbn [fits]. rewrite existsb_app. cbn [words map existsb].
  destruct (has_type s (lit "color")) eqn:EC, (text_eqb (lower v) (lit "currentcolor")) eqn:EV, (cw v) eqn:EW', (has_type s (lit "custom-ident")) eqn:EI, (has_type s (lit "string")) eqn:ES; cbn [bind orb andb map existsb]; rewrite ?EC; cbn [orb]; eexists; (split; [reflexivity|]); intros; try discriminate;
  first [ right; split; [reflexivity|]; destruct (text_eqb_spec (lower v) (lit "currentcolor")); try discriminate; tauto
        | left; exists (lit "color"); split; [reflexivity|]; split; [exact EC|]; cbn [fits]; rewrite EV, EW'; cbn; tauto
        | left; exists (lit "custom-ident"); split; [reflexivity|]; split; [exact EI|]; cbn; tauto
        | right; split; [reflexivity|]; tauto ].
Qed.
Lemma support_render cw s k : wf s -> text_eqb (render s) ANY = false ->
  match broken k with
  | Some e => support cw (descriptor (render s)) k = Err e
  | None => exists o, support cw (descriptor (render s)) k = Ok (accepted cw s k, o) /\ (accepted cw s k = true -> type_of_answer cw s k o)
  end.
Proof.
  intros W A. assert (F0 := flag_any s A).
  assert (FT : forall x, In (named x) typed_keys -> free 62 x = true -> free 40 x = true -> flag (descriptor (render s)) (named x) = Ok (has_type s x)) by (intros; now apply flag_type).
  assert (G : forall x, mem (named x) typed_keys && free 62 x && free 40 x = true -> flag (descriptor (render s)) (named x) = Ok (has_type s x)).
  { intros x X. apply andb_true_iff in X as [X Z]. apply andb_true_iff in X as [X Y]. apply mem_in in X. auto. }
  assert (F1 : flag (descriptor (render s)) LENGTH = _) by (apply (G (lit "length") eq_refl)).
  assert (F2 : flag (descriptor (render s)) NUMBER = _) by (apply (G (lit "number") eq_refl)).
  assert (F3 : flag (descriptor (render s)) PERCENTAGE = _) by (apply (G (lit "percentage") eq_refl)).
  assert (F4 : flag (descriptor (render s)) LENGTH_PERCENTAGE = _) by (apply (G (lit "length-percentage") eq_refl)).
  assert (F5 : flag (descriptor (render s)) COLOR = _) by (apply (G (lit "color") eq_refl)).
  assert (F6 : flag (descriptor (render s)) IMAGE = _) by (apply (G (lit "image") eq_refl)).
  assert (F7 : flag (descriptor (render s)) URL = _) by (apply (G (lit "url") eq_refl)).
  assert (F8 : flag (descriptor (render s)) INTEGER = _) by (apply (G (lit "integer") eq_refl)).
  assert (F9 : flag (descriptor (render s)) ANGLE = _) by (apply (G (lit "angle") eq_refl)).
  assert (F10 : flag (descriptor (render s)) TIME = _) by (apply (G (lit "time") eq_refl)).
  assert (F11 : flag (descriptor (render s)) RESOLUTION = _) by (apply (G (lit "resolution") eq_refl)).
  assert (F12 : flag (descriptor (render s)) TRANSFORM_FUNCTION = _) by (apply (G (lit "transform-function") eq_refl)).
  assert (F13 : flag (descriptor (render s)) CUSTOM_IDENT = _) by (apply (G (lit "custom-ident") eq_refl)).
  assert (F14 : flag (descriptor (render s)) TRANSFORM_LIST = _) by (apply (G (lit "transform-list") eq_refl)).
  assert (F15 : flag (descriptor (render s)) STRING = _) by (apply (G (lit "string") eq_refl)).
  clear FT G.
  assert (FN := fun f => functions_render s f W). assert (ID := fun v => identifiers_render s v W).
  set (d := descriptor (render s)) in *. clearbody d.
  assert (Y : forall n o, o = named n -> has_type s n = true -> In n (fits cw k) -> type_of_answer cw s k (Some o)) by (intros n o -> X Z; left; eauto).
  unfold accepted. rewrite accepts_split.
  destruct k as [u|f|v|v|v|v|i| | | |]; [| | |apply (ident_case s cw v _ (KIdent v)); auto|apply (ident_case s cw v _ (KString v)); auto| | | | | |]; cbn [broken support universal fits] in *; try reflexivity; unfold when, flags; rewrite ?F0, ?F1, ?F2, ?F3, ?F4, ?F5, ?F6, ?F7, ?F8, ?F9, ?F10, ?F11, ?F12, ?F13, ?F14, ?F15; cbn [bind orb andb].
  - (* dimension *) unfold unit_types in *. change (words ["deg"; "grad"; "rad"; "turn"]%string) with angle_units in *. change (words ["s"; "ms"]%string) with time_units in *. change (words ["dpi"; "dpcm"; "dppx"]%string) with resolution_units in *.
    destruct (mem u angle_units) eqn:E1; [|destruct (mem u time_units) eqn:E2; [|destruct (mem u resolution_units) eqn:E3; [|rewrite <- (length_units_split u E1 E2 E3) in *; destruct (mem u length_units)]]]; cbn [words map existsb] in *.
    + destruct (has_type s (lit "angle")) eqn:E; cbn [orb]; eexists; (split; [reflexivity|]); intros; try discriminate; eapply Y; eauto; try reflexivity; now left.
    + destruct (has_type s (lit "time")) eqn:E; cbn [orb]; eexists; (split; [reflexivity|]); intros; try discriminate; eapply Y; eauto; try reflexivity; now left.
    + destruct (has_type s (lit "resolution")) eqn:E; cbn [orb]; eexists; (split; [reflexivity|]); intros; try discriminate; eapply Y; eauto; try reflexivity; now left.
    + destruct (has_type s (lit "length")) eqn:E; cbn [orb]; [|destruct (has_type s (lit "length-percentage")) eqn:E'; cbn [orb]]; eexists; (split; [reflexivity|]); intros; try discriminate.
      * eapply Y; [|exact E|]; [reflexivity|now left].
      * eapply Y; [|exact E'|]; [reflexivity|right; now left].
    + eexists; (split; [reflexivity|]); intros; discriminate.
  - (* function *) rewrite FN. unfold builtin in *.
    change (words ["rgb"; "rgba"; "hsl"; "hsla"; "hwb"; "gray"; "device-cmyk"]%string) with color_functions in *.
    change (words ["cross-fade"; "image"; "image-set"; "conic-gradient"; "linear-gradient"; "radial-gradient"; "repeating-conic-gradient"; "repeating-linear-gradient"; "repeating-radial-gradient"]%string) with image_functions in *.
    change (words ["calc"; "min"; "max"; "clamp"]%string) with math_functions in *.
    change (words ["matrix"; "translate"; "translatex"; "translatey"; "scale"; "scalex"; "scaley"; "rotate"; "skew"; "skewx"; "skewy"]%string) with transform_functions in *.
    assert (NV : forall l, mem f l = true -> mem (lit "var") l = false -> text_eqb f (lit "var") = false) by (intros l X Z; destruct (text_eqb_spec f (lit "var")) as [->|]; [congruence|reflexivity]).
    destruct (mem f color_functions) eqn:E1; [rewrite (NV _ E1 eq_refl)|destruct (mem f image_functions) eqn:E2; [rewrite (NV _ E2 eq_refl)|destruct (mem f math_functions) eqn:E3; [rewrite (NV _ E3 eq_refl)|destruct (mem f transform_functions) eqn:E4; [rewrite (NV _ E4 eq_refl)|]]]]; cbn [words map existsb orb] in *; rewrite ?andb_false_r, ?andb_true_r, ?orb_false_r.
    + destruct (has_type s (lit "color")) eqn:E; eexists; (split; [reflexivity|]); intros; try discriminate; eapply Y; eauto; try reflexivity; now left.
    + destruct (has_type s (lit "image")) eqn:E; eexists; (split; [reflexivity|]); intros; try discriminate; eapply Y; eauto; try reflexivity; now left.
    + destruct (has_type s (lit "length-percentage")) eqn:E; eexists; (split; [reflexivity|]); intros; try discriminate; eapply Y; eauto; try reflexivity; now left.
    + destruct (has_type s (lit "transform-function")) eqn:E; cbn [orb]; [|destruct (has_type s (lit "transform-list")) eqn:E'; cbn [orb]]; eexists; (split; [reflexivity|]); intros; try discriminate.
      * eapply Y; [|exact E|]; [reflexivity|now left].
      * eapply Y; [|exact E'|]; [reflexivity|right; now left].
    + destruct (text_eqb f (lit "var")) eqn:EV, (has_fun s f) eqn:EF; cbn [orb]; eexists; (split; [reflexivity|]); intros; try discriminate; cbn [type_of_answer universal]; eauto.
  - (* hash *) rewrite hex_same. destruct (forallb hex_digit v && hex_lengths v); cbn [words map existsb] in *; destruct (has_type s (lit "color")) eqn:E; cbn [bind orb andb]; eexists; (split; [reflexivity|]); intros; try discriminate. eapply Y; eauto; [reflexivity|now left].
  - (* literal *) rewrite ID. cbn [words map existsb] in *. destruct (has_word s v) eqn:EW; [|destruct (has_type s (lit "custom-ident")) eqn:E]; cbn [bind orb]; rewrite ?orb_true_r; eexists; (split; [reflexivity|]); intros; try discriminate.
    + right. auto.
    + eapply Y; eauto; [reflexivity|now left].
  - (* number *) rewrite !existsb_app. cbn [words map existsb app] in *.
    destruct (has_type s (lit "integer")) eqn:E1, (has_type s (lit "number")) eqn:E2, (has_type s (lit "length")) eqn:E3, (has_type s (lit "length-percentage")) eqn:E4, (has_type s (lit "custom-ident")) eqn:E5, (has_type s (lit "string")) eqn:E6, i; cbn [words map existsb bind orb app] in *; rewrite ?E1; cbn [bind orb]; eexists; (split; [reflexivity|]); intros; try discriminate;
    first [eapply Y; [|exact E1|]; [reflexivity|cbn; tauto] | eapply Y; [|exact E2|]; [reflexivity|cbn; tauto] | eapply Y; [|exact E3|]; [reflexivity|cbn; tauto] | eapply Y; [|exact E4|]; [reflexivity|cbn; tauto] | eapply Y; [|exact E5|]; [reflexivity|cbn; tauto] | right; auto].
  - (* percentage *) cbn [words map existsb] in *. destruct (has_type s (lit "percentage")) eqn:E; [|destruct (has_type s (lit "length-percentage")) eqn:E']; cbn [bind orb]; eexists; (split; [reflexivity|]); intros; try discriminate.
    + eapply Y; [|exact E|]; [reflexivity|now left].
    + eapply Y; [|exact E'|]; [reflexivity|right; now left].
  - (* url *) cbn [words map existsb] in *. destruct (has_type s (lit "url")) eqn:E; [|destruct (has_type s (lit "image")) eqn:E']; cbn [bind orb]; eexists; (split; [reflexivity|]); intros; try discriminate.
    + eapply Y; [|exact E|]; [reflexivity|now left].
    + eapply Y; [|exact E'|]; [reflexivity|right; now left].
Qed.
