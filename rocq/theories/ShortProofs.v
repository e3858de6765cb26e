(** Proofs about declaration maps and shorthands. *)
From Verif Require Import PyBase PyText PySplit PyDict PyCase ShortModel ShortSpec.
From Coq Require Import Lia.
Local Open Scope nat_scope.

Lemma ok_word c : css_ok c -> forall w, word w = true -> cparse c w = [mkC CIdent w].
Proof. intros O w W. apply (ok_words c O [w]). now constructor. Qed.
Lemma ok_two c : css_ok c -> forall a b, word a = true -> word b = true -> cparse c (a ++ [32%N] ++ b) = [mkC CIdent a; mkC CWs [32%N]; mkC CIdent b].
Proof. intros O a b A B. apply (ok_words c O [a; b]). repeat constructor; assumption. Qed.
Lemma dget_app {V} (a b : dict V) k : dget (a ++ b) k = match dget a k with Some v => Some v | None => dget b k end.
Proof. induction a as [|[x v] a IH]; cbn; [reflexivity|]. destruct (text_eqb x k); [reflexivity|exact IH]. Qed.
Lemma dget_dset_end {V} (d : dict V) k v k' : dict_ok d ->
  dget (dset_end d k v) k' = if text_eqb k k' then Some v else dget d k'.
Proof.
  intros D. unfold dset_end. rewrite dget_app, (dget_ddel d k k' D). cbn. destruct (text_eqb k k'); [reflexivity|].
  destruct (dget d k'); reflexivity.
Qed.
Lemma nodup_snoc_text k (l : list text) : NoDup l -> ~ In k l -> NoDup (l ++ [k]).
Proof.
  intros H1 H2. apply NoDup_Add with (a := k) (l := l); [|now split].
  rewrite <- (app_nil_r l) at 1. apply Add_app.
Qed.
Lemma dset_end_keys {V} (d : dict V) k v : dkeys (dset_end d k v) = dkeys (ddel d k) ++ [k].
Proof. unfold dset_end, dkeys. rewrite map_app. reflexivity. Qed.
Lemma dset_end_ok {V} (d : dict V) k v : dict_ok d -> dict_ok (dset_end d k v).
Proof.
  intros D. unfold dict_ok. rewrite dset_end_keys. apply nodup_snoc_text; [apply ddel_ok; exact D|].
  rewrite ddel_keys by exact D. rewrite filter_In, text_eqb_refl. intros [_ H]. discriminate.
Qed.

Lemma set_map_spec cm : forall d p, dict_ok d -> dict_ok cm ->
  dict_ok (set_map d cm p) /\
  (forall k, dget (set_map d cm p) k = match dget cm k with Some l => Some (strip (serialize l), p) | None => dget d k end) /\
  dkeys (set_map d cm p) = filter (fun x => negb (mem x (dkeys cm))) (dkeys d) ++ dkeys cm.
Proof.
  unfold set_map. induction cm as [|[k l] cm IH]; intros d p D C; cbn [fold_left fst snd].
  - split; [exact D|]. split; [reflexivity|]. cbn. rewrite app_nil_r.
    symmetry. induction (dkeys d) as [|x r IHr]; cbn; [reflexivity|now rewrite IHr].
  - unfold dict_ok in C. cbn in C. inversion C as [|? ? Nk Ncm]; subst.
    destruct (IH (dset_end d k (strip (serialize l), p)) p) as (A & B & E); [apply dset_end_ok; exact D|exact Ncm|].
    split; [exact A|]. split.
    + intros k'. rewrite B. cbn [dget]. rewrite dget_dset_end by exact D.
      destruct (text_eqb_spec k k') as [->|]; [|reflexivity].
      apply dget_keys in Nk. rewrite Nk. reflexivity.
    + rewrite E, dset_end_keys, ddel_keys by exact D.
      rewrite filter_app. cbn [dkeys map fst].
      assert (Ek : mem k (dkeys cm) = false) by (apply mem_not_in; exact Nk).
      cbn [filter]. rewrite Ek. cbn [negb]. rewrite <- app_assoc. f_equal.
      clear. induction (dkeys d) as [|x r IHr]; [reflexivity|]. cbn [filter].
      change (mem x (k :: map fst cm)) with (text_eqb x k || mem x (map fst cm)).
      destruct (text_eqb x k); cbn [negb orb]; [exact IHr|]. cbn [filter].
      unfold dkeys. destruct (mem x (map fst cm)); cbn [negb]; [exact IHr|f_equal; exact IHr].
Qed.

Lemma fill_spec ps f : forall cm, dict_ok cm ->
  dict_ok (fill ps f cm) /\
  forall k, dget (fill ps f cm) k = match dget cm k with Some l => Some l | None => if mem k ps then Some (f k) else None end.
Proof.
  unfold fill. induction ps as [|p ps IH]; intros cm C; cbn [fold_left].
  - split; [exact C|]. intros k. destruct (dget cm k); reflexivity.
  - unfold dhas at 2 4. destruct (dget cm p) eqn:E.
    + destruct (IH cm C) as [A B]. split; [exact A|]. intros k. rewrite B. destruct (dget cm k) eqn:Ek; [reflexivity|].
      cbn. destruct (text_eqb_spec k p) as [->|]; [congruence|reflexivity].
    + destruct (IH (dset cm p (f p))) as [A B]; [apply dset_ok; exact C|]. split; [exact A|]. intros k. rewrite B.
      rewrite dget_dset. cbn. destruct (text_eqb_spec p k) as [->|Np].
      * rewrite E, text_eqb_refl. reflexivity.
      * destruct (text_eqb_spec k p); [congruence|]. reflexivity.
Qed.
Lemma fill_nil ps f : NoDup ps -> fill ps f [] = map (fun p => (p, f p)) ps.
Proof.
  intros N. unfold fill.
  assert (G : forall cm : dict (list comp), (forall p, In p ps -> dget cm p = None) ->
    fold_left (fun m p => if dhas m p then m else dset m p (f p)) ps cm = cm ++ map (fun p => (p, f p)) ps).
  { induction ps as [|p ps IH]; intros cm H; [cbn; now rewrite app_nil_r|].
    inversion N as [|? ? Np N']; subst. cbn [fold_left map]. unfold dhas at 2. rewrite (H p) by (now left).
    assert (E : dset cm p (f p) = cm ++ [(p, f p)]).
    { assert (Hp := H p (or_introl eq_refl)). clear -Hp. induction cm as [|[a b] cm IH]; cbn in *; [reflexivity|].
      destruct (text_eqb a p); [discriminate|]. now rewrite IH. }
    rewrite IH; [rewrite E, <- app_assoc; reflexivity|exact N'|].
    intros q Hq. rewrite dget_dset. destruct (text_eqb_spec p q) as [->|]; [contradiction|]. apply H. now right. }
  rewrite G; [reflexivity|]. reflexivity.
Qed.

Lemma parse_component_keys c p comps cm w rest cm' w' : dict_ok cm ->
  parse_component_list c p comps cm w = Ok (rest, cm', w') ->
  dict_ok cm' /\ forall k, In k (dkeys cm') -> In k (dkeys cm) \/ k = p.
Proof.
  intros C. unfold parse_component_list. destruct (scan c p comps [] false None w) as [[[r t] w1]|e]; cbn; [|discriminate].
  intros E. injection E as <- <- <-. destruct t as [[|x l]|]; try (split; [exact C|tauto]).
  split; [apply dset_ok; exact C|]. intros k. rewrite dset_keys. destruct (dhas cm p); [tauto|].
  rewrite in_app_iff. cbn. intuition.
Qed.
Lemma parse_each_keys c ps : forall comps cm w rest cm' w', dict_ok cm ->
  parse_each c ps comps cm w = Ok (rest, cm', w') ->
  dict_ok cm' /\ forall k, In k (dkeys cm') -> In k (dkeys cm) \/ In k ps.
Proof.
  induction ps as [|p ps IH]; intros comps cm w rest cm' w' C; cbn [parse_each].
  - intros E. injection E as <- <- <-. split; [exact C|tauto].
  - destruct (parse_component_list c p comps cm w) as [[[r1 cm1] w1]|e] eqn:E1; cbn; [|discriminate].
    intros E. apply parse_component_keys in E1 as [C1 K1]; [|exact C].
    apply IH in E as [C2 K2]; [|exact C1]. split; [exact C2|]. intros k Hk. apply K2 in Hk as [Hk|Hk]; [apply K1 in Hk as [?|?]|]; cbn; auto.
Qed.

(* a components map that has exactly the given properties *)
Definition covers (cm : dict (list comp)) (ps : list text) : Prop :=
  dict_ok cm /\ forall k, (exists l, dget cm k = Some l) <-> In k ps.
Lemma fill_covers ps f cm : dict_ok cm -> (forall k, In k (dkeys cm) -> In k ps) -> covers (fill ps f cm) ps.
Proof.
  intros C K. destruct (fill_spec ps f cm C) as [A B]. split; [exact A|]. intros k. rewrite B.
  destruct (dget cm k) eqn:E.
  - split; [intros _; apply K; apply dget_some_keys; eexists; exact E|intros _; now eexists].
  - destruct (mem k ps) eqn:M; [rewrite mem_in in M|rewrite mem_not_in in M]; split; intros H.
    + exact M. + now eexists. + destruct H; discriminate. + contradiction.
Qed.
Lemma parse_css_covers c ps comps cm : parse_css_declaration c ps comps = Ok cm -> covers cm ps.
Proof.
  unfold parse_css_declaration. destruct (parse_each c ps comps [] []) as [[[r m] w]|e] eqn:E; cbn; [|discriminate].
  apply parse_each_keys in E as [C K]; [|constructor].
  assert (K' : forall k, In k (dkeys m) -> In k ps) by (intros k Hk; destruct (K k Hk) as [[]|]; assumption).
  destruct w as [|k [|k2 w]]; intros H; injection H as <-; apply fill_covers; try assumption; try constructor; intros ? [].
Qed.
Lemma finish_covers c ps cm w m : dict_ok cm -> (forall k, In k (dkeys cm) -> In k ps) ->
  finish_wide c ps cm w = Some m -> covers m ps.
Proof.
  intros C K. unfold finish_wide. destruct w as [|k [|k2 w]]; intros H; try discriminate; injection H as <-;
    apply fill_covers; try assumption; try constructor; intros ? [].
Qed.
Lemma font_variant_covers c comps cm : font_variant_map c comps = Ok cm -> covers cm l_font_variant.
Proof.
  unfold font_variant_map. destruct (_ || _); [|apply parse_css_covers]. intros H. injection H as <-.
  split; [vm_compute; repeat constructor; cbn; intuition discriminate|]. intros k. rewrite dget_some_keys.
  unfold dkeys. cbn [map fst l_font_variant]. reflexivity.
Qed.

(* a set of declarations was written, and nothing else *)
Definition wrote (d d' : decls) (prio : text) (ps : list text) : Prop :=
  dict_ok d' /\
  (forall k, In k ps -> exists v, dget d' k = Some (v, prio)) /\
  (forall k, ~ In k ps -> dget d' k = dget d k).
Lemma set_map_wrote d cm p ps : dict_ok d -> covers cm ps -> wrote d (set_map d cm p) p ps.
Proof.
  intros D [C K]. destruct (set_map_spec cm d p D C) as (A & B & _). split; [exact A|]. split.
  - intros k Hk. rewrite B. apply K in Hk as [l ->]. now eexists.
  - intros k Hk. rewrite B. destruct (dget cm k) eqn:E; [|reflexivity]. destruct Hk. apply K. eexists; exact E.
Qed.
Lemma covers_ext cm ps qs : covers cm ps -> (forall k, In k ps <-> In k qs) -> covers cm qs.
Proof. intros [C K] H. split; [exact C|]. intros k. rewrite K. apply H. Qed.
Lemma two_covers a b (x y : list comp) : a <> b -> covers [(a, x); (b, y)] [a; b].
Proof.
  intros N. split; [repeat constructor; cbn; intuition congruence|]. intros k. rewrite dget_some_keys. reflexivity.
Qed.

Lemma ok_some {A} (a b : A) : Ok (Some a) = Ok (Some b) -> a = b.
Proof. congruence. Qed.
Lemma sh_set_wrote c s d comps p d' : dict_ok d -> sh_set c s d comps p = Ok (Some d') -> wrote d d' p (leaves s).
Proof.
  intros D. destruct s; cbn [sh_set].
  - destruct (parse_css_declaration c l_font comps) as [cm|e] eqn:E; cbn [bind]; [|discriminate].
    destruct (font_variant_map c _) as [vm|e] eqn:E2; cbn [bind]; [|discriminate].
    intros H. apply ok_some in H. subst d'.
    apply parse_css_covers in E as [C K]. apply font_variant_covers in E2.
    destruct (set_map_wrote d vm p _ D E2) as (D1 & A1 & B1).
    match goal with |- wrote _ (set_map _ ?m _) _ _ => set (cm' := m) end.
    assert (Ccm : covers cm' [lit "font-style"; lit "font-weight"; lit "font-stretch"; lit "font-size"; lit "line-height"; lit "font-family"]).
    { split; [apply dset_ok, ddel_ok, ddel_ok; exact C|]. intros k. unfold cm'. rewrite dget_dset.
      destruct (text_eqb_spec (lit "font-stretch") k) as [<-|N1].
      - split; [intros _; right; right; left; reflexivity|intros _; now eexists].
      - rewrite dget_ddel by (apply ddel_ok; exact C). rewrite dget_ddel by exact C.
        destruct (text_eqb_spec (lit "font-stretch-css3") k) as [<-|N2];
          [split; [intros [l Hl]; discriminate|intros Hk; exfalso; cbn [In] in Hk; repeat (destruct Hk as [Hk|Hk]; [vm_compute in Hk; discriminate Hk|]); exact Hk]|].
        destruct (text_eqb_spec (lit "font-variant-css2") k) as [<-|N3];
          [split; [intros [l Hl]; discriminate|intros Hk; exfalso; cbn [In] in Hk; repeat (destruct Hk as [Hk|Hk]; [vm_compute in Hk; discriminate Hk|]); exact Hk]|].
        rewrite K. unfold l_font. cbn [In]. intuition congruence. }
    destruct (set_map_wrote (set_map d vm p) cm' p _ D1 Ccm) as (D2 & A2 & B2).
    split; [exact D2|]. split.
    + intros k Hk. cbn [leaves] in Hk. apply in_app_or in Hk as [Hk|Hk]; [apply A2; exact Hk|].
      destruct (in_dec (list_eq_dec BinNat.N.eq_dec) k [lit "font-style"; lit "font-weight"; lit "font-stretch"; lit "font-size"; lit "line-height"; lit "font-family"]) as [I|I];
        [apply A2; exact I|]. rewrite (B2 k I). apply A1. exact Hk.
    + intros k Hk. cbn [leaves] in Hk. rewrite in_app_iff in Hk. rewrite B2 by tauto. apply B1. intros I. apply Hk. right. exact I.
  - destruct (font_synthesis_values c comps) as [w s]. intros H. apply ok_some in H. subst d'. apply set_map_wrote; [exact D|].
    apply two_covers. vm_compute. discriminate.
  - destruct (font_variant_map c comps) as [vm|e] eqn:E2; cbn [bind]; [|discriminate].
    intros H. apply ok_some in H. subst d'. apply font_variant_covers in E2. apply set_map_wrote; assumption.
  - destruct (parse_each c l_mask comps [] []) as [[[r cm0] w]|e] eqn:E; cbn [bind]; [|discriminate].
    apply parse_each_keys in E as [C K]; [|constructor].
    assert (K' : forall k, In k (dkeys cm0) -> In k l_mask) by (intros k Hk; destruct (K k Hk) as [[]|]; assumption).
    cbv zeta. match goal with |- context [finish_wide c l_mask ?m w] => set (cm := m) end.
    assert (G : dict_ok cm /\ forall k, In k (dkeys cm) -> In k l_mask).
    { assert (Gw : forall m : dict (list comp), dict_ok m -> (forall k, In k (dkeys m) -> In k l_mask) ->
        let cm := match dget m (lit "mask-origin") with
                | Some o =>
                    match filter not_ws o, dget m (lit "mask-clip") with
                    | [a], None => dset m (lit "mask-clip") [a]
                    | [a; b], None => dset (dset m (lit "mask-origin") [a]) (lit "mask-clip") [b]
                    | _ :: _ :: _, _ => ddel m (lit "mask-origin")
                    | _, _ => m
                    end
                | None => m
                end in dict_ok cm /\ forall k, In k (dkeys cm) -> In k l_mask).
      { intros m Cm Km. cbv zeta.
        assert (S1 : forall (m : dict (list comp)) q v, In q l_mask -> (forall k, In k (dkeys m) -> In k l_mask) -> forall k, In k (dkeys (dset m q v)) -> In k l_mask).
        { intros m0 q v Hq Hm k. rewrite dset_keys. destruct (dhas m0 q); [apply Hm|]. rewrite in_app_iff. cbn [In]. intros [?|[<-|[]]]; auto. }
        assert (Io : In (lit "mask-origin") l_mask) by (do 4 right; left; reflexivity).
        assert (Ic : In (lit "mask-clip") l_mask) by (do 5 right; left; reflexivity).
        assert (S2 : forall k, In k (dkeys (ddel m (lit "mask-origin"))) -> In k l_mask).
        { intros k Hk. apply Km. apply (ddel_keys_incl m (lit "mask-origin")). exact Hk. }
        destruct (dget m (lit "mask-origin")) as [o|]; [|auto].
        destruct (filter not_ws o) as [|a [|b [|e l]]]; destruct (dget m (lit "mask-clip")); split;
          solve [exact Cm | exact Km | exact S2 | repeat apply dset_ok; exact Cm | apply ddel_ok; exact Cm
                | exact (S1 _ _ _ Ic Km) | exact (S1 _ _ _ Ic (S1 _ _ _ Io Km))]. }
      unfold cm. destruct w; [apply Gw; assumption|apply Gw; [constructor|intros ? []]]. }
    destruct G as [G1 G2]. destruct (finish_wide c l_mask cm w) as [m|] eqn:F; [|discriminate].
    intros H. apply ok_some in H. subst d'. apply set_map_wrote; [exact D|]. apply (finish_covers c l_mask cm w); assumption.
  - destruct (parse_each c _ comps [] []) as [[[rest1 cm1] w1]|e] eqn:E1; cbn [bind]; [|discriminate].
    apply parse_each_keys in E1 as [C1 K1]; [|constructor].
    assert (I1 : forall k, In k (dkeys cm1) -> In k l_mask_border).
    { intros k Hk. destruct (K1 k Hk) as [[]|[<-|[<-|[]]]]; [left; reflexivity|right; left; reflexivity]. }
    match goal with |- context [bind ?x _] => destruct x as [[[rest2 cm2] w2]|e] eqn:E2; cbn [bind]; [|discriminate] end.
    assert (G2 : dict_ok cm2 /\ forall k, In k (dkeys cm2) -> In k l_mask_border).
    { destruct (dhas cm1 (lit "mask-border-slice")).
      - apply parse_component_keys in E2 as [C2 K2]; [|exact C1]. split; [exact C2|]. intros k Hk.
        destruct (K2 k Hk) as [?| ->]; [auto|do 2 right; left; reflexivity].
      - injection E2 as <- <- <-. split; assumption. }
    destruct G2 as [C2 I2].
    match goal with |- context [bind ?x _] => destruct x as [[[rest3 cm3] w3]|e] eqn:E3; cbn [bind]; [|discriminate] end.
    assert (G3 : dict_ok cm3 /\ forall k, In k (dkeys cm3) -> In k l_mask_border).
    { destruct (dhas cm2 (lit "mask-border-width")).
      - apply parse_component_keys in E3 as [C3 K3]; [|exact C2]. split; [exact C3|]. intros k Hk.
        destruct (K3 k Hk) as [?| ->]; [auto|do 3 right; left; reflexivity].
      - injection E3 as <- <- <-. split; assumption. }
    destruct G3 as [C3 I3].
    match goal with |- context [bind ?x _] => destruct x as [[[rest4 cm4] w4]|e] eqn:E4; cbn [bind]; [|discriminate] end.
    apply parse_each_keys in E4 as [C4 K4]; [|exact C3].
    destruct (finish_wide c l_mask_border cm4 w4) as [m|] eqn:F; [|discriminate].
    intros H. apply ok_some in H. subst d'. apply set_map_wrote; [exact D|]. apply (finish_covers c l_mask_border cm4 w4); [exact C4| |exact F].
    intros k Hk. destruct (K4 k Hk) as [?|[<-|[<-|[]]]]; [auto|do 4 right; left; reflexivity|do 5 right; left; reflexivity].
  - assert (N : lit "overflow-x" <> lit "overflow-y") by (vm_compute; discriminate).
    destruct (parse_component_list c (lit "overflow-x") comps [] []) as [[[r cm] w]|e] eqn:E; cbn [bind]; [|discriminate].
    destruct w as [|k [|k2 w]]; [| |discriminate].
    + destruct (dget cm (lit "overflow-x")) as [l|]; [|discriminate].
      destruct (filter not_ws l) as [|a [|b [|x l']]]; try discriminate; intros H; apply ok_some in H; subst d';
        apply set_map_wrote; auto; apply two_covers; exact N.
    + intros H; apply ok_some in H; subst d'. apply set_map_wrote; auto; apply two_covers; exact N.
  - destruct (parse_each c _ comps [] []) as [[[r cm] w]|e] eqn:E; cbn [bind]; [|discriminate].
    apply parse_each_keys in E as [C K]; [|constructor].
    destruct (finish_wide c l_text_decoration cm w) as [m|] eqn:F; [|discriminate].
    intros H. apply ok_some in H. subst d'. apply set_map_wrote; [exact D|]. apply (finish_covers c l_text_decoration cm w); [exact C| |exact F].
    intros k Hk. destruct (K k Hk) as [[]|]; assumption.
  - destruct (white_space_values c comps) as [[a b] t]. intros H. apply ok_some in H. subst d'. apply set_map_wrote; [exact D|].
    split; [repeat constructor; cbn [dkeys map fst In]; intros I; repeat (destruct I as [I|I]; [vm_compute in I; discriminate I|]); exact I|].
    intros k. rewrite dget_some_keys. reflexivity.
Qed.
