(** Inline styles: masks and their borders. *)
From Verif Require Import PyBase PyText PySplit PyStrip PyDict PyCase UtilsModel ShortModel InlineModel ShortProofs4 InlineProps.

(** C61, further: a value given to mask-border in an inline style takes the mask
    shorthand out of the attribute *)
Definition clean (m : smap) : Prop := dict_ok m /\ dget m (lit "mask") = None.
Lemma clean_dset m n v : text_eqb n (lit "mask") = false -> clean m -> clean (dset m n v).
Proof. intros N [O E]. split; [now apply dset_ok|]. now rewrite dget_dset, N. Qed.
Lemma clean_ddel m n : clean m -> clean (ddel m n).
Proof. intros [O E]. split; [now apply ddel_ok|]. rewrite dget_ddel by exact O. now destruct (text_eqb n (lit "mask")). Qed.
Lemma clean_quiet ns : forall m, clean m -> clean (drop_quiet ns m).
Proof. unfold drop_quiet. induction ns as [|n ns IH]; intros m C; cbn [fold_left]; [exact C|]. apply IH, clean_ddel, C. Qed.
Lemma clean_drop1 n u : clean (fst u) -> clean (fst (drop1 n u)).
Proof. intros C. unfold drop1. destruct (dhas (fst u) n); [apply clean_ddel, C|exact C]. Qed.
Lemma clean_drops ns : forall u, clean (fst u) -> clean (fst (fold_left (fun u n => drop1 n u) ns u)).
Proof. induction ns as [|n ns IH]; intros u C; cbn [fold_left]; [exact C|]. apply IH, clean_drop1, C. Qed.
Lemma clean_shorthand c d n m : text_eqb n (lit "mask") = false -> clean m -> clean (fst (set_shorthand c d n m)).
Proof. intros N C. unfold set_shorthand. destruct (nonempty _); [|exact C]. cbn [fst]. now apply clean_quiet, clean_dset. Qed.
Lemma clean_longhands c d : forall l u, (forall n, In n l -> text_eqb n (lit "mask") = false /\ is_shorthand n = false) -> clean (fst u) ->
  clean (fst (fold_left (fun (u : upd) n => match dget d n with Some (v, _) => (dset (fst u) n v, true)
    | None => if is_shorthand n then let '(m1, b1) := set_shorthand c d n (fst u) in if b1 then (m1, true) else let '(m2, b2) := longhands_out 2 c d n (fst u) in (m2, snd u || b2) else u end) l u)).
Proof.
  induction l as [|n l IH]; intros u H C; cbn [fold_left]; [exact C|]. destruct (H n (or_introl eq_refl)) as [N S]. apply IH; [intros x I; apply H; now right|]. rewrite S. destruct (dget d n) as [[v p]|]; [|exact C]. now apply clean_dset.
Qed.
Lemma clean_start m : dict_ok m -> clean (fst (drop1 (lit "mask") (m, false))).
Proof. intros O. unfold drop1. cbn [fst]. unfold dhas. destruct (dget m (lit "mask")) eqn:E; cbn [fst]; [|split; assumption]. split; [now apply ddel_ok|]. rewrite dget_ddel by exact O. reflexivity. Qed.
Theorem c61_mask_border : forall c d v m, dict_ok m -> v <> [] -> v <> lit "initial" -> dget (fst (style_update c d (lit "mask-border") v m)) (lit "mask") = None.
Proof.
  intros c d v m O V0 V1. enough (X : clean (fst (style_update c d (lit "mask-border") v m))) by apply X. unfold style_update.
  assert (NE : nonempty v = true) by (destruct v; [easy|reflexivity]). rewrite NE. cbn [negb]. change (mem (lit "mask-border") font_sub_properties) with false. change (text_eqb (lit "mask-border") (lit "mask")) with false.
  change (text_eqb (lit "mask-border") (lit "mask-border")) with true. destruct (text_eqb_spec v (lit "initial")) as [|_]; [contradiction|]. cbn [negb andb]. cbv zeta iota.
  assert (C1 : clean (fst (longhands_out depth c d (lit "mask") m))).
  { change depth with 3%nat. cbn [longhands_out]. apply clean_longhands; [|now apply clean_start]. intros n I. vm_compute in I. repeat (destruct I as [<-|I]; [split; reflexivity|]). destruct I. }
  set (u := longhands_out depth c d (lit "mask") m) in *. clearbody u.
  assert (C2 : clean (fst (or_upd u (style_set c d (lit "mask-border") v false)))).
  { unfold or_upd. assert (C2 : clean (fst (style_set c d (lit "mask-border") v false (fst u)))).
    { unfold style_set. change (is_longhand (lit "mask-border")) with false. change (is_shorthand (lit "mask-border")) with true. cbv iota. rewrite NE.
      assert (S := clean_shorthand c d (lit "mask-border") (fst u) eq_refl C1). destruct (set_shorthand c d (lit "mask-border") (fst u)) as [m1 b1]. cbn [fst] in S. destruct b1; [exact S|].
      assert (L : clean (fst (longhands_out depth c d (lit "mask-border") (fst u)))).
      { change depth with 3%nat. cbn [longhands_out]. apply clean_longhands; [|apply clean_drop1, C1]. intros n I. vm_compute in I. repeat (destruct I as [<-|I]; [split; reflexivity|]). destruct I. }
      destruct (_ && _); [apply clean_dset; [reflexivity|exact L]|exact L]. }
    destruct (style_set c d (lit "mask-border") v false (fst u)) as [m2 b2]. exact C2. }
  set (w := or_upd u _) in *. clearbody w. destruct (_ && _); [|exact C2].
  clear - C2. revert w C2. induction font_sub_properties as [|n l IH]; intros w C; cbn [fold_left]; [exact C|]. apply IH. unfold or_upd, style_remove. cbv zeta.
  assert (R : clean (fst (if is_shorthand n then fold_left (fun u n0 => drop1 n0 u) (longhands n) (drop1 n (fst w, false)) else drop1 n (fst w, false)))).
  { destruct (is_shorthand n); [apply clean_drops|]; apply clean_drop1; exact C. }
  destruct (if is_shorthand n then _ else _) as [m3 b3]. exact R.
Qed.
Print Assumptions c61_mask_border.
Definition masked : smap := [(lit "fill", lit "red"); (lit "mask", lit "none")].
Example c61_mask_border_case : fst (style_update wcss [] (lit "mask-border") (lit "none") masked) = [(lit "fill", lit "red"); (lit "mask-border", lit "none")].
Proof. vm_compute. reflexivity. Qed.
