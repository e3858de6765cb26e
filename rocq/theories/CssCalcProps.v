(** C31: parsing math functions. *)
From Verif Require Import PyBase PyText PySplit PyDict PyCase CssTypeModel CssUnitModel CssUnitSpec CssUnitProofs CssMathModel CssMathSpec CssCalcModel CssCalcSpec CssCalcProofs.
#[local] Open Scope Q_scope.

Definition mn (v : Q) : math := MNum v (lit "number").
Definition mp (v : Q) : math := MNum v (lit "px").
Definition mcalc := MCalc (lit "calc").
Ltac units := apply known_all; vm_compute; tauto.
Ltac under := cbn [understood unmixed conj map fst snd mn mp mcalc ops_ok next];
  repeat match goal with |- _ /\ _ => split | |- True => exact I | |- known _ => units | |- lower _ = _ => reflexivity | |- Between = Between -> _ => reflexivity | |- Least = _ -> _ => discriminate | |- Greatest = _ -> _ => discriminate end.

(** Full statement (refuted below): every math function made of the four
    functions and the four operators is parsed into an expression that is worth
    what the text means, whatever the units are worth.  Proved for the sequences
    of operators of [understood]. *)
Theorem c31_parses_partial : forall m, understood false m -> exists e, parses (tokens m) (Ok e) /\ forall size, worth size e == meaning size m.
Proof. exact understood_all. Qed.
Print Assumptions c31_parses_partial.
(* calc(1 * 2px + 3px / 4 * 5 - MAX(6px, calc(7px - 8px + 1px)) + 2px) *)
Example c31_parses_case :
  let m := mcalc (mn 1) [(Mul, mp 2); (Add, mp 3); (Div, mn 4); (Mul, mn 5);
                         (Sub, MPick Greatest (lit "MAX") (mp 6) [mcalc (mp 7) [(Sub, mp 8); (Add, mp 1)]]); (Add, mp 2)] in
  understood false m /\ meaning (fun _ => 1) m == 7 # 4.
Proof. cbn zeta. split; [under|vm_compute; reflexivity]. Qed.

(** Functions that use only '+' and '-', or only '*' and '/', each, however
    nested, are parsed rightly. *)
Theorem c31_unmixed : forall m, unmixed m -> exists e, parses (tokens m) (Ok e) /\ forall size, worth size e == meaning size m.
Proof. intros m U. apply understood_all, unmixed_understood, U. Qed.
Print Assumptions c31_unmixed.
Example c31_unmixed_case :
  let m := MPick Between (lit "clamp") (mp 1) [mcalc (mcalc (mp 4) [(Add, mp 2)]) [(Div, mn 3); (Mul, mn 7)]; mp 12] in
  unmixed m /\ meaning (fun _ => 2) m == 24.
Proof.
  cbn zeta. split; [|vm_compute; reflexivity]. under.
  - right. intros o [<-|[<-|[]]]; auto.
  - left. intros o [<-|[]]; auto.
Qed.

(** Only texts of known units, operators and the four functions are accepted. *)
Theorem c31_accepts : forall t e, parses t (Ok e) -> well_formed t.
Proof.
  intros t e (n & P). specialize (P n (le_n n)). unfold parse in P. destruct (parse_numeric t [] None) as [x|] eqn:E; [|discriminate]. exact (numeric_ok _ _ _ _ E).
Qed.
Print Assumptions c31_accepts.
Example c31_accepts_case : exists e, parses (CFun (lit "Calc") [CNum 1 (lit "PX"); CLit (lit "-"); CNum 2 (lit "em")]) (Ok e).
Proof. eexists. exists 5%nat. intros [|[|[|k]]] L; try lia. vm_compute. reflexivity. Qed.
Example c31_accepts_case2 : parses (CFun (lit "calc") [CNum 1 (lit "parsec")]) (Err ValueError).
Proof. exists O. intros k _. reflexivity. Qed.

(** calc(1 + 2 * 3 - 4 * 5) means -13 and is parsed as 1 + (2 * 3 * 5 - 4). *)
Theorem c31_parses_refuted : exists m e, parses (tokens m) (Ok e) /\ meaning (fun _ => 1) m == - (13) /\ worth (fun _ => 1) e == 27.
Proof.
  exists (mcalc (mn 1) [(Add, mn 2); (Mul, mn 3); (Sub, mn 4); (Mul, mn 5)]). eexists. split; [|split].
  - exists 5%nat. intros [|[|[|[|[|k]]]]] L; try lia. vm_compute. reflexivity.
  - vm_compute. reflexivity.
  - vm_compute. reflexivity.
Qed.
Print Assumptions c31_parses_refuted.
(** calc(1 + calc(2 * 3 + 4)): the nested '+' climbs out of the nested
    function, the nodes form a cycle, and the parser recurses without end. *)
Theorem c31_nested_refuted : exists m, parses_not (tokens m) /\ meaning (fun _ => 1) m == 11.
Proof.
  exists (mcalc (mn 1) [(Add, mcalc (mn 2) [(Mul, mn 3); (Add, mn 4)])]). split; [|vm_compute; reflexivity].
  unfold parses_not, parse. set (p := parse_numeric _ [] None). vm_compute in p. subst p. cbv iota.
  match goal with |- forall n, reify n ?h (VN ?i) = None => set (H := h); assert (LOOP : forall n j, (j = i \/ j = 0%nat) -> reify n H (VN j) = None) end.
  { induction n as [|n IH]; intros j J; [reflexivity|]. cbn [reify]. destruct J as [-> | ->].
    - unfold get, H. cbn [nth_error nvals map]. fold H. cbn [opts]. repeat match goal with |- context [reify n H (VN ?j)] => rewrite (IH j) by auto end. reflexivity.
    - unfold get, H. cbn [nth_error nvals map]. fold H. cbn [opts]. repeat match goal with |- context [reify n H (VN ?j)] => rewrite (IH j) by auto end.
      destruct n; reflexivity. }
  intros n. apply LOOP. auto.
Qed.
Print Assumptions c31_nested_refuted.
(** Arithmetic in the arguments of min(), max() and clamp() is refused:
    min(1 + 2, 3). *)
Theorem c31_min_refuted : parses (CFun (lit "min") [CNum 1 (lit "number"); CLit (lit "+"); CNum 2 (lit "number"); CLit (lit ","); CNum 3 (lit "number")]) (Err ValueError).
Proof. exists O. intros k _. reflexivity. Qed.
Print Assumptions c31_min_refuted.
(** Parentheses are refused: calc((1 + 2) * 3).  A missing operator is not:
    calc(1 2) is calc(1 + 2). *)
Theorem c31_grammar_refuted :
  parses (CFun (lit "calc") [COther; CLit (lit "*"); CNum 3 (lit "number")]) (Err ValueError) /\
  parses (CFun (lit "calc") [CNum 1 (lit "number"); CNum 2 (lit "number")]) (Ok (ESum [EUnit 1 (lit "number"); EUnit 2 (lit "number")])).
Proof. split; [exists O; intros k _; reflexivity|]. exists 2%nat. intros [|[|k]] L; try lia. reflexivity. Qed.
Print Assumptions c31_grammar_refuted.
