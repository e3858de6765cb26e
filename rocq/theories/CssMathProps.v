(** C30: printed math expressions. *)
From Verif Require Import PyBase PyText PySplit PyDict CssUnitModel CssMathModel CssMathSpec CssMathProofs.
#[local] Open Scope Q_scope.

Definition nm (v : Q) : expr := EUnit v (lit "number").
Definition px (v : Q) : expr := EUnit v (lit "px").
Definition em (v : Q) : expr := EUnit v (lit "em").
(* an em is 10 px *)
Definition ten (u : text) : Q := if text_eqb u (lit "em") then 10 else 1.

(** Full statement (refuted below): the text of every expression reads back with its worth.
    Proved for the faithful ones: inside min() and max() no parentheses are
    printed, and a '-' may only stand before a number. *)
Theorem c30_reads_partial : forall size e, size (lit "number") == 1 -> faithful false e -> reads size (tostring e) (worth size e).
Proof. exact faithful_reads. Qed.
Print Assumptions c30_reads_partial.
Definition deep : expr :=
  ESum [EProduct [ESum [px 1; em 2]; nm 3; EInvert (ESum [nm 4; ENegate (EProduct [nm 2; nm 1])])]; ENegate (EMax [ESum [px 7; ENegate (EProduct [em 2; nm 3])]; EMin [px 1; px (-4)]; EClamp (px 0) (ESum [px 9; px 1]) (em 3)])].
Example c30_reads_case : faithful false deep /\ ten (lit "number") == 1 /\ worth ten deep == (43 # 2).
Proof.
  split; [|split; reflexivity]. cbn. repeat split; try discriminate; try lia.
Qed.
(** without min() and max() the place of negations is all that matters *)
Theorem c30_reads_plain : forall size e, size (lit "number") == 1 -> plain e -> reads size (tostring e) (worth size e).
Proof. intros size e One P. apply faithful_reads; [exact One|]. now apply plain_faithful. Qed.
Print Assumptions c30_reads_plain.
Example c30_reads_plain_case : plain (EProduct [ESum [px 1; ENegate (ESum [px 2; ENegate (ESum [px 3; em 1])])]; EInvert (EProduct [nm 2; nm 3]); ENegate (nm 4)]) /\
  worth ten (EProduct [ESum [px 1; ENegate (ESum [px 2; ENegate (ESum [px 3; em 1])])]; EInvert (EProduct [nm 2; nm 3]); ENegate (nm 4)]) == -8.
Proof. split; [|reflexivity]. cbn. repeat split; discriminate. Qed.
(** a text reads in one way *)
Theorem c30_unambiguous : forall size ts v w, reads size ts v -> reads size ts w -> v == w.
Proof.
  intros size ts v w (n & A) (m & B). destruct (A (max n m) ltac:(lia)) as (x & X & Ex). destruct (B (max n m) ltac:(lia)) as (y & Y & Ey).
  rewrite X in Y. injection Y as ->. now rewrite <- Ex.
Qed.
Print Assumptions c30_unambiguous.
Example c30_unambiguous_case : reads ten (tostring deep) (43 # 2).
Proof. exists 40%nat. intros m L. do 40 (destruct m as [|m]; [lia|]). eexists. split; [reflexivity|reflexivity]. Qed.

Ltac stuck := let n := fresh "n" in let v := fresh "v" in intros n v; do 12 (destruct n as [|n]; [discriminate|]); discriminate.
(** the negation of a sum, of a product, of a negative number and of a negation cannot be read *)
Theorem c30_negate_refuted : forall size,
  unreadable size (tostring (ENegate (ESum [nm 1; nm 2]))) /\ unreadable size (tostring (ENegate (EProduct [nm 1; nm 2]))) /\
  unreadable size (tostring (ENegate (nm (-5)))) /\ unreadable size (tostring (ENegate (ENegate (nm 5)))).
Proof. intros size. repeat split; stuck. Qed.
Print Assumptions c30_negate_refuted.
Example c30_negate_refuted_case : tostring (ENegate (ESum [nm 1; nm 2])) =
  [PCalc; PDash; PCalc; PNum 1 (lit "number"); PPlus; PNum 2 (lit "number"); PClose; PClose].
Proof. reflexivity. Qed.
(** inside max(): a sum as a factor, a subtracted sum, a product divided by *)
Theorem c30_inside_max_refuted :
  (reads ten (tostring (EMax [EProduct [ESum [nm 1; nm 2]; nm 3]])) 7 /\ worth ten (EMax [EProduct [ESum [nm 1; nm 2]; nm 3]]) == 9) /\
  (reads ten (tostring (EMax [EProduct [nm 3; ESum [nm 1; nm 2]]])) 5 /\ worth ten (EMax [EProduct [nm 3; ESum [nm 1; nm 2]]]) == 9) /\
  (reads ten (tostring (EMax [ESum [nm 1; ENegate (ESum [nm 2; nm 3])]])) 2 /\ worth ten (EMax [ESum [nm 1; ENegate (ESum [nm 2; nm 3])]]) == -4) /\
  (reads ten (tostring (EMin [EProduct [nm 8; EInvert (EProduct [nm 2; nm 4])]])) 16 /\ worth ten (EMin [EProduct [nm 8; EInvert (EProduct [nm 2; nm 4])]]) == 1).
Proof. repeat split; try reflexivity; exists 20%nat; intros m L; do 20 (destruct m as [|m]; [lia|]); eexists; (split; [reflexivity|reflexivity]). Qed.
Print Assumptions c30_inside_max_refuted.
Example c30_inside_max_refuted_case : tostring (EMax [EProduct [ESum [nm 1; nm 2]; nm 3]]) =
  [PMax; PNum 1 (lit "number"); PPlus; PNum 2 (lit "number"); PTimes; PNum 3 (lit "number"); PClose].
Proof. reflexivity. Qed.
