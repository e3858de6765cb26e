(** Property theorems C42: number formatting. *)
From Verif Require Import PyBase PyText FormatModel FormatSpec FormatProofs.
Local Open Scope N_scope.

(** A formatted number reads back as the nearest multiple of 10^-p. *)
Theorem c42_format_reads_back : forall p x, (0 < p)%nat ->
  exists v, numeral (format_number p x) = Some v /\ (v == rounded p x)%Q /\ nearest p x (rounded p x).
Proof.
  intros p x Hp. destruct (format_read p x Hp) as (v & H & E). exists v.
  split; [exact H|]. split; [exact E|apply rounded_nearest].
Qed.
Print Assumptions c42_format_reads_back.

Theorem c42_format_exact : forall p x (k : Z), (x == inject_Z k / Qof (10 ^ N.of_nat p))%Q ->
  (rounded p x == x)%Q.
Proof. exact rounded_exact. Qed.
Print Assumptions c42_format_exact.

Theorem c42_format_canonical : forall p x, (0 < p)%nat -> canonical (format_number p x).
Proof. intros p x Hp. rewrite fixed_shape by exact Hp. apply canonical_fmt. Qed.
Print Assumptions c42_format_canonical.

Theorem c42_format_stable : forall p x v, (0 < p)%nat ->
  numeral (format_number p x) = Some v -> format_number p v = format_number p x.
Proof. exact format_stable. Qed.
Print Assumptions c42_format_stable.

Theorem c42_format_same_text : forall p x y, (0 < p)%nat ->
  format_number p x = format_number p y <-> (rounded p x == rounded p y)%Q.
Proof. exact format_eq_iff. Qed.
Print Assumptions c42_format_same_text.

Theorem c42_format_zero : forall p x, (0 < p)%nat ->
  format_number p x = lit "0" <-> (rounded p x == 0)%Q.
Proof. exact format_zero_iff. Qed.
Print Assumptions c42_format_zero.

Example c42_ex : format_number 6 (-15#10) = lit "-1.5" /\ format_number 6 100 = lit "100" /\
  format_number 6 (-1#10000000) = lit "0" /\ format_number 6 (1#3) = lit "0.333333" /\
  format_number 6 (25#10000000) = lit "0.000002" /\ (0 < precision)%nat /\
  numeral (lit "-1.5") <> None.
Proof. repeat split; try (vm_compute; congruence). vm_compute. lia. Qed.

(** The documented restriction on the precision is needed: with precision 0
    the zeros of an integer are stripped too. *)
Theorem c42_precision_zero_refuted : exists x v,
  numeral (format_number 0 x) = Some v /\ ~ (v == rounded 0 x)%Q.
Proof.
  exists 100%Q. eexists. split; [vm_compute; reflexivity|]. vm_compute. discriminate.
Qed.
Print Assumptions c42_precision_zero_refuted.

(** Coordinate pairs: pairing is the inverse of flattening, at most one
    number (the odd last one) is dropped. *)
Theorem c42_pairs_roundtrip : forall (l : list (Q * Q)), to_pairs (flat_pairs l) = l.
Proof. exact (@to_pairs_flat Q). Qed.
Print Assumptions c42_pairs_roundtrip.

Theorem c42_pairs_drop : forall (l : list Q),
  exists r, l = flat_pairs (to_pairs l) ++ r /\ (length r <= 1)%nat.
Proof. exact (@flat_to_pairs Q). Qed.
Print Assumptions c42_pairs_drop.

Theorem c42_format_pairs : forall p l, format_pairs p l =
  join [32] (map (fun xy => format_number p (fst xy) ++ [44] ++ format_number p (snd xy)) l).
Proof. exact format_pairs_spec. Qed.
Print Assumptions c42_format_pairs.

Example c42_pairs_ex : format_pairs 6 [(1%Q, (-2#4)%Q); (3%Q, 0%Q)] = lit "1,-0.5 3,0" /\
  to_pairs [1; 2; 3; 4; 5]%Q = [(1, 2); (3, 4)]%Q.
Proof. split; vm_compute; reflexivity. Qed.
