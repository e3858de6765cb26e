(** int(text) of Python: white space around, a sign, digits with single
    underscores between them.  Only the ASCII digits are read as digits. *)
From Verif Require Import PyBase PyText PySplit PyStrip NumScan.
Local Open Scope N_scope.

Definition py_int (t : text) : option Z :=
  let '(neg, r) := scan_sign (strip t) in
  let groups := split_on 95 r in
  if forallb (fun g => match g with [] => false | _ => forallb is_digit g end) groups
  then let n := Z.of_N (digits_val (concat groups)) in Some (if neg then - n else n)%Z
  else None.

Lemma digit_not_space c : is_digit c = true -> is_space c = false.
Proof.
  intros H. assert (c <= 57 /\ 48 <= c) by (unfold is_digit in H; rewrite andb_true_iff, !N.leb_le in H; tauto).
  destruct (is_space c) eqn:E; [|reflexivity]. exfalso.
  assert (X : forallb (fun k => negb (is_space (48 + N.of_nat k))) (seq 0 10) = true) by (vm_compute; reflexivity).
  rewrite forallb_forall in X. specialize (X (N.to_nat (c - 48))). rewrite in_seq in X.
  assert (Y : 48 + N.of_nat (N.to_nat (c - 48)) = c) by lia. rewrite Y, E in X. discriminate X. lia.
Qed.
Lemma digits_no_space t : forallb is_digit t = true -> forallb (fun c => negb (is_space c)) t = true.
Proof. intros H. rewrite forallb_forall in *. intros c I. rewrite digit_not_space; auto. Qed.
Lemma no_space_strip t : forallb (fun c => negb (is_space c)) t = true -> strip t = t.
Proof.
  intros H. rewrite forallb_forall in H. apply strip_id.
  - destruct t as [|c t]; [reflexivity|]. cbn. apply H. now left.
  - destruct (rev t) as [|c r] eqn:E; [reflexivity|]. cbn. apply H. apply in_rev. rewrite E. now left.
Qed.
Lemma digits_no_underscore t : forallb is_digit t = true -> forallb (fun x => negb (95 =? x)) t = true.
Proof. intros H. rewrite forallb_forall in *. intros x I. apply H in I. destruct (N.eqb_spec 95 x) as [<-|]; [discriminate I|reflexivity]. Qed.
Lemma py_int_digits n : py_int (digits n) = Some (Z.of_N n).
Proof.
  assert (D := digits_digits n). unfold py_int. rewrite no_space_strip by now apply digits_no_space.
  assert (S : scan_sign (digits n) = (false, digits n)).
  { assert (N := digits_nonempty n). destruct (digits n) as [|c r]; [now destruct N|]. cbn [forallb] in D. apply andb_prop in D. destruct D as [D _].
    cbn [scan_sign]. destruct (N.eqb_spec c 43) as [->|]; [discriminate|]. destruct (N.eqb_spec c 45) as [->|]; [discriminate|reflexivity]. }
  rewrite S. rewrite split_on_single by now apply digits_no_underscore. cbn [forallb concat]. rewrite D, app_nil_r.
  assert (N := digits_nonempty n). destruct (digits n) as [|c r] eqn:E; [now destruct N|]. cbn [andb]. rewrite <- E. now rewrite digits_val_digits.
Qed.
