(** Property theorems C10-C12 (and the text part of C09): transforms. *)
From Verif Require Import PyBase PyText PyList FormatModel FormatSpec FormatProofs NumScan
  MatrixModel MatrixSpec MatrixProofs MatrixProofs2 TransformModel TransformSpec TransformProofs
  TransformTextProofs TransformListModel TransformListSpec TransformListProofs.
Local Open Scope Q_scope.

(** C10: a transform function denotes its SVG plane map. *)
Theorem c10_item_meaning : forall o t m, oracle_basic o -> transform_matrix o t = Some m ->
  is2d m = true /\ truthful m /\ forall p, veq (act (arr m) p) (g_transform o t p).
Proof. exact item_meaning. Qed.
Print Assumptions c10_item_meaning.

(** C10: a list denotes the ordered composition of its items. *)
Theorem c10_list_meaning : forall o l, oracle_basic o -> l <> [] -> forallb known l = true ->
  exists m, list_matrix o l = Ok (Some m) /\ is2d m = true /\ truthful m /\
    forall p, veq (act (arr m) p) (g_list o l p).
Proof. exact list_meaning. Qed.
Print Assumptions c10_list_meaning.

Example c10_ex : let l := [TTranslate 10 0; TRotate 90 1 1; TScale 2 3] in
  oracle_basic quarter_oracle /\ l <> [] /\ forallb known l = true /\
  veq (g_list quarter_oracle l (V4 1 2 0 1)) (V4 6 2 0 1) /\
  veq (g_list quarter_oracle (rev l) (V4 1 2 0 1)) (V4 0 33 0 1).
Proof.
  split; [exact quarter_basic|]. split; [discriminate|]. split; [reflexivity|].
  split; (split; [|split; [|split]]; vm_compute; reflexivity).
Qed.

Theorem c10_empty_list : forall o, list_matrix o [] = Ok None /\ consolidate o [] = Ok ([], None).
Proof. intros o; split; reflexivity. Qed.
Print Assumptions c10_empty_list.

(** An UNKNOWN item makes the list matrix (and consolidate) fail. *)
Theorem c10_unknown_item : forall o l, forallb known l = false ->
  list_matrix o l = Err TypeError /\ consolidate o l = Err TypeError.
Proof.
  intros o l H. pose proof (list_unknown o l H) as E. split; [exact E|].
  unfold consolidate, list_transform. rewrite E. reflexivity.
Qed.
Print Assumptions c10_unknown_item.

(** C10: concatenation multiplies. *)
Theorem c10_concat : forall o l1 l2 m1 m2, oracle_basic o ->
  list_matrix o l1 = Ok (Some m1) -> list_matrix o l2 = Ok (Some m2) ->
  exists m, list_matrix o (l1 ++ l2) = Ok (Some m) /\ deq m (multiply_self m1 m2).
Proof. exact list_concat. Qed.
Print Assumptions c10_concat.

(** C10: consolidate keeps the matrix. *)
Theorem c10_consolidate : forall o l, oracle_basic o -> l <> [] -> forallb known l = true ->
  exists t, consolidate o l = Ok ([t], Some t) /\ type_of t = MATRIX /\
    exists m m', list_matrix o l = Ok (Some m) /\ list_matrix o [t] = Ok (Some m') /\ deq m' m.
Proof. exact consolidate_some. Qed.
Print Assumptions c10_consolidate.

(** C11: an accepted operation does what the list operation says, and returns
    what it says. *)
Theorem c11_accepted : forall l op l' r, Forall (fun x => is_transform x = true) l ->
  tl_step l op = (l', Ok r) -> accepts l op l' r.
Proof. exact step_accepts. Qed.
Print Assumptions c11_accepted.

(** C11: a rejected operation is one the specification rejects, with its
    exception, and (two cases excepted) it changes nothing. *)
Theorem c11_rejected_partial : forall l op l' e, tl_step l op = (l', Err e) ->
  rejects l op e /\ (leaky op = false -> l' = l).
Proof. exact step_rejects. Qed.
Print Assumptions c11_rejected_partial.

(** C11: whatever happens, the list holds only transforms. *)
Theorem c11_typed_history : forall ops l, Forall (fun x => is_transform x = true) l ->
  Forall (fun x => is_transform x = true) (runs (fun l op => fst (tl_step l op)) ops l).
Proof. exact history_typed. Qed.
Print Assumptions c11_typed_history.

Example c11_ex : runs (fun l op => fst (tl_step l op))
  [Append (Tr 1); Extend [Tr 2; Tr 3]; InsertBefore (Tr 4) (-1)%Z; Reverse; Append (Other 9);
   SetItem 0%Z (Tr 5); RemoveItem 7%Z; Remove (Tr 2); SetSlice 0%Z 1%Z [Tr 6; Tr 7]] []
  = [Tr 6; Tr 7; Tr 4; Tr 1].
Proof. reflexivity. Qed.

(** The two exceptions, exactly: a failing extend keeps the good prefix, a
    failing initialize leaves the list empty. *)
Theorem c11_failed_extend : forall l xs l' e, tl_step l (Extend xs) = (l', Err e) ->
  exists a n b, xs = a ++ Other n :: b /\ Forall (fun x => is_transform x = true) a /\ l' = l ++ a.
Proof. exact leaky_extend. Qed.
Print Assumptions c11_failed_extend.
Theorem c11_failed_initialize : forall l x l' e, tl_step l (Initialize x) = (l', Err e) -> l' = [].
Proof. exact leaky_initialize. Qed.
Print Assumptions c11_failed_initialize.
Theorem c11_rejected_changes_nothing_refuted : exists l op l' e,
  Forall (fun x => is_transform x = true) l /\ tl_step l op = (l', Err e) /\ l' <> l.
Proof.
  exists [Tr 1], (Initialize (Other 2)), [], TypeError.
  split; [repeat constructor|]. split; [reflexivity|discriminate].
Qed.
Print Assumptions c11_rejected_changes_nothing_refuted.

(** C12: parsing the text of a list gives its transforms (UNKNOWN ones
    excepted) with the values rounded to the formatter's precision, for every
    delimiter made of white space and commas. *)
Theorem c12_roundtrip : forall d l, good_delimiter d = true ->
  exists us, parse_transforms (list_tostring d l) = Ok us /\
             Forall2 (image (rounded precision)) (filter known l) us.
Proof. exact transforms_roundtrip. Qed.
Print Assumptions c12_roundtrip.

Theorem c12_roundtrip_exact : forall d l, good_delimiter d = true ->
  Forall (fun t => known t = true /\ Forall (decimal_places precision) (values_of t)) l ->
  exists us, parse_transforms (list_tostring d l) = Ok us /\ Forall2 same l us.
Proof. exact transforms_roundtrip_exact. Qed.
Print Assumptions c12_roundtrip_exact.

Theorem c12_roundtrip_matrix : forall o d l m, oracle_basic o -> oracle_ext o -> good_delimiter d = true ->
  Forall (fun t => Forall (decimal_places precision) (values_of t)) l ->
  list_matrix o l = Ok (Some m) ->
  exists us m', parse_transforms (list_tostring d l) = Ok us /\ list_matrix o us = Ok (Some m') /\ deq m' m.
Proof. exact matrix_roundtrip. Qed.
Print Assumptions c12_roundtrip_matrix.

Example c12_ex : list_tostring [] [TTranslate (5#2) 0; TRotate 30 0 0; TScale 2 2; TRotate 45 1 (-1); TSkewX 0]
    = lit "translate(2.5) rotate(30) scale(2) rotate(45, 1, -1) skewX(0)" /\
  good_delimiter [] = true /\ oracle_ext quarter_oracle /\ decimal_places precision (5#2) /\
  parse_transforms (lit " translate( 1e1,-.5 ) , rotate(1 2)  ") = Ok [TTranslate (1 * 10) (-(5#10)); TRotate 1 2 0].
Proof.
  split; [vm_compute; reflexivity|]. split; [reflexivity|]. split; [exact quarter_ext|]. split; [exists 2500000%Z; reflexivity|].
  vm_compute. reflexivity.
Qed.

(** C09: the text of a 2D matrix is read back as that matrix. *)
Theorem c09_text : forall d m, good_delimiter d = true -> is2d m = true ->
  exists u, parse_transforms (matrix_tostring d m) = Ok [u] /\ type_of u = MATRIX /\
    Forall2 Qeq (map (rounded precision) (tolist m)) (values_of u).
Proof. exact matrix_text_roundtrip. Qed.
Print Assumptions c09_text.
