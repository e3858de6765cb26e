(** C17: path data text. *)
From Verif Require Import PyBase PyText NumScan FormatModel FormatProofs MatrixModel PathModel
  PathTextModel PathTextSpec PathTextProofs TransformSpec.
Local Open Scope N_scope.

(** C17, full claim: parsing the text of a path gives back its segments.
    Proved for paths without two closepaths of the same letter in a row: each
    number comes back rounded to six decimals, invalid segments vanish. *)
Theorem c17_roundtrip_partial : forall l, forallb complete l = true -> no_double_close l = true ->
  exists t, path_tostring l = Ok t /\ Forall2 written (filter valid l) (path_parse t).
Proof. exact path_roundtrip. Qed.
Print Assumptions c17_roundtrip_partial.
Theorem c17_roundtrip_exact_partial : forall l,
  forallb complete l = true -> forallb valid l = true -> no_double_close l = true ->
  Forall (fun g => Forall (decimal_places precision) (values g)) l ->
  exists t, path_tostring l = Ok t /\ Forall2 seg_same l (path_parse t).
Proof. exact path_roundtrip_exact. Qed.
Print Assumptions c17_roundtrip_exact_partial.

Definition text_path : list seg :=
  [SM false (P 1 2); SM false (P (5#2) (-3)); SL true (P 1 0); SInvalid; SL true (P 0 (1#3));
   SC false (P 1 1) (P 2 2) (P 3 3); SA true 5 6 30 0 1 (P (-1) 4); SZ true; SZ false; SH false (1#2);
   SB true 90; SQ false (P 1 1) (P 2 2); SQ false (P 3 3) (P 4 4); ST true (P 0 0); SS true (P 1 1) (P 0 1); SV true 0; SZ false].
Example c17_ex : forallb complete text_path = true /\ no_double_close text_path = true /\
  path_tostring text_path = Ok (lit ("M1,2 2.5,-3 l1,0 l0,0.333333 C1,1 2,2 3,3 a5,6 30 0 1 -1,4 z Z H0.5 b90 "
    ++ "Q1,1 2,2 3,3 4,4 t0,0 s1,1 0,1 v0 Z")) /\
  decimal_places precision (5#2).
Proof. split; [reflexivity|]. split; [reflexivity|]. split; [vm_compute; reflexivity|]. exists 2500000%Z. reflexivity. Qed.

(** Commands are read independently of each other: text is cut before every
    command letter that does not directly follow another one. *)
Theorem c17_commands_independent : forall a x c b, is_command x = false -> is_command c = true ->
  path_parse ((a ++ [x]) ++ c :: b) = path_parse (a ++ [x]) ++ path_parse (c :: b).
Proof.
  intros a x c b Hx Hc. apply parse_app; [|exact Hc]. unfold closed. rewrite rev_app_distr. cbn. now rewrite Hx.
Qed.
Print Assumptions c17_commands_independent.
(** A command reads its numbers in groups, all of the same command: the values
    are the numbers of its text in order, an incomplete last group dropped. *)
Theorem c17_groups : forall k r v, k <> KZ -> forallb (fun x => negb (is_command x)) v = true ->
  let l := path_parse (letter_of k r :: v) in
  Forall (fun g => kind g = Some k /\ isrelative g = r) l /\
  exists rest, scan_numbers (strip v) = concat (map values l) ++ rest /\ (length rest < argc k)%nat.
Proof. exact parse_group. Qed.
Print Assumptions c17_groups.
Example c17_groups_ex : path_parse (lit " M 1 2.5-3,4 5 ") = [SM false (P 1 (25 * (1#10))); SM false (P (-(3)) 4)]
  /\ forallb (fun x => negb (is_command x)) (lit " 1 2.5-3,4 5 ") = true.
Proof. split; vm_compute; reflexivity. Qed.

(** Findings: "Z Z" is written as one Z, *)
Theorem c17_double_close_refuted : exists l t, forallb complete l = true /\ forallb valid l = true /\
  path_tostring l = Ok t /\ length (path_parse t) <> length l.
Proof.
  exists [SM false (P 0 0); SL false (P 1 1); SZ false; SZ false], (lit "M0,0 L1,1 Z").
  do 2 (split; [reflexivity|]). split; [vm_compute; reflexivity|]. vm_compute. discriminate.
Qed.
Print Assumptions c17_double_close_refuted.
(** a closepath directly before the next command letter is lost, although path
    data needs no white space there, *)
Theorem c17_adjacent_close_refuted : exists a b, is_command (last a 0) = true /\
  path_parse (a ++ b) <> path_parse a ++ path_parse b.
Proof. exists (lit "M0,0 L1,1Z"), (lit "M2,2"). split; [reflexivity|]. vm_compute. discriminate. Qed.
Print Assumptions c17_adjacent_close_refuted.
(** and so a path without white space between commands does not read as the
    same path with it. *)
Theorem c17_spacing_refuted : exists a b,
  path_parse (a ++ b) <> path_parse (a ++ lit " " ++ b).
Proof. exists (lit "M0,0L1,1Z"), (lit "M2,2L3,3Z"). vm_compute. discriminate. Qed.
Print Assumptions c17_spacing_refuted.
