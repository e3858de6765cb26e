(** What a document's child list should be. *)
From Verif Require Import PyBase PyList DocumentModel.

Definition is_element (kd : nat -> kind) (n : nat) : bool := match kd n with KElement => true | _ => false end.
(* the tree lxml keeps is sane: no node twice, at most one element among top-level siblings; the document element
   is an element with a place *)
Record sane (kd : nat -> kind) (d : doc) : Prop := mkSane {
  sane_once : NoDup (concat (d_groups d));
  sane_one : Forall (fun g => (length (filter (is_element kd) g) <= 1)%nat) (d_groups d);
  sane_root : forall r, d_root d = Some r -> kd r = KElement /\ exists g, In g (d_groups d) /\ In r g }.
(* comments and processing instructions *)
Definition misc (kd : nat -> kind) (n : nat) : Prop := kd n = KMisc.
Definition without (ns l : list nat) : list nat := filter (fun x => negb (existsb (Nat.eqb x) ns)) l.
Definition owned (d : doc) (n : nat) : Prop := d_owner d n = Some O.
