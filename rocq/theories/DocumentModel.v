(** The child list of a document: svgpy/window.py 109-118, 237-274, 507-536, 568-609, 622-650; svgpy/dom.py 59-79,
    671-682, 694-726, 1209-1237, 1566-1594, 2511-2539; lxml's addnext and addprevious.
    A node is a number with a kind.  The descendants of elements are not modelled; an element made the
    document element is the root of its own lxml tree.  What lxml keeps are sequences of
    top-level siblings; a node that is in none has no siblings. *)
From Verif Require Import PyBase PyList.

Inductive kind := KElement | KMisc (* comment or processing instruction *) | KOther (* attribute, document *).
Inductive derr := Hierarchy | NotFound | LxmlType | BadIndex.
(* [d_owner n] is the _owner_document of node n: None, this document (Some 0) or another *)
Record doc := mkDoc { d_root : option nat; d_groups : list (list nat); d_owner : nat -> option nat }.
Definition step := (doc * option derr)%type.
Inductive arg := AStr | ANode (n : nat).

Definition mem (n : nat) (l : list nat) : bool := existsb (Nat.eqb n) l.
Definition drop (n : nat) (l : list nat) : list nat := filter (fun m => negb (Nat.eqb n m)) l.
Fixpoint put_after (r n : nat) (l : list nat) : list nat := match l with [] => [] | x :: t => if Nat.eqb r x then x :: n :: t else x :: put_after r n t end.
Fixpoint put_before (r n : nat) (l : list nat) : list nat := match l with [] => [] | x :: t => if Nat.eqb r x then n :: x :: t else x :: put_before r n t end.
Definition group_of (d : doc) (n : nat) : list nat := match find (mem n) (d_groups d) with Some g => g | None => [n] end.
(* window.py 109-118 *)
Definition children (d : doc) : list nat := match d_root d with None => [] | Some r => group_of d r end.
(* dom.py 671-682; attaching None does nothing *)
Definition attach (d : doc) (n : nat) (o : option nat) : doc := match o with None => d | Some _ => mkDoc (d_root d) (d_groups d) (fun m => if Nat.eqb m n then o else d_owner d m) end.
Definition set_groups (d : doc) (gs : list (list nat)) : doc := mkDoc (d_root d) gs (d_owner d).
(* 1209-1222, 1566-1579, 2511-2524, then lxml: beside a top-level node there can only be comments and
   processing instructions; a node put beside itself stays *)
Definition add_sibling (kd : nat -> kind) (put : nat -> nat -> list nat -> list nat) (d : doc) (r n : nat) : step :=
  match kd n with
  | KOther => (d, Some Hierarchy)
  | k => let d := attach d n (d_owner d r) in
         match k with
         | KElement => (d, Some LxmlType)
         | _ => if Nat.eqb r n then (d, None)
                else (set_groups d (map (fun g => if mem r g then put r n (drop n g) else drop n g) (d_groups d)), None)
         end
  end.
Definition addnext kd := add_sibling kd put_after.
Definition addprevious kd := add_sibling kd put_before.
(* dom.py 694-711 for a document *)
Definition pre_insert (kd : nat -> kind) (d : doc) (n : nat) (child : option nat) : option derr :=
  if match child with Some c => negb (mem c (children d)) | None => false end then Some NotFound
  else match kd n with KOther => Some Hierarchy | _ => None end.
(* 713-725 *)
Definition pre_remove (d : doc) (n : nat) : option derr := if mem n (children d) then None else Some NotFound.
(* the document element is set; a node in no sequence is one of its own *)
Definition set_root (d : doc) (n : nat) : doc :=
  mkDoc (Some n) (match find (mem n) (d_groups d) with Some _ => d_groups d | None => [n] :: d_groups d end) (fun m => if Nat.eqb m n then Some O else d_owner d m).
(* window.py 237-264, the loop; [last] is last_child *)
Fixpoint append_go (kd : nat -> kind) (d : doc) (last : option nat) (nodes : list arg) : step :=
  match nodes with
  | [] => (d, None)
  | AStr :: _ => (d, Some Hierarchy)
  | ANode n :: r =>
      match pre_insert kd d n None with
      | Some e => (d, Some e)
      | None => match d_root d with
                | None => match kd n with KElement => append_go kd (set_root d n) last r | _ => (d, Some Hierarchy) end
                | Some root => if Nat.eqb n root then append_go kd d last r
                               else let l := match last with Some l => l | None => List.last (children d) root end in
                                    match addnext kd d l n with (d', None) => append_go kd d' (Some n) r | e => e end
                end
      end
  end.
Definition append kd d nodes := append_go kd d None nodes.
(* 507-521 *)
Definition insert (kd : nat -> kind) (d : doc) (i : Z) (n : nat) : step :=
  match d_root d with
  | None => append kd d [ANode n]
  | Some root => if Nat.eqb n root then (d, None) else match list_get (children d) i with Ok r => addprevious kd d r n | Err _ => (d, Some BadIndex) end
  end.
(* getnext of a top-level node *)
Fixpoint after (n : nat) (l : list nat) : option nat := match l with [] => None | x :: t => if Nat.eqb n x then hd_error t else after n t end.
(* 523-534 and dom.py 59-79 *)
Definition insert_before (kd : nat -> kind) (d : doc) (n : nat) (child : option nat) : step :=
  match pre_insert kd d n child with
  | Some e => (d, Some e)
  | None => let ref := match child with Some c => if Nat.eqb c n then after n (group_of d n) else Some c | None => None end in
            match ref with None => append kd d [ANode n] | Some r => addprevious kd d r n end
  end.
(* 568-591; [first] is first_child *)
Fixpoint prepend_go (kd : nat -> kind) (d : doc) (first : option nat) (nodes : list arg) : step :=
  match nodes with
  | [] => (d, None)
  | AStr :: _ => (d, Some Hierarchy)
  | ANode n :: r =>
      match pre_insert kd d n None with
      | Some e => (d, Some e)
      | None => match d_root d with
                | None => match append kd d [ANode n] with (d', None) => prepend_go kd d' first r | e => e end
                | Some root => if Nat.eqb n root then prepend_go kd d first r
                               else let f := match first with Some f => f | None => hd root (children d) end in
                                    match addprevious kd d f n with (d', None) => prepend_go kd d' (Some f) r | e => e end
                end
      end
  end.
Definition prepend kd d nodes := prepend_go kd d None nodes.
(* 597-609: moved into the document element and removed from there *)
Definition remove (kd : nat -> kind) (d : doc) (n : nat) : step :=
  match pre_remove d n with
  | Some e => (d, Some e)
  | None => match d_root d with
            | None => (d, None)
            | Some root => if Nat.eqb n root then (mkDoc None (d_groups d) (d_owner d), None)
                           else (set_groups (attach d n (d_owner d root)) (map (drop n) (d_groups d)), None)
            end
  end.
(* 622-639 *)
Definition replace (kd : nat -> kind) (d : doc) (old new : nat) : step :=
  match pre_insert kd d new (Some old) with
  | Some e => (d, Some e)
  | None => match pre_remove d old with
            | Some e => (d, Some e)
            | None => match d_root d with
                      | None => (d, None)
                      | Some root => if Nat.eqb old root then match remove kd d old with (d', None) => append kd d' [ANode new] | e => e end
                                     else match addprevious kd d old new with (d', None) => remove kd d' old | e => e end
                      end
            end
  end.
Inductive dop := DAppend (l : list arg) | DPrepend (l : list arg) | DInsert (i : Z) (n : nat) | DInsertBefore (n : nat) (c : option nat) | DRemove (n : nat) | DReplace (old new : nat).
Definition dstep (kd : nat -> kind) (d : doc) (o : dop) : step :=
  match o with
  | DAppend l => append kd d l | DPrepend l => prepend kd d l | DInsert i n => insert kd d i n | DInsertBefore n c => insert_before kd d n c | DRemove n => remove kd d n | DReplace a b => replace kd d a b
  end.
Definition drun (kd : nat -> kind) (d : doc) (ops : list dop) : doc := fold_left (fun d o => fst (dstep kd d o)) ops d.
