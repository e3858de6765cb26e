(** Walking a tree of nodes: the reading side of Node, ParentNode and
    NonDocumentTypeChildNode (svgpy/dom.py 567-608, 628-656, 736-741, 786-868), as Comment
    (1108-1207, 1264-1273), Element (1418-1428, 1462-1514, 2105-2114) and
    ProcessingInstruction (2450-2503, 2566-2575) have it, and Document (svgpy/window.py
    105-128, 172-175, 201-210, 499-505).

    The nodes are those of C64, so that what holds here holds after every history of edits.
    lxml's part is modelled as its source has it: getparent, getnext, getprevious,
    itersiblings and iteration go by the lists of siblings; getroottree().getroot() is the
    first element among the parentless siblings of the topmost ancestor.  A node that has
    been taken out of a tree keeps lxml's document of that tree, whose root getroot() then
    still gives: get_root_node of such nodes is not modelled.  Text is not a node here, but
    a string of its element or of the sibling before it (C22, C60).  Attr and Document have
    neither parent nor siblings. *)
From Verif Require Import PyBase ForestModel.
#[local] Open Scope nat_scope.

Definition has_id (n : nat) (l : list tree) : bool := existsb (fun u => Nat.eqb (id_of u) n) l.
Fixpoint sibs_in (n : nat) (t : tree) : option (list nat) :=
  match t with Nd _ _ _ ks => if has_id n ks then Some (map id_of ks) else first_some (sibs_in n) ks end.
Definition sibs_of (s : forest) (n : nat) : list nat :=
  match first_some (fun g => if has_id n g then Some (map id_of g) else first_some (sibs_in n) g) s with Some l => l | None => [] end.
(* itersiblings(), nearest first *)
Fixpoint after_in (n : nat) (l : list nat) : list nat :=
  match l with [] => [] | x :: r => if Nat.eqb x n then r else after_in n r end.
Definition following (s : forest) (n : nat) : list nat := after_in n (sibs_of s n).
Definition preceding (s : forest) (n : nat) : list nat := after_in n (rev (sibs_of s n)).

(* node_type == Node.ELEMENT_NODE *)
Definition is_element (s : forest) (n : nat) : bool := match kind_of s n with Some El => true | _ => false end.

(* 1158-1160, 1472-1474, 2460-2462 *)
Definition next_sibling (s : forest) (n : nat) : option nat := hd_error (following s n).
(* 1196-1198, 1510-1512, 2498-2500 *)
Definition previous_sibling (s : forest) (n : nat) : option nat := hd_error (preceding s n).
(* 1149-1155, 1463-1469, 2451-2457 *)
Definition next_element_sibling (s : forest) (n : nat) : option nat := find (is_element s) (following s n).
(* 1187-1193, 1501-1507, 2489-2495 *)
Definition previous_element_sibling (s : forest) (n : nat) : option nat := find (is_element s) (preceding s n).
(* 1182-1184, 1496-1498, 2484-2486 *)
Definition parent_node (s : forest) (n : nat) : option nat := parent_of s n.
(* 629-635 *)
Definition parent_element (s : forest) (n : nat) : option nat :=
  match parent_node s n with Some p => if is_element s p then Some p else None | None => None end.
(* 1112-1114, 1419-1421 *)
Definition child_nodes (s : forest) (n : nat) : list nat := if is_element s n then child_list s n else [].
(* 1424-1428 *)
Definition elements (s : forest) (l : list nat) : list nat := filter (is_element s) l.
Definition children (s : forest) (n : nat) : list nat := elements s (child_nodes s n).
(* 573-583 and 834-844, of any list *)
Definition first_of_list (l : list nat) : option nat := match l with [] => None | x :: _ => Some x end.
Definition last_of_list (l : list nat) : option nat := match rev l with [] => None | x :: _ => Some x end.
Definition first_child (s : forest) (n : nat) : option nat := first_of_list (child_nodes s n).
Definition last_child (s : forest) (n : nat) : option nat := last_of_list (child_nodes s n).
Definition first_element_child (s : forest) (n : nat) : option nat := first_of_list (children s n).
Definition last_element_child (s : forest) (n : nat) : option nat := last_of_list (children s n).
(* 823-825 *)
Definition child_element_count (s : forest) (n : nat) : nat := length (children s n).
(* 736-738 *)
Definition has_child_nodes (s : forest) (n : nat) : bool := Nat.ltb 0 (length (child_nodes s n)).

(* 1264-1273, 2105-2114, 2566-2575 *)
Definition root_group (s : forest) (n : nat) : option (list tree) :=
  first_some (fun g => match first_some (seek n) g with Some _ => Some g | None => None end) s.
Definition is_el (t : tree) : bool := match t with Nd _ El _ _ => true | _ => false end.
Definition get_root_node (s : forest) (n : nat) : nat :=
  match root_group s n with
  | Some g => match find is_el g with Some t => id_of t | None => n end
  | None => n
  end.

(** ** A document, given by its _document_element *)
(* window.py 111-121 *)
Definition doc_child_nodes (s : forest) (root : option nat) : list nat :=
  match root with None => [] | Some r => rev (preceding s r) ++ [r] ++ following s r end.
(* 123-128 *)
Definition doc_children (s : forest) (root : option nat) : list nat := elements s (doc_child_nodes s root).
