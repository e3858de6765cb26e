(** The viewport an element belongs to, in a tree that changes: SVGElement's
    owner_svg_element, viewport_element and the four searches up the tree (svgpy/base.py
    144-204), SVGZoomAndPan (svgpy/base.py 800-831), and current_scale and current_translate
    of an 'svg' element (svgpy/element.py 843-877).

    The tree is C64's, so that what holds here holds after every history of edits.  hash()
    of an element is taken to be the identity of the object (neither svgpy nor lxml defines
    one).  Scales and translations are taken to be numbers: the code keeps what it is given. *)
From Coq Require Import QArith.
From Verif Require Import PyBase PyText ForestModel.
#[local] Open Scope nat_scope.

(** A document: the tree, the local names, and of each element _current_scale,
    _current_translate and its 'zoomAndPan' attribute. *)
Record world := mkWorld {
  w_tree : forest;
  w_name : nat -> text;
  w_scale : nat -> Q;
  w_move : nat -> Q * Q;
  w_zoom : nat -> option text
}.

Definition svg_name (t : text) : bool := text_eqb t (lit "svg").
Definition viewport_name (t : text) : bool := text_eqb t (lit "svg") || text_eqb t (lit "symbol").
(* the loops go up by getparent(); a tree of k nodes is climbed in k steps *)
Definition enough (s : forest) : nat := length (flat_map (flat_map (fix go (t : tree) : list nat := match t with Nd i _ _ ks => i :: flat_map go ks end)) s).

(* svgpy/base.py 167-179, 181-188 *)
Fixpoint farthest_loop (fuel : nat) (test : text -> bool) (w : world) (root element : option nat) : option nat :=
  match element with
  | None => root
  | Some e =>
    match fuel with
    | O => root
    | S f => farthest_loop f test w (if test (w_name w e) then Some e else root) (parent_of (w_tree w) e)
    end
  end.
(* 190-196, 198-204 *)
Fixpoint nearest_loop (fuel : nat) (test : text -> bool) (w : world) (element : option nat) : option nat :=
  match element with
  | None => None
  | Some e =>
    match fuel with
    | O => None
    | S f => if test (w_name w e) then Some e else nearest_loop f test w (parent_of (w_tree w) e)
    end
  end.
Definition get_farthest_svg_element (w : world) (n : nat) : option nat := farthest_loop (enough (w_tree w)) svg_name w None (Some n).
Definition get_farthest_viewport_element (w : world) (n : nat) : option nat := farthest_loop (enough (w_tree w)) viewport_name w None (Some n).
Definition get_nearest_svg_element (w : world) (n : nat) : option nat := nearest_loop (enough (w_tree w)) svg_name w (Some n).
Definition get_nearest_viewport_element (w : world) (n : nat) : option nat := nearest_loop (enough (w_tree w)) viewport_name w (Some n).

(* farthest is not None and hash(farthest) == hash(self) *)
Definition is_farthest (w : world) (n : nat) : bool := match get_farthest_svg_element w n with Some r => Nat.eqb r n | None => false end.
(* farthest is not None and hash(farthest) != hash(self) *)
Definition inner (w : world) (n : nat) : bool := match get_farthest_svg_element w n with Some r => negb (Nat.eqb r n) | None => false end.

(* 144-153 *)
Definition owner_svg_element (w : world) (n : nat) : option nat := if is_farthest w n then None else get_nearest_svg_element w n.
(* 155-165 *)
Definition viewport_element (w : world) (n : nat) : option nat := if is_farthest w n then None else get_nearest_viewport_element w n.

Definition put {A} (f : nat -> A) (n : nat) (a : A) : nat -> A := fun m => if Nat.eqb m n then a else f m.
(* svgpy/element.py 848-854 *)
Definition current_scale (w : world) (n : nat) : Q := if inner w n then 1%Q else w_scale w n.
(* 856-861 *)
Definition set_current_scale (w : world) (n : nat) (q : Q) : world :=
  if inner w n then w else mkWorld (w_tree w) (w_name w) (put (w_scale w) n q) (w_move w) (w_zoom w).
(* 863-870 *)
Definition current_translate (w : world) (n : nat) : Q * Q := if inner w n then (0%Q, 0%Q) else w_move w n.
(* 872-877 *)
Definition set_current_translate (w : world) (n : nat) (p : Q * Q) : world :=
  if inner w n then w else mkWorld (w_tree w) (w_name w) (w_scale w) (put (w_move w) n p) (w_zoom w).

(* svgpy/base.py 810-816 *)
Definition zoom_types : list (nat * text) := [(1, lit "disable"); (2, lit "magnify")].
(* 818-824 *)
Definition zoom_and_pan (w : world) (n : nat) : nat :=
  let value := match w_zoom w n with Some t => t | None => lit "disable" end in
  match find (fun p => text_eqb (snd p) value) zoom_types with Some p => fst p | None => 0 end.
(* 826-831 *)
Definition set_zoom_attribute (w : world) (n : nat) (t : option text) : world :=
  mkWorld (w_tree w) (w_name w) (w_scale w) (w_move w) (put (w_zoom w) n t).
Definition set_zoom_and_pan (w : world) (n : nat) (value : nat) : world :=
  match find (fun p => Nat.eqb (fst p) value) zoom_types with Some p => set_zoom_attribute w n (Some (snd p)) | None => w end.

(** Histories: edits of the tree and assignments, in any order. *)
Inductive deed :=
  | Edit (o : op)
  | Scale (n : nat) (q : Q)
  | Translate (n : nat) (p : Q * Q)
  | Zoom (n value : nat)
  | ZoomText (n : nat) (t : option text).
Definition act (w : world) (d : deed) : world :=
  match d with
  | Edit o => mkWorld (fst (run (w_tree w) o)) (w_name w) (w_scale w) (w_move w) (w_zoom w)
  | Scale n q => set_current_scale w n q
  | Translate n p => set_current_translate w n p
  | Zoom n v => set_zoom_and_pan w n v
  | ZoomText n t => set_zoom_attribute w n t
  end.
Definition acts (w : world) (ds : list deed) : world := fold_left act ds w.
(* a document just read: _init, element.py 843-846 *)
Definition fresh (s : forest) (names : nat -> text) (zooms : nat -> option text) : world :=
  mkWorld s names (fun _ => 1%Q) (fun _ => (0%Q, 0%Q)) zooms.
