(** What the addressable characters of a text element should be, without the walk. *)
From Coq Require Import QArith.
From Verif Require Import PyBase PyText PySplit TextModel CharsModel.
#[local] Open Scope N_scope.

(** The markup of a text element read from left to right: a piece of text with its owner
    and the white-space of the owner, the end of a drawn element, or a comment. *)
Inductive event := Piece (key : N) (ws t : text) | Close | Note.
Definition drawn (name : text) (shown : bool) : bool := shown && (text_eqb name (lit "text") || text_eqb name (lit "tspan")).
Definition flows (name : text) : bool := text_eqb name (lit "textPath") || text_eqb name (lit "tspan").
Definition piece (key : N) (ws : text) (t : option text) : list event := match t with Some t => [Piece key ws t] | None => [] end.
Fixpoint events (e : celem) : list event :=
  match e with
  | CO => []
  | CE key name shown ws content kids =>
      if drawn name shown then
        piece key ws content ++
        flat_map (fun k => match fst k with
                           | CO => [Note]
                           | CE _ n s _ _ _ => (if drawn n s then events (fst k) ++ [Close] else []) ++
                                               (if flows n then piece key ws (snd k) else [])
                           end) kids
      else []
  end.
(** The pieces one after another, each normalised knowing the one before; empty ones
    vanish.  An element that closes before there is any text is an error, and so is a
    comment. *)
Fixpoint read (lib : charlib) (prev : option text) (l : list event) : result (list chunk) :=
  match l with
  | [] => Ok []
  | Piece k ws t :: r =>
      match normalize_text lib ws t prev (match prev with None => true | Some _ => false end) false with
      | [] => read lib prev r
      | out => do cs <- read lib (Some out) r; Ok ((k, out) :: cs)
      end
  | Close :: r => match prev with None => Err TypeError | Some _ => read lib prev r end
  | Note :: _ => Err AttributeError
  end.
Fixpoint pieces (l : list event) : list text := match l with [] => [] | Piece _ _ t :: r => t :: pieces r | _ :: r => pieces r end.
Definition notes (l : list event) : bool := existsb (fun e => match e with Note => true | _ => false end) l.
(* the elements of a tree, as their keys and as they stand *)
Fixpoint keys (e : celem) : list N :=
  match e with CO => [] | CE key _ _ _ _ kids => key :: flat_map (fun k => keys (fst k)) kids end.
Inductive inside : celem -> celem -> Prop :=
  | in_self e : inside e e
  | in_kid x key name shown ws t kids k tl : In (k, tl) kids -> inside x k -> inside x (CE key name shown ws t kids).
(* the sum of the advances from [a] on, [n] of them *)
Fixpoint total (l : list Q) : Q := match l with [] => 0 | x :: r => x + total r end%Q.
(* the last text without the white space at its end *)
Definition trimmed (cs : list chunk) : list chunk :=
  match rev cs with [] => [] | (k, t) :: r => rev r ++ [(k, rev (dropwhile is_space (rev t)))] end.
(* shaping that gives every character of every chunk one advance *)
Definition faithful (shape : shaper) : Prop :=
  forall cs, map (fun x => (fst x, length (snd x))) (shape cs) = map (fun x => (fst x, length (snd x))) cs.
