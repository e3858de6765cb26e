(** The addressable characters of a text element and their advances: svgpy/text.py 42-51,
    52-175 (without the shaping of 156-174) and 608-712. *)
From Coq Require Import QArith.
From Verif Require Import PyBase PyText PyList PySplit LookupModel TextModel.
#[local] Open Scope N_scope.

(** A node: a comment or processing instruction, which has no local_name (dom.py
    1133-1150, 2435-2450), or an element with hash(element), its local name, isdisplay(),
    its computed white-space, its text, and its children each with its tail.
    hash(element) is a number of its own for each element. *)
Inductive celem :=
  | CO
  | CE (key : N) (name : text) (shown : bool) (ws : text) (content : option text) (kids : list (celem * option text)).
(* a chunk: _CHARS_ID and _CHARS_TEXT of what chars_info holds *)
Definition chunk := (N * text)%type.
Definition state := (list chunk * option text * bool)%type.
(* 84-101 and 117-131: one piece of text, normalised with the style of its owner *)
Definition add_text (lib : charlib) (key : N) (ws : text) (t : option text) (s : state) : state :=
  match t with
  | None => s
  | Some t => let '(cs, prev, first) := s in
              let out := normalize_text lib ws t prev first false in
              match out with [] => s | _ => (cs ++ [(key, out)], Some out, false) end
  end.
(* 52-132.  The style is read again from style_map for the same element, so that it is
   always the one computed for it. *)
Fixpoint walk (lib : charlib) (d : bool) (e : celem) (prev : option text) (first : bool) : result (list chunk * option text) :=
  match e with
  | CO => Ok ([], prev)
  | CE key name shown ws content kids =>
      if negb (mem name text_elements) || (d && negb shown) then Ok ([], prev)
      else
        (fix go (ks : list (celem * option text)) (s : state) : result (list chunk * option text) :=
           match ks with
           | [] => Ok (fst (fst s), snd (fst s))
           | (CO, _) :: _ => Err AttributeError                         (* 115: child.local_name *)
           | (CE _ kn kshown _ _ _ as k, tl) :: r =>
               do s <- (if mem kn text_elements && (negb d || kshown) then
                          do (cs, out) <- walk lib d k (snd (fst s)) (snd s);
                          match out with
                          | None => Err TypeError                        (* 111: len(None) *)
                          | Some [] => Ok s
                          | Some out => Ok (fst (fst s) ++ cs, Some out, false)
                          end
                        else Ok s);
               go r (if mem kn text_children then add_text lib key ws tl s else s)
           end) kids (add_text lib key ws content ([], prev, first))
  end.
(* str.rstrip() on the last of the chunks, 150-153 *)
Fixpoint trim_last (cs : list chunk) : list chunk :=
  match cs with
  | [] => []
  | [(k, t)] => [(k, rdropwhile is_space t)]
  | c :: r => c :: trim_last r
  end.
(* 134-153, called with first=True and is_display=True *)
Definition chars_info (lib : charlib) (root : celem) : result (list chunk) :=
  do (cs, _) <- walk lib true root None true; Ok (trim_last cs).

(** An element in its tree: itself, then its parent and so on (getparent). *)
Definition line := list celem.
Definition name_of (e : celem) : text := match e with CE _ n _ _ _ _ => n | CO => [] end.
Definition key_of (e : celem) : N := match e with CE k _ _ _ _ _ => k | CO => 0 end.
(* 640-646; a parent is always an element *)
Fixpoint nearest_text (l : line) : option celem :=
  match l with
  | [] => None
  | e :: r => if text_eqb (name_of e) (lit "text") then Some e else nearest_text r
  end.
Definition owned {A} (k : N) (l : list (N * A)) : list A := map snd (filter (fun x => N.eqb (fst x) k) l).
(* 613-638 *)
Definition get_chars (lib : charlib) (l : line) : result (option text) :=
  match nearest_text l with
  | None => Ok None
  | Some root =>
      do cs <- chars_info lib root;
      match l with
      | [] => Ok None
      | self :: _ =>
          if text_eqb (name_of self) (lit "text") then Ok (Some (concat (map snd cs)))
          else if mem (name_of self) text_children then
            match owned (key_of self) cs with [] => Ok None | t :: _ => Ok (Some t) end
          else Ok None
      end
  end.
(* 648-657 *)
Definition get_number_of_chars (lib : charlib) (l : line) : result nat :=
  do o <- get_chars lib l; Ok (match o with None => O | Some t => length t end).

(* what shaping gives: an advance for each character of each chunk, in a list per chunk *)
Definition shaper := list chunk -> list (N * list Q).
Definition sum (l : list Q) : Q := fold_left Qplus l 0%Q.
(* 710-712 *)
Definition sub_sum (adv : list Q) (char_num nchars : Z) : Q :=
  let last := (if nchars =? -1 then Z.of_nat (length adv) else char_num + nchars)%Z in
  sum (list_slice adv char_num last).
(* 685-712 *)
Definition get_sub_string_length (lib : charlib) (shape : shaper) (l : line) (char_num nchars : Z) : result Q :=
  match nearest_text l with
  | None => Ok 0%Q
  | Some root =>
      do cs <- chars_info lib root;
      let infos := shape cs in
      match l with
      | [] => Err NotImplementedError_
      | self :: _ =>
          if text_eqb (name_of self) (lit "text") then Ok (sub_sum (concat (map snd infos)) char_num nchars)
          else if mem (name_of self) text_children then
            match owned (key_of self) infos with [] => Ok 0%Q | a :: _ => Ok (sub_sum a char_num nchars) end
          else Err NotImplementedError_
      end
  end.
(* 610-611 *)
Definition get_computed_text_length (lib : charlib) (shape : shaper) (l : line) : result Q := get_sub_string_length lib shape l 0 (-1).
