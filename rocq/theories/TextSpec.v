(** What white-space processing should do. *)
From Verif Require Import PyBase PyText PySplit TextModel.
#[local] Open Scope N_scope.

(* space, tab, carriage return, line feed *)
Definition collapsible (c : N) : bool := existsb (N.eqb c) [32; 9; 13; 10].
(* the characters that are not white space *)
Definition visible (t : text) : text := filter (fun c => negb (is_space c)) t.
Definition kept (t : text) : text := filter (fun c => negb (collapsible c)) t.
(* no two spaces side by side *)
Fixpoint no_run (t : text) : Prop :=
  match t with [] => True | c :: t' => match t' with d :: _ => ~ (c = 32 /\ d = 32) | [] => True end /\ no_run t' end.
(* the non-empty pieces between separators *)
Fixpoint fields_acc (sep : N -> bool) (w t : text) : list text :=
  match t with
  | [] => flush w
  | c :: t' => if sep c then flush w ++ fields_acc sep [] t' else fields_acc sep (w ++ [c]) t'
  end.
Definition fields (sep : N -> bool) (t : text) : list text := fields_acc sep [] t.
(* the lines of a text; a line ends with CR LF, CR or LF *)
Fixpoint lines_acc (w t : text) : list text :=
  match t with
  | [] => [w]
  | c :: t' => if c =? 10 then w :: lines_acc [] t'
               else if c =? 13 then match t' with
                                    | d :: t'' => if d =? 10 then w :: lines_acc [] t'' else w :: lines_acc [] t'
                                    | [] => w :: lines_acc [] t'
                                    end
               else lines_acc (w ++ [c]) t'
  end.
Definition lines (t : text) : list text := lines_acc [] t.
(* no zero width space, and no wide character but Hangul *)
Definition narrow (lib : charlib) (t : text) : bool := forallb (fun c => negb (c =? zwsp) && negb (c_wide lib c && negb (is_hangul c))) t.
Definition wrapping (ws : text) : Prop := ws = lit "normal" \/ ws = lit "nowrap".
Definition keeping (ws : text) : Prop := ws = lit "pre" \/ ws = lit "pre-wrap".

(* the texts that are drawn, in document order, each with its white-space value *)
Fixpoint texts_of (is_display : bool) (e : telem) : list (text * text) :=
  match e with
  | TE istext shown child ws content kids =>
      if istext && (negb is_display || shown) then
        match content with Some t => [(ws, t)] | None => [] end ++
        (fix go (ks : list (telem * option text)) : list (text * text) :=
           match ks with
           | [] => []
           | (k, tl) :: r => texts_of is_display k ++
               (match k with TE _ _ child _ _ _ => match tl with Some t => if child then [(ws, t)] else [] | None => [] end end) ++ go r
           end) kids
      else []
  end.
(* each text is separated from the one before by exactly one space *)
Fixpoint linked (prev : option text) (l : list text) : Prop :=
  match l with
  | [] => True
  | t :: r => t <> [] /\ match prev with None => starts_space t = false | Some p => ends_space p = negb (starts_space t) end /\ linked (Some t) r
  end.
