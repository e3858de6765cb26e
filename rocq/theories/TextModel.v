(** White-space processing of text content: svgpy/core.py 83-86 and 246-328, and the
    collection of text chunks, svgpy/text.py 52-132. *)
From Verif Require Import PyBase PyText PySplit.
#[local] Open Scope N_scope.

(* what is not modelled of other libraries: html.unescape, and whether
   unicodedata.east_asian_width is one of F, W and H *)
Record charlib := mkC { c_unescape : text -> text; c_wide : N -> bool }.

(* 251-256 *)
Definition is_hangul (c : N) : bool :=
  ((44032 <=? c) && (c <=? 55215)) || ((4352 <=? c) && (c <=? 4607)) || ((12592 <=? c) && (c <=? 12687))
  || ((43360 <=? c) && (c <=? 43391)) || ((55216 <=? c) && (c <=? 55295)).
Definition zwsp : N := 8203.
Definition is_blank (c : N) : bool := (c =? 32) || (c =? 9).
Definition is_break (c : N) : bool := (c =? 13) || (c =? 10).
Definition tab_space (c : N) : N := if c =? 9 then 32 else c.
Definition cr_lf (c : N) : N := if c =? 13 then 10 else c.

(* 85: ^(\x20|\t)+ in multi-line mode, where lines end at U+000A only *)
Definition strip_leading (t : text) : text := join [10] (map (dropwhile is_blank) (split_on 10 t)).
(* 86: (\x20|\t)+$ in multi-line mode *)
Definition strip_trailing (t : text) : text := join [10] (map (rdropwhile is_blank) (split_on 10 t)).
(* 83: (\x20){2,} replaced by a space *)
Fixpoint collapse (t : text) : text :=
  match t with
  | [] => []
  | c :: t' => if (c =? 32) && match t' with d :: _ => d =? 32 | [] => false end then collapse t' else c :: collapse t'
  end.
(* str.replace of CR LF by LF *)
Fixpoint crlf (t : text) : text :=
  match t with
  | [] => []
  | c :: t' => if (c =? 13) && match t' with d :: _ => d =? 10 | [] => false end then crlf t' else c :: crlf t'
  end.
(* 276-292: what a run of segment breaks between two characters becomes *)
Definition broken (lib : charlib) (prev next : option N) : text :=
  let z o := match o with Some c => c =? zwsp | None => false end in
  let w o := match o with Some c => c_wide lib c && negb (is_hangul c) | None => false end in
  if z prev || z next then [] else if w prev && w next then [] else [32].
(* 84, 266-294: the runs of breaks one by one; [prev] is the character before the run
   and [run] says whether a run is open *)
Fixpoint breaks (lib : charlib) (prev : option N) (run : bool) (t : text) : text :=
  match t with
  | [] => if run then broken lib prev None else []
  | c :: t' => if is_break c then breaks lib prev true t'
               else (if run then broken lib prev (Some c) else []) ++ c :: breaks lib (Some c) false t'
  end.
(* 258-294 *)
Definition segment_breaks (lib : charlib) (ws t : text) : text :=
  if mem ws [lit "pre"; lit "pre-wrap"; lit "pre-line"] then map cr_lf (crlf t) else breaks lib None false t.
(* 302-315 *)
Definition processed (lib : charlib) (ws t : text) : text :=
  let t := c_unescape lib t in
  let t := if mem ws [lit "normal"; lit "nowrap"; lit "pre-line"]
           then collapse (map tab_space (segment_breaks lib ws (strip_trailing (strip_leading t)))) else t in
  if mem ws [lit "pre"; lit "pre-wrap"] then segment_breaks lib ws t else t.
Definition starts_space (t : text) : bool := match t with c :: _ => c =? 32 | [] => false end.
Definition ends_space (t : text) : bool := starts_space (rev t).
(* 317-321; str.lstrip() takes every white space away *)
Definition after (prev : option text) (t : text) : text :=
  match prev with
  | None => t
  | Some p => if ends_space p && starts_space t then dropwhile is_space t
              else if negb (ends_space p) && negb (starts_space t) then 32 :: t else t
  end.
(* 246-328 *)
Definition normalize_text (lib : charlib) (ws t : text) (prev : option text) (first tail : bool) : text :=
  let t := after prev (processed lib ws t) in
  let t := if first then dropwhile (N.eqb 32) t else t in
  if tail then rdropwhile (N.eqb 32) t else t.

(** ** The chunks of an element (svgpy/text.py 52-132).
    An element: istext(), isdisplay(), whether its name is in TEXT_CONTENT_CHILD_ELEMENTS,
    its computed white-space, its text, and its children each with its tail.  Children
    that are not elements are left out.  Of a chunk only the text is kept. *)
Inductive telem := TE (istext shown child : bool) (ws : text) (content : option text) (kids : list (telem * option text)).
(* 79-101 *)
Definition add_chunk (lib : charlib) (ws : text) (t : option text) (s : list text * option text * bool) : list text * option text * bool :=
  match t with
  | None => s
  | Some t => let '(chunks, prev, first) := s in
              let out := normalize_text lib ws t prev first false in
              match out with [] => s | _ => (chunks ++ [out], Some out, false) end
  end.
Fixpoint chunks_of (lib : charlib) (is_display : bool) (e : telem) (prev : option text) (first : bool) : result (list text * option text) :=
  match e with
  | TE istext shown child ws content kids =>
      if negb istext || (is_display && negb shown) then Ok ([], prev)
      else
        (* 103-131 *)
        (fix go (ks : list (telem * option text)) (s : list text * option text * bool) : result (list text * option text) :=
           match ks with
           | [] => Ok (fst (fst s), snd (fst s))
           | (TE ki ks_ kc _ _ _ as k, tl) :: r =>
               do s <- (if ki && (negb is_display || ks_) then
                          do (cs, out) <- chunks_of lib is_display k (snd (fst s)) (snd s);
                          match out with
                          | None => Err TypeError                     (* len(None) *)
                          | Some [] => Ok s
                          | Some out => Ok (fst (fst s) ++ cs, Some out, false)
                          end
                        else Ok s);
               go r (if kc then add_chunk lib ws tl s else s)
           end) kids (add_chunk lib ws content ([], prev, first))
  end.
