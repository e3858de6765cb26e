(** How a text is cut into runs and lines before it is shaped: the wrappers of
    ICU (svgpy/icu.py: UBreakIterator 641-734, UBiDi 492-639) and their use in
    SVGTextContentElement._get_text_path_data (svgpy/text.py:244-347, 502).

    ICU itself is given, as where it cuts and what runs it finds ([engine]).
    cffi turns a str into UTF-16 code units and back.  The status codes of ICU
    are not modelled. *)
From Coq Require Import NArith ZArith List Bool.
From Verif Require Import PyBase PyText PyList PyCase LayoutModel.
Import ListNotations.
#[local] Open Scope N_scope.

(** ** Strings of cffi *)
(* ffi.new('UChar[]', text): a character above U+FFFF is two code units; the
   terminating zero, which len(buf) - 1 leaves out, is not kept here *)
Definition units_of (c : N) : list N :=
  if c <? 65536 then [c] else [55296 + (c - 65536) / 1024; 56320 + (c - 65536) mod 1024].
Definition utf16 (t : text) : list N := flat_map units_of t.
Definition is_high (u : N) : bool := (55296 <=? u) && (u <=? 56319).
Definition is_low (u : N) : bool := (56320 <=? u) && (u <=? 57343).
Fixpoint chars (u : list N) : text :=
  match u with
  | [] => []
  | h :: r =>
      match r with
      | l :: r' => if is_high h && is_low l then (65536 + (h - 55296) * 1024 + (l - 56320)) :: chars r' else h :: chars r
      | [] => [h]
      end
  end.
(* ffi.string of an array ends at the first zero *)
Fixpoint until_nul (u : list N) : list N :=
  match u with [] => [] | x :: r => if x =? 0 then [] else x :: until_nul r end.
Definition ffi_string (u : list N) : text := chars (until_nul u).
(* x[a:b] *)
Definition cut_out {A} (a b : nat) (l : list A) : list A := firstn (b - a) (skipn a l).

(** What ICU says of a text in code units: the ends of the pieces between two
    breaks (ubrk_open, for one type and locale); the limits and levels of the
    logical runs, when the text is left-to-right by default or not; the visual
    runs: start, length, direction. *)
Record engine := mkE { e_breaks : list N -> list nat; e_runs : bool -> list N -> list (nat * N); e_visual : list N -> list (nat * nat * N) }.

(** ** UBreakIterator *)
(* self._source, the text and the position within the C object *)
Record biter := mkBi { b_source : option (list N); b_text : list N; b_pos : nat }.
Definition marks (e : engine) (u : list N) : list nat := 0%nat :: e_breaks e u.
(* 650-663 *)
Definition bi_open (t : option text) : biter :=
  match t with None => mkBi None [] 0 | Some t => mkBi (Some (utf16 t)) (utf16 t) 0 end.
Definition at_ (b : biter) (p : nat) : biter := mkBi (b_source b) (b_text b) p.
Definition done : Z := (-1)%Z.
(* ubrk_first, ubrk_last, ubrk_next, ubrk_previous as their documentation has
   them: beyond the ends they answer UBRK_DONE and stay *)
Definition c_first (b : biter) : Z * biter := (0%Z, at_ b 0).
Definition c_last (e : engine) (b : biter) : Z * biter := let p := last (marks e (b_text b)) 0%nat in (Z.of_nat p, at_ b p).
Definition c_next (e : engine) (b : biter) : Z * biter :=
  match find (fun m => b_pos b <? m)%nat (marks e (b_text b)) with
  | Some m => (Z.of_nat m, at_ b m)
  | None => (done, b)
  end.
Definition c_previous (e : engine) (b : biter) : Z * biter :=
  match find (fun m => m <? b_pos b)%nat (rev (marks e (b_text b))) with
  | Some m => (Z.of_nat m, at_ b m)
  | None => (done, b)
  end.
(* 729-734 *)
Definition bi_set_text (b : biter) (t : text) : biter := mkBi (Some (utf16 t)) (utf16 t) 0.
(* 665-667 *)
Definition bi_iter (b : biter) : biter := snd (c_first b).
(* 669-678; None is StopIteration *)
Definition bi_next (e : engine) (b : biter) : result (option text) * biter :=
  let start := b_pos b in
  let '(en, b') := c_next e b in
  if (en =? done)%Z then (Ok None, b')
  else match b_source b' with
       | None => (Err TypeError, b')
       | Some s =>
           if (0 <=? Z.of_nat start)%Z && (Z.of_nat start <? en)%Z && (en <=? Z.of_nat (length s))%Z
           then (Ok (Some (ffi_string (cut_out start (Z.to_nat en) s))), b')
           else (Err AssertionError_, b')
       end.
(* what a for loop takes, from where the iterator is *)
Fixpoint bi_take (e : engine) (fuel : nat) (b : biter) : result (list text) * biter :=
  match fuel with
  | O => (Err OtherError, b)
  | S f => match bi_next e b with
           | (Ok None, b') => (Ok [], b')
           | (Ok (Some p), b') => match bi_take e f b' with
                                  | (Ok ps, b2) => (Ok (p :: ps), b2)
                                  | (Err x, b2) => (Err x, b2)
                                  end
           | (Err x, b') => (Err x, b')
           end
  end.
Definition bi_fuel (b : biter) : nat := S (length (b_text b)).
(* list(bi) *)
Definition bi_list (e : engine) (b : biter) : result (list text) * biter := let b := bi_iter b in bi_take e (bi_fuel b) b.
(* 680-685: reversed(bi) *)
Definition bi_reversed (e : engine) (b : biter) : result (list text) * biter :=
  match bi_list e b with (Ok ps, b') => (Ok (rev ps), b') | (Err x, b') => (Err x, b') end.

(** Calls on one object *)
Inductive call := First | Last | Next | Previous | Current | SetText (t : text) | Iter | PyNext | ForAll | Reversed.
Inductive answer := Offset (z : Z) | Nothing | Piece (t : text) | Stop | Pieces (ts : list text).
Definition lift (r : result (list text) * biter) : result answer * biter :=
  match r with (Ok ps, b) => (Ok (Pieces ps), b) | (Err x, b) => (Err x, b) end.
Definition bi_call (e : engine) (b : biter) (c : call) : result answer * biter :=
  match c with
  | First => let '(z, b') := c_first b in (Ok (Offset z), b')
  | Last => let '(z, b') := c_last e b in (Ok (Offset z), b')
  | Next => let '(z, b') := c_next e b in (Ok (Offset z), b')
  | Previous => let '(z, b') := c_previous e b in (Ok (Offset z), b')
  | Current => (Ok (Offset (Z.of_nat (b_pos b))), b)
  | SetText t => (Ok Nothing, bi_set_text b t)
  | Iter => (Ok Nothing, bi_iter b)
  | PyNext => match bi_next e b with
              | (Ok None, b') => (Ok Stop, b')
              | (Ok (Some p), b') => (Ok (Piece p), b')
              | (Err x, b') => (Err x, b')
              end
  | ForAll => lift (bi_list e b)
  | Reversed => lift (bi_reversed e b)
  end.
Fixpoint bi_calls (e : engine) (b : biter) (cs : list call) : list (result answer) * biter :=
  match cs with
  | [] => ([], b)
  | c :: cs' => let '(a, b1) := bi_call e b c in let '(as_, b2) := bi_calls e b1 cs' in (a :: as_, b2)
  end.

(** ** UBiDi *)
(* 551-558: the limit and the level of the run that a position is in *)
Fixpoint logical_run (rs : list (nat * N)) (p : nat) : result (nat * N) :=
  match rs with
  | [] => Err OtherError
  | (limit, level) :: rs' => if (p <? limit)%nat then Ok (limit, level) else logical_run rs' p
  end.
(* 611-618 *)
Definition visual_iter (e : engine) (t : text) : list text :=
  let source := utf16 t in
  map (fun r => let '(start, len, dir) := r in
                let s := ffi_string (cut_out start (start + len) source) in
                if dir =? 1 then rev s else s) (e_visual e source).

(** ** The runs and lines of a text (text.py:330-347, 502) *)
Record part := mkPart { pt_start : nat; pt_rtl : bool; pt_lines : list text }.
Definition against_run (ltr rtl : bool) : bool := (negb ltr && negb rtl) || (ltr && rtl).
(* 335-347, 502; the first argument bounds the loop *)
Fixpoint parts_from (fuel : nat) (e : engine) (ltr : bool) (t : text) (start : nat) (b : biter) : result (list part) :=
  match fuel with
  | O => Err OtherError
  | S f =>
      if (start <? length (utf16 t))%nat then
        do (limit, level) <- logical_run (e_runs e ltr (utf16 t)) start;
        let rtl := N.land level 1 =? 1 in
        let b := bi_set_text b (cut_out start limit t) in
        match (if against_run ltr rtl then bi_reversed e b else bi_list e b) with
        | (Err x, _) => Err x
        | (Ok ls, b') => do rest <- parts_from f e ltr t limit b'; Ok (mkPart start rtl ls :: rest)
        end
      else Ok []
  end.
Definition parts (e : engine) (ltr : bool) (t : text) : result (list part) :=
  parts_from (S (length (utf16 t))) e ltr t 0 (bi_open None).
(* as LayoutModel has them: the shaper is given *)
Definition shaped (shape : text -> list glyph) (p : part) : run :=
  mkR (pt_start p) (pt_rtl p) (map (fun l => mkL (length l) (shape l)) (pt_lines p)).

(** ** What the style decides (text.py:244-308) *)
Record look := mkLook { k_direction : text; k_weight : Z; k_style : text; k_synthesis : list text; k_mode : text;
  k_override : text; k_xml_lang : option text; k_lang : option text }.
Definition flag_italic : N := 1.
Definition flag_bold : N := 2.
(* 244-245 *)
Definition look_ltr (k : look) : bool := text_eqb (k_direction k) (lit "ltr").
Definition among (t : text) (l : list text) : bool := existsb (text_eqb t) l.
(* 256-260 *)
Definition force_embolden (k : look) (flags : N) : bool :=
  (400 <? k_weight k)%Z && among (lit "weight") (k_synthesis k) && (N.land flags flag_bold =? 0).
(* 261-265 *)
Definition force_oblique (k : look) (flags : N) : bool :=
  negb (text_eqb (k_style k) (lit "normal")) && among (lit "style") (k_synthesis k) && (N.land flags flag_italic =? 0).
(* 279-280 *)
Definition look_horizontal (k : look) : bool := among (k_mode k) [lit "horizontal-tb"; lit "lr"; lit "lr-tb"; lit "rl"; lit "rl-tb"].
(* 281 *)
Definition look_sideways (k : look) : bool := text_eqb (firstn 8 (k_mode k)) (lit "sideways").
(* 285-291 *)
Inductive hb_dir := HbLtr | HbRtl | HbTtb.
Definition look_hb (k : look) : hb_dir := if look_horizontal k then (if look_ltr k then HbLtr else HbRtl) else HbTtb.
(* 294-308; opentype.py:753-755, with its table as the argument [codes], of
   which the first code of an entry is used *)
Definition look_locale (codes : text -> option text) (default : text) (k : look) : text :=
  let found :=
    if negb (text_eqb (k_override k) (lit "normal")) then codes (upper (k_override k))
    else match k_xml_lang k with Some l => Some l | None => k_lang k end in
  match found with Some l => l | None => default end.
