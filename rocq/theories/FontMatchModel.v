(** Choosing a font face: svgpy/core.py 753-890 (FontManager._find_face), 945-950
    (FontManager.match); svgpy/fontconfig.py 153-173.  What fontconfig and FreeType answer is
    an oracle.  Weights, widths and sizes are numbers. *)
From Coq Require Import Qabs.
From Verif Require Import PyBase PyText.
#[local] Open Scope Q_scope.

(* an entry of FontManager.list *)
Record face := mkFace { f_file : text; f_index : Z; f_size : Q; f_slant : Z; f_weight : Q; f_width : Q }.
Record fonts := mkFonts { match_family : text -> option text; list_family : text -> list face; has_glyph : face -> N -> bool }.
Record fstyle := mkFStyle { s_families : list text; s_stretch : text; s_style : text; s_weight : Q; s_size : Q }.

(* fontconfig.py 163-173 *)
Definition width_map (t : text) : option Q :=
  match find (fun p => text_eqb (fst p) t)
    [(lit "ultra-condensed", 50); (lit "extra-condensed", 63); (lit "condensed", 75); (lit "semi-condensed", 87); (lit "normal", 100);
     (lit "semi-expanded", 113); (lit "expanded", 125); (lit "extra-expanded", 150); (lit "ultra-expanded", 200)] with
  | Some p => Some (snd p) | None => None end.
(* fontconfig.py 155-159 *)
Definition normal_slant : Z := 0. Definition italic_slant : Z := 100. Definition oblique_slant : Z := 110.
(* str.endswith *)
Definition endswith (t s : text) : bool := text_eqb (skipn (length t - length s) t) s && (length s <=? length t)%nat.
(* sorted(set(l)) *)
Fixpoint insert_up (x : Q) (l : list Q) : list Q := match l with [] => [x] | y :: r => if x <?q y then x :: l else if x =?q y then l else y :: insert_up x r end.
Definition sort_up (l : list Q) : list Q := fold_right insert_up [] l.
(* table[np.abs(np.asarray(table) - d).argmin()]: the first of the nearest *)
Definition dist (d x : Q) : Q := Qabs (x - d).
Fixpoint argmin (d best : Q) (l : list Q) : Q := match l with [] => best | x :: r => if dist d x <?q dist d best then argmin d x r else argmin d best r end.
(* the narrowing steps on width, weight and size: exact matches, else the nearest *)
Definition exactly (key : face -> Q) (d : Q) (l : list face) : list face := filter (fun f => d =?q key f) l.
Definition narrow (key : face -> Q) (down : bool) (d : Q) (l : list face) : list face :=
  match exactly key d l with
  | [] => let up := sort_up (map key l) in
          match (if down then rev up else up) with [] => [] | x :: r => let v := argmin d x r in filter (fun f => v =?q key f) l end
  | g => g
  end.
(* 772-796 *)
Definition by_width (st : fstyle) (l : list face) : list face :=
  match width_map (s_stretch st) with
  | None => []
  | Some w => narrow f_width (negb (text_eqb (s_stretch st) (lit "normal") || endswith (s_stretch st) (lit "condensed")) && endswith (s_stretch st) (lit "expanded")) w l
  end.
(* 798-813 *)
Definition slants (st : fstyle) : list Z :=
  if text_eqb (s_style st) (lit "italic") then [italic_slant; oblique_slant; normal_slant]
  else if text_eqb (s_style st) (lit "oblique") then [oblique_slant; italic_slant; normal_slant]
  else [normal_slant; oblique_slant; italic_slant].
Fixpoint by_slant (order : list Z) (l : list face) : list face :=
  match order with [] => l | s :: r => match filter (fun f => Z.eqb s (f_slant f)) l with [] => by_slant r l | g => g end end.
(* 816-838 *)
Definition by_weight (st : fstyle) (l : list face) : list face := narrow f_weight (s_weight st <?q 400) (s_weight st) l.
(* 840-856 *)
Definition by_size (st : fstyle) (l : list face) : list face := narrow f_size false (s_size st) l.
(* 857-861: sorted by file name, by code points, stably *)
Fixpoint text_ltb (a b : text) : bool := match a, b with _, [] => false | [], _ => true | x :: a', y :: b' => if (x <? y)%N then true else if (y <? x)%N then false else text_ltb a' b' end.
Fixpoint insert_file (f : face) (l : list face) : list face := match l with [] => [f] | g :: r => if text_ltb (f_file g) (f_file f) then g :: insert_file f r else f :: l end.
Definition by_file (l : list face) : list face := fold_right insert_file [] l.
(* 864-889 *)
Definition is_blank_char (c : N) : bool := existsb (N.eqb c) [9%N; 13%N; 10%N; 32%N].
Definition covers (fs : fonts) (t : option text) (f : face) : bool := match t with None => true | Some t => forallb (fun c => is_blank_char c || has_glyph fs f c) t end.
Definition candidates (st : fstyle) (l : list face) : list face := by_file (by_size st (by_weight st (by_slant (slants st) (by_width st l)))).
(* 755-759 *)
Fixpoint family_names (fs : fonts) (l : list text) (acc : list text) : list text :=
  match l with
  | [] => acc
  | n :: r => family_names fs r (match match_family fs n with Some m => if existsb (text_eqb m) acc then acc else acc ++ [m] | None => acc end)
  end.
(* 767-889; None is the fallback font of 891-894 *)
Fixpoint search (fs : fonts) (st : fstyle) (t : option text) (names : list text) : option face :=
  match names with
  | [] => None
  | n :: r => match find (covers fs t) (candidates st (list_family fs n)) with Some f => Some f | None => search fs st t r end
  end.
Definition find_face (fs : fonts) (st : fstyle) (t : option text) : option face := search fs st t (family_names fs (s_families st) []).
