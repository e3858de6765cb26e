(** The metrics of a font: Font (svgpy/core.py 624-742), FontManager.get_face
    (902-921), and the units ex, cap, ch and ic of SVGLength.value (1407-1413,
    1437-1455, 1509-1541).

    FreeType is given ([ftface]): which glyph a character has, the metrics of a
    glyph at a size and the sizes it accepts.  Metrics are numbers, in 1/64
    pixels as FreeType has them.  RuntimeError is [OtherError].  Numbers are
    exact, as in LengthModel. *)
From Verif Require Import PyBase PyText PySplit LengthModel FontMatchModel ScreenModel.
#[local] Open Scope Q_scope.

(* FT_Glyph_Metrics: height, horiAdvance, vertAdvance *)
Record glyph := mkG { g_height : Q; g_hadv : Q; g_vadv : Q }.
(* FT_Size_RequestRec with FT_SIZE_REQUEST_TYPE_NOMINAL (freetype.py 393-403):
   width and height in 1/64 points, resolutions *)
Record request := mkRq { rq_width : Z; rq_height : Z; rq_hres : Z; rq_vres : Z }.
(* FT_Get_Char_Index, FT_Load_Glyph (None is an error), the ascender and the
   descender of FT_FaceRec, y_ppem and height of FT_Size_Metrics, whether
   FT_Select_Charmap and FT_Request_Size succeed *)
Record ftface := mkFt { ft_index : N -> nat; ft_load : request -> nat -> option glyph; ft_ascender : Q; ft_descender : Q;
  ft_ppem : request -> Q; ft_line : request -> Q; ft_unicode : bool; ft_accepts : request -> bool }.
(* the computed style of the element, as far as Font reads it *)
Record cstyle := mkCs { c_font : fstyle; c_adjust : option Q; c_mode : text; c_orientation : text }.
(* a Font: its face with the size set last and the glyph loaded last *)
Record font := mkFont { fo_face : ftface; fo_size : request; fo_slot : option glyph; fo_style : cstyle }.

(* freetype.py 357-360 and 350-355: FT_Load_Char is FT_Get_Char_Index, then
   FT_Load_Glyph *)
Definition load_glyph (fo : font) (i : nat) : result unit * font :=
  match ft_load (fo_face fo) (fo_size fo) i with
  | Some g => (Ok tt, mkFont (fo_face fo) (fo_size fo) (Some g) (fo_style fo))
  | None => (Err OtherError, mkFont (fo_face fo) (fo_size fo) None (fo_style fo))
  end.
Definition load_char (fo : font) (c : N) : result unit * font := load_glyph fo (ft_index (fo_face fo) c).
(* self._face.glyph.metrics *)
Definition slot (fo : font) : glyph := match fo_slot fo with Some g => g | None => mkG 0 0 0 end.
Definition then_read (r : result unit * font) (read : font -> Q) : result Q * font :=
  match r with (Ok _, fo) => (Ok (read fo), fo) | (Err e, fo) => (Err e, fo) end.
(* 680, 719 *)
Definition horizontal_mode (fo : font) : bool :=
  mem (c_mode (fo_style fo)) [lit "horizontal-tb"; lit "lr"; lit "lr-tb"; lit "rl"; lit "rl-tb"].
(* 679-688, 718-727 *)
Definition advance (fo : font) : Q :=
  if horizontal_mode fo then g_hadv (slot fo) / 64
  else if text_eqb (c_orientation (fo_style fo)) (lit "upright") then 0
  else g_vadv (slot fo) / 64.
(* 732-735 *)
Definition x_height (fo : font) : result Q * font := then_read (load_char fo 120) (fun fo => g_height (slot fo) / 64).
(* 674-688 *)
Definition ch_advance (fo : font) : result Q * font := then_read (load_char fo 48) advance.
(* 710-727 *)
Definition ic_advance (fo : font) : result Q * font :=
  let index := ft_index (fo_face fo) 27700 in
  if Nat.eqb index 0 then (Ok 0, fo) else then_read (load_glyph fo index) advance.
(* 665-672; FTSize has no attribute height (freetype.py 862-875) *)
Fixpoint cap_loop (fo : font) (cs : list N) : result Q * font :=
  match cs with
  | [] => (Err AttributeError, fo)
  | c :: cs' => if Nat.eqb (ft_index (fo_face fo) c) 0 then cap_loop fo cs'
                else then_read (load_char fo c) (fun fo => g_vadv (slot fo) / 64)
  end.
Definition cap_height (fo : font) : result Q * font := cap_loop fo [72; 104]%N.
(* 737-742; freetype.py 393-403 *)
Definition set_point_size (fo : font) (w h hr vr : Z) : result unit * font :=
  let r := mkRq w h hr vr in
  if ft_accepts (fo_face fo) r then (Ok tt, mkFont (fo_face fo) r (fo_slot fo) (fo_style fo)) else (Err OtherError, fo).

(** Uses of one Font *)
Inductive fop := Ascent | Descent | CapHeight | ChAdvance | IcAdvance | Height | LineHeight | XHeight | SetPointSize (w h hr vr : Z).
Definition fstep (fo : font) (o : fop) : result (option Q) * font :=
  let read (r : result Q * font) := match r with (Ok q, fo) => (Ok (Some q), fo) | (Err e, fo) => (Err e, fo) end in
  match o with
  | Ascent => (Ok (Some (ft_ascender (fo_face fo) / 64)), fo)              (* 657-659 *)
  | Descent => (Ok (Some (ft_descender (fo_face fo) / 64)), fo)            (* 694-696 *)
  | CapHeight => read (cap_height fo)
  | ChAdvance => read (ch_advance fo)
  | IcAdvance => read (ic_advance fo)
  | Height => (Ok (Some (ft_ppem (fo_face fo) (fo_size fo))), fo)          (* 706-708 *)
  | LineHeight => (Ok (Some (ft_line (fo_face fo) (fo_size fo) / 64)), fo) (* 728-730 *)
  | XHeight => read (x_height fo)
  | SetPointSize w h hr vr => match set_point_size fo w h hr vr with (Ok _, fo) => (Ok None, fo) | (Err e, fo) => (Err e, fo) end
  end.
Fixpoint fsteps (fo : font) (os : list fop) : list (result (option Q)) * font :=
  match os with
  | [] => ([], fo)
  | o :: os' => let '(a, fo1) := fstep fo o in let '(as_, fo2) := fsteps fo1 os' in (a :: as_, fo2)
  end.

(** ** Making a font *)
(* FTFace.new_face of the face found, or of the fallback font (891-894) *)
Record fontsys := mkSys { sys_fonts : fonts; sys_open : option face -> option ftface }.
(* 908-915: the resolutions of the screen of the window, else 96; css/screen.py 16-17 *)
Definition resolutions (s : option screen) : Z * Z := match s with Some s => (s_hres s, s_vres s) | None => (96, 96)%Z end.
(* 902-921; unit pt: 1013 *)
Definition get_face (sys : fontsys) (st : fstyle) (s : option screen) (t : option text) : result (ftface * request) :=
  match sys_open sys (find_face (sys_fonts sys) st t) with
  | None => Err OtherError
  | Some f =>
      if ft_unicode f then
        do p <- value (of_number (s_size st) None) (Some (lit "pt")) None;
        let r := mkRq 0 (to_int (p * 64)) (fst (resolutions s)) (snd (resolutions s)) in
        if ft_accepts f r then Ok (f, r) else Err OtherError
      else Err OtherError
  end.
(* 624-633 *)
Definition new_font (sys : fontsys) (st : cstyle) (s : option screen) (t : option text) : result font :=
  do x <- get_face sys (c_font st) s t; Ok (mkFont (fst x) (snd x) None st).
(* 635-646 *)
Fixpoint texts_eqb (a b : list text) : bool :=
  match a, b with [], [] => true | x :: a', y :: b' => text_eqb x y && texts_eqb a' b' | _, _ => false end.
Definition adjust_eqb (a b : option Q) : bool := match a, b with None, None => true | Some x, Some y => x =?q y | _, _ => false end.
Definition font_eqb (x y : font) : bool :=
  let a := c_font (fo_style x) in let b := c_font (fo_style y) in
  texts_eqb (s_families a) (s_families b) && (s_size a =?q s_size b) && adjust_eqb (c_adjust (fo_style x)) (c_adjust (fo_style y))
  && text_eqb (s_stretch a) (s_stretch b) && text_eqb (s_style a) (s_style b) && (s_weight a =?q s_weight b).

(** ** The units ex, cap, ch and ic *)
(* 1444-1451, 1529-1536 *)
Definition unit_metric (fo : font) (u : text) : result Q * font :=
  if text_eqb u (lit "ex") then x_height fo else if text_eqb u (lit "cap") then cap_height fo
  else if text_eqb u (lit "ch") then ch_advance fo else ic_advance fo.
(* 1441-1455; [parent] is element_font_size (1369-1381), None is a length
   without context *)
Definition metric_to_px (parent : Q) (fo : option font) (n : Q) (u : text) : result Q * option font :=
  match fo with
  | None => (Ok (n * parent / 2), None)
  | Some fo => match unit_metric fo u with
               | (Ok k, fo) => (Ok (n * (if k =?q 0 then parent else k)), Some fo)
               | (Err e, fo) => (Err e, Some fo)
               end
  end.
(* 1511-1541 *)
Definition px_to_metric (parent : Q) (fo : option font) (s : option screen) (px : Q) (u : text) : result Q :=
  match fo with
  | None => div px (parent / 2)
  | Some fo =>
      let pt := to_int (px / (96 / 72) * 64) in
      match set_point_size fo 0 pt (fst (resolutions s)) (snd (resolutions s)) with
      | (Err e, _) => Err e
      | (Ok _, fo) => match fst (unit_metric fo u) with
                      | Err e => Err e
                      | Ok k => div px (if k =?q 0 then parent else k)
                      end
      end
  end.
(* a length of one of the four units in pixels, and in another of the units *)
Definition metric_convert (parent : Q) (fo : option font) (s : option screen) (n : Q) (u v : text) : result Q :=
  match metric_to_px parent fo n u with (Ok px, fo) => px_to_metric parent fo s px v | (Err e, _) => Err e end.
