(** View boxes and viewports: SVGPreserveAspectRatio, SVGFitToViewBox and
    SVGElement.get_viewport_size / get_viewport_transformation_matrix
    (svgpy/base.py 206-340, 507-600, 659-776). *)
From Verif Require Import PyBase PyText PySplit MatrixModel LengthModel.
#[local] Open Scope Q_scope.

(** ** preserveAspectRatio *)
(* the numeric types, 662-680; any int can be assigned to the attributes *)
Record par := mkPar { palign : Z; pmos : Z }.
(* 682-691 *)
Definition align_names : list (Z * text) :=
  [(1%Z, lit "none"); (2%Z, lit "xMinYMin"); (3%Z, lit "xMidYMin"); (4%Z, lit "xMaxYMin");
   (5%Z, lit "XMinYMid"); (6%Z, lit "xMidYMid"); (7%Z, lit "xMaxYMid");
   (8%Z, lit "xMinYMax"); (9%Z, lit "xMidYMax"); (10%Z, lit "xMaxYMax")].
(* 693-694 *)
Definition mos_names : list (Z * text) := [(1%Z, lit "meet"); (2%Z, lit "slice")].
(* the dictionaries 696-719 and their get(key, default) *)
Fixpoint name_of (l : list (Z * text)) (k : Z) (d : text) : text :=
  match l with [] => d | (k', t) :: l' => if (k =? k')%Z then t else name_of l' k d end.
Fixpoint code_of (l : list (Z * text)) (t : text) (d : Z) : Z :=
  match l with [] => d | (k, t') :: l' => if text_eqb t t' then k else code_of l' t d end.

(* dom.py 1393: re.split(r'\s*,\s*|\s+'); [seq_sep] is one separator *)
Definition seq_sep (t : text) : option text :=
  match dropwhile is_space t with
  | c :: r => if (c =? 44)%N then Some (dropwhile is_space r) else if head_not is_space t then None else Some (c :: r)
  | [] => if head_not is_space t then None else Some []
  end.
Fixpoint seq_split (fuel : nat) (w t : text) : list text :=
  match fuel, t with
  | _, [] => [w]
  | O, _ => [w ++ t]
  | S n, c :: t' => match seq_sep t with Some r => w :: seq_split n [] r | None => seq_split n (w ++ [c]) t' end
  end.
Definition split_sequence (t : text) : list text := seq_split (length t) [] t.

(* 753-766; split never gives an empty list *)
Definition par_parse (t : text) : par :=
  match split_sequence (strip t) with
  | [] => mkPar 6 1
  | [a] => mkPar (code_of align_names a 6) 1
  | a :: m :: _ => mkPar (code_of align_names a 6) (code_of mos_names m 1)
  end.
(* 721-726 *)
Definition par_init (t : option text) : par := match t with None => mkPar 6 1 | Some t => par_parse t end.
(* 768-776 *)
Definition par_tostring (p : par) : text :=
  if (palign p =? 1)%Z then lit "none"
  else name_of align_names (palign p) (lit "xMidYMid") ++ lit " " ++ name_of mos_names (pmos p) (lit "meet").

(** ** viewBox (580-600); [l] makes the lengths, whose context is the element *)
Definition view_box (c cc : lctx) (t : text) : result (slength * slength * slength * slength) :=
  let at_ (n : nat) (d : direction) := match nth_error (split_sequence t) n with
                   | None => Err IndexError
                   | Some w => do x <- parse w; Ok (mkL (fst x) (snd x) c cc (Some d))
                   end in
  do x <- at_ 0%nat Horizontal; do y <- at_ 1%nat Vertical; do w <- at_ 2%nat Horizontal; do h <- at_ 3%nat Vertical;
  Ok (x, y, w, h).

(** ** The size of a viewport (231-340).  A root is an 'svg' or 'symbol' with
    its attributes; [rbox] is the size in pixels of the view box found from it
    (get_view_box(), 1396-1400 of core.py).  Without any view box, core.py 1402
    calls get_viewport_size again, which never ends. *)
Record vroot := mkR { rwidth : option text; rheight : option text; rx : option text; ry : option text;
                      rctx : lctx; rcopy : lctx; rbox : option (Q * Q) }.
(* SVGLength(text, context=root, direction=d) *)
Definition rlen (r : vroot) (t : text) (d : direction) : result slength :=
  do x <- parse t; Ok (mkL (fst x) (snd x) (rctx r) (rcopy r) (Some d)).
(* x.value('%') where x has the unit vw or vh: recursion unless there is a view box *)
Definition percent_of (r : vroot) (x : slength) : result Q :=
  if unit_eqb (lunit x) (Some (lit "%")) then Ok (num x)
  else if is_some (rbox r) then value x (Some (lit "%")) None else Err (OtherError).
(* max(a, b) and min(a, b) of Python: the first of equals *)
Definition max_ (a b : slength) : result slength := do g <- gt_ b a; Ok (if g then b else a).
Definition min_ (a b : slength) : result slength := do l <- lt_ b a; Ok (if l then b else a).
(* one of width, height, x, y with its parent sizes; [own] is the unit that
   goes with [d] (265-282, 284-302, 308-321, 323-336) *)
Definition resolve (r : vroot) (t : text) (d : direction) (pw ph : slength) : result slength :=
  do v <- rlen r t d;
  match unit_of v with
  | None => Ok v
  | Some u =>
      let (same, other) := match d with Vertical => (ph, pw) | _ => (pw, ph) end in
      let (vsame, vother) := match d with Vertical => (lit "vh", lit "vw") | _ => (lit "vw", lit "vh") end in
      if mem u [lit "%"; vsame] then (do p <- percent_of r v; Ok (mul_n same (p / 100)))
      else if text_eqb u vother then (do p <- percent_of r v; Ok (mul_n other (p / 100)))
      else if text_eqb u (lit "vmax") then max_ pw ph
      else if text_eqb u (lit "vmin") then min_ pw ph
      else Ok v
  end.
Definition size_of (r : vroot) (t : option text) (d : direction) (pw ph : slength) : result slength :=
  let t := match t with None => lit "auto" | Some t => t end in
  let t := if text_eqb t (lit "auto") then lit "100%" else t in
  if text_eqb t (lit "inherit") then Ok match d with Vertical => ph | _ => pw end
  else resolve r t d pw ph.
(* 263-303: the width is resolved first and is then the parent width of the height *)
Fixpoint vp_sizes (l : list vroot) (pw ph : slength) : result (slength * slength) :=
  match l with
  | [] => Ok (pw, ph)
  | r :: l' => do w <- size_of r (rwidth r) Horizontal pw ph; do h <- size_of r (rheight r) Vertical w ph; vp_sizes l' w h
  end.
(* 251-262: the window, or the default screen *)
Definition window_len (n : Q) (d : direction) : slength := mkL n None no_context no_context (Some d).
Definition get_viewport_size (ww wh : Q) (roots : list vroot) : result (slength * slength * slength * slength) :=
  do s <- vp_sizes roots (window_len ww Horizontal) (window_len wh Vertical);
  let (w, h) := s in
  match rev roots with
  | [] => Ok (of_number 0 None, of_number 0 None, w, h)
  | r :: _ => do x <- resolve r (match rx r with Some t => t | None => lit "0" end) Horizontal w h;
              do y <- resolve r (match ry r with Some t => t | None => lit "0" end) Vertical w h;
              Ok (x, y, w, h)
  end.

(** ** The transformation (507-566) *)
Definition zin (a : Z) (l : list Z) : bool := existsb (Z.eqb a) l.
Definition viewport_matrix (ex ey ew eh : slength) (vb : option (slength * slength * slength * slength * par)) : result dmat :=
  match vb with
  | None => do a <- value ex None None; do b <- value ey None None; Ok (translate_self (DM mat_id true) a b 0)
  | Some (vbx, vby, vbw, vbh, p) =>
      let align := if (palign p =? 0)%Z then 6%Z else palign p in
      let mos := if (pmos p =? 0)%Z then 1%Z else pmos p in
      do sx <- truediv ew vbw; do sy <- truediv eh vbh;
      do ss <- (if (align =? 1)%Z then Ok (sx, sy)
                else if (mos =? 1)%Z then
                  do l <- lt_ sx sy;
                  if l then Ok (sx, sx) else (do g <- gt_ sx sy; if g then Ok (sy, sy) else Ok (sx, sy))
                else if (mos =? 2)%Z then
                  do g <- gt_ sx sy;
                  if g then Ok (sx, sx) else (do l <- lt_ sx sy; if l then Ok (sy, sy) else Ok (sx, sy))
                else Ok (sx, sy));
      let (sx, sy) := ss in
      do mx <- mul vbx sx; do tx <- sub ex mx;
      do my <- mul vby sy; do ty <- sub ey my;
      do tx <- (if zin align [3; 6; 9]%Z then do w <- mul vbw sx; do d <- sub ew w; do h <- truediv_n d 2; iadd tx h else Ok tx);
      do tx <- (if zin align [4; 7; 10]%Z then do w <- mul vbw sx; do d <- sub ew w; iadd tx d else Ok tx);
      do ty <- (if zin align [5; 6; 7]%Z then do w <- mul vbh sy; do d <- sub eh w; do h <- truediv_n d 2; iadd ty h else Ok ty);
      do ty <- (if zin align [8; 9; 10]%Z then do w <- mul vbh sy; do d <- sub eh w; iadd ty d else Ok ty);
      do a <- value tx None None; do b <- value ty None None;
      do kx <- value sx (unit_of tx) None; do ky <- value sy (unit_of tx) None;
      Ok (scale_self (translate_self (DM mat_id true) a b 0) kx (Some ky) 1 0 0 0)
  end.
