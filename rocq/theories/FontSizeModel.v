(** Font size, weight and line height: svgpy/core.py 31-85, 88-142, 157-223.
    Numbers are exact: the factors 1.2 and 1/1.2 are 6/5 and 5/6, and the linear
    interpolation of numpy is the exact one. *)
From Verif Require Import PyBase PyText PySplit PyInt.
#[local] Open Scope Q_scope.

(** ** Font size *)
(* 32-41 *)
Definition size_map : list (text * (nat * Q)) :=
  [(lit "xx-small", (0%nat, 3#5)); (lit "x-small", (1%nat, 3#4)); (lit "small", (2%nat, 8#9)); (lit "medium", (3%nat, 1));
   (lit "large", (4%nat, 6#5)); (lit "x-large", (5%nat, 3#2)); (lit "xx-large", (6%nat, 2))].
(* 44-53 *)
Definition quirks_table : list (list Q) :=
  [[9; 9; 9; 9; 11; 14; 18; 28]; [9; 9; 9; 10; 11; 14; 18; 31]; [9; 9; 9; 11; 13; 17; 22; 34]; [9; 9; 10; 12; 14; 18; 24; 37];
   [9; 9; 10; 13; 16; 20; 26; 40]; [9; 9; 11; 14; 17; 21; 28; 42]; [9; 10; 12; 15; 17; 23; 30; 45]; [9; 10; 13; 16; 18; 24; 32; 48]].
(* int(x) of a number *)
Definition trunc (x : Q) : Z := Z.quot (Qnum x) (Zpos (Qden x)).
Fixpoint assoc {A} (k : text) (l : list (text * A)) : option A :=
  match l with [] => None | (x, v) :: l' => if text_eqb x k then Some v else assoc k l' end.
(* 99-111; [d] is Font.default_font_size *)
Definition keyword_size (d : Q) (v : text) : option Q :=
  match assoc v size_map with
  | None => None
  | Some (column, factor) =>
      Some (if (9 <=?q d) && (d <=?q 16) then nth column (nth (Z.to_nat (trunc (d - 9))) quirks_table []) 0 else factor * d)
  end.
Definition relative_size (v : text) : bool := mem v [lit "larger"; lit "smaller"].
(* 139-142 *)
Definition at_least (px : Q) : Q := if px <?q 10 then 10 else px.
(* an ancestor: its font-size attribute and SVGLength(_, context=it).value() *)
Record fnode := mkF { f_attr : option text; f_len : text -> result Q }.
(* an absolute keyword or a length, as compute_font_size gives it *)
Definition absolute_size (d : Q) (len : text -> result Q) (v : text) : result Q :=
  do px <- (match keyword_size d v with Some px => Ok px | None => len v end); Ok (at_least px).
(* 122-133: outermost ancestor first *)
Fixpoint size_walk (d factor : Q) (nodes : list fnode) (size : Q) : result Q :=
  match nodes with
  | [] => Ok size
  | n :: r => match f_attr n with
              | None => size_walk d factor r size
              | Some v => if relative_size v then size_walk d factor r (size * factor)
                          else do s <- absolute_size d (f_len n) v; size_walk d factor r s
              end
  end.
(* 88-142; the ancestors nearest first *)
Definition compute_font_size (d : Q) (len : text -> result Q) (value : text) (ancestors : list fnode) (inherited : option Q) : result Q :=
  if relative_size value then
    do px <- size_walk d (if text_eqb value (lit "larger") then 6#5 else 5#6) (rev ancestors) (match inherited with Some s => s | None => d end);
    Ok (at_least px)
  else absolute_size d len value.

(** ** Font weight *)
(* np.interp over increasing points *)
Fixpoint interp_seg (x : Q) (p : Q * Q) (pts : list (Q * Q)) : Q :=
  match pts with
  | [] => snd p
  | q :: r => if x <?q fst q then snd p + (snd q - snd p) / (fst q - fst p) * (x - fst p) else interp_seg x q r
  end.
Definition interp (x : Q) (pts : list (Q * Q)) : Q :=
  match pts with [] => 0 | p :: r => if x <?q fst p then snd p else interp_seg x p r end.
(* 79-81 *)
Definition bolder_points : list (Q * Q) := [(100, 400); (200, 400); (300, 400); (400, 700); (500, 700); (600, 900); (700, 900); (800, 900); (900, 900)].
Definition lighter_points : list (Q * Q) := [(100, 100); (200, 100); (300, 100); (400, 100); (500, 100); (600, 400); (700, 400); (800, 700); (900, 700)].
Definition relative_weight (v : text) : bool := mem v [lit "bolder"; lit "lighter"].
Definition step_weight (v : text) (w : Q) : Q := interp w (if text_eqb v (lit "bolder") then bolder_points else lighter_points).
(* 74-77, 195-198 *)
Definition absolute_weight (v : text) : result Z :=
  if text_eqb v (lit "normal") then Ok 400%Z else if text_eqb v (lit "bold") then Ok 700%Z
  else match py_int v with Some n => Ok n | None => Err ValueError end.
(* 179-194: outermost ancestor first *)
Fixpoint weight_walk (nodes : list (option text)) (w : Q) : result Q :=
  match nodes with
  | [] => Ok w
  | None :: r => weight_walk r w
  | Some v :: r => if relative_weight v then weight_walk r (step_weight v w)
                   else do z <- absolute_weight v; weight_walk r (inject_Z z)
  end.
(* 157-198; Font.default_font_weight is 400 *)
Definition compute_font_weight (value : text) (ancestors : list (option text)) (inherited : option Q) : result Z :=
  if relative_weight value then
    do w <- weight_walk (rev ancestors) (match inherited with Some w => w | None => 400 end); Ok (trunc w)
  else absolute_weight value.

(** ** Line height (201-223).  [parse] is SVGLength of the text: whether it is a
    percentage, and its number as a percentage or else its value. *)
Definition compute_line_height (parse : text -> result (bool * Q)) (value : text) (font_size : Q) : result Q :=
  if text_eqb value (lit "normal") then Ok ((6#5) * font_size)
  else do (pc, v) <- parse value; Ok (if (pc : bool) then v / 100 * font_size else v).
