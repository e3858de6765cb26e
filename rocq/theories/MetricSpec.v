(** What the metrics of a font are, without a glyph slot. *)
From Coq Require Import Qround.
From Verif Require Import PyBase PyText FontMatchModel MetricModel.
#[local] Open Scope Q_scope.

Definition font_relative : list text := [lit "ex"; lit "cap"; lit "ch"; lit "ic"].

(** The glyph of a character at a size. *)
Definition glyph_of (f : ftface) (r : request) (c : N) : option glyph := ft_load f r (ft_index f c).
Definition across (st : cstyle) : Prop := In (c_mode st) [lit "horizontal-tb"; lit "lr"; lit "lr-tb"; lit "rl"; lit "rl-tb"].
(** How far a glyph moves the pen; upright vertical text moves by one em,
    which is written 0. *)
Inductive pen_advance (st : cstyle) (g : glyph) : Q -> Prop :=
| Pen_across : across st -> pen_advance st g (g_hadv g / 64)
| Pen_upright : ~ across st -> c_orientation st = lit "upright" -> pen_advance st g 0
| Pen_down : ~ across st -> c_orientation st <> lit "upright" -> pen_advance st g (g_vadv g / 64).
(** The answers of a font of style [st] at size [r], one by one. *)
Inductive says (f : ftface) (st : cstyle) (r : request) : fop -> result (option Q) -> Prop :=
| Says_ascent : says f st r Ascent (Ok (Some (ft_ascender f / 64)))
| Says_descent : says f st r Descent (Ok (Some (ft_descender f / 64)))
| Says_height : says f st r Height (Ok (Some (ft_ppem f r)))
| Says_line : says f st r LineHeight (Ok (Some (ft_line f r / 64)))
| Says_x g : glyph_of f r 120 = Some g -> says f st r XHeight (Ok (Some (g_height g / 64)))
| Says_x_bad : glyph_of f r 120 = None -> says f st r XHeight (Err OtherError)
| Says_ch g q : glyph_of f r 48 = Some g -> pen_advance st g q -> says f st r ChAdvance (Ok (Some q))
| Says_ch_bad : glyph_of f r 48 = None -> says f st r ChAdvance (Err OtherError)
| Says_ic_none : ft_index f 27700 = 0%nat -> says f st r IcAdvance (Ok (Some 0))
| Says_ic g q : ft_index f 27700 <> 0%nat -> glyph_of f r 27700 = Some g -> pen_advance st g q -> says f st r IcAdvance (Ok (Some q))
| Says_ic_bad : ft_index f 27700 <> 0%nat -> glyph_of f r 27700 = None -> says f st r IcAdvance (Err OtherError)
| Says_cap c g : (c = 72%N \/ c = 104%N /\ ft_index f 72 = 0%nat) -> ft_index f c <> 0%nat -> glyph_of f r c = Some g -> says f st r CapHeight (Ok (Some (g_vadv g / 64)))
| Says_cap_bad c : (c = 72%N \/ c = 104%N /\ ft_index f 72 = 0%nat) -> ft_index f c <> 0%nat -> glyph_of f r c = None -> says f st r CapHeight (Err OtherError)
| Says_cap_none : ft_index f 72 = 0%nat -> ft_index f 104 = 0%nat -> says f st r CapHeight (Err AttributeError)
| Says_set w h hr vr : ft_accepts f (mkRq w h hr vr) = true -> says f st r (SetPointSize w h hr vr) (Ok None)
| Says_set_bad w h hr vr : ft_accepts f (mkRq w h hr vr) = false -> says f st r (SetPointSize w h hr vr) (Err OtherError).
(** The size after a history: the last one accepted. *)
Definition size_now (f : ftface) (r : request) (os : list fop) : request :=
  last (r :: flat_map (fun o => match o with SetPointSize w h hr vr => if ft_accepts f (mkRq w h hr vr) then [mkRq w h hr vr] else [] | _ => [] end) os) r.
Fixpoint tells (f : ftface) (st : cstyle) (r : request) (before : list fop) (os : list fop) (as_ : list (result (option Q))) : Prop :=
  match os, as_ with
  | [], [] => True
  | o :: os', a :: as' => says f st (size_now f r before) o a /\ tells f st r (before ++ [o]) os' as'
  | _, _ => False
  end.

(** The em in pixels that FreeType gives a nominal size: so many points of 1/72
    inch at so many pixels per inch. *)
Definition em_of (r : request) : Q := inject_Z (rq_height r) / 64 * (inject_Z (rq_vres r) / 72).
(** A face whose glyphs grow with the em: design metrics per em, in pixels. *)
Record design := mkD { d_x : Q; d_cap : Q; d_ch : Q; d_ic : Q }.
Definition design_of (d : design) (u : text) : Q :=
  if text_eqb u (lit "ex") then d_x d else if text_eqb u (lit "cap") then d_cap d else if text_eqb u (lit "ch") then d_ch d else d_ic d.
Definition metric_op (u : text) : fop :=
  if text_eqb u (lit "ex") then XHeight else if text_eqb u (lit "cap") then CapHeight else if text_eqb u (lit "ch") then ChAdvance else IcAdvance.
Definition scales (f : ftface) (st : cstyle) (d : design) : Prop :=
  forall r u a, In u [lit "ex"; lit "cap"; lit "ch"; lit "ic"] -> says f st r (metric_op u) a ->
    exists q, a = Ok (Some q) /\ q == design_of d u * em_of r.
