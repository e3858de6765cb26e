(** Words for the claims about lengths: what one unit is worth. *)
From Verif Require Import PyBase PyText PySplit LengthModel CssUnitModel.
#[local] Open Scope Q_scope.

(** The units of CSS that lengths may have. *)
Definition svg_units : list text :=
  [lit "%"; lit "em"; lit "ex"; lit "cap"; lit "ch"; lit "ic"; lit "rem"; lit "vw"; lit "vh"; lit "vmin"; lit "vmax";
   lit "cm"; lit "mm"; lit "q"; lit "in"; lit "pt"; lit "pc"; lit "px"; lit "dpi"; lit "dpcm"; lit "dppx"].

Inductive kind : Type := Length | Resolution.
(** One unit [u] is worth so many pixels (or dots per pixel). *)
Inductive sized (c : lctx) (d : option direction) : option text -> kind -> Q -> Prop :=
  | s_none : sized c d None Length 1
  | s_number : sized c d (Some []) Length 1
  | s_px : sized c d (Some (lit "px")) Length 1
  | s_in : sized c d (Some (lit "in")) Length 96
  | s_cm : sized c d (Some (lit "cm")) Length (96 / d254)
  | s_mm : sized c d (Some (lit "mm")) Length (96 / d25_4)
  | s_q : sized c d (Some (lit "q")) Length (96 / d254 / 40)
  | s_pt : sized c d (Some (lit "pt")) Length (96 / 72)
  | s_pc : sized c d (Some (lit "pc")) Length (96 / 6)
  | s_em : sized c d (Some (lit "em")) Length (parent_size c)
  | s_rem : sized c d (Some (lit "rem")) Length (root_size c)
  | s_vw : sized c d (Some (lit "vw")) Length (cvw c / 100)
  | s_vh : sized c d (Some (lit "vh")) Length (cvh c / 100)
  | s_vmin : sized c d (Some (lit "vmin")) Length (Qmin (cvw c) (cvh c) / 100)
  | s_vmax : sized c d (Some (lit "vmax")) Length (Qmax (cvw c) (cvh c) / 100)
  | s_percent_h : d = Some Horizontal -> sized c d (Some (lit "%")) Length (cvw c / 100)
  | s_percent_v : d = Some Vertical -> sized c d (Some (lit "%")) Length (cvh c / 100)
  | s_percent_u : d = Some Unspecified -> sized c d (Some (lit "%")) Length (diagonal c / 100)
  | s_percent : d = None -> sized c d (Some (lit "%")) Length (parent_size c / 100)
  | s_font u m : In u [lit "ex"; lit "cap"; lit "ch"; lit "ic"] -> metric c = Some m -> ~ m u == 0 -> sized c d (Some u) Length (m u)
  | s_font_0 u m : In u [lit "ex"; lit "cap"; lit "ch"; lit "ic"] -> metric c = Some m -> m u == 0 -> sized c d (Some u) Length (parent_size c)
  | s_no_font u : In u [lit "ex"; lit "cap"; lit "ch"; lit "ic"] -> metric c = None -> sized c d (Some u) Length (parent_size c / 2)
  | s_dppx : sized c d (Some (lit "dppx")) Resolution 1
  | s_dpi : sized c d (Some (lit "dpi")) Resolution (1 / 96)
  | s_dpcm : sized c d (Some (lit "dpcm")) Resolution (d254 / 96).
(** Conversion to a font unit resizes the font: its metric does not change. *)
Definition steady (c : lctx) (u : option text) : Prop :=
  forall t m p, u = Some t -> In t [lit "ex"; lit "cap"; lit "ch"; lit "ic"] -> metric c = Some m -> metric_at c p t == m t.
(** The length of [x] with its unit of size [s] *)
Definition measures (x : slength) (k : kind) (s : Q) : Prop := sized (ctx x) (ldir x) (lunit x) k s.
(** Two lengths read the same surroundings. *)
Definition together (x y : slength) : Prop := ctx x = ctx y /\ ldir x = ldir y.
(** Copying [x] does not change what it reads (it has no context, or its
    context is a root element). *)
Definition portable (x : slength) : Prop := ccopy x = ctx x.
