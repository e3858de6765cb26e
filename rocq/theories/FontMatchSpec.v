(** Which of two faces fits a style better, and the order of the CSS font matching algorithm. *)
From Coq Require Import Qabs.
From Verif Require Import PyBase PyText FontMatchModel.
#[local] Open Scope Q_scope.

(* x is closer to d than y, or as close and on the preferred side *)
Definition closer (up : bool) (d x y : Q) : Prop := Qabs (x - d) < Qabs (y - d) \/ (Qabs (x - d) == Qabs (y - d) /\ if up then y < x else x < y).
(* the place of a slant in the order for the style *)
Definition rank (st : fstyle) (s : Z) : nat :=
  match (text_eqb (s_style st) (lit "italic"), text_eqb (s_style st) (lit "oblique")) with
  | (true, _) => if Z.eqb s 100 then 0 else if Z.eqb s 110 then 1 else if Z.eqb s 0 then 2 else 3
  | (false, true) => if Z.eqb s 110 then 0 else if Z.eqb s 100 then 1 else if Z.eqb s 0 then 2 else 3
  | (false, false) => if Z.eqb s 0 then 0 else if Z.eqb s 110 then 1 else if Z.eqb s 100 then 2 else 3
  end%nat.
Definition wide (st : fstyle) : bool := existsb (text_eqb (s_stretch st)) [lit "semi-expanded"; lit "expanded"; lit "extra-expanded"; lit "ultra-expanded"].
(* width first, then slant, then weight, then size *)
Definition better (st : fstyle) (w : Q) (g f : face) : Prop :=
  closer (wide st) w (f_width g) (f_width f) \/ (f_width g == f_width f /\
  ((rank st (f_slant g) < rank st (f_slant f))%nat \/ (rank st (f_slant g) = rank st (f_slant f) /\
  (closer (s_weight st <?q 400) (s_weight st) (f_weight g) (f_weight f) \/ (f_weight g == f_weight f /\
   closer false (s_size st) (f_size g) (f_size f)))))).
Definition fits (st : fstyle) (w : Q) (l : list face) (f : face) : Prop := In f l /\ forall g, In g l -> ~ better st w g f.
(* the first of the files *)
Definition first_file (f g : face) : Prop := text_ltb (f_file g) (f_file f) = false.

(* CSS Fonts 4, 5.2: which of two weights is looked for first when d is desired *)
Definition css_weight_before (d x y : Q) : Prop :=
  let stage x := if d <?q 400 then (if x <=?q d then 0 else 1)
                 else if d <=?q 500 then (if (d <=?q x) && (x <=?q 500) then 0 else if x <?q d then 1 else 2)
                 else (if d <=?q x then 0 else 1) in
  let falling x := if d <?q 400 then x <=?q d else x <?q d in
  stage x < stage y \/ (stage x == stage y /\ if falling x then y < x else x < y).
(* and which of two widths *)
Definition css_width_before (d x y : Q) : Prop :=
  let stage x := if d <=?q 100 then (if x <=?q d then 0 else 1) else (if d <=?q x then 0 else 1) in
  let falling x := if d <=?q 100 then x <=?q d else x <?q d in
  stage x < stage y \/ (stage x == stage y /\ if falling x then y < x else x < y).
(* a list without its later repetitions; the families fontconfig answers with *)
Fixpoint firsts (l : list text) : list text := match l with [] => [] | x :: r => x :: filter (fun y => negb (text_eqb x y)) (firsts r) end.
Definition matched (fs : fonts) (l : list text) : list text := flat_map (fun n => match match_family fs n with Some m => [m] | None => [] end) l.
