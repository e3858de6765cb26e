(** Screen size and orientation: svgpy/css/screen.py 15-244. *)
From Coq Require Import Qround.
From Verif Require Import PyBase PyText.
#[local] Open Scope Z_scope.

(* int(x) of a number *)
Definition to_int (x : Q) : Z := Z.quot (Qnum x) (Zpos (Qden x)).
(* 213-214: while angle >= 360: angle -= 360 *)
Fixpoint while_over (fuel : nat) (a : Z) : Z := match fuel with O => a | S f => if 360 <=? a then while_over f (a - 360) else a end.
(* 215-216: while angle < 0: angle += 360 *)
Fixpoint while_under (fuel : nat) (a : Z) : Z := match fuel with O => a | S f => if a <? 0 then while_under f (a + 360) else a end.
(* 212: angle // 90 * 90 *)
Definition quarter (x : Q) : Z := Qfloor (x / 90) * 90.
(* 211-217; there are more than enough turns in the fuel: see while_over_done *)
Definition set_angle (x : Q) : Z := let a := quarter x in let n := S (Z.abs_nat a) in while_under n (while_over n a).

(* 40-52, 203-205: the fields of the screen that orientation depends on, and the others *)
Record screen := mkS { s_width : Z; s_height : Z; s_depth : Z; s_hres : Z; s_vres : Z; s_mono : Z; s_ratio : Q; s_angle : Z }.
Definition new_screen : screen := mkS 1280 720 24 96 96 0 1 0.
(* the setters 77-179, 211-217; a number is assigned *)
Inductive sop := SWidth (x : Q) | SHeight (x : Q) | SDepth (x : Q) | SHres (x : Q) | SVres (x : Q) | SMono (x : Q) | SRatio (x : Q) | SAngle (x : Q).
Definition sstep (s : screen) (o : sop) : screen :=
  match o with
  | SWidth x => mkS (to_int x) (s_height s) (s_depth s) (s_hres s) (s_vres s) (s_mono s) (s_ratio s) (s_angle s)
  | SHeight x => mkS (s_width s) (to_int x) (s_depth s) (s_hres s) (s_vres s) (s_mono s) (s_ratio s) (s_angle s)
  | SDepth x => mkS (s_width s) (s_height s) (to_int x) (s_hres s) (s_vres s) (s_mono s) (s_ratio s) (s_angle s)
  | SHres x => mkS (s_width s) (s_height s) (s_depth s) (to_int x) (s_vres s) (s_mono s) (s_ratio s) (s_angle s)
  | SVres x => mkS (s_width s) (s_height s) (s_depth s) (s_hres s) (to_int x) (s_mono s) (s_ratio s) (s_angle s)
  | SMono x => mkS (s_width s) (s_height s) (s_depth s) (s_hres s) (s_vres s) (to_int x) (s_ratio s) (s_angle s)
  | SRatio x => mkS (s_width s) (s_height s) (s_depth s) (s_hres s) (s_vres s) (s_mono s) x (s_angle s)
  | SAngle x => mkS (s_width s) (s_height s) (s_depth s) (s_hres s) (s_vres s) (s_mono s) (s_ratio s) (set_angle x)
  end.
(* 220-244 *)
Definition orientation_type (s : screen) : text :=
  if s_height s <? s_width s then
    if s_angle s =? 0 then lit "landscape-primary" else if s_angle s =? 90 then lit "portrait-primary"
    else if s_angle s =? 180 then lit "landscape-secondary" else if s_angle s =? 270 then lit "portrait-secondary" else lit "landscape-primary"
  else
    if s_angle s =? 0 then lit "portrait-primary" else if s_angle s =? 90 then lit "landscape-primary"
    else if s_angle s =? 180 then lit "portrait-secondary" else if s_angle s =? 270 then lit "landscape-secondary" else lit "portrait-primary".
