(** What font sizes and weights should be. *)
From Verif Require Import PyBase PyText PySplit FontSizeModel.
#[local] Open Scope Q_scope.

(* the absolute sizes, smallest first *)
Definition size_keywords : list text := map lit ["xx-small"; "x-small"; "small"; "medium"; "large"; "x-large"; "xx-large"]%string.
(* the sizes browsers use for a given medium size, and the factors elsewhere *)
Definition usual_sizes : list (Z * list Q) :=
  [(9%Z, [9; 9; 9; 9; 11; 14; 18]); (10%Z, [9; 9; 9; 10; 11; 14; 18]); (11%Z, [9; 9; 9; 11; 13; 17; 22]); (12%Z, [9; 9; 10; 12; 14; 18; 24]);
   (13%Z, [9; 9; 10; 13; 16; 20; 26]); (14%Z, [9; 9; 11; 14; 17; 21; 28]); (15%Z, [9; 10; 12; 15; 17; 23; 30]); (16%Z, [9; 10; 13; 16; 18; 24; 32])].
Definition usual_factors : list Q := [3#5; 3#4; 8#9; 1; 6#5; 3#2; 2].
Definition relative_size_word (v : text) : Prop := v = lit "larger" \/ v = lit "smaller".
Definition relative_weight_word (v : text) : Prop := v = lit "bolder" \/ v = lit "lighter".
(* an ancestor that only changes the size, or says nothing *)
Definition size_shift (n : fnode) : Prop := match f_attr n with None => True | Some v => relative_size_word v end.
Definition weight_shift (a : option text) : Prop := match a with None => True | Some v => relative_weight_word v end.
(* the table of the CSS fonts module for the nine weights *)
Definition bolder_of (w : Z) : Z := if (w <? 400)%Z then 400 else if (w <? 600)%Z then 700 else 900.
Definition lighter_of (w : Z) : Z := if (w <? 600)%Z then 100 else if (w <? 800)%Z then 400 else 700.
Definition nine_weights : list Z := [100; 200; 300; 400; 500; 600; 700; 800; 900]%Z.
(* changes in order, the last one the nearest *)
Definition shift_weight (w : Z) (v : text) : Z := if text_eqb v (lit "bolder") then bolder_of w else lighter_of w.
(* a relative weight, or one between 1 and 1000 *)
Definition weight_ok (v : text) : Prop := relative_weight_word v \/ exists z, absolute_weight v = Ok z /\ (1 <= z <= 1000)%Z.
