(** Words for the claims about unit values. *)
From Verif Require Import PyBase PyText CssUnitModel.
(* units that can be converted into one another *)
Definition groups : list (list text) :=
  [[lit "number"]; [lit "cm"; lit "mm"; lit "q"; lit "in"; lit "pt"; lit "pc"; lit "px"]; [lit "deg"; lit "grad"; lit "rad"; lit "turn"];
   [lit "s"; lit "ms"]; [lit "hz"; lit "khz"]; [lit "dpi"; lit "dpcm"; lit "dppx"]].
Definition compatible (u v : text) : Prop := exists g, In g groups /\ In u g /\ In v g.
(* units that can only be kept *)
Definition other_units : list text :=
  [lit "percent"; lit "em"; lit "ex"; lit "ch"; lit "ic"; lit "rem"; lit "lh"; lit "rlh"; lit "vw"; lit "vh"; lit "vi"; lit "vb"; lit "vmin"; lit "vmax"; lit "fr"].
(* the units there are *)
Definition known (u : text) : Prop := In u other_units \/ exists g, In g groups /\ In u g.
(* same value, as a number and as a unit *)
Definition ueq (x y : uval) : Prop := uv x == uv y /\ uu x = uu y.
