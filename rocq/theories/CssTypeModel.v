(** CSS numeric types (svgpy/css/types.py 71-354) and the types of math
    expressions as their constructors compute them (1210-1548).

    A CSSNumericType is an ordered dictionary of integer powers with, under the
    key 'percent_hint', a text.  The hint is a separate field here.  Python
    sets of keys have no fixed order: the order in which the six base types are
    visited is the parameter [order]. *)
From Verif Require Import PyBase PyText PySplit PyDict PyCase.
#[local] Open Scope Z_scope.

(* 71-80 *)
Definition length_ := lit "length".
Definition angle := lit "angle".
Definition time := lit "time".
Definition frequency := lit "frequency".
Definition resolution := lit "resolution".
Definition flex := lit "flex".
Definition percent := lit "percent".
(* 177-179 *)
Definition base_keys : list text := [length_; angle; time; frequency; resolution; flex].

Record ntype := mkT { pw : dict Z; hint : option text }.
Definition number : ntype := mkT [] None.
Definition pget (t : ntype) (k : text) : Z := match dget (pw t) k with Some z => z | None => 0 end.

(* 217-232 *)
Definition apply_hint (t : ntype) (h : text) : ntype :=
  let p1 := if dhas (pw t) h then pw t else dset (pw t) h 0 in
  let p2 := match dget p1 percent with
            | Some pc => dset (dset p1 h (match dget p1 h with Some z => z | None => 0 end + pc)) percent 0
            | None => p1
            end in
  mkT p2 (Some h).
(* 166-175, 314-323 *)
Definition merge_hints (a b : ntype) : option (ntype * ntype) :=
  match hint a, hint b with
  | Some h1, Some h2 => if text_eqb h1 h2 then Some (a, b) else None
  | Some h, None => Some (a, apply_hint b h)
  | None, Some h => Some (apply_hint a h, b)
  | None, None => Some (a, b)
  end.
(* the entries of [from] that [to] does not have, among those chosen *)
Definition fill_missing (chosen : text * Z -> bool) (to from : dict Z) : dict Z :=
  fold_left (fun d p => if chosen p && negb (dhas d (fst p)) then dset d (fst p) (snd p) else d) from to.
(* 181-188: keys of non-zero power *)
Definition same_base (a b : ntype) : bool :=
  let nonzero t k := match dget (pw t) k with Some z => negb (z =? 0) | None => false end in
  forallb (fun k => negb (nonzero a k) || dhas (pw b) k) base_keys &&
  forallb (fun k => negb (nonzero b k) || dhas (pw a) k) base_keys &&
  forallb (fun k => negb (nonzero a k || nonzero b k) || (pget a k =? pget b k)) base_keys.
(* 195-199; a percent hint that is not empty is true *)
Definition other_entries (t : ntype) : bool :=
  existsb (fun p => negb (text_eqb (fst p) percent) && negb (snd p =? 0)) (pw t) ||
  match hint t with Some (_ :: _) => true | _ => false end.
(* 200-207 *)
Fixpoint level (order : list text) (a b : ntype) : option (ntype * ntype) :=
  match order with
  | [] => Some (a, b)
  | k :: rest =>
      let v1 := pget a k in
      let v2 := pget b k in
      let '(a, b) := if (negb (v1 =? 0) || negb (v2 =? 0)) && negb (v1 =? v2) then (apply_hint a k, apply_hint b k) else (a, b) in
      if pget a k =? pget b k then level rest a b else None
  end.
(* 155-214 *)
Definition add_types (order : list text) (t1 t2 : ntype) : option ntype :=
  match merge_hints t1 t2 with
  | None => None
  | Some (a, b) =>
      if same_base a b then
        Some (mkT (fill_missing (fun _ => true) (pw a) (pw b)) (match hint a with Some h => Some h | None => hint b end))
      else if (negb (pget a percent =? 0) || negb (pget b percent =? 0)) && (other_entries a || other_entries b) then
        match level order a b with
        | None => None
        | Some (a, b) =>
            Some (mkT (fill_missing (fun p => mem (fst p) base_keys && negb (snd p =? 0)) (pw a) (pw b)) (hint a))
        end
      else None
  end.
(* 303-336 *)
Definition multiply_types (t1 t2 : ntype) : option ntype :=
  match merge_hints t1 t2 with
  | None => None
  | Some (a, b) =>
      Some (mkT (fold_left (fun d p => if mem (fst p) base_keys
                                       then dset d (fst p) (match dget d (fst p) with Some z => z | None => 0 end + snd p) else d)
                           (pw b) (pw a)) (hint a))
  end.

(* 357-406 *)
Definition length_units : list text :=
  [lit "em"; lit "ex"; lit "ch"; lit "ic"; lit "rem"; lit "lh"; lit "rlh"; lit "vw"; lit "vh"; lit "vi"; lit "vb"; lit "vmin"; lit "vmax";
   lit "cm"; lit "mm"; lit "q"; lit "in"; lit "pt"; lit "pc"; lit "px"].
Definition angle_units : list text := [lit "deg"; lit "grad"; lit "rad"; lit "turn"].
Definition time_units : list text := [lit "s"; lit "ms"].
Definition frequency_units : list text := [lit "hz"; lit "khz"].
Definition resolution_units : list text := [lit "dpi"; lit "dpcm"; lit "dppx"].
(* 234-276 *)
Definition create_type (unit : text) : result ntype :=
  let u := lower unit in
  let one k := Ok (mkT [(k, 1)] None) in
  if text_eqb u (lit "number") then Ok number
  else if text_eqb u (lit "percent") then one percent
  else if mem u length_units then one length_
  else if mem u angle_units then one angle
  else if mem u time_units then one time
  else if mem u frequency_units then one frequency
  else if mem u resolution_units then one resolution
  else if text_eqb u (lit "fr") then one flex
  else Err ValueError.

(* 1265-1268: every entry times -1, which makes the hint an empty text *)
Definition invert_type (t : ntype) : ntype :=
  mkT (map (fun p => (fst p, - snd p)) (pw t)) (match hint t with Some _ => Some [] | None => None end).

(** Type objects are shared: an expression keeps a reference to its type, and
    type() gives out that reference.  [nodes] is the expressions made so far,
    each with the place of its type in [heap].  CSSMathValue has no setters. *)
Record world := mkW { heap : list ntype; nodes : list nat }.
Inductive many : Type := MSum | MProduct.
Inductive mop : Type :=
  | MkUnit (unit : text)             (* CSSUnitValue *)
  | MkMany (m : many) (args : list nat) (* CSSMathSum, Min, Max, Clamp: MSum; CSSMathProduct *)
  | MkNegate (arg : nat)
  | MkInvert (arg : nat).
Definition type_at (w : world) (n : nat) : option ntype :=
  match nth_error (nodes w) n with Some a => nth_error (heap w) a | None => None end.
(* 1312-1319, 1366-1373, 1461-1468, 1530-1537, 1218-1224 *)
Fixpoint fold_types (order : list text) (m : many) (t : ntype) (l : list ntype) : option ntype :=
  match l with
  | [] => Some t
  | t2 :: l' => match (match m with MSum => add_types order t t2 | MProduct => multiply_types t t2 end) with
                | None => None
                | Some t' => fold_types order m t' l'
                end
  end.
Fixpoint types_of (w : world) (l : list nat) : option (list ntype) :=
  match l with
  | [] => Some []
  | n :: l' => match type_at w n, types_of w l' with Some t, Some r => Some (t :: r) | _, _ => None end
  end.
Fixpoint set_nth {A} (l : list A) (n : nat) (x : A) : list A :=
  match l, n with [], _ => [] | _ :: l', O => x :: l' | y :: l', S n' => y :: set_nth l' n' x end.
(* an argument that is not an expression made so far: TypeError (1131-1142) *)
Definition make (order : list text) (w : world) (o : mop) : result world :=
  match o with
  | MkUnit u => do t <- create_type u; Ok (mkW (heap w ++ [t]) (nodes w ++ [length (heap w)]))
  | MkMany m args =>
      match args with
      | [] => Err ValueError
      | [n] => match nth_error (nodes w) n with Some a => Ok (mkW (heap w) (nodes w ++ [a])) | None => Err TypeError end
      | _ => match types_of w args with
             | Some (t :: ts) =>
                 match fold_types order m t ts with
                 | Some t' => Ok (mkW (heap w ++ [t']) (nodes w ++ [length (heap w)]))
                 | None => Err ValueError
                 end
             | _ => Err TypeError
             end
      end
  | MkNegate n => match nth_error (nodes w) n with Some a => Ok (mkW (heap w) (nodes w ++ [a])) | None => Err TypeError end
  | MkInvert n => match nth_error (nodes w) n with
                  | Some a => match nth_error (heap w) a with
                              | Some t => Ok (mkW (set_nth (heap w) a (invert_type t)) (nodes w ++ [a]))
                              | None => Err TypeError
                              end
                  | None => Err TypeError
                  end
  end.
