(** CSS math expressions: printing (svgpy/css/types.py 1245-1253, 1287-1299,
    1344-1353, 1398-1407, 1435-1448, 1496-1517, 1576-1597, 1743-1751), sum
    values (1242-1243, 1274-1285, 1329-1342, 1383-1396, 1426-1433, 1478-1494,
    1547-1574, 1694-1716), conversion (1149-1194), sums and equality
    (1052-1063, 1073-1095).

    An expression is a tree of values; its type (C28) and its text when it came
    from parse() are left out, so printing is that of an expression whose
    css_text is None.  Numbers are exact rationals as in CssUnitModel. *)
From Verif Require Import PyBase PyText PySplit PyDict PyCase CssTypeModel CssUnitModel.
#[local] Open Scope Q_scope.

Inductive expr : Type :=
  | EUnit (v : Q) (u : text)
  | ESum (l : list expr)
  | EProduct (l : list expr)
  | ENegate (e : expr)
  | EInvert (e : expr)
  | EMin (l : list expr)
  | EMax (l : list expr)
  | EClamp (lo val hi : expr).

(** Printed text is a list of pieces.  [PNum v u] is the text of the number v
    followed by the unit u; [POpen], [PCalc], [PMin], [PMax], [PClamp] are "(",
    "calc(", "min(", "max(", "clamp("; [PPlus] is " + ", [PMinus] " - ",
    [PTimes] " * ", [PDivide] " / ", [PComma] ", ".  [PDash] is a '-' with
    nothing after it. *)
Inductive piece : Type :=
  | PNum (v : Q) (u : text) | POpen | PCalc | PMin | PMax | PClamp | PClose
  | PComma | PPlus | PMinus | PTimes | PDivide | PDash.

(* ', '.join *)
Fixpoint commas (l : list (list piece)) : list piece :=
  match l with [] => [] | [x] => x | x :: l' => x ++ PComma :: commas l' end.
(* 1290-1295, 1297-1298 *)
Definition wrapped (nested paren_less : bool) (body : list piece) : list piece :=
  if paren_less then body else (if nested then POpen else PCalc) :: body ++ [PClose].
Fixpoint show (nested paren_less : bool) (e : expr) : list piece :=
  match e with
  | EUnit v u => [PNum v u]
  | ESum l =>
      wrapped nested paren_less
        match l with
        | [] => []
        | x :: r => show true paren_less x ++
            flat_map (fun y => match y with
                               | ENegate z => PMinus :: show true paren_less z
                               | _ => PPlus :: show true paren_less y
                               end) r
        end
  | EProduct l =>
      wrapped nested paren_less
        match l with
        | [] => []
        | x :: r => show true paren_less x ++
            flat_map (fun y => match y with
                               | EInvert z => PDivide :: show true paren_less z
                               | _ => PTimes :: show true paren_less y
                               end) r
        end
  | ENegate x => wrapped nested paren_less (PDash :: show nested paren_less x)
  | EInvert x => wrapped nested paren_less (PNum 1 (lit "number") :: PDivide :: show nested paren_less x)
  | EMin l => PMin :: commas (map (show true true) l) ++ [PClose]
  | EMax l => PMax :: commas (map (show true true) l) ++ [PClose]
  | EClamp a b c => PClamp :: commas [show nested paren_less a; show nested paren_less b; show nested paren_less c] ++ [PClose]
  end.
(* str(e), e.tostring() *)
Definition tostring (e : expr) : list piece := show false false e.

(** sum values *)
Notation umap := (dict Z).
Notation mono := (Q * umap)%type.
(* 338-354 *)
Definition product_maps (a b : umap) : umap :=
  fold_left (fun d p => dset d (fst p) (match dget d (fst p) with Some z => z + snd p | None => snd p end)%Z) b a.
(* 1489-1491 *)
Definition drop_zeros (m : umap) : umap := filter (fun p => negb (snd p =? 0)%Z) m.
(* 1554-1556: sorted(a.keys()) == sorted(b.keys()) *)
Definition same_keys (a b : umap) : bool :=
  forallb (fun k => dhas b k) (dkeys a) && forallb (fun k => dhas a k) (dkeys b).
(* a == b for dictionaries *)
Definition map_eqb (a b : umap) : bool :=
  same_keys a b && forallb (fun p => match dget b (fst p) with Some z => (z =? snd p)%Z | None => false end) a.
(* 1553-1561 *)
Fixpoint merge_mono (vals : list mono) (x : mono) : list mono :=
  match vals with
  | [] => [x]
  | y :: r => if same_keys (snd y) (snd x) then (fst y + fst x, snd y) :: r else y :: merge_mono r x
  end.
(* 278-301 *)
Definition type_of_map (m : umap) : option ntype :=
  match m with
  | [] => Some number
  | _ =>
      let ty p := match create_type (fst p) with
                  | Ok t => match pw t with (k, _) :: r => Some (mkT ((k, snd p) :: r) (hint t)) | [] => None end
                  | Err _ => None
                  end in
      match map ty m with
      | Some t :: ts => fold_left (fun acc t2 => match acc, t2 with Some a, Some b => multiply_types a b | _, _ => None end) ts (Some t)
      | _ => None
      end
  end.
(* 1563-1573 *)
Definition types_multiply (vals : list mono) : bool :=
  match map (fun m => type_of_map (snd m)) vals with
  | Some t :: ts => is_some (fold_left (fun acc t2 => match acc, t2 with Some a, Some b => multiply_types a b | _, _ => None end) ts (Some t))
  | _ => false
  end.
Fixpoint opts {A} (l : list (option A)) : option (list A) :=
  match l with
  | [] => Some []
  | Some x :: l' => match opts l' with Some r => Some (x :: r) | None => None end
  | None :: _ => None
  end.
(* 1330-1342; the first of equal numbers wins, as Python's max and min do *)
Definition extreme (pick : Q -> Q -> Q) (l : list (option (list mono))) : option (list mono) :=
  match opts l with
  | None => None
  | Some ls =>
      match opts (map (fun ms => match ms with [m] => Some m | _ => None end) ls) with
      | Some ((v1, m1) :: rest) => if forallb (fun m => map_eqb m1 (snd m)) rest then Some [(fold_left pick (map fst rest) v1, m1)] else None
      | _ => None
      end
  end.
Definition sum_unit (pi : Q) (v : Q) (u : text) : list mono :=
  let '(v, u) := match canonical u with
                 | Some c => if text_eqb c u then (v, u) else (v * ratio pi u, c)
                 | None => (v, u)
                 end in
  [(v, if text_eqb u (lit "number") then [] else [(u, 1%Z)])].
Fixpoint sum_value (pi : Q) (e : expr) : option (list mono) :=
  match e with
  | EUnit v u => Some (sum_unit pi v u)
  | ESum l =>
      match opts (map (sum_value pi) l) with
      | None => None
      | Some ls => let vals := fold_left merge_mono (concat ls) [] in
                   if types_multiply vals then Some vals else None
      end
  | EProduct l =>
      match opts (map (sum_value pi) l) with
      | None => None
      | Some ls =>
          Some (fold_left (fun acc new =>
            flat_map (fun m1 => map (fun m2 => (fst m1 * fst m2, drop_zeros (product_maps (snd m1) (snd m2)))) new) acc) ls [(1, [])])
      end
  | ENegate x => match sum_value pi x with None => None | Some l => Some (map (fun m => (- fst m, snd m)) l) end
  | EInvert x => match sum_value pi x with
                 | Some [(v, m)] => Some [(if v =?q 0 then v else 1 / v, map (fun p => (fst p, - snd p)%Z) m)]
                 | _ => None
                 end
  | EMin l => extreme pymin (map (sum_value pi) l)
  | EMax l => extreme pymax (map (sum_value pi) l)
  | EClamp _ _ _ => None
  end.

(* 1149-1165 *)
Definition to (pi : Q) (e : expr) (unit : text) : result uval :=
  do _ <- create_type unit;
  match e with
  | EUnit v u => to_unit pi (mkU v u) unit (* CSSUnitValue.to overrides *)
  | _ =>
      match sum_value pi e with
      | Some [(v, m)] =>
          match filter (fun p => negb (snd p =? 0)%Z) m with
          | [] => do item <- unit_value v (lit "number"); if text_eqb (uu item) (lower unit) then Ok item else to_unit pi item unit
          | [(u, _)] => do item <- unit_value v u; if text_eqb (uu item) (lower unit) then Ok item else to_unit pi item unit
          | _ => Err ValueError
          end
      | _ => Err ValueError
      end
  end.
(* 1694-1703 *)
Definition from_item (x : mono) : result uval :=
  match snd x with
  | [] => unit_value (fst x) (lit "number")
  | [(u, p)] => if (p =? 1)%Z then unit_value (fst x) u else Err ValueError
  | _ => Err ValueError
  end.
Fixpoint results {A} (l : list (result A)) : result (list A) :=
  match l with
  | [] => Ok []
  | r :: l' => do x <- r; do xs <- results l'; Ok (x :: xs)
  end.
(* text comparison by code point *)
Fixpoint text_ltb (a b : text) : bool :=
  match a, b with
  | _, [] => false
  | [], _ :: _ => true
  | x :: a', y :: b' => (x <? y)%N || ((x =? y)%N && text_ltb a' b')
  end.
(* sorted(values, key=unit): stable *)
Fixpoint insert_unit (x : uval) (l : list uval) : list uval :=
  match l with
  | [] => [x]
  | y :: l' => if text_ltb (uu x) (uu y) then x :: y :: l' else y :: insert_unit x l'
  end.
Definition sort_units (l : list uval) : list uval := fold_left (fun acc x => insert_unit x acc) l [].
(* 1183-1186 *)
Definition fits (v : uval) (unit : text) : bool :=
  text_eqb (uu v) unit ||
  match canonical (uu v), canonical unit with Some a, Some b => text_eqb a b | _, _ => false end.
(* 1188: values.remove(value) compares value with each item before it; an item
   found equal is the one taken away *)
Fixpoint remove_at (pi : Q) (n : nat) (x : uval) (l : list uval) : result (list uval) :=
  match n, l with
  | O, _ :: l' => Ok l'
  | S n', y :: l' => do eq <- u_eq pi y x; if eq then Ok l' else (do r <- remove_at pi n' x l'; Ok (y :: r))
  | _, [] => Err ValueError
  end.
(* 1180-1189: the first value that fits, and its place *)
Fixpoint find_fit (unit : text) (n : nat) (l : list uval) : option (nat * uval) :=
  match l with
  | [] => None
  | v :: l' => if fits v unit then Some (n, v) else find_fit unit (S n) l'
  end.
(* 1177-1194 before the sum is made *)
Fixpoint collect (pi : Q) (units : list text) (values : list uval) : result (list uval) :=
  match units with
  | [] => match values with [] => Ok [] | _ => Err ValueError end
  | u :: us =>
      do temp <- unit_value 0 u;
      match find_fit u 0 values with
      | None => do r <- collect pi us values; Ok (temp :: r)
      | Some (n, v) => do c <- to_unit pi v u;
                       do values' <- remove_at pi n v values;
                       do r <- collect pi us values';
                       Ok (mkU (0 + uv c) (uu temp) :: r)
      end
  end.
(* CSSMathSum(...) of unit values: 1526-1537 *)
Definition make_sum (order : list text) (l : list uval) : result (list uval) :=
  do ts <- results (map (fun x => create_type (uu x)) l);
  match ts with
  | [] => Err ValueError
  | t :: r => match fold_types order MSum t r with Some _ => Ok l | None => Err ValueError end
  end.
(* 1167-1194 *)
Definition to_sum (order : list text) (pi : Q) (e : expr) (units : list text) : result (list uval) :=
  do _ <- results (map create_type units);
  match sum_value pi e with
  | None => Err TypeError
  | Some l =>
      do values <- results (map from_item l);
      match units with
      | [] => make_sum order (sort_units values)
      | _ => do r <- collect pi units values; make_sum order r
      end
  end.

(* 1052-1063; the type check of CSSMathSum is left out *)
Definition all_units (l : list expr) : option (list uval) :=
  opts (map (fun e => match e with EUnit v u => Some (mkU v u) | _ => None end) l).
Definition add (e : expr) (values : list expr) : expr :=
  let values := match e with ESum l => l ++ values | _ => e :: values end in
  match all_units values with
  | Some (x :: r) => if forallb (fun y => text_eqb (uu x) (uu y)) r
                     then EUnit (fold_left Qplus (map uv (x :: r)) 0) (uu x) else ESum values
  | _ => ESum values
  end.
(* 1073-1095 for one value *)
Fixpoint equals (a b : expr) {struct a} : bool :=
  let all := fix all (l m : list expr) : bool :=
    match l, m with
    | [], [] => true
    | x :: l', y :: m' => equals x y && all l' m'
    | _, _ => false
    end in
  match a, b with
  | EUnit v u, EUnit w t => text_eqb u t && (v =?q w)
  | ESum l, ESum m | EProduct l, EProduct m | EMin l, EMin m | EMax l, EMax m => all l m
  | _, _ => false
  end.
