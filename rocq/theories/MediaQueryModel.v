(** Media queries: evaluation (svgpy/css/mediaquery.py 100-270) and the node
    made of a plain feature (417-462).

    A media query is the tree of dictionaries the parser makes: [TNot] is
    UnaryOp with its operand, [TBool] is BoolOp with op (absent: 'or'), ops and
    values.  The environment gives texts or integers.  compare_func
    (window.py 690-696, a comparison of lengths) and Fraction() are oracles:
    [qcmp] is negative, zero or positive, None if it raises ValueError;
    [qratio] is the ratio, or the exception.  Logging and user_data dropped. *)
From Verif Require Import PyBase PyText PySplit PyDict PyCase.

Inductive value : Type := VText (t : text) | VInt (z : Z).
Definition env := dict value.
Record mqenv := mkMq { qenv : env; qcmp : value -> value -> option Z; qratio : value -> result Q }.

(* 20-31 *)
Definition media_types : list text :=
  [lit "all"; lit "print"; lit "screen"; lit "speech"; lit "tty"; lit "tv"; lit "projection"; lit "handheld"; lit "braille";
   lit "embossed"; lit "aural"].
Definition discrete_features : list text :=
  [lit "orientation"; lit "scan"; lit "grid"; lit "update"; lit "overflow-block"; lit "overflow-inline"; lit "color-gamut";
   lit "pointer"; lit "hover"; lit "any-pointer"; lit "any-hover"].

Inductive operand : Type := ONum (t : text) | OName (t : text).
Definition is_name (o : operand) : bool := match o with OName _ => true | ONum _ => false end.
Inductive cop : Type := OpEq | OpLt | OpLe | OpGt | OpGe.
(* op[-1] == '=', op[0] == '>', op[0] == '<' *)
Definition op_eq (o : cop) : bool := match o with OpEq | OpLe | OpGe => true | _ => false end.
Definition op_gt (o : cop) : bool := match o with OpGt | OpGe => true | _ => false end.
Definition op_lt (o : cop) : bool := match o with OpLt | OpLe => true | _ => false end.

Inductive bop : Type := BAnd | BOr.
Inductive tree : Type :=
  | TName (id : text)
  | TCompare (left : operand) (rights : list (operand * cop))
  | TNot (t : tree)
  | TBool (op : option bop) (ops : list bop) (children : list tree).

Definition value_eqb (a b : value) : bool :=
  match a, b with VText s, VText t => text_eqb s t | VInt x, VInt y => Z.eqb x y | _, _ => false end.
Definition has_dash (t : text) : bool := existsb (N.eqb 45) t.
(* t.split('-')[0] *)
Definition before_dash (t : text) : text := takewhile (fun c => negb (N.eqb 45 c)) t.
(* 196-200; '-' in an integer is a TypeError *)
Definition orient (l r : value) : result (value * value) :=
  match l, r with
  | VText a, VText b =>
      if has_dash a && negb (has_dash b) then Ok (VText (before_dash a), r)
      else if negb (has_dash a) && has_dash b then Ok (l, VText (before_dash b))
      else Ok (l, r)
  | _, _ => Err TypeError
  end.
(* one comparison, 188-239: Ok None when it fails, Ok (Some v) with the right
   value to go on with *)
Definition compare_one (m : mqenv) (lname rname : bool) (name : option text) (l r : value) (op : cop) : result (option value) :=
  let n := match name with Some n => n | None => [] end in
  if (lname || rname) && negb (text_eqb n (lit "grid")) && mem n discrete_features then
    do lr <- (if text_eqb n (lit "orientation") then orient l r else Ok (l, r));
    Ok (if op_eq op && value_eqb (fst lr) (snd lr) then Some (snd lr) else None)
  else if (lname || rname) && text_eqb n (lit "aspect-ratio") then
    do a <- qratio m l;
    do b <- qratio m r;
    Ok (if op_eq op && Qeq_bool a b then Some r
        else if op_gt op && negb (Qltb b a) || op_lt op && Qltb b a then None else Some r)
  else
    match qcmp m l r with
    | None => Ok None
    | Some c => Ok (if Z.eqb c 0 && op_eq op || Z.ltb 0 c && op_gt op || Z.ltb c 0 && op_lt op then Some r else None)
    end.
(* 177-242 *)
Fixpoint compare_loop (m : mqenv) (lname : bool) (name : option text) (l : value) (rights : list (operand * cop)) : result bool :=
  match rights with
  | [] => Ok true
  | (o, op) :: rest =>
      match (match o with
             | ONum t => Some (name, VText t)
             | OName n => match dget (qenv m) n with Some v => Some (Some n, v) | None => None end
             end) with
      | None => Ok false
      | Some (name', r) =>
          do x <- compare_one m lname (is_name o) name' l r op;
          match x with
          | None => Ok false
          | Some r' => compare_loop m (is_name o) name' r' rest
          end
      end
  end.
(* 166-242 *)
Definition eval_compare (m : mqenv) (left : operand) (rights : list (operand * cop)) : result bool :=
  match left with
  | ONum t => compare_loop m false None (VText t) rights
  | OName n => match dget (qenv m) n with
               | None => Ok false
               | Some v => compare_loop m true (Some n) v rights
               end
  end.
(* 245-270; int('x') of a text is outside the model (ValueError), an
   inequality between a text and a number is a TypeError *)
Definition eval_name (m : mqenv) (n : text) : result (bool * option text) :=
  let get := dget (qenv m) n in
  if mem n media_types then
    if text_eqb n (lit "all") || match dget (qenv m) (lit "media") with Some v => value_eqb v (VText n) | None => text_eqb n [] end
    then Ok (true, Some n) else Ok (false, None)
  else if mem n discrete_features then
    if mem n [lit "orientation"; lit "scan"; lit "color-gamut"] then Ok (is_some get, None)
    else if text_eqb n (lit "grid") then
      match get with Some (VInt z) => Ok (Z.eqb z 1, None) | Some (VText _) => Err ValueError | None => Ok (false, None) end
    else Ok (match get with Some v => negb (value_eqb v (VText (lit "none"))) | None => false end, None)
  else if mem n [lit "color"; lit "color-index"; lit "monochrome"] then
    match get with Some (VInt z) => Ok (Z.ltb 0 z, None) | Some (VText _) => Err TypeError | None => Ok (false, None) end
  else Ok (is_some get, None).

Definition mixed (ops : list bop) : bool :=
  existsb (fun o => match o with BAnd => true | BOr => false end) ops && existsb (fun o => match o with BOr => true | BAnd => false end) ops.
Definition default_op (o : option bop) : bop := match o with Some o => o | None => BOr end.
(* 154-162 *)
Definition stops (op : bop) (not_op result : bool) : bool :=
  match op with BAnd => if not_op then result else negb result | BOr => if not_op then negb result else result end.
(* 117-163 *)
Fixpoint match_node (m : mqenv) (not_op : bool) (t : tree) : result (bool * option text) :=
  match t with
  | TNot c => do r <- match_node m true c; Ok (negb (fst r), snd r)
  | TBool op ops cs =>
      if mixed ops then Ok (false, None) else
      (fix loop (res : bool) (media : option text) (l : list tree) {struct l} : result (bool * option text) :=
         match l with
         | [] => Ok (res, media)
         | c :: l' =>
             do r <- match c with
                     | TName n => eval_name m n
                     | TCompare a b => do x <- eval_compare m a b; Ok (x, None)
                     | TNot _ => match_node m true c
                     | TBool _ _ _ => Err NotImplementedError_
                     end;
             let media' := match media with Some _ => media | None => if fst r then snd r else None end in
             if stops (default_op op) not_op (fst r) then Ok (fst r, media') else loop (fst r) media' l'
         end) true None cs
  | _ => Err AssertionError_
  end.
(* 100-114 *)
Fixpoint match_list (m : mqenv) (l : list tree) : result (bool * option text) :=
  match l with
  | [] => Ok (false, None)
  | t :: l' => do r <- match_node m false t;
               if fst r then Ok (true, snd r) else match_list m l'
  end.

(* 437-462: '(name: value)' *)
Definition has_prefix (p n : text) : bool := text_eqb (firstn 4 n) p.
Definition plain (name v : text) : tree :=
  let low := has_prefix (lit "max-") name in
  let high := has_prefix (lit "min-") name in
  if (low || high) && mem (skipn 4 name) discrete_features then TCompare (OName name) [(ONum v, OpEq)]
  else if low then TCompare (OName (skipn 4 name)) [(ONum v, OpLe)]
  else if high then TCompare (OName (skipn 4 name)) [(ONum v, OpGe)]
  else TCompare (OName name) [(ONum v, OpEq)].
