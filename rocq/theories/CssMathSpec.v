(** Words for the claims about math expressions: what an expression is worth,
    how printed text is read, and which expressions print faithfully. *)
From Verif Require Import PyBase PyText PySplit PyDict CssUnitModel CssMathModel.
#[local] Open Scope Q_scope.

(** [size u] is what one u is worth.  Division by zero gives zero on both
    sides. *)
Definition Qsum (l : list Q) : Q := fold_right Qplus 0 l.
Definition Qprod (l : list Q) : Q := fold_right Qmult 1 l.
Definition least (l : list Q) : Q := match l with [] => 0 | x :: r => fold_left Qmin r x end.
Definition greatest (l : list Q) : Q := match l with [] => 0 | x :: r => fold_left Qmax r x end.
Definition clamped (lo v hi : Q) : Q := Qmax lo (Qmin v hi).
Fixpoint worth (size : text -> Q) (e : expr) : Q :=
  match e with
  | EUnit v u => v * size u
  | ESum l => Qsum (map (worth size) l)
  | EProduct l => Qprod (map (worth size) l)
  | ENegate x => - worth size x
  | EInvert x => / worth size x
  | EMin l => least (map (worth size) l)
  | EMax l => greatest (map (worth size) l)
  | EClamp a b c => clamped (worth size a) (worth size b) (worth size c)
  end.

(** Reading by the grammar of CSS math functions:
      sum = product [ ('+' | '-') product ]*
      product = value [ ('*' | '/') value ]*
      value = number | '(' sum ')' | calc( sum ) | min( sum , ... ) | max( sum , ... ) | clamp( sum , sum , sum )
    A '-' written against a number that is not negative is the sign of that
    number; a '-' before anything else cannot be read.  Each step takes one
    from the fuel. *)
Definition closed {A} (x : option (A * list piece)) : option (A * list piece) :=
  match x with Some (v, PClose :: r) => Some (v, r) | _ => None end.
Fixpoint read_sum (size : text -> Q) (n : nat) (ts : list piece) : option (Q * list piece) :=
  match n with
  | O => None
  | S n => match read_product size n ts with Some (v, r) => sum_rest size n v r | None => None end
  end
with sum_rest (size : text -> Q) (n : nat) (acc : Q) (ts : list piece) : option (Q * list piece) :=
  match n with
  | O => None
  | S n =>
      match ts with
      | PPlus :: r => match read_product size n r with Some (v, r') => sum_rest size n (acc + v) r' | None => None end
      | PMinus :: r => match read_product size n r with Some (v, r') => sum_rest size n (acc - v) r' | None => None end
      | _ => Some (acc, ts)
      end
  end
with read_product (size : text -> Q) (n : nat) (ts : list piece) : option (Q * list piece) :=
  match n with
  | O => None
  | S n => match read_value size n ts with Some (v, r) => product_rest size n v r | None => None end
  end
with product_rest (size : text -> Q) (n : nat) (acc : Q) (ts : list piece) : option (Q * list piece) :=
  match n with
  | O => None
  | S n =>
      match ts with
      | PTimes :: r => match read_value size n r with Some (v, r') => product_rest size n (acc * v) r' | None => None end
      | PDivide :: r => match read_value size n r with Some (v, r') => product_rest size n (acc / v) r' | None => None end
      | _ => Some (acc, ts)
      end
  end
with read_value (size : text -> Q) (n : nat) (ts : list piece) : option (Q * list piece) :=
  match n with
  | O => None
  | S n =>
      match ts with
      | PNum v u :: r => Some (v * size u, r)
      | PDash :: PNum v u :: r => if 0 <=?q v then Some (- v * size u, r) else None
      | POpen :: r | PCalc :: r => closed (read_sum size n r)
      | PMin :: r => match closed (read_list size n r) with Some (l, r') => Some (least l, r') | None => None end
      | PMax :: r => match closed (read_list size n r) with Some (l, r') => Some (greatest l, r') | None => None end
      | PClamp :: r => match closed (read_list size n r) with Some ([a; b; c], r') => Some (clamped a b c, r') | _ => None end
      | _ => None
      end
  end
with read_list (size : text -> Q) (n : nat) (ts : list piece) : option (list Q * list piece) :=
  match n with
  | O => None
  | S n =>
      match read_sum size n ts with
      | Some (v, PComma :: r) => match read_list size n r with Some (l, r') => Some (v :: l, r') | None => None end
      | Some (v, r) => Some ([v], r)
      | None => None
      end
  end.
(* the whole text is one value, worth v *)
Definition reads (size : text -> Q) (ts : list piece) (v : Q) : Prop :=
  exists n, forall m, (n <= m)%nat -> exists v', read_value size m ts = Some (v', []) /\ v' == v.
(* the whole text cannot be read *)
Definition unreadable (size : text -> Q) (ts : list piece) : Prop :=
  forall n v, read_value size n ts <> Some (v, []).

Fixpoint conj (l : list Prop) : Prop := match l with [] => True | p :: r => p /\ conj r end.
(** How loosely the text of an expression holds together when it is printed
    without parentheses ([bare]): 0 like a value, 1 like a product, 2 like a sum. *)
Definition looseness (bare : bool) (e : expr) : nat :=
  if bare then match e with ESum _ => 2%nat | EProduct _ | EInvert _ => 1%nat | _ => 0%nat end else 0%nat.
(** The expressions that print faithfully.  A negation has to be a later item
    of a sum, or that of a number that is not negative.  Inside min() and max(),
    where no parentheses are printed, a sum may not be subtracted nor be a factor,
    and a product may not be divided by. *)
Fixpoint faithful (bare : bool) (e : expr) : Prop :=
  match e with
  | EUnit _ _ => True
  | ESum l => match l with
              | [] => False
              | x :: r => faithful bare x /\
                  conj (map (fun y => match y with ENegate z => faithful bare z /\ (looseness bare z <= 1)%nat | _ => faithful bare y end) r)
              end
  | EProduct l => match l with
                  | [] => False
                  | x :: r => (faithful bare x /\ (looseness bare x <= 1)%nat) /\
                      conj (map (fun y => match y with EInvert z => faithful bare z /\ looseness bare z = 0%nat
                                                     | _ => faithful bare y /\ (looseness bare y <= 1)%nat end) r)
                  end
  | ENegate x => match x with EUnit v _ => 0 <= v | _ => False end
  | EInvert x => faithful bare x /\ looseness bare x = 0%nat
  | EMin l | EMax l => l <> [] /\ conj (map (faithful true) l)
  | EClamp a b c => faithful bare a /\ faithful bare b /\ faithful bare c
  end.
(** Without min() and max() only negations matter. *)
Fixpoint plain (e : expr) : Prop :=
  match e with
  | EUnit _ _ => True
  | ESum l => match l with
              | [] => False
              | x :: r => plain x /\ conj (map (fun y => match y with ENegate z => plain z | _ => plain y end) r)
              end
  | EProduct l => l <> [] /\ conj (map plain l)
  | ENegate x => match x with EUnit v _ => 0 <= v | _ => False end
  | EInvert x => plain x
  | EMin _ | EMax _ => False
  | EClamp a b c => plain a /\ plain b /\ plain c
  end.
