(** Words for the claims about media queries. *)
From Verif Require Import PyBase PyText PySplit PyDict MediaQueryModel.

(** The media types of CSS 2 and Media Queries 4, and the features of Media
    Queries 4 that are discrete. *)
Definition media_words : list text :=
  [lit "all"; lit "print"; lit "screen"; lit "speech"; lit "tty"; lit "tv"; lit "projection"; lit "handheld"; lit "braille"; lit "embossed"; lit "aural"].
Definition discrete_words : list text :=
  [lit "orientation"; lit "scan"; lit "grid"; lit "update"; lit "overflow-block"; lit "overflow-inline"; lit "color-gamut"; lit "pointer"; lit "hover";
   lit "any-pointer"; lit "any-hover"].

(** Boolean reading of a query tree, the truth of the conditions being given *)
Fixpoint truth (v : tree -> bool) (t : tree) : bool :=
  match t with
  | TNot c => negb (truth v c)
  | TBool (Some BAnd) _ cs => forallb (truth v) cs
  | TBool _ _ cs => existsb (truth v) cs
  | _ => v t
  end.
(* v tells the truth about the conditions of t in the environment m *)
Fixpoint tells (m : mqenv) (v : tree -> bool) (t : tree) : Prop :=
  match t with
  | TNot c => tells m v c
  | TBool _ _ cs => (fix all l := match l with [] => True | c :: l' => tells m v c /\ all l' end) cs
  | TName n => exists media, eval_name m n = Ok (v t, media)
  | TCompare a b => eval_compare m a b = Ok (v t)
  end.
(* the trees without errors of grammar: at least one condition, 'and' and 'or'
   not mixed, nesting only by 'not' *)
Fixpoint grammatical (t : tree) : Prop :=
  match t with
  | TNot c => match c with TNot _ | TBool _ _ _ => grammatical c | _ => False end
  | TBool _ ops cs => ~ (In BAnd ops /\ In BOr ops) /\ cs <> [] /\
      (fix all l := match l with
                    | [] => True
                    | c :: l' => match c with TBool _ _ _ => False | TNot _ => grammatical c | _ => True end /\ all l'
                    end) cs
  | _ => False
  end.
(* every 'not' is about one condition or another 'not' *)
Fixpoint plain_nots (t : tree) : Prop :=
  match t with
  | TNot c => match c with TBool _ _ cs => length cs = 1%nat | _ => True end /\ plain_nots c
  | TBool _ _ cs => (fix all l := match l with [] => True | c :: l' => plain_nots c /\ all l' end) cs
  | _ => True
  end.

(** numbers *)
Definition holds (op : cop) (a b : Q) : bool :=
  match op with
  | OpEq => Qeq_bool a b
  | OpLt => negb (Qle_bool b a) | OpLe => Qle_bool a b
  | OpGt => negb (Qle_bool a b) | OpGe => Qle_bool b a
  end.
(* compare_func compares the numbers that the values stand for *)
Definition compares (num : value -> option Q) (cmp : value -> value -> option Z) : Prop :=
  forall l r a b, num l = Some a -> num r = Some b ->
    exists c, cmp l r = Some c /\ (c = 0%Z <-> a == b) /\ ((0 < c)%Z <-> b < a) /\ ((c < 0)%Z <-> a < b).
(* the features compared by compare_func *)
Definition numeric (n : text) : Prop :=
  n <> lit "aspect-ratio" /\
  ~ In n [lit "orientation"; lit "scan"; lit "update"; lit "overflow-block"; lit "overflow-inline"; lit "color-gamut";
          lit "pointer"; lit "hover"; lit "any-pointer"; lit "any-hover"].
(* the number an operand stands for; a feature the environment does not have
   stands for none *)
Definition operand_num (num : value -> option Q) (m : mqenv) (o : operand) : option Q :=
  match o with
  | ONum t => num (VText t)
  | OName n => match dget (qenv m) n with Some v => num v | None => None end
  end.
(* operands that are numbers, or features of the environment that are numbers,
   or features it does not have *)
Definition proper (num : value -> option Q) (m : mqenv) (o : operand) : Prop :=
  match o with
  | ONum t => num (VText t) <> None
  | OName n => numeric n /\ match dget (qenv m) n with Some v => num v <> None | None => True end
  end.
(* a op1 b op2 c ... : every neighbouring pair compares so *)
Fixpoint chain (num : value -> option Q) (m : mqenv) (a : option Q) (rights : list (operand * cop)) : bool :=
  match a, rights with
  | None, _ => false
  | Some _, [] => true
  | Some x, (o, op) :: rest =>
      match operand_num num m o with Some y => holds op x y | None => false end && chain num m (operand_num num m o) rest
  end.
(* a query says 'portrait', the environment 'portrait-primary' *)
Definition no_dash (t : text) : Prop := ~ In 45%N t.
Definition same_orientation (a b : text) : Prop :=
  a = b \/ (no_dash b /\ exists k, a = b ++ 45%N :: k) \/ (no_dash a /\ exists k, b = a ++ 45%N :: k).
(* (f) without a value, by value of the feature *)
Definition feature_on (n : text) (v : value) : Prop :=
  match v with
  | VInt z => if text_eqb n (lit "grid") then z = 1%Z
              else if text_eqb n (lit "color") || text_eqb n (lit "color-index") || text_eqb n (lit "monochrome") then (0 < z)%Z
              else True
  | VText t => if mem n [lit "update"; lit "overflow-block"; lit "overflow-inline"; lit "pointer"; lit "hover"; lit "any-pointer"; lit "any-hover"]
               then t <> lit "none" else True
  end.
