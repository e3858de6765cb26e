(** Words for the claims about parsing math functions: written math functions,
    what they mean, and those that are understood. *)
From Verif Require Import PyBase PyText PySplit PyDict PyCase CssUnitModel CssUnitSpec CssMathModel CssMathSpec CssCalcModel.
#[local] Open Scope Q_scope.

Inductive sign : Type := Add | Sub | Mul | Div.
Inductive pick : Type := Least | Greatest | Between.
(** calc( x op x op ... ), min( x , x , ... ) and so on, with the name as
    written. *)
Inductive math : Type :=
  | MNum (v : Q) (u : text)
  | MCalc (name : text) (x : math) (l : list (sign * math))
  | MPick (k : pick) (name : text) (x : math) (l : list math).

Definition sign_text (o : sign) : text :=
  match o with Add => lit "+" | Sub => lit "-" | Mul => lit "*" | Div => lit "/" end.
Fixpoint tokens (m : math) : comp :=
  match m with
  | MNum v u => CNum v u
  | MCalc name x l => CFun name (tokens x :: concat (map (fun p => [CLit (sign_text (fst p)); tokens (snd p)]) l))
  | MPick _ name x l => CFun name (tokens x :: concat (map (fun y => [CLit (lit ","); tokens y]) l))
  end.

(** The meaning: '*' and '/' bind tighter than '+' and '-', left to right.
    [total] is the sum of the finished terms, [term] the term being read. *)
Fixpoint run (total term : Q) (l : list (sign * Q)) : Q :=
  match l with
  | [] => total + term
  | (Add, v) :: r => run (total + term) v r
  | (Sub, v) :: r => run (total + term) (- v) r
  | (Mul, v) :: r => run total (term * v) r
  | (Div, v) :: r => run total (term / v) r
  end.
Definition picked (k : pick) (l : list Q) : Q :=
  match k, l with
  | Least, _ => least l
  | Greatest, _ => greatest l
  | Between, [a; b; c] => clamped a b c
  | Between, _ => 0
  end.
Fixpoint meaning (size : text -> Q) (m : math) : Q :=
  match m with
  | MNum v u => v * size (lower u)
  | MCalc _ x l => run 0 (meaning size x) (map (fun p => (fst p, meaning size (snd p))) l)
  | MPick k _ x l => picked k (meaning size x :: map (meaning size) l)
  end.

(** Which sequences of operators are understood.  [OneTerm] one operand was
    read; [FirstProduct] a product and nothing before it; [InSum] a sum whose
    last term has no '*'; [LaterProduct] a sum whose last term is a product
    begun by '*'; [AfterProduct] such a sum from whose last product something
    was subtracted.  A '*' or '/' in the last case goes wrong, and in a nested
    function so does a '+' or '-' leaving a first product and a '+' leaving a
    later one. *)
Inductive reading : Type := OneTerm | FirstProduct | InSum | LaterProduct | AfterProduct.
Definition next (nested : bool) (s : reading) (o : sign) : option reading :=
  match s, o with
  | OneTerm, (Add | Sub) => Some InSum
  | OneTerm, (Mul | Div) => Some FirstProduct
  | FirstProduct, (Mul | Div) => Some FirstProduct
  | FirstProduct, (Add | Sub) => if nested then None else Some InSum
  | InSum, Mul => Some LaterProduct
  | InSum, _ => Some InSum
  | LaterProduct, (Mul | Div) => Some LaterProduct
  | LaterProduct, Sub => Some AfterProduct
  | LaterProduct, Add => if nested then None else Some InSum
  | AfterProduct, Sub => Some AfterProduct
  | AfterProduct, Add => if nested then None else Some InSum
  | AfterProduct, (Mul | Div) => None
  end.
Fixpoint ops_ok (nested : bool) (s : reading) (l : list sign) : Prop :=
  match l with
  | [] => True
  | o :: r => match next nested s o with Some s' => ops_ok nested s' r | None => False end
  end.
Definition pick_name (k : pick) : text := match k with Least => lit "min" | Greatest => lit "max" | Between => lit "clamp" end.
Fixpoint understood (nested : bool) (m : math) : Prop :=
  match m with
  | MNum _ u => known (lower u)
  | MCalc name x l => lower name = lit "calc" /\ ops_ok nested OneTerm (map fst l) /\
                      understood true x /\ conj (map (fun p => understood true (snd p)) l)
  | MPick k name x l => lower name = pick_name k /\ (k = Between -> length l = 2%nat) /\
                        understood true x /\ conj (map (understood true) l)
  end.
(** Only '+' and '-', or only '*' and '/', in each function: enough to be
    understood anywhere. *)
Fixpoint unmixed (m : math) : Prop :=
  match m with
  | MNum _ u => known (lower u)
  | MCalc name x l => lower name = lit "calc" /\
                      ((forall o, In o (map fst l) -> o = Add \/ o = Sub) \/ (forall o, In o (map fst l) -> o = Mul \/ o = Div)) /\
                      unmixed x /\ conj (map (fun p => unmixed (snd p)) l)
  | MPick k name x l => lower name = pick_name k /\ (k = Between -> length l = 2%nat) /\
                        unmixed x /\ conj (map unmixed l)
  end.
(** the parser returns [e] with enough stack; it never returns *)
Definition parses (t : comp) (r : result expr) : Prop := exists n, forall k, (n <= k)%nat -> parse k t = Some r.
Definition parses_not (t : comp) : Prop := forall n, parse n t = None.
(** Texts made of known units, operators and the four functions only. *)
Fixpoint well_formed (t : comp) : Prop :=
  match t with
  | CNum _ u => known (lower u)
  | CFun name args => In (lower name) [lit "calc"; lit "clamp"; lit "max"; lit "min"] /\ args <> [] /\
                      conj (map (fun a => well_formed a \/ exists c, a = CLit c /\ In c [lit ","; lit "+"; lit "-"; lit "*"; lit "/"]) args)
  | _ => False
  end.
