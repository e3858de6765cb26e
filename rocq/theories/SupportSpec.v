(** What a property syntax means, stated over the syntax as a structure: items (a type, a function
    or a word, with a multiplier) between combinators. *)
From Coq Require Import ZArith NArith List.
From Verif Require Import PyBase PyText PySplit PyCase SupportModel.
#[local] Open Scope N_scope.
Import ListNotations.

Inductive mark := Star | Plus | Optional | Hash | Bang.
Definition mark_char (m : mark) : N := match m with Star => 42 | Plus => 43 | Optional => 63 | Hash => 35 | Bang => 33 end.
Inductive range := Exactly (n : N) | AtLeast (n : N) | Between (n m : N).
Definition range_text (r : range) : text :=
  match r with
  | Exactly n => 123 :: digits n ++ [125]
  | AtLeast n => 123 :: digits n ++ [44; 125]
  | Between n m => 123 :: digits n ++ 44 :: digits m ++ [125]
  end.
Inductive mult := Once | Marked (a : mark) | Twice (a b : mark) | Ranged (r : range) | MarkRanged (a : mark) (r : range).
Definition mult_text (m : mult) : text :=
  match m with
  | Once => []
  | Marked a => [mark_char a]
  | Twice a b => [mark_char a; mark_char b]
  | Ranged r => range_text r
  | MarkRanged a r => mark_char a :: range_text r
  end.
Inductive term := TType (n : text) | TFun (n args : text) | TWord (w : text).
Definition term_text (t : term) : text :=
  match t with TType n => 60 :: n ++ [62] | TFun n a => 60 :: n ++ 40 :: a ++ [41; 62] | TWord w => w end.
(* an item without a term is the multiplier of a group, or nothing between two combinators *)
Definition item := (option term * mult)%type.
Definition item_text (i : item) : text := match fst i with Some t => term_text t | None => [] end ++ mult_text (snd i).
Inductive sep := Blank | Bar | Bars | Amps | Open | Close.
Definition sep_text (s : sep) : text :=
  match s with Blank => [32] | Bar => [124] | Bars => [124; 124] | Amps => [38; 38] | Open => [91] | Close => [93] end.
Definition syntax := (list (item * sep) * item)%type.
Definition render (s : syntax) : text := concat (map (fun p => item_text (fst p) ++ sep_text (snd p)) (fst s)) ++ item_text (snd s).
Definition items (s : syntax) : list item := map fst (fst s) ++ [snd s].
Definition terms (s : syntax) : list term := flat_map (fun i : item => match fst i with Some t => [t] | None => [] end) (items s).
(* one syntax, then another as alternatives *)
Definition alternative (s s' : syntax) : syntax := (fst s ++ (snd s, Bar) :: fst s', snd s').

(* characters that neither combine nor delimit *)
Definition plain (c : N) : bool := negb (existsb (N.eqb c) [32; 91; 93; 124; 38; 123; 125]).
Definition wf_term (t : term) : bool :=
  match t with
  | TType n => forallb (fun c => plain c && negb (existsb (N.eqb c) [62; 40])) n
  | TFun n a => match n with c :: _ => name_start c | [] => false end && forallb name_char n && forallb (fun c => plain c && negb (c =? 41)) a
  | TWord w => match w with c :: _ => negb (c =? 60) | [] => false end && forallb plain w && negb (existsb (N.eqb (last w 0)) [62; 42; 43; 63; 35; 33])
  end.
Definition wf (s : syntax) : Prop := Forall (fun t => wf_term t = true) (terms s).

(** The types a token belongs to. *)
Definition words (l : list string) : list text := map lit l.
Definition builtin (f : text) : list text :=
  if mem f (words ["rgb"; "rgba"; "hsl"; "hsla"; "hwb"; "gray"; "device-cmyk"]%string) then words ["color"%string]
  else if mem f (words ["cross-fade"; "image"; "image-set"; "conic-gradient"; "linear-gradient"; "radial-gradient"; "repeating-conic-gradient"; "repeating-linear-gradient"; "repeating-radial-gradient"]%string) then words ["image"%string]
  else if mem f (words ["calc"; "min"; "max"; "clamp"]%string) then words ["length-percentage"%string]
  else if mem f (words ["matrix"; "translate"; "translatex"; "translatey"; "scale"; "scalex"; "scaley"; "rotate"; "skew"; "skewx"; "skewy"]%string) then words ["transform-function"; "transform-list"]%string
  else [].
Definition unit_types (u : text) : list text :=
  if mem u (words ["deg"; "grad"; "rad"; "turn"]%string) then words ["angle"%string]
  else if mem u (words ["s"; "ms"]%string) then words ["time"%string]
  else if mem u (words ["dpi"; "dpcm"; "dppx"]%string) then words ["resolution"%string]
  else if mem u (words ["em"; "ex"; "cap"; "ch"; "ic"; "rem"; "lh"; "rlh"; "vw"; "vh"; "vi"; "vb"; "vmin"; "vmax"; "cm"; "mm"; "q"; "in"; "pt"; "pc"; "px"; "hz"; "khz"; "fr"]%string) then words ["length"; "length-percentage"]%string
  else [].
Definition hex_lengths (v : text) : bool := Nat.eqb (length v) 3 || Nat.eqb (length v) 4 || Nat.eqb (length v) 6 || Nat.eqb (length v) 8.
Definition fits (cw : text -> bool) (t : stok) : list text :=
  match t with
  | KDim u => unit_types u
  | KFun f => builtin f
  | KHash v => if forallb hex_digit v && hex_lengths v then words ["color"%string] else []
  | KIdent v | KString v => words ["custom-ident"; "string"]%string ++ (if text_eqb (lower v) (lit "currentcolor") || cw v then words ["color"%string] else [])
  | KLit _ => words ["custom-ident"%string]
  | KNum i => words ["number"; "length"; "length-percentage"; "custom-ident"; "string"]%string ++ (if i then words ["integer"%string] else [])
  | KPct => words ["percentage"; "length-percentage"]%string
  | KUrl => words ["url"; "image"]%string
  | KError | KOther => []
  end.
Definition reserved (w : text) : bool := mem (lower w) (words ["currentcolor"; "transparent"; "default"; "inherit"; "initial"; "revert"; "unset"]%string).
(** One term and one token. *)
Definition accepts (cw : text -> bool) (t : term) (k : stok) : bool :=
  match t with
  | TType n => mem n (fits cw k)
  | TFun n _ => match k with KFun f => text_eqb f (lower n) && match builtin f with [] => true | _ => false end | _ => false end
  | TWord w => match k with KIdent v | KString v | KLit v => text_eqb v w && negb (reserved w) | _ => false end
  end.
(* accepted whatever the syntax *)
Definition wide (v : text) : bool := mem (lower v) (words ["default"; "inherit"; "initial"; "revert"; "unset"]%string).
Definition universal (k : stok) : bool :=
  match k with KIdent v | KString v => wide v | KFun f => text_eqb f (lit "var") | _ => false end.
Definition accepted (cw : text -> bool) (s : syntax) (k : stok) : bool := universal k || existsb (fun t => accepts cw t k) (terms s).

(** A list of tokens. *)
Definition keyword (k : stok) : bool := match k with KIdent v => wide v | _ => false end.
Definition is_comma (k : stok) : bool := match k with KLit v => text_eqb v (lit ",") | _ => false end.
Definition fine (cw : text -> bool) (s : syntax) (k : stok) : bool :=
  if is_comma k then existsb (N.eqb 35) (render s) || existsb (fun t => match t with TWord w => text_eqb w (lit ",") | _ => false end) (terms s)
  else accepted cw s k.
Definition broken (k : stok) : option pyerr := match k with KError => Some ValueError | KOther => Some NotImplementedError_ | _ => None end.
(* the first token that is not fine *)
Fixpoint first_bad (cw : text -> bool) (s : syntax) (ks : list stok) : option stok :=
  match ks with [] => None | k :: r => if fine cw s k then first_bad cw s r else Some k end.
Definition verdict (cw : text -> bool) (s : syntax) (ks : list stok) : result bool :=
  match first_bad cw s ks with
  | Some k => match broken k with Some e => Err e | None => Ok false end
  | None => Ok (negb (existsb keyword ks) || Nat.leb (length ks) 1)
  end.

(** Reading a syntax text as a structure: only used to show that the syntaxes of the descriptor
    table are of this form; what it returns is checked by writing it again. *)
Definition parse_number (t : text) : N := fold_left (fun a c => 10 * a + (c - 48)) t 0.
Definition mark_of (c : N) : mark := if c =? 42 then Star else if c =? 43 then Plus else if c =? 63 then Optional else if c =? 35 then Hash else Bang.
Definition range_of (t : text) : range :=
  match split_on 44 (removelast (tl t)) with [a] => Exactly (parse_number a) | [a; []] => AtLeast (parse_number a) | a :: b :: _ => Between (parse_number a) (parse_number b) | [] => Exactly 0 end.
Definition mult_of (t : text) : mult :=
  match t with
  | [] => Once
  | [c] => Marked (mark_of c)
  | [c; d] => Twice (mark_of c) (mark_of d)
  | c :: r => if c =? 123 then Ranged (range_of t) else MarkRanged (mark_of c) (range_of r)
  end.
Definition term_of (t : text) : term :=
  match t with
  | c :: r => if c =? 60 then if existsb (N.eqb 40) r then TFun (takewhile (fun x => negb (x =? 40)) r) (removelast (removelast (tl (dropwhile (fun x => negb (x =? 40)) r)))) else TType (removelast r) else TWord t
  | [] => TWord t
  end.
Definition item_of (t : text) : item :=
  let s := strip_mult t in (match s with [] => None | _ => Some (term_of s) end, mult_of (skipn (length s) t)).
Fixpoint read (w t : text) (acc : list (item * sep)) : syntax :=
  match t with
  | [] => (rev acc, item_of w)
  | c :: r =>
      let one s := read [] r ((item_of w, s) :: acc) in
      if c =? 32 then one Blank else if c =? 91 then one Open else if c =? 93 then one Close
      else if c =? 124 then match r with d :: r' => if d =? 124 then read [] r' ((item_of w, Bars) :: acc) else one Bar | [] => one Bar end
      else if c =? 38 then match r with d :: r' => if d =? 38 then read [] r' ((item_of w, Amps) :: acc) else read (w ++ [c]) r acc | [] => read (w ++ [c]) r acc end
      else read (w ++ [c]) r acc
  end.
Definition structured (t : text) : bool := let s := read [] t [] in text_eqb (render s) t && forallb wf_term (terms s).
