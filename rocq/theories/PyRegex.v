(** A small matcher with the meaning of Python's re: backtracking, greedy, the
    first alternative that leads to a match wins.  A match is the list of all
    ways to match, in the order in which re tries them; re reports the first.
    Only what the patterns of svgpy need: character classes, sequences,
    alternatives, greedy repetition of a class, of a group, and named groups.
    Patterns are compiled by hand; case and the other flags are folded into
    the classes. *)
From Verif Require Import PyBase PyText.

Inductive re :=
| RChr (p : N -> bool)          (* one character of a class *)
| RStar (p : N -> bool)         (* class* *)
| RPlus (p : N -> bool)         (* class+ *)
| REps
| RSeq (a b : re)
| RAlt (a b : re)
| RRep (a : re)                 (* (a)+, a not matching the empty text *)
| RGrp (name : text) (a : re).  (* (?P<name>a) *)

(* what is left of the text, and the groups captured, the last one first *)
Definition caps := list (text * text).
Definition way := (text * caps)%type.

(* the ways to match class*: longest first *)
Fixpoint stars (p : N -> bool) (s : text) : list text :=
  match s with
  | [] => [[]]
  | c :: s' => if p c then stars p s' ++ [s] else [s]
  end.
Definition pluses (p : N -> bool) (s : text) : list text :=
  match s with
  | [] => []
  | c :: s' => if p c then stars p s' else []
  end.
Definition add_caps (g : caps) (w : way) : way := (fst w, snd w ++ g).

Fixpoint repeat_ways (m : text -> list way) (fuel : nat) (s : text) : list way :=
  match fuel with
  | O => []
  | S f => flat_map (fun w => map (add_caps (snd w)) (repeat_ways m f (fst w)) ++ [w]) (m s)
  end.
(* the text between s and its end part r *)
Definition upto (s r : text) : text := firstn (length s - length r) s.

Fixpoint ways (e : re) (s : text) : list way :=
  match e with
  | RChr p => match s with c :: s' => if p c then [(s', [])] else [] | [] => [] end
  | RStar p => map (fun r => (r, [])) (stars p s)
  | RPlus p => map (fun r => (r, [])) (pluses p s)
  | REps => [(s, [])]
  | RSeq a b => flat_map (fun w => map (add_caps (snd w)) (ways b (fst w))) (ways a s)
  | RAlt a b => ways a s ++ ways b s
  | RRep a => repeat_ways (ways a) (S (length s)) s
  | RGrp n a => map (fun w => (fst w, (n, upto s (fst w)) :: snd w)) (ways a s)
  end.

Definition ROpt (a : re) : re := RAlt a REps.
(* a word, letter by letter *)
Fixpoint RWord (t : text) : re :=
  match t with
  | [] => REps
  | [c] => RChr (N.eqb c)
  | c :: t' => RSeq (RChr (N.eqb c)) (RWord t')
  end.
Definition RLit (s : string) : re := RWord (lit s).
Fixpoint RSeqs (l : list re) : re :=
  match l with [] => REps | [a] => a | a :: l' => RSeq a (RSeqs l') end.
Fixpoint RAlts (l : list re) : re :=
  match l with [] => RChr (fun _ => false) | [a] => a | a :: l' => RAlt a (RAlts l') end.

(* re.match *)
Definition re_match (e : re) (s : text) : option way := hd_error (ways e s).
(* match.group(name): None if the group took no part *)
Definition group (g : caps) (n : text) : option text :=
  match find (fun x => text_eqb (fst x) n) g with Some (_, t) => Some t | None => None end.
(* re.finditer: the groups of the matches; the pattern does not match the
   empty text.  Fuel: the length of the text. *)
Fixpoint finditer_ (fuel : nat) (e : re) (s : text) : list caps :=
  match fuel with
  | O => []
  | S f =>
      match re_match e s with
      | Some (r, g) => g :: finditer_ f e r
      | None => match s with [] => [] | _ :: s' => finditer_ f e s' end
      end
  end.
Definition finditer (e : re) (s : text) : list caps := finditer_ (S (length s)) e s.
