(** Parsing of math functions (svgpy/css/types.py 835-1050, 1113-1130).

    The input is a component value as tinycss2 makes it, without white space
    (889 drops it): a number with its unit, a function with its arguments, a
    one-character literal, or something else.  The _MathExpression nodes are
    mutable and refer to their parents: they live in a heap.  The constructors
    called by _reify_math_expression (1026-1050) check types (C28): that check is
    left out. *)
From Verif Require Import PyBase PyText PySplit PyDict PyCase CssTypeModel CssUnitModel CssMathModel.

Inductive comp : Type :=
  | CNum (v : Q) (u : text)
  | CFun (name : text) (args : list comp)
  | CLit (c : text)
  | COther.

Inductive nop : Type := OSum | OProduct | OInvert | ONegate | OMin | OMax | OClamp.
Inductive nval : Type := VU (v : Q) (u : text) | VN (n : nat).
Record node := mkN { nparent : option nat; oper : option nop; nvals : list nval }.
Definition mheap := list node.

(* writing to a node; the nodes written to exist *)
Definition upd (h : mheap) (n : nat) (f : node -> node) : mheap :=
  match nth_error h n with Some x => set_nth h n (f x) | None => h end.
Definition set_op (o : nop) (x : node) : node := mkN (nparent x) (Some o) (nvals x).
Definition set_parent (p : option nat) (x : node) : node := mkN p (oper x) (nvals x).
Definition set_vals (vs : list nval) (x : node) : node := mkN (nparent x) (oper x) vs.
Definition push (v : nval) (x : node) : node := set_vals (nvals x ++ [v]) x.
Definition get (h : mheap) (n : nat) : node := match nth_error h n with Some x => x | None => mkN None None [] end.
(* values.pop(-1) *)
Definition pop (h : mheap) (n : nat) : result (nval * mheap) :=
  match rev (nvals (get h n)) with
  | [] => Err IndexError
  | v :: r => Ok (v, upd h n (set_vals (rev r)))
  end.
(* up to the node without a parent, or to the one below [stop] *)
Fixpoint climb (fuel : nat) (h : mheap) (stop : option nat) (n : nat) : nat :=
  match fuel with
  | O => n
  | S fuel => match nparent (get h n) with
              | None => n
              | Some p => if match stop with Some s => Nat.eqb p s | None => false end then n else climb fuel h stop p
              end
  end.
(* 877-887 *)
Definition function_op (name : text) : result (option nop) :=
  let name := lower name in
  if text_eqb name (lit "calc") then Ok None
  else if text_eqb name (lit "clamp") then Ok (Some OClamp)
  else if text_eqb name (lit "max") then Ok (Some OMax)
  else if text_eqb name (lit "min") then Ok (Some OMin)
  else Err ValueError.
Definition takes_commas (o : option nop) : bool := match o with Some OClamp | Some OMax | Some OMin => true | _ => false end.

(* 902-912 *)
Definition star (h : mheap) (cur : nat) : result (mheap * nat) :=
  match oper (get h cur) with
  | None => Ok (upd h cur (set_op OProduct), cur)
  | Some OProduct => Ok (h, cur)
  | Some _ =>
      do vh <- pop h cur;
      let '(v, h) := vh in
      let new := length h in
      let h := h ++ [mkN (Some cur) (Some OProduct) [v]] in
      Ok (upd h cur (push (VN new)), new)
  end.
(* 913-927 *)
Definition plus (h : mheap) (cur : nat) : mheap * nat :=
  match oper (get h cur) with
  | None => (upd h cur (set_op OSum), cur)
  | Some OSum => (h, cur)
  | Some _ =>
      let prev := climb (length h) h None cur in
      let new := length h in
      (upd (h ++ [mkN (nparent (get h prev)) (Some OSum) [VN prev]]) prev (set_parent (Some new)), new)
  end.
(* 935-951 *)
Definition slash (h : mheap) (cur : nat) (v : nval) : result mheap :=
  let op := oper (get h cur) in
  let inv := length h in
  let h := h ++ [mkN (Some cur) (Some OInvert) [v]] in
  match op with
  | Some OProduct => Ok (upd h cur (push (VN inv)))
  | _ => if Nat.eqb (length (nvals (get h cur))) 1 then Ok (upd (upd h cur (set_op OProduct)) cur (push (VN inv)))
         else (do vh <- pop h cur;
               let '(prev, h) := vh in
               let new := length h in
               Ok (upd (h ++ [mkN (Some cur) (Some OProduct) [prev; VN inv]]) cur (push (VN new))))
  end.
(* 960-986 *)
Definition dash (h : mheap) (cur : nat) (v : nval) : result (mheap * nat) :=
  let op := oper (get h cur) in
  let neg := length h in
  let h := h ++ [mkN (Some cur) (Some ONegate) [v]] in
  match op with
  | Some OSum => Ok (upd h cur (push (VN neg)), cur)
  | _ => if Nat.eqb (length (nvals (get h cur))) 1 then Ok (upd (upd h cur (set_op OSum)) cur (push (VN neg)), cur)
         else match nparent (get h cur) with
              | None =>
                  let new := length h in
                  let h := h ++ [mkN None (Some OSum) [VN cur; VN neg]] in
                  Ok (upd (upd h cur (set_parent (Some new))) neg (set_parent (Some new)), new)
              | Some p =>
                  do vh <- pop h p;
                  let '(prev, h) := vh in
                  let new := length h in
                  Ok (upd (h ++ [mkN (Some cur) (Some OSum) [prev; VN neg]]) p (push (VN new)), cur)
              end
  end.
(* 875-1023 *)
Fixpoint parse_numeric (t : comp) (h : mheap) (root : option nat) {struct t} : result (mheap * nval) :=
  match t with
  | CNum v u => do x <- unit_value v u; Ok (h, VU (uv x) (uu x))
  | CFun name args =>
      do op <- function_op name;
      match args with
      | [] => Err ValueError
      | _ =>
          do hc <- (fix loop (args : list comp) (h : mheap) (cur : nat) {struct args} : result (mheap * nat) :=
             match args with
             | [] => Ok (h, cur)
             | arg :: rest =>
                 match arg with
                 | CLit c =>
                     if text_eqb c (lit ",") && takes_commas (oper (get h cur)) then loop rest h cur
                     else if text_eqb c (lit "*") then (do hc <- star h cur; let '(h, cur) := hc in loop rest h cur)
                     else if text_eqb c (lit "+") then (let '(h, cur) := plus h cur in loop rest h cur)
                     else if text_eqb c (lit "/") then
                       match rest with
                       | [] => Err ValueError
                       | t :: rest' => do hv <- parse_numeric t h (Some cur); let '(h, v) := hv in
                                       do h <- slash h cur v; loop rest' h cur
                       end
                     else if text_eqb c (lit "-") then
                       match rest with
                       | [] => Err ValueError
                       | t :: rest' => do hv <- parse_numeric t h (Some cur); let '(h, v) := hv in
                                       do hc <- dash h cur v; let '(h, cur) := hc in loop rest' h cur
                       end
                     else Err ValueError
                 | _ => do hv <- parse_numeric arg h (Some cur); let '(h, v) := hv in loop rest (upd h cur (push v)) cur
                 end
             end) args (h ++ [mkN root op []]) (length h);
          let '(h, cur) := hc in
          Ok (h, VN (climb (length h) h root cur))
      end
  | _ => Err ValueError
  end.

(* 1030-1050: the constructor called for a node *)
Definition build (o : option nop) (es : list expr) : result expr :=
  match o, es with
  | None, _ :: _ | Some OSum, _ :: _ => Ok (ESum es)
  | Some OProduct, _ :: _ => Ok (EProduct es)
  | Some OMin, _ :: _ => Ok (EMin es)
  | Some OMax, _ :: _ => Ok (EMax es)
  | Some OInvert, [x] => Ok (EInvert x)
  | Some ONegate, [x] => Ok (ENegate x)
  | Some OClamp, [a; b; c] => Ok (EClamp a b c)
  | Some OClamp, _ | Some OInvert, _ | Some ONegate, _ => Err TypeError
  | _, [] => Err ValueError
  end.
(* 1025-1050; the fuel is Python's stack.  An exception of one argument is only
   seen once the others have returned. *)
Fixpoint reify (fuel : nat) (h : mheap) (v : nval) : option (result expr) :=
  match v with
  | VU q u => Some (Ok (EUnit q u))
  | VN n =>
      match fuel with
      | O => None
      | S fuel =>
          match opts (map (reify fuel h) (nvals (get h n))) with
          | None => None
          | Some rs => Some (do es <- results rs; build (oper (get h n)) es)
          end
      end
  end.
(* 1113-1130 *)
Definition parse (fuel : nat) (t : comp) : option (result expr) :=
  match parse_numeric t [] None with
  | Err e => Some (Err e)
  | Ok (h, v) => reify fuel h v
  end.
