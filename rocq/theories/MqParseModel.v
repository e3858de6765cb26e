(** Media queries: the parser (svgpy/css/mediaquery.py 33-65, 83-94, 273-521).
    The patterns are transcribed into PyRegex; the text is lower case by the
    time they run, so IGNORECASE changes nothing. *)
From Verif Require Import PyBase PyText PySplit PyCase PyRegex PyDict MediaQueryModel.
#[local] Open Scope N_scope.

(** ** Classes *)
Definition not_space (c : N) : bool := negb (is_space c).        (* \S *)
Definition any (c : N) : bool := negb (c =? 10).                 (* . *)
Definition is_open (c : N) : bool := c =? 40.
Definition is_close (c : N) : bool := c =? 41.
Definition is_angle (c : N) : bool := (c =? 60) || (c =? 62).    (* [<>] *)
Definition not_blank (c : N) : bool := negb ((c =? 32) || (c =? 10) || (c =? 9)).  (* [^ \n\t] *)
Definition range_left (c : N) : bool := negb (is_angle c || (c =? 32)).            (* [^<> ] *)
Definition range_right (c : N) : bool := negb (is_angle c || is_close c || (c =? 32)). (* [^<>) ] *)
Definition ws := RStar is_space.
Definition ws1 := RPlus is_space.
Definition open_ := RChr is_open.
Definition close_ := RChr is_close.
(* \(.+\) *)
Definition parens := RSeqs [open_; RPlus any; close_].
(* [<>]=? *)
Definition range_op := RSeq (RChr is_angle) (ROpt (RChr (N.eqb 61))).

(** ** Patterns *)
(* 34-38 _RE_MEDIA_QUERY *)
Definition re_media_not := RGrp (lit "media_not") (RSeqs [RLit "not"; ws1; parens]).
Definition re_media_query := RAlts
  [ re_media_not;
    RGrp (lit "media_in_parens") parens;
    RGrp (lit "media_query")
      (RSeqs [ROpt (RAlt (RSeq (RLit "not") ws1) (RSeq (RLit "only") ws1)); RPlus not_blank;
              ROpt (RSeqs [ws1; RLit "and"; ws1; RRep parens])]) ].
(* 40-48 _RE_MEDIA_IN_PARENS *)
Definition re_in_parens := RAlts
  [ RGrp (lit "mf_plain") (RSeqs [open_; ws; RPlus not_space; ws; RChr (N.eqb 58); ws; RPlus not_space; ws; close_]);
    RGrp (lit "mf_boolean") (RSeqs [open_; ws; RPlus not_space; ws; close_]);
    RGrp (lit "mf_range") (RSeqs [open_; ws; RPlus range_left; ws; range_op; ws; RPlus range_right; ws;
                                  ROpt (RSeqs [range_op; ws; RPlus range_right; ws]); close_]);
    re_media_not;
    RGrp (lit "media_in_parens") parens;
    RSeqs [ws1; RGrp (lit "op") (RAlt (RLit "and") (RLit "or")); ws1] ].
(* 50-52 _RE_MF_PLAIN *)
Definition re_mf_plain :=
  RSeqs [open_; ws; RGrp (lit "mf_name") (RPlus not_space); ws; RChr (N.eqb 58); ws;
         RGrp (lit "mf_value") (RPlus not_space); ws; close_].
(* 54-57 _RE_MF_RANGE *)
Definition re_mf_range :=
  RSeqs [open_; ws; RGrp (lit "left") (RPlus range_left); ws; RGrp (lit "op") range_op; ws;
         RGrp (lit "right") (RPlus range_right); ws;
         ROpt (RSeqs [RGrp (lit "op2") range_op; ws; RGrp (lit "right2") (RPlus range_right); ws]); close_].
(* 61-63 _RE_NUMBER; digits are ASCII *)
Definition re_sign := ROpt (RChr (fun c => (c =? 43) || (c =? 45))).
Definition re_number :=
  RSeqs [re_sign;
         RAlt (RSeqs [RStar is_digit; RChr (N.eqb 46); RPlus is_digit])
              (RSeqs [RPlus is_digit; ROpt (RChr (N.eqb 46)); RStar is_digit]);
         ROpt (RSeqs [RChr (fun c => (c =? 101) || (c =? 69)); re_sign; RPlus is_digit])].

(** ** The dictionaries *)
(** A dictionary for an expression: the keys 'op', 'ops' and 'values', absent
    at first. *)
Record flat := mkFlat { f_op : option text; f_ops : option (list text); f_values : option (list tree) }.
(** The top dictionary: 'expr' (Some true for UnaryOp, Some false for BoolOp),
    its own keys, and the dictionary under 'operand'.  The functions always
    pass on the top dictionary, so an operand has no operand. *)
Record node := mkNode { n_unary : option bool; n_own : flat; n_operand : flat }.
Definition no_flat := mkFlat None None None.
Definition no_node := mkNode None no_flat no_flat.
Definition is_unary (st : node) : bool := match n_unary st with Some true => true | _ => false end.
Definition dflt {A} (o : option (list A)) : list A := match o with Some l => l | None => [] end.
(* parent.setdefault('expr', 'BoolOp') *)
Definition set_bool (st : node) : node :=
  match n_unary st with Some _ => st | None => mkNode (Some false) (n_own st) (n_operand st) end.
Definition on_operand (f : flat -> flat) (st : node) : node := mkNode (n_unary st) (n_own st) (f (n_operand st)).
Definition on_own (f : flat -> flat) (st : node) : node := mkNode (n_unary st) (f (n_own st)) (n_operand st).
(* values.append(t), 345-353, 409-420, 425-436, 466-477 *)
Definition push (t : tree) (f : flat) : flat := mkFlat (f_op f) (f_ops f) (Some (dflt (f_values f) ++ [t])).
Definition add_value (t : tree) (st : node) : node :=
  let st := set_bool st in
  if is_unary st then on_operand (push t) st else on_own (push t) st.
(* ops.append(op) *)
Definition push_op (o : text) (f : flat) : flat := mkFlat (f_op f) (Some (dflt (f_ops f) ++ [o])) (f_values f).
(* if node.get('op') is None: node['op'] = op *)
Definition set_op (o : text) (f : flat) : flat :=
  mkFlat (match f_op f with Some x => Some x | None => Some o end) (f_ops f) (f_values f).
(* 301-308, 357-363: parent becomes 'not' of a new operand *)
Definition make_not (st : node) : node :=
  mkNode (Some true) (mkFlat (Some (lit "not")) (f_ops (n_own st)) (f_values (n_own st))) (mkFlat None None (Some [])).

(** ** Features *)
Definition strip_parens (t : text) : text :=
  rdropwhile (fun c => is_open c || is_close c) (dropwhile (fun c => is_open c || is_close c) t).
(* 407-420 *)
Definition mf_boolean (q : text) : tree := TName (strip_parens q).
(* 423-461; [plain] is the choice of the operator, 440-461 *)
Definition mf_plain (q : text) : result tree :=
  match re_match re_mf_plain q with
  | Some (_, g) =>
      match group g (lit "mf_name"), group g (lit "mf_value") with
      | Some n, Some v => Ok (plain n v)
      | _, _ => Err AttributeError
      end
  | None => Err AttributeError
  end.
(* 484-503, 509-519 *)
Definition operand_of (t : text) : operand :=
  match re_match re_number t with Some _ => ONum t | None => OName t end.
Definition cop_of (t : text) : cop :=
  if text_eqb t (lit "<") then OpLt else if text_eqb t (lit "<=") then OpLe
  else if text_eqb t (lit ">") then OpGt else OpGe.
(* 464-521 *)
Definition mf_range (q : text) : result tree :=
  match re_match re_mf_range q with
  | Some (_, g) =>
      match group g (lit "left"), group g (lit "op"), group g (lit "right") with
      | Some l, Some o, Some r =>
          Ok (TCompare (operand_of l)
                ((operand_of r, cop_of o) ::
                 match group g (lit "right2"), group g (lit "op2") with
                 | Some r2, Some o2 => [(operand_of r2, cop_of o2)]
                 | _, _ => []
                 end))
      | _, _, _ => Err AttributeError
      end
  | None => Err AttributeError
  end.

(** ** Queries *)
(* which dictionary the variable "node" of 370-404 names: the parent, its
   operand, or an operand that has been replaced since *)
Inductive target := Own | Operand | Detached.
Definition on_target (tg : target) (f : flat -> flat) (st : node) : node :=
  match tg with Own => on_own f st | Operand => on_operand f st | Detached => st end.
(* 356-367; [rec] is _parse_media_query *)
Definition media_not (rec : text -> node -> result node) (q : text) (st : node) : result node :=
  rec (dropwhile is_space (dropwhile not_space q)) (make_not st).
(* 377-404 the loop over the matches *)
Fixpoint in_parens_loop (rec : text -> node -> result node) (ms : list caps) (tg : target) (st : node) : result node :=
  match ms with
  | [] => Ok st
  | g :: ms' =>
      match group g (lit "mf_plain"), group g (lit "mf_boolean"), group g (lit "mf_range"),
            group g (lit "media_not"), group g (lit "op") with
      | Some q, _, _, _, _ => do t <- mf_plain q; in_parens_loop rec ms' tg (add_value t st)
      | _, Some q, _, _, _ => in_parens_loop rec ms' tg (add_value (mf_boolean q) st)
      | _, _, Some q, _, _ => do t <- mf_range q; in_parens_loop rec ms' tg (add_value t st)
      | _, _, _, Some q, _ =>
          do st <- media_not rec q st;
          in_parens_loop rec ms' (match tg with Operand => Detached | _ => tg end) st
      | _, _, _, _, Some o => in_parens_loop rec ms' tg (on_target tg (fun f => push_op o (set_op o f)) st)
      | _, _, _, _, _ => in_parens_loop rec ms' tg st
      end
  end.
(* 370-404 *)
Definition in_parens (rec : text -> node -> result node) (q : text) (st : node) : result node :=
  let st := set_bool st in
  let tg := if is_unary st then Operand else Own in
  let st := on_target tg (fun f => mkFlat (f_op f) (Some (dflt (f_ops f))) (f_values f)) st in
  in_parens_loop rec (finditer re_in_parens q) tg st.
(* 340-353 *)
Definition media_type (q : text) (st : node) : node := add_value (TName q) st.
(* 288-336: the words of <media-query>; s is media_query[start:] *)
Fixpoint segments (fuel : nat) (rec : text -> node -> result node) (s : text) (st : node) : result node :=
  match fuel with
  | O => Ok st
  | S f =>
      if negb (existsb is_space s) then
        match s with
        | [] => Err IndexError
        | c :: _ => if is_open c then rec s st else Ok (media_type s st)
        end
      else
        let seg := takewhile not_space s in
        let rest := dropwhile is_space (dropwhile not_space s) in
        if text_eqb seg (lit "only") then segments f rec rest st
        else if text_eqb seg (lit "not") then segments f rec rest (make_not st)
        else if text_eqb seg (lit "and") || text_eqb seg (lit "or") then
          match n_unary st with
          | None => segments f rec rest (media_type seg st)
          | Some true => segments f rec rest (on_operand (fun x => set_op seg (push_op seg x)) st)
          | Some false => segments f rec rest (on_own (set_op seg) st)
          end
        else match seg with
             | c :: _ => if is_open c then rec s st else segments f rec rest (media_type seg st)
             | [] => segments f rec rest (media_type seg st)
             end
  end.
(* 273-337 the loop over the matches *)
Fixpoint media_loop (rec : text -> node -> result node) (ms : list caps) (st : node) : result node :=
  match ms with
  | [] => Ok st
  | g :: ms' =>
      match group g (lit "media_not"), group g (lit "media_in_parens"), group g (lit "media_query") with
      | Some q, _, _ => do st <- media_not rec q st; media_loop rec ms' st
      | _, Some q, _ => do st <- in_parens rec q st; media_loop rec ms' st
      | _, _, Some q => segments (S (length q)) rec q st
      | _, _, _ => media_loop rec ms' st
      end
  end.
(* 273-337 _parse_media_query; fuel bounds the depth of recursion: running out
   is a RecursionError (OtherError here).  Every call on a shorter text uses
   up less fuel than the text loses characters. *)
Fixpoint parse_query (fuel : nat) (q : text) (st : node) : result node :=
  match fuel with
  | O => Err OtherError
  | S f => media_loop (parse_query f) (finditer re_media_query q) st
  end.
(* 86-93 *)
Fixpoint parse_list (qs : list text) : result (list node) :=
  match qs with
  | [] => Ok []
  | q :: qs' =>
      let q := strip q in
      match q with
      | [] => parse_list qs'
      | _ => do n <- parse_query (2 + length q) q no_node; do ns <- parse_list qs'; Ok (n :: ns)
      end
  end.
(* 83-94 parse *)
Definition parse (q : text) : result (list node) := parse_list (split_on 44 (lower (strip q))).

(** ** Reading the dictionaries (117-131) *)
Definition bop_of (t : text) : bop := if text_eqb t (lit "and") then BAnd else BOr.
Definition opt_bop (o : option text) : option bop := match o with Some t => Some (bop_of t) | None => None end.
(* a missing key is a KeyError, after the test for mixed operators *)
Definition bool_of (f : flat) : result tree :=
  let ops := map bop_of (dflt (f_ops f)) in
  match f_values f with
  | Some vs => Ok (TBool (opt_bop (f_op f)) ops vs)
  | None => if mixed ops then Ok (TBool (opt_bop (f_op f)) ops []) else Err KeyError
  end.
Definition tree_of (n : node) : result tree :=
  match n_unary n with
  | None => Err KeyError
  | Some true => do t <- bool_of (n_operand n); Ok (TNot t)
  | Some false => bool_of (n_own n)
  end.
(* 100-114 *)
Fixpoint match_nodes (m : mqenv) (l : list node) : result (bool * option text) :=
  match l with
  | [] => Ok (false, None)
  | n :: l' => do t <- tree_of n; do r <- match_node m false t;
               if fst r then Ok (true, snd r) else match_nodes m l'
  end.
(* match(parse(q), ...), window.py 675-688 *)
Definition match_text (m : mqenv) (q : text) : result (bool * option text) :=
  do ns <- parse q; match_nodes m ns.
