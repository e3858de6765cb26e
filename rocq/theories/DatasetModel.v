(** DOMStringMap (svgpy/dom.py 91-173), as used for Element.dataset with the
    prefix 'data-' (svgpy/base.py 35).

    State: the attributes of the element, a dictionary from names to values
    (the NamedNodeMap in between reads and writes exactly this dictionary for
    text values, see AttrModel.v).  Simplification: letter case is that of
    ASCII; a name holding ':' or one lxml refuses raises ValueError. *)
From Verif Require Import PyBase PyText PySplit PyCase PyDict.
Local Open Scope N_scope.

Definition dash : N := 45.
Definition data_prefix : text := lit "data-".

(* dom.py 33, re.search('-[a-z]', key) *)
Fixpoint has_dash_low (t : text) : bool :=
  match t with
  | a :: ((b :: _) as t') => ((a =? dash) && is_low b) || has_dash_low t'
  | _ => false
  end.

(* dom.py 152-160 *)
Definition convert_name (key : text) : result text :=
  if has_dash_low key then Err ValueError else
  Ok (lower (data_prefix ++ flat_map (fun c => if is_up c then [dash; c] else [c]) key)).

(* dom.py 133-150: the parts between dashes; the empty part after a final
   dash is not visited by the loop, other empty parts give a dash, every
   part but the first is capitalised *)
Definition part_text (first : bool) (p : text) : text :=
  match p with [] => [dash] | _ => if first then p else capitalize p end.
Fixpoint parts_key (first : bool) (l : list text) : text :=
  match l with
  | [] => []
  | [[]] => []
  | p :: l' => part_text first p ++ parts_key false l'
  end.
Definition convert_key (name : text) : text :=
  parts_key true (split_on dash (skipn (length data_prefix) name)).

(* dom.py 36-45: the XML Name pattern, with all its ranges; a name holding
   ':' passes here and is refused by lxml, see [set] *)
Definition in_ranges (l : list (N * N)) (c : N) : bool :=
  existsb (fun r => (fst r <=? c) && (c <=? snd r)) l.
Definition name_start : list (N * N) :=
  [(58,58);(65,90);(95,95);(97,122);(192,214);(216,246);(248,767);(880,893);(895,8191);(8204,8205);
   (8304,8591);(11264,12271);(12289,55295);(63744,64975);(65008,65533);(65536,983039)].
Definition name_more : list (N * N) := [(45,45);(46,46);(48,57);(183,183);(768,879);(8255,8256)].
Definition validate_name (name : text) : bool :=
  match name with
  | [] => false
  | c :: r => in_ranges name_start c && forallb (fun c => in_ranges (name_start ++ name_more) c) r
  end.

Definition state := dict text.

(* dom.py 109-112 *)
Definition get (d : state) (key : text) : result text :=
  do name <- convert_name key;
  match dget d name with Some v => Ok v | None => Err KeyError end.
(* dom.py 105-107 *)
Definition del (d : state) (key : text) : result state :=
  do name <- convert_name key;
  match dget d name with Some _ => Ok (ddel d name) | None => Err KeyError end.
(* dom.py 123-131 *)
Definition set (d : state) (key : text) (v : text) : result state :=
  match v with
  | [] => del d key
  | _ => do name <- convert_name key;
         if validate_name name
         then if existsb (N.eqb 58) name then Err ValueError else Ok (dset d name v)
         else Err InvalidCharacterError
  end.
(* str.startswith *)
Fixpoint starts_with (p t : text) : bool :=
  match p, t with
  | [], _ => true
  | a :: p', b :: t' => (a =? b) && starts_with p' t'
  | _ :: _, [] => false
  end.
(* dom.py 169-173 *)
Definition listed (name : text) : bool := starts_with data_prefix name && islower name.
Definition keys (d : state) : list text := map convert_key (filter listed (dkeys d)).

(** Histories. *)
Inductive dop : Type := DSet (k v : text) | DDel (k : text).
Definition dstep (d : state) (o : dop) : state :=
  match match o with DSet k v => set d k v | DDel k => del d k end with Ok d' => d' | Err _ => d end.
Definition drun (d : state) (l : list dop) : state := fold_left dstep l d.
