(** svgpy/utils.py: style texts, case-insensitive mappings, qualified names. *)
From Verif Require Import PyBase PyText PySplit PyDict.
#[local] Open Scope N_scope.

(** ** Style texts *)
(* order of str: code points, a prefix first *)
Fixpoint text_leb (a b : text) : bool :=
  match a, b with
  | [], _ => true
  | _, [] => false
  | x :: a', y :: b' => (x <? y) || ((x =? y) && text_leb a' b')
  end.
(* sorted() *)
Fixpoint insert_text (x : text) (l : list text) : list text :=
  match l with [] => [x] | y :: l' => if text_leb x y then x :: l else y :: insert_text x l' end.
Fixpoint sort_texts (l : list text) : list text :=
  match l with [] => [] | x :: l' => insert_text x (sort_texts l') end.
(* 42-53; keys and values are texts *)
Definition dict_to_style (d : option (dict text)) : text :=
  match d with
  | None => []
  | Some d => join [32] (sort_texts (map (fun p => fst p ++ [58; 32] ++ snd p ++ [59]) d))
  end.
(* OrderedDict(pairs) *)
Definition dict_of {V} (l : list (text * V)) : dict V := fold_left (fun d p => dset d (fst p) (snd p)) l [].
(* 241-255 *)
Definition two_parts (x : text) : option (text * text) :=
  match split_on 58 x with [k; v] => Some (strip k, strip v) | _ => None end.
Fixpoint filter_some {A} (l : list (option A)) : list A :=
  match l with [] => [] | Some x :: l' => x :: filter_some l' | None :: l' => filter_some l' end.
Definition style_to_dict (t : option text) : dict text :=
  match t with
  | None => []
  | Some t => match strip t with [] => [] | s => dict_of (filter_some (map two_parts (split_on 59 s))) end
  end.

(** ** CaseInsensitiveMapping (258-303), keys texts.  [low] is str.lower. *)
Record cimap (V : Type) := mkCI { cdata : dict V; ckeys : dict text }.
Arguments mkCI {V}. Arguments cdata {V}. Arguments ckeys {V}.
Definition ci_empty {V} : cimap V := mkCI [] [].
Definition ci_contains {V} (low : text -> text) (m : cimap V) (k : text) : bool := dhas (ckeys m) (low k).
Definition ci_get {V} (low : text -> text) (m : cimap V) (k : text) : result V :=
  match dget (ckeys m) (low k) with
  | None => Err KeyError
  | Some k' => match dget (cdata m) k' with Some v => Ok v | None => Err KeyError end
  end.
Definition ci_set {V} (low : text -> text) (m : cimap V) (k : text) (v : V) : cimap V :=
  match dget (ckeys m) (low k) with
  | Some k' => mkCI (dset (cdata m) k' v) (ckeys m)
  | None => mkCI (dset (cdata m) k v) (dset (ckeys m) (low k) k)
  end.
(* the first del is done before the second fails *)
Definition ci_del {V} (low : text -> text) (m : cimap V) (k : text) : result (cimap V) :=
  match dget (ckeys m) (low k) with
  | None => Err KeyError
  | Some k' => if dhas (cdata m) k' then Ok (mkCI (ddel (cdata m) k') (ddel (ckeys m) (low k))) else Err KeyError
  end.
Definition ci_iter {V} (m : cimap V) : list text := dkeys (cdata m).
Definition ci_len {V} (m : cimap V) : nat := length (cdata m).
Inductive ci_op (V : Type) := CSet (k : text) (v : V) | CDel (k : text).
Arguments CSet {V}. Arguments CDel {V}.
(* a failed deletion leaves the mapping as it was *)
Definition ci_step {V} (low : text -> text) (m : cimap V) (o : ci_op V) : cimap V :=
  match o with
  | CSet k v => ci_set low m k v
  | CDel k => match ci_del low m k with Ok m' => m' | Err _ => m end
  end.
Definition ci_run {V} (low : text -> text) (l : list (ci_op V)) : cimap V := fold_left (ci_step low) l ci_empty.
(* collections.abc.Mapping.__eq__: dict(self.items()) == dict(other.items()) *)
Definition ci_eq (a b : cimap text) : bool :=
  (length (cdata a) =? length (cdata b))%nat &&
  forallb (fun p => match dget (cdata b) (fst p) with Some v => text_eqb v (snd p) | None => false end) (cdata a).

(** ** QualifiedName (306-393) *)
Record qname := mkQN { qns : option text; qlocal : text }.
(* the property name *)
Definition clark (q : qname) : text :=
  match qns q with None => qlocal q | Some ns => [123] ++ ns ++ [125] ++ qlocal q end.
(* 157-160 *)
Definition ascii_space (c : N) : bool := existsb (N.eqb c) [9; 10; 12; 13; 32].
Definition is_ascii_whitespace (t : text) : bool := existsb ascii_space t.
(* 30-31 *)
Definition clark_match (t : text) : option (text * text) :=
  match t with
  | c :: r => if c =? 123 then
                match dropwhile (fun c => negb (c =? 125)) r with
                | [] => None
                | _ :: l => Some (takewhile (fun c => negb (c =? 125)) r, l)
                end
              else None
  | [] => None
  end.
(* str.split(':', maxsplit=1) *)
Definition split_colon (t : text) : option (text * text) :=
  match dropwhile (fun c => negb (c =? 58)) t with
  | [] => None
  | _ :: r => Some (takewhile (fun c => negb (c =? 58)) t, r)
  end.
Definition is_empty (t : option text) : bool := match t with Some [] => true | _ => false end.
Definition qualified (namespace : option text) (q : text) (nsmap : dict text) : result qname :=
  let namespace := if is_empty namespace then None else namespace in
  if match namespace with Some n => is_ascii_whitespace n | None => false end then Err InvalidCharacterError
  else match q with
  | [] => Err ValueError
  | _ =>
    if is_ascii_whitespace q then Err InvalidCharacterError else
    let '(prefix, local, ns) :=
      match clark_match q with
      | Some (ns, l) => (None, l, Some ns)
      | None => match split_colon q with
                | Some (p, l) => (Some p, l, dget nsmap p)
                | None => (None, q, None)
                end
      end in
    if is_empty prefix || is_empty (Some local) || is_empty ns then Err ValueError
    else if (is_some prefix && (negb (is_some namespace) || negb (is_some ns)))
            || match namespace, ns with Some a, Some b => negb (text_eqb b a) | _, _ => false end
    then Err NamespaceError
    else Ok (mkQN (match namespace with None => ns | _ => namespace end) local)
  end.
