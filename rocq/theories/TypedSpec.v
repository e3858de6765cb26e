(** What typed style values and property maps should do, stated apart from the code. *)
From Coq Require Import ZArith NArith List.
From Verif Require Import PyBase PyText PySplit PyDict PyCase SupportModel ShortModel ShortSpec TypedTable TypedModel.
#[local] Open Scope N_scope.
Import ListNotations.

(** ** Texts *)
(* a reference to a variable: var( at the start of the text or after a separator *)
Definition separator (c : N) : Prop := is_space c = true \/ In c (lit "*/(,").
Definition uses_var (t : text) : Prop :=
  exists before after, t = before ++ lit "var(" ++ after /\ (before = [] \/ exists b c, before = b ++ [c] /\ separator c).
(* the seven words that are read in any case *)
Definition folding : list text := map lit ["currentcolor"; "transparent"; "default"; "inherit"; "initial"; "revert"; "unset"]%string.
Definition wide_words : list text := map lit ["default"; "inherit"; "initial"; "revert"; "unset"]%string.
Definition folded (t t' : text) : Prop := (In (lower t) folding /\ t' = lower t) \/ (~ In (lower t) folding /\ t' = t).
(* a number without a unit *)
Definition sign (t : text) : Prop := t = [] \/ t = lit "+" \/ t = lit "-".
Definition digit_text (t : text) : Prop := forallb is_digit t = true.
Definition number_text (t : text) : Prop :=
  exists s i p f e, t = s ++ i ++ p ++ f ++ e /\ sign s /\ digit_text i /\ (p = [] \/ p = lit ".") /\ digit_text f /\ f <> [] /\
    (e = [] \/ exists x s' d, e = x :: s' ++ d /\ In x (lit "eE") /\ sign s' /\ digit_text d /\ d <> []).

(** ** Values *)
Definition token := (stok * text)%type.
Definition is_comma (t : token) : Prop := fst t = KLit (lit ",").
(* the texts between commas; nothing after the last comma is no value *)
Inductive between : list token -> list (list token) -> Prop :=
| b_none : between [] []
| b_last g : g <> [] -> (forall t, In t g -> ~ is_comma t) -> between g [g]
| b_comma g c r gs : (forall t, In t g -> ~ is_comma t) -> is_comma c -> between r gs -> between (g ++ c :: r) (g :: gs).

(* the types whose values are numbers *)
Definition numbers : list text :=
  map lit ["<length>"; "<number>"; "<percentage>"; "<length-percentage>"; "<integer>"; "<angle>"; "<time>"; "<resolution>"]%string.
(* what a token is written as: a length gets its unit *)
Inductive written_as : token -> option text -> text -> Prop :=
| w_unit k x s : In s (map lit ["<length>"; "<length-percentage>"]%string) -> number_text x -> written_as (k, x) (Some s) (x ++ lit "px")
| w_same k x s : (match s with Some s => In s (map lit ["<length>"; "<length-percentage>"]%string) -> ~ number_text x | None => True end) -> written_as (k, x) s x.
Definition same_type (syns : list (option text)) (s : option text) : Prop := syns <> [] /\ forall x, In x syns -> x = s.
(* the class of a value, by the property and the types of its parts *)
Inductive typed (name : text) (syns : list (option text)) : vkind -> Prop :=
| t_mixed : (forall s, ~ same_type syns s) -> ~ In name (map lit ["text-indent"; "vertical-align"]%string) -> typed name syns VStyle
| t_mixed_word : (forall s, ~ same_type syns s) -> In name (map lit ["text-indent"; "vertical-align"]%string) -> typed name syns VKeyword
| t_size : same_type syns None -> In name (map lit ["height"; "width"]%string) -> typed name syns VKeyword
| t_unknown : same_type syns None -> ~ In name (map lit ["height"; "width"]%string) -> typed name syns VStyle
| t_color : same_type syns (Some (lit "<color>")) -> typed name syns VStyle
| t_ident : same_type syns (Some (lit "<custom-ident>")) -> typed name syns VKeyword
| t_image : same_type syns (Some (lit "<image>")) -> typed name syns VImage
| t_url : same_type syns (Some (lit "<url>")) -> typed name syns VUrl
| t_number s : same_type syns (Some s) -> In s numbers -> typed name syns VNumeric.
(* and by its text *)
Inductive class (name : text) (syns : list (option text)) (t : text) : vkind -> Prop :=
| c_wide : In t wide_words -> class name syns t VKeyword
| c_keyword : ~ In t wide_words -> In name keyword_properties -> class name syns t VKeyword
| c_plain : ~ In t wide_words -> ~ In name keyword_properties -> In name plain_properties -> class name syns t VStyle
| c_typed k : ~ In t wide_words -> ~ In name keyword_properties -> ~ In name plain_properties -> typed name syns k -> class name syns t k.
(* a keyword is not empty, a number can be read, and an address is what url_value takes out of it (c67_url) *)
Definition content (L : lib) (t : text) (v : tvalue) : Prop :=
  match vkind_of v with
  | VKeyword => t <> [] /\ vvalue v = t
  | VNumeric => lnumeric L t = None /\ vvalue v = t
  | VUrl => url_value t = Ok (vvalue v)
  | VUnparsed => False
  | _ => vvalue v = t
  end.
Definition accepted_as (L : lib) (d : descr) (t : token) (s : option text) : Prop := support (lcolor L) d (fst t) = Ok (true, s).
(* the value of the tokens between two commas *)
Definition represents (L : lib) (name : text) (d : descr) (g : list token) (v : tvalue) : Prop :=
  exists syns parts t, Forall2 (accepted_as L d) g syns /\ Forall2 (fun p x => written_as (fst p) (snd p) x) (combine g syns) parts /\
    folded (join [32] parts) t /\ class name syns t (vkind_of v) /\ content L t v /\
    vcss v = match vkind_of v with VNumeric => Some t | _ => None end /\ vassoc v = None.
Definition keyword_token (t : token) : Prop := match fst t with KIdent v => In (lower v) wide_words | _ => False end.
(* the final touches: the name on every value, the text on a single one *)
Definition finished (name text_ : text) (raw vs : list tvalue) : Prop :=
  length vs = length raw /\
  forall i v r, nth_error vs i = Some v -> nth_error raw i = Some r ->
    vkind_of v = vkind_of r /\ vvalue v = vvalue r /\ vassoc v = Some name /\ vcss v = match raw with [_] => Some text_ | _ => vcss r end.

(** ** Property maps *)
Inductive mop :=
| MSet (name : text) (l : list arg) | MDelete (name : text) | MAppend (name : text) (l : list arg)
| MSetdefault (name : text) (a : arg) | MPop (name : text) | MGet (name : text) | MIn (name : text).
Definition mrun (L : lib) (table : dict descr) (reg : list text) (b : block) (o : mop) : block :=
  match o with
  | MSet n l => fst (sm_set L b n l)
  | MDelete n => fst (sm_delete L b n)
  | MAppend n l => fst (sm_append b n l)
  | MSetdefault n a => fst (sm_setdefault L table reg b n a)
  | MPop n => fst (sm_pop L table reg b n)
  | MGet _ | MIn _ => b
  end.
(* arguments that may be set: texts and values of this property; an unparsed value only alone *)
Definition fits_name (name : text) (a : arg) : Prop :=
  match a with AText _ => True | AOther => False | AValue v => vassoc v = None \/ vassoc v = Some name end.
Definition lone (l : list arg) : Prop := (length l <= 1)%nat \/ forall v, In (AValue v) l -> vkind_of v <> VUnparsed.
Definition may_set (name : text) (l : list arg) : Prop := Forall (fits_name name) l /\ lone l.
Definition joined (name : text) (l : list arg) (t : text) : Prop :=
  (In name list_valued_properties /\ t = join (lit ", ") (map arg_text l)) \/ (~ In name list_valued_properties /\ t = join (lit " ") (map arg_text l)).
(* what one operation does to the declaration of one property [q] *)
Inductive mstep (L : lib) (table : dict descr) (reg : list text) (q : text) (e : entry) : mop -> entry -> Prop :=
| m_other o : (match o with MSet n _ | MDelete n | MPop n => key n <> q | _ => True end) -> mstep L table reg q e o e
| m_delete n : key n = q -> mstep L table reg q e (MDelete n) None
| m_pop n : key n = q -> (forall v p, e = Some (v, p) -> exists vs, parse_all L table reg q v = Ok vs) -> mstep L table reg q e (MPop n) None
| m_pop_raises n v p err : key n = q -> e = Some (v, p) -> parse_all L table reg q v = Err err -> mstep L table reg q e (MPop n) e
| m_refused n l : key n = q -> ~ may_set q l -> mstep L table reg q e (MSet n l) e
| m_set n l t w : key n = q -> may_set q l -> joined q l t -> nonempty (normalize_text t) = true -> stored (lcss L) t = Some w -> mstep L table reg q e (MSet n l) (Some (w, []))
| m_set_nothing n l t : key n = q -> may_set q l -> joined q l t -> (nonempty (normalize_text t) = true -> stored (lcss L) t = None) -> mstep L table reg q e (MSet n l) None.
Inductive mhistory (L : lib) (table : dict descr) (reg : list text) (q : text) : entry -> list mop -> entry -> Prop :=
| h_nil e : mhistory L table reg q e [] e
| h_cons e o e' h e'' : mstep L table reg q e o e' -> mhistory L table reg q e' h e'' -> mhistory L table reg q e (o :: h) e''.
Definition mop_names (o : mop) : list text := match o with MSet n _ | MDelete n | MPop n => [n] | _ => [] end.
(* the descriptor of a property: that of the table, otherwise anything goes *)
Definition describes (table : dict descr) (name : text) (d : descr) : Prop := dget table name = Some d \/ (dget table name = None /\ d = descriptor (lit "*")).
(* the name is known, or is that of a registered custom property; and no variables *)
Definition typed_text (reg : list text) (name t : text) : Prop := ~ uses_var t /\ (firstn 2 name = lit "--" -> In name reg).
Definition noncomma (t : token) : bool := match fst t with KLit v => negb (text_eqb v (lit ",")) | _ => true end.
Definition whole_type (syns : list (option text)) : option text := match syns with [s] => s | _ => None end.
