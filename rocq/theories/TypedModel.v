(** Typed style values: CSSStyleValue._parse_css_style_value, _reify_css_style_value, parse and
    parse_all (svgpy/css/types.py 486-581, 630-808), CSSURLImageValue (1820-1838), and
    StylePropertyMapReadOnly and StylePropertyMap (1880-1992) over the declaration blocks of
    ShortModel.v, with the methods they inherit from Mapping and MutableMapping.

    Of tinycss2 only results are modelled: [ltokens] gives the component values of a text without
    comments and white space, each with its serialised text ('/**/' taken out).  [lnumeric] is
    CSSNumericValue.parse (1113-1130, see C31): what it raises, if anything.  [lcolor] is the colour
    reader of C66.  What reifying an unparsed value gives (583-628) is in C53; here it is one value
    with the text it came from. *)
From Coq Require Import ZArith NArith List.
From Verif Require Import PyBase PyText PySplit PyDict PyCase DatasetModel SupportModel SupportTable ShortModel TypedTable.
#[local] Open Scope N_scope.
Import ListNotations.

Record lib := mkLib { ltokens : text -> list (stok * text); lnumeric : text -> option pyerr; lcolor : text -> bool; lcss : css }.

(* the classes of values *)
Inductive vkind := VStyle | VKeyword | VImage | VUrl | VNumeric | VUnparsed.
(* _value (for numeric and unparsed values: what tostring gives without _css_text), _css_text, _associated_property *)
Record tvalue := mkT { vkind_of : vkind; vvalue : text; vcss : option text; vassoc : option text }.
(* 805-808, 1832-1838 and the tostring methods of the other classes, which begin the same way *)
Definition tostring (v : tvalue) : text :=
  match vcss v with
  | Some t => t
  | None => match vkind_of v with VUrl => lit "url(" ++ [34] ++ vvalue v ++ [34] ++ lit ")" | _ => vvalue v end
  end.

(* 32-33 *)
Definition sign_off (t : text) : text := match t with c :: r => if (c =? 43) || (c =? 45) then r else t | [] => t end.
Definition some_digits (t : text) : bool := match takewhile is_digit t with [] => false | _ => true end.
Definition exponent (t : text) : bool :=
  match t with
  | [] => true
  | c :: r => ((c =? 101) || (c =? 69)) && some_digits (sign_off r) && match dropwhile is_digit (sign_off r) with [] => true | _ => false end
  end.
Definition real_number (t : text) : bool :=
  let t := sign_off t in
  match dropwhile is_digit t with
  | c :: r => if c =? 46 then some_digits r && exponent (dropwhile is_digit r) else some_digits t && exponent (c :: r)
  | [] => some_digits t
  end.
(* 37: "var(" at the start or after white space, a star, a solidus, a bracket or a comma *)
Fixpoint var_after (ok : bool) (t : text) : bool :=
  match t with
  | [] => false
  | c :: r => ok && starts_with (lit "var(") t || var_after (is_space c || (c =? 42) || (c =? 47) || (c =? 40) || (c =? 44)) r
  end.
Definition has_var (t : text) : bool := var_after true t.
(* 496-497, 632-634 *)
Definition fold_keyword (t : text) : text := if mem (lower t) (SupportModel.color_keywords ++ SupportModel.wide_keywords) then lower t else t.

(* 35, 1823-1830 *)
Definition url_inner (t : text) : option text :=
  if starts_with (lit "url(") t && (last t 0 =? 41) then
    let r := removelast (skipn 4 t) in
    if match r with [] => true | _ => existsb (N.eqb 41) r end then None else Some r
  else None.
Definition strip_char (c : N) (t : text) : text := rdropwhile (N.eqb c) (dropwhile (N.eqb c) t).
Definition url_value (t : text) : result text :=
  let v := match url_inner t with Some r => r | None => t end in
  match v with
  | [] => Err IndexError
  | c :: _ => Ok (if (c =? 34) && (last v 0 =? 34) then strip_char 34 v else v)
  end.

(** ** Reifying one group of components (630-771) *)
Definition part := (text * option text)%type.
Definition keyword_value (t : text) : result tvalue := match t with [] => Err ValueError | _ => Ok (mkT VKeyword t None None) end.
Definition opt_eqb (a b : option text) : bool :=
  match a, b with None, None => true | Some x, Some y => text_eqb x y | _, _ => false end.
Definition numeric_syntaxes : list text := [LENGTH; NUMBER; PERCENTAGE; LENGTH_PERCENTAGE; INTEGER; ANGLE; TIME; RESOLUTION].
Definition reify (L : lib) (name : text) (comps : list part) : result tvalue :=
  let css := fold_keyword (join [32] (map fst comps)) in
  if mem css SupportModel.wide_keywords then keyword_value css
  else if mem name keyword_properties then keyword_value css
  else if mem name plain_properties then Ok (mkT VStyle css None None)
  else
    match comps with
    | (_, syn) :: rest =>
        if forallb (fun p : part => opt_eqb (snd p) syn) rest then
          match syn with
          | None => if mem name (names ["height"; "width"]%string) then keyword_value css else Ok (mkT VStyle css None None)
          | Some s =>
              if text_eqb s COLOR then Ok (mkT VStyle css None None)
              else if text_eqb s CUSTOM_IDENT then keyword_value css
              else if text_eqb s IMAGE then Ok (mkT VImage css None None)
              else if mem s numeric_syntaxes then match lnumeric L css with Some e => Err e | None => Ok (mkT VNumeric css (Some css) None) end
              else if text_eqb s URL then do v <- url_value css; Ok (mkT VUrl v None None)
              else Err ValueError
          end
        else if mem name (names ["text-indent"; "vertical-align"]%string) then keyword_value css else Ok (mkT VStyle css None None)
    | [] => if mem name (names ["text-indent"; "vertical-align"]%string) then keyword_value css else Ok (mkT VStyle css None None)
    end.

(** ** Parsing (486-581) *)
(* one token: its answer from the descriptor, or what is raised *)
Definition checked (L : lib) (d : descr) (t : stok) : result (option text) :=
  do a <- support (lcolor L) d t; if fst a then Ok (snd a) else Err ValueError.
(* 527-534: the syntaxes of the tokens other than commas *)
Fixpoint check_all (L : lib) (d : descr) (ts : list (stok * text)) : result (list (option text)) :=
  match ts with
  | [] => Ok []
  | (t, _) :: r => if comma t then check_all L d r else do s <- checked L d t; do rest <- check_all L d r; Ok (s :: rest)
  end.
(* 559-563 *)
Definition with_unit (text_ : text) (syn : option text) : part :=
  (match syn with
   | Some s => if (text_eqb s LENGTH || text_eqb s LENGTH_PERCENTAGE) && real_number text_ then text_ ++ lit "px" else text_
   | None => text_
   end, syn).
(* 543-567 *)
Fixpoint groups (L : lib) (d : descr) (ts : list (stok * text)) (cur : list part) : result (list (list part)) :=
  match ts with
  | [] => Ok (match cur with [] => [] | _ => [cur] end)
  | (t, x) :: r =>
      if comma t then do rest <- groups L d r []; Ok (cur :: rest)
      else do s <- checked L d t; groups L d r (cur ++ [with_unit x s])
  end.
Fixpoint reify_all (L : lib) (name : text) (gs : list (list part)) : result (list tvalue) :=
  match gs with [] => Ok [] | g :: r => do v <- reify L name g; do rest <- reify_all L name r; Ok (v :: rest) end.
Definition set_assoc (name : text) (v : tvalue) : tvalue := mkT (vkind_of v) (vvalue v) (vcss v) (Some name).
Definition set_css (t : text) (v : tvalue) : tvalue := mkT (vkind_of v) (vvalue v) (Some t) (vassoc v).
Definition wides (ts : list (stok * text)) : nat := length (filter (fun p => wide_token (fst p)) ts).
(* [reg]: the names registered with the document *)
Definition parse_all (L : lib) (table : dict descr) (reg : list text) (name css_text : text) : result (list tvalue) :=
  let name := key name in
  let css_text := fold_keyword css_text in
  let ts := ltokens L css_text in
  do values <-
    (if has_var css_text || (custom name && negb (mem name reg)) then Ok [mkT VUnparsed css_text None None]
     else
       let d := match dget table name with Some d => d | None => descriptor ANY end in
       do vs <- (if mem name single_multi_valued_properties then
                   do ss <- check_all L d ts;
                   reify_all L name [[(css_text, match ss with [s] => s | _ => None end)]]
                 else do gs <- groups L d ts []; reify_all L name gs);
       if Nat.ltb 0 (wides ts) && Nat.ltb 1 (length ts) then Err ValueError else Ok vs);
  let values := map (set_assoc name) values in
  Ok (match values with [v] => [set_css css_text v] | _ => values end).
Definition parse (L : lib) (table : dict descr) (reg : list text) (name css_text : text) : result (option tvalue) :=
  do vs <- parse_all L table reg name css_text; Ok (hd_error vs).

(** ** The maps (1880-1992) *)
Definition sm_get_all (L : lib) (table : dict descr) (reg : list text) (b : block) (name : text) : result (list tvalue) :=
  if contains b name then parse_all L table reg name (get_property_value (lcss L) b name) else Ok [].
Definition sm_get (L : lib) (table : dict descr) (reg : list text) (b : block) (name : text) : result (option tvalue) :=
  do vs <- sm_get_all L table reg b name; Ok (hd_error vs).
Definition sm_has (b : block) (name : text) : bool := contains b name.
Definition sm_size (b : block) : nat := length_ b.
(* Mapping.__contains__: __getitem__ is get_all, False only for KeyError *)
Definition sm_in (L : lib) (table : dict descr) (reg : list text) (b : block) (name : text) : result bool :=
  match sm_get_all L table reg b name with Ok _ => Ok true | Err KeyError => Ok false | Err e => Err e end.

(* what set may be given: a string, a value, anything else (CSSVariableReferenceValue is no CSSStyleValue) *)
Inductive arg := AText (t : text) | AValue (v : tvalue) | AOther.
Definition arg_text (a : arg) : text := match a with AText t => t | AValue v => tostring v | AOther => [] end.
Definition unparsed (a : arg) : bool := match a with AValue v => match vkind_of v with VUnparsed => true | _ => false end | _ => false end.
(* 1957-1972: the first wrong argument *)
Fixpoint wrong_arg (name : text) (l : list arg) : option pyerr :=
  match l with
  | [] => None
  | AText _ :: r => wrong_arg name r
  | AOther :: _ => Some TypeError
  | AValue v :: r => match vassoc v with Some p => if text_eqb name p then wrong_arg name r else Some ValueError | None => wrong_arg name r end
  end.
Definition wrong_args (name : text) (l : list arg) : option pyerr :=
  match wrong_arg name l with
  | Some e => Some e
  | None => if Nat.ltb 1 (length l) && existsb unparsed l then Some TypeError else None
  end.
Definition set_text (name : text) (l : list arg) : text := join (if mem name list_valued_properties then lit ", " else lit " ") (map arg_text l).
(* 1945-1951; "if property_name in props" *)
Definition sm_delete (L : lib) (b : block) (name : text) : block * option pyerr :=
  if contains b name then match remove_property (lcss L) b name with Ok (b', _) => (b', None) | Err e => (b, Some e) end else (b, None).
(* 1953-1992 *)
Definition sm_set (L : lib) (b : block) (name : text) (l : list arg) : block * option pyerr :=
  let name := key name in
  match wrong_args name l with
  | Some e => (b, Some e)
  | None =>
      match sm_delete L b name with
      | (b', Some e) => (b', Some e)
      | (b', None) => match set_property (lcss L) b' name (set_text name l) None with Ok b'' => (b'', None) | Err e => (b', Some e) end
      end
  end.
(* 1940-1942 *)
Definition sm_append (b : block) (name : text) (l : list arg) : block * option pyerr := (b, None).
(* MutableMapping.setdefault: __getitem__ never raises KeyError *)
Definition sm_setdefault (L : lib) (table : dict descr) (reg : list text) (b : block) (name : text) (a : arg) : block * result (list tvalue) :=
  match sm_get_all L table reg b name with
  | Err KeyError => (fst (sm_set L b name [a]), match snd (sm_set L b name [a]) with Some e => Err e | None => Ok [] end)
  | r => (b, r)
  end.
(* MutableMapping.pop *)
Definition sm_pop (L : lib) (table : dict descr) (reg : list text) (b : block) (name : text) : block * result (list tvalue) :=
  match sm_get_all L table reg b name with
  | Err e => (b, Err e)
  | Ok vs => match sm_delete L b name with (b', None) => (b', Ok vs) | (b', Some e) => (b', Err e) end
  end.
