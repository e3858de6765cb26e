(** Property syntaxes: PropertyDescriptor (svgpy/css/props.py 20-369), CSS.register_property and
    CSS.supports (svgpy/css/__init__.py 520-531, 568-573).
    Simplifications: the tokens are those of tinycss2, given as values; lower() and the
    case-insensitive regular expressions know ASCII letters only; a syntax has no line ends
    (the "$" of _RE_SYNTAX_MULTIPLIERS also matches before a final line end).  Whether
    tinycss2.color3.parse_color reads a word as a colour is the argument [cw].  Sets are lists,
    read by membership only. *)
From Coq Require Import ZArith NArith List.
From Verif Require Import PyBase PyText PySplit PyDict PyCase DatasetModel.
#[local] Open Scope N_scope.
Import ListNotations.

(* 32-38 *)
Definition color_keywords : list text := [lit "currentcolor"; lit "transparent"].
Definition wide_keywords : list text := [lit "default"; lit "inherit"; lit "initial"; lit "revert"; lit "unset"].

(* 27: _RE_SYNTAX_COMBINATOR.split: one blank, one or two bars, two ampersands, a bracket *)
Fixpoint split_syntax (w t : text) : list text :=
  match t with
  | [] => [w]
  | c :: r =>
      if (c =? 32) || (c =? 91) || (c =? 93) then w :: split_syntax [] r
      else if c =? 124 then
        match r with
        | d :: r' => if d =? 124 then w :: split_syntax [] r' else w :: split_syntax [] r
        | [] => w :: split_syntax [] r
        end
      else if c =? 38 then
        match r with
        | d :: r' => if d =? 38 then w :: split_syntax [] r' else split_syntax (w ++ [c]) r
        | [] => split_syntax (w ++ [c]) r
        end
      else split_syntax (w ++ [c]) r
  end.
(* 29-30: star, plus, question mark, hash, exclamation mark *)
Definition is_mark (c : N) : bool := (c =? 42) || (c =? 43) || (c =? 63) || (c =? 35) || (c =? 33).
(* what follows the opening brace: digits, then a comma and perhaps digits, then the closing brace *)
Definition range_tail (t : text) : bool :=
  negb (match takewhile is_digit t with [] => true | _ => false end) &&
  match dropwhile is_digit t with
  | [c] => c =? 125
  | c :: r => (c =? 44) && text_eqb (dropwhile is_digit r) [125]
  | [] => false
  end.
Definition is_range (t : text) : bool := match t with c :: r => (c =? 123) && range_tail r | [] => false end.
(* _RE_SYNTAX_MULTIPLIERS.fullmatch *)
Definition multiplier (t : text) : bool :=
  match t with
  | [] => true
  | [c] => is_mark c
  | c :: r => is_range t || (is_mark c && (match r with [d] => is_mark d | _ => is_range r end))
  end.
(* _RE_SYNTAX_MULTIPLIERS.sub(''): the longest ending that is a multiplier *)
Fixpoint strip_mult (t : text) : text :=
  if multiplier t then [] else match t with [] => [] | c :: r => c :: strip_mult r end.

(* 20-21: _RE_FUNCTION.fullmatch and its group 'name' *)
Definition name_start (c : N) : bool := is_up c || is_low c || (c =? 95) || (c =? 45).
Definition name_char (c : N) : bool := name_start c || is_digit c.
Definition function_name (t : text) : option text :=
  match t with
  | c :: r =>
      if c =? 60 then
        let n := takewhile name_char r in
        if match n with a :: _ => name_start a | [] => false end then
          match dropwhile name_char r with
          | p :: a => if (p =? 40) && text_eqb (dropwhile (fun x => negb (x =? 41)) a) [41; 62] then Some n else None
          | [] => None
          end
        else None
      else None
  | [] => None
  end.

(* 41-58 *)
Definition LENGTH := lit "<length>". Definition NUMBER := lit "<number>". Definition PERCENTAGE := lit "<percentage>".
Definition LENGTH_PERCENTAGE := lit "<length-percentage>". Definition COLOR := lit "<color>". Definition IMAGE := lit "<image>".
Definition URL := lit "<url>". Definition INTEGER := lit "<integer>". Definition ANGLE := lit "<angle>". Definition TIME := lit "<time>".
Definition RESOLUTION := lit "<resolution>". Definition TRANSFORM_FUNCTION := lit "<transform-function>".
Definition CUSTOM_IDENT := lit "<custom-ident>". Definition TRANSFORM_LIST := lit "<transform-list>".
Definition ANY := lit "*". Definition STRING := lit "<string>".

Record descr := mkD { d_syntax : text; d_components : dict bool; d_functions : list text; d_identifiers : list text }.
(* 79-124 *)
Definition typed_keys : list text :=
  [LENGTH; NUMBER; PERCENTAGE; LENGTH_PERCENTAGE; COLOR; IMAGE; URL; INTEGER; ANGLE; TIME; RESOLUTION; TRANSFORM_FUNCTION; CUSTOM_IDENT; TRANSFORM_LIST; STRING].
(* 69-72: the plain multipliers taken away at 70 are multipliers of 72 as well *)
Definition components (syntax : text) : list text := filter (fun x => negb (multiplier x)) (split_syntax [] syntax).
(* 63-137; x[0] and x[-1] exist: what is not a multiplier keeps something before its multiplier *)
Definition descriptor (syntax : text) : descr :=
  let comps := components syntax in
  let stripped := map strip_mult comps in
  mkD syntax
    (if text_eqb syntax ANY then [(ANY, true)] else (ANY, false) :: map (fun k => (k, existsb (starts_with k) comps)) typed_keys)
    (lit "var" :: flat_map (fun x => match function_name x with Some n => [lower n] | None => [] end) stripped)
    (filter (fun x => negb (hd 0 x =? 60) && negb (last x 0 =? 62) && negb (mem (lower x) (color_keywords ++ wide_keywords))) stripped).

(** ** support *)
(** The tokens of tinycss2 other than white space and comments: dimension with its lower_unit,
    function with its lower_name, hash, ident, string and literal with their value, number with
    is_integer, percentage, url, error, and everything else (blocks, at-keywords, unicode ranges). *)
Inductive stok :=
| KDim (unit : text) | KFun (name : text) | KHash (v : text) | KIdent (v : text) | KString (v : text) | KLit (v : text)
| KNum (is_integer : bool) | KPct | KUrl | KError | KOther.

(* self._syntax_components[k] *)
Definition flag (d : descr) (k : text) : result bool := match dget (d_components d) k with Some b => Ok b | None => Err KeyError end.
(* "or" of lookups, from the left *)
Fixpoint flags (d : descr) (ks : list text) : result bool :=
  match ks with [] => Ok false | k :: r => do b <- flag d k; if b then Ok true else flags d r end.
Definition answer := (bool * option text)%type.
Definition no : result answer := Ok (false, None).
Definition yes (k : text) : result answer := Ok (true, Some k).
(* if any of the keys is set then the type, otherwise what follows *)
Definition when (d : descr) (ks : list text) (k : text) (otherwise : result answer) : result answer :=
  do b <- flags d ks; if b then yes k else otherwise.

Definition angle_units := map lit ["deg"; "grad"; "rad"; "turn"]%string.
Definition time_units := map lit ["s"; "ms"]%string.
Definition resolution_units := map lit ["dpi"; "dpcm"; "dppx"]%string.
(* 183-190 *)
Definition length_units := map lit ["em"; "ex"; "cap"; "ch"; "ic"; "rem"; "lh"; "rlh"; "vw"; "vh"; "vi"; "vb"; "vmin"; "vmax"; "cm"; "mm"; "q"; "in"; "pt"; "pc"; "px"; "deg"; "grad"; "rad"; "turn"; "s"; "ms"; "hz"; "khz"; "dpi"; "dpcm"; "dppx"; "fr"]%string.
Definition color_functions := map lit ["rgb"; "rgba"; "hsl"; "hsla"; "hwb"; "gray"; "device-cmyk"]%string.
Definition image_functions := map lit ["cross-fade"; "image"; "image-set"; "conic-gradient"; "linear-gradient"; "radial-gradient"; "repeating-conic-gradient"; "repeating-linear-gradient"; "repeating-radial-gradient"]%string.
Definition math_functions := map lit ["calc"; "min"; "max"; "clamp"]%string.
Definition transform_functions := map lit ["matrix"; "translate"; "translatex"; "translatey"; "scale"; "scalex"; "scaley"; "rotate"; "skew"; "skewx"; "skewy"]%string.
Definition hex_digit (c : N) : bool := is_digit c || ((97 <=? to_low c) && (to_low c <=? 102)).
(* 23-25 *)
Definition hex_color (v : text) : bool := forallb hex_digit v && existsb (Nat.eqb (length v)) [8; 6; 4; 3]%nat.

(* 159-346 *)
Definition support (cw : text -> bool) (d : descr) (t : stok) : result answer :=
  match t with
  | KDim unit =>
      if mem unit angle_units then when d [ANY; ANGLE] ANGLE no
      else if mem unit time_units then when d [ANY; TIME] TIME no
      else if mem unit resolution_units then when d [ANY; RESOLUTION] RESOLUTION no
      else if mem unit length_units then when d [ANY; LENGTH] LENGTH (when d [LENGTH_PERCENTAGE] LENGTH_PERCENTAGE no)
      else no
  | KFun name =>
      if mem name color_functions then when d [ANY; COLOR] COLOR no
      else if mem name image_functions then when d [ANY; IMAGE] IMAGE no
      else if mem name math_functions then when d [ANY; LENGTH_PERCENTAGE] LENGTH_PERCENTAGE no
      else if mem name transform_functions then when d [ANY; TRANSFORM_FUNCTION] TRANSFORM_FUNCTION (when d [TRANSFORM_LIST] TRANSFORM_LIST no)
      else if mem name (d_functions d) then Ok (true, None)
      else no
  | KHash v => do b <- flags d [ANY; COLOR]; if b && hex_color v then yes COLOR else no
  | KIdent v | KString v =>
      if mem (lower v) wide_keywords then Ok (true, None)
      else if mem v (d_identifiers d) then yes CUSTOM_IDENT
      else
        do b <- flags d [ANY; COLOR];
        if b && text_eqb (lower v) (lit "currentcolor") then yes CUSTOM_IDENT
        else if b && cw v then yes COLOR
        else when d [ANY; CUSTOM_IDENT; STRING] CUSTOM_IDENT no
  | KLit v => if mem v (d_identifiers d) then yes CUSTOM_IDENT else when d [ANY; CUSTOM_IDENT] CUSTOM_IDENT no
  | KNum is_integer =>
      do b <- (if is_integer then flags d [ANY; INTEGER] else Ok false);
      if b then yes INTEGER
      else when d [ANY; NUMBER] NUMBER (when d [LENGTH] LENGTH (when d [LENGTH_PERCENTAGE] LENGTH_PERCENTAGE (when d [CUSTOM_IDENT; STRING] CUSTOM_IDENT no)))
  | KPct => when d [ANY; PERCENTAGE] PERCENTAGE (when d [LENGTH_PERCENTAGE] LENGTH_PERCENTAGE no)
  | KUrl => when d [ANY; URL] URL (when d [IMAGE] IMAGE no)
  | KError => Err ValueError
  | KOther => Err NotImplementedError_
  end.

(** ** supports (348-369) *)
(* 359-360: of the serialised tokens only that of an ident can be a CSS-wide keyword: the others
   hold a quote, a digit, a sign, a bracket or one character *)
Definition wide_token (t : stok) : bool := match t with KIdent v => mem (lower v) wide_keywords | _ => false end.
Definition comma (t : stok) : bool := match t with KLit v => text_eqb v [44] | _ => false end.
(* the loop: None when it returns False, otherwise the number of CSS-wide keywords *)
Fixpoint scan_tokens (cw : text -> bool) (d : descr) (ts : list stok) (wides : nat) : result (option nat) :=
  match ts with
  | [] => Ok (Some wides)
  | t :: r =>
      if comma t then if existsb (N.eqb 35) (d_syntax d) || mem [44] (d_identifiers d) then scan_tokens cw d r wides else Ok None
      else if wide_token t then scan_tokens cw d r (S wides)
      else do a <- support cw d t; if fst a then scan_tokens cw d r wides else Ok None
  end.
Definition supports (cw : text -> bool) (d : descr) (ts : list stok) : result bool :=
  do w <- scan_tokens cw d ts 0;
  match w with
  | None => Ok false
  | Some n => Ok (negb (Nat.ltb 0 n && Nat.ltb 1 (length ts)))
  end.

(** ** CSS.supports and CSS.register_property *)
Definition css_supports (cw : text -> bool) (table : dict descr) (name : text) (ts : list stok) : result bool :=
  match dget table (lower name) with None => Ok false | Some d => supports cw d ts end.
(* the registered set of a document, and what is raised *)
Definition register_property (set : dict descr) (name : text) (d : descr) : result (dict descr) :=
  if negb (starts_with (lit "--") name) then Err ValueError
  else if dhas set name then Err ValueError
  else Ok (dset set name d).
