(** The inline style of an element: CSSStyleDeclaration with inline_style=True
    (svgpy/dom.py 2403), svgpy/css/__init__.py 50-213, 1371-1421, 1432-1583.

    The state is the property map of the declaration object and the value of
    the attribute 'style' of its element (None: no such attribute; the node
    map of the element is dict-like for this one key).  Parsing of values and
    the shorthands are those of ShortModel.v.  An exception from a shorthand
    (sh_set) ends the call; the declarations set before it in the same call
    are then not described. *)
From Verif Require Import PyBase PyText PySplit PyDict PyCase UtilsModel ShortModel.
Local Open Scope nat_scope.

(* longhands.py 31-77 *)
Definition longhand_map : dict (list text) :=
  let f := [lit "font"; lit "font-variant"] in
  [(lit "font-style", f); (lit "font-variant", f); (lit "font-weight", f); (lit "font-stretch", f); (lit "font-size", f);
   (lit "line-height", f); (lit "font-family", f);
   (lit "font-synthesis-weight", [lit "font-synthesis"]); (lit "font-synthesis-style", [lit "font-synthesis"]);
   (lit "font-variant-ligatures", f); (lit "font-variant-caps", f); (lit "font-variant-alternates", f);
   (lit "font-variant-numeric", f); (lit "font-variant-east-asian", f); (lit "font-variant-position", f);
   (lit "mask-image", [lit "mask"]); (lit "mask-position", [lit "mask"]); (lit "mask-size", [lit "mask"]);
   (lit "mask-repeat", [lit "mask"]); (lit "mask-origin", [lit "mask"]); (lit "mask-clip", [lit "mask"]);
   (lit "mask-composite", [lit "mask"]); (lit "mask-mode", [lit "mask"]);
   (lit "mask-border-source", [lit "mask-border"]); (lit "mask-border-slice", [lit "mask-border"]);
   (lit "mask-border-width", [lit "mask-border"]); (lit "mask-border-outset", [lit "mask-border"]);
   (lit "mask-border-repeat", [lit "mask-border"]); (lit "mask-border-mode", [lit "mask-border"]);
   (lit "overflow-x", [lit "overflow"]); (lit "overflow-y", [lit "overflow"]);
   (lit "text-decoration-line", [lit "text-decoration"]); (lit "text-decoration-style", [lit "text-decoration"]);
   (lit "text-decoration-color", [lit "text-decoration"]);
   (lit "text-space-collapse", [lit "white-space"]); (lit "text-wrap", [lit "white-space"]); (lit "text-space-trim", [lit "white-space"])].
(* longhands.py 18-28 *)
Definition is_longhand (name : text) : bool := negb (custom name) && dhas longhand_map (lower name).
Definition shorthands_of (name : text) : list text :=
  match dget longhand_map (lower name) with Some l => l | None => [] end.

(** _StyleAttribute: the style map and whether it was changed *)
Definition smap := dict text.
Definition upd := (smap * bool)%type.
(* if name in style_map: updated = True; del style_map[name] *)
Definition drop1 (n : text) (u : upd) : upd := if dhas (fst u) n then (ddel (fst u) n, true) else u.
(* if name in style_map: del style_map[name] *)
Definition drop_quiet (ns : list text) (sm : smap) : smap := fold_left (fun m n => ddel m n) ns sm.

(* 145-158 *)
Definition set_shorthand (c : css) (d : decls) (name : text) (sm : smap) : upd :=
  let r := sh_value depth c d name in
  if nonempty r then (drop_quiet (longhands name) (dset sm name r), true) else (sm, false).
(* 122-143; the table is nested once, [fuel] is its depth *)
Fixpoint longhands_out (fuel : nat) (c : css) (d : decls) (name : text) (sm : smap) : upd :=
  match fuel with
  | O => (sm, false)
  | S f =>
      fold_left (fun (u : upd) n =>
        match dget d n with
        | Some (v, _) => (dset (fst u) n v, true)
        | None =>
            if is_shorthand n then
              let '(m1, b1) := set_shorthand c d n (fst u) in
              if b1 then (m1, true)
              else let '(m2, b2) := longhands_out f c d n (fst u) in (m2, snd u || b2)
            else u
        end) (longhands name) (drop1 name (sm, false))
  end.
(* 59-95 *)
Definition style_remove (c : css) (d : decls) (name : text) (force : bool) (sm : smap) : upd :=
  let u1 := drop1 name (sm, false) in
  let u2 := if is_shorthand name then fold_left (fun u n => drop1 n u) (longhands name) u1 else u1 in
  if force then u2
  else if is_shorthand name || is_longhand name then
    fold_left (fun (u : upd) sh =>
      let '(m1, b1) := set_shorthand c d sh (fst u) in
      if b1 then (m1, true)
      else fold_left (fun (u : upd) n => match dget d n with Some (v, _) => (dset (fst u) n v, true) | None => u end)
             (longhands sh) (drop1 sh u)) (shorthands_of name) u2
  else u2.
(* 103-115: the shorthands of a longhand, up to the first that can be written *)
Fixpoint set_through (c : css) (d : decls) (all todo : list text) (u : upd) : upd :=
  match todo with
  | [] => u
  | sh :: todo' =>
      let '(m1, b1) := set_shorthand c d sh (fst u) in
      if b1 then (drop_quiet (filter (fun x => negb (text_eqb x sh)) all) m1, true)
      else let '(m2, b2) := longhands_out depth c d sh (fst u) in set_through c d all todo' (m2, snd u || b2)
  end.
(* 97-120 with append=True; [restore]: the value is that of the declarations *)
Definition style_set (c : css) (d : decls) (name value : text) (restore : bool) (sm : smap) : upd :=
  match (if restore then option_map fst (dget d name) else Some value) with
  | None => (sm, false)
  | Some value =>
      let u := if is_longhand name then set_through c d (shorthands_of name) (shorthands_of name) (sm, false)
               else if is_shorthand name then
                 let '(m1, b1) := set_shorthand c d name sm in
                 if b1 then (m1, true) else longhands_out depth c d name sm
               else (sm, false) in
      if negb (snd u) && nonempty value then (dset (fst u) name value, true) else u
  end.
Definition or_upd (u : upd) (f : smap -> upd) : upd := let '(m, b) := f (fst u) in (m, snd u || b).
(* 170-213 *)
Definition style_update (c : css) (d : decls) (name value : text) (sm : smap) : upd :=
  if negb (nonempty value) then
    let u := style_remove c d name false sm in
    if text_eqb name (lit "font") then fold_left (fun u n => or_upd u (style_set c d n [] true)) font_sub_properties u
    else if mem name font_sub_properties then or_upd u (set_shorthand c d (lit "font"))
    else if text_eqb name (lit "mask-border") then or_upd u (set_shorthand c d (lit "mask"))
    else u
  else
    let u := if mem name font_sub_properties && negb (text_eqb value (lit "initial")) then longhands_out depth c d (lit "font") sm
             else if text_eqb name (lit "mask") then style_remove c d (lit "mask-border") true sm
             else if text_eqb name (lit "mask-border") && negb (text_eqb value (lit "initial")) then longhands_out depth c d (lit "mask") sm
             else (sm, false) in
    let u := or_upd u (style_set c d name value false) in
    if snd u && dhas (fst u) (lit "font") then fold_left (fun u n => or_upd u (style_remove c d n true)) font_sub_properties u
    else u.

(** The declarations of the element. *)
Record inline := mkI { idecls : decls; iattr : option text; ironly : bool }.

(* 52-57, 160-168, 212-213, 1469-1471: the attribute after the change *)
Definition attr_update (c : css) (d : decls) (name value : text) (a : option text) : option text :=
  let '(m, b) := style_update c d name value (style_to_dict a) in
  if b then match m with [] => None | _ => Some (dict_to_style (Some m)) end else a.

(* 1382-1396: the entries of the attribute the declarations already agree with are left out *)
Fixpoint drop_agreeing (c : css) (d : decls) (shs : list text) (pm : smap) : smap :=
  match shs with
  | [] => pm
  | sh :: shs' =>
      match dget pm sh with
      | Some v => if text_eqb (sh_value depth c d sh) v then ddel pm sh else drop_agreeing c d shs' pm
      | None => drop_agreeing c d shs' pm
      end
  end.
Definition agree_step (c : css) (d : decls) (pm : smap) (e : text * (text * text)) : smap :=
  if is_longhand (fst e) then drop_agreeing c d (shorthands_of (fst e)) pm
  else match dget pm (fst e) with
       | Some v => if text_eqb (fst (snd e)) v then ddel pm (fst e) else pm
       | None => pm
       end.
(* 1398-1419: the others are declared *)
Definition sync_item (c : css) (d : decls) (n v : text) : result decls :=
  let put p := do r <- set_internal c d n v p; Ok (match r with Some d' => d' | None => d end) in
  if is_shorthand n then
    if text_eqb (sh_value depth c d n) v then Ok d else put (sh_priority depth d n)
  else match dget d n with
       | None => put []
       | Some (w, p) => if text_eqb v w then Ok d else put p
       end.
Fixpoint sync_items (c : css) (d : decls) (l : smap) : result decls :=
  match l with
  | [] => Ok d
  | (n, v) :: l' => do d' <- sync_item c d n v; sync_items c d' l'
  end.
(* 1371-1421 *)
Definition sync (c : css) (s : inline) : result inline :=
  if ironly s then Ok s
  else
    let pm := fold_left (agree_step c (idecls s)) (idecls s) (style_to_dict (iattr s)) in
    do d <- sync_items c (idecls s) pm;
    Ok (mkI d (iattr s) false).

Definition block_of (s : inline) : block := mkB (idecls s) (ironly s).
(* 1473-1513; every call brings the declarations up to date first: the state after it is that of [sync] *)
Definition i_value (c : css) (s : inline) (name : text) : result text :=
  do s' <- sync c s; Ok (get_property_value c (block_of s') name).
Definition i_priority (c : css) (s : inline) (name : text) : result text :=
  do s' <- sync c s; Ok (get_property_priority (block_of s') name).
(* 1324-1328, 1515-1523 *)
Definition i_keys (c : css) (s : inline) : result (list text) :=
  do s' <- sync c s; Ok (dkeys (idecls s')).
(* 1525-1548 *)
Definition i_remove (c : css) (s : inline) (name : text) : result (inline * text) :=
  if ironly s then Err NoModificationAllowedError
  else
    do s1 <- sync c s;
    let v := get_property_value c (block_of s1) name in
    do s2 <- sync c s1;
    let k := key name in
    let '(d, removed) := if is_shorthand k then sh_remove depth (idecls s2) k
                         else if dhas (idecls s2) k then (ddel (idecls s2) k, true) else (idecls s2, false) in
    Ok (mkI d (if removed then attr_update c d k [] (iattr s2) else iattr s2) false, v).
(* 1550-1580 *)
Definition i_set (c : css) (s : inline) (name value : text) (prio : option text) : result inline :=
  if ironly s then Err NoModificationAllowedError
  else
    let value := normalize_text value in
    if negb (nonempty value) then do r <- i_remove c s name; Ok (fst r)
    else
      let k := key name in
      do sp <- match prio with
               | None => do s1 <- sync c s; Ok (s1, get_property_priority (block_of s1) k)
               | Some p => Ok (s, lower p)
               end;
      let '(s1, p) := sp in
      if negb (text_eqb p [] || text_eqb p (lit "important")) then Ok s1
      else
        do s2 <- sync c s1;
        do r <- set_internal c (idecls s2) k value p;
        match r with
        | None => Ok s2
        | Some d =>
            let res := if is_shorthand k then sh_value depth c d k
                       else match dget d k with Some (v, _) => v | None => [] end in
            Ok (mkI d (attr_update c d k res (iattr s2)) false)
        end.
(* the attribute set or removed by other means (set_attribute, remove_attribute, attributes) *)
Definition i_attr (s : inline) (a : option text) : inline := mkI (idecls s) a (ironly s).
