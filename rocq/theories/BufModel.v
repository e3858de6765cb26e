(** Text, directions and tags given to HarfBuzz (svgpy/harfbuzz.py 35-36, 51-92,
    221-229, 466-486, 589-592).

    The library decodes UTF-8, UTF-16 and UTF-32 as in its hb-utf.hh, every
    code point with the offset of its first unit as cluster, and appends to the
    buffer.  Simplified: context before and after an item, buffer flags, lack
    of memory; a little-endian machine (the other order gives the same units). *)
From Verif Require Import PyBase PyText UrlModel SegModel.
#[local] Open Scope N_scope.

(** ** Directions (51-92) *)
Definition is_backward (d : Z) : bool := (Z.land d (Z.lnot 2) =? 5)%Z.
Definition is_forward (d : Z) : bool := (Z.land d (Z.lnot 2) =? 4)%Z.
Definition is_horizontal (d : Z) : bool := (Z.land d (Z.lnot 1) =? 4)%Z.
Definition is_valid (d : Z) : bool := (Z.land d (Z.lnot 3) =? 4)%Z.
Definition is_vertical (d : Z) : bool := (Z.land d (Z.lnot 1) =? 6)%Z.
Definition reverse (d : Z) : Z := Z.lxor d 1. (* 85-87 *)
(* 89-91: hb_direction_to_string *)
Definition to_string (d : Z) : text :=
  if (d =? 4)%Z then lit "ltr" else if (d =? 5)%Z then lit "rtl" else if (d =? 6)%Z then lit "ttb" else if (d =? 7)%Z then lit "btt" else lit "invalid".

(** ** Tags (35-36, 589-591) *)
Definition hb_tag (a b c d : N) : N := N.lor (N.lor (N.lor (N.shiftl a 24) (N.shiftl b 16)) (N.shiftl c 8)) d.
Definition script_common : N := 1517910393.
Definition script_inherited : N := 1516858984.
Definition script_unknown : N := 1517976186.

(** ** Encoding: str.encode *)
Definition surrogate (c : N) : bool := (55296 <=? c) && (c <=? 57343).
Definition encode (f : N -> list N) (t : text) : result (list N) :=
  if existsb surrogate t then Err UnicodeError_ else Ok (flat_map f t).

(* 78-83: hb_direction_from_string looks at the first byte only, without case *)
Definition from_string (t : text) : result Z :=
  do l <- encode utf8 t;
  match l with
  | [] => Ok 0%Z
  | c :: _ =>
      let c := if (65 <=? c) && (c <=? 90) then c + 32 else c in
      Ok (if c =? 108 then 4%Z else if c =? 114 then 5%Z else if c =? 116 then 6%Z else if c =? 98 then 7%Z else 0%Z)
  end.

(** ** Decoding: hb-utf.hh *)
Definition replacement : N := 65533.
Definition trail (c : N) : option N := if (128 <=? c) && (c <? 192) then Some (c - 128) else None.
(* the code point at the start and how many units it takes *)
Definition next8 (l : list N) : option (N * nat) :=
  match l with
  | [] => None
  | c :: r =>
      let bad := Some (replacement, 1%nat) in
      if c <? 128 then Some (c, 1%nat)
      else if (194 <=? c) && (c <=? 223) then
        match r with a :: _ => match trail a with Some a => Some ((c - 192) * 64 + a, 2%nat) | None => bad end | [] => bad end
      else if (224 <=? c) && (c <=? 239) then
        match r with
        | a :: b :: _ =>
            match trail a, trail b with
            | Some a, Some b => let x := (c - 224) * 4096 + a * 64 + b in if (x <? 2048) || surrogate x then bad else Some (x, 3%nat)
            | _, _ => bad
            end
        | _ => bad
        end
      else if (240 <=? c) && (c <=? 244) then
        match r with
        | a :: b :: d :: _ =>
            match trail a, trail b, trail d with
            | Some a, Some b, Some d => let x := (c - 240) * 262144 + a * 4096 + b * 64 + d in if (x <? 65536) || (1114112 <=? x) then bad else Some (x, 4%nat)
            | _, _, _ => bad
            end
        | _ => bad
        end
      else bad
  end.
Definition next16 (l : list N) : option (N * nat) :=
  match l with
  | [] => None
  | c :: r =>
      if negb (surrogate c) then Some (c, 1%nat)
      else if is_high c then
        match r with d :: _ => if SegModel.is_low d then Some (65536 + (c - 55296) * 1024 + (d - 56320), 2%nat) else Some (replacement, 1%nat) | [] => Some (replacement, 1%nat) end
      else Some (replacement, 1%nat)
  end.
Definition next32 (l : list N) : option (N * nat) :=
  match l with [] => None | c :: _ => Some (if surrogate c || (1114112 <=? c) then replacement else c, 1%nat) end.
(* all code points with their clusters, from offset [o] *)
Fixpoint decode (next : list N -> option (N * nat)) (fuel : nat) (o : nat) (l : list N) : list (N * nat) :=
  match fuel with
  | O => []
  | S fuel => match next l with None => [] | Some (c, n) => (c, o) :: decode next fuel (o + n) (skipn n l) end
  end.
Definition decoded (next : list N -> option (N * nat)) (l : list N) : list (N * nat) := decode next (length l) 0 l.

(** ** The buffer: code points and clusters *)
Definition buffer := list (N * nat).
Definition bom : N := 65279.
Inductive bop := AddUtf8 (t : text) | AddUtf16 (t : text) | AddUtf32 (t : text) | Clear.
Definition bstep (b : buffer) (o : bop) : buffer * result unit :=
  let add (l : result (list (N * nat))) := match l with Ok l => (b ++ l, Ok tt) | Err e => (b, Err e) end in
  match o with
  (* 476-478: the array ends with a zero, and length -1 is up to the first zero *)
  | AddUtf8 t => add (do l <- encode utf8 t; Ok (decoded next8 (until_nul (l ++ [0]))))
  (* 466-469: 'utf-16' begins with a byte order mark *)
  | AddUtf16 t => add (do l <- encode units_of t; Ok (decoded next16 (bom :: l)))
  (* 471-474 *)
  | AddUtf32 t => add (do l <- encode (fun c => [c]) t; Ok (decoded next32 (bom :: l)))
  (* 485-486 *)
  | Clear => ([], Ok tt)
  end.
Definition brun (b : buffer) (os : list bop) : buffer := fold_left (fun b o => fst (bstep b o)) os b.

(* 221-229: the bytes HBFeature.fromstring has the library read *)
Definition feature_bytes (t : text) : result (list N) := do l <- encode utf8 t; Ok (firstn (length t) l).
