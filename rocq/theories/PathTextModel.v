(** Model of the text form of path data, svgpy/path.py. *)
From Verif Require Import PyBase PyText NumScan FormatModel MatrixModel PathModel.
Local Open Scope N_scope.

(** the type letters *)
Definition code (k : cmd) : N :=
  match k with
  | KM => 77 | KL => 76 | KH => 72 | KV => 86 | KC => 67 | KS => 83 | KQ => 81 | KT => 84
  | KA => 65 | KB => 66 | KZ => 90
  end.
Definition cmd_eq_dec (a b : cmd) : {a = b} + {a <> b}.
Proof. decide equality. Defined.
Definition kinds : list cmd := [KA; KB; KC; KH; KL; KM; KQ; KS; KT; KV; KZ].
Definition letter_of (k : cmd) (rel : bool) : N := if rel then code k + 32 else code k.
Definition letter (g : seg) : option N :=
  match kind g with Some k => Some (letter_of k (isrelative g)) | None => None end.
(* path.py:1183 PATH_SEGMENT_TYPES: the command and case a letter stands for *)
Definition command_of (c : N) : option (cmd * bool) :=
  match find (fun k => c =? code k) kinds with
  | Some k => Some (k, false)
  | None => match find (fun k => c =? code k + 32) kinds with
            | Some k => Some (k, true)
            | None => None
            end
  end.
Definition is_command (c : N) : bool := match command_of c with Some _ => true | None => false end.

(** the tuple of values *)
Definition values (g : seg) : list Q :=
  match g with
  | SM _ p | SL _ p | ST _ p => [ptx p; pty p]
  | SH _ x | SV _ x | SB _ x => [x]
  | SC _ p1 p2 p => [ptx p1; pty p1; ptx p2; pty p2; ptx p; pty p]
  | SS _ p1 p | SQ _ p1 p => [ptx p1; pty p1; ptx p; pty p]
  | SA _ rx ry rot fa fs p => [rx; ry; rot; fa; fs; ptx p; pty p]
  | SZ _ | SCNone _ _ | SInvalid => []
  end.
(* SVGPathSegment(path_type, *args), path.py:289-291; [args] has the length
   the letter requires wherever this is used *)
Definition make (k : cmd) (r : bool) (args : list Q) : seg :=
  match k, args with
  | KM, [x; y] => SM r (P x y) | KL, [x; y] => SL r (P x y) | KT, [x; y] => ST r (P x y)
  | KH, [x] => SH r x | KV, [x] => SV r x | KB, [x] => SB r x
  | KC, [x1; y1; x2; y2; x; y] => SC r (P x1 y1) (P x2 y2) (P x y)
  | KS, [x1; y1; x; y] => SS r (P x1 y1) (P x y)
  | KQ, [x1; y1; x; y] => SQ r (P x1 y1) (P x y)
  | KA, [rx; ry; rot; fa; fs; x; y] => SA r rx ry rot fa fs (P x y)
  | KZ, [] => SZ r
  | _, _ => SInvalid
  end.
(* path.py:1185-1196 _PATH_SEGMENT_VALUES_LENGTH *)
Definition argc (k : cmd) : nat :=
  match k with
  | KA => 7 | KB | KH | KV => 1 | KC => 6 | KL | KM | KT => 2 | KQ | KS => 4 | KZ => 0
  end%nat.

(* path.py:358-376 _tostring1, _tostring2, _tostring2n and the 'A' branch of
   tostring (520-530): the text after the letter *)
Definition fmt6 (x : Q) : text := format_number precision x.
Definition pair_text (p : pt) : text := fmt6 (ptx p) ++ [44] ++ fmt6 (pty p).
Definition values_text (g : seg) : text :=
  match g with
  | SM _ p | SL _ p => join [44] (format_number_sequence precision [ptx p; pty p])
  | SH _ x | SV _ x | SB _ x => join [32] (format_number_sequence precision [x])
  | ST _ p => format_pairs precision [(ptx p, pty p)]
  | SC _ p1 p2 p => format_pairs precision [(ptx p1, pty p1); (ptx p2, pty p2); (ptx p, pty p)]
  | SS _ p1 p | SQ _ p1 p => format_pairs precision [(ptx p1, pty p1); (ptx p, pty p)]
  | SA _ rx ry rot fa fs p =>
      join [32] [join [44] [fmt6 rx; fmt6 ry]; fmt6 rot; fmt6 fa; fmt6 fs; join [44] [fmt6 (ptx p); fmt6 (pty p)]]
  | SZ _ | SCNone _ _ | SInvalid => []
  end.
(* path.py:517-550 SVGPathSegment.tostring.  Formatting None is a TypeError.
   The invalid segment is taken to have type None. *)
Definition seg_tostring (g : seg) : result text :=
  match g, letter g with
  | SCNone _ _, _ => Err TypeError
  | _, Some c => Ok (c :: values_text g)
  | _, None => Ok []
  end.

Definition same_letter (a b : option N) : bool :=
  match a, b with Some x, Some y => x =? y | None, None => true | _, _ => false end.
(* path.py:1503-1513: the loop of PathParser.tostring *)
Fixpoint pieces (last : option N) (l : list seg) : result (list text) :=
  match l with
  | [] => Ok []
  | g :: l' =>
      do t <- seg_tostring g;
      let t := if same_letter last (letter g) then tl t else t in
      do r <- pieces (letter g) l';
      Ok (t :: r)
  end.
(* path.py:1498-1515 PathParser.tostring *)
Definition path_tostring (l : list seg) : result text :=
  do ps <- pieces None l;
  Ok (join [32] (filter (fun t => match t with [] => false | _ => true end) ps)).

(* path.py:1174-1176 RE_PATH_SEGMENT_LIST: a command letter and everything up
   to the next one, at least one character unless the text ends.  The white
   space after the letter is left in the values, which are stripped. *)
Definition scan_command (t : text) : option ((cmd * bool * text) * text) :=
  match t with
  | [] => None
  | c :: t' =>
      match command_of c with
      | None => None
      | Some (k, r) =>
          let v := takewhile (fun x => negb (is_command x)) t' in
          let rest := dropwhile (fun x => negb (is_command x)) t' in
          match v, rest with
          | [], _ :: _ => None
          | _, _ => Some ((k, r, v), rest)
          end
      end
  end.
(* zip of argc times the same iterator: groups of n, an incomplete last group is dropped *)
Fixpoint chunks_f (fuel n : nat) (l : list Q) : list (list Q) :=
  match fuel with
  | O => []
  | S f => if (length l <? n)%nat then [] else firstn n l :: chunks_f f n (skipn n l)
  end.
Definition chunks (n : nat) (l : list Q) : list (list Q) := chunks_f (length l) n l.
(* path.py:1479-1495: one match *)
Definition build (m : cmd * bool * text) : list seg :=
  let '(k, r, v) := m in
  match k with
  | KZ => [SZ r]
  | _ => map (make k r) (chunks (argc k) (scan_numbers (strip v)))
  end.
(* path.py:1467-1496 PathParser.parse *)
Definition path_parse (t : text) : list seg :=
  flat_map build (finditer scan_command (strip t)).
