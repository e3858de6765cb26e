(** Loading: svgpy/utils.py 56-69 (get_content_type), 179-203 (load), svgpy/window.py 827-847 (SVGDOMImplementation.parse),
    svgpy/css/__init__.py 1740-1747 (the encoding CSSParser.parse chooses), with base64.b64decode of CPython (binascii.a2b_base64, not strict).
    urlopen (with its header lines), the decoders of bytes, and the XML parser are arguments.  Headers are the mapping of C40. *)
From Verif Require Import PyBase PyText PyCase PyDict PySplit UtilsModel UrlModel.
#[local] Open Scope N_scope.

(* what data and response bodies are *)
Inductive body := BNone | BStr (t : text) | BBytes (b : list N).
Definition headers := cimap text.

(** ** base64 *)
(* binascii's table *)
Definition b64_val (c : N) : option N :=
  if is_up c then Some (c - 65) else if is_low c then Some (c - 71) else if is_digit c then Some (c + 4)
  else if c =? 43 then Some 62 else if c =? 47 then Some 63 else None.
(* binascii.c, a2b_base64: the place in the quad, the bits left over, the pads seen *)
Fixpoint a2b (q left pads : N) (t : text) : result (list N) :=
  match t with
  | [] => if q =? 0 then Ok [] else Err ValueError  (* binascii.Error *)
  | c :: r =>
      if c =? 61 then
        if 2 <=? q then (if 4 <=? q + (pads + 1) then Ok [] else a2b q left (pads + 1) r) else a2b q left pads r
      else match b64_val c with
           | None => a2b q left pads r
           | Some v =>
               if q =? 0 then a2b 1 v 0 r
               else if q =? 1 then do b <- a2b 2 (v mod 16) 0 r; Ok (left * 4 + v / 16 :: b)
               else if q =? 2 then do b <- a2b 3 (v mod 4) 0 r; Ok (left * 16 + v / 4 :: b)
               else do b <- a2b 0 0 0 r; Ok (left * 64 + v :: b)
           end
  end.
(* base64.b64decode of a str *)
Definition b64decode (t : text) : result (list N) := if forallb (fun c => c <? 128) t then a2b 0 0 0 t else Err ValueError.

(** ** Content types: utils.py 56-69 *)
(* the type under the key None, and the parameters *)
Definition get_param (m : cimap text) (p : text) : cimap text := match split_on 61 p with [k; v] => ci_set lower m k v | _ => m end.
Definition get_content_type (h : headers) : option (text * cimap text) :=
  let h := fold_left (fun m p => ci_set lower m (fst p) (snd p)) (cdata h) ci_empty in
  match ci_get lower h (lit "Content-Type") with
  | Err _ => None
  | Ok t => match map strip (split_on 59 t) with
            | [] => None  (* split gives at least one text *)
            | m :: ps => Some (m, fold_left get_param ps ci_empty)
            end
  end.
(* window.py 839-842, css/__init__.py 1741-1746 *)
Definition charset_of (h : headers) : text :=
  match get_content_type h with
  | None => lit "utf-8"
  | Some (_, ps) => match ci_get lower ps (lit "charset") with Ok c => c | Err _ => lit "utf-8" end
  end.
(* css/__init__.py 1740-1747: an encoding given by the caller comes first *)
Definition css_encoding (advice : option text) (h : headers) : text := match advice with Some e => e | None => charset_of h end.

(** ** load: utils.py 179-203 *)
Fixpoint remove_first (x : text) (l : list text) : list text := match l with [] => [] | y :: r => if text_eqb x y then r else y :: remove_first x r end.
Definition load_data (w : web) (path : text) : result (body * headers) :=
  match cut 44 path with
  | None => Ok (BNone, ci_empty)
  | Some (ct, d) =>
      let ct := match strip ct with [] => lit "text/plain;charset=US-ASCII" | t => t end in
      let d := unquote w (strip d) in
      let ps := map strip (split_on 59 ct) in
      if mem (lit "base64") ps then
        do b <- b64decode d; Ok (BBytes b, ci_set lower ci_empty (lit "Content-Type") (join [59] (remove_first (lit "base64") ps)))
      else Ok (BStr d, ci_set lower ci_empty (lit "Content-Type") (join [59] ps))
  end.
Record wire := mkWire { urlopen : text -> result (list N * list (text * text)); decoder : text -> list N -> result text }.
Definition load (w : web) (n : wire) (src : text) : result (body * headers) :=
  do u <- fst (construct w src None);
  if text_eqb (u_protocol u) (lit "data:") then load_data w (get_pathname u)
  else do (b, hs) <- urlopen n (snd (tostring u)); Ok (BBytes b, fold_left (fun m p => ci_set lower m (fst p) (snd p)) hs ci_empty).

(* window.py 827-847, the source a URL: str and None have no decode *)
Definition parse_page {A} (xml : text -> result A) (w : web) (n : wire) (src : text) : result A :=
  do (b, h) <- load w n src;
  match b with
  | BBytes b => do t <- decoder n (charset_of h) b; xml t
  | _ => Err AttributeError
  end.
