(** What is claimed of loading. *)
From Verif Require Import PyBase PyText PyCase PyDict PySplit UtilsModel UrlModel LoadModel.
#[local] Open Scope N_scope.

(** The base64 text of bytes (RFC 4648). *)
Definition b64_char (n : N) : N := if n <? 26 then n + 65 else if n <? 52 then n + 71 else if n <? 62 then n - 4 else if n =? 62 then 43 else 47.
Fixpoint b64encode (b : list N) : text :=
  match b with
  | [] => []
  | [x] => [b64_char (x / 4); b64_char (x mod 4 * 16); 61; 61]
  | [x; y] => [b64_char (x / 4); b64_char (x mod 4 * 16 + y / 16); b64_char (y mod 16 * 4); 61]
  | x :: y :: z :: r => b64_char (x / 4) :: b64_char (x mod 4 * 16 + y / 16) :: b64_char (y mod 16 * 4 + z / 64) :: b64_char (z mod 64) :: b64encode r
  end.
Definition bytes (b : list N) : Prop := Forall (fun x => x < 256) b.

(** Parts of a content type: no semicolons, no spaces around.  A parameter has one equals sign; other parts say nothing. *)
Definition part_text (t : text) : Prop := strip t = t /\ ~ In 59 t.
Inductive part := PVal (k v : text) | POther (t : text).
Definition part_of (p : part) : text := match p with PVal k v => k ++ lit "=" ++ v | POther t => t end.
Definition part_ok (p : part) : Prop := part_text (part_of p) /\ match p with PVal k v => ~ In 61 k /\ ~ In 61 v | POther t => count_occ N.eq_dec t 61 <> 1%nat end.
Definition content_type (m : text) (ps : list part) : text := join (lit ";") (m :: map part_of ps).
(** The value of a name: the last given, in either case. *)
Fixpoint last_value (k : text) (l : list (text * text)) : option text :=
  match l with
  | [] => None
  | (k', v) :: r => match last_value k r with Some x => Some x | None => if text_eqb (lower k') (lower k) then Some v else None end
  end.
Definition values (ps : list part) : list (text * text) := flat_map (fun p => match p with PVal k v => [(k, v)] | POther _ => [] end) ps.

(** Header lines as a mapping. *)
Definition header_map (l : list (text * text)) : headers := ci_run lower (map (fun p => CSet (fst p) (snd p)) l).

(** The text of a URL may hold anything but these. *)
Definition url_text (t : text) : Prop := forall c, In c t -> ~ In c [9; 10; 13; 35; 63].
