(** The words used to state what a data-* map must do. *)
From Verif Require Import PyBase PyText PyCase.
Local Open Scope N_scope.

(* no dash directly before a lower case letter *)
Definition no_dash_letter (k : text) : Prop :=
  forall a b c, k <> a ++ [45; c] ++ b \/ ~ (97 <= c <= 122).
(* keys that do not hold a dash nor begin with an upper case letter *)
Definition simple_key (k : text) : Prop :=
  ~ In 45 k /\ match k with c :: _ => ~ (65 <= c <= 90) | [] => True end.
(* what follows 'data-' in an attribute name: no upper case letter, and every
   dash stands between two characters, the second a lower case letter *)
Fixpoint dashes_ok (t : text) : Prop :=
  match t with
  | [] => True
  | c :: r => ~ (65 <= c <= 90) /\
              (c = 45 -> match r with d :: _ => 97 <= d <= 122 | [] => False end) /\ dashes_ok r
  end.
Definition simple_body (t : text) : Prop :=
  match t with c :: _ => c <> 45 | [] => True end /\ dashes_ok t.

(* NameChar of XML 1.0 (production 4a) *)
Definition xml_name_char (c : N) : Prop :=
  c = 0x3A \/ 0x41 <= c <= 0x5A \/ c = 0x5F \/ 0x61 <= c <= 0x7A \/ 0xC0 <= c <= 0xD6 \/ 0xD8 <= c <= 0xF6 \/
  0xF8 <= c <= 0x2FF \/ 0x370 <= c <= 0x37D \/ 0x37F <= c <= 0x1FFF \/ 0x200C <= c <= 0x200D \/ 0x2070 <= c <= 0x218F \/
  0x2C00 <= c <= 0x2FEF \/ 0x3001 <= c <= 0xD7FF \/ 0xF900 <= c <= 0xFDCF \/ 0xFDF0 <= c <= 0xFFFD \/ 0x10000 <= c <= 0xEFFFF \/
  c = 0x2D \/ c = 0x2E \/ 0x30 <= c <= 0x39 \/ c = 0xB7 \/ 0x300 <= c <= 0x36F \/ 0x203F <= c <= 0x2040.
