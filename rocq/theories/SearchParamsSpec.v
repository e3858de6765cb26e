(** What is claimed of search parameters, without their serialiser. *)
From Verif Require Import PyBase PyText PyDict PySplit UrlModel UrlSpec SearchParamsModel.
#[local] Open Scope N_scope.

(** Reading application/x-www-form-urlencoded text: the pairs between the
    ampersands, cut at the first equals sign, a plus for a space, and
    percent-encoded UTF-8 (UrlSpec.decode). *)
Fixpoint cut_at (c : N) (t : text) : text * text :=
  match t with
  | [] => ([], [])
  | x :: r => if x =? c then ([], r) else (x :: fst (cut_at c r), snd (cut_at c r))
  end.
Definition unplus (t : text) : text := map (fun c => if c =? 43 then 32 else c) t.
Definition form_decode (t : text) : text := decode (length t) (unplus t).
Definition read_pair (t : text) : text * text := (form_decode (fst (cut_at 61 t)), form_decode (snd (cut_at 61 t))).
Definition read_form (t : text) : dict text :=
  map read_pair (filter (fun s => match s with [] => false | _ => true end) (split_on 38 t)).

(** The value of a key after some operations, from its value before. *)
Fixpoint last_of (l : dict text) (k : text) (o : option text) : option text :=
  match l with
  | [] => o
  | (k', v) :: l' => last_of l' k (if text_eqb k' k then Some v else o)
  end.
Definition value_after (k : text) (o : option text) (op : paramop) : option text :=
  match op with
  | PSet k' v => if text_eqb k' k then Some v else o
  | PDel k' | PPop k' => if text_eqb k' k then None else o
  | PSetDefault k' v => if text_eqb k' k then match o with None => Some v | _ => o end else o
  | PUpdate l => last_of l k o
  | PClear => None
  end.

(** Letters, digits, spaces and a few signs. *)
Definition form_plain (t : text) : Prop :=
  Forall (fun c => c = 32 \/ 48 <= c <= 57 \/ 65 <= c <= 90 \/ 97 <= c <= 122 \/ In c (lit "*-._~")) t.
(** What the text may consist of. *)
Definition form_char (c : N) : Prop :=
  48 <= c <= 57 \/ 65 <= c <= 90 \/ 97 <= c <= 122 \/ In c (lit "*-._~+%=&").
