(** URLSearchParams: svgpy/url.py 587-629.  Values are texts (urlencode would
    turn others into text with str); surrogates, which urlencode refuses with
    UnicodeEncodeError, are quoted like other characters here. *)
From Verif Require Import PyBase PyText PyDict PySplit UrlModel.
#[local] Open Scope N_scope.

(** ** The mapping *)
Inductive paramop :=
| PSet (k v : text)                    (* params[k] = v *)
| PDel (k : text)                      (* del params[k] *)
| PPop (k : text)                      (* params.pop(k, None) *)
| PSetDefault (k v : text)             (* params.setdefault(k, v) *)
| PUpdate (l : dict text)              (* params.update(l) *)
| PClear.                              (* params.clear() *)
(* dict(l), and MutableMapping.update: the pairs in turn *)
Definition update (d l : dict text) : dict text := fold_left (fun d p => dset d (fst p) (snd p)) l d.
(* 590-592 *)
Definition params_new (l : dict text) : dict text := update [] (update [] l).
(* 594-610 and the methods of MutableMapping made of them *)
Definition params_step (d : dict text) (o : paramop) : dict text * option pyerr :=
  match o with
  | PSet k v => (dset d k v, None)
  | PDel k => if dhas d k then (ddel d k, None) else (d, Some KeyError)
  | PPop k => (if dhas d k then ddel d k else d, None)
  | PSetDefault k v => (if dhas d k then d else dset d k v, None)
  | PUpdate l => (update d l, None)
  | PClear => ([], None)
  end.
Definition params_run (d : dict text) (ops : list paramop) : dict text :=
  fold_left (fun d o => fst (params_step d o)) ops d.

(** ** Serialising, 612-629 *)
(* 620-622 *)
Definition form_safe : text := lit "*-._".
(* urllib.parse.urlencode of one pair, with quote_plus *)
Definition form_text (t : text) : text := flat_map (plus_char form_safe) t.
Definition form_pair (p : text * text) : text := form_text (fst p) ++ 61 :: form_text (snd p).
(* 612-629 *)
Definition params_text (d : dict text) : text :=
  match d with [] => [] | _ => join [38] (map form_pair (sort_params d)) end.
