(** What is claimed of navigation. *)
From Verif Require Import PyBase PyText PyCase PyDict PySplit UrlModel NavModel.
#[local] Open Scope N_scope.

(** The document shows what its location leads to: nothing for about:, and otherwise the page its text fetches. *)
Definition shows {A} (n : net A) (t : tab A) : Prop :=
  (u_protocol (t_url t) = lit "about:" /\ t_root t = None) \/
  (u_protocol (t_url t) <> lit "about:" /\ exists p, n_fetch n (href (t_url t)) = Ok p /\ t_root t = Some p).

(** URLs there is a page for: not those without scheme and host, not blob: and data:, not about: alone. *)
Definition visitable (u : url) : Prop :=
  ~ (u_protocol u = [] /\ get_host u = []) /\ u_protocol u <> lit "blob:" /\ u_protocol u <> lit "data:" /\
  ~ (u_protocol u = lit "about:" /\ get_pathname u = []).

(** What may follow when the URL of a location has been set to u. *)
Inductive arrival {A} (n : net A) (t : tab A) (u : url) : tab A -> option pyerr -> Prop :=
  | arrive_nowhere : ~ visitable u -> arrival n t u (mkTab (look u) (t_root t) (t_impl t)) (Some ValueError)
  | arrive_about : visitable u -> u_protocol u = lit "about:" -> arrival n t u (mkTab (look u) None (t_impl t)) None
  | arrive_page p : visitable u -> u_protocol u <> lit "about:" -> t_impl t = true -> n_fetch n (href u) = Ok p -> arrival n t u (mkTab (look u) (Some p) (t_impl t)) None
  | arrive_failed e : visitable u -> u_protocol u <> lit "about:" -> t_impl t = true -> n_fetch n (href u) = Err e -> arrival n t u (mkTab (look u) None (t_impl t)) (Some e)
  | arrive_bare : visitable u -> u_protocol u <> lit "about:" -> t_impl t = false -> arrival n t u (mkTab (look u) None (t_impl t)) (Some AttributeError).

(** The component of the URL that an attribute of a location stands for. *)
Inductive names : part -> comp -> Prop :=
  | names_hash : names PHash CHash | names_host : names PHost CHost | names_hostname : names PHostname CHostname | names_pathname : names PPathname CPathname
  | names_port : names PPort CPort | names_protocol : names PProtocol CProtocol | names_search : names PSearch CSearch.

(** The uses of a location that ask for a page. *)
Definition asks (o : lop) : bool := match o with LRead => false | _ => true end.

(** What leaves the place p as it is: uses of other locations, documents made, roots changed elsewhere, reading. *)
Definition elsewhere {A} (w : world A) (p : place) (o : wop A) : Prop :=
  match o with
  | WLoc x LRead => True
  | WLoc x _ => place_of w x <> Some p
  | WNew _ _ | WView _ => True
  | WRoot Win _ => p <> Main
  | WRoot (Doc i) _ => p <> Own i
  end.
Fixpoint all_elsewhere {A} (n : net A) (w : world A) (p : place) (ops : list (wop A)) : Prop :=
  match ops with [] => True | o :: r => elsewhere w p o /\ all_elsewhere n (fst (world_step n w o)) p r end.
