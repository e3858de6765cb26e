(** What is claimed of URLs, without their setters. *)
From Coq Require Import Sorted.
From Verif Require Import PyBase PyText PyCase PyDict PySplit UrlModel.
#[local] Open Scope N_scope.

(** The components another component's setter may change. *)
Definition touches (c d : comp) : bool :=
  match c, d with
  | CProtocol, (CProtocol | CHost | CPathname) => true
  | (CHost | CHostname), (CHost | CHostname | CPort) => true
  | CPort, (CPort | CHost) => true
  | CUsername, CUsername | CPassword, CPassword | CPathname, CPathname | CSearch, CSearch | CHash, CHash => true
  | _, _ => false
  end.

(** Assigning to every component the value it has changes nothing. *)
Definition stable (w : web) (u : url) : Prop := forall c, set_comp w c u (get_comp c u) = (u, None).

(** The parts of a URL that its text can carry: *)
(* a scheme that is followed by "//" *)
Definition hierarchical (u : url) : Prop := u_protocol u <> [] /\ ~ In (u_protocol u) [lit "about:"; lit "blob:"; lit "data:"].
Definition usual_ports : list (text * text) :=
  [(lit "ftp:", lit "21"); (lit "gopher:", lit "70"); (lit "http:", lit "80"); (lit "https:", lit "443"); (lit "ws:", lit "80"); (lit "wss:", lit "443")].
(* the host is a name or an IPv4 address, the port a number without leading zeros and not the usual one, and there is no password without a user;
   where there is no host there is nothing of the others *)
Definition carried (u : url) : Prop :=
  (forall c, In c (u_hostname u) -> c <> 58 /\ c <> 91 /\ c <> 93) /\
  (u_port u = [] \/ exists n, u_port u = digits n) /\ ~ In (u_protocol u, u_port u) usual_ports /\
  (u_username u = [] -> u_password u = []) /\
  (u_hostname u = [] \/ u_protocol u = lit "file:" -> u_hostname u = [] /\ u_port u = [] /\ u_username u = [] /\ u_password u = []).

(** The host shown is that of the URL, with its port or without. *)
Definition host_fits (u : url) : Prop := u_host u = u_hostname u \/ u_host u = u_hostname u ++ lit ":" ++ u_port u.
Definition port_fits (u : url) : Prop := u_port u = [] \/ (Forall (fun c => 48 <= c <= 57) (u_port u) /\ digits_val (u_port u) <= 65535).
Definition protocol_fits (u : url) : Prop :=
  u_protocol u = [] \/
  exists c r, u_protocol u = c :: r ++ lit ":" /\ 97 <= c <= 122 /\ Forall (fun c => 97 <= c <= 122 \/ 48 <= c <= 57 \/ c = 43 \/ c = 45 \/ c = 46) r.

(** A path without ".", ".." and empty segments, but for the slashes around it. *)
Definition plain_segment (s : text) : Prop := s <> [] /\ s <> lit "." /\ s <> lit ".." /\ ~ In 47 s.
Definition normal_path (p : text) : Prop :=
  exists lead segs trail, p = lead ++ join (lit "/") segs ++ trail /\ (lead = lit "/" \/ lead = lit "//") /\ Forall plain_segment segs /\ (trail = [] \/ trail = lit "/").

(** Percent-decoding undoes percent-encoding (of everything that is not safe, the percent sign among it), and gives text. *)
Definition unicode (t : text) : Prop := Forall (fun c => c < 1114112) t.
Definition decodes (w : web) : Prop :=
  (forall safe t, ~ In 37 safe -> unicode t -> unquote w (quote safe t) = t) /\ (forall t, unicode t -> unicode (unquote w t)).

(** A decoder for the examples: whole UTF-8 sequences with upper case digits. *)
Definition unhex (c : N) : N := if c <? 58 then c - 48 else c - 55.
Definition byte_at (t : text) : option (N * text) := match t with 37 :: a :: b :: r => Some (16 * unhex a + unhex b, r) | _ => None end.
Definition more (n : N) (o : option (N * text)) : option (N * text) := match o with Some (b, r) => Some (64 * n + (b - 128), r) | None => None end.
Definition char_at (t : text) : option (N * text) :=
  match byte_at t with
  | Some (b, r) =>
      if b <? 128 then Some (b, r)
      else if b <? 224 then more (b - 192) (byte_at r)
      else if b <? 240 then match more (b - 224) (byte_at r) with Some (n, r) => more n (byte_at r) | None => None end
      else match more (b - 240) (byte_at r) with Some (n, r) => match more n (byte_at r) with Some (n, r) => more n (byte_at r) | None => None end | None => None end
  | None => None
  end.
Fixpoint decode (fuel : nat) (t : text) : text :=
  match fuel with
  | O => []
  | S f => match char_at t with Some (c, r) => (if c <? 1114112 then c else 65533) :: decode f r | None => match t with [] => [] | c :: r => c :: decode f r end end
  end.
Definition plain_web : web := mkWeb (fun t => decode (length t) t) (fun t => Some t) (fun _ => false).

(** Where a reference that is only a path leads: the base with that path. *)
Definition at_path (b : url) (p : text) : url :=
  mkUrl (u_protocol b) (u_username b) (u_password b) (u_hostname b) (u_host b) (u_port b) p [] [].

(** A path given from the root. *)
Definition absolute (w : web) (t : text) : Prop := exists r, unquote w t = 47 :: r \/ unquote w t = 92 :: r.
(** What may be left out of the segments of a path from the root. *)
Inductive shortens : list text -> list text -> Prop :=
  | sh_done l : shortens l l
  | sh_drop a s b l : s = [] \/ s = lit "." -> shortens (a ++ b) l -> shortens (a ++ s :: b) l
  | sh_up a s b l : plain_segment s -> shortens (a ++ b) l -> shortens (a ++ s :: lit ".." :: b) l
  | sh_root b l : shortens b l -> shortens (lit ".." :: b) l.

(** Query parameters that their text can carry: in order, and of these characters. *)
Fixpoint before (a b : text) : Prop :=
  match a, b with _, [] => False | [], _ => True | x :: a', y :: b' => x < y \/ x = y /\ before a' b' end.
Definition in_order (d : dict text) : Prop := Sorted (fun p q => before (fst p) (fst q)) d.
Definition query_plain (t : text) : Prop := Forall (fun c => c = 32 \/ 48 <= c <= 57 \/ 65 <= c <= 90 \/ 97 <= c <= 122 \/ In c (lit "_.-~!$%()*,/:;?@[\]^`{|}")) t.

(** A host: a name, a name and a port, an IPv6 address in brackets, one with a
    port, one without brackets.  The name it means and the port, if it says one. *)
Definition two_colons (t : text) : Prop := exists x y z, t = x ++ 58 :: y ++ 58 :: z.
Inductive host_parts : text -> text -> option text -> Prop :=
  | hp_name h : ~ In 58 h -> host_parts h h None
  | hp_port n p : ~ In 58 n -> ~ In 58 p -> host_parts (n ++ 58 :: p) n (Some p)
  | hp_six a : two_colons a -> host_parts (91 :: a ++ [93]) (91 :: a ++ [93]) (Some [])
  | hp_six_port a p : two_colons a -> ~ In 93 p -> host_parts (91 :: a ++ 93 :: 58 :: p) (91 :: a ++ [93]) (Some p)
  | hp_bare h : two_colons h -> (forall r, h <> 91 :: r) -> host_parts h (91 :: h ++ [93]) None.
Definition port_text (p : text) : Prop := Forall (fun c => 48 <= c <= 57) p /\ digits_val p <= 65535.
Definition host_text (t : text) : Prop := t <> [] /\ forall c, In c t -> ~ In c ([9; 10; 13; 32] ++ lit "#%/?@\").
Definition shown_host (protocol n p : text) (s : text) : Prop :=
  (n = [] \/ p = [] \/ In (protocol, p) usual_ports -> s = n) /\ (n <> [] -> p <> [] -> ~ In (protocol, p) usual_ports -> s = n ++ lit ":" ++ p).
