(** URLs: svgpy/url.py 21-55 and 210-583 (URL, URLSearchParams as a dict), with urllib.parse's
    quote, quote_plus and urlsplit and os.path's normpath, dirname and join (POSIX).
    Percent-decoding (urllib.parse.unquote), IDNA encoding and whether a path is a directory are an
    oracle.  Letters and digits are the ASCII ones: schemes and ports with others are
    refused here.  urlsplit is that of Python 3.12 without the check of non-ASCII and bracketed hosts.
    Setters give the new object and the exception, if any. *)
From Verif Require Import PyBase PyText PyCase PyDict PySplit.
#[local] Open Scope N_scope.

Record web := mkWeb { unquote : text -> text; idna : text -> option text; isdir : text -> bool }.
Record url := mkUrl { u_protocol : text; u_username : text; u_password : text; u_hostname : text; u_host : text; u_port : text; u_pathname : text; u_params : dict text; u_hash : text }.
Definition setting := (url * option pyerr)%type.
Definition is_in (c : N) (t : text) : bool := existsb (N.eqb c) t.
Definition is_alnum (c : N) : bool := is_up c || is_low c || is_digit c.
Definition nonempty (t : text) : bool := match t with [] => false | _ => true end.

(** ** Quoting *)
(* str.encode *)
Definition utf8 (c : N) : list N :=
  if c <? 128 then [c]
  else if c <? 2048 then [192 + c / 64; 128 + c mod 64]
  else if c <? 65536 then [224 + c / 4096; 128 + (c / 64) mod 64; 128 + c mod 64]
  else [240 + c / 262144; 128 + (c / 4096) mod 64; 128 + (c / 64) mod 64; 128 + c mod 64].
Definition hexdigit (d : N) : N := if d <? 10 then 48 + d else if d <? 16 then 55 + d else 48.  (* the last only beyond Unicode *)
Definition percent (b : N) : text := [37; hexdigit (b / 16); hexdigit (b mod 16)].
(* urllib.parse.quote *)
Definition safe_char (safe : text) (c : N) : bool := is_alnum c || is_in c (lit "_.-~") || is_in c safe.
Definition quote_char (safe : text) (c : N) : text := if safe_char safe c then [c] else flat_map percent (utf8 c).
Definition quote (safe : text) (t : text) : text := flat_map (quote_char safe) t.
(* quote_plus, character by character *)
Definition plus_char (safe : text) (c : N) : text := if c =? 32 then [43] else quote_char safe c.
(* 32-34: a reference at the start of the text, what is in it, and the rest *)
Definition is_hex (c : N) : bool := is_digit c || (97 <=? to_low c) && (to_low c <=? 102).
Definition ref_at (t : text) : option (text * text) :=
  match t with
  | 38 :: 35 :: a :: b :: c :: d :: r =>
      if forallb is_digit [a; b; c; d] then match r with 59 :: r' => Some ([a; b; c; d], r') | _ => None end
      else if (to_low a =? 120) then match r with e :: 59 :: r' => if forallb is_hex [b; c; d; e] then Some ([a; b; c; d; e], r') else None | _ => None end
      else None
  | _ => None
  end.
(* 37-55 *)
Fixpoint quote_refs (fuel : nat) (safe t : text) : text :=
  match fuel with
  | O => []
  | S f => match ref_at t with
           | Some (x, r) => lit "%26%23" ++ x ++ lit "%3B" ++ quote_refs f safe r
           | None => match t with [] => [] | c :: r => plus_char safe c ++ quote_refs f safe r end
           end
  end.
Definition quote_query (safe t : text) : text := quote_refs (S (length t)) safe t.

(** ** Paths *)
(* os.path.normpath; the components in reverse *)
Fixpoint norm_comps (slash : bool) (l acc : list text) : list text :=
  match l with
  | [] => rev acc
  | x :: r => if text_eqb x [] || text_eqb x (lit ".") then norm_comps slash r acc
              else if negb (text_eqb x (lit "..")) || (negb slash && match acc with [] => true | _ => false end) || match acc with y :: _ => text_eqb y (lit "..") | [] => false end
                   then norm_comps slash r (x :: acc)
                   else norm_comps slash r (tl acc)
  end.
Definition normpath (p : text) : text :=
  let slashes := match p with 47 :: 47 :: 47 :: _ => [47] | 47 :: 47 :: _ => [47; 47] | 47 :: _ => [47] | _ => [] end in
  match slashes ++ join [47] (norm_comps (nonempty slashes) (split_on 47 p) []) with [] => lit "." | q => q end.
Definition starts_slash (p : text) : bool := match p with 47 :: _ => true | _ => false end.
Definition ends_slash (p : text) : bool := starts_slash (rev p).
Definition fix_backslash (p : text) : text := map (fun c => if c =? 92 then 47 else c) p.
(* os.path.dirname, os.path.join *)
Definition dirname (p : text) : text :=
  let head := rdropwhile (fun c => negb (c =? 47)) p in if forallb (N.eqb 47) head then head else rstrip 47 head.
Definition join_path (a b : text) : text := if starts_slash b then b else if negb (nonempty a) || ends_slash a then a ++ b else a ++ [47] ++ b.

(** ** Setters *)
(* 22-30 *)
Definition default_port (p : text) : option text :=
  dget [(lit "ftp:", lit "21"); (lit "file:", []); (lit "gopher:", lit "70"); (lit "http:", lit "80"); (lit "https:", lit "443"); (lit "ws:", lit "80"); (lit "wss:", lit "443")] p.
Definition port_of (p : text) : text := match default_port p with Some x => x | None => [] end.
Definition opaque (p : text) : bool := mem p [lit "about:"; lit "blob:"; lit "data:"].
Definition with_protocol u x := mkUrl x (u_username u) (u_password u) (u_hostname u) (u_host u) (u_port u) (u_pathname u) (u_params u) (u_hash u).
Definition with_username u x := mkUrl (u_protocol u) x (u_password u) (u_hostname u) (u_host u) (u_port u) (u_pathname u) (u_params u) (u_hash u).
Definition with_password u x := mkUrl (u_protocol u) (u_username u) x (u_hostname u) (u_host u) (u_port u) (u_pathname u) (u_params u) (u_hash u).
Definition with_hostname u x := mkUrl (u_protocol u) (u_username u) (u_password u) x (u_host u) (u_port u) (u_pathname u) (u_params u) (u_hash u).
Definition with_host u x := mkUrl (u_protocol u) (u_username u) (u_password u) (u_hostname u) x (u_port u) (u_pathname u) (u_params u) (u_hash u).
Definition with_port u x := mkUrl (u_protocol u) (u_username u) (u_password u) (u_hostname u) (u_host u) x (u_pathname u) (u_params u) (u_hash u).
Definition with_pathname u x := mkUrl (u_protocol u) (u_username u) (u_password u) (u_hostname u) (u_host u) (u_port u) x (u_params u) (u_hash u).
Definition with_params u x := mkUrl (u_protocol u) (u_username u) (u_password u) (u_hostname u) (u_host u) (u_port u) (u_pathname u) x (u_hash u).
Definition with_hash u x := mkUrl (u_protocol u) (u_username u) (u_password u) (u_hostname u) (u_host u) (u_port u) (u_pathname u) (u_params u) x.
(* 288-299 *)
Definition hash_safe : text := lit "!#$%&'()*+,-./:;=?@[\]^_{|}~".
Definition set_hash (w : web) (u : url) (t : text) : setting := (with_hash u (quote hash_safe (unquote w (dropwhile (N.eqb 35) t))), None).
(* 355-363, 481-489 *)
Definition set_password (w : web) (u : url) (t : text) : setting := (with_password u (quote [] (unquote w t)), None).
Definition set_username (w : web) (u : url) (t : text) : setting := (with_username u (quote [] (unquote w t)), None).
(* 377-399 *)
Definition clean_path (w : web) (t : text) : text :=
  let p := quote (lit "&/:;=@[]_~") (fix_backslash (unquote w t)) in
  let sep := (2 <=? length p)%nat && ends_slash p in
  let q := fix_backslash (normpath p) in
  if sep && negb (ends_slash q) then q ++ [47] else q.
Definition set_pathname (w : web) (u : url) (t : text) : setting :=
  match t with
  | [] => (with_pathname u [], None)
  | _ => if is_some (default_port (u_protocol u)) && is_in 92 t then (u, Some ValueError)
         else let p := if mem (u_protocol u) [lit "blob:"; lit "data:"] then t else clean_path w t in
              (with_pathname u (if negb (opaque (u_protocol u)) && negb (starts_slash p) then 47 :: p else p), None)
  end.
(* 406-419 *)
Definition set_port (u : url) (t : text) : setting :=
  match t with
  | [] => (with_host (with_port u []) (u_hostname u), None)
  | _ => if negb (forallb is_digit t) || (65535 <? digits_val t) then (u, Some ValueError)
         else (with_host (with_port u t) (if nonempty (u_hostname u) && negb (text_eqb (port_of (u_protocol u)) t) then u_hostname u ++ 58 :: t else u_hostname u), None)
  end.
(* 427-438 *)
Definition set_protocol (u : url) (t : text) : setting :=
  match t with
  | [] => (with_protocol u [], None)
  | _ => match lower (rstrip 58 t) with
         | [] => (u, Some IndexError)
         | c :: r => if negb (is_up c || is_low c) || negb (forallb (fun c => is_alnum c || is_in c (lit "+-.")) r) then (u, Some ValueError)
                     else (with_protocol u (c :: r ++ [58]), None)
         end
  end.
(* 462-475 *)
Definition plus_space (t : text) : text := map (fun c => if c =? 43 then 32 else c) t.
Definition pair_of (t : text) : text * text := match split_on 61 t with k :: v :: _ => (plus_space k, plus_space v) | [k] => (plus_space k, []) | [] => ([], []) end.
Definition set_search (u : url) (t : text) : setting :=
  (with_params u (match dropwhile (N.eqb 63) t with [] => [] | q => fold_left (fun d p => dset d (fst (pair_of p)) (snd (pair_of p))) (split_on 38 q) [] end), None).
(* 313-325, 491-535 *)
Definition before_last (c : N) (t : text) : text := rdropwhile (fun x => negb (x =? c)) t.  (* up to and with the last c *)
Definition parse_host (w : web) (u : url) (host : text) (hostname_state : bool) : setting :=
  match host with
  | [] => let v := with_host (with_hostname u []) [] in (if hostname_state then v else with_port v [], None)
  | _ => if existsb (fun c => is_in c ([9; 10; 13; 32] ++ lit "#%/?@\")) host then (u, Some ValueError)
         else match idna w (lower host) with
              | None => (u, Some ValueError)
              | Some h =>
                  let colons := count_occ N.eq_dec h 58 in
                  let name_port : option (text * option text) :=
                    if (1 <? colons)%nat then
                      match h with
                      | 91 :: _ => if is_in 93 h then Some (before_last 93 h, Some (tl (skipn (length (before_last 93 h)) h))) else None
                      | _ => Some (91 :: h ++ [93], None)
                      end
                    else if (colons =? 1)%nat then Some (removelast (before_last 58 h), Some (skipn (length (before_last 58 h)) h))
                    else Some (h, None) in
                  match name_port with
                  | None => (u, Some ValueError)
                  | Some (n, p) =>
                      let v := with_host (with_hostname u n) n in
                      match hostname_state, p with
                      | false, None => (with_port v [], None)
                      | false, Some p => set_port v p
                      | true, None => set_port v (u_port v)
                      | true, Some p => if nonempty p then set_port v p else (v, None)
                      end
                  end
              end
  end.
Definition set_host w u t := parse_host w u t false.
Definition set_hostname w u t := parse_host w u t true.

(** ** Getters.  That of the host may change the object. *)
Definition get_hash (u : url) : text := match u_hash u with [] => [] | h => 35 :: h end.
(* 302-311 *)
Definition look (u : url) : url := if nonempty (u_port u) && text_eqb (port_of (u_protocol u)) (u_port u) then with_host u (u_hostname u) else u.
Definition get_host (u : url) : text := u_host (look u).
(* 365-375 *)
Definition get_pathname (u : url) : text :=
  if negb (opaque (u_protocol u)) && negb (starts_slash (u_pathname u)) then 47 :: u_pathname u
  else if opaque (u_protocol u) && starts_slash (u_pathname u) then tl (u_pathname u) else u_pathname u.
(* sorted(keys) *)
Fixpoint str_ltb (a b : text) : bool := match a, b with _, [] => false | [], _ => true | x :: a', y :: b' => if x <? y then true else if y <? x then false else str_ltb a' b' end.
Fixpoint insert_param (p : text * text) (l : dict text) : dict text := match l with [] => [p] | q :: r => if str_ltb (fst q) (fst p) then q :: insert_param p r else p :: l end.
Definition sort_params (d : dict text) : dict text := fold_right insert_param [] d.
(* 440-460 *)
Definition query_safe : text := lit "!$%()*+,-./:;=?@[\]^_`{|}~".
Definition get_search (u : url) : text :=
  match u_params u with [] => [] | d => 63 :: join [38] (map (fun p => quote_query query_safe (fst p) ++ 61 :: quote_query query_safe (snd p)) (sort_params d)) end.
(* 555-583, with its effect on the object *)
Definition tostring (u : url) : url * text :=
  let p := u_protocol u in let host := get_host u in let path := get_pathname u in
  (look u,
   (if nonempty p then
      p ++ (if opaque p then [] else lit "//") ++
      (if nonempty host && negb (text_eqb p (lit "file:")) then
         (if nonempty (u_username u) then u_username u ++ (if nonempty (u_password u) then 58 :: u_password u else []) ++ [64] else []) ++ host
       else [])
    else []) ++ path ++ (if nonempty host || nonempty path then get_search u ++ get_hash u else [])).

(** ** urlsplit *)
Record split_url := mkSplit { sp_scheme : text; sp_netloc : text; sp_path : text; sp_query : text; sp_fragment : text }.
(* (before, after) the first c *)
Definition cut (c : N) (t : text) : option (text * text) := if is_in c t then Some (takewhile (fun x => negb (x =? c)) t, tl (dropwhile (fun x => negb (x =? c)) t)) else None.
Definition rcut (c : N) (t : text) : option (text * text) := if is_in c t then Some (removelast (before_last c t), skipn (length (before_last c t)) t) else None.
Definition cut_or (c : N) (t : text) : text * text := match cut c t with Some p => p | None => (t, []) end.
Definition urlsplit (t : text) : result split_url :=
  let t := filter (fun c => negb (is_in c [9; 10; 13])) (dropwhile (fun c => c <=? 32) t) in
  let '(scheme, t) :=
    match cut 58 t with
    | Some (c :: s, r) => if (is_up c || is_low c) && forallb (fun c => is_alnum c || is_in c (lit "+-.")) s then (lower (c :: s), r) else ([], t)
    | _ => ([], t)
    end in
  let '(netloc, t) := match t with 47 :: 47 :: r => (takewhile (fun c => negb (is_in c (lit "/?#"))) r, dropwhile (fun c => negb (is_in c (lit "/?#"))) r) | _ => ([], t) end in
  if xorb (is_in 91 netloc) (is_in 93 netloc) then Err ValueError
  else let '(t, fragment) := cut_or 35 t in let '(path, query) := cut_or 63 t in Ok (mkSplit scheme netloc path query fragment).
(* SplitResult.username, password, hostname, port *)
Definition sp_userinfo (n : text) : option text * option text :=
  match rcut 64 n with Some (ui, _) => match cut 58 ui with Some (a, b) => (Some a, Some b) | None => (Some ui, None) end | None => (None, None) end.
Definition sp_hostinfo (n : text) : text * text :=
  let h := match rcut 64 n with Some (_, h) => h | None => n end in
  match cut 91 h with Some (_, b) => let '(name, r) := cut_or 93 b in (name, snd (cut_or 58 r)) | None => cut_or 58 h end.
Definition sp_hostname (n : text) : option text := match fst (sp_hostinfo n) with [] => None | h => Some (lower (takewhile (fun c => negb (c =? 37)) h) ++ dropwhile (fun c => negb (c =? 37)) h) end.
Definition sp_port (n : text) : result (option N) :=
  match snd (sp_hostinfo n) with [] => Ok None | p => if forallb is_digit p && (digits_val p <=? 65535) then Ok (Some (digits_val p)) else Err ValueError end.
(* 537-553 *)
Definition parse_url (w : web) (u : url) (t : text) : setting :=
  match urlsplit t with
  | Err e => (u, Some e)
  | Ok s =>
      if (negb (nonempty (sp_scheme s)) && negb (nonempty (sp_netloc s))) || (mem (sp_scheme s) [lit "about"; lit "blob"; lit "data"] && negb (nonempty (sp_path s))) then (u, Some ValueError)
      else match set_protocol u (sp_scheme s) with
           | (u, Some e) => (u, Some e)
           | (u, None) =>
               let r := match sp_netloc s with
                        | [] => (with_host (with_hostname (with_port u []) []) [], None)
                        | n => match sp_port n with
                               | Err e => (u, Some e)
                               | Ok p => let u := with_port u (match p with Some p => digits p | None => [] end) in
                                         match sp_hostname n with None => (u, Some TypeError) | Some h => set_hostname w u h end
                               end
                        end in
               match r with
               | (u, Some e) => (u, Some e)
               | (u, None) =>
                   let '(name, pass) := sp_userinfo (sp_netloc s) in
                   let u := fst (set_username w u (match name with Some x => x | None => [] end)) in
                   let u := fst (set_password w u (match pass with Some x => x | None => [] end)) in
                   match set_pathname w u (sp_path s) with
                   | (u, Some e) => (u, Some e)
                   | (u, None) => let u := fst (set_search u (sp_query s)) in set_hash w u (sp_fragment s)
                   end
               end
           end
  end.

(** ** The constructor (213-272): the new object or the exception, and the base object afterwards *)
Definition blank : url := mkUrl [] [] [] [] [] [] [] [] [].
Definition base_paths (w : web) (b : url) (t : text) : setting :=
  if starts_slash t then
    match set_pathname w b t with (b, Some e) => (b, Some e) | (b, None) => let b := fst (set_search b []) in set_hash w b [] end
  else
    let parent := if text_eqb (u_protocol b) (lit "file:") && isdir w (get_pathname b) then get_pathname b else dirname (get_pathname b) in
    match urlsplit (fix_backslash (join_path parent t)) with
    | Err e => (b, Some e)
    | Ok s => match set_pathname w b (sp_path s) with (b, Some e) => (b, Some e) | (b, None) => let b := fst (set_search b (sp_query s)) in set_hash w b (sp_fragment s) end
    end.
Definition construct (w : web) (t : text) (base : option url) : result url * option url :=
  let usable := match base with Some b => if opaque (u_protocol b) then None else Some b | None => None end in
  match parse_url w blank t with
  | (u, None) => (Ok u, base)
  | (u, Some e) =>
      match usable, e with
      | Some b, ValueError =>
          match base_paths w b t with
          | (b, Some e) => (Err e, Some b)
          | (b, None) => let '(b, href) := tostring b in match parse_url w u href with (u, None) => (Ok u, Some b) | (_, Some e) => (Err e, Some b) end
          end
      | _, _ => (Err e, base)
      end
  end.
(* a base given as text is an object of its own *)
Definition construct_text (w : web) (t base : text) : result url :=
  match base with [] => fst (construct w t None) | _ => match parse_url w blank base with (b, None) => fst (construct w t (Some b)) | (_, Some e) => Err e end end.

(** ** Histories *)
Inductive comp := CProtocol | CUsername | CPassword | CHost | CHostname | CPort | CPathname | CSearch | CHash.
Definition set_comp (w : web) (c : comp) (u : url) (t : text) : setting :=
  match c with
  | CProtocol => set_protocol u t | CUsername => set_username w u t | CPassword => set_password w u t | CHost => set_host w u t | CHostname => set_hostname w u t
  | CPort => set_port u t | CPathname => set_pathname w u t | CSearch => set_search u t | CHash => set_hash w u t
  end.
Definition get_comp (c : comp) (u : url) : text :=
  match c with
  | CProtocol => u_protocol u | CUsername => u_username u | CPassword => u_password u | CHost => get_host u | CHostname => u_hostname u
  | CPort => u_port u | CPathname => get_pathname u | CSearch => get_search u | CHash => get_hash u
  end.
(* a setter, a getter of the host (also by way of href, origin or tostring), or href *)
Inductive urlop := OSet (c : comp) (t : text) | OLook | OHref (t : text).
Definition url_step (w : web) (u : url) (o : urlop) : url := match o with OSet c t => fst (set_comp w c u t) | OLook => look u | OHref t => fst (parse_url w u t) end.
Definition url_run (w : web) (u : url) (ops : list urlop) : url := fold_left (url_step w) ops u.
