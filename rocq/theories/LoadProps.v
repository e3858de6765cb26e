(** C72: data URLs, content types and what is made of them. *)
From Coq Require Import Lia Bool List.
From Verif Require Import PyBase PyText PyCase PyDict PySplit PyStrip UtilsModel UtilsSpec UtilsProofs UtilsProps UrlModel UrlSpec UrlProofs UrlProofs2 UrlProofs3 UrlProofs4 UrlProps LoadModel LoadSpec LoadProofs.
Import ListNotations.
#[local] Open Scope N_scope.

(** ** base64 *)
Theorem c72_base64 b : bytes b -> b64decode (b64encode b) = Ok b.
Proof. apply b64_roundtrip. Qed.
Print Assumptions c72_base64.
Example c72_base64_case : bytes [60; 115; 118; 103; 47; 62; 255] /\ b64encode [60; 115; 118; 103; 47; 62; 255] = lit "PHN2Zy8+/w==" /\ b64encode (lit "light w") = lit "bGlnaHQgdw==" /\ b64encode (lit "light wo") = lit "bGlnaHQgd28=".
Proof. split; [repeat constructor|vm_compute; now repeat split]. Qed.
(* what is outside the alphabet does not count *)
Theorem c72_base64_noise c s t : c < 128 -> ~ (65 <= c <= 90 \/ 97 <= c <= 122 \/ 48 <= c <= 57 \/ c = 43 \/ c = 47 \/ c = 61) -> b64decode (s ++ c :: t) = b64decode (s ++ t).
Proof.
  intros L N. apply b64_skip; [exact L| |lia]. unfold b64_val, is_up, is_low, is_digit.
  destruct (65 <=? c) eqn:A1, (c <=? 90) eqn:A2, (97 <=? c) eqn:A3, (c <=? 122) eqn:A4, (48 <=? c) eqn:A5, (c <=? 57) eqn:A6, (c =? 43) eqn:A7, (c =? 47) eqn:A8; cbn [andb]; try reflexivity;
    repeat match goal with H : (_ <=? _) = true |- _ => apply N.leb_le in H | H : (_ =? _) = true |- _ => apply N.eqb_eq in H | H : (_ <=? _) = false |- _ => apply N.leb_gt in H end; exfalso; lia.
Qed.
Print Assumptions c72_base64_noise.
Example c72_base64_noise_case : b64decode (lit "PHN2" ++ 10 :: lit "Zy8+") = Ok (lit "<svg/>") /\ b64decode (lit "PHN2Z") = Err ValueError /\ b64decode (lit "PH==N2Zy") = Ok [60].
Proof. vm_compute. now repeat split. Qed.

(** ** Content types *)
(* the type and the parameters, by name in either case, the last of a name counting; parts that are no parameters say nothing *)
Theorem c72_content_type l m ps : last_value (lit "Content-Type") l = Some (content_type m ps) -> part_text m -> Forall part_ok ps ->
  exists v, get_content_type (header_map l) = Some (m, v) /\ forall k, ci_get lower v k = match last_value k (values ps) with Some x => Ok x | None => Err KeyError end.
Proof.
  intros L M P. eexists. split; [exact (content_type_read l m ps L M P)|]. intros k. exact (header_get (values ps) k).
Qed.
Print Assumptions c72_content_type.
Theorem c72_no_content_type l : last_value (lit "Content-Type") l = None -> get_content_type (header_map l) = None /\ charset_of (header_map l) = lit "utf-8".
Proof. intros L. unfold charset_of. rewrite content_type_none by exact L. now split. Qed.
Print Assumptions c72_no_content_type.
(* the encoding used: the charset of the content type, or UTF-8; for style sheets the advice of the link comes before *)
Theorem c72_charset l m ps : last_value (lit "Content-Type") l = Some (content_type m ps) -> part_text m -> Forall part_ok ps ->
  charset_of (header_map l) = (match last_value (lit "charset") (values ps) with Some c => c | None => lit "utf-8" end) /\
  css_encoding None (header_map l) = charset_of (header_map l) /\ forall e, css_encoding (Some e) (header_map l) = e.
Proof.
  intros L M P. destruct (c72_content_type l m ps L M P) as (v & E & G). unfold css_encoding, charset_of. rewrite E, G. split; [|split; [|intros e]]; try reflexivity; destruct (last_value (lit "charset") (values ps)); reflexivity.
Qed.
Print Assumptions c72_charset.
Definition html_parts := [POther (lit "x"); PVal (lit "Charset") (lit "Shift_JIS"); PVal (lit "q") []; POther (lit "a=b=c")].
Example c72_charset_case : let l := [(lit "Content-Length", lit "3"); (lit "content-type", content_type (lit "text/html") html_parts)] in
  last_value (lit "Content-Type") l = Some (lit "text/html;x;Charset=Shift_JIS;q=;a=b=c") /\ part_text (lit "text/html") /\ Forall part_ok html_parts /\
  charset_of (header_map l) = lit "Shift_JIS".
Proof.
  split; [vm_compute; reflexivity|]. split; [split; [vm_compute; reflexivity|cbn; intuition discriminate]|]. split; [|vm_compute; reflexivity].
  repeat constructor; cbn; try (vm_compute; reflexivity); try (intuition discriminate).
Qed.
(* a charset in quotes keeps them, and spaces around the equals sign belong to the name *)
Theorem c72_quotes_refuted : exists l1 l2, last_value (lit "Content-Type") l1 = Some (lit "text/css;charset=""utf-16""") /\ charset_of (header_map l1) = lit """utf-16""" /\
  last_value (lit "Content-Type") l2 = Some (lit "text/css;charset =utf-16") /\ charset_of (header_map l2) = lit "utf-8".
Proof. exists [(lit "Content-Type", lit "text/css;charset=""utf-16""")], [(lit "Content-Type", lit "text/css;charset =utf-16")]. vm_compute. now repeat split. Qed.
Print Assumptions c72_quotes_refuted.

(** ** Data URLs *)
Definition data_url_of (ps : list text) (d : text) : text := lit "data:" ++ join (lit ";") ps ++ lit "," ++ d.
Definition mime_parts (ps : list text) : Prop := ps <> [] /\ Forall part_text ps /\ (forall t, In t ps -> url_text t /\ ~ In 44 t) /\ starts_slash (join (lit ";") ps) = false /\ join (lit ";") ps <> [].
Lemma mime_text ps d : mime_parts ps -> url_text d -> let p := join (lit ";") ps ++ lit "," ++ d in url_text p /\ p <> [] /\ starts_slash p = false /\ ~ In 44 (join (lit ";") ps) /\ strip (join (lit ";") ps) = join (lit ";") ps.
Proof.
  intros (NE & F & U & SL & JN) D p. split; [|split; [|split; [|split]]].
  - intros c I. subst p. apply in_app_or in I as [I | I]; [|change (lit "," ++ d) with (44 :: d) in I; destruct I as [<- | I]; [cbn; intuition discriminate|now apply D]].
    destruct (join_in ps c I) as [-> | (t & T & J)]; [cbn; intuition discriminate|]. now apply (proj1 (U t T)).
  - subst p. destruct (join _ ps); discriminate.
  - subst p. destruct (join (lit ";") ps) as [|c r]; [reflexivity|exact SL].
  - intros I. destruct (join_in ps 44 I) as [E | (t & T & J)]; [discriminate|]. now apply (proj2 (U t T)).
  - apply stripped_join. eapply Forall_impl; [|exact F]. now intros t [S _].
Qed.
(* bytes in base64: their type and themselves come back *)
Theorem c72_data_bytes w n ps1 ps2 b : decodes w -> bytes b -> mime_parts (ps1 ++ lit "base64" :: ps2) -> ~ In (lit "base64") ps1 ->
  load w n (data_url_of (ps1 ++ lit "base64" :: ps2) (b64encode b)) = Ok (BBytes b, header_map [(lit "Content-Type", join (lit ";") (ps1 ++ ps2))]).
Proof.
  intros D B M N. set (d := b64encode b). assert (R := b64encode_range b B). fold d in R.
  assert (UD : url_text d). { intros c I J. specialize (R c I). cbn in J. destruct J as [<- | [<- | [<- | [<- | [<- | []]]]]]; lia. }
  destruct (mime_text _ d M UD) as (U & NE & SL & N44 & ST). unfold data_url_of. rewrite load_data_url by assumption. unfold load_data. rewrite data_cut by exact N44.
  rewrite ST. destruct M as (M1 & M2 & _ & _ & M5). destruct (join (lit ";") (ps1 ++ lit "base64" :: ps2)) as [|c0 r0] eqn:J; [congruence|]. rewrite <- J. cbv zeta.
  rewrite split_parts by assumption.
  replace (mem (lit "base64") (ps1 ++ lit "base64" :: ps2)) with true by (symmetry; apply mem_in, in_or_app; right; now left).
  assert (SP : strip d = d). { apply strip_id; apply head_all; intros c I; try rewrite <- in_rev in I; specialize (R c I); unfold is_space; repeat rewrite orb_false_iff; rewrite !andb_false_iff, !N.leb_gt, !N.eqb_neq; lia. }
  rewrite SP, unquote_plain; [|exact D| |].
  - subst d. rewrite b64_roundtrip by exact B. cbn [bind]. rewrite remove_first_app by exact N. reflexivity.
  - apply Forall_forall. intros c I. specialize (R c I). lia.
  - intros I. specialize (R 37 I). lia.
Qed.
Print Assumptions c72_data_bytes.
Example c72_data_bytes_case : decodes plain_web /\ mime_parts ([lit "image/svg+xml"] ++ lit "base64" :: []) /\
  data_url_of ([lit "image/svg+xml"] ++ lit "base64" :: []) (b64encode (lit "<svg/>")) = lit "data:image/svg+xml;base64,PHN2Zy8+".
Proof.
  split; [exact plain_web_decodes|]. split; [|vm_compute; reflexivity]. split; [discriminate|]. split; [repeat constructor; cbn; intuition discriminate|].
  split; [|split; [reflexivity|discriminate]]. intros t [<- | [<- | []]]; (split; [apply url_text_ok; vm_compute; reflexivity|cbn; intuition discriminate]).
Qed.
(* any text, percent-encoded: the text comes back *)
Theorem c72_data_text w n ps t : decodes w -> unicode t -> mime_parts ps -> ~ In (lit "base64") ps ->
  load w n (data_url_of ps (quote [] t)) = Ok (BStr t, header_map [(lit "Content-Type", join (lit ";") ps)]).
Proof.
  intros D UT M N. set (d := quote [] t). assert (AV : avoids [9; 10; 13; 35; 63] d = true) by (apply quote_avoids; reflexivity). assert (UD : url_text d) by now apply url_text_ok.
  destruct (mime_text _ d M UD) as (U & NE & SL & N44 & ST). unfold data_url_of. rewrite load_data_url by assumption. unfold load_data. rewrite data_cut by exact N44.
  rewrite ST. destruct M as (M1 & M2 & _ & _ & M5). destruct (join (lit ";") ps) as [|c0 r0] eqn:J; [congruence|]. rewrite <- J. cbv zeta.
  rewrite split_parts by assumption. apply mem_not_in in N. rewrite N.
  assert (Q := quote_qchar [] t). fold d in Q. rewrite forallb_forall in Q.
  assert (SP : strip d = d). { apply strip_id; apply head_all; intros c I; try rewrite <- in_rev in I; specialize (Q c I); now apply qchar_space. }
  rewrite SP. subst d. destruct D as [D _]. rewrite D by (auto; intros []). reflexivity.
Qed.
Print Assumptions c72_data_text.
(* any data without base64: decoded, as text; without a type, that of the standard *)
Theorem c72_data_raw w n ps d : mime_parts ps -> ~ In (lit "base64") ps -> url_text d ->
  load w n (data_url_of ps d) = Ok (BStr (unquote w (strip d)), header_map [(lit "Content-Type", join (lit ";") ps)]).
Proof.
  intros M N UD.
  destruct (mime_text _ d M UD) as (U & NE & SL & N44 & ST). unfold data_url_of. rewrite load_data_url by assumption. unfold load_data. rewrite data_cut by exact N44.
  rewrite ST. destruct M as (M1 & M2 & _ & _ & M5). destruct (join (lit ";") ps) as [|c0 r0] eqn:J; [congruence|]. rewrite <- J. cbv zeta.
  rewrite split_parts by assumption. apply mem_not_in in N. now rewrite N.
Qed.
Print Assumptions c72_data_raw.
Theorem c72_data_default w n s d : forallb is_space s = true -> url_text (s ++ lit "," ++ d) ->
  load w n (lit "data:" ++ s ++ lit "," ++ d) = Ok (BStr (unquote w (strip d)), header_map [(lit "Content-Type", lit "text/plain;charset=US-ASCII")]).
Proof.
  intros S U. assert (NE : s ++ lit "," ++ d <> []) by (destruct s; discriminate).
  assert (SL : starts_slash (s ++ lit "," ++ d) = false).
  { destruct s as [|c s]; [reflexivity|]. cbn in S. apply andb_true_iff in S as [S _]. cbn [app starts_slash]. destruct (N.eq_dec c 47) as [-> | X]; [discriminate|]. destruct c as [|q]; [reflexivity|]. do 6 (destruct q as [q|q|]; try reflexivity). contradiction. }
  rewrite load_data_url by assumption. unfold load_data. rewrite data_cut.
  - apply strip_nil_iff in S. rewrite S. reflexivity.
  - intros I. rewrite forallb_forall in S. specialize (S _ I). discriminate S.
Qed.
Print Assumptions c72_data_default.
Example c72_data_case : load plain_web (mkWire (fun _ => Err OtherError) (fun _ _ => Err OtherError)) (lit "data:,Hello%2C%20World!") = Ok (BStr (lit "Hello, World!"), header_map [(lit "Content-Type", lit "text/plain;charset=US-ASCII")]) /\
  load plain_web (mkWire (fun _ => Err OtherError) (fun _ _ => Err OtherError)) (lit "data:text/css; charset = utf-8 , a {}  ") = Ok (BStr (lit "a {}"), header_map [(lit "Content-Type", lit "text/css;charset = utf-8")]).
Proof. vm_compute. now split. Qed.
Theorem c72_data_no_comma w n t : url_text t -> t <> [] -> starts_slash t = false -> ~ In 44 t -> load w n (lit "data:" ++ t) = Ok (BNone, ci_empty).
Proof. intros U NE SL N. rewrite load_data_url by assumption. unfold load_data. rewrite cut_none; [reflexivity|]. apply avoids_in. intros c I [<- | []]. contradiction. Qed.
Print Assumptions c72_data_no_comma.
Example c72_data_no_comma_case : url_text (lit "text/plain;a") /\ ~ In 44 (lit "text/plain;a").
Proof. split; [apply url_text_ok; vm_compute; reflexivity|cbn; intuition discriminate]. Qed.

(** ** Pages *)
(* a page from the network is decoded by the charset of its content type, or as UTF-8 *)
Theorem c72_page {A} (xml : text -> result A) w n src u b hs : parse_url w blank src = (u, None) -> u_protocol u <> lit "data:" -> urlopen n (snd (tostring u)) = Ok (b, hs) ->
  parse_page xml w n src = (do t <- decoder n (charset_of (header_map hs)) b; xml t).
Proof.
  intros P D O. unfold parse_page, load, construct. rewrite P. cbn [fst bind]. destruct (text_eqb_spec (u_protocol u) (lit "data:")); [contradiction|]. rewrite O. cbn [bind].
  change (@ci_empty text) with (ci_run lower (@nil (ci_op text))). rewrite fold_run. reflexivity.
Qed.
Print Assumptions c72_page.
(* as is one in a data URL in base64, *)
Theorem c72_page_data {A} (xml : text -> result A) w n m ps b : decodes w -> bytes b -> mime_parts (m :: map part_of ps ++ [lit "base64"]) -> ~ In (lit "base64") (m :: map part_of ps) -> part_text m -> Forall part_ok ps ->
  parse_page xml w n (data_url_of (m :: map part_of ps ++ [lit "base64"]) (b64encode b)) = (do t <- decoder n (match last_value (lit "charset") (values ps) with Some c => c | None => lit "utf-8" end) b; xml t).
Proof.
  intros D B M N PM PO. unfold parse_page. change (m :: map part_of ps ++ [lit "base64"]) with ((m :: map part_of ps) ++ [lit "base64"]). rewrite (c72_data_bytes w n (m :: map part_of ps) [] b D B M N). cbn [bind]. rewrite app_nil_r.
  destruct (c72_charset [(lit "Content-Type", join (lit ";") (m :: map part_of ps))] m ps eq_refl PM PO) as [C _]. now rewrite C.
Qed.
Print Assumptions c72_page_data.
Example c72_page_data_case : let n := mkWire (fun _ => Err OtherError) (fun c b => if text_eqb c (lit "latin1") then Ok b else Err OtherError) in
  parse_page Ok plain_web n (data_url_of (lit "image/svg+xml" :: map part_of [PVal (lit "CHARSET") (lit "latin1")] ++ [lit "base64"]) (b64encode (lit "<svg/>"))) = Ok (lit "<svg/>").
Proof. vm_compute. reflexivity. Qed.
(* but none without base64 can be parsed: its text has no bytes to decode *)
Theorem c72_page_text_refuted {A} (xml : text -> result A) w n ps d : mime_parts ps -> ~ In (lit "base64") ps -> url_text d -> parse_page xml w n (data_url_of ps d) = Err AttributeError.
Proof. intros M N U. unfold parse_page. now rewrite c72_data_raw. Qed.
Print Assumptions c72_page_text_refuted.
Example c72_page_text_case : parse_page Ok plain_web (mkWire (fun _ => Err OtherError) (fun _ b => Ok b)) (lit "data:image/svg+xml,<svg/>") = Err AttributeError.
Proof. vm_compute. reflexivity. Qed.
(* a question mark ends the data; base64 in capitals is not seen *)
Theorem c72_data_refuted : exists w n, load w n (lit "data:text/plain,really?yes") = Ok (BStr (lit "really"), header_map [(lit "Content-Type", lit "text/plain")]) /\
  load w n (lit "data:text/plain;BASE64,YQ==") = Ok (BStr (lit "YQ=="), header_map [(lit "Content-Type", lit "text/plain;BASE64")]).
Proof. exists plain_web, (mkWire (fun _ => Err OtherError) (fun _ _ => Err OtherError)). vm_compute. now split. Qed.
Print Assumptions c72_data_refuted.
