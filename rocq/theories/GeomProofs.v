(** Lemmas on computed geometry. *)
From Verif Require Import PyBase PyText PySplit PyStrip PyDict PyCase NumScan FormatModel FormatSpec FormatProofs NumScanProofs CascadeModel LengthModel LengthSpec LengthProofs
  ViewModel ViewProofs PathModel ShapeModel GeomModel GeomSpec.
#[local] Open Scope Q_scope.

(** * Reading a length *)
Lemma takewhile_all f (t : text) : forallb f (takewhile f t) = true.
Proof. induction t as [|c t IH]; [reflexivity|]. cbn. destruct (f c) eqn:E; [|reflexivity]. cbn. now rewrite E. Qed.
Lemma take_drop f (t : text) : t = takewhile f t ++ dropwhile f t.
Proof. induction t as [|c t IH]; [reflexivity|]. cbn. destruct (f c); [|reflexivity]. cbn. now f_equal. Qed.
Lemma unsigned_shape t q : unsigned_value t = Some q -> exists i f, t = shape [] i f /\ i <> [] /\ forallb is_digit i = true /\ forallb is_digit f = true /\ q = dec_value i f.
Proof.
  unfold unsigned_value. assert (A := takewhile_all is_digit t). assert (T := take_drop is_digit t).
  destruct (takewhile is_digit t) as [|c i]; [discriminate|]. destruct (dropwhile is_digit t) as [|d f].
  - intros [= <-]. exists (c :: i), []. unfold shape. cbn [app]. repeat split; auto. discriminate.
  - destruct (N.eqb_spec d 46) as [-> |D].
    + destruct f as [|e f]; [discriminate|]. destruct (forallb is_digit (e :: f)) eqn:F; [|discriminate]. intros [= <-].
      exists (c :: i), (e :: f). unfold shape. cbn [app] in *. repeat split; auto. discriminate.
    + intros E. exfalso. assert (X : match d with 46%N => true | _ => false end = false).
      { destruct d as [|p]; [reflexivity|]. repeat (destruct p as [p|p|]; try reflexivity). congruence. }
      destruct d as [|p]; [discriminate E|]. repeat (destruct p as [p|p|]; try discriminate E). discriminate X.
Qed.
Lemma numeral_shape t q : numeral t = Some q -> exists (neg : bool) i f, t = shape (if neg then [45%N] else []) i f /\ i <> [] /\ forallb is_digit i = true /\ forallb is_digit f = true /\
  q == (if neg then - dec_value i f else dec_value i f).
Proof.
  intros H. assert (C : (exists t', t = 45%N :: t' /\ match unsigned_value t' with Some q => Some (- q) | None => None end = Some q) \/ unsigned_value t = Some q).
  { destruct t as [|c t]; [right; exact H|]. unfold numeral in H. destruct c as [|p]; [now right|]. repeat (destruct p as [p|p|]; try (right; exact H)). left. eauto. }
  destruct C as [(t' & -> & E)|E].
  - destruct (unsigned_value t') as [v|] eqn:V; [|discriminate]. injection E as <-. apply unsigned_shape in V. destruct V as (i & f & -> & A & B & C & ->).
    exists true, i, f. repeat split; auto.
  - apply unsigned_shape in E. destruct E as (i & f & -> & A & B & C & ->). exists false, i, f. repeat split; auto.
Qed.
Lemma numeral_scan t q r : numeral t = Some q -> finished r -> exists v, scan_number (t ++ r) = Some (v, r) /\ v == q.
Proof.
  intros H F. apply numeral_shape in H. destruct H as (neg & i & f & -> & A & B & C & Q). eexists. split; [now apply scan_shape_finished|].
  rewrite decimal_value. symmetry. exact Q.
Qed.
Lemma digit_clean t : forallb is_digit t = true -> forallb plain t = true.
Proof.
  rewrite !forallb_forall. intros H c I. apply H in I. unfold plain. rewrite (digit_not_space c I). cbn.
  destruct (N.eqb_spec c 44) as [-> |]; [discriminate I|reflexivity].
Qed.
Lemma numeral_plain t q : numeral t = Some q -> forallb plain t = true /\ t <> [].
Proof.
  intros H. apply numeral_shape in H. destruct H as (neg & i & f & -> & A & B & C & _). unfold shape. split.
  - rewrite !forallb_app, (digit_clean i B). apply digit_clean in C. destruct neg; (destruct f as [|c f]; [reflexivity|]); exact C.
  - destruct neg; destruct i; try congruence; discriminate.
Qed.

(** * Lengths *)
Lemma strip_inside a w b : spaces a -> spaces b -> forallb (fun c => negb (is_space c)) w = true -> w <> [] -> strip (a ++ w ++ b) = w.
Proof.
  intros A B W N. apply strip_around; auto.
  - destruct w as [|c w]; [reflexivity|]. cbn in *. apply andb_prop in W. tauto.
  - rewrite forallb_forall in W. destruct (rev w) as [|c r] eqn:E; [reflexivity|]. cbn. apply W. apply in_rev. rewrite E. now left.
Qed.
Lemma unit_finished u : match u with Some v => In v supported | None => True end ->
  let t := match u with Some v => v | None => [] end in
  finished t /\ scan_unit t = u /\ forallb plain t = true /\ forall n, LengthModel.normalize n u = Ok (n, u).
Proof.
  destruct u as [v|]; intros I; cbn zeta; [|now repeat split].
  destruct (supported_facts v I) as (A & B & C & D). repeat split; try apply A; auto.
  - revert v I A B C D. intros v I _ _ _ _. revert v I. apply Forall_forall. repeat (constructor; [reflexivity|]). constructor.
  - intros n. unfold LengthModel.normalize. rewrite C. apply mem_in in I. now rewrite I.
Qed.
Lemma word_plain c d t q : word c d t q -> forallb plain t = true /\ t <> [].
Proof.
  intros (w & u & n & s & -> & N & U & _). destruct (numeral_plain w n N) as [P Z]. destruct (unit_finished u U) as (_ & _ & C & _). split.
  - now rewrite forallb_app, P.
  - destruct w; [congruence|discriminate].
Qed.
Lemma stands_parse c d t q : stands c d t q -> exists n u s, parse t = Ok (n, u) /\ sized c (Some d) u Length s /\ q == n * s.
Proof.
  intros (a & w & b & -> & A & B & W). destruct (word_plain c d w q W) as [P Z]. unfold parse.
  rewrite strip_inside by (auto; now apply plain_not_space). destruct W as (t & u & n & s & -> & N & U & S & Q).
  destruct (unit_finished u U) as (F & G & _ & M). destruct (numeral_scan t n _ N F) as (v & E & V). 
  exists v, u, s. split; [|split; [exact S|now rewrite V]]. unfold text in *. rewrite E. transitivity (LengthModel.normalize v u); [|apply M]. f_equal. exact G.
Qed.
Lemma glen_stands n d t q : stands (g_ctx n) d t q -> exists v, glen n d t = Ok v /\ v == q.
Proof.
  intros H. destruct (stands_parse _ _ _ _ H) as (m & u & s & P & S & Q). unfold glen. rewrite P. cbn [bind fst snd].
  set (x := mkL m u (g_ctx n) (g_ctx n) (Some d)). destruct (value_spec x None Length s 1) as (v & E & V); auto.
  - apply s_none.
  - discriminate.
  - intros t' m' p. discriminate.
  - exists v. split; [exact E|]. change (v * 1 == m * s) in V. rewrite Q, <- V. ring.
Qed.
Lemma coordinate_gives n key d q : gives n key d q -> exists v, coordinate n key d = Ok v /\ v == q.
Proof.
  unfold gives, coordinate, gattr. destruct (dget (g_attr n) key) as [t|]; [apply glen_stands|]. intros E. apply glen_stands.
  exists [], (lit "0"), []. repeat split. exists (lit "0"), None, 0, 1. repeat split; [apply s_none|]. now rewrite E.
Qed.
(* only ValueError *)
Lemma parse_unit t n u : parse t = Ok (n, u) -> match u with Some v => In v supported | None => True end.
Proof.
  unfold parse. destruct (scan_number (strip t)) as [(m & r)|]; [|discriminate]. unfold LengthModel.normalize. destruct (scan_unit r) as [w|]; [|now intros [= _ <-]].
  destruct (mem (lower w) supported) eqn:M; [|discriminate]. intros [= _ <-]. now apply mem_in.
Qed.
Lemma parse_error t e : parse t = Err e -> e = ValueError.
Proof.
  unfold parse. destruct (scan_number (strip t)) as [(m & r)|]; [|now intros [= <-]]. unfold LengthModel.normalize. destruct (scan_unit r) as [w|]; [|discriminate].
  destruct (mem (lower w) supported); [discriminate|now intros [= <-]].
Qed.
Lemma glen_error n d t e : glen n d t = Err e -> e = ValueError.
Proof.
  unfold glen. destruct (parse t) as [(m & u)|e'] eqn:P; cbn [bind fst snd]; [|intros [= <-]; now apply parse_error in P].
  apply parse_unit in P. unfold value. cbn [lunit ldir ctx num]. destruct (unit_eqb None u); [discriminate|].
  destruct (negb (Bool.eqb (uin u resolution_units) (uin None resolution_units))); [now intros [= <-]|].
  destruct u as [v|]; [|discriminate].
  assert (T : exists q, to_pixels (g_ctx n) (Some d) m (Some v) = Ok q).
  { cbn in P. repeat (destruct P as [<- |P]; [eexists; reflexivity|]). contradiction. }
  destruct T as (q & ->). cbn. discriminate.
Qed.
Lemma coordinate_error n key d e : coordinate n key d = Err e -> e = ValueError.
Proof. apply glen_error. Qed.
Lemma dropwhile_spaces a c r : spaces a -> is_space c = false -> dropwhile is_space (a ++ c :: r) = c :: r.
Proof. intros A C. apply dropwhile_all; [exact A|]. cbn. now rewrite C. Qed.
Lemma glen_wordy n d t : wordy t -> glen n d t = Err ValueError.
Proof.
  intros (a & c & r & -> & A & C & D & I). unfold glen, parse.
  assert (E : exists r', strip (a ++ c :: r) = c :: r').
  { unfold strip. rewrite dropwhile_spaces by auto. clear - C. assert (G : forall s, exists r', rdropwhile is_space (c :: s) = c :: r').
    { intros s. unfold rdropwhile. cbn [rev]. induction (rev s) as [|x l IH]; cbn [app dropwhile].
      - rewrite C. cbn. eauto.
      - destruct (is_space x); [exact IH|]. cbn [rev]. rewrite rev_app_distr. cbn. eauto. }
    apply G. }
  destruct E as (r' & ->). unfold scan_number. cbn [scan_sign].
  destruct (N.eqb_spec c 43); [exfalso; apply I; cbn; auto|]. destruct (N.eqb_spec c 45); [exfalso; apply I; cbn; auto|].
  cbn [takewhile dropwhile]. rewrite D. cbn [scan_dot]. destruct (N.eqb_spec c 46); [exfalso; apply I; cbn; auto|]. reflexivity.
Qed.

(** * Widths and heights *)
Lemma get_value_shift l key dflt : forall k, get_value_at k l key dflt =
  match get_value_at 0 l key dflt with
  | Ok (Some v, i) => Ok (Some v, (k + i)%nat)
  | r => r
  end.
Proof.
  induction l as [|(name & attr) l IH]; intros k; [reflexivity|]. cbn [get_value_at].
  destruct (match dget attr key with Some v => Some v | None => dflt end) as [v|].
  - destruct (text_eqb v (lit "auto") && mem key [lit "width"; lit "height"]).
    + destruct (text_eqb name svg); [now rewrite Nat.add_0_r|]. destruct (text_eqb name (lit "image")); [reflexivity|]. now rewrite Nat.add_0_r.
    + destruct (text_eqb v (lit "inherit")); [|now rewrite Nat.add_0_r]. rewrite (IH (S k)), (IH 1%nat).
      destruct (get_value_at 0 l key dflt) as [(o & i)|e]; [|reflexivity]. destruct o; [|reflexivity]. do 2 f_equal. lia.
  - rewrite (IH (S k)), (IH 1%nat). destruct (get_value_at 0 l key dflt) as [(o & i)|e]; [|reflexivity]. destruct o; [|reflexivity]. do 2 f_equal. lia.
Qed.
(* [extent] along a list *)
Definition extent_at (dn : gnode) (l : list gnode) (key : text) (d : direction) : result Q :=
  do (v, i) <- get_value (map (fun e => (g_name e, g_attr e)) l) key (Some (lit "auto"));
  match v with None => Ok 0 | Some t => glen (nth i l dn) d t end.
Lemma extent_step dn n l key d : mem key [lit "width"; lit "height"] = true ->
  extent_at dn (n :: l) key d =
  match dget (g_attr n) key with
  | None => if text_eqb (g_name n) (lit "svg") then glen n d (lit "100%")
            else if text_eqb (g_name n) (lit "image") then Err NotImplementedError_ else glen n d (lit "0")
  | Some t => if text_eqb t (lit "auto") then
                if text_eqb (g_name n) (lit "svg") then glen n d (lit "100%")
                else if text_eqb (g_name n) (lit "image") then Err NotImplementedError_ else glen n d (lit "0")
              else if text_eqb t (lit "inherit") then extent_at dn l key d else glen n d t
  end.
Proof.
  intros K. unfold extent_at, get_value. cbn [map get_value_at]. rewrite K. change svg with (lit "svg"). destruct (dget (g_attr n) key) as [t|].
  - destruct (text_eqb t (lit "auto")); cbn [andb].
    + destruct (text_eqb (g_name n) (lit "svg")); [reflexivity|]. now destruct (text_eqb (g_name n) (lit "image")).
    + destruct (text_eqb t (lit "inherit")); [|reflexivity]. rewrite get_value_shift.
      destruct (get_value_at 0 _ key _) as [(o & i)|e]; [|reflexivity]. now destruct o.
  - change (text_eqb (lit "auto") (lit "auto")) with true. cbn [andb].
    destruct (text_eqb (g_name n) (lit "svg")); [reflexivity|]. now destruct (text_eqb (g_name n) (lit "image")).
Qed.
Lemma stands_zero c d q : q == 0 -> stands c d (lit "0") q.
Proof. intros E. exists [], (lit "0"), []. repeat split. exists (lit "0"), None, 0, 1. repeat split; [apply s_none|]. now rewrite E. Qed.
Lemma stands_wordy c d t q : stands c d t q -> wordy t -> False.
Proof. intros S W. destruct (glen_stands (mkG [] [] c (Err OtherError)) d t q S) as (v & E & _). now rewrite glen_wordy in E. Qed.
Lemma wordy_lit t c r : t = c :: r -> is_space c = false -> is_digit c = false -> ~ In c [43; 45; 46]%N -> wordy t.
Proof. intros -> A B C. exists [], c, r. repeat split; auto. Qed.
Lemma wordy_auto : wordy (lit "auto").
Proof. eapply wordy_lit; [reflexivity| | |]; try reflexivity. cbn. intuition discriminate. Qed.
Lemma wordy_inherit : wordy (lit "inherit").
Proof. eapply wordy_lit; [reflexivity| | |]; try reflexivity. cbn. intuition discriminate. Qed.
Lemma spans_extent dn l key d q : mem key [lit "width"; lit "height"] = true -> spans key d l q -> exists v, extent_at dn l key d = Ok v /\ v == q.
Proof.
  intros K. induction 1 as [q E|n l q A N1 N2 E|n l q A N S|n l q A _ IH|n l t q A S].
  - exists 0. split; [reflexivity|]. now rewrite E.
  - rewrite extent_step by exact K. assert (B : match dget (g_attr n) key with Some t => t = lit "auto" | None => True end) by (destruct A as [-> | ->]; auto).
    destruct (text_eqb_spec (g_name n) (lit "svg")); [contradiction|]. destruct (text_eqb_spec (g_name n) (lit "image")); [contradiction|].
    destruct (glen_stands n d (lit "0") q (stands_zero _ _ _ E)) as (v & G & V). exists v. split; [|exact V]. rewrite G.
    destruct (dget (g_attr n) key) as [t|]; [|reflexivity]. now rewrite B.
  - rewrite extent_step by exact K. assert (B : match dget (g_attr n) key with Some t => t = lit "auto" | None => True end) by (destruct A as [-> | ->]; auto).
    destruct (text_eqb_spec (g_name n) (lit "svg")); [|contradiction].
    destruct (glen_stands n d (lit "100%") q S) as (v & G & V). exists v. split; [|exact V]. rewrite G.
    destruct (dget (g_attr n) key) as [t|]; [|reflexivity]. now rewrite B.
  - rewrite extent_step by exact K. rewrite A. exact IH.
  - rewrite extent_step by exact K. rewrite A. destruct (text_eqb_spec t (lit "auto")) as [-> |]; [exfalso; eapply stands_wordy; [exact S|apply wordy_auto]|].
    destruct (text_eqb_spec t (lit "inherit")) as [-> |]; [exfalso; eapply stands_wordy; [exact S|apply wordy_inherit]|]. now apply glen_stands.
Qed.
Lemma extent_is n l key d : extent n l key d = extent_at n (n :: l) key d.
Proof. reflexivity. Qed.
Lemma extent_error dn l key d e : mem key [lit "width"; lit "height"] = true -> extent_at dn l key d = Err e ->
  e = ValueError \/ e = NotImplementedError_ /\ exists n, In n l /\ g_name n = lit "image".
Proof.
  intros K. induction l as [|n l IH]; [discriminate|]. rewrite extent_step by exact K.
  assert (A : (if text_eqb (g_name n) (lit "svg") then glen n d (lit "100%") else if text_eqb (g_name n) (lit "image") then Err NotImplementedError_ else glen n d (lit "0")) = Err e ->
    e = ValueError \/ e = NotImplementedError_ /\ exists m, In m (n :: l) /\ g_name m = lit "image").
  { destruct (text_eqb (g_name n) (lit "svg")); [left; now apply glen_error in H|].
    destruct (text_eqb_spec (g_name n) (lit "image")) as [E|]; [|left; now apply glen_error in H]. intros [= <-]. right. split; [reflexivity|]. exists n. split; [now left|exact E]. }
  destruct (dget (g_attr n) key) as [t|]; [|exact A]. destruct (text_eqb t (lit "auto")); [exact A|]. destruct (text_eqb t (lit "inherit")); [|left; now apply glen_error in H].
  intros E. destruct (IH E) as [X|(X & m & I & M)]; [now left|]. right. split; [exact X|]. exists m. split; [now right|exact M].
Qed.

(** * Lists of lengths *)
Lemma seq_split_more n : forall w t, (length t <= n)%nat -> seq_split n w t = seq_split (length t) w t.
Proof.
  assert (G : forall n t w, (length t <= n)%nat -> forall m, (length t <= m)%nat -> seq_split n w t = seq_split m w t).
  { clear n. induction n as [|n IH]; intros [|c t] w L m M; try (destruct m; reflexivity); [cbn in L; lia|].
    destruct m as [|m]; [cbn in M; lia|]. cbn in L, M. cbn [seq_split]. destruct (plain c) eqn:P.
    - rewrite (seq_sep_plain c t P). apply IH; lia.
    - destruct (seq_sep_some c t P) as (r & -> & Lr). f_equal. apply IH; lia. }
  intros w t L. apply G; lia.
Qed.
Lemma split_cons u s r : forallb plain u = true -> gap s -> forallb plain (takewhile plain r) = true -> takewhile plain r <> [] ->
  split_sequence (u ++ s ++ r) = u :: split_sequence r.
Proof.
  intros U S P N. unfold split_sequence. rewrite app_length, (seq_split_word u U). cbn [app].
  destruct (seq_sep_sep s (takewhile plain r) (dropwhile plain r) S N P) as (E & NS). rewrite <- take_drop in E.
  destruct s as [|c s]; [congruence|]. cbn [app length seq_split]. cbn [app] in E. rewrite E. f_equal. apply seq_split_more. rewrite app_length. lia.
Qed.
Lemma takewhile_prefix f u (r : text) : forallb f u = true -> u <> [] -> takewhile f (u ++ r) <> [].
Proof. destruct u as [|c u]; [congruence|]. cbn. intros H _. apply andb_prop in H. destruct H as [-> _]. discriminate. Qed.
Lemma row_map (w : text -> Q -> Prop) f : (forall t q, w t q -> forallb plain t = true /\ t <> [] /\ exists v, f t = Ok v /\ v == q) ->
  forall t l, row w t l -> exists vs, map_result f (split_sequence t) = Ok vs /\ Forall2 Qeq vs l.
Proof.
  intros W t l H. assert (G : takewhile plain t <> [] /\ exists vs, map_result f (split_sequence t) = Ok vs /\ Forall2 Qeq vs l); [|apply G].
  induction H as [t q H|t q s r l H S R (IH1 & vs & IH2 & IH3)].
  - destruct (W t q H) as (P & N & v & E & V). split; [rewrite <- (app_nil_r t); now apply takewhile_prefix|]. rewrite split_one by exact P. cbn [map_result]. rewrite E. cbn. eauto.
  - destruct (W t q H) as (P & N & v & E & V). split; [now apply takewhile_prefix|]. rewrite split_cons by (auto; apply takewhile_all).
    cbn [map_result]. rewrite E. cbn [bind]. rewrite IH2. cbn. eauto.
Qed.
Lemma word_glen n d t q : word (g_ctx n) d t q -> forallb plain t = true /\ t <> [] /\ exists v, glen n d t = Ok v /\ v == q.
Proof.
  intros W. destruct (word_plain _ _ _ _ W) as [P N]. split; [exact P|]. split; [exact N|]. apply glen_stands. exists [], t, []. rewrite app_nil_r. repeat split. exact W.
Qed.
Lemma number_float t q : number t q -> forallb plain t = true /\ t <> [] /\ exists v, py_float t = Ok v /\ v == q.
Proof.
  intros (v & N & E). destruct (numeral_plain t v N) as [P Z]. split; [exact P|]. split; [exact Z|]. unfold py_float.
  rewrite clean_strip by now apply plain_not_space. destruct (numeral_scan t v [] N) as (x & S & X); [repeat split|]. rewrite app_nil_r in S. rewrite S.
  exists x. split; [reflexivity|]. now rewrite X, E.
Qed.
Lemma listed_rows (w : text -> Q -> Prop) f v l : (forall t q, w t q -> forallb plain t = true /\ t <> [] /\ exists v, f t = Ok v /\ v == q) ->
  rows w v l -> exists g, listed f v = Ok g /\ same_list g l.
Proof.
  intros W. unfold rows, listed. destruct v as [t|], l as [l|]; try contradiction; [|exists GNone; split; [reflexivity|exact I]].
  intros R. destruct (row_map w f W t l R) as (vs & E & F). rewrite E. exists (GList vs). split; [reflexivity|exact F].
Qed.

(** * The dispatch *)
Ltac named N := unfold computed_geometry; rewrite N; cbn [orb];
  repeat match goal with |- context [text_eqb (lit ?a) (lit ?b)] => let v := eval vm_compute in (text_eqb (lit a) (lit b)) in change (text_eqb (lit a) (lit b)) with v end; cbn [orb]; cbv iota.
Ltac held := repeat (constructor; [split; [reflexivity|eexists; split; [reflexivity|assumption]]|]); constructor.
Ltac coord H := let v := fresh "v" in let E := fresh "E" in let V := fresh "V" in
  apply coordinate_gives in H; destruct H as (v & E & V); rewrite E; cbn [bind].

Lemma circle_holds n l cx cy r : g_name n = lit "circle" -> gives n (lit "cx") Horizontal cx -> gives n (lit "cy") Vertical cy -> gives n (lit "r") Unspecified r ->
  exists g, computed_geometry n l = Ok g /\ holds g [("cx", cx); ("cy", cy); ("r", r)]%string.
Proof.
  intros N A B C. named N. unfold circle_geometry. coord A. coord B. coord C. eexists. split; [reflexivity|]. held.
Qed.
Lemma line_holds n l x1 y1 x2 y2 : g_name n = lit "line" -> gives n (lit "x1") Horizontal x1 -> gives n (lit "y1") Vertical y1 ->
  gives n (lit "x2") Horizontal x2 -> gives n (lit "y2") Vertical y2 ->
  exists g, computed_geometry n l = Ok g /\ holds g [("x1", x1); ("y1", y1); ("x2", x2); ("y2", y2)]%string.
Proof.
  intros N A B C D. named N. unfold line_geometry. coord A. coord B. coord C. coord D. eexists. split; [reflexivity|]. held.
Qed.
Lemma auto_text n key : is_auto (gattr n key (lit "auto")) = match radius_of n key with None => true | Some _ => false end /\
  (forall t, radius_of n key = Some t -> gattr n key (lit "auto") = t).
Proof.
  unfold is_auto, gattr, radius_of. destruct (dget (g_attr n) key) as [t|]; [|split; [reflexivity|discriminate]].
  destruct (text_eqb t (lit "auto")) eqn:E; split; auto; [discriminate|]. now intros t' [= <-].
Qed.
Lemma radius_not_auto n key t : radius_of n key = Some t -> is_auto t = false.
Proof. unfold radius_of, is_auto. destruct (dget (g_attr n) key) as [v|]; [|discriminate]. destruct (text_eqb v (lit "auto")) eqn:E; [discriminate|]. now intros [= <-]. Qed.
Lemma ellipse_holds n l cx cy rx ry : g_name n = lit "ellipse" -> gives n (lit "cx") Horizontal cx -> gives n (lit "cy") Vertical cy -> ellipse_radii_are n rx ry ->
  exists g, computed_geometry n l = Ok g /\ holds g [("rx", rx); ("ry", ry); ("cx", cx); ("cy", cy)]%string.
Proof.
  intros N A B R. named N. unfold ellipse_geometry. unfold ellipse_radii_are in R.
  destruct (auto_text n (lit "rx")) as [X1 X2]. destruct (auto_text n (lit "ry")) as [Y1 Y2].
  assert (F : exists a b, (let '(rx1, ry1) := if negb (is_auto (gattr n (lit "rx") (lit "auto"))) && is_auto (gattr n (lit "ry") (lit "auto"))
      then (gattr n (lit "rx") (lit "auto"), gattr n (lit "rx") (lit "auto"))
      else if is_auto (gattr n (lit "rx") (lit "auto")) && negb (is_auto (gattr n (lit "ry") (lit "auto"))) then (gattr n (lit "ry") (lit "auto"), gattr n (lit "ry") (lit "auto"))
      else (gattr n (lit "rx") (lit "auto"), gattr n (lit "ry") (lit "auto")) in
      if is_auto rx1 && is_auto ry1 then Ok (0, 0) else do a <- glen n Horizontal rx1; do b <- glen n Vertical ry1; Ok (a, b)) = Ok (a, b) /\ a == rx /\ b == ry).
  { rewrite X1, Y1. destruct (radius_of n (lit "rx")) as [a|] eqn:RX, (radius_of n (lit "ry")) as [b|] eqn:RY; cbn [negb andb].
    - rewrite X1, (X2 a), (Y2 b) by reflexivity. cbn [andb]. destruct R as [R1 R2]. apply glen_stands in R1, R2. destruct R1 as (u & -> & ?), R2 as (v & -> & ?). cbn. eauto.
    - rewrite (X2 a) by reflexivity. rewrite (radius_not_auto _ _ _ RX). cbn [andb]. destruct R as [R1 R2]. apply glen_stands in R1, R2. destruct R1 as (u & -> & ?), R2 as (v & -> & ?). cbn. eauto.
    - rewrite (Y2 b) by reflexivity. rewrite (radius_not_auto _ _ _ RY). cbn [andb]. destruct R as [R1 R2]. apply glen_stands in R1, R2. destruct R1 as (u & -> & ?), R2 as (v & -> & ?). cbn. eauto.
    - rewrite X1, Y1. cbn. exists 0, 0. destruct R as [R1 R2]. repeat split; now symmetry. }
  destruct F as (a & b & F & FA & FB). cbv zeta in *.
  match type of F with (let '(x, y) := ?z in _) = _ => destruct z as [rx1 ry1] end. rewrite F. cbn [bind]. coord A. coord B. eexists. split; [reflexivity|]. held.
Qed.
Lemma clip_min a q s : a == q -> (if s <?q a then s else a) == Qmin q s.
Proof.
  intros E. destruct (Qltb_spec s a) as [L|L].
  - rewrite Q.min_r; [reflexivity|]. rewrite <- E. lra.
  - rewrite Q.min_l; [exact E|]. rewrite <- E. lra.
Qed.
Lemma Qmin_comp a b c d : a == b -> c == d -> Qmin a c == Qmin b d.
Proof. intros -> ->. reflexivity. Qed.
Lemma half_comp a b : a == b -> a / 2 == b / 2.
Proof. now intros ->. Qed.
Lemma rect_radii_hold n w h w' h' rx ry : w' == w -> h' == h -> rect_radii_are n w h rx ry -> exists a b, rect_rx_ry n w' h' = Ok (a, b) /\ a == rx /\ b == ry.
Proof.
  intros W H R. unfold rect_rx_ry, rect_radii_are in *. destruct (auto_text n (lit "rx")) as [X1 X2]. destruct (auto_text n (lit "ry")) as [Y1 Y2]. cbv zeta.
  rewrite X1, Y1. destruct (radius_of n (lit "rx")) as [a|] eqn:RX, (radius_of n (lit "ry")) as [b|] eqn:RY; cbn [negb andb].
  - rewrite (X2 a), (Y2 b) by reflexivity. destruct R as (p & q & R1 & R2 & EX & EY). apply glen_stands in R1, R2. destruct R1 as (u & -> & U), R2 as (v & -> & V). cbn [bind].
    eexists. eexists. split; [reflexivity|]. split; rewrite ?EX, ?EY; (rewrite clip_min by eassumption; apply Qmin_comp; [reflexivity|now apply half_comp]).
  - rewrite (X2 a) by reflexivity. destruct R as (q & R1 & EX & EY). apply glen_stands in R1. destruct R1 as (u & -> & U). cbn [bind].
    eexists. eexists. split; [reflexivity|]. split; rewrite ?EX, ?EY; (rewrite clip_min by eassumption; apply Qmin_comp; [reflexivity|now apply half_comp]).
  - rewrite (Y2 b) by reflexivity. destruct R as (q & R1 & EX & EY). apply glen_stands in R1. destruct R1 as (u & -> & U). cbn [bind].
    eexists. eexists. split; [reflexivity|]. split; rewrite ?EX, ?EY; (rewrite clip_min by eassumption; apply Qmin_comp; [reflexivity|now apply half_comp]).
  - exists 0, 0. destruct R as [R1 R2]. repeat split; now symmetry.
Qed.
Lemma rect_holds n l x y w h rx ry : g_name n = lit "rect" -> gives n (lit "x") Horizontal x -> gives n (lit "y") Vertical y ->
  spans (lit "width") Horizontal (n :: l) w -> spans (lit "height") Vertical (n :: l) h -> rect_radii_are n w h rx ry ->
  exists g, computed_geometry n l = Ok g /\ holds g [("width", w); ("height", h); ("rx", rx); ("ry", ry); ("x", x); ("y", y)]%string.
Proof.
  intros N A B W H R. named N. unfold rect_geometry. rewrite !extent_is.
  destruct (spans_extent n _ (lit "width") _ _ eq_refl W) as (w' & -> & W'). destruct (spans_extent n _ (lit "height") _ _ eq_refl H) as (h' & -> & H'). cbn [bind].
  destruct (rect_radii_hold n w h w' h' rx ry W' H' R) as (a & b & -> & ? & ?). cbn [bind]. coord A. coord B. eexists. split; [reflexivity|]. held.
Qed.
Lemma use_holds n l x y w h : g_name n = lit "use" -> gives n (lit "x") Horizontal x -> gives n (lit "y") Vertical y ->
  spans (lit "width") Horizontal (n :: l) w -> spans (lit "height") Vertical (n :: l) h ->
  exists g, computed_geometry n l = Ok g /\ holds g [("x", x); ("y", y); ("width", w); ("height", h)]%string.
Proof.
  intros N A B W H. named N. unfold use_geometry. rewrite !extent_is. coord A. coord B.
  destruct (spans_extent n _ (lit "width") _ _ eq_refl W) as (w' & -> & W'). destruct (spans_extent n _ (lit "height") _ _ eq_refl H) as (h' & -> & H'). cbn [bind].
  eexists. split; [reflexivity|]. held.
Qed.
Lemma path_geometry_is n l : g_name n = lit "path" -> computed_geometry n l =
  Ok [(lit "d", match dget (g_attr n) (lit "d") with
                | None => GNone
                | Some t => if text_eqb t (lit "none") || text_eqb t [] then GNone else GText t
                end)].
Proof.
  intros N. named N. unfold path_geometry, gattr. destruct (dget (g_attr n) (lit "d")) as [t|]; [|reflexivity]. do 3 f_equal.
  destruct (text_eqb t (lit "none")); [reflexivity|]. cbn [orb]. now destruct t.
Qed.
Lemma text_holds n l x y dx dy ro : In (g_name n) [lit "text"; lit "tspan"; lit "textPath"] ->
  let start key := match dget (g_attr n) key with Some t => Some t | None => if text_eqb (g_name n) (lit "text") then Some (lit "0") else None end in
  rows (word (g_ctx n) Horizontal) (start (lit "x")) x -> rows (word (g_ctx n) Vertical) (start (lit "y")) y ->
  rows (word (g_ctx n) Horizontal) (dget (g_attr n) (lit "dx")) dx -> rows (word (g_ctx n) Vertical) (dget (g_attr n) (lit "dy")) dy ->
  rows number (dget (g_attr n) (lit "rotate")) ro ->
  exists a b c d e, computed_geometry n l = Ok [(lit "x", a); (lit "y", b); (lit "dx", c); (lit "dy", d); (lit "rotate", e)] /\
    same_list a x /\ same_list b y /\ same_list c dx /\ same_list d dy /\ same_list e ro.
Proof.
  intros N start A B C D E. assert (G : computed_geometry n l = text_geometry n).
  { cbn [In] in N. repeat (destruct N as [N|N]; [symmetry in N; named N; reflexivity|]). contradiction. }
  rewrite G. unfold text_geometry. cbv zeta.
  destruct (listed_rows _ _ _ _ (word_glen n Horizontal) A) as (a & EA & SA). destruct (listed_rows _ _ _ _ (word_glen n Vertical) B) as (b & EB & SB).
  destruct (listed_rows _ _ _ _ (word_glen n Horizontal) C) as (c & EC & SC). destruct (listed_rows _ _ _ _ (word_glen n Vertical) D) as (d & ED & SD).
  destruct (listed_rows _ _ _ _ number_float E) as (e & EE & SE). unfold start in EA, EB.
  exists a, b, c, d, e. split; [|now repeat split]. rewrite EA, EB, EC, ED, EE. reflexivity.
Qed.

(** * Keys, errors and other attributes *)
Ltac split_name := repeat match goal with |- context [text_eqb (g_name ?n) ?k] => destruct (text_eqb_spec (g_name n) k) as [?N|?N]; cbn [orb] end.
Ltac okay := repeat match goal with
  | |- bind ?r _ = Ok _ -> _ => destruct r eqn:?; cbn [bind]; [|discriminate]
  | |- (let '(a, b) := ?p in _) = _ -> _ => destruct p
  | |- bind (let '(a, b) := ?p in _) _ = _ -> _ => destruct p
  end.
Lemma view_keys n g : view_geometry n = Ok g -> map fst g = map lit ["x"; "y"; "width"; "height"]%string.
Proof. unfold view_geometry. okay. intros [= <-]. reflexivity. Qed.
Lemma keys_are n l g : computed_geometry n l = Ok g -> map fst g = map lit (geometry_keys (g_name n)).
Proof.
  unfold computed_geometry, geometry_keys. cbv zeta. split_name; try apply view_keys;
  unfold circle_geometry, ellipse_geometry, line_geometry, path_geometry, points_geometry, rect_geometry, symbol_geometry, use_geometry, text_geometry; cbv zeta;
  okay; try (intros [= <-]; reflexivity).
  match goal with H : view_geometry n = Ok _ |- _ => apply view_keys in H; rename H into V end. intros [= <-]. rewrite map_app, V. reflexivity.
Qed.
Lemma map_result_error f l e : map_result f l = Err e -> exists t, In t l /\ f t = Err e.
Proof.
  induction l as [|t l IH]; [discriminate|]. cbn [map_result]. destruct (f t) eqn:F; cbn [bind].
  - destruct (map_result f l) eqn:M; cbn [bind]; [discriminate|]. intros [= <-]. destruct (IH eq_refl) as (u & I & E). exists u. split; [now right|exact E].
  - intros [= <-]. exists t. split; [now left|exact F].
Qed.
Lemma py_float_error t e : py_float t = Err e -> e = ValueError.
Proof. unfold py_float. destruct (scan_number (strip t)) as [(q & [|c r])|]; congruence. Qed.
Lemma listed_error f v e : (forall t, f t = Err e -> e = ValueError) -> listed f v = Err e -> e = ValueError.
Proof.
  intros F. unfold listed. destruct v as [t|]; [|discriminate]. destruct (map_result f (split_sequence t)) eqn:M; [discriminate|]. intros [= <-].
  apply map_result_error in M. destruct M as (u & _ & E). eauto.
Qed.
Definition with_image (l : list gnode) : Prop := exists n, In n l /\ g_name n = lit "image".
Ltac err1 := match goal with
  | |- bind ?r _ = Err _ -> _ => destruct r eqn:?; cbn [bind]
  | |- (let '(a, b) := ?p in _) = _ -> _ => destruct p
  | |- bind (let '(a, b) := ?p in _) _ = _ -> _ => destruct p
  end.
Lemma geometry_error n l e : g_name n <> lit "svg" -> g_name n <> lit "symbol" -> computed_geometry n l = Err e ->
  e = ValueError \/ e = NotImplementedError_ /\ with_image l.
Proof.
  intros N1 N2.
  assert (X : g_name n <> lit "image" -> forall key d, mem key [lit "width"; lit "height"] = true -> extent n l key d = Err e -> e = ValueError \/ e = NotImplementedError_ /\ with_image l).
  { intros I key d K E. rewrite extent_is in E. apply extent_error in E; [|exact K]. destruct E as [E|(E & m & [<- |J] & M)]; [now left|contradiction|]. right. split; [exact E|]. now exists m. }
  unfold computed_geometry. cbv zeta.
  destruct (text_eqb_spec (g_name n) (lit "circle")) as [E|_].
  { unfold circle_geometry. repeat err1; try discriminate; intros [= <-]; left; eapply coordinate_error; eassumption. }
  destruct (text_eqb_spec (g_name n) (lit "ellipse")) as [E|_].
  { unfold ellipse_geometry. cbv zeta. repeat err1; try discriminate; intros [= <-]; left; try (eapply coordinate_error; eassumption).
    destruct (is_auto _ && is_auto _); [discriminate|]. match goal with H : bind _ _ = Err _ |- _ => revert H end. repeat err1; try discriminate; intros [= <-]; eapply glen_error; eassumption. }
  destruct (text_eqb_spec (g_name n) (lit "line")) as [E|_].
  { unfold line_geometry. repeat err1; try discriminate; intros [= <-]; left; eapply coordinate_error; eassumption. }
  destruct (text_eqb (g_name n) (lit "path")); [discriminate|]. destruct (text_eqb (g_name n) (lit "polygon") || text_eqb (g_name n) (lit "polyline")); [discriminate|].
  destruct (text_eqb_spec (g_name n) (lit "rect")) as [E|_].
  { assert (I : g_name n <> lit "image") by (rewrite E; discriminate). unfold rect_geometry. repeat err1; try discriminate; intros [= <-]; try (left; eapply coordinate_error; eassumption); try (eapply X; [exact I| |eassumption]; reflexivity).
    left. match goal with H : rect_rx_ry _ _ _ = Err _ |- _ => revert H end. unfold rect_rx_ry. cbv zeta.
    destruct (is_auto (gattr n (lit "rx") (lit "auto"))), (is_auto (gattr n (lit "ry") (lit "auto"))); cbn [negb andb bind]; repeat err1; try discriminate; intros [= <-]; eapply glen_error; eassumption. }
  destruct (text_eqb_spec (g_name n) (lit "svg")); [contradiction|]. destruct (text_eqb_spec (g_name n) (lit "symbol")); [contradiction|].
  destruct (text_eqb_spec (g_name n) (lit "use")) as [E|_].
  { assert (I : g_name n <> lit "image") by (rewrite E; discriminate). unfold use_geometry. repeat err1; try discriminate; intros [= <-]; try (left; eapply coordinate_error; eassumption); (eapply X; [exact I| |eassumption]; reflexivity). }
  destruct (text_eqb (g_name n) (lit "text") || text_eqb (g_name n) (lit "tspan") || text_eqb (g_name n) (lit "textPath")); [|discriminate].
  unfold text_geometry. cbv zeta. repeat err1; try discriminate; intros [= <-]; left; eapply listed_error; try eassumption; intros t T; (eapply glen_error; eassumption) || (eapply py_float_error; eassumption).
Qed.
(** * Other attributes do not matter *)
Lemma glen_ctx m n d t : g_ctx m = g_ctx n -> glen m d t = glen n d t.
Proof. unfold glen. now intros ->. Qed.
Lemma coordinate_alike m n key d : g_ctx m = g_ctx n -> dget (g_attr m) key = dget (g_attr n) key -> coordinate m key d = coordinate n key d.
Proof. intros C E. unfold coordinate, gattr. rewrite E. now apply glen_ctx. Qed.
Lemma extent_dn dm dn l key d : extent_at dm l key d = extent_at dn l key d \/ mem key [lit "width"; lit "height"] = false.
Proof.
  destruct (mem key [lit "width"; lit "height"]) eqn:K; [left|now right]. induction l as [|n l IH]; [reflexivity|]. rewrite !extent_step, IH by exact K. reflexivity.
Qed.
Lemma extent_alike m n l key d : mem key [lit "width"; lit "height"] = true -> g_name m = g_name n -> g_ctx m = g_ctx n -> dget (g_attr m) key = dget (g_attr n) key ->
  extent m l key d = extent n l key d.
Proof.
  intros K N C E. rewrite !extent_is, !extent_step by exact K. rewrite E, N, !(glen_ctx m n) by exact C.
  destruct (extent_dn m n l key d) as [X|X]; [|congruence]. rewrite X. destruct (dget (g_attr n) key) as [t|]; [|reflexivity]. now rewrite (glen_ctx m n) by exact C.
Qed.
Lemma map_result_ext f g l : (forall t, f t = g t) -> map_result f l = map_result g l.
Proof. intros E. induction l as [|t l IH]; [reflexivity|]. cbn. now rewrite E, IH. Qed.
Lemma listed_ext f g v : (forall t, f t = g t) -> listed f v = listed g v.
Proof. intros E. destruct v; [|reflexivity]. cbn. now rewrite (map_result_ext f g). Qed.
Lemma geometry_alike m n l : alike (geometry_keys (g_name n)) m n -> computed_geometry m l = computed_geometry n l.
Proof.
  intros (N & C & V & A). unfold computed_geometry, geometry_keys in *. rewrite N. cbv zeta.
  assert (L := fun d t => glen_ctx m n d t C).
  revert A. split_name; intros A;
  unfold circle_geometry, ellipse_geometry, line_geometry, path_geometry, points_geometry, rect_geometry, rect_rx_ry, symbol_geometry, view_geometry, reference, use_geometry, text_geometry, gattr; cbv zeta.
  Local Ltac at_key A k := rewrite (A k) by (cbn; tauto).
  - rewrite !(coordinate_alike m n) by (auto; apply A; cbn; tauto). reflexivity.
  - rewrite !(coordinate_alike m n) by (auto; apply A; cbn; tauto). at_key A "rx"%string. at_key A "ry"%string.
    destruct (if negb _ && _ then _ else _) as [a b]. now rewrite !L.
  - rewrite !(coordinate_alike m n) by (auto; apply A; cbn; tauto). reflexivity.
  - at_key A "d"%string. reflexivity.
  - at_key A "points"%string. reflexivity.
  - at_key A "points"%string. reflexivity.
  - rewrite (extent_alike m n l (lit "width")), (extent_alike m n l (lit "height")) by (auto; apply A; cbn; tauto).
    rewrite (coordinate_alike m n (lit "x")), (coordinate_alike m n (lit "y")) by (auto; apply A; cbn; tauto). at_key A "rx"%string. at_key A "ry"%string. now rewrite !L.
  - now rewrite V.
  - rewrite V. at_key A "refX"%string. at_key A "refY"%string. destruct (dget (g_attr n) (lit "refX")), (dget (g_attr n) (lit "refY")); rewrite ?L; reflexivity.
  - rewrite (extent_alike m n l (lit "width")), (extent_alike m n l (lit "height")) by (auto; apply A; cbn; tauto).
    rewrite (coordinate_alike m n (lit "x")), (coordinate_alike m n (lit "y")) by (auto; apply A; cbn; tauto). reflexivity.
  - rewrite N. at_key A "x"%string. at_key A "y"%string. at_key A "dx"%string. at_key A "dy"%string. at_key A "rotate"%string.
    rewrite !(listed_ext (glen m Horizontal) (glen n Horizontal)), !(listed_ext (glen m Vertical) (glen n Vertical)) by (intros; apply L). reflexivity.
  - rewrite N. at_key A "x"%string. at_key A "y"%string. at_key A "dx"%string. at_key A "dy"%string. at_key A "rotate"%string.
    rewrite !(listed_ext (glen m Horizontal) (glen n Horizontal)), !(listed_ext (glen m Vertical) (glen n Vertical)) by (intros; apply L). reflexivity.
  - rewrite N. at_key A "x"%string. at_key A "y"%string. at_key A "dx"%string. at_key A "dy"%string. at_key A "rotate"%string.
    rewrite !(listed_ext (glen m Horizontal) (glen n Horizontal)), !(listed_ext (glen m Vertical) (glen n Vertical)) by (intros; apply L). reflexivity.
  - reflexivity.
Qed.
