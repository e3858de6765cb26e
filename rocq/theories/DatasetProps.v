(** C20: DOMStringMap (svgpy/dom.py 91-173). *)
From Verif Require Import PyBase PyText PySplit PyCase PyDict DatasetModel DatasetSpec DatasetProofs.
Local Open Scope N_scope.

(** Different keys never share an attribute. *)
Theorem c20_injective k1 k2 n : convert_name k1 = Ok n -> convert_name k2 = Ok n -> k1 = k2.
Proof. exact (convert_name_inj k1 k2 n). Qed.
Print Assumptions c20_injective.
Example c20_injective_ex : convert_name (lit "fooBar") = Ok (lit "data-foo-bar")
  /\ convert_name (lit "-FOo") = Ok (lit "data---f-oo").
Proof. split; reflexivity. Qed.

(** Which keys are accepted: no dash before a lower case letter, and only
    characters of XML names other than the colon.  Anything else is an error
    and changes nothing. *)
Theorem c20_accept d k v : v <> [] -> (is_ok (set d k v) = true <->
  no_dash_letter k /\ forall c, In c k -> in_ranges (name_start ++ name_more) c = true /\ c <> 58).
Proof. intros N. exact (proj2 (set_ok d k v N)). Qed.
Print Assumptions c20_accept.
Example c20_accept_ex : set [] (lit "foo-bar") (lit "x") = Err ValueError
  /\ set [] (lit "foo bar") (lit "x") = Err InvalidCharacterError
  /\ set [] (lit "fooBar") (lit "x") = Ok [(lit "data-foo-bar", lit "x")].
Proof. repeat split. Qed.

(** The same with the characters of the XML recommendation. *)
Theorem c20_accept_xml d k v : v <> [] -> (is_ok (set d k v) = true <->
  no_dash_letter k /\ forall c, In c k -> xml_name_char c /\ c <> 58).
Proof.
  intros N. rewrite (c20_accept d k v N).
  assert (E : forall c, in_ranges (name_start ++ name_more) c = true <-> xml_name_char c).
  { intros c. unfold in_ranges, name_start, name_more, xml_name_char. cbn [app existsb fst snd].
    repeat rewrite Bool.orb_true_iff. repeat rewrite Bool.andb_true_iff. repeat rewrite N.leb_le.
    split; lia. }
  split; intros [A B]; (split; [exact A|]); intros c Hc; specialize (B c Hc); rewrite E in *; exact B.
Qed.
Print Assumptions c20_accept_xml.
Example c20_accept_xml_ex : is_ok (set [] (lit "a9.b") (lit "x")) = true /\ is_ok (set [] [215] (lit "x")) = false.
Proof. split; reflexivity. Qed.

(** A value that was set is read back; no other key and no other attribute
    changes. *)
Theorem c20_set_get d k v d' : v <> [] -> set d k v = Ok d' ->
  get d' k = Ok v /\ (forall k', k' <> k -> get d' k' = get d k') /\
  (forall n, starts_with data_prefix n = false -> dget d' n = dget d n) /\
  (dict_ok d -> dict_ok d').
Proof.
  intros N H. destruct (proj1 (set_ok d k v N) d' H) as (n & E & ->). repeat split.
  - unfold get. rewrite E. cbn [bind]. now rewrite dget_dset, text_eqb_refl.
  - intros k' K. unfold get. destruct (convert_name k') as [n'|] eqn:E'; [|reflexivity]. cbn [bind]. rewrite dget_dset.
    destruct (text_eqb_spec n n') as [->|]; [|reflexivity]. destruct K. exact (convert_name_inj _ _ _ E' E).
  - intros m P. rewrite dget_dset. destruct (text_eqb_spec n m) as [<-|]; [|reflexivity].
    apply convert_name_listed in E. unfold listed in E. rewrite P in E. discriminate.
  - intros D. now apply dset_ok.
Qed.
Print Assumptions c20_set_get.
Example c20_set_get_ex : set [(lit "id", lit "i"); (lit "data-a", lit "1")] (lit "a") (lit "2")
  = Ok [(lit "id", lit "i"); (lit "data-a", lit "2")].
Proof. reflexivity. Qed.

(** Deleting a key (or setting the empty value) makes it absent and keeps all
    others; deleting an absent key raises KeyError. *)
Theorem c20_del d k : dict_ok d ->
  set d k [] = del d k /\
  (forall e, get d k = Err e -> del d k = Err e) /\
  (forall v, get d k = Ok v -> exists d', del d k = Ok d' /\ get d' k = Err KeyError /\ dict_ok d' /\
     (forall k', k' <> k -> get d' k' = get d k') /\
     (forall n, starts_with data_prefix n = false -> dget d' n = dget d n)).
Proof.
  intros D. split; [reflexivity|]. unfold get, del. destruct (convert_name k) as [n|] eqn:E; cbn [bind].
  - destruct (dget d n) as [w|] eqn:G.
    + split; [discriminate|]. intros v _. exists (ddel d n). split; [reflexivity|]. split; [|split; [|split]].
      * now rewrite dget_ddel, text_eqb_refl.
      * now apply ddel_ok.
      * intros k' K. destruct (convert_name k') as [n'|] eqn:E'; [|reflexivity]. cbn [bind]. rewrite dget_ddel by exact D.
        destruct (text_eqb_spec n n') as [->|]; [|reflexivity]. destruct K. exact (convert_name_inj _ _ _ E' E).
      * intros m P. rewrite dget_ddel by exact D. destruct (text_eqb_spec n m) as [<-|]; [|reflexivity].
        apply convert_name_listed in E. unfold listed in E. rewrite P in E. discriminate.
    + split; [now injection 1 as <-|discriminate].
  - split; [now injection 1 as <-|discriminate].
Qed.
Print Assumptions c20_del.
Example c20_del_ex : del [(lit "id", lit "i"); (lit "data-a-b", lit "1")] (lit "aB") = Ok [(lit "id", lit "i")]
  /\ del [] (lit "a") = Err KeyError.
Proof. split; reflexivity. Qed.

(** Keys and names are inverse to each other, for keys without dashes that do
    not begin with an upper case letter, and for names whose dashes stand
    before letters. *)
Theorem c20_roundtrip_partial :
  (forall k n, simple_key k -> convert_name k = Ok n -> convert_key n = k) /\
  (forall t, simple_body t -> convert_name (convert_key (data_prefix ++ t)) = Ok (data_prefix ++ t)).
Proof. split; [exact key_name|]. intros t S. exact (proj1 (name_key t S)). Qed.
Print Assumptions c20_roundtrip_partial.
Example c20_roundtrip_ex : convert_key (lit "data-foo-bar") = lit "fooBar" /\ simple_key (lit "fooBar") /\ simple_body (lit "foo-bar").
Proof.
  split; [reflexivity|].
  change (lit "fooBar") with [102;111;111;66;97;114]. change (lit "foo-bar") with [102;111;111;45;98;97;114].
  split; [split|split]; cbn [In dashes_ok]; lia.
Qed.
(** The claim does not hold for all accepted keys: the key 'FooBar' is stored
    as data--foo-bar and listed as '-FooBar'; data-foo-1 is listed as 'foo1',
    which is not found. *)
Theorem c20_roundtrip_refuted :
  (exists k n, convert_name k = Ok n /\ validate_name n = true /\ convert_key n <> k) /\
  (exists d k, In k (keys d) /\ get d k = Err KeyError).
Proof.
  split.
  - exists (lit "FooBar"), (lit "data--foo-bar"). repeat split. discriminate.
  - exists [(lit "data-foo-1", lit "x")], (lit "foo1"). split; [now left|reflexivity].
Qed.
Print Assumptions c20_roundtrip_refuted.

(** Histories: the map behaves as a finite map from keys to non-empty values. *)
Definition accepted (k : text) : Prop :=
  no_dash_letter k /\ forall c, In c k -> in_ranges (name_start ++ name_more) c = true /\ c <> 58.
Definition upd (m : text -> option text) (k : text) (v : option text) : text -> option text :=
  fun x => if text_eqb k x then v else m x.
Definition spec_step (m : text -> option text) (o : dop) : text -> option text :=
  match o with
  | DSet k [] | DDel k => upd m k None
  | DSet k v => upd m k (Some v)
  end.
Definition op_key (o : dop) : text := match o with DSet k _ | DDel k => k end.
Definition shows (d : state) (m : text -> option text) : Prop :=
  forall k, get d k = match m k with Some v => Ok v | None => if has_dash_low k then Err ValueError else Err KeyError end.

Lemma get_dash d k : has_dash_low k = true -> get d k = Err ValueError.
Proof. intros H. unfold get, convert_name. now rewrite H. Qed.
Lemma shows_del d m k : dict_ok d -> shows d m -> has_dash_low k = false ->
  let d' := match del d k with Ok x => x | Err _ => d end in dict_ok d' /\ shows d' (upd m k None).
Proof.
  intros D S H. destruct (c20_del d k D) as (_ & A & B). specialize (S k) as Sk. cbv zeta.
  destruct (m k) as [v|] eqn:M.
  - destruct (B v Sk) as (d' & -> & G & D' & O & _). split; [exact D'|]. intros x. unfold upd.
    destruct (text_eqb_spec k x) as [<-|N]; [now rewrite H|]. rewrite O by congruence. apply S.
  - rewrite H in Sk. rewrite (A _ Sk). split; [exact D|]. intros x. unfold upd.
    destruct (text_eqb_spec k x) as [<-|N]; [now rewrite H|apply S].
Qed.
Theorem c20_history ops : forall d m, dict_ok d -> shows d m -> Forall (fun o => accepted (op_key o)) ops ->
  dict_ok (drun d ops) /\ shows (drun d ops) (fold_left spec_step ops m) /\
  (forall n, starts_with data_prefix n = false -> dget (drun d ops) n = dget d n).
Proof.
  unfold drun. induction ops as [|o ops IH]; intros d m D S F; cbn [fold_left]; [repeat split; assumption|].
  inversion F as [|? ? Ao Fo]; subst. specialize (IH (dstep d o) (spec_step m o)).
  pose proof (proj2 (has_dash_low_spec (op_key o)) (proj1 Ao)) as HD.
  assert (K : dict_ok (dstep d o) /\ shows (dstep d o) (spec_step m o) /\
              (forall n, starts_with data_prefix n = false -> dget (dstep d o) n = dget d n)).
  { assert (DEL : forall k, op_key o = k -> let d' := match del d k with Ok x => x | Err _ => d end in
        dict_ok d' /\ shows d' (upd m k None) /\ (forall n, starts_with data_prefix n = false -> dget d' n = dget d n)).
    { intros k E. subst k. cbv zeta. destruct (shows_del d m (op_key o) D S HD) as [A B]. split; [exact A|]. split; [exact B|].
      intros n P. destruct (c20_del d (op_key o) D) as (_ & A1 & B1).
      destruct (get d (op_key o)) as [v|e] eqn:G.
      - destruct (B1 v eq_refl) as (d' & -> & _ & _ & _ & Q). now apply Q.
      - now rewrite (A1 e eq_refl). }
    destruct o as [k v|k]; cbn [op_key spec_step dstep] in *; [|exact (DEL k eq_refl)].
    destruct v as [|c v]; [exact (DEL k eq_refl)|].
    assert (N : c :: v <> []) by discriminate. pose proof (proj2 (c20_accept d k (c :: v) N) Ao) as X.
    unfold dstep. destruct (set d k (c :: v)) as [d'|] eqn:E; [|discriminate].
    destruct (c20_set_get d k (c :: v) d' N E) as (G & O & P & Q). split; [now apply Q|]. split; [|exact P].
    intros x. unfold upd. destruct (text_eqb_spec k x) as [<-|Z]; [exact G|]. rewrite O by congruence. apply S. }
  destruct K as (K1 & K2 & K3). destruct (IH K1 K2 Fo) as (A & B & C). split; [exact A|]. split; [exact B|].
  intros n P. rewrite C, K3 by exact P. reflexivity.
Qed.
Print Assumptions c20_history.
Example c20_history_ex :
  let ops := [DSet (lit "aB") (lit "1"); DSet (lit "c") (lit "2"); DDel (lit "aB"); DSet (lit "c") (lit "3")] in
  drun [(lit "id", lit "i")] ops = [(lit "id", lit "i"); (lit "data-c", lit "3")] /\
  shows [(lit "id", lit "i")] (fun _ => None) /\ Forall (fun o => accepted (op_key o)) ops.
Proof.
  split; [reflexivity|]. split.
  - intros k. unfold get. destruct (convert_name k) as [n|e] eqn:E.
    + pose proof (proj1 (convert_name_ok _ _) E) as [H ->]. rewrite H. reflexivity.
    + unfold convert_name in E. destruct (has_dash_low k); [now injection E as <-|discriminate].
  - repeat match goal with |- Forall _ _ => constructor end; (split; [now apply has_dash_low_spec|]);
    cbn; intros x [<-|H]; repeat (try destruct H as [<-|H]; try destruct H); (split; [reflexivity|discriminate]).
Qed.

(** keys() lists exactly the keys that can be read, when the names present
    are simple; and histories over simple keys keep it so. *)
Definition simple_state (d : state) : Prop :=
  dict_ok d /\ forall n, In n (dkeys d) -> listed n = true -> simple_body (skipn (length data_prefix) n).
Theorem c20_keys_partial d : simple_state d ->
  NoDup (keys d) /\ forall k, In k (keys d) <-> simple_key k /\ exists v, get d k = Ok v.
Proof.
  intros [D S].
  assert (A : forall n, In n (filter listed (dkeys d)) -> convert_name (convert_key n) = Ok n /\ simple_key (convert_key n)).
  { intros n H. apply filter_In in H. destruct H as [I L]. specialize (S n I L). apply listed_spec in L. destruct L as (r & -> & _).
    now apply name_key. }
  split.
  - unfold keys. assert (F : NoDup (filter listed (dkeys d))) by now apply NoDup_filter.
    revert A F. generalize (filter listed (dkeys d)). intros l A F. induction F as [|n l N F IH]; [constructor|]. cbn. constructor.
    + intros I. apply in_map_iff in I. destruct I as (n' & E & I). destruct (A n (or_introl eq_refl)) as [C _].
      destruct (A n' (or_intror I)) as [C' _]. pose proof (eq_trans (eq_sym C) (eq_trans (f_equal convert_name (eq_sym E)) C')) as X. injection X as ->. now apply N.
    + apply IH. intros m I. apply A. now right.
  - intros k. unfold keys. rewrite in_map_iff. split.
    + intros (n & <- & I). destruct (A n I) as [C K]. split; [exact K|]. apply filter_In in I. destruct I as [I _].
      apply dget_some_keys in I. destruct I as (v & G). exists v. unfold get. rewrite C. cbn [bind]. now rewrite G.
    + intros [K (v & G)]. unfold get in G. destruct (convert_name k) as [n|] eqn:E; [|discriminate]. cbn [bind] in G.
      destruct (dget d n) eqn:X; [|discriminate]. exists n. split; [now apply key_name|]. apply filter_In.
      split; [apply dget_some_keys; exists t; exact X|]. exact (convert_name_listed _ _ E).
Qed.
Print Assumptions c20_keys_partial.
Theorem c20_keys_history ops : forall d, simple_state d -> Forall (fun o => simple_key (op_key o)) ops -> simple_state (drun d ops).
Proof.
  unfold drun. induction ops as [|o ops IH]; intros d S F; cbn [fold_left]; [exact S|].
  inversion F as [|? ? Ko Fo]; subst. apply IH; [|exact Fo]. clear IH Fo F.
  assert (DEL : forall k d', del d k = Ok d' -> simple_state d').
  { intros k d' E. unfold del in E. destruct (convert_name k); [|discriminate]. cbn [bind] in E. destruct (dget d a); [|discriminate].
    injection E as <-. destruct S as [D S]. split; [now apply ddel_ok|]. intros n I. apply S. exact (ddel_keys_incl _ _ _ I). }
  unfold dstep. destruct o as [k v|k]; cbn [op_key] in Ko.
  - destruct v as [|c v].
    + change (set d k []) with (del d k). destruct (del d k) eqn:E; [exact (DEL _ _ E)|exact S].
    + destruct (set d k (c :: v)) as [d'|] eqn:E; [|exact S].
      destruct (proj1 (set_ok d k (c :: v) ltac:(discriminate)) d' E) as (n & C & ->). destruct S as [D S].
      split; [now apply dset_ok|]. intros m I L. rewrite dset_keys in I. unfold dhas in I.
      assert (X : In m (dkeys d) \/ m = n).
      { destruct (dget d n); [now left|]. apply in_app_iff in I. destruct I as [I|[I|[]]]; [now left|right; congruence]. }
      destruct X as [X|X]; [now apply S|]. subst m. apply convert_name_ok in C. destruct C as [_ ->]. rewrite skip_prefix.
      now apply enc_body.
  - destruct (del d k) eqn:E; [exact (DEL _ _ E)|exact S].
Qed.
Print Assumptions c20_keys_history.
Example c20_keys_ex : keys [(lit "id", lit "i"); (lit "data-foo-bar", lit "x"); (lit "data-Q", lit "y"); (lit "data-z", lit "")]
  = [lit "fooBar"; lit "z"] /\ simple_state [].
Proof. split; [reflexivity|]. split; [constructor|intros n []]. Qed.
