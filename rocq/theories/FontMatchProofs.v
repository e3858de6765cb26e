(** Proofs about font face selection. *)
From Coq Require Import Qabs Sorted.
From Verif Require Import PyBase PyText FontMatchModel FontMatchSpec.
#[local] Open Scope Q_scope.

Lemma closer_total u d x y : ~ closer u d x y -> ~ closer u d y x -> x == y.
Proof.
  unfold closer. intros A B. destruct (Qlt_le_dec (Qabs (x - d)) (Qabs (y - d))) as [L|L]; [tauto|]. destruct (Qlt_le_dec (Qabs (y - d)) (Qabs (x - d))) as [M|M]; [tauto|].
  assert (E : Qabs (x - d) == Qabs (y - d)) by lra. assert (E' : Qabs (y - d) == Qabs (x - d)) by lra.
  destruct (Qlt_le_dec x y) as [P|P]; [exfalso; destruct u; tauto|]. destruct (Qlt_le_dec y x) as [P'|P']; [exfalso; destruct u; tauto|]. lra.
Qed.
Lemma closer_eq u d x y z : y == z -> closer u d x y -> closer u d x z.
Proof. unfold closer. intros E [A|[A B]]; [left; now rewrite <- E|right]. split; [now rewrite <- E|]. destruct u; now rewrite <- E. Qed.
Lemma closer_eq_l u d x y z : x == y -> closer u d x z -> closer u d y z.
Proof. unfold closer. intros E [A|[A B]]; [left; now rewrite <- E|right]. split; [now rewrite <- E|]. destruct u; now rewrite <- E. Qed.

(** ** Sorting *)
Lemma insert_up_in x y l : In y (insert_up x l) -> y = x \/ In y l.
Proof. induction l as [|z l IH]; cbn; [intuition|]. destruct (x <?q z); [cbn; intuition|]. destruct (x =?q z); [cbn; intuition|]. cbn. intuition. Qed.
Lemma insert_up_has x l : exists y, In y (insert_up x l) /\ y == x.
Proof.
  induction l as [|z l IH]; cbn; [exists x; split; [now left|reflexivity]|]. destruct (Qltb_spec x z); [exists x; split; [now left|reflexivity]|].
  destruct (Qeqb_spec x z) as [E|]; [exists z; split; [now left|now symmetry]|]. destruct IH as (y & A & B). exists y. split; [now right|exact B].
Qed.
Lemma insert_up_keeps x y l : In y l -> In y (insert_up x l).
Proof. induction l as [|z l IH]; cbn; [tauto|]. intros H. destruct (x <?q z); [now right|]. destruct (x =?q z); [exact H|]. destruct H as [->|H]; [now left|right; now apply IH]. Qed.
Lemma insert_up_sorted x l : StronglySorted Qlt l -> StronglySorted Qlt (insert_up x l).
Proof.
  induction 1 as [|z l S IH F]; cbn; [repeat constructor|]. destruct (Qltb_spec x z) as [L|L].
  - constructor; [now constructor|]. constructor; [exact L|]. eapply Forall_impl; [|exact F]. cbn beta. intros a Ha. lra.
  - destruct (Qeqb_spec x z) as [E|E]; [now constructor|]. constructor; [exact IH|]. apply Forall_forall. intros y I. apply insert_up_in in I. destruct I as [->|I]; [|rewrite Forall_forall in F; now apply F].
    destruct (Qlt_le_dec z x) as [M|M]; [exact M|]. exfalso. apply E. lra.
Qed.
Lemma sort_up_sorted l : StronglySorted Qlt (sort_up l).
Proof. induction l; cbn; [constructor|now apply insert_up_sorted]. Qed.
Lemma sort_up_in l x : In x (sort_up l) -> In x l.
Proof. induction l as [|y l IH]; cbn; [tauto|]. intros H. apply insert_up_in in H. destruct H as [->|H]; [now left|right; now apply IH]. Qed.
Lemma sort_up_has l x : In x l -> exists y, In y (sort_up l) /\ y == x.
Proof.
  induction l as [|z l IH]; cbn; [tauto|]. intros [->|H]; [apply insert_up_has|]. destruct (IH H) as (y & A & B). exists y. split; [now apply insert_up_keeps|exact B].
Qed.
Lemma sorted_snoc {A} (R : A -> A -> Prop) l x : StronglySorted R l -> Forall (fun y => R y x) l -> StronglySorted R (l ++ [x]).
Proof.
  induction 1 as [|z l S IH F]; cbn; intros H; [repeat constructor|]. inversion H; subst. constructor; [now apply IH|]. apply Forall_app. split; [exact F|]. now constructor.
Qed.
Lemma sorted_rev {A} (R : A -> A -> Prop) l : StronglySorted R l -> StronglySorted (fun x y => R y x) (rev l).
Proof. induction 1 as [|z l S IH F]; cbn; [constructor|]. apply sorted_snoc; [exact IH|]. now apply Forall_rev. Qed.

(** ** The nearest *)
Definition pref (u : bool) (x y : Q) : Prop := if u then y < x else x < y.
Lemma table_sorted u l : StronglySorted (pref u) (if u then rev (sort_up l) else sort_up l).
Proof. destruct u; [exact (sorted_rev _ _ (sort_up_sorted l))|exact (sort_up_sorted l)]. Qed.
Lemma argmin_spec u d l : forall b, StronglySorted (pref u) (b :: l) -> In (argmin d b l) (b :: l) /\ forall x, In x (b :: l) -> ~ closer u d x (argmin d b l).
Proof.
  induction l as [|x l IH]; intros b S.
  - cbn. split; [now left|]. intros x [<-|[]] [A|[A B]]; [lra|destruct u; lra].
  - cbn [argmin]. inversion S as [|? ? S1 F1]; subst. inversion S1 as [|? ? S2 F2]; subst. destruct (Qltb_spec (dist d x) (dist d b)) as [L|L]; unfold dist in L.
    + destruct (IH x S1) as [A B]. split; [now right|]. intros y [<-|I]; [|now apply B]. intros C. specialize (B x (or_introl eq_refl)). unfold closer in B, C.
      assert (M : ~ Qabs (x - d) < Qabs (argmin d x l - d)) by tauto. destruct C as [C|[C _]]; lra.
    + assert (Sb : StronglySorted (pref u) (b :: l)) by (constructor; [exact S2|now inversion F1]). destruct (IH b Sb) as [A B]. split; [destruct A as [A|A]; [now left|now right; right]|].
      intros y [<-|[<-|I]]; [apply B; now left| |apply B; now right]. intros C. assert (Bb := B b (or_introl eq_refl)). set (v := argmin d b l) in *.
      assert (M : ~ Qabs (b - d) < Qabs (v - d)) by (intros Z; apply Bb; now left). destruct C as [C|[C1 C2]]; [lra|].
      assert (E : Qabs (b - d) == Qabs (v - d)) by lra. assert (N : ~ pref u b v) by (intros Z; apply Bb; right; split; [exact E|exact Z]).
      assert (V : v = b) by (destruct A as [A|A]; [now symmetry|]; exfalso; apply N; inversion Sb as [|? ? _ Fb]; subst; rewrite Forall_forall in Fb; now apply Fb).
      assert (P : pref u b x) by (rewrite Forall_forall in F1; apply F1; now left). rewrite V in C2. destruct u; cbn in P; lra.
Qed.
Definition selects {A} (c : A -> A -> Prop) (l m : list A) : Prop := forall f, In f m <-> In f l /\ forall g, In g l -> ~ c g f.
Lemma filter_best (key : face -> Q) u d v l : (exists f, In f l /\ key f == v) -> (forall g, In g l -> ~ closer u d (key g) v) -> selects (fun g f => closer u d (key g) (key f)) l (filter (fun f => v =?q key f) l).
Proof.
  intros (f0 & I0 & E0) B f. rewrite filter_In. split.
  - intros [I E]. split; [exact I|]. intros g G C. apply (B g G). destruct (Qeqb_spec v (key f)) as [Q|]; [|discriminate]. apply (closer_eq _ _ _ (key f)); [now symmetry|exact C].
  - intros [I M]. split; [exact I|]. destruct (Qeqb_spec v (key f)) as [Q|N]; [reflexivity|]. exfalso. apply N. symmetry. apply (closer_total u d); [now apply B|].
    intros C. apply (M f0 I0). eapply closer_eq_l; [symmetry; exact E0|exact C].
Qed.
Lemma narrow_spec (key : face -> Q) u d l : selects (fun g f => closer u d (key g) (key f)) l (narrow key u d l).
Proof.
  unfold narrow. destruct (exactly key d l) as [|f0 r] eqn:E.
  - assert (S := table_sorted u (map key l)). set (tb := if u then rev (sort_up (map key l)) else sort_up (map key l)) in *.
    assert (TI : forall x, In x tb <-> In x (sort_up (map key l))) by (intros x; unfold tb; destruct u; [symmetry; apply in_rev|reflexivity]). clearbody tb. destruct tb as [|x t].
    + intros f. split; [intros []|]. intros [I _]. destruct (sort_up_has (map key l) (key f) (in_map _ _ _ I)) as (y & A & _). apply TI in A. destruct A.
    + destruct (argmin_spec u d t x S) as [A B]. set (v := argmin d x t) in *. clearbody v. apply filter_best.
      * apply TI, sort_up_in, in_map_iff in A. destruct A as (f & Q & I). exists f. split; [exact I|now rewrite Q].
      * intros g G C. destruct (sort_up_has (map key l) (key g) (in_map _ _ _ G)) as (y & Y & Q). apply TI in Y. apply (B y Y). eapply closer_eq_l; [symmetry; exact Q|exact C].
  - rewrite <- E. apply (filter_best key u d d).
    + assert (I : In f0 (exactly key d l)) by (rewrite E; now left). apply filter_In in I. destruct I as [I Q]. exists f0. split; [exact I|]. destruct (Qeqb_spec d (key f0)); [now symmetry|discriminate].
    + intros g _ C. unfold closer in C. assert (Z : Qabs (d - d) == 0) by (setoid_replace (d - d) with 0 by ring; reflexivity). assert (P := Qabs_nonneg (key g - d)). rewrite Z in C. destruct C as [C|[C1 C2]]; [lra|].
      assert (Q : key g - d == 0) by (revert C1; apply Qabs_case; intros; lra). destruct u; lra.
Qed.

(** ** The slant *)
Fixpoint place (order : list Z) (s : Z) : nat := match order with [] => 0 | x :: r => if Z.eqb x s then 0 else S (place r s) end.
Lemma by_slant_spec order : forall l, selects (fun g f => (place order (f_slant g) < place order (f_slant f))%nat) l (by_slant order l).
Proof.
  induction order as [|s r IH]; intros l f; cbn [by_slant place]; [split; [intros I; split; [exact I|lia]|tauto]|].
  destruct (filter (fun f => Z.eqb s (f_slant f)) l) as [|f0 m] eqn:E.
  - assert (N : forall g, In g l -> Z.eqb s (f_slant g) = false).
    { intros g G. destruct (Z.eqb s (f_slant g)) eqn:Q; [|reflexivity]. assert (I : In g []) by (rewrite <- E; apply filter_In; tauto). destruct I. }
    rewrite (IH l f). split; intros [I M]; (split; [exact I|]); intros g G; specialize (M g G); rewrite (N g G), (N f I) in *; lia.
  - assert (I0 : In f0 l /\ Z.eqb s (f_slant f0) = true) by (apply (filter_In (fun f => Z.eqb s (f_slant f))); rewrite E; now left). rewrite <- E, filter_In. split.
    + intros [I Q]. split; [exact I|]. intros g G. rewrite Q. lia.
    + intros [I M]. split; [exact I|]. specialize (M f0 (proj1 I0)). rewrite (proj2 I0) in M. destruct (Z.eqb s (f_slant f)); [reflexivity|lia].
Qed.
Lemma place_rank st s : place (slants st) s = rank st s.
Proof.
  unfold slants, rank. destruct (text_eqb (s_style st) (lit "italic")); [|destruct (text_eqb (s_style st) (lit "oblique"))]; cbn [place]; unfold italic_slant, oblique_slant, normal_slant; rewrite !(Z.eqb_sym s);
    repeat (match goal with |- context [Z.eqb ?a s] => destruct (Z.eqb a s) end); reflexivity.
Qed.

(** ** One step after another *)
Lemma lex {A} (c1 c2 e1 : A -> A -> Prop) l m k : (forall f g, ~ c1 f g -> ~ c1 g f -> e1 g f) -> (forall f g h, e1 g f -> c1 h g -> c1 h f) ->
  selects c1 l m -> selects c2 m k -> selects (fun g f => c1 g f \/ (e1 g f /\ c2 g f)) l k.
Proof.
  intros T E S1 S2 f. rewrite (S2 f), (S1 f). split.
  - intros [[I M] N]. split; [exact I|]. intros g G [C|[Q C]]; [now apply (M g G)|]. apply (N g); [|exact C]. apply S1. split; [exact G|]. intros h H Z. apply (M h H). now apply (E f g h).
  - intros [I M]. assert (F : In f m) by (apply S1; split; [exact I|]; intros g G C; apply (M g G); now left). split; [now apply S1|]. intros g G C. assert (G' := G). apply S1 in G'. destruct G' as [G1 G2].
    apply (M g G1). right. split; [|exact C]. apply T; [now apply G2|]. intros Z. apply (M g G1). now left.
Qed.
Lemma selects_ext {A} (c c' : A -> A -> Prop) l m : (forall g f, c g f <-> c' g f) -> selects c l m -> selects c' l m.
Proof. intros E S f. rewrite (S f). split; intros [I M]; (split; [exact I|]); intros g G C; apply (M g G); now apply E. Qed.
Lemma lex_key (key : face -> Q) u d c2 l m k : selects (fun g f => closer u d (key g) (key f)) l m -> selects c2 m k ->
  selects (fun g f => closer u d (key g) (key f) \/ (key g == key f /\ c2 g f)) l k.
Proof. intros S1 S2. refine (lex _ _ (fun g f => key g == key f) _ _ _ _ _ S1 S2); [intros f g A B; now apply (closer_total u d)|intros f g h E C; eapply closer_eq; eassumption]. Qed.
Lemma width_known st w : width_map (s_stretch st) = Some w ->
  (negb (text_eqb (s_stretch st) (lit "normal") || endswith (s_stretch st) (lit "condensed")) && endswith (s_stretch st) (lit "expanded")) = wide st.
Proof.
  unfold width_map, wide. generalize (s_stretch st) as t. intros t. cbn [find fst].
  repeat (match goal with |- context [text_eqb ?a t] => destruct (text_eqb_spec a t) as [E|]; [rewrite <- E; intros _; vm_compute; reflexivity|] end). discriminate.
Qed.
Lemma narrowed_spec st w l : width_map (s_stretch st) = Some w -> selects (better st w) l (by_size st (by_weight st (by_slant (slants st) (by_width st l)))).
Proof.
  intros W. unfold by_width. rewrite W, (width_known st w W). unfold better.
  apply lex_key with (m := narrow f_width (wide st) w l); [apply narrow_spec|].
  set (m1 := narrow f_width (wide st) w l). clearbody m1.
  refine (lex (fun g f => (rank st (f_slant g) < rank st (f_slant f))%nat) _ (fun g f => rank st (f_slant g) = rank st (f_slant f)) m1 (by_slant (slants st) m1) _ _ _ _ _); [intros f g A B; lia|intros f g h E C; lia| |].
  - eapply selects_ext; [|apply by_slant_spec]. intros g f. cbn beta. now rewrite !place_rank.
  - set (m2 := by_slant (slants st) m1). clearbody m2. unfold by_weight, by_size. apply lex_key with (m := narrow f_weight (s_weight st <?q 400) (s_weight st) m2); [apply narrow_spec|]. apply narrow_spec.
Qed.
Lemma width_unknown st l : width_map (s_stretch st) = None -> candidates st l = [].
Proof.
  intros W. unfold candidates, by_width. rewrite W. assert (B : by_slant (slants st) [] = []) by (generalize (slants st); induction l0; cbn; auto). rewrite B. unfold by_weight, by_size, narrow. cbn.
  destruct (s_weight st <?q 400); reflexivity.
Qed.

(** ** File order *)
Lemma text_ltb_trans a : forall b c, text_ltb b a = false -> text_ltb c b = false -> text_ltb c a = false.
Proof.
  induction a as [|x a IH]; intros [|y b] [|z c]; cbn; try easy. destruct (N.ltb_spec y x), (N.ltb_spec x y), (N.ltb_spec z y), (N.ltb_spec y z), (N.ltb_spec z x), (N.ltb_spec x z); try easy; try lia. apply IH.
Qed.
Lemma text_ltb_asym a : forall b, text_ltb a b = true -> text_ltb b a = false.
Proof. induction a as [|x a IH]; intros [|y b]; cbn; try easy. destruct (N.ltb_spec x y), (N.ltb_spec y x); try easy; try lia. apply IH. Qed.
Lemma insert_file_in f g l : In g (insert_file f l) <-> g = f \/ In g l.
Proof. induction l as [|h l IH]; cbn; [intuition|]. destruct (text_ltb (f_file h) (f_file f)); cbn; [rewrite IH; intuition|intuition]. Qed.
Lemma by_file_in g l : In g (by_file l) <-> In g l.
Proof. induction l as [|h l IH]; cbn; [tauto|]. rewrite insert_file_in, IH. intuition. Qed.
Lemma insert_file_sorted f l : StronglySorted first_file l -> StronglySorted first_file (insert_file f l).
Proof.
  induction 1 as [|h l S IH F]; cbn; [repeat constructor|]. destruct (text_ltb (f_file h) (f_file f)) eqn:E.
  - constructor; [exact IH|]. apply Forall_forall. intros g G. apply insert_file_in in G. destruct G as [->|G]; [now apply text_ltb_asym|]. rewrite Forall_forall in F. now apply F.
  - constructor; [now constructor|]. constructor; [exact E|]. eapply Forall_impl; [|exact F]. cbn beta. intros g G. unfold first_file in *. eapply text_ltb_trans; eassumption.
Qed.
Lemma by_file_sorted l : StronglySorted first_file (by_file l).
Proof. induction l; cbn; [constructor|now apply insert_file_sorted]. Qed.
Lemma first_file_refl f : first_file f f.
Proof. unfold first_file. generalize (f_file f) as a. induction a as [|x a IH]; [reflexivity|]. cbn. now rewrite N.ltb_irrefl. Qed.
Lemma find_sorted P l f : StronglySorted first_file l -> find P l = Some f -> In f l /\ P f = true /\ forall g, In g l -> P g = true -> first_file f g.
Proof.
  induction 1 as [|h l S IH F]; cbn; [discriminate|]. destruct (P h) eqn:E.
  - intros [= <-]. repeat split; [now left|exact E|]. intros g [<-|G] _; [apply first_file_refl|rewrite Forall_forall in F; now apply F].
  - intros H. destruct (IH H) as (A & B & C). repeat split; [now right|exact B|]. intros g [<-|G] Pg; [congruence|now apply C].
Qed.
(** ** Families *)
Lemma filter_filter {A} (p q : A -> bool) l : filter p (filter q l) = filter (fun x => q x && p x) l.
Proof. induction l as [|x l IH]; [reflexivity|]. cbn. destruct (q x) eqn:E; cbn; [|exact IH]. now rewrite IH. Qed.
Lemma family_names_spec fs l : forall acc, family_names fs l acc = acc ++ filter (fun m => negb (existsb (text_eqb m) acc)) (firsts (matched fs l)).
Proof.
  induction l as [|n l IH]; intros acc; [cbn; now rewrite app_nil_r|]. cbn [family_names]. unfold matched. cbn [flat_map]. fold (matched fs l). destruct (match_family fs n) as [m|]; [|apply IH]. cbn [app firsts filter].
  destruct (existsb (text_eqb m) acc) eqn:E; cbn [negb].
  - rewrite IH. f_equal. rewrite filter_filter. apply filter_ext. intros y. destruct (text_eqb_spec m y) as [Q|]; [|reflexivity]. rewrite <- Q, E. reflexivity.
  - rewrite IH, <- app_assoc. cbn [app]. f_equal. f_equal. rewrite filter_filter. apply filter_ext. intros y. rewrite existsb_app. cbn [existsb]. rewrite orb_false_r, negb_orb. rewrite andb_comm. f_equal. f_equal.
    destruct (text_eqb_spec y m) as [Q|Q], (text_eqb_spec m y) as [R|R]; congruence.
Qed.
Lemma families_spec fs l : family_names fs l [] = firsts (matched fs l).
Proof. rewrite family_names_spec. cbn [app existsb negb]. induction (firsts (matched fs l)) as [|x r IH]; [reflexivity|]. cbn. now rewrite IH. Qed.
