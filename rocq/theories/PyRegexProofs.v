(** Facts about the matcher of PyRegex: what cannot match, what matches in one
    way only, and how the first match of a sequence is found. *)
From Coq Require Import Lia.
From Verif Require Import PyBase PyText PyRegex.

(** ** Which characters a match can begin with *)
Fixpoint nullable (e : re) : bool :=
  match e with
  | RChr _ | RPlus _ => false
  | RStar _ | REps => true
  | RSeq a b => nullable a && nullable b
  | RAlt a b => nullable a || nullable b
  | RRep a => nullable a
  | RGrp _ a => nullable a
  end.
Fixpoint first (e : re) (c : N) : bool :=
  match e with
  | RChr p | RPlus p | RStar p => p c
  | REps => false
  | RSeq a b => first a c || nullable a && first b c
  | RAlt a b => first a c || first b c
  | RRep a => first a c
  | RGrp _ a => first a c
  end.
Definition dead (e : re) (c : N) : Prop := nullable e = false /\ first e c = false.

Lemma stars_in : forall p s r, In r (stars p s) -> exists u, s = u ++ r.
Proof.
  induction s as [|c s IH]; cbn [stars]; intros r I.
  - destruct I as [<-|[]]. exists []. reflexivity.
  - destruct (p c).
    + apply in_app_or in I as [I|[<-|[]]]; [|exists []; reflexivity]. destruct (IH r I) as [u ->]. exists (c :: u). reflexivity.
    + destruct I as [<-|[]]. exists []. reflexivity.
Qed.
Lemma ways_suffix : forall e s w, In w (ways e s) -> exists u, s = u ++ fst w /\ (nullable e = false -> u <> []).
Proof.
  induction e as [p|p|p| |a IHa b IHb|a IHa b IHb|a IHa|n a IHa]; intros s w I; cbn [ways nullable] in *.
  - destruct s as [|c s]; [destruct I|]. destruct (p c); [|destruct I]. destruct I as [<-|[]]. exists [c]. split; [reflexivity|discriminate].
  - apply in_map_iff in I as (r & <- & I). destruct (stars_in p s r I) as [u ->]. exists u. split; [reflexivity|discriminate].
  - apply in_map_iff in I as (r & <- & I). destruct s as [|c s]; [destruct I|]. cbn [pluses] in I. destruct (p c); [|destruct I].
    destruct (stars_in p s r I) as [u ->]. exists (c :: u). split; [reflexivity|discriminate].
  - destruct I as [<-|[]]. exists []. split; [reflexivity|discriminate].
  - apply in_flat_map in I as (wa & Ia & I). apply in_map_iff in I as (wb & <- & Ib).
    destruct (IHa _ _ Ia) as (ua & Ea & Na). destruct (IHb _ _ Ib) as (ub & Eb & Nb).
    exists (ua ++ ub). cbn [add_caps fst]. rewrite Ea, Eb at 1. rewrite app_assoc. split; [reflexivity|].
    intros N E. apply app_eq_nil in E as [-> ->]. apply andb_false_iff in N as [N|N]; [now apply Na|now apply Nb].
  - apply in_app_or in I as [I|I]; [destruct (IHa _ _ I) as (u & E & N)|destruct (IHb _ _ I) as (u & E & N)];
      exists u; (split; [exact E|]); intros H; apply orb_false_iff in H as [H1 H2]; auto.
  - remember (S (length s)) as f eqn:Ef. clear Ef. revert s w I. induction f as [|f IHf]; intros s w I; [destruct I|].
    cbn [repeat_ways] in I. apply in_flat_map in I as (wa & Ia & I). destruct (IHa _ _ Ia) as (ua & Ea & Na).
    apply in_app_or in I as [I|[<-|[]]]; [|exists ua; split; assumption].
    apply in_map_iff in I as (wb & <- & Ib). destruct (IHf _ _ Ib) as (ub & Eb & Nb).
    exists (ua ++ ub). cbn [add_caps fst]. rewrite Ea, Eb at 1. rewrite app_assoc. split; [reflexivity|].
    intros N E. apply app_eq_nil in E as [-> ->]. now apply Na.
  - apply in_map_iff in I as (wa & <- & Ia). destruct (IHa _ _ Ia) as (u & E & N). exists u. split; assumption.
Qed.
Lemma ways_first : forall e c s w, first e c = false -> In w (ways e (c :: s)) -> fst w = c :: s /\ nullable e = true.
Proof.
  induction e as [p|p|p| |a IHa b IHb|a IHa b IHb|a IHa|n a IHa]; intros c s w F I; cbn [ways first nullable] in *.
  - rewrite F in I. destruct I.
  - cbn [stars] in I. rewrite F in I. destruct I as [<-|[]]. split; reflexivity.
  - cbn [pluses] in I. rewrite F in I. destruct I.
  - destruct I as [<-|[]]. split; reflexivity.
  - apply orb_false_iff in F as [Fa Fb]. apply in_flat_map in I as (wa & Ia & I). apply in_map_iff in I as (wb & <- & Ib).
    destruct (IHa c s wa Fa Ia) as [Ea Na]. rewrite Na in Fb. cbn [andb] in Fb. rewrite Ea in Ib.
    destruct (IHb c s wb Fb Ib) as [Eb Nb]. rewrite Na, Nb. split; [exact Eb|reflexivity].
  - apply orb_false_iff in F as [Fa Fb]. apply in_app_or in I as [I|I].
    + destruct (IHa c s w Fa I) as [E N]. rewrite N. split; [exact E|reflexivity].
    + destruct (IHb c s w Fb I) as [E N]. rewrite N, orb_true_r. split; [exact E|reflexivity].
  - remember (S (length (c :: s))) as f eqn:Ef. clear Ef. revert w I. induction f as [|f IHf]; intros w I; [destruct I|].
    cbn [repeat_ways] in I. apply in_flat_map in I as (wa & Ia & I). destruct (IHa c s wa F Ia) as [Ea Na].
    apply in_app_or in I as [I|[<-|[]]]; [|split; assumption].
    apply in_map_iff in I as (wb & <- & Ib). rewrite Ea in Ib. exact (IHf wb Ib).
  - apply in_map_iff in I as (wa & <- & Ia). exact (IHa c s wa F Ia).
Qed.
Lemma ways_dead : forall e c s, dead e c -> ways e (c :: s) = [].
Proof.
  intros e c s [N F]. destruct (ways e (c :: s)) as [|w l] eqn:E; [reflexivity|].
  destruct (ways_first e c s w F) as [_ X]; [rewrite E; left; reflexivity|]. rewrite X in N. discriminate N.
Qed.
Lemma ways_nil : forall e, nullable e = false -> ways e [] = [].
Proof.
  intros e N. destruct (ways e []) as [|w l] eqn:E; [reflexivity|].
  destruct (ways_suffix e [] w) as (u & Eu & H); [rewrite E; left; reflexivity|].
  symmetry in Eu. apply app_eq_nil in Eu as [-> _]. destruct (H N eq_refl).
Qed.

(** ** Forgetting the groups *)
Fixpoint erase (e : re) : re :=
  match e with
  | RSeq a b => RSeq (erase a) (erase b)
  | RAlt a b => RAlt (erase a) (erase b)
  | RRep a => RRep (erase a)
  | RGrp _ a => erase a
  | _ => e
  end.
Definition bare (w : way) : way := (fst w, []).
Lemma flat_map_map : forall A B C (f : B -> list C) (g : A -> B) l, flat_map f (map g l) = flat_map (fun x => f (g x)) l.
Proof. induction l as [|x l IH]; [reflexivity|]. cbn [map flat_map]. rewrite IH. reflexivity. Qed.
Lemma map_flat_map : forall A B C (g : B -> C) (f : A -> list B) l, map g (flat_map f l) = flat_map (fun x => map g (f x)) l.
Proof. induction l as [|x l IH]; [reflexivity|]. cbn [flat_map]. rewrite map_app, IH. reflexivity. Qed.
Lemma flat_map_ext' : forall A B (f g : A -> list B), (forall x, f x = g x) -> forall l, flat_map f l = flat_map g l.
Proof. intros A B f g H l. induction l as [|x l IH]; [reflexivity|]. cbn [flat_map]. rewrite H, IH. reflexivity. Qed.
Lemma add_nil : forall w, add_caps [] w = w.
Proof. intros [r g]. unfold add_caps. cbn [fst snd]. rewrite app_nil_r. reflexivity. Qed.
Lemma map_add_nil : forall l, map (add_caps []) l = l.
Proof. induction l as [|w l IH]; [reflexivity|]. cbn [map]. rewrite IH, add_nil. reflexivity. Qed.
Lemma bare_add : forall g w, bare (add_caps g w) = bare w. Proof. reflexivity. Qed.
Lemma ways_erase : forall e s, ways (erase e) s = map bare (ways e s).
Proof.
  induction e as [p|p|p| |a IHa b IHb|a IHa b IHb|a IHa|n a IHa]; intros s; cbn [erase ways].
  - destruct s as [|c s]; [reflexivity|]. destruct (p c); reflexivity.
  - rewrite map_map. reflexivity.
  - rewrite map_map. reflexivity.
  - reflexivity.
  - rewrite IHa, flat_map_map, map_flat_map. apply flat_map_ext'. intros w. cbn [bare fst snd]. rewrite map_add_nil, IHb, map_map.
    apply map_ext. reflexivity.
  - rewrite IHa, IHb, map_app. reflexivity.
  - generalize (S (length s)) as f. intros f. revert s. induction f as [|f IHf]; intros s; [reflexivity|].
    cbn [repeat_ways]. rewrite IHa, flat_map_map, map_flat_map. apply flat_map_ext'. intros w. cbn [bare fst snd].
    rewrite map_app, map_add_nil, IHf, map_map. reflexivity.
  - rewrite IHa, map_map. apply map_ext. reflexivity.
Qed.

(** ** First matches *)
Definition add_to (g : caps) (o : option way) : option way := option_map (add_caps g) o.
Lemma add_to_nil : forall o, add_to [] o = o.
Proof. intros [w|]; [|reflexivity]. cbn [add_to option_map]. rewrite add_nil. reflexivity. Qed.
Lemma hd_map : forall A B (f : A -> B) l, hd_error (map f l) = option_map f (hd_error l).
Proof. intros A B f [|x l]; reflexivity. Qed.
Lemma hd_app : forall A (l1 l2 : list A), hd_error (l1 ++ l2) = match hd_error l1 with Some x => Some x | None => hd_error l2 end.
Proof. intros A [|x l1] l2; reflexivity. Qed.
Lemma none_ways : forall e s, re_match e s = None -> ways e s = [].
Proof. intros e s H. unfold re_match in H. destruct (ways e s); [reflexivity|discriminate H]. Qed.
Lemma ways_none : forall e s, ways e s = [] -> re_match e s = None.
Proof. intros e s H. unfold re_match. rewrite H. reflexivity. Qed.
Lemma match_dead : forall e c s, dead e c -> re_match e (c :: s) = None.
Proof. intros e c s D. apply ways_none, ways_dead, D. Qed.
Lemma match_nil : forall e, nullable e = false -> re_match e [] = None.
Proof. intros e N. apply ways_none, ways_nil, N. Qed.
Lemma match_erase : forall e s, re_match (erase e) s = option_map bare (re_match e s).
Proof. intros e s. unfold re_match. rewrite ways_erase, hd_map. reflexivity. Qed.
Lemma match_alt : forall a b s, re_match (RAlt a b) s = match re_match a s with Some w => Some w | None => re_match b s end.
Proof. intros a b s. unfold re_match. cbn [ways]. apply hd_app. Qed.
Lemma match_grp : forall n a s, re_match (RGrp n a) s = option_map (fun w => (fst w, (n, upto s (fst w)) :: snd w)) (re_match a s).
Proof. intros n a s. unfold re_match. cbn [ways]. apply hd_map. Qed.
Lemma match_eps : forall s, re_match REps s = Some (s, []). Proof. reflexivity. Qed.
Lemma match_chr : forall p c s, p c = true -> re_match (RChr p) (c :: s) = Some (s, []).
Proof. intros p c s H. unfold re_match. cbn [ways]. rewrite H. reflexivity. Qed.
Lemma ways_assoc : forall a b c s, ways (RSeq (RSeq a b) c) s = ways (RSeq a (RSeq b c)) s.
Proof.
  intros a b c s. cbn [ways]. induction (ways a s) as [|w l IH]; [reflexivity|]. cbn [flat_map].
  rewrite flat_map_app. refine (f_equal2 (@app _) _ IH). clear IH. rewrite flat_map_map, map_flat_map. apply flat_map_ext'. intros x. cbn [add_caps fst snd].
  rewrite map_map. apply map_ext. intros y. unfold add_caps. cbn [fst snd]. rewrite app_assoc. reflexivity.
Qed.
Lemma match_assoc : forall a b c s, re_match (RSeq (RSeq a b) c) s = re_match (RSeq a (RSeq b c)) s.
Proof. intros a b c s. unfold re_match. rewrite ways_assoc. reflexivity. Qed.
Lemma ways_alt_seq : forall a b c s, ways (RSeq (RAlt a b) c) s = ways (RSeq a c) s ++ ways (RSeq b c) s.
Proof. intros a b c s. cbn [ways]. apply flat_map_app. Qed.
Lemma match_alt_seq : forall a b c s,
  re_match (RSeq (RAlt a b) c) s = match re_match (RSeq a c) s with Some w => Some w | None => re_match (RSeq b c) s end.
Proof. intros a b c s. unfold re_match. rewrite ways_alt_seq. apply hd_app. Qed.
Lemma seq_eps : forall b s, re_match (RSeq REps b) s = re_match b s.
Proof. intros b s. unfold re_match. cbn [ways flat_map]. rewrite app_nil_r, map_add_nil. reflexivity. Qed.
Lemma seq_chr : forall p b c s, p c = true -> re_match (RSeq (RChr p) b) (c :: s) = re_match b s.
Proof. intros p b c s H. unfold re_match. cbn [ways]. rewrite H. cbn [flat_map]. rewrite app_nil_r. cbn [fst snd]. rewrite map_add_nil. reflexivity. Qed.
(* a first match of a that b can follow *)
Lemma seq_hd : forall a b s w r, re_match a s = Some w -> re_match b (fst w) = Some r -> re_match (RSeq a b) s = Some (add_caps (snd w) r).
Proof.
  intros a b s w r A B. unfold re_match in *. cbn [ways]. destruct (ways a s) as [|w0 l]; [discriminate A|]. cbn in A. injection A as ->.
  cbn [flat_map]. rewrite hd_app, hd_map, B. reflexivity.
Qed.
Lemma seq_none : forall a b s, re_match a s = None -> re_match (RSeq a b) s = None.
Proof. intros a b s A. apply ways_none. cbn [ways]. rewrite (none_ways _ _ A). reflexivity. Qed.

(** ** Runs of a class *)
(* the rests that begin inside u, the shortest first *)
Fixpoint tails (u s : text) : list text :=
  match u with [] => [] | c :: u' => tails u' s ++ [(c :: u') ++ s] end.
Lemma stars_run : forall p u s, Forall (fun c => p c = true) u -> stars p (u ++ s) = stars p s ++ tails u s.
Proof.
  intros p u s F. induction F as [|c u H F IH]; [now rewrite app_nil_r|].
  cbn [app stars tails]. rewrite H, IH, app_assoc. reflexivity.
Qed.
Definition ends (p : N -> bool) (s : text) : Prop := match s with [] => True | c :: _ => p c = false end.
Lemma stars_end : forall p s, ends p s -> stars p s = [s].
Proof. intros p [|c s] E; [reflexivity|]. cbn [ends] in E. cbn [stars]. rewrite E. reflexivity. Qed.
Lemma tails_dead : forall (A : Type) (f : text -> list A) u s, Forall (fun c => forall v, f (c :: v) = []) u -> flat_map f (tails u s) = [].
Proof.
  intros A f u s F. induction F as [|c u H F IH]; [reflexivity|]. cbn [tails]. rewrite flat_map_app, IH. cbn [flat_map app]. rewrite H. reflexivity.
Qed.
Lemma tails_app : forall u v s, tails (u ++ v) s = tails v s ++ tails u (v ++ s).
Proof. induction u as [|c u IH]; intros v s; [now rewrite app_nil_r|]. cbn [app tails]. rewrite IH, <- !app_assoc. reflexivity. Qed.
Lemma ways_star_seq : forall p b s, ways (RSeq (RStar p) b) s = flat_map (ways b) (stars p s).
Proof. intros p b s. cbn [ways]. rewrite flat_map_map. apply flat_map_ext'. intros r. apply map_add_nil. Qed.
Lemma ways_plus_seq : forall p b s, ways (RSeq (RPlus p) b) s = flat_map (ways b) (pluses p s).
Proof. intros p b s. cbn [ways]. rewrite flat_map_map. apply flat_map_ext'. intros r. apply map_add_nil. Qed.

Lemma dead_all : forall b u, Forall (dead b) u -> Forall (fun c => forall v, ways b (c :: v) = []) u.
Proof. intros b u F. apply Forall_impl with (2 := F). intros c D v. apply ways_dead, D. Qed.
(* class* over a run, when b cannot begin inside the run *)
Lemma seq_star : forall p b u s, Forall (fun c => p c = true) u -> ends p s -> Forall (dead b) u ->
  re_match (RSeq (RStar p) b) (u ++ s) = re_match b s.
Proof.
  intros p b u s F E D. unfold re_match. rewrite ways_star_seq, (stars_run p u s F), (stars_end p s E), flat_map_app, (tails_dead _ _ _ _ (dead_all b u D)).
  cbn [flat_map]. rewrite !app_nil_r. reflexivity.
Qed.
Lemma seq_plus : forall p b u s, u <> [] -> Forall (fun c => p c = true) u -> ends p s -> Forall (dead b) u ->
  re_match (RSeq (RPlus p) b) (u ++ s) = re_match b s.
Proof.
  intros p b [|c u] s N F E D; [destruct (N eq_refl)|]. inversion F as [|? ? H F']; subst. inversion D as [|? ? _ D']; subst.
  unfold re_match. rewrite ways_plus_seq. cbn [app pluses]. rewrite H, (stars_run p u s F'), (stars_end p s E), flat_map_app, (tails_dead _ _ _ _ (dead_all b u D')).
  cbn [flat_map]. rewrite !app_nil_r. reflexivity.
Qed.
(* class+ over a run with one place x where b can begin *)
Lemma seq_plus_mid : forall p b w x u s, w <> [] -> Forall (fun c => p c = true) w -> p x = true -> Forall (fun c => p c = true) u -> ends p s ->
  re_match b s = None -> Forall (dead b) w -> Forall (dead b) u ->
  re_match (RSeq (RPlus p) b) (w ++ x :: u ++ s) = re_match b (x :: u ++ s).
Proof.
  intros p b [|c w] x u s N Fw Fx Fu E B Dw Du; [destruct (N eq_refl)|]. inversion Fw as [|? ? H F']; subst. inversion Dw as [|? ? _ D']; subst.
  unfold re_match. rewrite ways_plus_seq. cbn [app pluses]. rewrite H.
  replace (w ++ x :: u ++ s) with ((w ++ x :: u) ++ s) by (now rewrite <- app_assoc).
  rewrite (stars_run p (w ++ x :: u) s) by (apply Forall_app; split; [exact F'|constructor; assumption]).
  rewrite (stars_end p s E), tails_app. cbn [tails]. rewrite !flat_map_app, (tails_dead _ _ w _ (dead_all b w D')), (tails_dead _ _ u _ (dead_all b u Du)).
  cbn [flat_map]. rewrite (none_ways _ _ B). cbn [app]. rewrite !app_nil_r. reflexivity.
Qed.
Lemma seq_plus_none : forall p b u s, Forall (fun c => p c = true) u -> ends p s -> re_match b s = None -> Forall (dead b) u ->
  re_match (RSeq (RPlus p) b) (u ++ s) = None.
Proof.
  intros p b u s F E B D. destruct u as [|c u].
  - apply ways_none. rewrite ways_plus_seq. destruct s as [|c s]; [reflexivity|]. cbn [ends] in E. cbn [app pluses]. rewrite E. reflexivity.
  - rewrite seq_plus by (try assumption; discriminate). exact B.
Qed.
(* class+ up to the end of the text, where b takes the last character *)
Lemma seq_plus_last : forall p b w x r, w <> [] -> Forall (fun c => p c = true) w -> p x = true -> re_match b [] = None -> re_match b [x] = Some r ->
  re_match (RSeq (RPlus p) b) (w ++ [x]) = Some r.
Proof.
  intros p b [|c w] x r N F P B1 B2; [destruct (N eq_refl)|]. inversion F as [|? ? H F']; subst.
  unfold re_match. rewrite ways_plus_seq. cbn [app pluses]. rewrite H.
  rewrite <- (app_nil_r (w ++ [x])), (stars_run p (w ++ [x]) []) by (apply Forall_app; split; [exact F'|constructor; [exact P|constructor]]).
  cbn [stars]. rewrite tails_app. cbn [tails app flat_map]. rewrite (none_ways _ _ B1). cbn [app]. rewrite hd_app. unfold re_match in B2. rewrite B2. reflexivity.
Qed.
(* a group around class+ *)
Lemma upto_app : forall u s, upto (u ++ s) s = u.
Proof. intros u s. unfold upto. rewrite app_length, Nat.add_sub, firstn_app, Nat.sub_diag, firstn_all. cbn [firstn]. apply app_nil_r. Qed.
Lemma ways_grp_plus : forall n p b s, ways (RSeq (RGrp n (RPlus p)) b) s = flat_map (fun r => map (add_caps [(n, upto s r)]) (ways b r)) (pluses p s).
Proof. intros n p b s. cbn [ways]. rewrite !flat_map_map. apply flat_map_ext'. intros r. reflexivity. Qed.
Lemma dead_map : forall (g : text -> caps) b u, Forall (dead b) u -> Forall (fun c => forall v, (fun r => map (add_caps (g r)) (ways b r)) (c :: v) = []) u.
Proof. intros g b u F. apply Forall_impl with (2 := F). intros c D v. cbv beta. rewrite (ways_dead b c v D). reflexivity. Qed.
Lemma seq_grp_plus : forall n p b u s, u <> [] -> Forall (fun c => p c = true) u -> ends p s -> Forall (dead b) u ->
  re_match (RSeq (RGrp n (RPlus p)) b) (u ++ s) = add_to [(n, u)] (re_match b s).
Proof.
  intros n p b u s N F E D. assert (X : u ++ s = u ++ s) by reflexivity. unfold re_match. rewrite ways_grp_plus.
  set (f := fun r => map (add_caps [(n, upto (u ++ s) r)]) (ways b r)).
  assert (Y : f s = map (add_caps [(n, u)]) (ways b s)) by (unfold f; rewrite upto_app; reflexivity).
  assert (Z : Forall (fun c => forall v, f (c :: v) = []) u) by (apply (dead_map (fun r => [(n, upto (u ++ s) r)]) b u D)).
  clearbody f. clear X. destruct u as [|c u]; [destruct (N eq_refl)|]. inversion F as [|? ? H F']; subst. inversion Z as [|? ? _ Z']; subst.
  cbn [app pluses]. rewrite H, (stars_run p u s F'), (stars_end p s E), flat_map_app, (tails_dead _ _ _ _ Z'). cbn [flat_map]. rewrite !app_nil_r, Y, hd_map. reflexivity.
Qed.
Lemma seq_grp_plus_mid : forall n p b w x u s, w <> [] -> Forall (fun c => p c = true) w -> p x = true -> Forall (fun c => p c = true) u -> ends p s ->
  re_match b s = None -> Forall (dead b) w -> Forall (dead b) u ->
  re_match (RSeq (RGrp n (RPlus p)) b) (w ++ x :: u ++ s) = add_to [(n, w)] (re_match b (x :: u ++ s)).
Proof.
  intros n p b w x u s N Fw Fx Fu E B Dw Du. unfold re_match. rewrite ways_grp_plus.
  set (f := fun r => map (add_caps [(n, upto (w ++ x :: u ++ s) r)]) (ways b r)).
  assert (Y : f (x :: u ++ s) = map (add_caps [(n, w)]) (ways b (x :: u ++ s))) by (unfold f; rewrite upto_app; reflexivity).
  assert (Zw : Forall (fun c => forall v, f (c :: v) = []) w) by (apply (dead_map (fun r => [(n, upto (w ++ x :: u ++ s) r)]) b w Dw)).
  assert (Zu : Forall (fun c => forall v, f (c :: v) = []) u) by (apply (dead_map (fun r => [(n, upto (w ++ x :: u ++ s) r)]) b u Du)).
  assert (Zs : f s = []) by (unfold f; rewrite (none_ways _ _ B); reflexivity).
  clearbody f. destruct w as [|c w]; [destruct (N eq_refl)|]. inversion Fw as [|? ? H F']; subst. inversion Zw as [|? ? _ Z']; subst.
  cbn [app pluses]. rewrite H. replace (w ++ x :: u ++ s) with ((w ++ x :: u) ++ s) by (now rewrite <- app_assoc).
  rewrite (stars_run p (w ++ x :: u) s) by (apply Forall_app; split; [exact F'|constructor; assumption]).
  rewrite (stars_end p s E), tails_app. cbn [tails]. rewrite !flat_map_app, (tails_dead _ _ w _ Z'), (tails_dead _ _ u _ Zu).
  cbn [flat_map]. rewrite Zs, <- app_comm_cons, !app_nil_r. cbn [app]. rewrite Y, hd_map. reflexivity.
Qed.

(** ** Words *)
Lemma ways_word : forall k s, k <> [] -> (exists r, s = k ++ r /\ ways (RWord k) s = [(r, [])]) \/ ((forall r, s <> k ++ r) /\ ways (RWord k) s = []).
Proof.
  induction k as [|c k IH]; intros s N; [destruct (N eq_refl)|]. destruct k as [|c2 k].
  - cbn [RWord ways]. destruct s as [|d s]; [right; split; [discriminate|reflexivity]|].
    destruct (N.eqb_spec c d) as [E|E]; [left; exists s; rewrite E; split; reflexivity|right; split; [intros r X; injection X as X _; congruence|reflexivity]].
  - change (RWord (c :: c2 :: k)) with (RSeq (RChr (N.eqb c)) (RWord (c2 :: k))). destruct s as [|d s]; [right; split; [discriminate|reflexivity]|].
    destruct (N.eqb_spec c d) as [E|E].
    + subst d. assert (W : ways (RSeq (RChr (N.eqb c)) (RWord (c2 :: k))) (c :: s) = ways (RWord (c2 :: k)) s).
      { cbn [ways]. rewrite N.eqb_refl. cbn [flat_map]. rewrite app_nil_r. apply map_add_nil. }
      rewrite W. destruct (IH s) as [(r & Er & Wr)|(Nr & Wr)]; [discriminate| |].
      * left. exists r. rewrite Er. split; [reflexivity|]. rewrite <- Er. exact Wr.
      * right. split; [|exact Wr]. intros r X. injection X as X. exact (Nr r X).
    + right. split; [intros r X; injection X as X _; congruence|]. cbn [ways]. apply N.eqb_neq in E. rewrite E. reflexivity.
Qed.
Lemma match_word : forall k s, k <> [] -> re_match (RWord k) (k ++ s) = Some (s, []).
Proof.
  intros k s N. unfold re_match. destruct (ways_word k (k ++ s) N) as [(r & E & W)|(H & _)]; [|destruct (H s eq_refl)].
  apply app_inv_head in E. subst r. rewrite W. reflexivity.
Qed.
Lemma seq_word : forall k b s, k <> [] -> re_match (RSeq (RWord k) b) (k ++ s) = re_match b s.
Proof.
  intros k b s N. unfold re_match. cbn [ways]. destruct (ways_word k (k ++ s) N) as [(r & E & W)|(H & _)]; [|destruct (H s eq_refl)].
  apply app_inv_head in E. subst r. rewrite W. cbn [flat_map fst snd]. rewrite app_nil_r, map_add_nil. reflexivity.
Qed.
(* a keyword and a class+, on a word u of other characters that is not the keyword *)
Lemma seq_word_none : forall k p b u s, k <> [] -> Forall (fun c => p c = false) k -> Forall (fun c => p c = false) u -> match s with [] => True | c :: _ => p c = true end -> u <> k ->
  re_match (RSeq (RWord k) (RSeq (RPlus p) b)) (u ++ s) = None.
Proof.
  intros k p b u s N Fk Fu Es Ne. apply ways_none. cbn [ways]. destruct (ways_word k (u ++ s) N) as [(r & E & W)|(_ & W)]; rewrite W; [|reflexivity].
  cbn [flat_map fst snd]. rewrite app_nil_r, map_add_nil. clear W.
  assert (R : match r with [] => True | c :: _ => p c = false end).
  { clear N. revert u Fu Ne E. induction Fk as [|c k Hc Fk IH]; intros u Fu Ne E.
    - destruct u as [|d u]; [destruct (Ne eq_refl)|]. cbn [app] in E. subst r. inversion Fu; assumption.
    - destruct u as [|d u].
      + cbn [app] in E. subst s. rewrite Hc in Es. discriminate Es.
      + cbn [app] in E. injection E as -> E. apply (IH u); [inversion Fu; assumption| |exact E]. intros ->. apply Ne. reflexivity. }
  destruct r as [|c r]; [reflexivity|]. cbn [pluses]. rewrite R. reflexivity.
Qed.

(** ** Repetition *)
Lemma match_rep : forall a s r g, re_match a s = Some (r, g) -> ways a r = [] -> re_match (RRep a) s = Some (r, g).
Proof.
  intros a s r g H N. unfold re_match in *. cbn [ways repeat_ways]. destruct (ways a s) as [|w l]; [discriminate H|]. cbn in H. injection H as ->.
  cbn [flat_map fst snd]. assert (X : repeat_ways (ways a) (length s) r = []) by (destruct (length s); cbn [repeat_ways]; [reflexivity|rewrite N; reflexivity]).
  rewrite X. reflexivity.
Qed.

(** ** finditer *)
Lemma match_shorter : forall e s r g, nullable e = false -> re_match e s = Some (r, g) -> (length r < length s)%nat.
Proof.
  intros e s r g N H. unfold re_match in H. destruct (ways e s) as [|w l] eqn:E; [discriminate H|]. injection H as ->.
  destruct (ways_suffix e s (r, g)) as (u & Eu & Nu); [rewrite E; left; reflexivity|]. cbn [fst] in Eu. rewrite Eu, app_length.
  destruct u as [|c u]; [destruct (Nu N eq_refl)|]. cbn [length]. lia.
Qed.
Lemma finditer_fuel : forall e, nullable e = false -> forall f1 f2 s, (length s < f1)%nat -> (length s < f2)%nat -> finditer_ f1 e s = finditer_ f2 e s.
Proof.
  intros e N. induction f1 as [|f1 IH]; intros f2 s L1 L2; [lia|]. destruct f2 as [|f2]; [lia|]. cbn [finditer_].
  destruct (re_match e s) as [[r g]|] eqn:E.
  - apply match_shorter in E; [|exact N]. f_equal. apply IH; lia.
  - destruct s as [|c s]; [reflexivity|]. cbn [length] in *. apply IH; lia.
Qed.
Lemma finditer_step : forall e s r g, nullable e = false -> re_match e s = Some (r, g) -> finditer e s = g :: finditer e r.
Proof.
  intros e s r g N H. pose proof (match_shorter e s r g N H).
  transitivity (g :: finditer_ (length s) e r); [unfold finditer; cbn [finditer_]; rewrite H; reflexivity|].
  f_equal. apply finditer_fuel; [exact N|lia|lia].
Qed.
Lemma finditer_skip : forall e c s, nullable e = false -> re_match e (c :: s) = None -> finditer e (c :: s) = finditer e s.
Proof. intros e c s N H. unfold finditer. cbn [finditer_]. rewrite H. reflexivity. Qed.
Lemma finditer_nil : forall e, nullable e = false -> finditer e [] = [].
Proof. intros e N. unfold finditer. cbn [length finditer_]. rewrite (match_nil e N). reflexivity. Qed.
