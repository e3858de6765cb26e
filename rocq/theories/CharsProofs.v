From Coq Require Import QArith Lia Setoid.
From Verif Require Import PyBase PyText PyList PySplit LookupModel TextModel TextSpec TextProofs TextProofs2 CharsModel CharsSpec.
#[local] Open Scope N_scope.

Lemma celem_ind' (P : celem -> Prop) : P CO -> (forall k n s ws t kids, Forall (fun k => P (fst k)) kids -> P (CE k n s ws t kids)) -> forall e, P e.
Proof.
  intros H0 H. fix F 1. intros [|k n s ws t kids]; [exact H0|]. apply H. induction kids as [|[x tl] r IH]; constructor; [apply F|exact IH].
Qed.
Fixpoint walk_go (lib : charlib) (d : bool) (key : N) (ws : text) (ks : list (celem * option text)) (s : state) : result (list chunk * option text) :=
  match ks with
  | [] => Ok (fst (fst s), snd (fst s))
  | (CO, _) :: _ => Err AttributeError
  | (CE _ kn kshown _ _ _ as k, tl) :: r =>
      do s <- (if mem kn text_elements && (negb d || kshown) then
                 do (cs, out) <- walk lib d k (snd (fst s)) (snd s);
                 match out with None => Err TypeError | Some [] => Ok s | Some out => Ok (fst (fst s) ++ cs, Some out, false) end
               else Ok s);
      walk_go lib d key ws r (if mem kn text_children then add_text lib key ws tl s else s)
  end.
Lemma walk_eq lib d key name shown ws content kids prev first : walk lib d (CE key name shown ws content kids) prev first =
  if negb (mem name text_elements) || (d && negb shown) then Ok ([], prev) else walk_go lib d key ws kids (add_text lib key ws content ([], prev, first)).
Proof.
  cbn [walk]. destruct (negb (mem name text_elements) || (d && negb shown)); [reflexivity|]. generalize (add_text lib key ws content ([], prev, first)).
  induction kids as [|[[|k n s w x y] tl] r IH]; intros s0; [reflexivity|reflexivity|].
  cbn [walk_go]. destruct (if mem n text_elements && (negb d || s) then _ else _) as [s'|]; [|reflexivity]. cbn [bind]. apply IH.
Qed.
Lemma drawn_eq n s : drawn n s = mem n text_elements && s.
Proof. unfold drawn, mem, text_elements. cbn [existsb]. rewrite orb_false_r. apply andb_comm. Qed.
Lemma flows_eq n : flows n = mem n text_children.
Proof. unfold flows, mem, text_children. cbn [existsb]. now rewrite orb_false_r. Qed.

(** ** The walk is the reading of the events *)
(* reading, with the state afterwards *)
Fixpoint reads (lib : charlib) (prev : option text) (l : list event) : result (list chunk * option text) :=
  match l with
  | [] => Ok ([], prev)
  | Piece k ws t :: r =>
      match normalize_text lib ws t prev (match prev with None => true | Some _ => false end) false with
      | [] => reads lib prev r
      | out => do (cs, p) <- reads lib (Some out) r; Ok ((k, out) :: cs, p)
      end
  | Close :: r => match prev with None => Err TypeError | Some _ => reads lib prev r end
  | Note :: _ => Err AttributeError
  end.
Lemma reads_read lib l : forall prev, read lib prev l = do (cs, _) <- reads lib prev l; Ok cs.
Proof.
  induction l as [|[k ws t| |] l IH]; intros prev; cbn [read reads]; [reflexivity| | |reflexivity].
  - destruct (normalize_text lib ws t prev _ false) as [|c o]; [apply IH|]. rewrite IH. now destruct (reads lib (Some (c :: o)) l) as [[cs p]|].
  - destruct prev; [apply IH|reflexivity].
Qed.
Lemma reads_app lib a : forall b prev, reads lib prev (a ++ b) = do (cs, p) <- reads lib prev a; do (cs2, q) <- reads lib p b; Ok (cs ++ cs2, q).
Proof.
  induction a as [|[k ws t| |] a IH]; intros b prev; cbn [app reads].
  - cbn [bind]. now destruct (reads lib prev b) as [[cs p]|].
  - destruct (normalize_text lib ws t prev _ false) as [|c o]; [apply IH|]. rewrite IH. destruct (reads lib (Some (c :: o)) a) as [[cs p]|]; [|reflexivity]. cbn [bind].
    now destruct (reads lib p b) as [[cs2 q]|].
  - destruct prev; [apply IH|reflexivity].
  - reflexivity.
Qed.
Definition isnone (p : option text) : bool := match p with None => true | Some _ => false end.
Definition sound (p : option text) : Prop := p <> Some [].
Lemma reads_sound lib l : forall p cs q, sound p -> reads lib p l = Ok (cs, q) -> sound q.
Proof.
  induction l as [|[k ws t| |] l IH]; intros p cs q S; cbn [reads].
  - intros [= _ <-]. exact S.
  - destruct (normalize_text lib ws t p _ false) as [|c o]; [now apply IH|]. destruct (reads lib (Some (c :: o)) l) as [[cs2 q2]|] eqn:E; [|discriminate]. cbn [bind]. intros [= _ <-].
    eapply IH; [|exact E]. discriminate.
  - destruct p; [now apply IH|discriminate].
  - discriminate.
Qed.
Lemma add_text_reads lib key ws t cs p : sound p -> exists cs2 q, reads lib p (piece key ws t) = Ok (cs2, q) /\ sound q /\ add_text lib key ws t (cs, p, isnone p) = (cs ++ cs2, q, isnone q).
Proof.
  intros S. destruct t as [t|]; cbn [piece reads add_text].
  - unfold isnone. destruct (normalize_text lib ws t p _ false) as [|c o].
    + exists [], p. rewrite app_nil_r. auto.
    + cbn [bind]. exists [(key, c :: o)], (Some (c :: o)). split; [reflexivity|]. split; [discriminate|reflexivity].
  - exists [], p. rewrite app_nil_r. auto.
Qed.
Lemma walk_reads lib e : forall prev, sound prev -> walk lib true e prev (isnone prev) = reads lib prev (events e).
Proof.
  induction e as [|key name shown ws content kids IH] using celem_ind'; intros prev S; [reflexivity|]. rewrite walk_eq. cbn [events]. rewrite drawn_eq.
  destruct (mem name text_elements); [|reflexivity]. cbn [negb orb andb]. destruct shown; [|reflexivity]. cbn [negb].
  rewrite reads_app. destruct (add_text_reads lib key ws content [] prev S) as (cs & q & -> & Sq & ->). cbn [bind app].
  revert cs q Sq. induction IH as [|[k tl] r Hk Hr IHr]; intros cs q Sq; cbn [walk_go flat_map fst snd].
  - cbn [reads bind]. now rewrite app_nil_r.
  - destruct k as [|kk kn kshown kws kt kks]; [reflexivity|]. cbn [fst] in Hk. rewrite <- !app_assoc, !reads_app.
    assert (T : forall cs1 p1, sound p1 ->
              walk_go lib true key ws r (if mem kn text_children then add_text lib key ws tl (cs1, p1, isnone p1) else (cs1, p1, isnone p1)) =
              do (cs2, q2) <- (do (a, p) <- reads lib p1 (if flows kn then piece key ws tl else []);
                               do (b, q3) <- reads lib p (flat_map (fun k : celem * option text => match fst k with CO => [Note] | CE _ n s _ _ _ => (if drawn n s then events (fst k) ++ [Close] else []) ++ (if flows n then piece key ws (snd k) else []) end) r); Ok (a ++ b, q3));
              Ok (cs1 ++ cs2, q2)).
    { intros cs1 p1 S1. rewrite flows_eq. destruct (mem kn text_children).
      - destruct (add_text_reads lib key ws tl cs1 p1 S1) as (a & p & -> & Sp & ->). cbn [bind]. rewrite IHr by exact Sp. destruct (reads lib p _) as [[b q3]|]; [|reflexivity]. cbn [bind]. now rewrite app_assoc.
      - cbn [reads bind]. rewrite IHr by exact S1. destruct (reads lib p1 _) as [[b q3]|]; reflexivity. }
    rewrite drawn_eq. cbn [negb orb]. cbn [fst snd]. destruct (mem kn text_elements && kshown).
    + rewrite Hk by exact Sq. rewrite reads_app. destruct (reads lib q (events (CE kk kn kshown kws kt kks))) as [[a p]|] eqn:E; [|reflexivity]. cbn [bind]. pose proof (reads_sound lib _ _ _ _ Sq E) as Sp.
      destruct p as [[|c o]|]; [now elim Sp| |reflexivity]. cbn [bind reads app]. rewrite app_nil_r. pose proof (T (cs ++ a) (Some (c :: o)) Sp) as T1. cbn [isnone] in T1. cbn [fst snd]. etransitivity; [exact T1|]. clear T1.
      change (@Some (list N) (c :: o)) with (@Some text (c :: o)). rewrite reads_app. destruct (reads lib (@Some text (c :: o)) (if flows kn then piece key ws tl else [])) as [[b p]|]; [|reflexivity]. cbn [bind]. destruct (reads lib p _) as [[b2 q3]|]; [|reflexivity]. cbn [bind]. rewrite !app_assoc. reflexivity.
    + cbn [bind reads app]. etransitivity; [exact (T cs q Sq)|].
      rewrite reads_app. destruct (reads lib q (if flows kn then piece key ws tl else [])) as [[b p]|]; [|reflexivity]. cbn [bind]. destruct (reads lib p _) as [[b2 q3]|]; reflexivity.
Qed.
Lemma chars_info_read lib e : chars_info lib e = do cs <- read lib None (events e); Ok (trim_last cs).
Proof.
  unfold chars_info. pose proof (walk_reads lib e None ltac:(discriminate)) as W. cbn [isnone] in W. rewrite W, reads_read. now destruct (reads lib None (events e)) as [[cs p]|].
Qed.
Lemma trim_last_snoc cs k t : trim_last (cs ++ [(k, t)]) = cs ++ [(k, rdropwhile is_space t)].
Proof. induction cs as [|[k0 t0] cs IH]; [reflexivity|]. cbn [app trim_last]. destruct cs; [reflexivity|]. cbn [app] in *. now rewrite IH. Qed.
Lemma trim_last_fst cs : map fst (trim_last cs) = map fst cs.
Proof.
  destruct cs as [|x cs] using rev_ind; [reflexivity|]. destruct x as [k t]. rewrite trim_last_snoc, !map_app. reflexivity.
Qed.
