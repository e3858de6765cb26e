(** Python dictionaries with text keys: association lists in insertion order.
    Assigning an existing key keeps its place, a new key goes to the end. *)
From Verif Require Import PyBase PyText PySplit.

Notation dict V := (list (text * V)%type).

Fixpoint dget {V} (d : dict V) (k : text) : option V :=
  match d with
  | [] => None
  | (k', v) :: d' => if text_eqb k' k then Some v else dget d' k
  end.
Definition dhas {V} (d : dict V) (k : text) : bool :=
  match dget d k with Some _ => true | None => false end.
Fixpoint dset {V} (d : dict V) (k : text) (v : V) : dict V :=
  match d with
  | [] => [(k, v)]
  | (k', v') :: d' => if text_eqb k' k then (k', v) :: d' else (k', v') :: dset d' k v
  end.
(* removal of a key that may be absent *)
Fixpoint ddel {V} (d : dict V) (k : text) : dict V :=
  match d with
  | [] => []
  | (k', v') :: d' => if text_eqb k' k then d' else (k', v') :: ddel d' k
  end.
Definition dkeys {V} (d : dict V) : list text := map fst d.
(* a dictionary holds each key once *)
Definition dict_ok {V} (d : dict V) : Prop := NoDup (dkeys d).

Lemma dget_in {V} (d : dict V) k v : dget d k = Some v -> In (k, v) d.
Proof.
  induction d as [|[k' v'] d IH]; cbn; [discriminate|]. destruct (text_eqb_spec k' k) as [->|N].
  - injection 1 as ->. now left.
  - intros H. right. now apply IH.
Qed.
Lemma dget_keys {V} (d : dict V) k : dget d k = None <-> ~ In k (dkeys d).
Proof.
  induction d as [|[k' v'] d IH]; cbn; [split; [intros _ []|reflexivity]|].
  destruct (text_eqb_spec k' k) as [->|N].
  - split; [discriminate|]. intros H. destruct H. now left.
  - rewrite IH. intuition.
Qed.
Lemma dget_some_keys {V} (d : dict V) k : (exists v, dget d k = Some v) <-> In k (dkeys d).
Proof.
  destruct (dget d k) eqn:E.
  - split; [intros _|intros _; now eexists]. apply dget_in in E. exact (in_map fst _ _ E).
  - apply dget_keys in E. split; [intros (v & H); discriminate|contradiction].
Qed.
Lemma in_dget {V} (d : dict V) k v : dict_ok d -> In (k, v) d -> dget d k = Some v.
Proof.
  unfold dict_ok. induction d as [|[k' v'] d IH]; cbn; intros D I; [destruct I|].
  inversion D as [|? ? N D']; subst. destruct I as [I|I].
  - injection I as -> ->. now rewrite text_eqb_refl.
  - destruct (text_eqb_spec k' k) as [->|_]; [|now apply IH]. destruct N. exact (in_map fst _ _ I).
Qed.
Lemma dget_dset {V} (d : dict V) k v k' : dget (dset d k v) k' = if text_eqb k k' then Some v else dget d k'.
Proof.
  induction d as [|[a b] d IH]; cbn; [reflexivity|]. destruct (text_eqb_spec a k) as [->|N]; cbn.
  - destruct (text_eqb k k'); reflexivity.
  - rewrite IH. destruct (text_eqb_spec a k') as [->|]; [|reflexivity]. destruct (text_eqb_spec k k'); [congruence|reflexivity].
Qed.
Lemma dset_keys {V} (d : dict V) k v : dkeys (dset d k v) = if dhas d k then dkeys d else dkeys d ++ [k].
Proof.
  unfold dhas. induction d as [|[a b] d IH]; cbn; [reflexivity|]. destruct (text_eqb_spec a k) as [->|N]; cbn; [reflexivity|].
  unfold dkeys in IH. rewrite IH. destruct (dget d k); reflexivity.
Qed.
Lemma dset_ok {V} (d : dict V) k v : dict_ok d -> dict_ok (dset d k v).
Proof.
  unfold dict_ok. intros D. rewrite dset_keys. unfold dhas. destruct (dget d k) eqn:E; [exact D|]. apply dget_keys in E.
  apply NoDup_Add with (a := k) (l := dkeys d); [|now split].
  rewrite <- (app_nil_r (dkeys d)) at 1. apply Add_app.
Qed.
Lemma ddel_absent {V} (d : dict V) k : ~ In k (dkeys d) -> ddel d k = d.
Proof.
  induction d as [|[a b] d IH]; cbn; intros H; [reflexivity|]. destruct (text_eqb_spec a k) as [->|N]; [destruct H; now left|].
  f_equal. apply IH. intuition.
Qed.
Lemma ddel_filter {V} (d : dict V) k : dict_ok d -> ddel d k = filter (fun p => negb (text_eqb (fst p) k)) d.
Proof.
  unfold dict_ok. induction d as [|[a b] d IH]; cbn; intros D; [reflexivity|]. inversion D as [|? ? N D']; subst.
  destruct (text_eqb_spec a k) as [->|E]; cbn; [|now rewrite IH].
  clear IH D D'. induction d as [|[c e] d IH]; [reflexivity|]. cbn in *. destruct (text_eqb_spec c k) as [->|]; [destruct N; now left|].
  cbn. f_equal. apply IH. intuition.
Qed.
Lemma dget_ddel {V} (d : dict V) k k' : dict_ok d -> dget (ddel d k) k' = if text_eqb k k' then None else dget d k'.
Proof.
  unfold dict_ok. induction d as [|[a b] d IH]; cbn; intros D; [destruct (text_eqb k k'); reflexivity|].
  inversion D as [|? ? N D']; subst. destruct (text_eqb_spec a k) as [->|E].
  - destruct (text_eqb_spec k k') as [->|]; [|reflexivity]. now apply dget_keys.
  - cbn. rewrite IH by exact D'. destruct (text_eqb_spec a k') as [->|]; [|reflexivity].
    destruct (text_eqb_spec k k'); [congruence|reflexivity].
Qed.
Lemma ddel_keys_incl {V} (d : dict V) k x : In x (dkeys (ddel d k)) -> In x (dkeys d).
Proof.
  induction d as [|[a b] d IH]; cbn; [auto|]. destruct (text_eqb a k); cbn; intuition.
Qed.
Lemma ddel_ok {V} (d : dict V) k : dict_ok d -> dict_ok (ddel d k).
Proof.
  unfold dict_ok. induction d as [|[a b] d IH]; cbn; intros D; [constructor|]. inversion D as [|? ? N D']; subst.
  destruct (text_eqb a k); [exact D'|]. cbn. constructor; [|now apply IH]. intros I. apply N. exact (ddel_keys_incl d k a I).
Qed.
Lemma ddel_keys {V} (d : dict V) k : dict_ok d -> dkeys (ddel d k) = filter (fun x => negb (text_eqb x k)) (dkeys d).
Proof.
  intros D. rewrite (ddel_filter d k D). unfold dkeys. clear D. induction d as [|[a b] d IH]; [reflexivity|]. cbn.
  destruct (text_eqb a k); cbn; [exact IH|now rewrite IH].
Qed.

(** two dictionaries with the same content (Python ==) *)
Definition deq {V} (d e : dict V) : Prop := forall k, dget d k = dget e k.
