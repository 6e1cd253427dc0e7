(** Python dictionaries with string keys: association lists in insertion order,
    and their basic laws. *)
From Coq Require Import String List Bool Lia.
Import ListNotations.
From Verif Require Import Base.
Local Open Scope list_scope.

Definition dict (V : Type) : Type := list (string * V).

(** [k in d]. *)
Definition dmem {V} (k : string) (d : dict V) : bool := existsb (fun p => String.eqb (fst p) k) d.
(** [d.get(k)]. *)
Fixpoint dget {V} (k : string) (d : dict V) : option V :=
  match d with
  | [] => None
  | (k', v) :: d' => if String.eqb k' k then Some v else dget k d'
  end.
(** [d[k] = v]: a present key keeps its position, a new one is put at the end. *)
Fixpoint dset {V} (k : string) (v : V) (d : dict V) : dict V :=
  match d with
  | [] => [(k, v)]
  | (k', v') :: d' => if String.eqb k' k then (k', v) :: d' else (k', v') :: dset k v d'
  end.
(** The dictionary after [d.pop(k)]. *)
Definition ddel {V} (k : string) (d : dict V) : dict V :=
  filter (fun p => negb (String.eqb (fst p) k)) d.
(** [list(d)]. *)
Definition dkeys {V} (d : dict V) : list string := map fst d.
(** [d.update(e)]. *)
Definition dupdate {V} (d e : dict V) : dict V :=
  fold_left (fun d p => dset (fst p) (snd p) d) e d.

(** Keys occur once. *)
Definition dwf {V} (d : dict V) : Prop := NoDup (dkeys d).
(** Two dictionaries with the same items, in any order. *)
Definition deq {V} (d e : dict V) : Prop := forall k, dget k d = dget k e.

Lemma dget_dset : forall V k k' (v : V) d,
  dget k (dset k' v d) = if String.eqb k' k then Some v else dget k d.
Proof.
  intros V k k' v d. induction d as [|[k0 v0] d IH]; [reflexivity|].
  cbn [dset]. destruct (String.eqb_spec k0 k') as [->|N]; cbn [dget].
  - destruct (String.eqb_spec k' k); reflexivity.
  - rewrite IH. destruct (String.eqb_spec k0 k) as [->|]; [|reflexivity].
    destruct (String.eqb_spec k' k); congruence.
Qed.
Lemma dget_ddel : forall V k k' (d : dict V),
  dget k (ddel k' d) = if String.eqb k' k then None else dget k d.
Proof.
  intros V k k' d. unfold ddel. induction d as [|[k0 v0] d IH]; simpl; [now destruct (String.eqb k' k)|].
  destruct (String.eqb_spec k0 k') as [->|N]; simpl.
  - rewrite IH. now destruct (String.eqb k' k).
  - rewrite IH. destruct (String.eqb_spec k0 k) as [->|]; [|reflexivity].
    destruct (String.eqb_spec k' k); congruence.
Qed.
Lemma dmem_dget : forall V k (d : dict V), dmem k d = match dget k d with Some _ => true | None => false end.
Proof.
  intros V k d. induction d as [|[k0 v0] d IH]; simpl; [reflexivity|].
  destruct (String.eqb k0 k); [reflexivity|exact IH].
Qed.
Lemma dget_in : forall V k v (d : dict V), dget k d = Some v -> In (k, v) d.
Proof.
  intros V k v d. induction d as [|[k0 v0] d IH]; simpl; [discriminate|].
  destruct (String.eqb_spec k0 k) as [->|]; [intros [= ->]; auto|auto].
Qed.
Lemma in_dget : forall V k v (d : dict V), dwf d -> In (k, v) d -> dget k d = Some v.
Proof.
  intros V k v d. unfold dwf, dkeys. induction d as [|[k0 v0] d IH]; simpl; intros W H; [easy|].
  inversion_clear W as [|? ? N W']. destruct (String.eqb_spec k0 k) as [->|Hk].
  - destruct H as [[= ->]|H]; [reflexivity|]. exfalso. apply N. change k with (fst (k, v)). now apply in_map.
  - destruct H as [[= -> ->]|H]; [congruence|auto].
Qed.
Lemma dget_none : forall V k (d : dict V), dget k d = None <-> ~ In k (dkeys d).
Proof.
  intros V k d. unfold dkeys. induction d as [|[k0 v0] d IH]; simpl; [tauto|].
  destruct (String.eqb_spec k0 k) as [->|N]; [|rewrite IH; intuition].
  split; [discriminate|tauto].
Qed.
Lemma dget_keys : forall V k (d : dict V), In k (dkeys d) <-> exists v, dget k d = Some v.
Proof.
  intros V k d. destruct (dget k d) as [v|] eqn:E.
  - split; [eauto|]. intros _. change k with (fst (k, v)). apply in_map, dget_in, E.
  - apply dget_none in E. split; [tauto|]. intros [v [=]].
Qed.
Lemma dkeys_dset : forall V k (v : V) d,
  dkeys (dset k v d) = if dmem k d then dkeys d else dkeys d ++ [k].
Proof.
  intros V k v d. unfold dkeys. induction d as [|[k0 v0] d IH]; [reflexivity|]. cbn [dset dmem existsb].
  simpl. destruct (String.eqb k0 k); [reflexivity|]. simpl. fold (dmem k d). rewrite IH.
  now destruct (dmem k d).
Qed.
Lemma dwf_dset : forall V k (v : V) d, dwf d -> dwf (dset k v d).
Proof.
  intros V k v d W. unfold dwf. rewrite dkeys_dset. destruct (dmem k d) eqn:E; [exact W|].
  rewrite dmem_dget in E. destruct (dget k d) eqn:G; [discriminate|]. apply dget_none in G.
  apply NoDup_rev in W. rewrite <- (rev_involutive (dkeys d ++ [k])). apply NoDup_rev.
  rewrite rev_app_distr. simpl. constructor; [|exact W]. now rewrite <- in_rev.
Qed.
Lemma dwf_ddel : forall V k (d : dict V), dwf d -> dwf (ddel k d).
Proof.
  intros V k d. unfold dwf, dkeys, ddel. induction d as [|[k0 v0] d IH]; simpl; intro W; [constructor|].
  inversion_clear W as [|? ? N W']. destruct (String.eqb k0 k); simpl; auto. constructor; auto.
  intro H. apply N. apply in_map_iff in H. destruct H as (p & E & H). apply filter_In in H.
  apply in_map_iff. exists p. tauto.
Qed.
Lemma ddel_absent : forall V k (d : dict V), dget k d = None -> ddel k d = d.
Proof.
  intros V k d H. unfold ddel. induction d as [|[k0 v0] d IH]; [reflexivity|]. simpl in *.
  destruct (String.eqb k0 k); [discriminate|]. simpl. now rewrite IH.
Qed.
Lemma dset_absent : forall V k (v : V) d, dget k d = None -> dset k v d = (d ++ [(k, v)])%list.
Proof.
  intros V k v d. induction d as [|[k0 v0] d IH]; [reflexivity|]. cbn [dget dset].
  destruct (String.eqb k0 k); [discriminate|]. intro H. simpl. now rewrite IH.
Qed.
Lemma dget_dupdate : forall V k (e d : dict V), dwf e ->
  dget k (dupdate d e) = match dget k e with Some v => Some v | None => dget k d end.
Proof.
  intros V k e. unfold dupdate. induction e as [|[k0 v0] e IH]; intros d W; [reflexivity|].
  inversion_clear W as [|? ? N W']. cbn [fold_left fst snd]. rewrite IH by exact W'. cbn [dget].
  rewrite dget_dset. destruct (String.eqb_spec k0 k) as [->|]; [|reflexivity].
  assert (E : dget k e = None) by now apply dget_none. now rewrite E.
Qed.
