(** Lemmas about clones of estimators. *)
From Coq Require Import String Ascii List Bool ZArith QArith Lia.
Import ListNotations.
From Verif Require Import Base Py Dict ListLemmas Utils_Model Params_Model Params_Proofs Params_Build.
Local Open Scope string_scope.
Local Open Scope list_scope.

(** No object inside a value. *)
Fixpoint free (v : val) : Prop :=
  match v with
  | VObj _ => False
  | VList l => (fix all (l : list val) : Prop := match l with [] => True | x :: l' => free x /\ all l' end) l
  | VDict d => (fix all (l : list (string * val)) : Prop :=
                  match l with [] => True | x :: l' => free (snd x) /\ all l' end) d
  | _ => True
  end.

(** The parameters of [o] and of everything below are values without objects or
    estimators; default properties are set. *)
Fixpoint tidy (d : nat) (w : pworld) (o : nat) : Prop :=
  match d with
  | O => True
  | S d' => dwf (c_sig (class_of w o)) /\ forall k v, dget k (attrs_of w o) = Some v ->
      (v = VNone -> c_default (class_of w o) k = None) /\
      (free v \/ exists j, v = VObj j /\ estimator (class_of w j) = true /\ tidy d' w j)
  end.

(** The same classes and values, with other objects. *)
Definition same_params (d : nat) (w : pworld) (o : nat) (w' : pworld) (o' : nat) : Prop :=
  class_of w' o' = class_of w o /\
  forall k, match pget d w o k with
            | None => pget d w' o' k = None
            | Some v => exists v', pget d w' o' k = Some v' /\
                ((free v /\ v' = v) \/
                 exists j j', v = VObj j /\ v' = VObj j' /\ class_of w' j' = class_of w j)
            end.

Lemma clone_val_free : forall f v w, free v -> clone_val f v w = (w, Ret v).
Proof.
  intros f. fix IH 1. intros v w H. destruct v as [| | | | | |l|]; try reflexivity; [destruct H|].
  cbn [clone_val].
  match goal with |- match ?g l w with _ => _ end = _ => assert (X : g l w = (w, Ret l)) end.
  { cbn [free] in H. induction l as [|x l IHl]; [reflexivity|]. destruct H as (H1 & H2).
    rewrite (IH x w H1). now rewrite (IHl H2). }
  rewrite X. reflexivity.
Qed.

Lemma same_val_refl : forall v, same_val v v = true.
Proof. intros []; try reflexivity. cbn [same_val]. apply Nat.eqb_refl. Qed.

(** ** Extension of the world *)
Lemma class_ext : forall w t i, (i < List.length w)%nat -> class_of (w ++ t) i = class_of w i.
Proof. intros. unfold class_of. now rewrite nth_error_app1. Qed.
Lemma attrs_ext : forall w t i, (i < List.length w)%nat -> attrs_of (w ++ t) i = attrs_of w i.
Proof. intros. unfold attrs_of. now rewrite nth_error_app1. Qed.
Lemma tidy_est : forall w v j, as_estimator w v = Some j -> v = VObj j /\ estimator (class_of w j) = true.
Proof.
  intros w v j H. destruct v; try discriminate. cbn [as_estimator] in H.
  destruct (estimator (class_of w i)) eqn:E; [|discriminate]. now injection H as <-.
Qed.
Lemma free_est : forall w v, free v -> as_estimator w v = None.
Proof. intros w v H. destruct v; try reflexivity. destruct H. Qed.
Lemma est_lt : forall w j, estimator (class_of w j) = true -> (j < List.length w)%nat.
Proof.
  intros w j H. unfold class_of in H. destruct (nth_error w j) eqn:E; [|discriminate].
  apply nth_error_Some. congruence.
Qed.
Lemma est_ext : forall d w t o k v, tidy (S d) w o -> dget k (attrs_of w o) = Some v ->
  as_estimator (w ++ t) v = as_estimator w v.
Proof.
  intros d w t o k v (_ & T) H. destruct (proj2 (T k v H)) as [F|(j & -> & Ej & _)].
  - now rewrite !free_est.
  - cbn [as_estimator]. rewrite class_ext; [reflexivity|now apply est_lt].
Qed.
Lemma tidy_child : forall d w o k v i, tidy (S d) w o -> dget k (attrs_of w o) = Some v ->
  as_estimator w v = Some i -> tidy d w i /\ (i < List.length w)%nat.
Proof.
  intros d w o k v i (_ & T) H E. destruct (tidy_est w v i E) as (-> & Ei).
  destruct (proj2 (T k _ H)) as [[]|(j & [= <-] & _ & Tj)]. split; [exact Tj|now apply est_lt].
Qed.

Lemma tidy_ext : forall d w t o, (o < List.length w)%nat -> tidy d w o -> tidy d (w ++ t) o.
Proof.
  induction d as [|d IH]; intros w t o L T; [exact I|]. destruct T as (W & T). cbn [tidy].
  rewrite class_ext, attrs_ext by exact L. split; [exact W|]. intros k v H. destruct (T k v H) as (A & B).
  split; [exact A|]. destruct B as [B|(j & -> & Ej & Tj)]; [now left|]. right. exists j. split; [reflexivity|].
  pose proof (est_lt w j Ej). rewrite class_ext by assumption. split; [exact Ej|]. now apply IH.
Qed.
Lemma pget_ext : forall d w t o k, tidy d w o -> (o < List.length w)%nat -> pget d (w ++ t) o k = pget d w o k.
Proof.
  induction d as [|d IH]; intros w t o k T L; [reflexivity|]. cbn [pget]. destruct (partition k) as [a r].
  rewrite class_ext, attrs_ext by exact L. destruct (dmem a (c_sig (class_of w o))); [|reflexivity].
  destruct (dget a (attrs_of w o)) as [v|] eqn:E; [|reflexivity]. destruct r as [r|]; [|reflexivity].
  rewrite (est_ext d w t o a v T E). destruct (as_estimator w v) as [i|] eqn:Ei; [|reflexivity].
  apply IH; now apply (tidy_child d w o a v i).
Qed.
Lemma deep_ext : forall d w t o, tidy d w o -> (o < List.length w)%nat -> deep d w o -> deep d (w ++ t) o.
Proof.
  induction d as [|d IH]; intros w t o T L D; [exact D|]. intros k Hk. rewrite class_ext in Hk by exact L.
  destruct (D k Hk) as (P & v & E & H). split; [exact P|]. rewrite attrs_ext by exact L.
  exists v. split; [exact E|]. intros i Hi. rewrite (est_ext d w t o k v T E) in Hi.
  apply IH; [now apply (tidy_child d w o k v i)|now apply (tidy_child d w o k v i)|now apply H].
Qed.
Lemma reach_ext : forall d w t o, tidy d w o -> (o < List.length w)%nat -> reach d (w ++ t) o = reach d w o.
Proof.
  induction d as [|d IH]; intros w t o T L; [reflexivity|]. cbn [reach]. rewrite class_ext by exact L. f_equal.
  apply flat_map_ext. intro a. unfold child. rewrite attrs_ext by exact L.
  destruct (dget a (attrs_of w o)) as [v|] eqn:E; [|reflexivity]. rewrite (est_ext d w t o a v T E).
  destruct (as_estimator w v) as [i|] eqn:Ei; [|reflexivity]. apply IH; now apply (tidy_child d w o a v i).
Qed.

(** ** Parameters of one object *)
Lemma get_shallow : forall d w o, dwf (c_sig (class_of w o)) ->
  (forall k, In k (dkeys (c_sig (class_of w o))) -> dget k (attrs_of w o) <> None) ->
  exists ps, get_params (S d) w o false = Ret ps /\ dkeys ps = dkeys (c_sig (class_of w o)) /\
    forall k, In k (dkeys ps) -> dget k ps = dget k (attrs_of w o).
Proof.
  intros d w o W H. rewrite get_params_step.
  assert (X : forall l out, NoDup (dkeys out ++ l) -> (forall k, In k l -> dget k (attrs_of w o) <> None) ->
    exists ps, fold_left (get_step d w o false) l (Ret out) = Ret ps /\ dkeys ps = dkeys out ++ l /\
      (forall k, In k l -> dget k ps = dget k (attrs_of w o)) /\
      (forall k, In k (dkeys out) -> dget k ps = dget k out)).
  { induction l as [|a l IH]; intros out N Hl.
    - exists out. rewrite app_nil_r. split; [reflexivity|]. split; [reflexivity|]. split; [intros k []|reflexivity].
    - destruct (dget a (attrs_of w o)) as [v|] eqn:E; [|exfalso; apply (Hl a (or_introl eq_refl)); exact E].
      assert (St : get_step d w o false (Ret out) a = Ret (dset a v out)) by (unfold get_step; now rewrite E).
      assert (Na : ~ In a (dkeys out)).
      { intro X. apply NoDup_remove_2 in N. apply N, in_app_iff. now left. }
      assert (K : dkeys (dset a v out) = dkeys out ++ [a]).
      { rewrite dkeys_dset. destruct (dmem a out) eqn:M; [|reflexivity]. now apply dmem_keys in M. }
      destruct (IH (dset a v out)) as (ps & Ep & Kp & Gp & Op).
      + rewrite K, <- app_assoc. exact N.
      + intros k Hk. apply Hl. now right.
      + exists ps. cbn [fold_left]. rewrite St. split; [exact Ep|]. split; [rewrite Kp, K, <- app_assoc; reflexivity|].
        split.
        * intros k [<-|Hk]; [|now apply Gp]. rewrite Op.
          -- rewrite dget_dset, String.eqb_refl. now symmetry.
          -- rewrite K. apply in_app_iff. right. now left.
        * intros k Hk. rewrite Op.
          -- rewrite dget_dset. destruct (String.eqb_spec a k) as [->|]; [contradiction|reflexivity].
          -- rewrite K. apply in_app_iff. now left. }
  destruct (X (dkeys (c_sig (class_of w o))) []) as (ps & Ep & Kp & Gp & _).
  - exact W.
  - exact H.
  - exists ps. split; [exact Ep|]. split; [exact Kp|]. intros k Hk. apply Gp. now rewrite Kp in Hk.
Qed.

Lemma dget_map_own : forall own sig k, dget k (map (fun p => (fst p, own_or own (fst p) (snd p))) sig) =
  match dget k sig with Some d => Some (own_or own k d) | None => None end.
Proof.
  intros own sig k. induction sig as [|[a d] sig IH]; [reflexivity|]. cbn [map fst snd dget].
  destruct (String.eqb_spec a k) as [->|]; [reflexivity|exact IH].
Qed.

Lemma filter_all : forall A (f : A -> bool) l, (forall x, In x l -> f x = true) -> filter f l = l.
Proof.
  induction l as [|a l IH]; intro H; [reflexivity|]. cbn [filter]. rewrite (H a (or_introl eq_refl)). f_equal.
  apply IH. intros x Hx. apply H. now right.
Qed.
Lemma filter_none : forall A (f : A -> bool) l, (forall x, In x l -> f x = false) -> filter f l = [].
Proof.
  induction l as [|a l IH]; intro H; [reflexivity|]. cbn [filter]. rewrite (H a (or_introl eq_refl)).
  apply IH. intros x Hx. apply H. now right.
Qed.

Section Clone.
Variable default_window : val.
Variable construct_tracker : val -> outcome val.

Lemma set_nothing : forall d o w, set_params default_window construct_tracker (S d) o [] w = (w, Ret tt).
Proof.
  intros d o w. cbn [set_params]. rewrite rename_known by (intros k []). reflexivity.
Qed.

(** Call of a class with all its own parameters. *)
Lemma construct_own : forall d c ps w, dwf (c_sig c) -> dkeys ps = dkeys (c_sig c) ->
  (forall k, In k (dkeys (c_sig c)) -> plain k) ->
  (forall k v, dget k ps = Some v -> v = VNone -> c_default c k = None) ->
  construct default_window construct_tracker (S d) c ps w =
    (w ++ [(c, map (fun p => (fst p, own_or ps (fst p) (snd p))) (c_sig c))], Ret (List.length w)).
Proof.
  intros d c ps w W K P N. unfold construct.
  assert (M : forall k, In k (dkeys ps) -> dmem k (c_sig c) = true).
  { intros k Hk. apply dmem_keys. now rewrite <- K. }
  rewrite rename_known.
  2:{ intros k Hk. rewrite K in Hk. rewrite (plain_partition k (P k Hk)). cbn [fst]. now apply dmem_keys. }
  rewrite (filter_none _ (fun p => negb (dmem (fst p) (c_sig c)))).
  2:{ intros [k v] Hk. apply negb_false_iff. apply M. now apply in_map. }
  rewrite (filter_all _ (fun p => dmem (fst p) (c_sig c))) by (intros [k v] Hk; apply M; now apply in_map).
  rewrite andb_false_r. rewrite build_plain; [|intros k d' Hk|exact W].
  - now rewrite set_nothing.
  - assert (Hk' : In k (dkeys ps)) by (rewrite K; change k with (fst (k, d')); now apply in_map).
    apply dget_keys in Hk'. destruct Hk' as [v Hv]. unfold own_or. rewrite Hv.
    destruct (c_default c k) eqn:E; [|now left]. right. intros ->.
    specialize (N k VNone Hv eq_refl). congruence.
Qed.

Definition copy_of (d : nat) : nat -> pworld -> pworld * outcome val := fun i w =>
  if estimator (class_of w i)
  then match clone default_window construct_tracker d i w with
       | (w, Ret j) => (w, Ret (VObj j)) | (w, Raise e m) => (w, Raise e m) end
  else (w ++ [(COther, [])], Ret (VObj (List.length w))).
Lemma clone_step : forall d o w, clone default_window construct_tracker (S d) o w =
    match get_params d w o false with
    | Raise e m => (w, Raise e m)
    | Ret ps =>
      match clone_dict (copy_of d) ps w with
      | (w, Raise e m) => (w, Raise e m)
      | (w, Ret ps) =>
        match construct default_window construct_tracker d (class_of w o) ps w with
        | (w, Raise e m) => (w, Raise e m)
        | (w, Ret o') =>
          match get_params d w o' false with
          | Raise e m => (w, Raise e m)
          | Ret set =>
            if forallb (fun p => match dget (fst p) set with Some v => same_val (snd p) v | None => false end) ps
            then (w, Ret o')
            else (w, Raise RuntimeError "Cannot clone object")
          end
        end
      end
    end.
Proof. reflexivity. Qed.

Definition clones (d : nat) : Prop := forall w o, tidy d w o -> estimator (class_of w o) = true -> deep d w o ->
  exists t o', clone default_window construct_tracker (S d) o w = (w ++ t, Ret o') /\ tidy d (w ++ t) o' /\
    (forall i, In i (reach d (w ++ t) o') -> (List.length w <= i < List.length (w ++ t))%nat) /\
    NoDup (reach d (w ++ t) o') /\ deep d (w ++ t) o' /\ same_params d w o (w ++ t) o'.

(** A cloned value. *)
Definition cloned (d : nat) (w w' : pworld) (v v' : val) : Prop :=
  (free v /\ v' = v) \/
  exists j j', v = VObj j /\ v' = VObj j' /\ estimator (class_of w j) = true /\
    deep d w' j' /\ tidy d w' j' /\ same_params d w j w' j'.

Lemma pget_ref : forall d w k o v, tidy d w o -> pget d w o k = Some v ->
  free v \/ exists j, v = VObj j /\ (j < List.length w)%nat.
Proof.
  induction d as [|d IH]; intros w k o v T G; [discriminate|].
  cbn [pget] in G. destruct (partition k) as [a r]. destruct (dmem a _); [|discriminate].
  destruct (dget a (attrs_of w o)) as [x|] eqn:Ex; [|discriminate]. destruct r as [r|].
  - destruct (as_estimator w x) as [i|] eqn:Ei; [|discriminate]. apply (IH w r i v); [|exact G].
    now apply (tidy_child d w o a x i).
  - injection G as <-. destruct T as (_ & T). destruct (proj2 (T a x Ex)) as [F|(j & -> & Ej & _)]; [now left|].
    right. exists j. split; [reflexivity|now apply est_lt].
Qed.
Lemma same_params_ext : forall d w t o w' o' t', tidy d w o -> (o < List.length w)%nat -> tidy d w' o' ->
  (o' < List.length w')%nat -> same_params d (w ++ t) o w' o' -> same_params d w o (w' ++ t') o'.
Proof.
  intros d w t o w' o' t' T L T' L' (C & H). split; [rewrite class_ext by exact L'; rewrite C; now apply class_ext|].
  intro k. specialize (H k). rewrite pget_ext in H by assumption. rewrite pget_ext by assumption.
  destruct (pget d w o k) as [v|] eqn:Ev; [|exact H]. destruct H as (v' & Ev' & H). exists v'. split; [exact Ev'|].
  destruct H as [H|(j & j' & -> & -> & Hc)]; [now left|]. right. exists j, j'. split; [reflexivity|]. split; [reflexivity|].
  destruct (pget_ref d w k o _ T Ev) as [[]|(x & [= <-] & Lx)]. destruct (pget_ref d w' k o' _ T' Ev') as [[]|(y & [= <-] & Ly)].
  rewrite class_ext by exact Ly. rewrite Hc. now apply class_ext.
Qed.

(** Cloning of the parameters, one after the other. *)
Definition reach_val (d : nat) (w : pworld) (v : val) : list nat :=
  match as_estimator w v with Some i => reach d w i | None => [] end.

Lemma clone_children : forall d w, clones d -> forall l t0,
  (forall k v, In (k, v) l -> free v \/
     exists j, v = VObj j /\ estimator (class_of w j) = true /\ deep d w j /\ tidy d w j) ->
  exists t l', clone_dict (copy_of (S d)) l (w ++ t0) = (w ++ t0 ++ t, Ret l') /\
    dkeys l' = dkeys l /\
    Forall2 (fun p p' => fst p' = fst p /\ cloned d w (w ++ t0 ++ t) (snd p) (snd p')) l l' /\
    NoDup (flat_map (fun p => reach_val d (w ++ t0 ++ t) (snd p)) l') /\
    (forall i, In i (flat_map (fun p => reach_val d (w ++ t0 ++ t) (snd p)) l') ->
       (List.length (w ++ t0) <= i < List.length (w ++ t0 ++ t))%nat).
Proof.
  intros d w IHd l. induction l as [|[k v] l IH]; intros t0 H.
  - exists [], []. rewrite app_nil_r. cbn [clone_dict flat_map]. split; [reflexivity|].
    split; [reflexivity|]. split; [constructor|]. split; [constructor|]. intros i [].
  - cbn [clone_dict]. destruct (H k v (or_introl eq_refl)) as [F|(j & -> & Ej & Dj & Tj)].
    + rewrite clone_val_free by exact F.
      destruct (IH t0) as (t & l' & E & K & F2 & N & B).
      { intros k' v' Hin. apply (H k'). now right. }
      rewrite E. exists t, ((k, v) :: l'). split; [reflexivity|].
      split; [cbn [dkeys map fst]; now f_equal|].
      split; [constructor; [split; [reflexivity|left; split; [exact F|reflexivity]]|exact F2]|].
      cbn [flat_map snd]. unfold reach_val at 1. rewrite free_est by exact F. cbn [app]. split; [exact N|].
      unfold reach_val at 1. rewrite free_est by exact F. exact B.
    + assert (Lj : (j < List.length w)%nat) by now apply est_lt.
      assert (Lj0 : (j < List.length (w ++ t0))%nat) by (rewrite app_length; lia).
      assert (E0 : estimator (class_of (w ++ t0) j) = true) by (now rewrite class_ext).
      destruct (IHd (w ++ t0) j (tidy_ext d w t0 j Lj Tj) E0 (deep_ext d w t0 j Tj Lj Dj))
        as (t1 & j' & E1 & T1 & B1 & N1 & D1 & S1).
      cbn [clone_val]. unfold copy_of at 1. rewrite E0, E1.
      rewrite <- app_assoc in *.
      assert (Bj : In j' (reach d (w ++ t0 ++ t1) j')).
      { destruct d; [destruct Dj|]. now left. }
      pose proof (B1 j' Bj) as Lj'.
      destruct (IH (t0 ++ t1)) as (t & l' & E & K & F2 & N & B).
      { intros k' v' Hin. apply (H k'). now right. }
      rewrite <- !app_assoc in E, F2, N, B.
      replace (w ++ t0 ++ t1 ++ t) with ((w ++ t0 ++ t1) ++ t) in * by (now rewrite <- !app_assoc).
      rewrite E. exists (t1 ++ t), ((k, VObj j') :: l').
      replace (w ++ t0 ++ t1 ++ t) with ((w ++ t0 ++ t1) ++ t) by (now rewrite <- !app_assoc).
      assert (Re : reach_val d ((w ++ t0 ++ t1) ++ t) (VObj j') = reach d (w ++ t0 ++ t1) j').
      { unfold reach_val. cbn [as_estimator]. rewrite class_ext by lia. rewrite (proj1 S1), E0.
        apply reach_ext; [exact T1|lia]. }
      split; [reflexivity|]. split; [cbn [dkeys map fst]; now f_equal|].
      split; [constructor; [|exact F2]|].
      { split; [reflexivity|]. right. exists j, j'. split; [reflexivity|]. split; [reflexivity|]. split; [exact Ej|].
        split; [apply deep_ext; [exact T1|lia|exact D1]|]. split; [apply tidy_ext; [lia|exact T1]|].
        apply (same_params_ext d w t0 j (w ++ t0 ++ t1) j' t); try assumption. lia. }
      cbn [flat_map snd]. rewrite Re. rewrite !app_length in *. split.
      * assert (X : forall A (p q : list A), NoDup p -> NoDup q -> (forall x, In x p -> In x q -> False) -> NoDup (p ++ q)).
        { induction p as [|x p IHp]; intros q Np Nq Hd; [exact Nq|]. inversion_clear Np as [|? ? Nx Np'].
          cbn [app]. constructor; [|apply IHp; auto; intros y Hy; apply Hd; now right].
          rewrite in_app_iff. intros [Hx|Hx]; [contradiction|]. apply (Hd x); [now left|exact Hx]. }
        apply X; [exact N1|exact N|]. intros x Hx Hy. apply B1 in Hx. apply B in Hy. lia.
      * intros i Hi. apply in_app_iff in Hi. destruct Hi as [Hi|Hi].
        -- apply B1 in Hi. lia.
        -- apply B in Hi. lia.
Qed.

Lemma Forall2_dget : forall (R : val -> val -> Prop) (l l' : dict val),
  Forall2 (fun p p' => fst p' = fst p /\ R (snd p) (snd p')) l l' ->
  forall k, match dget k l with
            | Some v => exists v', dget k l' = Some v' /\ R v v'
            | None => dget k l' = None
            end.
Proof.
  intros R l l' H k. induction H as [|[a v] [a' v'] l l' [E Rv] H IH]; [reflexivity|].
  cbn [fst snd] in *. subst a'. cbn [dget]. destruct (String.eqb a k); [|exact IH]. eauto.
Qed.

Theorem clone_ok : forall d, clones d.
Proof.
  induction d as [|d IH]; intros w o T Es D; [destruct D|].
  pose proof (est_lt w o Es) as Lo.
  destruct (nth_error w o) as [[c a]|] eqn:Eo; [|apply nth_error_None in Eo; lia].
  assert (Ec : class_of w o = c) by (unfold class_of; now rewrite Eo).
  assert (Ea : attrs_of w o = a) by (unfold attrs_of; now rewrite Eo).
  destruct T as (W & Ta). rewrite Ec in W, Ta. rewrite Ea in Ta.
  assert (Pl : forall k, In k (dkeys (c_sig c)) -> plain k) by (intros k Hk; apply (D k); now rewrite Ec).
  destruct (get_shallow d w o) as (ps & Ep & Kp & Gp).
  { now rewrite Ec. }
  { intros k Hk. destruct (D k Hk) as (_ & v & Ev & _). congruence. }
  rewrite Ec in Kp. rewrite Ea in Gp.
  assert (Wp : dwf ps) by (unfold dwf; now rewrite Kp).
  destruct (clone_children d w IH ps []) as (t & ps' & Ed & K1 & F2 & N1 & B1).
  { intros k v Hin. apply in_dget in Hin; [|exact Wp].
    assert (Hk : In k (dkeys ps)) by (apply dget_keys; eauto). rewrite Gp in Hin by exact Hk.
    destruct (proj2 (Ta k v Hin)) as [F|(j & -> & Ej & Tj)]; [now left|]. right. exists j. split; [reflexivity|].
    split; [exact Ej|]. split; [|exact Tj]. rewrite Kp, <- Ec in Hk. destruct (D k Hk) as (_ & x & Ex & Hx). rewrite Ea, Hin in Ex.
    injection Ex as <-. apply Hx. cbn [as_estimator]. now rewrite Ej. }
  rewrite app_nil_r in Ed, B1. cbn [app] in *. set (w1 := w ++ t) in *.
  assert (Kp' : dkeys ps' = dkeys (c_sig c)) by (now rewrite K1).
  assert (Wp' : dwf ps') by (unfold dwf; now rewrite Kp').
  pose proof (Forall2_dget _ _ _ F2) as Fd. clear F2.
  assert (L1 : (List.length w <= List.length w1)%nat) by (unfold w1; rewrite app_length; lia).
  set (at2 := map (fun p => (fst p, own_or ps' (fst p) (snd p))) (c_sig c)).
  set (w2 := w1 ++ [(c, at2)]).
  assert (L2 : List.length w2 = S (List.length w1)) by (unfold w2; rewrite app_length; cbn [List.length]; lia).
  assert (Eo' : nth_error w2 (List.length w1) = Some (c, at2)).
  { unfold w2. rewrite nth_error_app2 by lia. now rewrite Nat.sub_diag. }
  assert (Ec' : class_of w2 (List.length w1) = c) by (unfold class_of; now rewrite Eo').
  assert (Ea' : attrs_of w2 (List.length w1) = at2) by (unfold attrs_of; now rewrite Eo').
  (* the attributes of the clone *)
  assert (G2 : forall k, dget k at2 = dget k ps').
  { intro k. unfold at2. rewrite dget_map_own. destruct (dget k (c_sig c)) as [v|] eqn:E.
    - assert (Hk : In k (dkeys ps')) by (rewrite Kp'; apply dget_keys; eauto).
      apply dget_keys in Hk. destruct Hk as [v' Hv']. unfold own_or. now rewrite Hv'.
    - symmetry. apply dget_none. rewrite Kp'. now apply dget_none. }
  assert (G1 : forall k v', dget k at2 = Some v' -> exists v, dget k a = Some v /\ In k (dkeys (c_sig c)) /\ cloned d w w1 v v').
  { intros k v' H. rewrite G2 in H. specialize (Fd k). destruct (dget k ps) as [v|] eqn:E; [|congruence].
    assert (Hk : In k (dkeys ps)) by (apply dget_keys; eauto). rewrite Gp in E by exact Hk. exists v.
    split; [exact E|]. split; [now rewrite <- Kp|]. destruct Fd as (x & Ex & Hx). congruence. }
  assert (Cl : forall k i, dget k at2 = Some (VObj i) ->
            (List.length w <= i < List.length w1)%nat /\ estimator (class_of w1 i) = true /\ deep d w1 i /\ tidy d w1 i).
  { intros k i H. destruct (G1 k _ H) as (v & _ & _ & [[F E]|(j & j' & -> & E & Ej & Dj & Tj & Sj)]).
    { rewrite <- E in F. destruct F. }
    injection E as ->. assert (E' : estimator (class_of w1 j') = true) by (now rewrite (proj1 Sj)).
    split; [|split; [assumption|split; assumption]].
    apply B1. apply in_flat_map. exists (k, VObj j'). rewrite G2 in H. split; [now apply dget_in|].
    unfold reach_val. cbn [snd as_estimator]. rewrite E'. destruct d; [destruct Dj|]. now left. }
  assert (T2 : tidy (S d) w2 (List.length w1)).
  { cbn [tidy]. rewrite Ec', Ea'. split; [exact W|]. intros k v G. split.
    - intros ->. destruct (G1 k _ G) as (v & Ev & _ & [[_ E]|(j & j' & _ & E & _)]); [|discriminate].
      apply (proj1 (Ta k v Ev)). now symmetry.
    - destruct (G1 k _ G) as (x & _ & _ & [[F E]|(j & j' & _ & E & _)]); [left; now rewrite E|]. subst v.
      right. exists j'. destruct (Cl k j' G) as (X & Y & _ & Z). split; [reflexivity|].
      split; [unfold w2; rewrite class_ext by lia; exact Y|]. unfold w2. apply tidy_ext; [lia|exact Z]. }
  assert (Re : reach (S d) w2 (List.length w1) = List.length w1 :: flat_map (fun p => reach_val d w1 (snd p)) ps').
  { cbn [reach]. f_equal. rewrite Ec', <- Kp'.
    assert (X : forall l, incl l ps' -> flat_map (fun a0 => match child w2 (List.length w1) a0 with
              Some i => reach d w2 i | None => [] end) (dkeys l) = flat_map (fun p => reach_val d w1 (snd p)) l).
    { induction l as [|[k v] l IHl]; intro In0; [reflexivity|]. cbn [dkeys map fst flat_map snd]. f_equal.
      - assert (Hk : dget k ps' = Some v) by (apply in_dget; [exact Wp'|]; apply In0; now left).
        unfold child. rewrite Ea', G2, Hk. unfold reach_val.
        destruct v; try reflexivity. rewrite <- G2 in Hk. destruct (Cl k i Hk) as (Y1 & Y2 & _ & Y4).
        assert (Y3 : estimator (class_of w2 i) = true) by (unfold w2; now rewrite class_ext).
        cbn [as_estimator]. rewrite Y2, Y3. unfold w2. apply reach_ext; [exact Y4|lia].
      - apply IHl. intros x Hx. apply In0. now right. }
    apply X. apply incl_refl. }
  exists (t ++ [(c, at2)]), (List.length w1).
  replace (w ++ t ++ [(c, at2)]) with w2 by (unfold w2, w1; now rewrite <- app_assoc).
  split.
  { rewrite clone_step, Ep, Ed. replace (class_of w1 o) with c by (unfold w1; now rewrite class_ext).
    rewrite construct_own; [|exact W|exact Kp'|exact Pl|].
    2:{ intros k v Hk Hv. rewrite <- G2 in Hk. subst v.
        destruct (G1 k _ Hk) as (v & Ev & _ & [[_ E]|(j & j' & _ & E & _)]); [|discriminate].
        apply (proj1 (Ta k v Ev)). now symmetry. }
    fold at2. fold w2. destruct (get_shallow d w2 (List.length w1)) as (s & E & Ks & Gs).
    { now rewrite Ec'. }
    { intros k Hk. rewrite Ec', <- Kp' in Hk. rewrite Ea', G2. intro N. apply dget_none in N. contradiction. }
    rewrite E. replace (forallb _ ps') with true; [reflexivity|]. symmetry. apply forallb_forall.
    intros [k v] Hk. cbn [fst snd]. pose proof (in_dget _ _ _ _ Wp' Hk) as Hv.
    assert (Hk' : In k (dkeys s)) by (rewrite Ks, Ec', <- Kp'; apply dget_keys; eauto).
    rewrite (Gs k Hk'), Ea', G2, Hv. apply same_val_refl. }
  split; [exact T2|]. split.
  { rewrite Re. intros i [<-|Hi]; [lia|]. apply B1 in Hi. lia. }
  split.
  { rewrite Re. constructor; [|exact N1]. intro Hi. apply B1 in Hi. lia. }
  split.
  { intros k Hk. rewrite Ec' in Hk. split; [now apply Pl|]. rewrite Ea'. rewrite <- Kp' in Hk.
    apply dget_keys in Hk. destruct Hk as [v Hv]. rewrite <- G2 in Hv. exists v. split; [exact Hv|].
    intros i Hi. apply tidy_est in Hi. destruct Hi as (-> & _). destruct (Cl k i Hv) as (X & Y & Z & Z').
    unfold w2. apply deep_ext; [exact Z'|lia|exact Z]. }
  split; [now rewrite Ec, Ec'|].
  intro k. cbn [pget]. destruct (partition k) as [b r]. rewrite Ec, Ec'.
  destruct (dmem b (c_sig c)) eqn:M; [|reflexivity]. rewrite Ea, Ea'.
  assert (Hb : In b (dkeys ps)) by (rewrite Kp; now apply dmem_keys).
  specialize (Fd b). rewrite (Gp b Hb) in Fd. rewrite G2.
  destruct (dget b a) as [v|] eqn:Ev; [|now rewrite Fd]. destruct Fd as (v' & Ev' & Hc). rewrite Ev'.
  assert (Hv2 : dget b at2 = Some v') by (now rewrite G2).
  destruct r as [r|].
  - destruct Hc as [[F ->]|(j & j' & -> & -> & Ej & Dj & Tj & Sj)].
    + now rewrite !free_est.
    + cbn [as_estimator]. rewrite Ej. destruct (Cl b j' Hv2) as (X & Y & _ & Z).
      destruct (proj2 (Ta b _ Ev)) as [[]|(j1 & [= <-] & _ & Tj1)].
      assert (Y3 : estimator (class_of w2 j') = true) by (unfold w2; now rewrite class_ext).
      rewrite Y3.
      assert (S2 : same_params d w j w2 j').
      { unfold w2. apply (same_params_ext d w [] j w1 j'); try assumption; [now apply est_lt|lia|]. now rewrite app_nil_r. }
      apply (proj2 S2 r).
  - exists v'. split; [reflexivity|]. destruct Hc as [H|(j & j' & -> & -> & Ej & Dj & Tj & Sj)]; [now left|].
    right. exists j, j'. split; [reflexivity|]. split; [reflexivity|]. destruct (Cl b j' Hv2) as (X & _).
    unfold w2. rewrite class_ext by lia. apply Sj.
Qed.
End Clone.
