(** Properties of the parameters of estimators: C65, C66, C67. *)
From Coq Require Import String Ascii List Bool ZArith QArith Lia.
Import ListNotations.
From Verif Require Import Base Py Dict ListLemmas Utils_Model Params_Model Params_Proofs Params_Build Params_Clone.
Local Open Scope string_scope.
Local Open Scope list_scope.
Local Open Scope nat_scope.

(** ** Auxiliary lemmas *)

Lemma deep_mono : forall d w o, deep d w o -> deep (S d) w o.
Proof.
  induction d as [|d IH]; intros w o D; [destruct D|]. intros k Hk. destruct (D k Hk) as (P & v & E & H).
  split; [exact P|]. exists v. split; [exact E|]. intros i Hi. apply IH. now apply H.
Qed.
Lemma pget_mono : forall d w o k, deep d w o -> pget (S d) w o k = pget d w o k.
Proof.
  induction d as [|d IH]; intros w o k D; [destruct D|]. cbn [pget]. destruct (partition k) as [a r].
  destruct (dmem a (c_sig (class_of w o))) eqn:M; [|reflexivity].
  destruct (dget a (attrs_of w o)) as [v|] eqn:E; [|reflexivity]. destruct r as [r|]; [|reflexivity].
  destruct (as_estimator w v) as [i|] eqn:Ei; [|reflexivity]. apply (IH w i r).
  apply (deep_child d w o a i D M). unfold child. now rewrite E.
Qed.

(** A parameter that is an estimator is below the object, not itself. *)
Lemma pget_below : forall d w o k j, deep (S d) w o -> pget (S d) w o k = Some (VObj j) ->
  estimator (class_of w j) = true ->
  In j (flat_map (fun a => match child w o a with Some i => reach d w i | None => [] end)
                 (dkeys (c_sig (class_of w o)))).
Proof.
  induction d as [|d IH]; intros w o k j D G Ej; cbn [pget] in G; destruct (partition k) as [a r];
    destruct (dmem a (c_sig (class_of w o))) eqn:M; try discriminate G;
    destruct (dget a (attrs_of w o)) as [v|] eqn:Ev; try discriminate G.
  - destruct r as [r|]; [destruct (as_estimator w v); discriminate G|]. injection G as ->.
    exfalso. pose proof (proj1 (dmem_keys _ _ _) M) as Ha. destruct (D a Ha) as (_ & x & Ex & H). rewrite Ev in Ex. injection Ex as <-.
    exact (H j ltac:(cbn [as_estimator]; now rewrite Ej)).
  - apply in_flat_map. exists a. split; [now apply dmem_keys|]. unfold child. rewrite Ev. destruct r as [r|].
    + destruct (as_estimator w v) as [i|] eqn:Ei; [|discriminate G]. right. apply (IH w i r j); [|exact G|exact Ej].
      apply (deep_child (S d) w o a i D M). unfold child. now rewrite Ev.
    + injection G as ->. cbn [as_estimator]. rewrite Ej. now left.
Qed.
Lemma pget_reach : forall d w o k j, deep d w o -> pget d w o k = Some (VObj j) -> estimator (class_of w j) = true ->
  In j (reach d w o).
Proof. intros [|d] w o k j D G E; [destruct D|]. right. exact (pget_below d w o k j D G E). Qed.

(** Different names, different estimators. *)
Lemma pget_inj : forall d w o k k' j, deep d w o -> NoDup (reach d w o) ->
  pget d w o k = Some (VObj j) -> pget d w o k' = Some (VObj j) -> estimator (class_of w j) = true -> k = k'.
Proof.
  induction d as [|d IH]; intros w o k k' j D N G G' Ej; [destruct D|]. cbn [pget] in G, G'.
  destruct (partition k) as [a r] eqn:Pk. destruct (partition k') as [a' r'] eqn:Pk'.
  destruct (dmem a _) eqn:M; [|discriminate]. destruct (dmem a' _) eqn:M'; [|discriminate].
  destruct (dget a (attrs_of w o)) as [v|] eqn:E; [|discriminate].
  destruct (dget a' (attrs_of w o)) as [v'|] eqn:E'; [|discriminate].
  (* the estimator held by the own parameter *)
  assert (C : exists i, child w o a = Some i /\ In j (reach d w i)).
  { unfold child. rewrite E. destruct r as [r|].
    - destruct (as_estimator w v) as [i|] eqn:Ei; [|discriminate]. exists i. split; [reflexivity|].
      apply (pget_reach d w i r); [|exact G|exact Ej]. apply (deep_child d w o a i D M). unfold child. now rewrite E.
    - injection G as ->. cbn [as_estimator]. rewrite Ej. exists j. split; [reflexivity|].
      assert (Dj : deep d w j). { apply (deep_child d w o a j D M). unfold child. rewrite E. cbn [as_estimator]. now rewrite Ej. }
      destruct d; [destruct Dj|now left]. }
  assert (C' : exists i, child w o a' = Some i /\ In j (reach d w i)).
  { unfold child. rewrite E'. destruct r' as [r'|].
    - destruct (as_estimator w v') as [i|] eqn:Ei; [|discriminate]. exists i. split; [reflexivity|].
      apply (pget_reach d w i r'); [|exact G'|exact Ej]. apply (deep_child d w o a' i D M'). unfold child. now rewrite E'.
    - injection G' as ->. cbn [as_estimator]. rewrite Ej. exists j. split; [reflexivity|].
      assert (Dj : deep d w j). { apply (deep_child d w o a' j D M'). unfold child. rewrite E'. cbn [as_estimator]. now rewrite Ej. }
      destruct d; [destruct Dj|now left]. }
  destruct C as (i & Ci & Ri). destruct C' as (i' & Ci' & Ri').
  destruct (string_dec a a') as [<-|Na].
  2:{ exfalso. exact (reach_disjoint d w o a i a' i' j N M Ci M' Ci' Na Ri Ri'). }
  rewrite Ci in Ci'. injection Ci' as <-. rewrite E in E'. injection E' as <-.
  pose proof (proj1 (reach_nodup_child d w o a i N M Ci)) as Ni. pose proof (deep_child d w o a i D M Ci) as Di.
  assert (Ai : as_estimator w v = Some i) by (unfold child in Ci; now rewrite E in Ci).
  assert (Self : forall q, pget d w i q = Some (VObj i) -> estimator (class_of w i) = true -> False).
  { intros q Gq Eq. destruct d; [destruct Di|]. cbn [reach] in Ni. inversion_clear Ni as [|? ? Hn _]. apply Hn.
    exact (pget_below d w i q i Di Gq Eq). }
  destruct r as [r|], r' as [r'|].
  - rewrite Ai in G, G'. pose proof (IH w i r r' j Di Ni G G' Ej) as ->.
    apply partition_sub in Pk, Pk'. congruence.
  - exfalso. injection G' as ->. cbn [as_estimator] in Ai. rewrite Ej in Ai. injection Ai as <-.
    cbn [as_estimator] in G. rewrite Ej in G. exact (Self r G Ej).
  - exfalso. injection G as ->. cbn [as_estimator] in Ai. rewrite Ej in Ai. injection Ai as <-.
    cbn [as_estimator] in G'. rewrite Ej in G'. exact (Self r' G' Ej).
  - apply partition_none in Pk, Pk'. congruence.
Qed.

Lemma partition_head : forall s b k r, partition s = (String b k, r) -> exists s', s = String b s'.
Proof.
  intros [|c s] b k r H; [discriminate|]. rewrite partition_cons in H.
  destruct (if Ascii.eqb c "_" then s else "") as [|x y].
  - destruct (partition s). injection H as <- _. eauto.
  - destruct (Ascii.eqb x "_"); [discriminate|]. destruct (partition s). injection H as <- _. eauto.
Qed.
Lemma partition_first : forall s, partition (fst (partition s)) = (fst (partition s), None).
Proof.
  induction s as [|c s IH]; [reflexivity|]. rewrite partition_cons. destruct (Ascii.eqb c "_") eqn:Ec.
  - destruct s as [|b s]; [cbn [partition]; cbn; rewrite Ec; reflexivity|].
    destruct (Ascii.eqb b "_") eqn:Eb; [reflexivity|].
    destruct (partition (String b s)) as [k r] eqn:Pk. cbn [fst] in *. rewrite partition_cons, Ec.
    destruct k as [|x k]; [reflexivity|]. destruct (partition_head _ _ _ _ Pk) as [s' [= -> _]]. rewrite Eb.
    now rewrite IH.
  - destruct (partition s) as [k r] eqn:Pk. cbn [fst] in *. rewrite partition_cons, Ec. now rewrite IH.
Qed.

Lemma nth_error_skipn : forall A (l : list A) n i, nth_error (skipn n l) i = nth_error l (n + i).
Proof. induction l as [|a l IH]; intros [|n] i; try reflexivity; [now destruct i|]. cbn [skipn Nat.add nth_error]. apply IH. Qed.

Section Props.
(** The default window, which is an array, and the effect of calling a class
    given as [sine_tracker_cls]: arbitrary. *)
Variable default_window : val.
Variable construct_tracker : val -> outcome val.
Hypothesis window_value : no_object default_window.
Local Notation set_params := (set_params default_window construct_tracker).
Local Notation clone := (clone default_window construct_tracker).
Local Notation construct := (construct default_window construct_tracker).

Lemma window_est : forall w, as_estimator w default_window = None.
Proof. intro w. now apply no_object_est. Qed.

(** ** C65: set_params *)

(** For a model whose estimators are nested at most [d] deep, none of them at
    two places, and for values of parameters that hold values and get values:
    exactly the named parameters change, at any depth, and no object outside of
    the model.  [None] is such a value for parameters without a default
    object. *)
Theorem c65_set_params : forall d w o kwargs ps,
  deep d w o -> NoDup (reach d w o) -> get_params d w o true = Ret ps -> dwf kwargs ->
  (forall k v, In (k, v) kwargs ->
     (exists u, dget k ps = Some u /\ no_object u) /\ no_object v /\
     (v = VNone -> forall c a, owner d w o k = Some (c, a) -> c_default c a = None)) ->
  exists w' ps', set_params (S d) o kwargs w = (w', Ret tt) /\ get_params d w' o true = Ret ps' /\
    (forall k, dget k ps' = match dget k kwargs with Some v => Some v | None => dget k ps end) /\
    List.length w' = List.length w /\
    (forall i, ~ In i (reach d w o) -> nth_error w' i = nth_error w i).
Proof.
  intros d w o kwargs ps D N Ep W H.
  destruct (get_params_ok d w o D) as (ps0 & E0 & W0 & G0). rewrite Ep in E0. injection E0 as <-.
  destruct (set_leaves default_window construct_tracker window_est d w o kwargs D N W) as (w' & E & Sh & U & P).
  { intros k v Hin. destruct (H k v Hin) as ((u & Eu & Nu) & Nv & Hv). rewrite G0 in Eu. split; [|split].
    - exists u. split; [exact Eu|]. now apply no_object_est.
    - now apply no_object_est.
    - intros Ev c a c' Ho X. specialize (Hv Ev c a Ho). congruence. }
  destruct (get_params_ok d w' o (same_shape_deep d w w' o Sh D)) as (ps' & E' & W' & G').
  exists w', ps'. split; [exact E|]. split; [exact E'|]. split; [|split; [apply Sh|exact U]].
  intro k. rewrite G', P, <- G0. destruct (dget k kwargs) as [v|] eqn:Ek; [|reflexivity]. f_equal.
  unfold stored. destruct (owner d w o k) as [[c a]|] eqn:Eo; [|reflexivity]. destruct v; try reflexivity.
  destruct (H k VNone (dget_in _ _ _ _ Ek)) as (_ & _ & Hv). now rewrite (Hv eq_refl c a Eo).
Qed.

(** A name whose first part is no parameter is rejected. *)
Lemma set_own_unknown : forall o params valid nested w,
  (exists k, In k (dkeys params) /\ dmem (fst (partition k)) valid = false) ->
  exists w' m, set_own default_window o params valid nested w = (w', Raise ValueError m).
Proof.
  intros o params. induction params as [|[key v] params IH]; intros valid nested w (k & Hk & M); [destruct Hk|].
  cbn [set_own]. destruct (partition key) as [a r] eqn:P. destruct (dmem a valid) eqn:Ma; [|eauto].
  assert (Hk' : In k (dkeys params)).
  { destruct Hk as [Hk|Hk]; [|exact Hk]. cbn [fst] in Hk. subst key. rewrite P in M. cbn [fst] in M. congruence. }
  destruct r as [r|]; apply IH; exists k; (split; [exact Hk'|]); [exact M|].
  rewrite dmem_dget, dget_dset. rewrite dmem_dget in M. destruct (String.eqb_spec a (fst (partition k))) as [E|]; [|exact M].
  exfalso. rewrite <- E, <- dmem_dget in M. congruence.
Qed.
Theorem c65_unknown : forall d w o kwargs k, deep d w o ->
  (class_of w o = CSample /\ (forall k, In k (dkeys kwargs) -> String.prefix "sinusoidal_model" k = false) \/
   In (class_of w o) [CSineTracker; CModalTracker; CHinge; CLinear; CStorage]) ->
  In k (dkeys kwargs) -> dmem (fst (partition k)) (c_sig (class_of w o)) = false ->
  exists w' m, set_params (S d) o kwargs w = (w', Raise ValueError m).
Proof.
  intros d w o kwargs k D C Hk M. destruct (get_params_ok d w o D) as (ps & Ep & _ & G).
  assert (R : rename (c_deprecated construct_tracker (class_of w o)) (VObj o) kwargs = Ret kwargs).
  { destruct C as [(-> & C)|C].
    - cbn [c_deprecated rename]. unfold key_map. cbn [dprefix sample_decorator].
      replace (filter _ (dkeys kwargs)) with (@nil string); [reflexivity|]. symmetry. apply filter_none.
      intros x Hx. exact (C x Hx).
    - cbn in C. decompose [or] C; try contradiction; match goal with H : _ = class_of w o |- _ => rewrite <- H; reflexivity end. }
  cbn [Params_Model.set_params]. rewrite R. destruct kwargs as [|p kwargs]; [destruct Hk|]. rewrite Ep.
  destruct (set_own_unknown o (p :: kwargs) ps [] w) as (w' & m & E).
  - exists k. split; [exact Hk|]. rewrite dmem_dget, G. destruct d; [destruct D|]. cbn [pget].
    rewrite partition_first. now rewrite M.
  - rewrite E. eauto.
Qed.

(** Replacing one parameter of a model, with any value but [None]: only this
    parameter of this object changes, and the parameters below it are those of
    the new value. *)
Theorem c65_replace : forall d w o k v, deep d w o -> In k (dkeys (c_sig (class_of w o))) -> v <> VNone ->
  exists w', set_params (S d) o [(k, v)] w = (w', Ret tt) /\ dget k (attrs_of w' o) = Some v /\
    (forall k', k' <> k -> dget k' (attrs_of w' o) = dget k' (attrs_of w o)) /\
    (forall i, class_of w' i = class_of w i) /\ (forall i, i <> o -> nth_error w' i = nth_error w i).
Proof.
  intros d w o k v D Hk Hv. destruct (get_params_ok d w o D) as (ps & Ep & _ & G).
  pose proof Hk as Hm. apply dmem_keys in Hm.
  assert (Pl : plain k) by (destruct d; [destruct D|]; now apply (in_plain d w o k)).
  pose proof (plain_partition k Pl) as Pk.
  assert (Ho : (o < List.length w)%nat).
  { destruct d; [destruct D|]. destruct (D k Hk) as (_ & u & Eu & _). unfold attrs_of in Eu.
    destruct (nth_error w o) eqn:X; [|discriminate]. apply nth_error_Some. congruence. }
  exists (put_attr w o k v). cbn [Params_Model.set_params]. rewrite rename_known.
  2:{ intros k' [<-|[]]. cbn [fst]. now rewrite Pk. }
  rewrite Ep. cbn [set_own]. rewrite Pk.
  assert (Mk : dmem k ps = true).
  { rewrite dmem_dget, G. destruct d; [destruct D|]. cbn [pget]. rewrite Pk, Hm.
    destruct (D k Hk) as (_ & u & Eu & _). now rewrite Eu. }
  rewrite Mk. cbn [fold_left].
  assert (Es : setattr default_window w o k v = put_attr w o k v).
  { unfold setattr. destruct v; try reflexivity. congruence. }
  rewrite Es. split; [reflexivity|]. split.
  { rewrite attrs_put_attr, Nat.eqb_refl. destruct (Nat.ltb_spec o (List.length w)); [|lia]. cbn [andb].
    now rewrite dget_dset, String.eqb_refl. }
  split.
  { intros k' Hn. rewrite attrs_put_attr, Nat.eqb_refl. destruct (Nat.ltb_spec o (List.length w)); [|lia]. cbn [andb].
    rewrite dget_dset. destruct (String.eqb_spec k k'); congruence. }
  split; [intro i; apply class_put_attr|]. intros i Hi. now apply put_attr_other.
Qed.

(** ** C66: clone *)

(** For a model with parameters that are values or estimators (nested at most
    [d] deep): the clone has the same parameters with the same values, but new
    estimators of the same classes, each of them at one place; the objects that
    exist are as before. *)
Theorem c66_clone : forall d w o ps, tidy d w o -> deep d w o -> estimator (class_of w o) = true ->
  get_params d w o true = Ret ps ->
  exists t o' ps', clone (S d) o w = (w ++ t, Ret o') /\ (List.length w <= o')%nat /\
    class_of (w ++ t) o' = class_of w o /\ get_params d (w ++ t) o' true = Ret ps' /\
    (forall k, match dget k ps with
               | None => dget k ps' = None
               | Some v => exists v', dget k ps' = Some v' /\
                   ((free v /\ v' = v) \/
                    exists i i', v = VObj i /\ v' = VObj i' /\ (List.length w <= i')%nat /\
                      class_of (w ++ t) i' = class_of w i)
               end) /\
    (forall k k' i, dget k ps' = Some (VObj i) -> dget k' ps' = Some (VObj i) -> k = k').
Proof.
  intros d w o ps T D Es Ep.
  destruct (clone_ok default_window construct_tracker d w o T Es D) as (t & o' & E & T' & B & N & D' & S1).
  destruct (get_params_ok d w o D) as (p0 & E0 & _ & G0). rewrite Ep in E0. injection E0 as <-.
  destruct (get_params_ok d (w ++ t) o' D') as (ps' & E' & _ & G').
  assert (Est : forall k i, pget d (w ++ t) o' k = Some (VObj i) -> estimator (class_of (w ++ t) i) = true).
  { clear - T'. revert o' T'. induction d as [|d IH]; intros o' T' k i H; [discriminate|].
    cbn [pget] in H. destruct (partition k) as [a r]. destruct (dmem a _); [|discriminate].
    destruct (dget a _) as [v|] eqn:Ev; [|discriminate]. destruct r as [r|].
    - destruct (as_estimator (w ++ t) v) as [j|] eqn:Ej; [|discriminate]. apply (IH j) with r; [|exact H].
      now apply (tidy_child d (w ++ t) o' a v j).
    - injection H as ->. destruct T' as (_ & T'). destruct (proj2 (T' a _ Ev)) as [[]|(j & [= <-] & X & _)]. exact X. }
  exists t, o', ps'. split; [exact E|]. split.
  { apply B. destruct d; [destruct D|]. now left. }
  split; [apply S1|]. split; [exact E'|]. split.
  - intro k. rewrite G0, G'. pose proof (proj2 S1 k) as X. destruct (pget d w o k) as [v|]; [|exact X].
    destruct X as (v' & Ev' & X). exists v'. split; [exact Ev'|]. destruct X as [X|(i & i' & -> & -> & C)]; [now left|].
    right. exists i, i'. split; [reflexivity|]. split; [reflexivity|]. split; [|exact C].
    apply B. apply (pget_reach d (w ++ t) o' k); [exact D'|exact Ev'|]. now apply (Est k).
  - intros k k' i H H'. rewrite G' in H, H'. apply (pget_inj d (w ++ t) o' k k' i D' N H H'). now apply (Est k).
Qed.

(** Setting parameters of the clone leaves the original model (and every other
    object that existed) as it was, and conversely. *)
Theorem c66_independent : forall d w o t o' w', tidy d w o -> deep d w o -> estimator (class_of w o) = true ->
  clone (S d) o w = (w ++ t, Ret o') ->
  (forall kwargs ps, get_params d (w ++ t) o' true = Ret ps -> dwf kwargs ->
     (forall k v, In (k, v) kwargs -> (exists u, dget k ps = Some u /\ no_object u) /\ no_object v /\ v <> VNone) ->
     set_params (S d) o' kwargs (w ++ t) = (w', Ret tt) -> firstn (List.length w) w' = w) /\
  (forall kwargs ps, NoDup (reach d w o) -> get_params d w o true = Ret ps -> dwf kwargs ->
     (forall k v, In (k, v) kwargs -> (exists u, dget k ps = Some u /\ no_object u) /\ no_object v /\ v <> VNone) ->
     set_params (S d) o kwargs (w ++ t) = (w', Ret tt) ->
     skipn (List.length w) w' = t /\
     get_params d w' o' true = get_params d (w ++ t) o' true).
Proof.
  intros d w o t o' w' T D Es E0.
  destruct (clone_ok default_window construct_tracker d w o T Es D) as (t1 & o1 & E & T' & B & N & D' & S1).
  rewrite E0 in E. injection E as Et ->. apply app_inv_head in Et. subst t1.
  assert (Lo : (o < List.length w)%nat) by now apply est_lt.
  split.
  - intros kwargs ps Ep W H Eq.
    destruct (c65_set_params d (w ++ t) o1 kwargs ps D' N Ep W) as (w2 & ps2 & E2 & _ & _ & L2 & U).
    { intros k v Hin. destruct (H k v Hin) as (A & B0 & C). split; [exact A|]. split; [exact B0|]. congruence. }
    rewrite Eq in E2. injection E2 as <-. apply nth_error_ext. intro i. destruct (Nat.lt_ge_cases i (List.length w)) as [Hi|Hi].
    + rewrite nth_error_firstn' by exact Hi. rewrite U; [now rewrite nth_error_app1|]. intro X. apply B in X. lia.
    + rewrite !(proj2 (nth_error_None _ _)); [reflexivity|exact Hi|]. rewrite firstn_length. lia.
  - intros kwargs ps Nr Ep W H Eq.
    assert (D1 : deep d (w ++ t) o) by now apply deep_ext.
    assert (R1 : reach d (w ++ t) o = reach d w o) by now apply reach_ext.
    assert (In1 : forall i, In i (reach d w o) -> (i < List.length w)%nat).
    { clear - T Lo. revert o T Lo. induction d as [|d IH]; intros o T Lo i Hi; [destruct Hi|].
      destruct Hi as [<-|Hi]; [exact Lo|]. apply in_flat_map in Hi. destruct Hi as (a & _ & Hi). unfold child in Hi.
      destruct (dget a (attrs_of w o)) as [v|] eqn:Ev; [|destruct Hi]. destruct (as_estimator w v) as [j|] eqn:Ej; [|destruct Hi].
      destruct (tidy_child d w o a v j T Ev Ej) as (Tj & Lj). now apply (IH j Tj Lj). }
    destruct (get_params_ok d w o D) as (p0 & E1 & _ & G0). rewrite Ep in E1. injection E1 as <-.
    destruct (get_params_ok d (w ++ t) o D1) as (p1 & E1 & _ & G1).
    destruct (set_leaves default_window construct_tracker window_est d (w ++ t) o kwargs D1) as (w2 & E2 & Sh & U & _).
    { now rewrite R1. } { exact W. }
    { intros k v Hin. destruct (H k v Hin) as ((u & Eu & Nu) & B0 & C). split; [|split].
      - exists u. rewrite pget_ext by assumption. rewrite <- G0. split; [exact Eu|]. now apply no_object_est.
      - now apply no_object_est.
      - congruence. }
    rewrite Eq in E2. injection E2 as <-. pose proof Sh as (Sl & Sc & _ & _).
    assert (U' : forall i, (List.length w <= i)%nat -> nth_error w' i = nth_error (w ++ t) i).
    { intros i Hi. apply U. rewrite R1. intro X. apply In1 in X. lia. }
    split.
    + apply nth_error_ext. intro i. rewrite nth_error_skipn, U' by lia. rewrite nth_error_app2 by lia. f_equal. lia.
    + destruct (get_params_ok d (w ++ t) o1 D') as (q & Eq1 & Wq & Gq).
      destruct (get_params_ok d w' o1 (same_shape_deep d _ _ o1 Sh D')) as (q' & Eq2 & Wq' & Gq').
      assert (X : forall d o2, (forall i, In i (reach d (w ++ t) o2) -> (List.length w <= i)%nat) ->
                  get_params d w' o2 true = get_params d (w ++ t) o2 true).
      { clear - U' Sh. pose proof Sh as (Sl & Sc & Sd & _). induction d as [|d IH]; intros o2 Hi; [reflexivity|].
        rewrite !get_params_step, Sc. assert (Ho2 : (List.length w <= o2)%nat) by (apply Hi; now left).
        assert (Ea : attrs_of w' o2 = attrs_of (w ++ t) o2) by (unfold attrs_of; now rewrite U').
        assert (Y : forall l out, incl l (dkeys (c_sig (class_of (w ++ t) o2))) ->
          fold_left (get_step d w' o2 true) l out = fold_left (get_step d (w ++ t) o2 true) l out).
        { induction l as [|a l IHl]; intros out Hl; [reflexivity|]. cbn [fold_left].
          replace (get_step d w' o2 true out a) with (get_step d (w ++ t) o2 true out a).
          - apply IHl. intros x Hx. apply Hl. now right.
          - unfold get_step. rewrite Ea. destruct out as [out|]; [|reflexivity].
            destruct (dget a (attrs_of (w ++ t) o2)) as [v|] eqn:Ev; [|reflexivity].
            rewrite (as_estimator_class (w ++ t) w' v Sc). destruct (as_estimator (w ++ t) v) as [i|] eqn:Ei; [|reflexivity].
            rewrite IH; [reflexivity|]. intros x Hx. apply Hi. right. apply in_flat_map. exists a.
            split; [apply Hl; now left|]. unfold child. rewrite Ev, Ei. exact Hx. }
        apply Y. apply incl_refl. }
      apply X. intros i Hi. now apply B.
Qed.

(** Unknown keywords of a constructor: a TypeError of the regressors and the
    storage, before anything is made; the trackers pass them on to [set_params],
    which refuses them with a ValueError. *)
Theorem c65_constructor : forall d c kwargs w k, In k (dkeys kwargs) ->
  (In c [CHinge; CLinear; CStorage] -> dmem k (c_sig c) = false ->
     exists m, construct d c kwargs w = (w, Raise TypeError m)) /\
  (In c [CSineTracker; CModalTracker] -> dmem (fst (partition k)) (c_sig c) = false -> partition k = (k, None) ->
     (forall k v, In (k, v) kwargs -> no_object v) ->
     exists w' m, construct (2 + d) c kwargs w = (w', Raise ValueError m)).
Proof.
  intros d c kwargs w k Hk. split.
  - intros C M. unfold Params_Model.construct.
    assert (R : rename (c_deprecated construct_tracker c) (VObj (List.length w)) kwargs = Ret kwargs)
      by (cbn in C; decompose [or] C; try contradiction; subst; reflexivity).
    rewrite R. assert (K : c_kwargs c = false) by (cbn in C; decompose [or] C; try contradiction; subst; reflexivity).
    rewrite K. cbn [negb andb].
    destruct (filter (fun p => negb (dmem (fst p) (c_sig c))) kwargs) as [|q l] eqn:F; [|cbn; eauto].
    exfalso. unfold dkeys in Hk. apply in_map_iff in Hk as (p & <- & Hp).
    assert (X : In p (filter (fun p => negb (dmem (fst p) (c_sig c))) kwargs)) by (apply filter_In; rewrite M; auto).
    rewrite F in X. destruct X.
  - intros C M P N. unfold Params_Model.construct.
    assert (R : rename (c_deprecated construct_tracker c) (VObj (List.length w)) kwargs = Ret kwargs)
      by (cbn in C; decompose [or] C; try contradiction; subst; reflexivity).
    rewrite R. assert (K : c_kwargs c = true) by (cbn in C; decompose [or] C; try contradiction; subst; reflexivity).
    rewrite K. cbn [negb andb]. set (own := filter _ kwargs). set (rest := filter _ kwargs).
    assert (No : forall k v, In (k, v) own -> no_object v) by (intros k' v Hi; apply filter_In in Hi; apply (N k' v), Hi).
    rewrite build_plain.
    2: { intros k' v _. left. cbn in C. decompose [or] C; try contradiction; subst; reflexivity. }
    2: { apply dwf_dec. cbn in C. decompose [or] C; try contradiction; subst; reflexivity. }
    set (attrs := map _ (c_sig c)).
    assert (Cl : class_of (w ++ [(c, attrs)]) (List.length w) = c).
    { unfold class_of. now rewrite nth_error_app2, Nat.sub_diag by lia. }
    assert (At : attrs_of (w ++ [(c, attrs)]) (List.length w) = attrs).
    { unfold attrs_of. now rewrite nth_error_app2, Nat.sub_diag by lia. }
    destruct (c65_unknown (S d) (w ++ [(c, attrs)]) (List.length w) rest k) as (w' & m & E).
    + cbn [deep]. rewrite Cl, At. intros a Ha. split.
      * cbn in C. decompose [or] C; try contradiction; subst; cbn in Ha; decompose [or] Ha; try contradiction; subst; reflexivity.
      * unfold dkeys in Ha. apply in_map_iff in Ha as ([a' dv] & <- & Ha). cbn [fst].
        assert (Dg : forall l, In (a', dv) l -> exists v, dget a' (map (fun p => (fst p, own_or own (fst p) (snd p))) l) = Some v /\
                       (exists dv', In (a', dv') l /\ v = own_or own a' dv')).
        { induction l as [|[b dv'] l IH]; intros Hi; [destruct Hi|]. cbn [map fst snd dget].
          destruct (String.eqb_spec b a') as [->|Nb].
          - eexists. split; [reflexivity|]. exists dv'. split; [now left|reflexivity].
          - destruct Hi as [[= -> _]|Hi]; [congruence|]. destruct (IH Hi) as (v & E1 & dv2 & I2 & E2). exists v. split; [exact E1|].
            exists dv2. split; [now right|exact E2]. }
        destruct (Dg _ Ha) as (v & Ev & dv2 & I2 & ->). exists (own_or own a' dv2). split; [exact Ev|].
        intros i X. exfalso. rewrite no_object_est in X; [discriminate|]. unfold own_or. destruct (dget a' own) as [u|] eqn:Eu.
        -- exact (No a' u (dget_in _ _ _ _ Eu)).
        -- cbn in C. decompose [or] C; try contradiction; subst; cbn in I2; decompose [or] I2; try contradiction;
             match goal with H : (_, _) = (_, _) |- _ => injection H as <- <- end; intros ? X0; discriminate X0.
    + right. rewrite Cl. cbn in C |- *. tauto.
    + unfold dkeys in *. apply in_map_iff in Hk as (p & Ep & Hp). apply in_map_iff. exists p. split; [exact Ep|].
      apply filter_In. split; [exact Hp|]. rewrite Ep. rewrite P in M. cbn [fst] in M. now rewrite M.
    + rewrite Cl. exact M.
    + change (2 + d) with (S (S d)). rewrite E. eauto.
Qed.

(** ** C67: construction of SAMPLE *)

(** [SAMPLE( **kwargs)] with any of its parameters that are not estimators, at
    any depth: it has the given values, else the defaults; nothing else
    changes.  [None] for the window is the default window. *)
Theorem c67_sample : forall e kwargs w, dwf kwargs ->
  (forall k v, In (k, v) kwargs -> In k (dkeys (sample_leaves default_window)) /\ no_object v) ->
  exists t ps, construct (4 + e) CSample kwargs w = (w ++ t, Ret (List.length w)) /\
    get_params (3 + e) (w ++ t) (List.length w) true = Ret ps /\
    (forall k def, In (k, def) (sample_leaves default_window) ->
       dget k ps = Some (match dget k kwargs with
                         | Some VNone => if String.eqb k "sinusoidal__w" then default_window else VNone
                         | Some v => v
                         | None => def
                         end)) /\
    map fst t = [CSample; CHinge; CLinear; CModal; CStorage; CModalTracker].
Proof.
  intros e kwargs w W H.
  destruct (construct_sample default_window construct_tracker window_est e kwargs w W H) as (w' & E & F & L & Sh & P).
  assert (Ex : exists t, w' = w ++ t).
  { exists (skipn (List.length w) w'). rewrite <- F at 1. symmetry. apply firstn_skipn. }
  destruct Ex as [t ->].
  set (own := filter (fun p => dmem (fst p) (c_sig CSample)) kwargs) in *.
  assert (D : deep (3 + e) (w ++ t) (List.length w)).
  { apply (same_shape_deep (3 + e) (w ++ sample_objects default_window (List.length w) own) (w ++ t)); [exact Sh|].
    apply deep_sample; [exact window_est|]. intros k v Hv. apply dget_in in Hv. apply filter_In in Hv.
    apply no_object_est. exact (proj2 (H k v (proj1 Hv))). }
  destruct (get_params_ok (3 + e) (w ++ t) (List.length w) D) as (ps & Ep & _ & G).
  exists t, ps. split; [exact E|]. split; [exact Ep|]. split.
  - intros k def Hk. rewrite G, (P k def Hk). f_equal. unfold stored_leaf. destruct (dget k kwargs) as [[]|]; reflexivity.
  - pose proof Sh as (Sl & Sc & _ & _).
    assert (Lt : List.length t = 6%nat) by (rewrite app_length in L; lia).
    assert (Ci : forall i c a, nth_error (sample_objects default_window (List.length w) own) i = Some (c, a) ->
              nth_error (map fst t) i = Some c).
    { intros i c a Hi. specialize (Sc (List.length w + i)%nat). unfold class_of in Sc.
      rewrite !nth_error_app2 in Sc by lia. replace (List.length w + i - List.length w)%nat with i in Sc by lia.
      rewrite Hi in Sc. rewrite nth_error_map. destruct (nth_error t i) as [[c' a']|] eqn:X; [cbn; now rewrite Sc|].
      exfalso. apply nth_error_None in X. assert (i < 6)%nat.
      { change 6%nat with (List.length (sample_objects default_window (List.length w) own)). apply nth_error_Some. congruence. }
      lia. }
    apply nth_error_ext. intro i. destruct i as [|[|[|[|[|[|i]]]]]]; try (erewrite Ci by reflexivity; reflexivity).
    rewrite !(proj2 (nth_error_None _ _)); [reflexivity|cbn; lia|rewrite map_length; lia].
Qed.
End Props.
Print Assumptions c65_set_params.
Print Assumptions c65_unknown.
Print Assumptions c65_replace.
Print Assumptions c65_constructor.
Print Assumptions c66_clone.
Print Assumptions c66_independent.
Print Assumptions c67_sample.

(** ** Examples *)

(** A default window of three samples, and a model whose window, threshold and
    storage are set. *)
Definition ex_window : val := VList [VNum (1 # 2)%Q; VInt 1; VNum (1 # 2)%Q].
Definition ex_tracker : val -> outcome val := fun _ => Raise TypeError "not a class".
Definition ex_kwargs : dict val :=
  [("sinusoidal__t", VInt (-60)); ("max_n_modes", VInt 8); ("sinusoidal__tracker__h", VInt 64);
   ("sinusoidal__intermediate__save", VBool true); ("sinusoidal__w", VNone)].
Definition ex_world : pworld := fst (construct ex_window ex_tracker 4 CSample ex_kwargs [(COther, [])]).
Definition ex_params (w : pworld) (o : nat) (ks : list string) : list (option val) :=
  match get_params 3 w o true with Ret ps => map (fun k => dget k ps) ks | Raise _ _ => [] end.

Example c67_example :
  snd (construct ex_window ex_tracker 4 CSample ex_kwargs [(COther, [])]) = Ret 1%nat /\
  ex_params ex_world 1 ["sinusoidal__t"; "max_n_modes"; "sinusoidal__tracker__h"; "sinusoidal__w"; "sinusoidal__n";
                        "regressor__method"; "sinusoidal__tracker"] =
  [Some (VInt (-60)); Some (VInt 8); Some (VInt 64); Some ex_window; Some (VInt 2048); Some (VStr "dogbox"); Some (VObj 6)].
Proof. vm_compute. split; reflexivity. Qed.

Ltac ex_deep := repeat match goal with
  | |- forall k, In k _ -> _ => intros k Hk; vm_compute in Hk;
      repeat (destruct Hk as [<-|Hk]; [split; [vm_compute; reflexivity|]; eexists; split; [vm_compute; reflexivity|];
        intros i Hi; vm_compute in Hi; try discriminate Hi; injection Hi as <-|]); try destruct Hk
  end.
Lemma ex_is_deep : deep 3 ex_world 1.
Proof. do 3 (cbn [deep]; ex_deep). Qed.
Lemma ex_nodup : NoDup (reach 3 ex_world 1).
Proof. vm_compute. repeat constructor; cbn; intuition discriminate. Qed.
Lemma tidy_step : forall d w o, dwf (c_sig (class_of w o)) ->
  Forall (fun p => (snd p = VNone -> c_default (class_of w o) (fst p) = None) /\
     (free (snd p) \/ exists j, snd p = VObj j /\ estimator (class_of w j) = true /\ tidy d w j)) (attrs_of w o) ->
  tidy (S d) w o.
Proof.
  intros d w o W F. split; [exact W|]. intros k v H. apply dget_in in H. rewrite Forall_forall in F. exact (F (k, v) H).
Qed.
Ltac ex_tidy := apply tidy_step; [vm_compute; repeat constructor; cbn; intuition discriminate|];
  match goal with |- Forall _ ?l => let l' := eval vm_compute in l in change l with l' end;
  repeat (apply Forall_cons; [split; [intro; first [discriminate|vm_compute; reflexivity]|
    cbn [snd fst]; first [left; cbn [free]; tauto|right; eexists; split; [reflexivity|]; split; [vm_compute; reflexivity|]]]|]);
  try apply Forall_nil.
Lemma ex_is_tidy : tidy 3 ex_world 1.
Proof. ex_tidy; ex_tidy; ex_tidy. Qed.

(** [model.set_params(sinusoidal__tracker__h=128, max_n_modes=None)]. *)
Example c65_example :
  deep 3 ex_world 1 /\ NoDup (reach 3 ex_world 1) /\
  ex_params (fst (set_params ex_window ex_tracker 4 1 [("sinusoidal__tracker__h", VInt 128); ("max_n_modes", VNone)] ex_world)) 1
    ["sinusoidal__tracker__h"; "max_n_modes"; "sinusoidal__t"] =
  [Some (VInt 128); Some VNone; Some (VInt (-60))] /\
  owner 3 ex_world 1 "max_n_modes" = Some (CSample, "max_n_modes").
Proof. split; [exact ex_is_deep|]. split; [exact ex_nodup|]. vm_compute. split; reflexivity. Qed.
Example c65_unknown_example : exists w' m,
  set_params ex_window ex_tracker 4 1 [("sinusoidal__n", VInt 16); ("hop", VInt 1)] ex_world = (w', Raise ValueError m).
Proof.
  apply (c65_unknown ex_window ex_tracker 3 ex_world 1 _ "hop" ex_is_deep); [|cbn; tauto|reflexivity].
  left. split; [reflexivity|]. intros k Hk. cbn in Hk. decompose [or] Hk; subst; try contradiction; reflexivity.
Qed.
(** Replacing the tracker. *)
Example c65_constructor_example :
  (exists m, construct ex_window ex_tracker 2 CHinge [("bounds", VNone); ("spam", VInt 1)] [] = ([], Raise TypeError m)) /\
  (exists w' m, construct ex_window ex_tracker 2 CSineTracker [("h", VInt 1); ("spam", VInt 1)] [] = (w', Raise ValueError m)).
Proof. split; repeat eexists; vm_compute; reflexivity. Qed.

Example c65_replace_example : exists w',
  set_params ex_window ex_tracker 4 1 [("sinusoidal", VObj 0)] ex_world = (w', Ret tt) /\
  dget "sinusoidal" (attrs_of w' 1) = Some (VObj 0).
Proof.
  destruct (c65_replace ex_window ex_tracker 3 ex_world 1 "sinusoidal" (VObj 0) ex_is_deep) as (w' & E & G & _).
  - vm_compute. tauto.
  - discriminate.
  - eauto.
Qed.

Example c66_example :
  tidy 3 ex_world 1 /\ deep 3 ex_world 1 /\
  snd (clone ex_window ex_tracker 4 1 ex_world) = Ret 12%nat /\
  ex_params (fst (clone ex_window ex_tracker 4 1 ex_world)) 12
    ["sinusoidal__t"; "max_n_modes"; "sinusoidal__w"; "sinusoidal__tracker"] =
  [Some (VInt (-60)); Some (VInt 8); Some ex_window; Some (VObj 10)].
Proof. split; [exact ex_is_tidy|]. split; [exact ex_is_deep|]. vm_compute. split; reflexivity. Qed.
Example c66_independent_example : exists t o', clone ex_window ex_tracker 4 1 ex_world = (ex_world ++ t, Ret o') /\
  forall w', set_params ex_window ex_tracker 4 o' [("sinusoidal__t", VInt 0)] (ex_world ++ t) = (w', Ret tt) ->
    firstn 7 w' = ex_world.
Proof.
  destruct (clone_ok ex_window ex_tracker 3 ex_world 1 ex_is_tidy eq_refl ex_is_deep) as (t & o' & E & _ & _ & _ & D' & S1).
  exists t, o'. split; [exact E|]. intros w' Hw.
  destruct (get_params_ok 3 _ o' D') as (ps & Ep & _ & G).
  apply (proj1 (c66_independent ex_window ex_tracker ltac:(intros i X; discriminate X) 3 ex_world 1 t o' w' ex_is_tidy ex_is_deep eq_refl E))
    with (kwargs := [("sinusoidal__t", VInt 0)]) (ps := ps); [exact Ep| |  |exact Hw].
  - repeat constructor. intros [].
  - intros k v [[= <- <-]|[]]. split; [|split; discriminate]. exists (VInt (-60)). split; [|discriminate].
    rewrite G. pose proof (proj2 S1 "sinusoidal__t") as X.
    change (pget 3 ex_world 1 "sinusoidal__t") with (Some (VInt (-60))) in X. cbv beta iota in X.
    destruct X as (v' & Ev & [[_ ->]|(j & _ & X & _)]); [exact Ev|discriminate].
Qed.

(** ** Refutations *)

(** A call that raises may have set parameters: names are not checked before. *)
Theorem c65_atomic_refuted : exists w o kwargs w' m,
  deep 3 w o /\ set_params ex_window ex_tracker 4 o kwargs w = (w', Raise ValueError m) /\
  dget "max_n_modes" (attrs_of w o) = Some (VInt 8) /\ dget "max_n_modes" (attrs_of w' o) = Some (VInt 2).
Proof.
  exists ex_world, 1%nat, [("max_n_modes", VInt 2); ("hop", VInt 1)]. eexists. eexists.
  split; [exact ex_is_deep|]. split; [vm_compute; reflexivity|]. vm_compute. split; reflexivity.
Qed.
Print Assumptions c65_atomic_refuted.

(** [None] resets an estimator, but not together with one of its parameters:
    the call ends with an AttributeError (of [None]) after the reset. *)
Theorem c65_reset_refuted : exists w o w' m,
  deep 3 w o /\
  set_params ex_window ex_tracker 4 o [("sinusoidal", VNone); ("sinusoidal__n", VInt 512)] w =
    (w', Raise AttributeError m) /\
  (exists w1, set_params ex_window ex_tracker 4 o [("sinusoidal", VNone)] w = (w1, Ret tt) /\
     exists w2, set_params ex_window ex_tracker 4 o [("sinusoidal__n", VInt 512)] w1 = (w2, Ret tt)) /\
  ex_params w' o ["sinusoidal__n"; "sinusoidal__t"] = [Some (VInt 2048); Some (VInt (-90))].
Proof.
  exists ex_world, 1%nat. eexists. eexists. split; [exact ex_is_deep|].
  split; [vm_compute; reflexivity|]. split; [|vm_compute; reflexivity].
  eexists. split; [vm_compute; reflexivity|]. eexists. vm_compute. reflexivity.
Qed.
Print Assumptions c65_reset_refuted.
