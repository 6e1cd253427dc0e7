(** Lemmas about the construction of estimators. *)
From Coq Require Import String Ascii List Bool ZArith QArith Lia.
Import ListNotations.
From Verif Require Import Base Py Dict ListLemmas Utils_Model Params_Model Params_Proofs.
Local Open Scope string_scope.
Local Open Scope list_scope.

(** ** Construction *)

Lemma put_attr_last : forall w c a t k v,
  put_attr (w ++ (c, a) :: t) (List.length w) k v = w ++ (c, dset k v a) :: t.
Proof.
  intros. unfold put_attr. rewrite nth_error_app2, Nat.sub_diag by lia. cbn [nth_error].
  induction w as [|p w IH]; [reflexivity|]. cbn [app List.length upd]. now rewrite IH.
Qed.

Section Build.
Variable default_window : val.

Definition own_or (own : dict val) (k : string) (d : val) : val :=
  match dget k own with Some v => v | None => d end.
Lemma build_eq : forall n c own w, build default_window (S n) c own w =
  (init_attrs default_window (fun c' w => Some (build default_window n c' [] w)) c own (List.length w) (c_sig c)
     (w ++ [(c, [])]), List.length w).
Proof. reflexivity. Qed.
Lemma init_cons : forall mk c own o k d sig w,
  init_attrs default_window mk c own o ((k, d) :: sig) w =
  init_attrs default_window mk c own o sig
      (match own_or own k d, c_default c k with
       | VNone, Some BWindow => put_attr w o k default_window
       | VNone, Some (BObj c') =>
         match mk c' w with Some (w, i) => put_attr w o k (VObj i) | None => put_attr w o k VNone end
       | _, _ => put_attr w o k (own_or own k d)
       end).
Proof. reflexivity. Qed.

(** Parameters without a default object to build. *)
Lemma init_plain : forall mk c own sig w a t,
  (forall k d, In (k, d) sig -> c_default c k = None \/ own_or own k d <> VNone) -> dwf (a ++ sig) ->
  init_attrs default_window mk c own (List.length w) sig (w ++ (c, a) :: t) =
  w ++ (c, a ++ map (fun p => (fst p, own_or own (fst p) (snd p))) sig) :: t.
Proof.
  intros mk c own sig. induction sig as [|[k d] sig IH]; intros w a t H W.
  - cbn [init_attrs map]. now rewrite app_nil_r.
  - rewrite init_cons. set (v := own_or own k d).
    assert (X : put_attr (w ++ (c, a) :: t) (List.length w) k v = w ++ (c, a ++ [(k, v)]) :: t).
    { rewrite put_attr_last. rewrite dset_absent; [reflexivity|].
      apply dget_none. intro X. unfold dwf, dkeys in W. rewrite map_app in W. cbn [map fst] in W.
      apply NoDup_remove_2 in W. apply W, in_app_iff. now left. }
    transitivity (init_attrs default_window mk c own (List.length w) sig (w ++ (c, a ++ [(k, v)]) :: t)).
    { f_equal. rewrite <- X. destruct (H k d (or_introl eq_refl)) as [Y|Y].
      - rewrite Y. now destruct v.
      - fold v in Y. now destruct v. }
    rewrite IH.
    + rewrite <- app_assoc. reflexivity.
    + intros k' d' Hk. apply H. now right.
    + unfold dwf, dkeys in *. rewrite !map_app in *. cbn [map fst] in *. rewrite <- app_assoc. exact W.
Qed.

Lemma build_plain : forall n c own w,
  (forall k d, In (k, d) (c_sig c) -> c_default c k = None \/ own_or own k d <> VNone) -> dwf (c_sig c) ->
  build default_window n c own w =
  (w ++ [(c, map (fun p => (fst p, own_or own (fst p) (snd p))) (c_sig c))], List.length w).
Proof.
  intros n c own w H W. destruct n; cbn [build]; rewrite init_plain; auto.
Qed.

Lemma dwf_dec : forall V (d : dict V), (fix nodup (l : list string) : bool :=
  match l with [] => true | x :: l => negb (existsb (String.eqb x) l) && nodup l end) (dkeys d) = true -> dwf d.
Proof.
  intros V d. unfold dwf. induction (dkeys d) as [|x l IH]; intro H; [constructor|].
  apply andb_true_iff in H. destruct H as (A & B). constructor; [|now apply IH].
  intro X. apply negb_true_iff in A. rewrite <- not_true_iff_false in A. apply A.
  apply existsb_exists. exists x. split; [exact X|apply String.eqb_refl].
Qed.

Lemma snd_fst_id : forall (l : dict val), map (fun p => (fst p, snd p)) l = l.
Proof. induction l as [|[k v] l IH]; [reflexivity|]. cbn [map fst snd]. now rewrite IH. Qed.
Lemma build_leaf : forall n c w, In c [CLinear; CStorage; CSineTracker; CModalTracker] ->
  build default_window n c [] w = (w ++ [(c, c_sig c)], List.length w).
Proof.
  intros n c w H. rewrite build_plain.
  - unfold own_or. cbn [dget]. now rewrite snd_fst_id.
  - intros k d _. left. cbn in H. decompose [or] H; subst; try reflexivity. contradiction.
  - apply dwf_dec. cbn in H. decompose [or] H; subst; try reflexivity. contradiction.
Qed.

Lemma app_cons_length : forall A (w : list A) x t, List.length (w ++ x :: t) = (List.length w + S (List.length t))%nat.
Proof. intros. now rewrite app_length. Qed.

Ltac init_step :=
  rewrite init_cons; cbn [own_or dget c_default String.eqb Ascii.eqb Bool.eqb]; cbv beta iota;
  rewrite ?build_leaf by (simpl; tauto); rewrite ?put_attr_last;
  cbn [dset String.eqb Ascii.eqb Bool.eqb]; rewrite <- ?app_assoc; cbn [app]; rewrite ?put_attr_last;
  cbn [dset String.eqb Ascii.eqb Bool.eqb].

(** The objects of a default regressor and of a default sinusoidal model. *)
Definition hinge_objects (b : nat) : pworld :=
  [(CHinge, [("bounds", VNone); ("coeffs_init", VNone); ("linear_regressor", VObj (b + 1));
     ("linear_regressor_k", VStr "coef_"); ("linear_regressor_q", VStr "intercept_"); ("method", VStr "dogbox")]);
   (CLinear, c_sig CLinear)].
Lemma build_hinge : forall n w,
  build default_window (S n) CHinge [] w = (w ++ hinge_objects (List.length w), List.length w).
Proof.
  intros n w. rewrite build_eq. unfold c_sig at 1. do 6 init_step. cbn [init_attrs].
  rewrite app_cons_length. reflexivity.
Qed.
Definition modal_objects (b : nat) : pworld :=
  [(CModal, [("intermediate", VObj (b + 1)); ("n", VInt 2048); ("padded", VBool false); ("t", VInt (-90));
     ("tracker", VObj (b + 2)); ("w", default_window)]);
   (CStorage, c_sig CStorage); (CModalTracker, c_sig CModalTracker)].
Lemma build_modal : forall n w,
  build default_window (S n) CModal [] w = (w ++ modal_objects (List.length w), List.length w).
Proof.
  intros n w. rewrite build_eq. unfold c_sig at 1, sinusoidal_sig at 1. do 6 init_step. cbn [init_attrs].
  rewrite !app_cons_length. reflexivity.
Qed.

(** The objects of [SAMPLE] with own parameters that are not objects. *)
Definition sample_objects (b : nat) (own : dict val) : pworld :=
  (CSample, [("freq_reduce", own_or own "freq_reduce" (VStr "numpy.mean"));
     ("max_n_modes", own_or own "max_n_modes" VNone); ("regressor", VObj (b + 1));
     ("regressor_k", own_or own "regressor_k" (VStr "k_")); ("regressor_q", own_or own "regressor_q" (VStr "q_"));
     ("sinusoidal", VObj (b + 3))]) :: hinge_objects (b + 1) ++ modal_objects (b + 3).
Lemma build_sample : forall own w, dget "regressor" own = None -> dget "sinusoidal" own = None ->
  build default_window 3 CSample own w = (w ++ sample_objects (List.length w) own, List.length w).
Proof.
  intros own w Hr Hs. rewrite build_eq. unfold c_sig at 1.
  assert (X : forall (v : val) (x : pworld), (match v with VNone => x | _ => x end) = x) by (intros []; reflexivity).
  assert (Er : own_or own "regressor" VNone = VNone) by (unfold own_or; now rewrite Hr).
  assert (Es : own_or own "sinusoidal" VNone = VNone) by (unfold own_or; now rewrite Hs).
  unfold sample_objects.
  set (v1 := own_or own "freq_reduce" _). set (v2 := own_or own "max_n_modes" _).
  set (v3 := own_or own "regressor_k" _). set (v4 := own_or own "regressor_q" _).
  rewrite init_cons; fold v1. cbn [c_default String.eqb Ascii.eqb Bool.eqb]. rewrite X, put_attr_last. cbn [dset].
  rewrite init_cons; fold v2. cbn [c_default String.eqb Ascii.eqb Bool.eqb]. rewrite X, put_attr_last.
  cbn [dset String.eqb Ascii.eqb Bool.eqb].
  rewrite init_cons, Er. cbn [c_default String.eqb Ascii.eqb Bool.eqb]. rewrite build_hinge, <- app_assoc.
  cbn [app]. rewrite put_attr_last, app_cons_length. cbn [dset String.eqb Ascii.eqb Bool.eqb].
  rewrite init_cons; fold v3. cbn [c_default String.eqb Ascii.eqb Bool.eqb]. rewrite X, put_attr_last.
  cbn [dset String.eqb Ascii.eqb Bool.eqb].
  rewrite init_cons; fold v4. cbn [c_default String.eqb Ascii.eqb Bool.eqb]. rewrite X, put_attr_last.
  cbn [dset String.eqb Ascii.eqb Bool.eqb].
  rewrite init_cons, Es. cbn [c_default String.eqb Ascii.eqb Bool.eqb]. rewrite build_modal, <- app_assoc.
  cbn [app]. rewrite put_attr_last, app_cons_length. cbn [dset String.eqb Ascii.eqb Bool.eqb init_attrs].
  reflexivity.
Qed.
End Build.

(** ** Construction of SAMPLE *)

(** Names and default values of the parameters of [SAMPLE()] that are not
    estimators. *)
Definition sample_leaves (default_window : val) : dict val :=
  [("freq_reduce", VStr "numpy.mean"); ("max_n_modes", VNone); ("regressor_k", VStr "k_"); ("regressor_q", VStr "q_");
   ("regressor__bounds", VNone); ("regressor__coeffs_init", VNone);
   ("regressor__linear_regressor_k", VStr "coef_"); ("regressor__linear_regressor_q", VStr "intercept_");
   ("regressor__method", VStr "dogbox");
   ("regressor__linear_regressor__copy_X", VBool true);
   ("regressor__linear_regressor__fit_intercept", VBool true);
   ("regressor__linear_regressor__n_jobs", VNone); ("regressor__linear_regressor__positive", VBool false);
   ("sinusoidal__n", VInt 2048); ("sinusoidal__padded", VBool false); ("sinusoidal__t", VInt (-90));
   ("sinusoidal__w", default_window); ("sinusoidal__intermediate__save", VBool false);
   ("sinusoidal__tracker__freq_dev_offset", VInt 20); ("sinusoidal__tracker__freq_dev_slope", VNum (1 # 100));
   ("sinusoidal__tracker__frequency_bounds", VList [VInt 20; VInt 16000]);
   ("sinusoidal__tracker__fs", VInt 44100); ("sinusoidal__tracker__h", VInt 500);
   ("sinusoidal__tracker__max_n_sines", VInt 100); ("sinusoidal__tracker__merge_strategy", VStr "average");
   ("sinusoidal__tracker__min_sine_dur", VNum (4 # 100)); ("sinusoidal__tracker__peak_threshold", VInt (-90));
   ("sinusoidal__tracker__reverse", VBool false); ("sinusoidal__tracker__strip_t", VNone)].

Lemma dget_filter : forall V (f : string -> bool) (d : dict V) k,
  dget k (filter (fun p => f (fst p)) d) = if f k then dget k d else None.
Proof.
  intros V f d k. induction d as [|[k' v] d IH]; [now destruct (f k)|]. cbn [filter fst].
  destruct (f k') eqn:F.
  - cbn [dget]. destruct (String.eqb_spec k' k) as [->|]; [now rewrite F|exact IH].
  - rewrite IH. cbn [dget]. destruct (String.eqb_spec k' k) as [->|]; [now rewrite F|reflexivity].
Qed.
Lemma dwf_filter : forall V (f : string * V -> bool) (d : dict V), dwf d -> dwf (filter f d).
Proof.
  intros V f d. unfold dwf, dkeys. induction d as [|p d IH]; intro W; [constructor|].
  inversion_clear W as [|? ? N W']. cbn [filter map]. destruct (f p); [|auto]. cbn [map]. constructor; [|auto].
  intro H. apply N. apply in_map_iff in H. destruct H as (q & E & H). apply filter_In in H.
  apply in_map_iff. exists q. tauto.
Qed.

Section Sample.
Variable default_window : val.
Hypothesis window_value : forall w, as_estimator w default_window = None.
Variable w : pworld.
Variable own : dict val.
Hypothesis own_values : forall k v, dget k own = Some v -> as_estimator (w ++ sample_objects default_window (List.length w) own) v = None.
Let b := List.length w.
Let w1 := w ++ sample_objects default_window b own.

Lemma nth_sample : forall i, nth_error w1 (b + i) = nth_error (sample_objects default_window b own) i.
Proof. intro i. unfold w1, b. rewrite nth_error_app2 by lia. f_equal. lia. Qed.
Lemma class_sample : forall i c a, nth_error (sample_objects default_window b own) i = Some (c, a) ->
  class_of w1 (b + i) = c /\ attrs_of w1 (b + i) = a.
Proof. intros i c a H. unfold class_of, attrs_of. now rewrite nth_sample, H. Qed.

Lemma at0 : class_of w1 b = CSample /\ attrs_of w1 b =
  [("freq_reduce", own_or own "freq_reduce" (VStr "numpy.mean"));
     ("max_n_modes", own_or own "max_n_modes" VNone); ("regressor", VObj (b + 1));
     ("regressor_k", own_or own "regressor_k" (VStr "k_")); ("regressor_q", own_or own "regressor_q" (VStr "q_"));
     ("sinusoidal", VObj (b + 3))].
Proof. rewrite <- (Nat.add_0_r b) at 1 2. now apply class_sample. Qed.
Lemma at1 : class_of w1 (b + 1) = CHinge /\ attrs_of w1 (b + 1) =
  [("bounds", VNone); ("coeffs_init", VNone); ("linear_regressor", VObj (b + 2));
     ("linear_regressor_k", VStr "coef_"); ("linear_regressor_q", VStr "intercept_"); ("method", VStr "dogbox")].
Proof. replace (b + 2)%nat with (b + 1 + 1)%nat by lia. now apply class_sample. Qed.
Lemma at2 : class_of w1 (b + 2) = CLinear /\ attrs_of w1 (b + 2) = c_sig CLinear.
Proof. now apply class_sample. Qed.
Lemma at3 : class_of w1 (b + 3) = CModal /\ attrs_of w1 (b + 3) =
  [("intermediate", VObj (b + 4)); ("n", VInt 2048); ("padded", VBool false); ("t", VInt (-90));
     ("tracker", VObj (b + 5)); ("w", default_window)].
Proof.
  replace (b + 4)%nat with (b + 3 + 1)%nat by lia. replace (b + 5)%nat with (b + 3 + 2)%nat by lia.
  now apply class_sample.
Qed.
Lemma at4 : class_of w1 (b + 4) = CStorage /\ attrs_of w1 (b + 4) = c_sig CStorage.
Proof. now apply class_sample. Qed.
Lemma at5 : class_of w1 (b + 5) = CModalTracker /\ attrs_of w1 (b + 5) = c_sig CModalTracker.
Proof. now apply class_sample. Qed.

Lemma est : forall i, In i [0; 1; 2; 3; 4; 5]%nat -> as_estimator w1 (VObj (b + i)) = Some (b + i)%nat.
Proof.
  intros i H. cbn [as_estimator].
  assert (E : estimator (class_of w1 (b + i)) = true).
  { cbn [In] in H. decompose [or] H; subst.
    - now rewrite Nat.add_0_r, (proj1 at0).
    - now rewrite (proj1 at1).
    - now rewrite (proj1 at2).
    - now rewrite (proj1 at3).
    - now rewrite (proj1 at4).
    - now rewrite (proj1 at5).
    - contradiction. }
  now rewrite E.
Qed.

Lemma own_or_value : forall k d, as_estimator w1 d = None -> as_estimator w1 (own_or own k d) = None.
Proof.
  intros k d H. unfold own_or. destruct (dget k own) as [v|] eqn:E; [|exact H]. exact (own_values k v E).
Qed.

Ltac deep_leaf := intros ? X; exfalso; revert X;
  first [discriminate | rewrite window_value; discriminate | rewrite own_or_value by reflexivity; discriminate].
Ltac each H := cbn in H; decompose [or] H; clear H; subst; try contradiction.

Lemma deep_sample : forall e, deep (3 + e) w1 b.
Proof.
  intro e.
  assert (D2 : forall n, deep (S n) w1 (b + 2)).
  { intros n k Hk. rewrite (proj1 at2) in Hk. each Hk; (split; [reflexivity|]); rewrite (proj2 at2);
      (eexists; split; [reflexivity|deep_leaf]). }
  assert (D4 : forall n, deep (S n) w1 (b + 4)).
  { intros n k Hk. rewrite (proj1 at4) in Hk. each Hk; (split; [reflexivity|]); rewrite (proj2 at4);
      (eexists; split; [reflexivity|deep_leaf]). }
  assert (D5 : forall n, deep (S n) w1 (b + 5)).
  { intros n k Hk. rewrite (proj1 at5) in Hk. each Hk; (split; [reflexivity|]); rewrite (proj2 at5);
      (eexists; split; [reflexivity|deep_leaf]). }
  assert (D1 : forall n, deep (S (S n)) w1 (b + 1)).
  { intros n k Hk. rewrite (proj1 at1) in Hk. each Hk; (split; [reflexivity|]); rewrite (proj2 at1);
      (eexists; split; [reflexivity|]); try deep_leaf.
    intros i X. rewrite (est 2) in X by (simpl; tauto). injection X as <-. apply D2. }
  assert (D3 : forall n, deep (S (S n)) w1 (b + 3)).
  { intros n k Hk. rewrite (proj1 at3) in Hk. each Hk; (split; [reflexivity|]); rewrite (proj2 at3);
      (eexists; split; [reflexivity|]); try deep_leaf.
    - intros i X. rewrite (est 4) in X by (simpl; tauto). injection X as <-. apply D4.
    - intros i X. rewrite (est 5) in X by (simpl; tauto). injection X as <-. apply D5. }
  intros k Hk. rewrite (proj1 at0) in Hk. each Hk; (split; [reflexivity|]); rewrite (proj2 at0);
      (eexists; split; [reflexivity|]); try deep_leaf.
  - intros i X. rewrite (est 1) in X by (simpl; tauto). injection X as <-. apply D1.
  - intros i X. rewrite (est 3) in X by (simpl; tauto). injection X as <-. apply D3.
Qed.

Lemma reach_sample : forall e, reach (3 + e) w1 b = [b; b + 1; b + 2; b + 3; b + 4; b + 5]%nat.
Proof.
  intro e.
  assert (W : forall d, as_estimator w1 (own_or own "freq_reduce" (VStr d)) = None) by (intro; now apply own_or_value).
  assert (R2 : forall n, reach (S n) w1 (b + 2) = [b + 2]%nat).
  { intro n. cbn [reach]. rewrite (proj1 at2). unfold child. rewrite (proj2 at2). reflexivity. }
  assert (R4 : forall n, reach (S n) w1 (b + 4) = [b + 4]%nat).
  { intro n. cbn [reach]. rewrite (proj1 at4). unfold child. rewrite (proj2 at4). reflexivity. }
  assert (R5 : forall n, reach (S n) w1 (b + 5) = [b + 5]%nat).
  { intro n. cbn [reach]. rewrite (proj1 at5). unfold child. rewrite (proj2 at5). reflexivity. }
  assert (R1 : forall n, reach (S (S n)) w1 (b + 1) = [b + 1; b + 2]%nat).
  { intro n. remember (S n) as m. cbn [reach]. subst m. rewrite (proj1 at1). unfold child. rewrite (proj2 at1).
    cbn -[reach as_estimator]. rewrite (est 2) by (simpl; tauto). rewrite R2. reflexivity. }
  assert (R3 : forall n, reach (S (S n)) w1 (b + 3) = [b + 3; b + 4; b + 5]%nat).
  { intro n. remember (S n) as m. cbn [reach]. subst m. rewrite (proj1 at3). unfold child. rewrite (proj2 at3).
    cbn -[reach as_estimator]. rewrite (est 4), (est 5) by (simpl; tauto). rewrite R4, R5, window_value. reflexivity. }
  change (3 + e)%nat with (S (2 + e)). remember (2 + e)%nat as m. cbn [reach].
  rewrite (proj1 at0). unfold child. rewrite (proj2 at0).
  cbn -[reach as_estimator own_or]. rewrite (est 1), (est 3), !own_or_value by (simpl; tauto || reflexivity).
  subst m. change (2 + e)%nat with (S (S e)). rewrite R1, R3. reflexivity.
Qed.

Lemma nodup_sample : forall e, NoDup (reach (3 + e) w1 b).
Proof.
  intro e. rewrite reach_sample.
  repeat (constructor; [cbn [In]; lia|]). constructor.
Qed.

(** Parameter after the construction without further keywords. *)
Lemma pget_sample : forall e k d, In (k, d) (sample_leaves default_window) ->
  pget (3 + e) w1 b k = Some (if dmem k (c_sig CSample) then own_or own k d else d).
Proof.
  intros e k d H. unfold sample_leaves in H. cbn [In] in H.
  repeat (destruct H as [H|H]; [injection H as <- <-|]); try contradiction;
    cbn [pget Nat.add partition Ascii.eqb Bool.eqb]; rewrite (proj1 at0), (proj2 at0);
    cbn -[pget as_estimator own_or sample_objects]; try reflexivity;
    (rewrite ?(est 1), ?(est 3) by (simpl; tauto));
    cbn [pget Nat.add partition Ascii.eqb Bool.eqb];
    rewrite ?(proj1 at1), ?(proj2 at1), ?(proj1 at3), ?(proj2 at3);
    cbn -[pget as_estimator own_or sample_objects]; try reflexivity;
    (rewrite ?(est 2), ?(est 4), ?(est 5) by (simpl; tauto));
    cbn [pget Nat.add partition Ascii.eqb Bool.eqb];
    rewrite ?(proj1 at2), ?(proj2 at2), ?(proj1 at4), ?(proj2 at4), ?(proj1 at5), ?(proj2 at5);
    reflexivity.
Qed.
End Sample.

Lemma nth_error_ext : forall A (l m : list A), (forall i, nth_error l i = nth_error m i) -> l = m.
Proof.
  induction l as [|a l IH]; intros [|b m] H; [reflexivity|discriminate (H 0%nat)|discriminate (H 0%nat)|].
  f_equal; [now injection (H 0%nat)|]. apply IH. intro i. exact (H (S i)).
Qed.
Lemma nth_error_firstn' : forall A (l : list A) n i, (i < n)%nat -> nth_error (firstn n l) i = nth_error l i.
Proof.
  induction l as [|a l IH]; intros [|n] [|i] H; try reflexivity; try lia. cbn [firstn nth_error]. apply IH. lia.
Qed.

Section Construct.
Variable default_window : val.
Variable construct_tracker : val -> outcome val.
Hypothesis window_value : forall w, as_estimator w default_window = None.

Definition no_object (v : val) : Prop := forall i, v <> VObj i.
Lemma no_object_est : forall v w, no_object v -> as_estimator w v = None.
Proof. intros v w H. destruct v; try reflexivity. now destruct (H i). Qed.

Lemma leaf_names : forall k d, In (k, d) (sample_leaves default_window) ->
  dmem (fst (partition k)) (c_sig CSample) = true /\ k <> "regressor" /\ k <> "sinusoidal" /\
  (dmem k (c_sig CSample) = true -> partition k = (k, None)).
Proof.
  intros k d H. unfold sample_leaves in H. cbn [In] in H.
  repeat (destruct H as [H|H]; [injection H as <- <-; (split; [reflexivity|]; split; [discriminate|]; split; [discriminate|];
    intro X; first [reflexivity|discriminate X])|]).
  contradiction.
Qed.

(** Default of the parameter that [None] is replaced with. *)
Definition stored_leaf (k : string) (v : val) : val :=
  match v with VNone => if String.eqb k "sinusoidal__w" then default_window else v | _ => v end.

Lemma owner_sample : forall w own e k d, In (k, d) (sample_leaves default_window) ->
  exists c a, owner (3 + e) (w ++ sample_objects default_window (List.length w) own) (List.length w) k = Some (c, a) /\
    c_default c a = if String.eqb k "sinusoidal__w" then Some BWindow else None.
Proof.
  intros w own e k d H. set (w1 := w ++ _). set (b := List.length w).
  pose proof (at0 default_window w own) as A0. pose proof (at1 default_window w own) as A1.
  pose proof (at2 default_window w own) as A2. pose proof (at3 default_window w own) as A3.
  pose proof (at4 default_window w own) as A4. pose proof (at5 default_window w own) as A5.
  pose proof (est default_window w own) as Es. cbv zeta in *. fold w1 b in A0, A1, A2, A3, A4, A5, Es.
  assert (C1 : child w1 b "regressor" = Some (b + 1)%nat).
  { unfold child. rewrite (proj2 A0). cbn -[as_estimator own_or sample_objects]. apply Es. simpl; tauto. }
  assert (C3 : child w1 b "sinusoidal" = Some (b + 3)%nat).
  { unfold child. rewrite (proj2 A0). cbn -[as_estimator own_or sample_objects]. apply Es. simpl; tauto. }
  assert (C2 : child w1 (b + 1) "linear_regressor" = Some (b + 2)%nat).
  { unfold child. rewrite (proj2 A1). cbn -[as_estimator own_or sample_objects]. apply Es. simpl; tauto. }
  assert (C4 : child w1 (b + 3) "intermediate" = Some (b + 4)%nat).
  { unfold child. rewrite (proj2 A3). cbn -[as_estimator own_or sample_objects]. apply Es. simpl; tauto. }
  assert (C5 : child w1 (b + 3) "tracker" = Some (b + 5)%nat).
  { unfold child. rewrite (proj2 A3). cbn -[as_estimator own_or sample_objects]. apply Es. simpl; tauto. }
  unfold sample_leaves in H. cbn [In] in H.
  repeat (destruct H as [H|H]; [injection H as <- <-; cbn [owner Nat.add partition Ascii.eqb Bool.eqb];
    rewrite ?C1, ?C3; cbn [owner Nat.add partition Ascii.eqb Bool.eqb]; rewrite ?C2, ?C4, ?C5;
    cbn [owner Nat.add partition Ascii.eqb Bool.eqb];
    rewrite ?(proj1 A0), ?(proj1 A1), ?(proj1 A2), ?(proj1 A3), ?(proj1 A4), ?(proj1 A5);
    (eexists; eexists; split; reflexivity)|]).
  contradiction.
Qed.

Lemma construct_sample : forall e kwargs w, dwf kwargs ->
  (forall k v, In (k, v) kwargs -> In k (dkeys (sample_leaves default_window)) /\ no_object v) ->
  exists w', construct default_window construct_tracker (4 + e) CSample kwargs w = (w', Ret (List.length w)) /\
    firstn (List.length w) w' = w /\ List.length w' = (List.length w + 6)%nat /\
    same_shape (w ++ sample_objects default_window (List.length w)
                       (filter (fun p => dmem (fst p) (c_sig CSample)) kwargs)) w' /\
    (forall k d, In (k, d) (sample_leaves default_window) ->
       pget (3 + e) w' (List.length w) k =
       Some (match dget k kwargs with Some v => stored_leaf k v | None => d end)).
Proof.
  intros e kwargs w W H.
  assert (N : forall k, In k (dkeys kwargs) -> exists d, In (k, d) (sample_leaves default_window)).
  { intros k Hk. apply dget_keys in Hk. destruct Hk as [v Hv]. apply dget_in in Hv.
    destruct (H k v Hv) as (Hk & _). apply in_map_iff in Hk. destruct Hk as ([k' d] & <- & Hk). eauto. }
  assert (V : forall k v, dget k kwargs = Some v -> no_object v).
  { intros k v Hv. apply dget_in in Hv. exact (proj2 (H k v Hv)). }
  unfold construct. rewrite rename_known by
    (intros k Hk; destruct (N k Hk) as [d Hd]; exact (proj1 (leaf_names k d Hd))).
  set (own := filter (fun p => dmem (fst p) (c_sig CSample)) kwargs).
  set (rest := filter (fun p => negb (dmem (fst p) (c_sig CSample))) kwargs).
  cbn [c_kwargs negb andb].
  assert (Go : forall k, dget k own = if dmem k (c_sig CSample) then dget k kwargs else None).
  { intro k. unfold own. now rewrite (dget_filter val (fun k => dmem k (c_sig CSample))). }
  assert (Gr : forall k, dget k rest = if negb (dmem k (c_sig CSample)) then dget k kwargs else None).
  { intro k. unfold rest. now rewrite (dget_filter val (fun k => negb (dmem k (c_sig CSample)))). }
  assert (Nk : forall k, k = "regressor" \/ k = "sinusoidal" -> dget k kwargs = None).
  { intros k Hk. apply dget_none. intro X. destruct (N k X) as [d Hd].
    destruct (leaf_names k d Hd) as (_ & A & B & _). tauto. }
  rewrite build_sample; [|rewrite Go; now rewrite (Nk "regressor") by tauto|rewrite Go; now rewrite (Nk "sinusoidal") by tauto].
  set (b := List.length w). set (w1 := w ++ sample_objects default_window b own).
  assert (Vo : forall k v, dget k own = Some v -> as_estimator w1 v = None).
  { intros k v Hv. rewrite Go in Hv. destruct (dmem k (c_sig CSample)); [|discriminate].
    apply no_object_est. exact (V k v Hv). }
  pose proof (pget_sample default_window w own e) as P. fold b w1 in P.
  assert (Lv : leaves (3 + e) w1 b rest).
  { intros k v Hin. assert (Wr : dwf rest) by now apply dwf_filter. pose proof (in_dget _ _ _ _ Wr Hin) as G.
    rewrite Gr in G. destruct (dmem k (c_sig CSample)) eqn:M; [discriminate|]. cbn [negb] in G.
    assert (Hk : In k (dkeys kwargs)) by (apply dget_keys; eauto). destruct (N k Hk) as [d Hd].
    pose proof (P k d Hd) as Pk. rewrite M in Pk. split; [|split].
    - exists d. split; [exact Pk|]. unfold sample_leaves in Hd. cbn [In] in Hd.
      repeat (destruct Hd as [Hd|Hd]; [injection Hd as <- <-; first [reflexivity|apply window_value]|]).
      contradiction.
    - apply no_object_est. exact (V k v G).
    - destruct (owner_sample w own e k d Hd) as (c & a & Ow & Df). fold b w1 in Ow. rewrite Ow.
      intros _ c' a' c'' [= <- <-]. rewrite Df. now destruct (String.eqb k "sinusoidal__w"). }
  destruct (set_leaves default_window construct_tracker window_value (3 + e) w1 b rest) as (w' & E & Sh & Fr & Pw).
  - exact (deep_sample default_window window_value w own Vo e).
  - exact (nodup_sample default_window window_value w own Vo e).
  - now apply dwf_filter.
  - exact Lv.
  - change (4 + e)%nat with (S (3 + e)%nat). rewrite E. exists w'. pose proof Sh as (Le & _). split; [reflexivity|].
    assert (Lw : List.length w' = (b + 6)%nat) by (rewrite Le; unfold w1, b; rewrite app_length; reflexivity).
    split; [|split; [exact Lw|split; [exact Sh|]]].
    + apply nth_error_ext. intro i. destruct (Nat.lt_ge_cases i b) as [Hi|Hi].
      * rewrite nth_error_firstn'; [|exact Hi]. rewrite Fr.
        -- unfold w1. rewrite nth_error_app1 by exact Hi. reflexivity.
        -- pose proof (reach_sample default_window window_value w own Vo e) as R. fold b in R. fold w1 in R.
           rewrite R. cbn [In]. lia.
      * rewrite (proj2 (nth_error_None (firstn b w') i)) by (rewrite firstn_length; lia).
        symmetry. apply nth_error_None. unfold b in Hi. lia.
    + intros k d Hd. rewrite Pw, Gr, (P k d Hd).
      destruct (owner_sample w own e k d Hd) as (c & a & Ow & Df). fold b w1 in Ow. rewrite Ow.
      destruct (dmem k (c_sig CSample)) eqn:M; cbn [negb].
      * f_equal. unfold own_or. rewrite Go, M. destruct (dget k kwargs) as [v|]; [|reflexivity].
        destruct (String.eqb_spec k "sinusoidal__w") as [->|Nw]; [discriminate M|].
        unfold stored_leaf. destruct v; try reflexivity. now destruct (String.eqb_spec k "sinusoidal__w").
      * destruct (dget k kwargs) as [v|]; [|reflexivity]. f_equal. unfold stored, stored_leaf. rewrite Df.
        destruct v; try reflexivity. now destruct (String.eqb k "sinusoidal__w").
Qed.
End Construct.
