(** Lemmas on sums, trigonometric sums and least squares. *)
From Coq Require Import List Bool ZArith Reals Lra Lia.
Import ListNotations.
From Verif Require Import Base Py PyLemmas RLists Dsp_Model Dft_Model Dft_Proofs Bank_Model Bank_Proofs Corr_Model.
Local Open Scope R_scope.

(** ** Finite sums *)

Definition sumn (n : nat) (f : nat -> R) : R := rsum (map f (seq 0 n)).

Lemma sumn_S : forall n f, sumn (S n) f = sumn n f + f n.
Proof. intros. unfold sumn. rewrite seq_S, map_app, rsum_app. cbn. lra. Qed.
Lemma sumn_0 : forall f, sumn 0 f = 0.
Proof. reflexivity. Qed.
Lemma sumn_ext : forall n f g, (forall i, (i < n)%nat -> f i = g i) -> sumn n f = sumn n g.
Proof. intros. unfold sumn. apply rsum_map_ext. intros x H0. apply H. apply in_seq in H0. lia. Qed.
Lemma sumn_plus : forall n f g, sumn n (fun i => f i + g i) = sumn n f + sumn n g.
Proof. intros. unfold sumn. apply rsum_map_plus. Qed.
Lemma sumn_scale : forall n c f, sumn n (fun i => c * f i) = c * sumn n f.
Proof. intros. unfold sumn. apply rsum_map_scale. Qed.
Lemma sumn_scale_r : forall n c f, sumn n (fun i => f i * c) = sumn n f * c.
Proof. intros. rewrite Rmult_comm, <- sumn_scale. apply sumn_ext. intros. ring. Qed.
Lemma sumn_minus : forall n f g, sumn n (fun i => f i - g i) = sumn n f - sumn n g.
Proof. intros. induction n; [cbn; ring|]. rewrite !sumn_S, IHn. ring. Qed.
Lemma sumn_zero : forall n f, (forall i, (i < n)%nat -> f i = 0) -> sumn n f = 0.
Proof. intros. rewrite (sumn_ext _ _ (fun _ => 0)) by auto. induction n; [reflexivity|]. rewrite sumn_S, IHn; auto; lra. Qed.
Lemma sumn_swap : forall n m f, sumn n (fun i => sumn m (fun j => f i j)) = sumn m (fun j => sumn n (fun i => f i j)).
Proof.
  intros. induction n.
  - cbn. symmetry. apply sumn_zero. reflexivity.
  - rewrite sumn_S, IHn, <- sumn_plus. apply sumn_ext. intros. rewrite sumn_S. reflexivity.
Qed.
Lemma sumn_app : forall n m f, sumn (n + m) f = sumn n f + sumn m (fun i => f (n + i)%nat).
Proof.
  intros. induction m; [cbn; rewrite Nat.add_0_r; ring|].
  replace (n + S m)%nat with (S (n + m)) by lia. rewrite !sumn_S, IHm. ring.
Qed.
Lemma sumn_first : forall n f, sumn (S n) f = f 0%nat + sumn n (fun i => f (S i)).
Proof. intros. change (S n) with (1 + n)%nat. rewrite sumn_app. cbn. ring. Qed.
Lemma sumn_rev : forall n f, sumn n f = sumn n (fun i => f (n - 1 - i)%nat).
Proof.
  induction n; intros; [reflexivity|].
  rewrite sumn_S, (sumn_first n), IHn. replace (S n - 1 - 0)%nat with n by lia.
  rewrite Rplus_comm. f_equal. apply sumn_ext. intros. f_equal. lia.
Qed.
Lemma sumn_delta : forall n f j, (j < n)%nat -> sumn n (fun i => if Nat.eqb i j then f i else 0) = f j.
Proof.
  induction n; intros; [lia|]. rewrite sumn_S. destruct (Nat.eq_dec n j).
  - subst. rewrite Nat.eqb_refl. rewrite sumn_zero; [ring|].
    intros. destruct (Nat.eqb_spec i j); [lia|auto].
  - rewrite IHn by lia. destruct (Nat.eqb_spec n j); [lia|ring].
Qed.
Lemma sumn_le : forall n f g, (forall i, (i < n)%nat -> f i <= g i) -> sumn n f <= sumn n g.
Proof. induction n; intros; [cbn; lra|]. rewrite !sumn_S. apply Rplus_le_compat; auto. Qed.
Lemma sumn_abs : forall n f, Rabs (sumn n f) <= sumn n (fun i => Rabs (f i)).
Proof.
  induction n; intros; [cbn; rewrite Rabs_R0; lra|]. rewrite !sumn_S.
  eapply Rle_trans; [apply Rabs_triang|]. apply Rplus_le_compat_r. auto.
Qed.
Lemma sumn_const : forall n c, sumn n (fun _ => c) = INR n * c.
Proof. induction n; intros; [cbn; ring|]. rewrite sumn_S, IHn, S_INR. ring. Qed.
Lemma rsum_sumn : forall (l : list R), rsum l = sumn (List.length l) (fun i => nth i l 0).
Proof.
  induction l; [reflexivity|]. cbn [List.length]. rewrite sumn_first. cbn [nth].
  unfold rsum at 1. cbn [fold_right]. fold (rsum l). rewrite IHl. reflexivity.
Qed.

(** ** Orthogonality *)

Lemma telescope : forall n t,
  2 * sin (t / 2) * sumn n (fun k => cos (INR k * t)) = sin (INR n * t - t / 2) + sin (t / 2) /\
  2 * sin (t / 2) * sumn n (fun k => sin (INR k * t)) = cos (t / 2) - cos (INR n * t - t / 2).
Proof.
  induction n; intros t.
  - cbn [INR]. rewrite !sumn_0, Rmult_0_l, Rminus_0_l, sin_neg, cos_neg. split; ring.
  - destruct (IHn t) as [A B]. rewrite !sumn_S, !Rmult_plus_distr_l, A, B. rewrite S_INR.
    replace ((INR n + 1) * t - t / 2) with (INR n * t + t / 2) by field.
    rewrite sin_plus, cos_plus, sin_minus, cos_minus. split; ring.
Qed.

(** The angle of [m] steps of bin [k]: [2 pi k m / N]. *)
Definition ang (N : nat) (k : nat) (m : Z) : R := 2 * PI * INR k * IZR m / INR N.

Lemma orth : forall N m, (0 < N)%nat ->
  sumn N (fun k => cos (ang N k m)) = (if (m mod Z.of_nat N =? 0)%Z then INR N else 0) /\
  sumn N (fun k => sin (ang N k m)) = 0.
Proof.
  intros N m HN. assert (N0 : INR N <> 0) by (apply not_0_INR; lia).
  destruct (Z.eqb_spec (m mod Z.of_nat N) 0) as [E|E].
  - apply Z.mod_divide in E; [|lia]. destruct E as [q ->].
    assert (A : forall k, ang N k (q * Z.of_nat N) = 0 + 2 * IZR (Z.of_nat k * q) * PI).
    { intro k. unfold ang. rewrite !mult_IZR, <- !INR_IZR_INZ. field. auto. }
    split.
    + rewrite (sumn_ext _ _ (fun _ => 1)).
      * rewrite sumn_const. ring.
      * intros. rewrite A, cos_shift. apply cos_0.
    + apply sumn_zero. intros. rewrite A, sin_shift. apply sin_0.
  - set (t := 2 * PI * IZR m / INR N).
    assert (T : forall k, ang N k m = INR k * t) by (intro; unfold ang, t; field; auto).
    destruct (telescope N t) as [A B].
    assert (Nt : INR N * t = 0 + 2 * IZR m * PI) by (unfold t; field; auto).
    assert (S0 : sin (t / 2) <> 0).
    { intro Z0. apply sin_eq_0_0 in Z0. destruct Z0 as [k Hk]. apply E.
      assert (IZR m = IZR (k * Z.of_nat N)).
      { rewrite mult_IZR, <- INR_IZR_INZ. unfold t in Hk.
        apply (Rmult_eq_reg_l (PI / INR N)).
        - replace (PI / INR N * IZR m) with (2 * PI * IZR m / INR N / 2) by (field; auto). rewrite Hk. field; auto.
        - apply Rmult_integral_contrapositive_currified; [apply PI_neq0|apply Rinv_neq_0_compat; auto]. }
      apply eq_IZR in H. rewrite H. apply Z.mod_mul. lia. }
    rewrite Nt in A, B.
    replace (0 + 2 * IZR m * PI - t / 2) with (- (t / 2) + 2 * IZR m * PI) in A, B by ring.
    rewrite sin_shift, sin_neg in A. rewrite cos_shift, cos_neg in B.
    split.
    + rewrite (sumn_ext _ _ (fun k => cos (INR k * t))) by (intros; rewrite T; auto).
      apply (Rmult_eq_reg_l (2 * sin (t / 2))); [|apply Rmult_integral_contrapositive_currified; [lra|auto]].
      rewrite A. ring.
    + rewrite (sumn_ext _ _ (fun k => sin (INR k * t))) by (intros; rewrite T; auto).
      apply (Rmult_eq_reg_l (2 * sin (t / 2))); [|apply Rmult_integral_contrapositive_currified; [lra|auto]].
      rewrite B. ring.
Qed.

(** ** Half spectra *)

Lemma half_sum : forall N g, (0 < N)%nat -> (forall k, (0 < k < N)%nat -> g (N - k)%nat = g k) ->
  sumn (N / 2 + 1) (fun k => irfft_weight N k * g k) = sumn N g.
Proof.
  intros N g HN Sy. set (h := (N / 2)%nat).
  assert (Hh : (N = 2 * h \/ N = 2 * h + 1)%nat).
  { unfold h. pose proof (Nat.div_mod N 2). pose proof (Nat.mod_upper_bound N 2). lia. }
  assert (A : forall n, (n <= N - 1)%nat ->
    sumn n (fun k => g (N - n + k)%nat) = sumn n (fun k => g (S k))).
  { intros n Hn. rewrite sumn_rev. apply sumn_ext. intros i Hi.
    rewrite <- (Sy (S i)) by lia. f_equal. lia. }
  rewrite Nat.add_1_r, sumn_first. cbn [irfft_weight Nat.eqb].
  destruct Hh as [Hh|Hh].
  - assert (exists h', h = S h') as [h' Eh] by (exists (h - 1)%nat; lia).
    assert (N = S h' + S h')%nat as EN by lia.
    rewrite Eh, sumn_S.
    rewrite (sumn_ext h' _ (fun k => 2 * g (S k))).
    2:{ intros i Hi. unfold irfft_weight. cbn [Nat.eqb]. destruct (Nat.eqb_spec (2 * S i) N); [lia|auto]. }
    unfold irfft_weight. cbn [Nat.eqb]. destruct (Nat.eqb_spec (2 * S h') N); [|lia].
    rewrite sumn_scale.
    transitivity (sumn (S (h' + 1 + h')) g); [|f_equal; lia].
    rewrite sumn_first, sumn_app, (sumn_app h' 1). specialize (A h').
    rewrite (sumn_ext h' (fun i => g (S (h' + 1 + i))) (fun k => g (N - h' + k)%nat)) by (intros; f_equal; lia).
    rewrite A by lia. unfold sumn at 3. cbn [seq map]. unfold rsum. cbn [fold_right]. fold rsum.
    replace (h' + 0)%nat with h' by lia. ring.
  - rewrite (sumn_ext h _ (fun k => 2 * g (S k))).
    2:{ intros i Hi. unfold irfft_weight. cbn [Nat.eqb]. destruct (Nat.eqb_spec (2 * S i) N); [lia|auto]. }
    rewrite sumn_scale.
    transitivity (sumn (S (h + h)) g); [|f_equal; lia].
    rewrite sumn_first, sumn_app. specialize (A h).
    rewrite (sumn_ext h (fun i => g (S (h + i))) (fun k => g (N - h + k)%nat)) by (intros; f_equal; lia).
    rewrite A by lia. ring.
Qed.

(** ** Power spectra and circular autocorrelation *)

(** Real and imaginary part of bin [k] of the transform of [x] (of size [N]). *)
Definition dre (N : nat) (x : nat -> R * R) (k : nat) : R :=
  sumn N (fun p => fst (x p) * cos (ang N k (Z.of_nat p)) + snd (x p) * sin (ang N k (Z.of_nat p))).
Definition dim (N : nat) (x : nat -> R * R) (k : nat) : R :=
  sumn N (fun p => snd (x p) * cos (ang N k (Z.of_nat p)) - fst (x p) * sin (ang N k (Z.of_nat p))).

Lemma ang_minus : forall N k a b, ang N k (a - b) = ang N k a - ang N k b.
Proof. intros. unfold ang. rewrite minus_IZR. unfold Rdiv. ring. Qed.
Lemma ang_plus : forall N k a b, ang N k (a + b) = ang N k a + ang N k b.
Proof. intros. unfold ang. rewrite plus_IZR. unfold Rdiv. ring. Qed.

Definition cross (x : nat -> R * R) (p q : nat) : R := fst (x p) * fst (x q) + snd (x p) * snd (x q).
Definition wedge (x : nat -> R * R) (p q : nat) : R := snd (x p) * fst (x q) - fst (x p) * snd (x q).

Lemma power_sum : forall N x k,
  dre N x k * dre N x k + dim N x k * dim N x k =
  sumn N (fun p => sumn N (fun q =>
    cross x p q * cos (ang N k (Z.of_nat p - Z.of_nat q)) + wedge x p q * sin (ang N k (Z.of_nat p - Z.of_nat q)))).
Proof.
  intros. unfold dre, dim.
  rewrite <- !sumn_scale_r, <- sumn_plus. apply sumn_ext. intros p _.
  rewrite <- !sumn_scale, <- sumn_plus. apply sumn_ext. intros q _.
  rewrite ang_minus, cos_minus, sin_minus. unfold cross, wedge. ring.
Qed.

Lemma trig_orth : forall N d r, (0 < N)%nat ->
  sumn N (fun k => cos (ang N k d) * cos (ang N k r)) =
    INR N / 2 * ((if ((d - r) mod Z.of_nat N =? 0)%Z then 1 else 0) + (if ((d + r) mod Z.of_nat N =? 0)%Z then 1 else 0)) /\
  sumn N (fun k => sin (ang N k d) * sin (ang N k r)) =
    INR N / 2 * ((if ((d - r) mod Z.of_nat N =? 0)%Z then 1 else 0) - (if ((d + r) mod Z.of_nat N =? 0)%Z then 1 else 0)) /\
  sumn N (fun k => sin (ang N k d) * cos (ang N k r)) = 0 /\
  sumn N (fun k => cos (ang N k d) * sin (ang N k r)) = 0.
Proof.
  intros N d r HN. destruct (orth N (d - r) HN) as [A B]. destruct (orth N (d + r) HN) as [C D].
  repeat split.
  - rewrite (sumn_ext _ _ (fun k => / 2 * (cos (ang N k (d - r)) + cos (ang N k (d + r))))).
    + rewrite sumn_scale, sumn_plus, A, C. destruct (_ =? _)%Z, (_ =? _)%Z; field.
    + intros. rewrite ang_minus, ang_plus, cos_minus, cos_plus. field.
  - rewrite (sumn_ext _ _ (fun k => / 2 * (cos (ang N k (d - r)) - cos (ang N k (d + r))))).
    + rewrite sumn_scale, sumn_minus, A, C. destruct (_ =? _)%Z, (_ =? _)%Z; field.
    + intros. rewrite ang_minus, ang_plus, cos_minus, cos_plus. field.
  - rewrite (sumn_ext _ _ (fun k => / 2 * (sin (ang N k (d - r)) + sin (ang N k (d + r))))).
    + rewrite sumn_scale, sumn_plus, B, D. field.
    + intros. rewrite ang_minus, ang_plus, sin_minus, sin_plus. field.
  - rewrite (sumn_ext _ _ (fun k => / 2 * (sin (ang N k (d + r)) - sin (ang N k (d - r))))).
    + rewrite sumn_scale, sumn_minus, B, D. field.
    + intros. rewrite ang_minus, ang_plus, sin_minus, sin_plus. field.
Qed.

Lemma shift_iff : forall N p q r, (p < N)%nat -> (q < N)%nat ->
  ((Z.of_nat p - Z.of_nat q - Z.of_nat r) mod Z.of_nat N =? 0)%Z = Nat.eqb p ((q + r) mod N).
Proof.
  intros N p q r Hp Hq. apply eq_true_iff_eq. rewrite Z.eqb_eq, Nat.eqb_eq.
  assert (HM : ((q + r) mod N < N)%nat) by (apply Nat.mod_upper_bound; lia).
  pose proof (Nat.div_mod (q + r) N ltac:(lia)) as D.
  set (m := ((q + r) mod N)%nat) in *. set (v := ((q + r) / N)%nat) in *.
  rewrite Z.mod_divide by lia. split.
  - intros [c Hc].
    assert (Z.of_nat p - Z.of_nat m = (c + Z.of_nat v) * Z.of_nat N)%Z by nia.
    assert (c + Z.of_nat v = 0)%Z by nia. nia.
  - intros ->. exists (- Z.of_nat v)%Z. nia.
Qed.

Lemma double_delta : forall N (F : nat -> nat -> R) r,
  sumn N (fun p => sumn N (fun q =>
    F p q * (if ((Z.of_nat p - Z.of_nat q - Z.of_nat r) mod Z.of_nat N =? 0)%Z then 1 else 0))) =
  sumn N (fun q => F ((q + r) mod N)%nat q).
Proof.
  intros. rewrite sumn_swap. apply sumn_ext. intros q Hq.
  rewrite (sumn_ext _ _ (fun p => if Nat.eqb p ((q + r) mod N) then F p q else 0)).
  - apply (sumn_delta N (fun p => F p q)). apply Nat.mod_upper_bound. lia.
  - intros p Hp. rewrite shift_iff by auto. destruct (Nat.eqb _ _); ring.
Qed.
Lemma double_delta' : forall N (F : nat -> nat -> R) r,
  sumn N (fun p => sumn N (fun q =>
    F p q * (if ((Z.of_nat p - Z.of_nat q + Z.of_nat r) mod Z.of_nat N =? 0)%Z then 1 else 0))) =
  sumn N (fun q => F q ((q + r) mod N)%nat).
Proof.
  intros. rewrite <- (double_delta N (fun p q => F q p)), sumn_swap. apply sumn_ext. intros q Hq.
  apply sumn_ext. intros p Hp. f_equal.
  replace (Z.of_nat p - Z.of_nat q + Z.of_nat r)%Z with (- (Z.of_nat q - Z.of_nat p - Z.of_nat r))%Z by lia.
  destruct (Z.eqb_spec ((- (Z.of_nat q - Z.of_nat p - Z.of_nat r)) mod Z.of_nat N) 0) as [E|E];
    destruct (Z.eqb_spec ((Z.of_nat q - Z.of_nat p - Z.of_nat r) mod Z.of_nat N) 0) as [E'|E']; auto.
  - exfalso. apply E'. apply Z.mod_divide in E; [|lia]. apply Z.mod_divide; [lia|].
    apply (proj1 (Z.divide_opp_r _ _)). exact E.
  - exfalso. apply E. apply Z.mod_divide in E'; [|lia]. apply Z.mod_divide; [lia|].
    apply (proj2 (Z.divide_opp_r _ _)). exact E'.
Qed.

Lemma wiener_khinchin : forall N x r, (0 < N)%nat ->
  sumn N (fun k => (dre N x k * dre N x k + dim N x k * dim N x k) * cos (ang N k (Z.of_nat r))) / INR N =
    sumn N (fun q => cross x ((q + r) mod N) q) /\
  sumn N (fun k => (dre N x k * dre N x k + dim N x k * dim N x k) * sin (ang N k (Z.of_nat r))) / INR N =
    sumn N (fun q => wedge x ((q + r) mod N) q).
Proof.
  intros N x r HN. assert (N0 : INR N <> 0) by (apply not_0_INR; lia).
  assert (G : forall f : R -> R,
    sumn N (fun k => (dre N x k * dre N x k + dim N x k * dim N x k) * f (ang N k (Z.of_nat r))) =
    sumn N (fun p => sumn N (fun q =>
      cross x p q * sumn N (fun k => cos (ang N k (Z.of_nat p - Z.of_nat q)) * f (ang N k (Z.of_nat r))) +
      wedge x p q * sumn N (fun k => sin (ang N k (Z.of_nat p - Z.of_nat q)) * f (ang N k (Z.of_nat r)))))).
  { intro f.
    rewrite (sumn_ext _ _ (fun k => sumn N (fun p => sumn N (fun q =>
      (cross x p q * cos (ang N k (Z.of_nat p - Z.of_nat q)) + wedge x p q * sin (ang N k (Z.of_nat p - Z.of_nat q)))
      * f (ang N k (Z.of_nat r)))))).
    2:{ intros k _. rewrite power_sum, <- sumn_scale_r. apply sumn_ext. intros p _. rewrite <- sumn_scale_r. reflexivity. }
    rewrite sumn_swap. apply sumn_ext. intros p _. rewrite sumn_swap. apply sumn_ext. intros q _.
    rewrite <- !sumn_scale, <- sumn_plus. apply sumn_ext. intros k _. ring. }
  split.
  - rewrite (G cos).
    rewrite (sumn_ext _ _ (fun p => sumn N (fun q => INR N / 2 *
       (cross x p q * (if ((Z.of_nat p - Z.of_nat q - Z.of_nat r) mod Z.of_nat N =? 0)%Z then 1 else 0) +
        cross x p q * (if ((Z.of_nat p - Z.of_nat q + Z.of_nat r) mod Z.of_nat N =? 0)%Z then 1 else 0))))).
    2:{ intros p _. apply sumn_ext. intros q _.
        destruct (trig_orth N (Z.of_nat p - Z.of_nat q) (Z.of_nat r) HN) as (A & _ & B & _).
        rewrite A, B. ring. }
    rewrite (sumn_ext _ _ (fun p => INR N / 2 *
      (sumn N (fun q => cross x p q * (if ((Z.of_nat p - Z.of_nat q - Z.of_nat r) mod Z.of_nat N =? 0)%Z then 1 else 0)) +
       sumn N (fun q => cross x p q * (if ((Z.of_nat p - Z.of_nat q + Z.of_nat r) mod Z.of_nat N =? 0)%Z then 1 else 0))))).
    2:{ intros p _. rewrite sumn_scale, sumn_plus. reflexivity. }
    rewrite sumn_scale, sumn_plus, double_delta, double_delta'.
    rewrite (sumn_ext _ (fun q => cross x q ((q + r) mod N)) (fun q => cross x ((q + r) mod N) q))
      by (intros; unfold cross; ring).
    field. auto.
  - rewrite (G sin).
    rewrite (sumn_ext _ _ (fun p => sumn N (fun q => INR N / 2 *
       (wedge x p q * (if ((Z.of_nat p - Z.of_nat q - Z.of_nat r) mod Z.of_nat N =? 0)%Z then 1 else 0) -
        wedge x p q * (if ((Z.of_nat p - Z.of_nat q + Z.of_nat r) mod Z.of_nat N =? 0)%Z then 1 else 0))))).
    2:{ intros p _. apply sumn_ext. intros q _.
        destruct (trig_orth N (Z.of_nat p - Z.of_nat q) (Z.of_nat r) HN) as (_ & A & _ & B).
        rewrite A, B. ring. }
    rewrite (sumn_ext _ _ (fun p => INR N / 2 *
      (sumn N (fun q => wedge x p q * (if ((Z.of_nat p - Z.of_nat q - Z.of_nat r) mod Z.of_nat N =? 0)%Z then 1 else 0)) -
       sumn N (fun q => wedge x p q * (if ((Z.of_nat p - Z.of_nat q + Z.of_nat r) mod Z.of_nat N =? 0)%Z then 1 else 0))))).
    2:{ intros p _. rewrite sumn_scale, sumn_minus. reflexivity. }
    rewrite sumn_scale, sumn_minus, double_delta, double_delta'.
    rewrite (sumn_ext _ (fun q => wedge x q ((q + r) mod N)) (fun q => - 1 * wedge x ((q + r) mod N) q))
      by (intros; unfold wedge; ring).
    rewrite sumn_scale. field. auto.
Qed.

(** Real signals have symmetric power spectra. *)
Lemma real_symmetric : forall N x k, (0 < N)%nat -> (k <= N)%nat -> (forall p, snd (x p) = 0) ->
  dre N x (N - k) = dre N x k /\ dim N x (N - k) = - dim N x k.
Proof.
  intros N x k HN Hk Hr. assert (N0 : INR N <> 0) by (apply not_0_INR; lia).
  assert (A : forall p, ang N (N - k) (Z.of_nat p) = - ang N k (Z.of_nat p) + 2 * IZR (Z.of_nat p) * PI).
  { intro p. unfold ang. rewrite minus_INR by lia. field. auto. }
  unfold dre, dim. split.
  - apply sumn_ext. intros p _. rewrite Hr, A, cos_shift, cos_neg. ring.
  - replace (- sumn N (fun p => snd (x p) * cos (ang N k (Z.of_nat p)) - fst (x p) * sin (ang N k (Z.of_nat p))))
      with (-1 * sumn N (fun p => snd (x p) * cos (ang N k (Z.of_nat p)) - fst (x p) * sin (ang N k (Z.of_nat p)))) by ring.
    rewrite <- sumn_scale. apply sumn_ext. intros p _. rewrite Hr, A, cos_shift, cos_neg, sin_shift, sin_neg. ring.
Qed.

(** ** Least squares *)

Lemma sumn_sq_zero : forall m f, sumn m (fun i => f i * f i) = 0 -> forall i, (i < m)%nat -> f i = 0.
Proof.
  induction m; intros f H i Hi; [lia|]. rewrite sumn_S in H.
  assert (0 <= sumn m (fun i => f i * f i)).
  { replace 0 with (sumn m (fun _ => 0)) by (apply sumn_zero; auto). apply sumn_le. intros. apply Rle_0_sqr. }
  pose proof (Rle_0_sqr (f m)) as Q. unfold Rsqr in Q.
  destruct (Nat.eq_dec i m).
  - subst. assert (f m * f m = 0) by lra. apply Rmult_integral in H1. tauto.
  - apply IHm; [lra|lia].
Qed.

Section LeastSquares.
Context (n : nat) (x y : nat -> R).
Definition resid (k q : R) (i : nat) : R := y i - (k * x i + q).
Definition sqerr (k q : R) : R := sumn n (fun i => resid k q i * resid k q i).

Lemma quad_zero : forall c D, 0 <= D -> (forall e, 0 <= - 2 * e * c + e * e * D) -> c = 0.
Proof.
  intros c D HD H. specialize (H (c / (D + 1))).
  replace (- 2 * (c / (D + 1)) * c + c / (D + 1) * (c / (D + 1)) * D)
    with (- (c / (D + 1) * (c / (D + 1))) * (D + 2)) in H by (field; lra).
  assert (c / (D + 1) * (c / (D + 1)) = 0) as H0.
  { pose proof (Rle_0_sqr (c / (D + 1))) as Q. unfold Rsqr in Q. nra. }
  assert (c / (D + 1) = 0) as H1 by (apply Rmult_integral in H0; tauto).
  replace c with (c / (D + 1) * (D + 1)) by (field; lra). rewrite H1. ring.
Qed.
Lemma sumn_sq_nonneg : forall f, 0 <= sumn n (fun i => f i * f i).
Proof.
  intros. replace 0 with (sumn n (fun _ => 0)) by (apply sumn_zero; auto).
  apply sumn_le. intros. apply Rle_0_sqr.
Qed.
Lemma lsq_orth : forall k q, (forall k' q', sqerr k q <= sqerr k' q') ->
  sumn n (resid k q) = 0 /\ sumn n (fun i => x i * resid k q i) = 0.
Proof.
  intros k q H. split.
  - apply (quad_zero _ (sumn n (fun i => 1))); [rewrite sumn_const; pose proof (pos_INR n); lra|].
    intro e. specialize (H k (q + e)). unfold sqerr in H.
    rewrite (sumn_ext n (fun i => resid k (q + e) i * resid k (q + e) i)
       (fun i => resid k q i * resid k q i + (- 2 * e * resid k q i + e * e * 1))) in H
      by (intros; unfold resid; ring).
    rewrite !sumn_plus, !sumn_scale in H. lra.
  - apply (quad_zero _ (sumn n (fun i => x i * x i))); [apply sumn_sq_nonneg|].
    intro e. specialize (H (k + e) q). unfold sqerr in H.
    rewrite (sumn_ext n (fun i => resid (k + e) q i * resid (k + e) q i)
       (fun i => resid k q i * resid k q i + (- 2 * e * (x i * resid k q i) + e * e * (x i * x i)))) in H
      by (intros; unfold resid; ring).
    rewrite !sumn_plus, !sumn_scale in H. lra.
Qed.
Lemma orth_diff : forall k q k' q',
  sumn n (resid k q) = 0 -> sumn n (fun i => x i * resid k q i) = 0 ->
  sqerr k' q' = sqerr k q + sumn n (fun i => ((k' - k) * x i + (q' - q)) * ((k' - k) * x i + (q' - q))).
Proof.
  intros k q k' q' A B. unfold sqerr.
  rewrite (sumn_ext n (fun i => resid k' q' i * resid k' q' i)
    (fun i => resid k q i * resid k q i +
       (((k' - k) * x i + (q' - q)) * ((k' - k) * x i + (q' - q)) +
        (- 2 * (k' - k) * (x i * resid k q i) + - 2 * (q' - q) * resid k q i))))
    by (intros; unfold resid; ring).
  rewrite !sumn_plus, !sumn_scale, A, B. ring.
Qed.
Lemma orth_lsq : forall k q,
  sumn n (resid k q) = 0 -> sumn n (fun i => x i * resid k q i) = 0 ->
  forall k' q', sqerr k q <= sqerr k' q'.
Proof.
  intros. rewrite (orth_diff k q k' q') by auto.
  pose proof (sumn_sq_nonneg (fun i => (k' - k) * x i + (q' - q))). lra.
Qed.
Lemma lsq_unique : forall k q k' q', (forall a b, sqerr k q <= sqerr a b) -> (forall a b, sqerr k' q' <= sqerr a b) ->
  forall i, (i < n)%nat -> resid k q i = resid k' q' i.
Proof.
  intros k q k' q' H H' i Hi. destruct (lsq_orth k q H) as [A B].
  pose proof (orth_diff k q k' q' A B) as D. pose proof (H k' q'). pose proof (H' k q).
  pose proof (sumn_sq_zero n (fun i => (k' - k) * x i + (q' - q)) ltac:(lra) i Hi) as Z.
  unfold resid. cbn beta in Z. lra.
Qed.
End LeastSquares.

(** The usual closed form. *)
Definition ols (n : nat) (x y : nat -> R) : R * R :=
  let mx := sumn n x / INR n in
  let my := sumn n y / INR n in
  let v := sumn n (fun i => (x i - mx) * (x i - mx)) in
  let k := if Req_EM_T v 0 then 0 else sumn n (fun i => (x i - mx) * y i) / v in
  (k, my - k * mx).
Lemma ols_orth : forall n x y, (0 < n)%nat ->
  let kq := ols n x y in
  sumn n (resid x y (fst kq) (snd kq)) = 0 /\ sumn n (fun i => x i * resid x y (fst kq) (snd kq) i) = 0.
Proof.
  intros n x y Hn. unfold ols. cbv zeta. cbn [fst snd].
  set (mx := sumn n x / INR n). set (my := sumn n y / INR n).
  set (v := sumn n (fun i => (x i - mx) * (x i - mx))).
  set (k := if Req_EM_T v 0 then 0 else sumn n (fun i => (x i - mx) * y i) / v).
  assert (N0 : INR n <> 0) by (apply not_0_INR; lia).
  assert (A : sumn n (resid x y k (my - k * mx)) = 0).
  { rewrite (sumn_ext _ _ (fun i => y i - k * (x i - mx) - my)) by (intros; unfold resid; ring).
    rewrite sumn_minus, sumn_minus, sumn_scale, sumn_minus, !sumn_const. unfold my, mx. field. auto. }
  split; [exact A|].
  rewrite (sumn_ext _ _ (fun i => mx * resid x y k (my - k * mx) i + (x i - mx) * resid x y k (my - k * mx) i)) by (intros; ring).
  rewrite sumn_plus, sumn_scale, A, Rmult_0_r, Rplus_0_l.
  assert (M : sumn n (fun i => x i - mx) = 0).
  { rewrite sumn_minus, sumn_const. unfold mx. field. auto. }
  rewrite (sumn_ext _ _ (fun i => (x i - mx) * y i - k * ((x i - mx) * (x i - mx)) - (my * (x i - mx))))
    by (intros; unfold resid; ring).
  rewrite !sumn_minus, !sumn_scale, M. fold v. unfold k. destruct (Req_EM_T v 0) as [E|E].
  - rewrite (sumn_ext n (fun i => (x i - mx) * y i) (fun _ => 0)).
    + rewrite sumn_zero by auto. ring.
    + intros i Hi. rewrite (sumn_sq_zero n (fun i => x i - mx) E i Hi). ring.
  - field. auto.
Qed.
