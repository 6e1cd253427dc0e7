(** Properties of trend removal, of the periodogram and of the autocorrelograms
    (C69 to C73). *)
From Coq Require Import List Bool ZArith Reals Lra Lia Floats.SpecFloat.
Import ListNotations.
From Verif Require Import Base Py PyLemmas RLists Sample_Model Dsp_Model Dsp_Proofs Dft_Model Bank_Model Bank_Proofs Beat_Model
  Corr_Model Corr_Proofs.
Local Open Scope R_scope.

(** ** C69: trend removal *)

(** The samples of a result. *)
Definition samples (s : squeezed) : list R := match s with Scalar v => [v] | Vector l => l end.

(** Sum of the squared distances of the points from the line of slope [k] and
    intercept [q]; a line is fitted by least squares if no other is closer. *)
Definition distance2 (x y : list R) (k q : R) : R :=
  rsum (map (fun p => (snd p - (k * fst p + q)) * (snd p - (k * fst p + q))) (combine x y)).
Definition least_squares (x y : list R) (kq : R * R) : Prop :=
  forall k q, distance2 x y (fst kq) (snd kq) <= distance2 x y k q.
(** A regressor which fits every series with a line of least squares; if the
    times do not determine it, any of them. *)
Definition regressor (model : list R -> list R -> res (R * R)) : Prop :=
  forall x y, List.length x = List.length y -> x <> [] ->
  exists kq, model x y = Ok kq /\ least_squares x y kq.

(** There is one. *)
Definition ols_model (x y : list R) : res (R * R) :=
  match x with [] => Err ValueError | _ =>
    if Nat.eqb (List.length x) (List.length y)
    then Ok (ols (List.length x) (fun i => nth i x 0) (fun i => nth i y 0)) else Err ValueError
  end.

Lemma distance2_sqerr : forall x y k q, List.length x = List.length y ->
  distance2 x y k q = sqerr (List.length x) (fun i => nth i x 0) (fun i => nth i y 0) k q.
Proof.
  intros x y k q L. unfold distance2, sqerr. rewrite rsum_sumn, map_length, combine_length, <- L, Nat.min_id.
  apply sumn_ext. intros i Hi.
  rewrite (nth_map_lt _ _ _ (0, 0) 0) by (rewrite combine_length, <- L, Nat.min_id; auto).
  rewrite combine_nth by auto. reflexivity.
Qed.

Lemma ols_regressor : regressor ols_model.
Proof.
  intros x y L N. unfold ols_model. destruct x as [|a x]; [congruence|].
  rewrite L, Nat.eqb_refl, <- L. eexists. split; [reflexivity|].
  intros k q. rewrite !distance2_sqerr by auto.
  apply orth_lsq; apply ols_orth; cbn; lia.
Qed.

Lemma detrend_some : forall model y t, regressor model -> List.length t = List.length y -> y <> [] ->
  exists k q, detrend model 1 y (Some t) =
      Ok (squeeze (map (fun p => snd p - (k * fst p + q)) (combine t y))) /\
    least_squares t y (k, q).
Proof.
  intros model y t M L N.
  destruct (M t y L) as ((k & q) & E & H); [destruct t, y; cbn in L; congruence|].
  exists k, q. split; [|exact H]. unfold detrend. cbn [negb Z.eqb]. rewrite E. cbn [bind fst snd].
  rewrite L, Nat.eqb_refl. reflexivity.
Qed.
Lemma samples_squeeze : forall l, samples (squeeze l) = l.
Proof. destruct l as [|a [|b l]]; reflexivity. Qed.
Lemma resid_nth : forall t y k q i, List.length t = List.length y -> (i < List.length y)%nat ->
  nth i (map (fun p => snd p - (k * fst p + q)) (combine t y)) 0 =
  resid (fun i => nth i t 0) (fun i => nth i y 0) k q i.
Proof.
  intros. rewrite (nth_map_lt _ _ _ (0, 0) 0) by (rewrite combine_length, H, Nat.min_id; auto).
  rewrite combine_nth by auto. reflexivity.
Qed.
Lemma resid_length : forall t y (f : R * R -> R), List.length t = List.length y ->
  List.length (map f (combine t y)) = List.length y.
Proof. intros. rewrite map_length, combine_length, H. apply Nat.min_id. Qed.

(** The result has a sample for each sample of the signal: its distance from a
    line.  The sum of the result is zero, it is not correlated with the times,
    and no other line leaves less energy. *)
Theorem c69_residuals : forall model y t, regressor model -> List.length t = List.length y -> y <> [] ->
  exists s k q, detrend model 1 y (Some t) = Ok s /\
    List.length (samples s) = List.length y /\
    (forall i, (i < List.length y)%nat -> nth i (samples s) 0 = nth i y 0 - (k * nth i t 0 + q)) /\
    rsum (samples s) = 0 /\
    rsum (map (fun p => fst p * snd p) (combine t (samples s))) = 0 /\
    (forall k q, rsum (map (fun v => v * v) (samples s)) <= distance2 t y k q).
Proof.
  intros model y t M L N. destruct (detrend_some model y t M L N) as (k & q & E & H).
  exists (squeeze (map (fun p => snd p - (k * fst p + q)) (combine t y))), k, q.
  rewrite samples_squeeze.
  set (r := map (fun p => snd p - (k * fst p + q)) (combine t y)).
  assert (LR : List.length r = List.length y) by (apply resid_length; auto).
  assert (NR : forall i, (i < List.length y)%nat ->
    nth i r 0 = resid (fun i => nth i t 0) (fun i => nth i y 0) k q i) by (intros; apply resid_nth; auto).
  destruct (lsq_orth (List.length t) (fun i => nth i t 0) (fun i => nth i y 0) k q) as [A B].
  { intros k' q'. rewrite <- !distance2_sqerr by auto. apply H. }
  rewrite L in A, B.
  repeat split; auto.
  - rewrite rsum_sumn, LR. eapply eq_trans; [|exact A]. apply sumn_ext. exact NR.
  - rewrite rsum_sumn, resid_length, LR by (rewrite LR; exact L). eapply eq_trans; [|exact B]. apply sumn_ext. intros i Hi.
    rewrite (nth_map_lt _ _ _ (0, 0) 0) by (rewrite combine_length, L, LR, Nat.min_id; auto).
    rewrite combine_nth by congruence. cbn [fst snd]. rewrite NR by auto. reflexivity.
  - intros k' q'. eapply Rle_trans; [|apply (H k' q')]. cbn [fst snd]. rewrite distance2_sqerr by auto.
    rewrite rsum_sumn, map_length, LR, L. unfold sqerr. apply Req_le. apply sumn_ext. intros i Hi.
    rewrite (nth_map_lt _ _ _ 0 0) by lia. rewrite NR by auto. reflexivity.
Qed.
Print Assumptions c69_residuals.

Lemma squeeze_ext : forall l l', List.length l = List.length l' ->
  (forall i, (i < List.length l)%nat -> nth i l 0 = nth i l' 0) -> squeeze l = squeeze l'.
Proof. intros. f_equal. apply nth_ext with 0 0; auto. Qed.

(** Removing a trend twice, or adding a line before, changes nothing; nor do
    other units or another origin of the times. *)
Theorem c69_line : forall model y t a b, regressor model -> List.length t = List.length y -> y <> [] ->
  detrend model 1 (map (fun p => snd p + (a * fst p + b)) (combine t y)) (Some t) = detrend model 1 y (Some t).
Proof.
  intros model y t a b M L N. set (y' := map (fun p => snd p + (a * fst p + b)) (combine t y)).
  assert (L' : List.length y' = List.length y) by (apply resid_length; auto).
  assert (NY : forall i, (i < List.length y)%nat -> nth i y' 0 = nth i y 0 + (a * nth i t 0 + b)).
  { intros. unfold y'. rewrite (nth_map_lt _ _ _ (0, 0) 0) by (rewrite combine_length, L, Nat.min_id; auto).
    rewrite combine_nth by auto. reflexivity. }
  destruct (detrend_some model y t M L N) as (k & q & -> & H).
  destruct (detrend_some model y' t M) as (k' & q' & -> & H').
  { congruence. } { destruct y, y'; cbn in L'; congruence. }
  f_equal. apply squeeze_ext.
  { rewrite !resid_length by congruence. auto. }
  rewrite resid_length by congruence. intros i Hi. rewrite !resid_nth by congruence.
  transitivity (resid (fun i => nth i t 0) (fun i => nth i y 0) (k' - a) (q' - b) i).
  { unfold resid. rewrite NY by congruence. ring. }
  apply (lsq_unique (List.length t)); [|intros; rewrite <- !distance2_sqerr by auto; apply H|congruence].
  intros c d. specialize (H' (c + a) (d + b)). cbn [fst snd] in H'. rewrite !distance2_sqerr in H' by congruence.
  unfold sqerr in *.
  eapply Rle_trans; [|eapply Rle_trans; [apply H'|]]; apply Req_le; apply sumn_ext; intros j Hj;
    unfold resid; rewrite NY by congruence; ring.
Qed.
Print Assumptions c69_line.

Theorem c69_times : forall model y t a b, regressor model -> List.length t = List.length y -> y <> [] -> a <> 0 ->
  detrend model 1 y (Some (map (fun v => a * v + b) t)) = detrend model 1 y (Some t).
Proof.
  intros model y t a b M L N Ha. set (t' := map (fun v => a * v + b) t).
  assert (L' : List.length t' = List.length y) by (unfold t'; rewrite map_length; auto).
  assert (NT : forall i, (i < List.length y)%nat -> nth i t' 0 = a * nth i t 0 + b).
  { intros. unfold t'. rewrite (nth_map_lt _ _ _ 0 0) by congruence. reflexivity. }
  destruct (detrend_some model y t M L N) as (k & q & -> & H).
  destruct (detrend_some model y t' M L' N) as (k' & q' & -> & H').
  f_equal. apply squeeze_ext.
  { rewrite !resid_length by auto. auto. }
  rewrite resid_length by auto. intros i Hi. rewrite !resid_nth by auto.
  transitivity (resid (fun i => nth i t 0) (fun i => nth i y 0) (k' * a) (k' * b + q') i).
  { unfold resid. rewrite NT by auto. ring. }
  apply (lsq_unique (List.length t)); [|intros; rewrite <- !distance2_sqerr by auto; apply H|congruence].
  intros c d. specialize (H' (c / a) (d - c / a * b)). cbn [fst snd] in H'. rewrite !distance2_sqerr in H' by auto.
  unfold sqerr in *. rewrite L. rewrite L' in H'.
  eapply Rle_trans; [|eapply Rle_trans; [apply H'|]]; apply Req_le; apply sumn_ext; intros j Hj;
    unfold resid; rewrite NT by congruence; [ring|field; auto].
Qed.
Print Assumptions c69_times.

Theorem c69_idempotent : forall model y t s, regressor model -> List.length t = List.length y -> y <> [] ->
  detrend model 1 y (Some t) = Ok s -> detrend model 1 (samples s) (Some t) = Ok s.
Proof.
  intros model y t s M L N E. destruct (detrend_some model y t M L N) as (k & q & E' & H).
  rewrite E in E'. inversion E' as [E1]. subst s. rewrite samples_squeeze, <- E.
  rewrite <- (c69_line model y t (- k) (- q) M L N).
  f_equal. apply map_ext. intros [u v]. cbn. ring.
Qed.
Print Assumptions c69_idempotent.

(** The times of a signal without times are the indices of its samples. *)
Theorem c69_default_times : forall model y t, List.length t = List.length y ->
  (forall i, (i < List.length y)%nat -> nth i t 0 = INR i) ->
  detrend model 1 y None = detrend model 1 y (Some t).
Proof.
  intros model y t L H. unfold detrend. replace (map INR (seq 0 (List.length y))) with t; [reflexivity|].
  apply nth_ext with 0 0; [rewrite map_length, seq_length; auto|].
  intros i Hi. rewrite H by congruence. rewrite (nth_map_lt _ _ _ 0%nat 0) by (rewrite seq_length; congruence).
  rewrite seq_nth by congruence. reflexivity.
Qed.
Print Assumptions c69_default_times.

Theorem c69_shape : forall model ndim y x, ndim <> 1%Z -> detrend model ndim y x = Err ValueError.
Proof. intros. unfold detrend. apply Z.eqb_neq in H. rewrite H. reflexivity. Qed.
Print Assumptions c69_shape.

(** The result for one sample is the number 0 and not an array. *)
Theorem c69_one_sample_refuted : exists model y t, regressor model /\ List.length t = List.length y /\ y <> [] /\
  detrend model 1 y (Some t) = Ok (Scalar 0).
Proof.
  exists ols_model, [5], [2]. split; [apply ols_regressor|]. split; [reflexivity|]. split; [discriminate|].
  destruct (c69_residuals ols_model [5] [2] ols_regressor eq_refl) as (s & k & q & E & LS & _ & S0 & _); [discriminate|].
  rewrite E. destruct (detrend_some ols_model [5] [2] ols_regressor eq_refl) as (k' & q' & E' & _); [discriminate|].
  rewrite E in E'. inversion E'; subst s. cbn [squeeze map combine] in *. cbn in S0. do 2 f_equal. cbn. lra.
Qed.
Print Assumptions c69_one_sample_refuted.

(** A line with a bump: the residuals are not trivial. *)
Example c69_example : exists s, detrend ols_model 1 [1; 3; 2] None = Ok s /\ samples s = [- / 2; 1; - / 2].
Proof.
  unfold detrend. cbn [negb Z.eqb]. unfold ols_model, ols, sumn, rsum.
  cbn [List.length seq map INR Nat.eqb nth fold_right bind fst snd combine squeeze].
  destruct (Req_EM_T _ 0) as [E|E]; [exfalso; lra|].
  eexists. split; [reflexivity|]. cbn [samples].
  repeat f_equal; field.
Qed.

(** ** C70: frequencies and bins *)

(** The bin of a frequency is the first one which is not below it. *)
Theorem c70_bins : forall l nfft fs, 0 < fs -> (0 < nfft)%Z ->
  exists bs, f2bin (Vector l) nfft fs = Ok bs /\ List.length bs = List.length l /\
  forall i b, (i < List.length l)%nat -> (nth i l 0 <= IZR b * fs / IZR nfft <-> (nth i bs 0 <= b)%Z).
Proof.
  intros l nfft fs Hf Hn. assert (0 < IZR nfft) by (apply IZR_lt; auto).
  unfold f2bin, py_div. destruct (Req_EM_T fs 0) as [E|E]; [lra|]. cbn [bind].
  eexists. split; [reflexivity|]. split; [apply map_length|].
  intros i b Hi. rewrite (nth_map_lt _ _ _ 0 0%Z) by auto.
  pose proof (Rceil_spec (nth i l 0 * (IZR nfft / fs))) as [A B].
  set (c := Rceil (nth i l 0 * (IZR nfft / fs))) in *.
  assert (P : 0 < IZR nfft / fs) by (apply Rdiv_lt_0_compat; auto).
  split; intro Q.
  - apply Z.lt_succ_r. apply lt_IZR. rewrite succ_IZR.
    apply (Rmult_le_compat_r (IZR nfft / fs)) in Q; [|lra].
    replace (IZR b * fs / IZR nfft * (IZR nfft / fs)) with (IZR b) in Q by (field; lra). lra.
  - apply IZR_le in Q. apply (Rmult_le_reg_r (IZR nfft / fs)); [auto|].
    replace (IZR b * fs / IZR nfft * (IZR nfft / fs)) with (IZR b) by (field; lra). lra.
Qed.
Print Assumptions c70_bins.

(** Bins are recovered from their frequencies. *)
Theorem c70_inverse : forall bs nfft fs, 0 < fs -> (0 < nfft)%Z ->
  exists l, bin2f (map IZR bs) nfft fs = Ok l /\ f2bin (Vector l) nfft fs = Ok bs.
Proof.
  intros bs nfft fs Hf Hn. assert (0 < IZR nfft) by (apply IZR_lt; auto).
  unfold bin2f, py_div. destruct (Req_EM_T (IZR nfft) 0) as [E|E]; [lra|]. cbn [bind].
  eexists. split; [reflexivity|].
  destruct (c70_bins (map (fun v => v * (fs / IZR nfft)) (map IZR bs)) nfft fs Hf Hn) as (bs' & -> & L & S).
  rewrite !map_length in L, S. f_equal. apply nth_ext with 0%Z 0%Z; [auto|]. intros i Hi.
  rewrite L in Hi. specialize (S i).
  rewrite (nth_map_lt _ _ _ 0 0), (nth_map_lt _ _ _ 0%Z 0) in S by (try rewrite map_length; auto).
  apply Z.le_antisymm.
  - apply (S (nth i bs 0%Z) Hi). unfold Rdiv. lra.
  - apply le_IZR. assert (Q := proj2 (S (nth i bs' 0%Z) Hi) (Z.le_refl _)).
    apply (Rmult_le_reg_r (fs / IZR nfft)); [apply Rdiv_lt_0_compat; auto|]. unfold Rdiv in *. lra.
Qed.
Print Assumptions c70_inverse.

(** Not in binary64: bin 3 of 1000 at 22050 Hz comes back as 4. *)
Theorem c70_binary64_refuted : exists b nfft fs, (0 <= b < nfft)%Z /\
  b64_f2bin (b64_bin2f b nfft (b64_of_Z fs)) nfft (b64_of_Z fs) = Some 4%Z /\ b <> 4%Z.
Proof. exists 3%Z, 1000%Z, 22050%Z. split; [lia|]. split; [vm_compute; reflexivity|discriminate]. Qed.
Print Assumptions c70_binary64_refuted.

(** A number is not accepted as frequency, unlike by the other functions. *)
Theorem c70_number : forall f nfft fs, fs <> 0 -> f2bin (Scalar f) nfft fs = Err TypeError.
Proof. intros. unfold f2bin, py_div. destruct (Req_EM_T fs 0); [contradiction|]. reflexivity. Qed.
Print Assumptions c70_number.

(** Without sampling frequency, or without bins, an exception is raised. *)
Theorem c70_zero : forall l f nfft fs,
  f2bin f nfft 0 = Err ZeroDivisionError /\ bin2f l 0 fs = Err ZeroDivisionError.
Proof.
  intros. unfold f2bin, bin2f, py_div. destruct (Req_EM_T 0 0); [|congruence]. split; reflexivity.
Qed.
Print Assumptions c70_zero.

Example c70_example : exists bs, f2bin (Vector [0; 10; 11; 19]) 10 100 = Ok bs /\ bs = [0; 1; 2; 2]%Z.
Proof.
  destruct (c70_bins [0; 10; 11; 19] 10 100) as (bs & E & L & S); [lra|lia|].
  exists bs. split; [exact E|]. cbn [List.length] in *.
  assert (G : forall i v b b', (i < 4)%nat -> b' = (b - 1)%Z -> nth i [0; 10; 11; 19] 0 = v ->
    v <= IZR b * 100 / 10 -> ~ v <= IZR b' * 100 / 10 -> nth i bs 0%Z = b).
  { intros i v b b' Hi -> E1 A B. rewrite <- E1 in A, B. apply S in A; auto. rewrite (S i (b - 1)%Z Hi) in B. lia. }
  destruct bs as [|a [|b [|c [|d [|e bs]]]]]; try discriminate L.
  pose proof (G 0%nat 0 0%Z (-1)%Z ltac:(lia) eq_refl eq_refl) as G0. pose proof (G 1%nat 10 1%Z 0%Z ltac:(lia) eq_refl eq_refl) as G1.
  pose proof (G 2%nat 11 2%Z 1%Z ltac:(lia) eq_refl eq_refl) as G2. pose proof (G 3%nat 19 2%Z 1%Z ltac:(lia) eq_refl eq_refl) as G3.
  cbn [nth] in G0, G1, G2, G3.
  rewrite G0, G1, G2, G3 by lra. reflexivity.
Qed.

(** ** C71: periodogram *)

(** An estimator which evaluates the frequencies one by one. *)
Definition pointwise (lomb : list R -> list R -> list R -> res (list R)) (t x : list R) (P : R -> R) : Prop :=
  forall ws, lomb t x ws = Ok (map P ws).

Lemma set_slice_nth : forall (i j : Z) (g : nat -> R) n k, (1 <= i)%Z -> (0 <= j <= Z.of_nat n)%Z -> (k < n)%nat ->
  exists ls, set_slice (Some i) (Some j)
      (map g (seq (Z.to_nat (Z.min i (Z.of_nat n))) (Z.to_nat j - Z.to_nat (Z.min i (Z.of_nat n))))) (repeat 0 n) = Ok ls /\
    List.length ls = n /\
    nth k ls 0 = if ((i <=? Z.of_nat k) && (Z.of_nat k <? j))%Z then g k else 0.
Proof.
  intros i j g n k Hi Hj Hk. unfold set_slice, lo_bound, hi_bound. rewrite zlen_repeat.
  unfold slice_bound. destruct (Z.ltb_spec i 0); [lia|]. destruct (Z.ltb_spec j 0); [lia|].
  rewrite (Z.min_l j) by lia. set (a := Z.to_nat (Z.min i (Z.of_nat n))). set (b := Z.to_nat j).
  rewrite map_length, seq_length, Nat.eqb_refl. eexists. split; [reflexivity|].
  assert (Ha : (a <= n)%nat) by lia. assert (Hb : (b <= n)%nat) by lia.
  rewrite firstn_repeat, skipn_repeat.
  split.
  - rewrite !app_length, map_length, seq_length, !repeat_length. lia.
  - destruct (Nat.lt_ge_cases k a).
    + rewrite app_nth1 by (rewrite repeat_length; lia). rewrite nth_repeat.
      destruct (Z.leb_spec i (Z.of_nat k)); [lia|]. reflexivity.
    + rewrite app_nth2 by (rewrite repeat_length; lia). rewrite repeat_length.
      rewrite Nat.min_l by lia.
      destruct (Nat.lt_ge_cases k b).
      * rewrite app_nth1 by (rewrite map_length, seq_length; lia).
        rewrite (nth_map_lt _ _ _ 0%nat 0) by (rewrite seq_length; lia). rewrite seq_nth by lia.
        destruct (Z.leb_spec i (Z.of_nat k)); [|lia]. destruct (Z.ltb_spec (Z.of_nat k) j); [|lia].
        cbn. f_equal. lia.
      * rewrite app_nth2 by (rewrite map_length, seq_length; lia). rewrite nth_repeat.
        destruct (Z.ltb_spec (Z.of_nat k) j); [lia|]. rewrite andb_false_r. reflexivity.
Qed.
Lemma slice_map_seq : forall (g : nat -> R) n (i j : Z), (1 <= i)%Z -> (0 <= j <= Z.of_nat n)%Z ->
  slice (Some i) (Some j) (map g (seq 0 n)) =
  map g (seq (Z.to_nat (Z.min i (Z.of_nat n))) (Z.to_nat j - Z.to_nat (Z.min i (Z.of_nat n)))).
Proof.
  intros g n i j Hi Hj. unfold slice, lo_bound, hi_bound, zlen. rewrite map_length, seq_length.
  unfold slice_bound. destruct (Z.ltb_spec i 0); [lia|]. destruct (Z.ltb_spec j 0); [lia|].
  rewrite (Z.min_l j) by lia. set (a := Z.to_nat (Z.min i (Z.of_nat n))). set (b := Z.to_nat j).
  assert (Ha : (a <= n)%nat) by lia. assert (Hb : (b <= n)%nat) by lia.
  rewrite skipn_map, firstn_map. f_equal.
  apply nth_ext with 0%nat 0%nat.
  - rewrite firstn_length, skipn_length, !seq_length. lia.
  - rewrite firstn_length, skipn_length, seq_length. intros k Hk.
    rewrite nth_firstn_lt, nth_skipn_add, !seq_nth by lia. lia.
Qed.

(** Bin [k] is the frequency [k fs / nfft].  The estimate is kept from the high
    pass frequency (included) to the low pass frequency (excluded) and is zero
    elsewhere; bin zero is the squared mean, or zero with a high pass. *)
Theorem c71_periodogram : forall lomb P t x nfft fs hpf lpf,
  pointwise lomb t x P -> 0 < fs -> (1 <= nfft)%Z ->
  (forall l, lpf = Some l -> 0 <= l) ->
  exists ls w, lombscargle_as_fft lomb t x nfft fs hpf lpf = Ok (ls, w) /\
    List.length ls = Z.to_nat (nfft / 2 + 1) /\ List.length w = Z.to_nat (nfft / 2 + 1) /\
    forall k, (k <= Z.to_nat (nfft / 2))%nat ->
      let f := INR k * fs / IZR nfft in
      nth k w 0 = f /\
      (k = 0%nat -> (forall h, hpf = Some h -> h <= 0) -> nth k ls 0 = mean x * mean x) /\
      (k = 0%nat -> (exists h, hpf = Some h /\ 0 < h) -> nth k ls 0 = 0) /\
      (k <> 0%nat -> (forall h, hpf = Some h -> h <= f) -> (forall l, lpf = Some l -> f < l) ->
        nth k ls 0 = P (2 * PI * f)) /\
      (k <> 0%nat -> (exists h, hpf = Some h /\ f < h) \/ (exists l, lpf = Some l /\ l <= f) -> nth k ls 0 = 0).
Proof.
  intros lomb P t x nfft fs hpf lpf HP Hf Hn Hl. assert (HN : 0 < IZR nfft) by (apply IZR_lt; lia).
  assert (H2 : (0 <= nfft / 2)%Z) by (apply Z.div_pos; lia).
  assert (H3 : (2 * (nfft / 2) <= nfft)%Z) by (apply Z.mul_div_le; lia).
  set (n := Z.to_nat (nfft / 2 + 1)).
  set (h := match hpf with None => 0 | Some f => f end).
  set (l := match lpf with None => fs | Some f => f end).
  assert (L0 : 0 <= l) by (unfold l; destruct lpf; [apply Hl; auto|lra]).
  destruct (c70_bins [h; l] nfft fs Hf ltac:(lia)) as (bs & EB & LB & SB).
  cbn [List.length] in LB, SB.
  set (i := nth 0 bs 0%Z). set (j := nth 1 bs 0%Z).
  assert (SI : forall k : nat, h <= INR k * fs / IZR nfft <-> (i <= Z.of_nat k)%Z).
  { intro k. rewrite INR_IZR_INZ. apply (SB 0%nat (Z.of_nat k)). lia. }
  assert (SJ : forall k : nat, INR k * fs / IZR nfft < l <-> (Z.of_nat k < j)%Z).
  { intro k. rewrite INR_IZR_INZ. pose proof (SB 1%nat (Z.of_nat k) ltac:(lia)) as Q. cbn [nth] in Q. fold j in Q.
    split; intro; [apply Z.lt_nge; intro G; apply Q in G; lra|apply Rnot_le_lt; intro G; apply Q in G; lia]. }
  assert (J0 : (0 <= j)%Z).
  { destruct (Z.le_gt_cases 0 j); auto. exfalso.
    assert (l <= IZR (-1) * fs / IZR nfft) as Q by (apply (SB 1%nat (-1)%Z); [lia|]; fold j; lia).
    assert (0 < fs / IZR nfft) by (apply Rdiv_lt_0_compat; auto). unfold Rdiv in *. lra. }
  assert (JN : (0 <= Z.min j (nfft / 2 + 1) <= Z.of_nat n)%Z) by (unfold n; lia).
  unfold lombscargle_as_fft. destruct (Z.ltb_spec (nfft / 2 + 1) 0); [lia|]. fold n h l.
  unfold bin2f, py_div. destruct (Req_EM_T (IZR nfft) 0); [lra|]. cbn [bind].
  rewrite EB. cbn [bind]. fold i j.
  rewrite !map_map. rewrite (slice_map_seq _ n) by lia. rewrite HP. cbn [bind]. rewrite map_map.
  set (g := fun k => P (2 * PI * (INR k * (fs / IZR nfft)))).
  assert (N1 : (1 <= n)%nat) by (unfold n; lia).
  destruct (set_slice_nth (Z.max i 1) (Z.min j (nfft / 2 + 1)) g n 0 ltac:(lia) JN ltac:(lia)) as (ls & E & LL & _).
  rewrite E. cbn [bind].
  assert (SN : forall k, (k < n)%nat -> nth k ls 0 =
     if ((Z.max i 1 <=? Z.of_nat k) && (Z.of_nat k <? Z.min j (nfft / 2 + 1)))%Z then g k else 0).
  { intros k Hk. destruct (set_slice_nth (Z.max i 1) (Z.min j (nfft / 2 + 1)) g n k ltac:(lia) JN Hk) as (ls' & E' & _ & S).
    rewrite E in E'. inversion E'. exact S. }
  assert (I1 : (i < 1)%Z <-> h <= 0).
  { specialize (SI 0%nat). cbn [INR] in SI. unfold Rdiv in SI. rewrite !Rmult_0_l in SI.
    split; intro Q; [apply SI; lia|apply SI in Q; lia]. }
  destruct ls as [|v ls]; [cbn in LL; lia|].
  assert (exists ls', (if (i <? 1)%Z then Ok (upd 0 (Rsqr (mean x)) (v :: ls)) else Ok (v :: ls)) = Ok ls' /\
    List.length ls' = n /\ (forall k, (0 < k < n)%nat -> nth k ls' 0 = nth k (v :: ls) 0) /\
    nth 0 ls' 0 = if (i <? 1)%Z then mean x * mean x else 0) as (ls' & E' & L' & K' & Z').
  { destruct (Z.ltb_spec i 1).
    - eexists. split; [reflexivity|]. cbn. split; [exact LL|]. split; [|reflexivity].
      intros k Hk. destruct k; [lia|reflexivity].
    - eexists. split; [reflexivity|]. split; [exact LL|]. split; [reflexivity|].
      rewrite SN by lia. destruct (Z.leb_spec (Z.max i 1) (Z.of_nat 0)); [lia|reflexivity]. }
  rewrite E'. cbn [bind]. eexists _, _. split; [reflexivity|].
  split; [exact L'|]. split; [rewrite map_length, seq_length; reflexivity|].
  intros k Hk. set (f := INR k * fs / IZR nfft). assert (KN : (k < n)%nat) by (unfold n; lia).
  assert (G : g k = P (2 * PI * f)) by (unfold g, f; do 2 f_equal; unfold Rdiv; ring).
  repeat split.
  - rewrite (nth_map_lt _ _ _ 0%nat 0) by (rewrite seq_length; auto). rewrite seq_nth by auto. cbn [Nat.add].
    unfold f. field. split; [lra|]. apply PI_neq0.
  - intros -> Hh. rewrite Z'. destruct (Z.ltb_spec i 1) as [|Q]; [reflexivity|].
    exfalso. apply Z.le_ngt in Q. apply Q. apply I1. unfold h. destruct hpf; [apply Hh; auto|lra].
  - intros -> (h' & Eh & Ph). rewrite Z'. destruct (Z.ltb_spec i 1) as [Q|Q]; [|reflexivity].
    apply I1 in Q. unfold h in Q. rewrite Eh in Q. lra.
  - intros K0 Hh Hl'. rewrite K', SN by lia.
    assert (A : h <= f).
    { unfold h. destruct hpf; [apply Hh; auto|]. unfold f. apply Rmult_le_pos; [apply Rmult_le_pos; [apply pos_INR|lra]|].
      left. apply Rinv_0_lt_compat. auto. }
    assert (B : f < l).
    { unfold l. destruct lpf; [apply Hl'; auto|]. unfold f.
      apply (Rmult_lt_reg_r (IZR nfft)); [auto|]. unfold Rdiv. rewrite Rmult_assoc, Rinv_l, Rmult_1_r by lra.
      rewrite INR_IZR_INZ. rewrite Rmult_comm. apply Rmult_lt_compat_l; auto. apply IZR_lt. lia. }
    apply SI in A. apply SJ in B.
    destruct (Z.leb_spec (Z.max i 1) (Z.of_nat k)); [|lia].
    destruct (Z.ltb_spec (Z.of_nat k) (Z.min j (nfft / 2 + 1))); [|lia]. exact G.
  - intros K0 [(h' & Eh & Ph)|(l' & El & Pl)]; rewrite K', SN by lia.
    + destruct (Z.leb_spec (Z.max i 1) (Z.of_nat k)); [|reflexivity].
      exfalso. assert (h <= f) as A by (apply SI; lia). unfold h in A. rewrite Eh in A. lra.
    + destruct (Z.ltb_spec (Z.of_nat k) (Z.min j (nfft / 2 + 1))); [|rewrite andb_false_r; reflexivity].
      exfalso. assert (f < l) as A by (apply SJ; lia). unfold l in A. rewrite El in A. lra.
Qed.
Print Assumptions c71_periodogram.

(** An estimator that is 1 everywhere. *)
Definition flat (t x ws : list R) : res (list R) := Ok (map (fun _ => 1) ws).
Lemma flat_pointwise : forall t x, pointwise flat t x (fun _ => 1).
Proof. intros t x ws. reflexivity. Qed.

(** 8 bins at 8 Hz between 1 Hz (kept) and 3 Hz (cut off, although it is not
    above the low pass frequency). *)
Theorem c71_lpf_refuted : exists ls w,
  lombscargle_as_fft flat [0; 1] [2; 4] 8 8 (Some 1) (Some 3) = Ok (ls, w) /\
  w = [0; 1; 2; 3; 4] /\ ls = [0; 1; 1; 0; 0].
Proof.
  destruct (c71_periodogram flat (fun _ => 1) [0; 1] [2; 4] 8 8 (Some 1) (Some 3)) as (ls & w & E & L & LW & S);
    [apply flat_pointwise|lra|lia|intros l Q; inversion Q; lra|].
  exists ls, w. split; [exact E|]. change (Z.to_nat (8 / 2 + 1)) with 5%nat in *.
  change (Z.to_nat (8 / 2)) with 4%nat in *.
  destruct ls as [|a [|b [|c [|d [|e [|]]]]]]; try discriminate L.
  destruct w as [|a' [|b' [|c' [|d' [|e' [|]]]]]]; try discriminate LW.
  destruct (S 0%nat ltac:(lia)) as (W0 & _ & A0 & _). destruct (S 1%nat ltac:(lia)) as (W1 & _ & _ & A1 & _).
  destruct (S 2%nat ltac:(lia)) as (W2 & _ & _ & A2 & _). destruct (S 3%nat ltac:(lia)) as (W3 & _ & _ & _ & A3).
  destruct (S 4%nat ltac:(lia)) as (W4 & _ & _ & _ & A4). cbn [nth INR] in *.
  rewrite W0, W1, W2, W3, W4. split; [repeat f_equal; lra|].
  rewrite (A0 eq_refl (ex_intro _ 1 (conj eq_refl Rlt_0_1))).
  rewrite A1 by (try discriminate; intros ? Q; inversion Q; lra).
  rewrite A2 by (try discriminate; intros ? Q; inversion Q; lra).
  rewrite A3 by first [discriminate | right; exists 3; split; [auto|lra]].
  rewrite A4 by first [discriminate | right; exists 3; split; [auto|lra]].
  reflexivity.
Qed.
Print Assumptions c71_lpf_refuted.

(** An exception of the estimator is passed on. *)
Theorem c71_raises : forall lomb e t x nfft fs hpf lpf, 0 < fs -> (1 <= nfft)%Z ->
  (forall ws, lomb t x ws = Err e) -> lombscargle_as_fft lomb t x nfft fs hpf lpf = Err e.
Proof.
  intros lomb e t x nfft fs hpf lpf Hf Hn H. assert (0 < IZR nfft) by (apply IZR_lt; lia).
  assert (H2 : (0 <= nfft / 2)%Z) by (apply Z.div_pos; lia).
  unfold lombscargle_as_fft. destruct (Z.ltb_spec (nfft / 2 + 1) 0); [lia|].
  unfold bin2f, f2bin, py_div. destruct (Req_EM_T (IZR nfft) 0); [lra|]. destruct (Req_EM_T fs 0); [lra|].
  cbn [bind]. rewrite H. reflexivity.
Qed.
Print Assumptions c71_raises.

Lemma Rceil_unique : forall v z, v <= IZR z < v + 1 -> Rceil v = z.
Proof.
  intros v z [A B]. pose proof (Rceil_spec v) as [C D].
  apply Z.le_antisymm; apply Z.lt_succ_r; apply lt_IZR; rewrite succ_IZR; lra.
Qed.

(** Bins above a negative low pass frequency are kept. *)
Theorem c71_negative_lpf_refuted : exists lpf ls w, lpf < 0 /\
  lombscargle_as_fft flat [0; 1] [2; 4] 4 4 None (Some lpf) = Ok (ls, w) /\ nth 1 w 0 > lpf /\ nth 1 ls 0 = 1.
Proof.
  unfold lombscargle_as_fft. change (4 / 2 + 1)%Z with 3%Z. change (Z.to_nat 3) with 3%nat. cbn [Z.ltb Z.compare seq map].
  unfold bin2f, f2bin, py_div. destruct (Req_EM_T (IZR 4) 0); [lra|]. cbn [bind map nth].
  exists (-1). rewrite (Rceil_unique (0 * (4 / 4)) 0) by (split; lra). rewrite (Rceil_unique (-1 * (4 / 4)) (-1)) by (split; lra).
  cbn -[PI Rmult Rdiv INR Rsqr mean]. eexists _, _. split; [lra|]. split; [reflexivity|].
  cbn [nth map]. split; [|reflexivity].
  match goal with |- ?a > _ => replace a with 1 end; [lra|]. cbn [INR]. field. apply PI_neq0.
Qed.
Print Assumptions c71_negative_lpf_refuted.

(** ** C72: autocorrelogram *)

(** The discrete Fourier transform of a complex signal, its circular
    autocorrelation and the autocorrelation of a real signal that is zero
    outside its samples. *)
Definition re (x : list (R * R)) (p : nat) : R := fst (nth p x (0, 0)).
Definition im (x : list (R * R)) (p : nat) : R := snd (nth p x (0, 0)).
Definition total (n : nat) (f : nat -> R) : R := rsum (map f (seq 0 n)).
Definition dft (x : list (R * R)) (k : nat) : R * R :=
  let N := List.length x in
  let a p := 2 * PI * INR k * INR p / INR N in
  (total N (fun p => re x p * cos (a p) + im x p * sin (a p)),
   total N (fun p => im x p * cos (a p) - re x p * sin (a p))).
Definition circular (x : list (R * R)) (r : nat) : R * R :=
  let N := List.length x in
  (total N (fun q => re x ((q + r) mod N) * re x q + im x ((q + r) mod N) * im x q),
   total N (fun q => im x ((q + r) mod N) * re x q - re x ((q + r) mod N) * im x q)).
Definition linear (s : list R) (r : nat) : R :=
  total (List.length s - r) (fun q => nth (q + r) s 0 * nth q s 0).
Definition power2 (c : R * R) : R := fst c * fst c + snd c * snd c.

Lemma dft_parts : forall x k,
  dft x k = (dre (List.length x) (fun p => nth p x (0, 0)) k, dim (List.length x) (fun p => nth p x (0, 0)) k).
Proof.
  intros. unfold dft, dre, dim, ang, sumn, total, re, im. f_equal; apply rsum_map_ext; intros; rewrite INR_IZR_INZ;
    rewrite <- !INR_IZR_INZ; reflexivity.
Qed.
Lemma angle_ang : forall N k p, angle (Z.of_nat N) (Z.of_nat k) (Z.of_nat p) = ang N k (Z.of_nat p).
Proof. intros. unfold angle, ang. rewrite <- !INR_IZR_INZ. reflexivity. Qed.

(** Two-sided: the inverse transform of the squared magnitudes, given as
    spectrum or as power spectrum, is the circular autocorrelation. *)
Theorem c72_two_sided : forall x (power : bool) r, x <> [] -> (r < List.length x)%nat ->
  let a := map (dft x) (seq 0 (List.length x)) in
  exists c, fft2autocorrelogram (if power then map (fun v => (power2 v, 0)) a else a) false None None power = Ok c /\
    List.length c = List.length x /\ nth r c (0, 0) = circular x r.
Proof.
  intros x power r Hx Hr a. set (N := List.length x) in *.
  assert (HN : (0 < N)%nat) by (unfold N; destruct x; cbn; [congruence|lia]).
  unfold fft2autocorrelogram.
  assert (EA : map (fun c => if power then fst c else fst c * fst c + snd c * snd c)
                   (if power then map (fun v => (power2 v, 0)) a else a) = map (fun k => power2 (dft x k)) (seq 0 N)).
  { unfold a. destruct power; rewrite !map_map; reflexivity. }
  rewrite EA.
  assert (EZ : zlen (if power then map (fun v => (power2 v, 0)) a else a) = Z.of_nat N).
  { unfold a, zlen. destruct power; rewrite ?map_length, ?seq_length; reflexivity. }
  rewrite EZ. unfold ifft. destruct (Z.ltb_spec (Z.of_nat N) 1); [lia|]. cbn [bind].
  rewrite Nat2Z.id. eexists. split; [reflexivity|].
  unfold slice, lo_bound, hi_bound. rewrite Nat.sub_0_r. cbn [skipn].
  unfold zlen. rewrite map_length, seq_length.
  unfold slice_bound. destruct (Z.ltb_spec (Z.of_nat N) 0); [lia|]. rewrite Z.min_id, Nat2Z.id.
  rewrite firstn_all2 by (rewrite map_length, seq_length; lia). rewrite map_length, seq_length. split; [reflexivity|].
  rewrite (nth_map_lt _ _ _ 0%nat (0, 0)) by (rewrite seq_length; auto). rewrite seq_nth by auto. cbn [Nat.add].
  destruct (wiener_khinchin N (fun p => nth p x (0, 0)) r HN) as [A B].
  unfold circular. fold N. f_equal.
  - eapply eq_trans; [|exact A]. f_equal. apply sumn_ext. intros k Hk.
    rewrite (nth_map_lt _ _ _ 0%nat 0) by (rewrite seq_length; auto). rewrite seq_nth by auto. cbn [Nat.add].
    rewrite angle_ang, dft_parts. reflexivity.
  - eapply eq_trans; [|exact B]. f_equal. apply sumn_ext. intros k Hk.
    rewrite (nth_map_lt _ _ _ 0%nat 0) by (rewrite seq_length; auto). rewrite seq_nth by auto. cbn [Nat.add].
    rewrite angle_ang, dft_parts. reflexivity.
Qed.
Print Assumptions c72_two_sided.

Definition real_signal (s : list R) : list (R * R) := map (fun v => (v, 0)) s.

Lemma one_sided : forall s (n m : nat) (power : bool), s <> [] -> m = List.length s -> (n <= m)%nat ->
  let a := map (dft (real_signal s)) (seq 0 (m / 2 + 1)) in
  exists c, fft2autocorrelogram (if power then map (fun v => (power2 v, 0)) a else a) true
      (Some (Z.of_nat n)) (Some (Z.of_nat m)) power = Ok c /\
    List.length c = n /\
    forall r, (r < n)%nat -> nth r c (0, 0) = (fst (circular (real_signal s) r), 0).
Proof.
  intros s n m power Hs -> Hn a. set (N := List.length s) in *.
  assert (HN : (0 < N)%nat) by (unfold N; destruct s; cbn; [congruence|lia]).
  unfold fft2autocorrelogram.
  assert (EA : map (fun c => if power then fst c else fst c * fst c + snd c * snd c)
                   (if power then map (fun v => (power2 v, 0)) a else a) =
               map (fun k => power2 (dft (real_signal s) k)) (seq 0 (N / 2 + 1))).
  { unfold a. destruct power; rewrite !map_map; reflexivity. }
  rewrite EA. unfold irfft. destruct (Z.ltb_spec (Z.of_nat N) 1); [lia|]. cbn [bind].
  rewrite Nat2Z.id. eexists. split; [reflexivity|].
  unfold slice, lo_bound, hi_bound. rewrite Nat.sub_0_r. cbn [skipn].
  unfold zlen. rewrite !map_length, seq_length.
  unfold slice_bound. destruct (Z.ltb_spec (Z.of_nat n) 0); [lia|]. rewrite Z.min_l, Nat2Z.id by lia.
  split; [rewrite firstn_length, !map_length, seq_length; lia|].
  intros r Hr. rewrite nth_firstn_lt by auto.
  rewrite (nth_map_lt _ _ _ 0 (0, 0)) by (rewrite map_length, seq_length; lia).
  rewrite (nth_map_lt _ _ _ 0%nat 0) by (rewrite seq_length; lia). rewrite seq_nth by lia. cbn [Nat.add].
  f_equal.
  set (x := fun p => nth p (real_signal s) (0, 0)).
  assert (LX : List.length (real_signal s) = N) by apply map_length.
  destruct (wiener_khinchin N x r HN) as [A _].
  unfold circular. rewrite LX. cbn [fst]. eapply eq_trans; [|exact A]. f_equal.
  rewrite <- (half_sum N (fun k => (dre N x k * dre N x k + dim N x k * dim N x k) * cos (ang N k (Z.of_nat r)))).
  - apply sumn_ext. intros k Hk. rewrite (nth_map_lt _ _ _ 0%nat 0) by (rewrite seq_length; auto).
    rewrite seq_nth by auto. cbn [Nat.add]. rewrite angle_ang, dft_parts, LX. unfold power2. cbn [fst snd]. fold x. ring.
  - auto.
  - intros k Hk. destruct (real_symmetric N x k HN) as [-> ->]; [lia| |].
    + intro p. unfold x, real_signal. destruct (Nat.lt_ge_cases p N).
      * rewrite (nth_map_lt _ _ _ 0 (0, 0)) by auto. reflexivity.
      * rewrite nth_overflow by (rewrite map_length; auto). reflexivity.
    + replace (ang N (N - k) (Z.of_nat r)) with (- ang N k (Z.of_nat r) + 2 * IZR (Z.of_nat r) * PI).
      * rewrite Dft_Proofs.cos_shift, cos_neg. ring.
      * unfold ang. rewrite minus_INR by lia. field. apply not_0_INR. lia.
Qed.

(** One-sided spectrum of a real signal whose size is given, or is even. *)
Theorem c72_one_sided : forall s (power : bool) n r, s <> [] -> (r < List.length s)%nat ->
  n = Some (zlen s) \/ (n = None /\ Nat.Even (List.length s)) ->
  let a := map (dft (real_signal s)) (seq 0 (List.length s / 2 + 1)) in
  exists c, fft2autocorrelogram (if power then map (fun v => (power2 v, 0)) a else a) true n None power = Ok c /\
    List.length c = List.length s /\ nth r c (0, 0) = circular (real_signal s) r.
Proof.
  intros s power n r Hs Hr Hn a.
  destruct (one_sided s (List.length s) (List.length s) power Hs eq_refl (le_n _)) as (c & E & L & S). fold a in E.
  exists c. split.
  - rewrite <- E. unfold fft2autocorrelogram. unfold zlen in Hn. destruct Hn as [->|[-> [m Em]]]; [reflexivity|].
    replace (2 * (zlen (if power then map (fun v => (power2 v, 0%R)) a else a) - 1))%Z with (Z.of_nat (List.length s)); [reflexivity|].
    unfold a, zlen. destruct power; rewrite ?map_length, seq_length, Em, (Nat.mul_comm 2), Nat.div_mul by lia; lia.
  - split; [exact L|]. rewrite S by auto. unfold circular. f_equal. symmetry.
    apply rsum_zero. intros q _. unfold re, im.
    assert (Z : forall p, snd (nth p (real_signal s) (0, 0)) = 0).
    { intro p. unfold real_signal. destruct (Nat.lt_ge_cases p (List.length s)).
      - rewrite (nth_map_lt _ _ _ 0 (0, 0)) by auto. reflexivity.
      - rewrite nth_overflow by (rewrite map_length; auto). reflexivity. }
    rewrite !Z. ring.
Qed.
Print Assumptions c72_one_sided.

(** With enough zeros after the samples the autocorrelation does not wrap
    around: bins of the padded signal, sizes [n] and [nfft >= 2 n - 1]. *)
Theorem c72_padded : forall s N (power : bool) r, (r < List.length s)%nat -> (2 * List.length s - 1 <= N)%nat ->
  let a := map (dft (real_signal (s ++ repeat 0 (N - List.length s)))) (seq 0 (N / 2 + 1)) in
  exists c, fft2autocorrelogram (if power then map (fun v => (power2 v, 0)) a else a) true
      (Some (zlen s)) (Some (Z.of_nat N)) power = Ok c /\
    List.length c = List.length s /\ nth r c (0, 0) = (linear s r, 0).
Proof.
  intros s N power r Hr HN a. set (n := List.length s) in *. set (y := s ++ repeat 0 (N - n)).
  assert (LY : List.length y = N) by (unfold y; rewrite app_length, repeat_length; fold n; lia).
  destruct (one_sided y n N power) as (c & E & L & S); [intro Q; rewrite Q in LY; cbn in LY; lia|auto|lia|].
  fold y in a. exists c. split; [exact E|]. split; [exact L|]. rewrite S by auto. f_equal.
  unfold circular. assert (LX : List.length (real_signal y) = N) by (unfold real_signal; rewrite map_length; auto).
  rewrite LX. cbn [fst]. unfold linear. fold n.
  assert (Y : forall p, re (real_signal y) p = nth p s 0 /\ im (real_signal y) p = 0).
  { intro p. unfold re, im, real_signal. destruct (Nat.lt_ge_cases p N).
    - rewrite (nth_map_lt _ _ _ 0 (0, 0)) by (rewrite LY; auto). cbn [fst snd]. split; [|reflexivity].
      unfold y. destruct (Nat.lt_ge_cases p n); [rewrite app_nth1 by auto; reflexivity|].
      rewrite app_nth2, nth_repeat, nth_overflow by auto. reflexivity.
    - rewrite nth_overflow by (rewrite map_length, LY; auto). cbn [fst snd]. rewrite nth_overflow by (fold n; lia). auto. }
  change (total N ?f) with (sumn N f). change (total (n - r) ?f) with (sumn (n - r) f).
  replace N with ((n - r) + (N - (n - r)))%nat by lia. rewrite sumn_app.
  rewrite (sumn_zero (N - (n - r))).
  - rewrite Rplus_0_r. apply sumn_ext. intros q Hq. rewrite !(proj1 (Y _)), !(proj2 (Y _)).
    rewrite Nat.mod_small by lia. ring.
  - intros q Hq. rewrite !(proj1 (Y _)), !(proj2 (Y _)).
    destruct (Nat.lt_ge_cases (n - r + q) n).
    + rewrite (Nat.mod_small (n - r + q + r)) by lia. rewrite (nth_overflow s 0 (n := n - r + q + r)) by (fold n; lia). ring.
    + rewrite (nth_overflow s 0 (n := n - r + q)) by (fold n; lia). ring.
Qed.
Print Assumptions c72_padded.

Lemma irfft_nth : forall a m l, irfft a m = Ok l ->
  (1 <= m)%Z /\ List.length l = Z.to_nat m /\ forall r, (r < Z.to_nat m)%nat ->
  nth r l 0 = sumn (Z.to_nat m / 2 + 1)
    (fun k => irfft_weight (Z.to_nat m) k * nth k a 0 * cos (ang (Z.to_nat m) k (Z.of_nat r))) / INR (Z.to_nat m).
Proof.
  intros a m l E. unfold irfft in E. destruct (Z.ltb_spec m 1); [discriminate|]. inversion E; subst l. clear E.
  rewrite map_length, seq_length. split; [auto|]. split; [auto|]. intros r Hr.
  rewrite (nth_map_lt _ _ _ 0%nat 0) by (rewrite seq_length; auto). rewrite seq_nth by auto. cbn [Nat.add].
  unfold sumn. f_equal. apply rsum_map_ext. intros k _. rewrite angle_ang. reflexivity.
Qed.
Lemma one_sided_inv : forall a n m c, fft2autocorrelogram (map (fun v => (v, 0)) a) true (Some n) (Some m) true = Ok c ->
  exists l k, irfft a m = Ok l /\ c = firstn k (map (fun v => (v, 0)) l) /\ ((0 <= n)%Z -> k = Nat.min (Z.to_nat n) (List.length l)).
Proof.
  intros a n m c E. unfold fft2autocorrelogram in E. rewrite map_map in E. cbn [fst] in E. rewrite map_id in E.
  destruct (irfft a m) as [l|e]; [|discriminate]. cbn [bind] in E. inversion E. exists l.
  unfold slice, lo_bound, hi_bound. rewrite Nat.sub_0_r. cbn [skipn]. eexists. split; [reflexivity|]. split; [reflexivity|].
  intro H. unfold slice_bound, zlen. rewrite map_length. destruct (Z.ltb_spec n 0); lia.
Qed.
Lemma one_sided_default : forall a n m,
  exists n' m', fft2autocorrelogram a true n m true = fft2autocorrelogram a true (Some n') (Some m') true.
Proof. intros. unfold fft2autocorrelogram. eexists _, _. reflexivity. Qed.

Lemma weighted_nonneg : forall a m i, Forall (fun v => 0 <= v) a -> 0 <= irfft_weight m i * nth i a 0.
Proof.
  intros a m i P. apply Rmult_le_pos.
  - unfold irfft_weight. destruct (Nat.eqb i 0); [lra|]. destruct (Nat.eqb (2 * i) m); lra.
  - destruct (Nat.lt_ge_cases i (List.length a)); [|rewrite nth_overflow by auto; lra].
    rewrite Forall_forall in P. apply P. apply nth_In. auto.
Qed.
Lemma ang_0 : forall N k, ang N k (Z.of_nat 0) = 0.
Proof. intros. unfold ang, Rdiv. cbn [Z.of_nat]. ring. Qed.

(** No lag of the autocorrelogram of a power spectrum exceeds lag zero. *)
Theorem c72_peak : forall a n nfft c r, Forall (fun v => 0 <= v) a ->
  fft2autocorrelogram (map (fun v => (v, 0)) a) true n nfft true = Ok c ->
  Rabs (fst (nth r c (0, 0))) <= fst (nth 0 c (0, 0)).
Proof.
  intros a n nfft c r P E. destruct (one_sided_default (map (fun v => (v, 0)) a) n nfft) as (n' & m & E').
  rewrite E' in E. clear E' n nfft. apply one_sided_inv in E. destruct E as (l & k & E & -> & _).
  apply irfft_nth in E. destruct E as (Hm & L & S).
  assert (I : 0 < / INR (Z.to_nat m)) by (apply Rinv_0_lt_compat; apply lt_0_INR; lia).
  destruct (Nat.lt_ge_cases r (Nat.min k (List.length l))) as [Hr|Hr].
  - rewrite !nth_firstn_lt by lia. rewrite !(nth_map_lt _ _ _ 0 (0, 0)) by lia. cbn [fst]. rewrite !S by lia.
    unfold Rdiv. rewrite Rabs_mult, (Rabs_right (/ _)) by lra.
    apply Rmult_le_compat_r; [lra|].
    eapply Rle_trans; [apply sumn_abs|]. apply sumn_le. intros i _.
    pose proof (weighted_nonneg a (Z.to_nat m) i P) as H.
    rewrite ang_0, cos_0, Rabs_mult, (Rabs_right (_ * _)) by lra. apply Rmult_le_compat_l; [auto|].
    apply Rabs_le. apply COS_bound.
  - rewrite (nth_overflow _ _ (n := r)) by (rewrite firstn_length, map_length; lia). cbn [fst]. rewrite Rabs_R0.
    destruct (Nat.eq_dec (Nat.min k (List.length l)) 0) as [Z0|Z0].
    + rewrite nth_overflow by (rewrite firstn_length, map_length; lia). cbn. lra.
    + rewrite nth_firstn_lt by lia. rewrite (nth_map_lt _ _ _ 0 (0, 0)) by lia. cbn [fst].
      rewrite S by lia. apply Rmult_le_pos; [|lra].
      replace 0 with (sumn (Z.to_nat m / 2 + 1) (fun _ => 0)) at 1 by (apply sumn_zero; auto).
      apply sumn_le. intros i _. rewrite ang_0, cos_0, Rmult_1_r. apply weighted_nonneg. auto.
Qed.
Print Assumptions c72_peak.

(** The spectrum of a signal with an odd number of samples does not give its
    autocorrelogram unless the size is given: of [1, 1, 0] there are two lags,
    and the first is 5/2 instead of the energy 2. *)
Theorem c72_odd_refuted : exists s c, 
  fft2autocorrelogram (map (dft (real_signal s)) (seq 0 (List.length s / 2 + 1))) true None None false = Ok c /\
  s = [1; 1; 0] /\ List.length c = 2%nat /\ fst (nth 0 c (0, 0)) = 5 / 2 /\ fst (circular (real_signal s) 0) = 2.
Proof.
  exists [1; 1; 0]. change (seq 0 (List.length [1; 1; 0] / 2 + 1)) with [0; 1]%nat.
  set (D0 := dft (real_signal [1; 1; 0]) 0). set (D1 := dft (real_signal [1; 1; 0]) 1).
  assert (P0 : fst D0 * fst D0 + snd D0 * snd D0 = 4).
  { unfold D0, dft, total, re, im, real_signal. cbn [List.length map seq nth fst snd].
    unfold rsum. cbn [fold_right INR].
    replace (2 * PI * 0 * 0 / (1 + 1 + 1)) with 0 by (unfold Rdiv; ring).
    replace (2 * PI * 0 * 1 / (1 + 1 + 1)) with 0 by (unfold Rdiv; ring).
    rewrite cos_0, sin_0. ring. }
  assert (P1 : fst D1 * fst D1 + snd D1 * snd D1 = 1).
  { unfold D1, dft, total, re, im, real_signal. cbn [List.length map seq nth fst snd].
    unfold rsum. cbn [fold_right INR].
    replace (2 * PI * 1 * 0 / (1 + 1 + 1)) with 0 by (unfold Rdiv; ring).
    replace (2 * PI * 1 * 1 / (1 + 1 + 1)) with (2 * (PI / 3)) by field.
    rewrite cos_0, sin_0, cos_2PI3, sin_2PI3.
    assert (Q : sqrt 3 * sqrt 3 = 3) by (apply sqrt_sqrt; lra).
    transitivity (1 / 4 + sqrt 3 * sqrt 3 / 4); [field|rewrite Q; field]. }
  cbn [map]. fold D0 D1. unfold fft2autocorrelogram. cbn [zlen List.length]. unfold zlen. cbn [List.length].
  change (2 * (Z.of_nat 2 - 1))%Z with 2%Z. cbn [map]. rewrite P0, P1.
  unfold irfft. cbn [Z.ltb Z.compare Pos.compare Pos.compare_cont]. cbn [bind].
  change (Z.to_nat 2) with 2%nat.
  eexists. split; [reflexivity|]. split; [reflexivity|].
  unfold slice, lo_bound, hi_bound, zlen. rewrite !map_length, seq_length. cbn [skipn].
  change (Z.to_nat (slice_bound (Z.of_nat 2) 2) - 0)%nat with 2%nat. cbn [seq map firstn List.length].
  split; [reflexivity|]. split.
  - cbn [nth fst]. change (2 / 2 + 1)%nat with 2%nat. cbn [seq map]. unfold rsum. cbn [fold_right nth].
    unfold irfft_weight. cbn [Nat.eqb Nat.mul Nat.add]. unfold angle. cbn [Z.of_nat].
    rewrite !Rmult_0_r. unfold Rdiv. rewrite !Rmult_0_l, cos_0. cbn [INR]. lra.
  - unfold circular, total, re, im, real_signal. cbn [List.length map seq nth fst snd].
    change ((0 + 0) mod 3)%nat with 0%nat. change ((1 + 0) mod 3)%nat with 1%nat. change ((2 + 0) mod 3)%nat with 2%nat.
    unfold rsum. cbn [fold_right nth fst snd]. lra.
Qed.
Print Assumptions c72_odd_refuted.

(** Zeros after [1, 2]: energy 5 and product 2. *)
Example c72_example : exists c,
  fft2autocorrelogram (map (dft (real_signal [1; 2; 0; 0])) (seq 0 3)) true (Some 2%Z) (Some 4%Z) false = Ok c /\
  fst (nth 0 c (0, 0)) = 5 /\ fst (nth 1 c (0, 0)) = 2.
Proof.
  destruct (c72_padded [1; 2] 4 false 0) as (c & E & _ & A); [cbn; lia|cbn; lia|].
  destruct (c72_padded [1; 2] 4 false 1) as (c' & E' & _ & B); [cbn; lia|cbn; lia|].
  exists c. split; [exact E|]. cbv zeta in E, E'. rewrite E in E'. inversion E'; subst c'.
  rewrite A, B. unfold linear, total, rsum. cbn. lra.
Qed.

(** ** C73: initial beat frequency *)


(** An interior sample which exceeds both its neighbours; the first one. *)
Definition local_max (x : list R) (i : nat) : Prop :=
  (0 < i)%nat /\ (i + 1 < List.length x)%nat /\ nth (i - 1) x 0 < nth i x 0 /\ nth (i + 1) x 0 < nth i x 0.
Definition first_max (x : list R) (i : nat) : Prop := local_max x i /\ forall j, (j < i)%nat -> ~ local_max x j.

(** The autocorrelogram of a track reaches from lag zero to its last time, and
    lag zero is its maximum. *)
Theorem c73_correlogram : forall lomb P t x fs lpf, pointwise lomb t x P -> (forall w, 0 <= P w) ->
  0 < fs -> (exists v, In v t /\ 0 < v) -> (forall l, lpf = Some l -> 0 <= l) ->
  exists corr, lombscargle_autocorrelogram lomb t x None None fs None lpf = Ok corr /\
    (forall v, In v t -> v * fs <= INR (List.length corr)) /\
    (exists v, In v t /\ INR (List.length corr) < v * fs + 1) /\
    (forall r, Rabs (nth r corr 0) <= nth 0 corr 0).
Proof.
  intros lomb P t x fs lpf HP P0 Hf (v & Iv & Pv) Hl.
  destruct (amax_ok t) as (m & Em & Im & Um); [destruct t; [destruct Iv|discriminate]|].
  unfold lombscargle_autocorrelogram. rewrite Em. cbn [bind].
  pose proof (Rceil_spec (m * fs)) as [A B]. set (n := Rceil (m * fs)) in *.
  assert (Pm : 0 < m * fs) by (apply Rmult_lt_0_compat; [pose proof (Um v Iv); lra|auto]).
  assert (N1 : (1 <= n)%Z) by (assert (0 < n)%Z by (apply lt_IZR; lra); lia).
  destruct (c71_periodogram lomb P t x (2 * n) fs None lpf HP Hf ltac:(lia) Hl) as (ls & w & -> & LL & _ & S).
  cbn [bind fst]. rewrite (Z.mul_comm 2), Z.div_mul in LL, S by lia.
  assert (NN : Forall (fun v => 0 <= v) ls).
  { apply Forall_forall. intros u Iu. apply (In_nth _ _ 0) in Iu. destruct Iu as (k & Hk & <-).
    destruct (S k ltac:(lia)) as (_ & S0 & _ & S1 & S2).
    destruct (Nat.eq_dec k 0) as [K|K].
    - rewrite S0 by (auto; discriminate). apply Rle_0_sqr.
    - destruct lpf as [l|].
      + destruct (Rlt_le_dec (INR k * fs / IZR (n * 2)) l) as [Q|Q].
        * rewrite S1; [apply P0|auto|discriminate|intros ? U; inversion U; subst; auto].
        * rewrite S2; [lra|auto|right; exists l; auto].
      + rewrite S1; [apply P0|auto|discriminate|discriminate]. }
  destruct (fft2autocorrelogram (map (fun v => (v, 0)) ls) true (Some n) (Some (n * 2)%Z) true) as [c|e] eqn:E.
  2:{ exfalso. unfold fft2autocorrelogram, irfft in E. destruct (Z.ltb_spec (n * 2) 1); [lia|]. discriminate. }
  rewrite (Z.mul_comm 2), E. cbn [bind]. eexists. split; [reflexivity|].
  pose proof (fun r => c72_peak ls _ _ c r NN E) as PK.
  apply one_sided_inv in E. destruct E as (l & k & E & -> & K). apply irfft_nth in E. destruct E as (_ & LI & _).
  specialize (K ltac:(lia)). rewrite map_length, firstn_length, map_length.
  replace (Nat.min k (List.length l)) with (Z.to_nat n) by lia.
  rewrite INR_IZR_INZ, Z2Nat.id by lia.
  split; [|split].
  - intros u Iu. apply Rle_trans with (m * fs); [|auto]. apply Rmult_le_compat_r; [lra|auto].
  - exists m. auto.
  - intro r. specialize (PK r).
    assert (MN : forall r, nth r (map fst (firstn k (map (fun v => (v, 0)) l))) 0 = fst (nth r (firstn k (map (fun v => (v, 0)) l)) (0, 0))).
    { intro r'. exact (map_nth fst _ (0, 0) r'). }
    rewrite !MN. exact PK.
Qed.
Print Assumptions c73_correlogram.

Lemma peak_locations_first : forall x, 
  match peak_locations x with
  | [] => forall i, ~ local_max x i
  | i :: _ => first_max x i
  end.
Proof.
  intro x.
  assert (M : forall i, In i (seq 1 (List.length x - 2)) ->
    ((Rltb (nth (i + 1) x 0) (nth i x 0) && Rltb (nth (i - 1) x 0) (nth i x 0)) = true <-> local_max x i)).
  { intros i Hi. apply in_seq in Hi. unfold local_max, Rltb. rewrite andb_true_iff.
    destruct (Rlt_dec (nth (i + 1) x 0) (nth i x 0)); destruct (Rlt_dec (nth (i - 1) x 0) (nth i x 0));
      split; intros; try tauto; try (destruct H; discriminate); try (repeat split; auto; lia). }
  assert (G : forall n a, (forall i, In i (seq a n) -> In i (seq 1 (List.length x - 2))) ->
    match filter (fun i => Rltb (nth (i + 1) x 0) (nth i x 0) && Rltb (nth (i - 1) x 0) (nth i x 0)) (seq a n) with
    | [] => forall i, In i (seq a n) -> ~ local_max x i
    | i :: _ => local_max x i /\ forall j, In j (seq a n) -> (j < i)%nat -> ~ local_max x j
    end).
  { induction n; intros a Sub; [intros i []|].
    cbn [seq filter]. specialize (IHn (S a) (fun i Hi => Sub i (or_intror Hi))).
    pose proof (M a (Sub a (or_introl eq_refl))) as Ma.
    destruct (Rltb _ _ && Rltb _ _) eqn:B.
    - split; [apply Ma; auto|]. intros j [<-|Hj]; [lia|]. apply in_seq in Hj. lia.
    - assert (Na : ~ local_max x a) by (intro; assert (false = true) by (apply Ma; auto); discriminate).
      destruct (filter _ (seq (S a) n)) as [|i l].
      + intros i [<-|Hi]; auto.
      + destruct IHn as [A B']. split; [auto|]. intros j [<-|Hj] Lj; auto. }
  specialize (G (List.length x - 2)%nat 1%nat (fun i H => H)). unfold peak_locations.
  destruct (filter _ _) as [|i l].
  - intros i Hi. apply (G i); [apply in_seq; unfold local_max in Hi; lia|auto].
  - destruct G as [A B]. split; [auto|]. intros j Lj Hj. apply (B j); auto. apply in_seq. unfold local_max in Hj. lia.
Qed.
Lemma refine_bound : forall x i, local_max x i -> Rabs (refine_location x i - INR i) < 1 / 2.
Proof.
  intros x i (_ & _ & A & B). unfold refine_location.
  set (l := nth (i - 1) x 0) in *. set (c := nth i x 0) in *. set (r := nth (i + 1) x 0) in *.
  replace (INR i + 1 / 2 * (l - r) / (l - 2 * c + r) - INR i) with (1 / 2 * (r - l) / ((c - l) + (c - r))) by (field; lra).
  assert (D : 0 < (c - l) + (c - r)) by lra.
  apply Rabs_def1; apply (Rmult_lt_reg_r ((c - l) + (c - r))); auto; unfold Rdiv; rewrite Rmult_assoc, Rinv_l, Rmult_1_r by lra; lra.
Qed.

(** The initial difference of the frequencies is less than twice the sampling
    frequency, and no number is divided by zero: either the autocorrelogram has
    no peak and there is no difference, or the period of the difference is that
    of the first peak, to half a sample. *)
Theorem c73_am_frequency : forall corr fs, 0 < fs ->
  let am := am_frequency corr fs in
  ((forall i, ~ local_max corr i) /\ am = 0) \/
  (exists i, first_max corr i /\ 0 < am < fs /\ Rabs (fs / (2 * am) - INR i) < 1 / 2).
Proof.
  intros corr fs Hf am. unfold am, am_frequency. pose proof (peak_locations_first corr) as H.
  destruct (peak_locations corr) as [|i l]; [left; auto|]. right. exists i. split; [auto|]. cbn [map].
  pose proof (refine_bound corr i (proj1 H)) as B. set (p := refine_location corr i) in *.
  assert (1 <= INR i). { change 1 with (INR 1). apply le_INR. destruct H as [[? _] _]. lia. }
  apply Rabs_def2 in B. assert (1 / 2 < p) by lra.
  split; [split|].
  - apply Rdiv_lt_0_compat; lra.
  - apply (Rmult_lt_reg_r (2 * p)); [lra|]. unfold Rdiv. rewrite Rmult_assoc, Rinv_l, Rmult_1_r by lra.
    rewrite <- (Rmult_1_r fs) at 1. apply Rmult_lt_compat_l; lra.
  - replace (fs / (2 * (fs / (2 * p)))) with p by (field; lra). apply Rabs_def1; lra.
Qed.
Print Assumptions c73_am_frequency.

(** The parabola through three points, and where it is largest. *)
Definition parabola_top (x : list R) (i : nat) (p : R) : Prop :=
  exists a b c, let g u := a * u * u + b * u + c in
    g (INR i - 1) = nth (i - 1) x 0 /\ g (INR i) = nth i x 0 /\ g (INR i + 1) = nth (i + 1) x 0 /\
    forall u, u <> p -> g u < g p.

(** The period is where the parabola through the peak and its neighbours is
    largest. *)
Theorem c73_vertex : forall corr fs i, 0 < fs -> first_max corr i ->
  parabola_top corr i (fs / (2 * am_frequency corr fs)).
Proof.
  intros corr fs i Hf Hi. unfold am_frequency. pose proof (peak_locations_first corr) as H.
  destruct (peak_locations corr) as [|j L]; [exfalso; apply (H i), Hi|]. cbn [map].
  assert (j = i) as ->.
  { destruct (Nat.lt_trichotomy i j) as [Q|[Q|Q]]; [|congruence|].
    - exfalso. apply (proj2 H i Q), Hi.
    - exfalso. apply (proj2 Hi j Q), H. }
  pose proof (refine_bound corr i (proj1 H)) as B. apply Rabs_def2 in B.
  assert (1 <= INR i). { change 1 with (INR 1). apply le_INR. destruct H as [[? _] _]. lia. }
  replace (fs / (2 * (fs / (2 * refine_location corr i)))) with (refine_location corr i) by (field; lra).
  clear B H. destruct Hi as [(_ & _ & A & B) _]. unfold refine_location, parabola_top.
  set (l := nth (i - 1) corr 0) in *. set (c := nth i corr 0) in *. set (r := nth (i + 1) corr 0) in *.
  set (n := INR i) in *. set (D := l - 2 * c + r).
  assert (D0 : D < 0) by (unfold D; lra).
  exists (D / 2), ((r - l) / 2 - D * n), (c - (r - l) / 2 * n + D / 2 * n * n).
  cbv zeta. repeat split; try (unfold D; field).
  intros u Hu. apply Rminus_gt_0_lt.
  replace (_ - _) with (- D / 2 * (u - (n + 1 / 2 * (l - r) / D)) * (u - (n + 1 / 2 * (l - r) / D))) by (field; lra).
  rewrite Rmult_assoc. apply Rmult_lt_0_compat; [lra|]. apply Rlt_0_sqr. intro Q. apply Hu. lra.
Qed.
Print Assumptions c73_vertex.

(** The autocorrelogram of a track is the sum of the cosines of the frequencies
    of its periodogram of twice the size, so that lags do not wrap around. *)
Theorem c73_values : forall lomb P t x fs lpf corr, pointwise lomb t x P ->
  0 < fs -> (exists v, In v t /\ 0 < v) -> (forall l, lpf = Some l -> 0 <= l) ->
  lombscargle_autocorrelogram lomb t x None None fs None lpf = Ok corr ->
  exists n ls w, n = List.length corr /\
    lombscargle_as_fft lomb t x (2 * Z.of_nat n) fs None lpf = Ok (ls, w) /\
    forall r, (r < n)%nat -> nth r corr 0 =
      (nth 0 ls 0 + 2 * total (n - 1) (fun k => nth (k + 1) ls 0 * cos (2 * PI * nth (k + 1) w 0 * (INR r / fs)))
        + nth n ls 0 * cos (2 * PI * nth n w 0 * (INR r / fs))) / (2 * INR n).
Proof.
  intros lomb P t x fs lpf corr HP Hf (v & Iv & Pv) Hl E.
  destruct (amax_ok t) as (m & Em & Im & Um); [destruct t; [destruct Iv|discriminate]|].
  unfold lombscargle_autocorrelogram in E. rewrite Em in E. cbn [bind] in E.
  pose proof (Rceil_spec (m * fs)) as [A B]. set (z := Rceil (m * fs)) in *.
  assert (Pm : 0 < m * fs) by (apply Rmult_lt_0_compat; [pose proof (Um v Iv); lra|auto]).
  assert (N1 : (1 <= z)%Z) by (assert (0 < z)%Z by (apply lt_IZR; lra); lia).
  set (n := Z.to_nat z). assert (EZ : z = Z.of_nat n) by (unfold n; lia). rewrite EZ in E.
  assert (Hn : (1 <= n)%nat) by lia.
  destruct (c71_periodogram lomb P t x (2 * Z.of_nat n) fs None lpf HP Hf ltac:(lia) Hl) as (ls & w & EL & LL & _ & SP).
  rewrite EL in E. cbn [bind fst] in E.
  rewrite (Z.mul_comm 2), Z.div_mul in LL, SP by lia.
  destruct (fft2autocorrelogram (map (fun v => (v, 0)) ls) true (Some (Z.of_nat n)) (Some (2 * Z.of_nat n)%Z) true) as [c|] eqn:EF;
    [|discriminate]. cbn [bind] in E. inversion E; subst corr. clear E.
  apply one_sided_inv in EF. destruct EF as (l & k & EI & -> & K). apply irfft_nth in EI. destruct EI as (_ & LI & SI).
  specialize (K ltac:(lia)).
  exists n, ls, w. split; [rewrite map_length, firstn_length, map_length; lia|]. split; [exact EL|].
  intros r Hr.
  rewrite (nth_map_lt _ _ _ (0, 0) 0) by (rewrite firstn_length, map_length; lia).
  rewrite nth_firstn_lt by lia. rewrite (nth_map_lt _ _ _ 0 (0, 0)) by lia. cbn [fst].
  replace (Z.to_nat (2 * Z.of_nat n)) with (2 * n)%nat in * by lia.
  rewrite SI by lia. rewrite (Nat.mul_comm 2 n), Nat.div_mul, (Nat.mul_comm n 2) by lia.
  assert (N0 : INR n <> 0) by (apply not_0_INR; lia).
  f_equal; [|rewrite mult_INR; cbn [INR]; ring].
  assert (AN : forall k, (k <= n)%nat -> ang (2 * n) k (Z.of_nat r) = 2 * PI * nth k w 0 * (INR r / fs)).
  { intros k' Hk. destruct (SP k' ltac:(lia)) as (-> & _). unfold ang. rewrite mult_IZR, <- !INR_IZR_INZ, mult_INR.
    cbn [INR]. field. split; [lra|auto]. }
  assert (FS : forall f, sumn n f = f 0%nat + sumn (n - 1) (fun i => f (S i))) by (intro f; rewrite <- sumn_first; f_equal; lia).
  rewrite Nat.add_1_r, sumn_S, FS.
  rewrite (sumn_ext (n - 1) _ (fun k => 2 * (nth (k + 1) ls 0 * cos (2 * PI * nth (k + 1) w 0 * (INR r / fs))))).
  2:{ intros i Hi. rewrite <- AN by lia. rewrite Nat.add_1_r. unfold irfft_weight. cbn [Nat.eqb].
      destruct (Nat.eqb_spec (2 * S i) (2 * n)); [lia|]. ring. }
  rewrite sumn_scale. rewrite !AN by lia.
  destruct (SP 0%nat ltac:(lia)) as (-> & _).
  unfold irfft_weight at 1. cbn [Nat.eqb]. unfold irfft_weight. destruct (Nat.eqb_spec n 0); [lia|]. rewrite Nat.eqb_refl.
  cbn [INR]. unfold Rdiv at 1. rewrite !Rmult_0_l, Rmult_0_r, Rmult_0_l, cos_0. unfold total, sumn. ring.
Qed.
Print Assumptions c73_values.

(** The initial parameters of the regression: for every track with two samples
    or more and a last time above zero there are some; the frequencies are on
    both sides of the mean frequency and as far as the autocorrelogram of the
    amplitudes without their trend says. *)
Theorem c73_params_init : forall lomb model phase fs lpf t a f,
  regressor model -> 0 < fs -> (forall l, lpf = Some l -> 0 <= l) ->
  (forall x, exists P, pointwise lomb t x P /\ forall w, 0 <= P w) ->
  List.length t = List.length a -> (2 <= List.length a)%nat -> (exists v, In v t /\ 0 < v) ->
  exists p r corr, params_init lomb model phase fs lpf t a f = Ok p /\
    detrend model 1 a (Some t) = Ok (Vector r) /\
    lombscargle_autocorrelogram lomb t (map (fun v => Rpower 10 (v / 20)) r) None None fs None lpf = Ok corr /\
    (q_f0 p + q_f1 p) / 2 = mean f /\
    (((forall i, ~ local_max corr i) /\ q_f0 p = q_f1 p) \/
     (exists i, first_max corr i /\ 0 < q_f0 p - q_f1 p < 2 * fs /\
        Rabs (fs / (q_f0 p - q_f1 p) - INR i) < 1 / 2)).
Proof.
  intros lomb model phase fs lpf t a f M Hf Hl HP L L2 Ht.
  destruct (detrend_some model a t M L) as (k & q & E & _); [destruct a; cbn in L2; [lia|discriminate]|].
  set (r := map (fun p => snd p - (k * fst p + q)) (combine t a)) in *.
  assert (LR : List.length r = List.length a) by (apply resid_length; auto).
  assert (ER : squeeze r = Vector r) by (destruct r as [|u [|v r']]; cbn in LR; [lia|lia|reflexivity]).
  rewrite ER in E.
  destruct (HP (map db2a r)) as (P & HP1 & HP2).
  destruct (c73_correlogram lomb P t (map db2a r) fs lpf HP1 HP2 Hf Ht Hl) as (corr & EC & _).
  destruct (M t a L) as (kq & EM & _); [destruct Ht as (v & Iv & _); destruct t; [destruct Iv|discriminate]|].
  unfold params_init. rewrite E. cbn [bind]. rewrite EC. cbn [bind]. rewrite EM. cbn [bind].
  eexists _, r, corr. split; [reflexivity|]. split; [reflexivity|]. split.
  { exact EC. }
  unfold default_params_init. cbn [q_f0 q_f1].
  split; [field|].
  destruct (c73_am_frequency corr fs Hf) as [[A ->]|(i & A & B & C)]; [left; split; [auto|ring]|].
  right. exists i. set (am := am_frequency corr fs) in *.
  replace (mean f + am - (mean f - am)) with (2 * am) by ring.
  split; [auto|]. split; [lra|auto].
Qed.
Print Assumptions c73_params_init.

(** A track with one sample has no initial parameters. *)
Theorem c73_one_sample : forall lomb model phase fs lpf t a f, regressor model ->
  params_init lomb model phase fs lpf [t] [a] f = Err ValueError.
Proof.
  intros lomb model phase fs lpf t a f M. destruct (M [t] [a] eq_refl) as (kq & E & _); [discriminate|].
  unfold params_init, detrend. cbn [negb Z.eqb]. rewrite E. reflexivity.
Qed.
Print Assumptions c73_one_sample.

(** The first peak of this correlogram is at lag 2 (its neighbours are equal, so
    it is not moved): 8 samples a second give a beat of 4 Hz. *)
Example c73_example : am_frequency [5; 1; 3; 1; 4; 0] 8 = 2.
Proof.
  unfold am_frequency, peak_locations. cbn [List.length Nat.sub seq filter Nat.add nth].
  unfold Rltb. repeat match goal with |- context [Rlt_dec ?a ?b] => destruct (Rlt_dec a b); try (exfalso; lra) end.
  cbn [andb filter map]. unfold refine_location. cbn [Nat.sub Nat.add nth INR]. field_simplify; lra.
Qed.
Example c73_example_params : exists p,
  params_init flat ols_model (fun _ _ _ => 0) 10 None [0; 1] [-3; -5] [440; 442] = Ok p /\ (q_f0 p + q_f1 p) / 2 = 441.
Proof.
  destruct (c73_params_init flat ols_model (fun _ _ _ => 0) 10 None [0; 1] [-3; -5] [440; 442]) as (p & _ & _ & E & _ & _ & F & _);
    [apply ols_regressor|lra|discriminate| |reflexivity|cbn; lia| |].
  - intro x. exists (fun _ => 1). split; [apply flat_pointwise|intro; lra].
  - exists 1. split; [right; left; reflexivity|lra].
  - exists p. split; [exact E|]. rewrite F. unfold mean, rsum. cbn. field.
Qed.
