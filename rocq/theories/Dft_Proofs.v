(** Lemmas on the zero-phase spectrum. *)
From Coq Require Import List ZArith Reals Lra Lia.
Import ListNotations.
From Verif Require Import Base Py PyLemmas Stft_Model Stft_Proofs RLists Dft_Model.
Local Open Scope R_scope.

Lemma buffer_wsum : forall (g : Z -> R) xw n buf, (2 <= zlen xw)%Z -> (zlen xw <= n)%Z ->
  (forall z, g (z + n)%Z = g z) ->
  dft_buffer 0 xw n = Ok buf ->
  List.length buf = Z.to_nat n /\ wsum g 0 buf = wsum g (- (zlen xw / 2)) xw.
Proof.
  intros g xw n buf H2 Hn Hg E.
  destruct (buffer_spec _ 0 xw n H2 Hn) as (b' & E' & L & _).
  rewrite E in E'. inversion E'; subst b'.
  split; [unfold zlen in L; lia|].
  rewrite buffer_concrete in E by auto. inversion E as [E1]. clear E E' E1.
  set (m := zlen xw) in *. set (hw := (m / 2)%Z).
  assert (Hhw : (1 <= hw /\ 2 * hw <= m)%Z).
  { unfold hw. pose proof (Z.div_mod m 2). pose proof (Z.mod_pos_bound m 2). lia. }
  rewrite !wsum_app, wsum_repeat0.
  rewrite <- (firstn_skipn (Z.to_nat hw) xw) at 4. rewrite wsum_app.
  rewrite Rplus_0_l, Rplus_comm.
  assert (Lm : List.length xw = Z.to_nat m) by (unfold m, zlen; lia).
  rewrite !skipn_length, !firstn_length, repeat_length, Lm.
  f_equal.
  - apply wsum_shift. intros j _. rewrite <- (Hg (- hw + j)%Z). f_equal. lia.
  - f_equal. lia.
Qed.

Lemma angle_period : forall n k z, (0 < n)%Z ->
  angle n k (z + n) = angle n k z + 2 * IZR k * PI.
Proof.
  intros. unfold angle. rewrite plus_IZR. field. apply not_0_IZR. lia.
Qed.

Lemma cos_shift : forall x k, cos (x + 2 * IZR k * PI) = cos x.
Proof.
  intros x k. destruct (Z_le_gt_dec 0 k).
  - rewrite <- (Z2Nat.id k) by auto. rewrite <- INR_IZR_INZ. apply cos_period.
  - rewrite <- (cos_period (x + 2 * IZR k * PI) (Z.to_nat (- k))).
    f_equal. rewrite INR_IZR_INZ, Z2Nat.id by lia. rewrite opp_IZR. ring.
Qed.
Lemma sin_shift : forall x k, sin (x + 2 * IZR k * PI) = sin x.
Proof.
  intros x k. destruct (Z_le_gt_dec 0 k).
  - rewrite <- (Z2Nat.id k) by auto. rewrite <- INR_IZR_INZ. apply sin_period.
  - rewrite <- (sin_period (x + 2 * IZR k * PI) (Z.to_nat (- k))).
    f_equal. rewrite INR_IZR_INZ, Z2Nat.id by lia. rewrite opp_IZR. ring.
Qed.

Lemma rfft_wsum : forall buf k,
  rfft_re buf k = wsum (fun z => cos (angle (zlen buf) k z)) 0 buf /\
  rfft_im buf k = - wsum (fun z => sin (angle (zlen buf) k z)) 0 buf.
Proof.
  intros. unfold rfft_re, rfft_im. rewrite !wsum_seq. split; reflexivity.
Qed.

(** Bins as sums centred on the middle sample. *)
Lemma centred_bins : forall xw n k, (2 <= zlen xw)%Z -> (zlen xw <= n)%Z ->
  exists buf, dft_buffer 0 xw n = Ok buf /\
    rfft_re buf k =
      rsum (map (fun i => nth i xw 0 *
        cos (2 * PI * IZR k * IZR (Z.of_nat i - zlen xw / 2) / IZR n))
        (seq 0 (List.length xw))) /\
    rfft_im buf k =
      - rsum (map (fun i => nth i xw 0 *
        sin (2 * PI * IZR k * IZR (Z.of_nat i - zlen xw / 2) / IZR n))
        (seq 0 (List.length xw))).
Proof.
  intros xw n k H2 Hn.
  destruct (buffer_spec _ 0 xw n H2 Hn) as (buf & E & L & _).
  exists buf. split; [exact E|].
  destruct (rfft_wsum buf k) as [-> ->]. rewrite L.
  assert (Pn : (0 < n)%Z) by lia.
  split.
  - rewrite (proj2 (buffer_wsum (fun z => cos (angle n k z)) xw n buf H2 Hn
              (fun z => eq_trans (f_equal cos (angle_period n k z Pn)) (cos_shift _ _)) E)).
    rewrite wsum_seq. apply rsum_map_ext. intros i _. unfold angle.
    do 5 f_equal. lia.
  - rewrite (proj2 (buffer_wsum (fun z => sin (angle n k z)) xw n buf H2 Hn
              (fun z => eq_trans (f_equal sin (angle_period n k z Pn)) (sin_shift _ _)) E)).
    rewrite wsum_seq. f_equal. apply rsum_map_ext. intros i _. unfold angle.
    do 5 f_equal. lia.
Qed.

(** Symmetric frames of odd size have a real spectrum. *)
Lemma zero_phase : forall xw n k buf, (2 <= zlen xw)%Z -> (zlen xw <= n)%Z ->
  Z.odd (zlen xw) = true -> rev xw = xw ->
  dft_buffer 0 xw n = Ok buf -> rfft_im buf k = 0.
Proof.
  intros xw n k buf H2 Hn Ho Hs E.
  destruct (buffer_spec _ 0 xw n H2 Hn) as (buf' & E' & L & _).
  rewrite E in E'. inversion E'; subst buf'. clear E'.
  assert (Pn : (0 < n)%Z) by lia.
  destruct (rfft_wsum buf k) as [_ ->]. rewrite L.
  rewrite (proj2 (buffer_wsum (fun z => sin (angle n k z)) xw n buf H2 Hn
            (fun z => eq_trans (f_equal sin (angle_period n k z Pn)) (sin_shift _ _)) E)).
  set (g := fun z => sin (angle n k z)). set (o := (- (zlen xw / 2))%Z).
  assert (S : wsum g o xw = - wsum g o xw).
  { rewrite <- Hs at 1. rewrite wsum_rev, <- wsum_opp. apply wsum_shift.
    intros j _. unfold g. rewrite <- sin_neg. f_equal.
    replace (2 * o + Z.of_nat (List.length xw) - 1 - (o + j))%Z with (- (o + j))%Z.
    - unfold angle. rewrite opp_IZR. field. apply not_0_IZR. lia.
    - assert (zlen xw = 2 * (zlen xw / 2) + 1)%Z.
      { pose proof (Zmod_odd (zlen xw)). rewrite Ho in H. pose proof (Z.div_mod (zlen xw) 2). lia. }
      unfold o. unfold zlen in *. lia. }
  lra.
Qed.

Lemma window_normalised : forall w, rsum w <> 0 -> rsum (normalized_window w) = 1.
Proof.
  intros w H. unfold normalized_window.
  rewrite (rsum_map_ext _ _ (fun v => / rsum w * v)) by (intros; unfold Rdiv; ring).
  rewrite rsum_scale. now apply Rinv_l.
Qed.

Lemma bin_db_floor : forall re im, 20 * (ln float_eps / ln 10) <= bin_db re im.
Proof.
  intros. unfold bin_db. apply Rmult_le_compat_l; [lra|].
  assert (0 < ln 10) by (rewrite <- ln_1; apply ln_increasing; lra).
  unfold Rdiv. apply Rmult_le_compat_r; [left; now apply Rinv_0_lt_compat|].
  assert (0 < float_eps) by (unfold float_eps; apply Rinv_0_lt_compat, pow_lt; lra).
  destruct (Rle_lt_or_eq_dec _ _ (Rmax_r (bin_abs re im) float_eps)) as [L|E].
  - left. now apply ln_increasing.
  - rewrite <- E. lra.
Qed.

Lemma windowed_length : forall x w, zlen x = zlen w -> zlen (windowed x w) = zlen w.
Proof.
  intros. unfold windowed, zlen in *. rewrite map_length, combine_length. lia.
Qed.

(** A constant unit frame reads 0 dB in bin 0. *)
Lemma dc_level : forall w n c, (2 <= zlen w)%Z -> (zlen w <= n)%Z -> rsum w <> 0 ->
  exists buf,
    dft_buffer 0 (windowed (repeat c (List.length w)) (normalized_window w)) n = Ok buf /\
    rfft_re buf 0 = c /\ rfft_im buf 0 = 0.
Proof.
  intros w n c H2 Hn Hw.
  set (xw := windowed (repeat c (List.length w)) (normalized_window w)).
  assert (Exw : xw = map (fun v => c * v) (normalized_window w)).
  { unfold xw, windowed, normalized_window. clear. generalize (rsum w). intro s.
    induction w; simpl; auto. now rewrite IHw. }
  assert (L : zlen xw = zlen w).
  { rewrite Exw. unfold zlen, normalized_window. now rewrite !map_length. }
  destruct (centred_bins xw n 0) as (buf & E & R & I); try lia.
  exists buf. split; [exact E|]. split.
  - rewrite R. rewrite (rsum_map_ext _ _ (fun i => nth i xw 0)).
    + assert (forall l, rsum (map (fun i => nth i l 0) (seq 0 (List.length l))) = rsum l) as ->.
      { induction l; simpl; auto. rewrite <- seq_shift, map_map. simpl. now rewrite IHl. }
      rewrite Exw, rsum_scale, window_normalised by auto. ring.
    + intros. replace (2 * PI * 0 * _ / _) with 0 by (unfold Rdiv; ring).
      rewrite cos_0. ring.
  - rewrite I. rewrite rsum_zero; [ring|]. intros.
    replace (2 * PI * 0 * _ / _) with 0 by (unfold Rdiv; ring). rewrite sin_0. ring.
Qed.
