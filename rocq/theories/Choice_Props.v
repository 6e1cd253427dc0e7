(** C113: deciding on beats in double precision. *)
From Coq Require Import String ZArith Reals Lra Lia Bool List.
From Flocq Require Import Core IEEE754.BinarySingleNaN.
From Flocq Require Import Sterbenz.
Import ListNotations.
From Verif Require Import Base ListLemmas RLists Double_Model Double_Float Peak_Model Peak_Round Peak_Accuracy
  Peak_Proofs Clock_Model Clock_Proofs Synth_Proofs Level_Model Level_Proofs Choice_Model.
Local Open Scope R_scope.

(** The threshold, exactly. *)
Lemma th_val : forall th : f64_num, finite th -> val th = 0 \/ bpow radix2 (-900) <= Rabs (val th) -> Rabs (val th) <= bpow radix2 900 ->
  finite (h_th th) /\ val (h_th th) = val th * bpow radix2 (-52).
Proof.
  intros th F N B. destruct (f64_of_val 1 (-52) ltac:(lia) ltac:(lia)) as [Fe Ve]. rewrite Rmult_1_l in Ve. pose proof (bpow_gt_0 radix2 (-52)) as P52.
  destruct (fmul_val th f_eps F Fe) as [Ft Vt].
  { unfold f_eps. rewrite Ve, Rabs_mult, (Rabs_pos_eq (bpow radix2 (-52))) by lra. apply Rle_trans with (bpow radix2 900 * bpow radix2 (-52)).
    - apply Rmult_le_compat_r; lra.
    - rewrite <- bpow_plus. apply bpow_le. lia. }
  split; [exact Ft|]. unfold h_th. rewrite Vt. unfold f_eps. rewrite Ve. destruct N as [Z|N]; [rewrite Z, Rmult_0_l; apply rnd_0|].
  apply rnd_id. apply generic_format_FLT. pose proof (val_fmt th) as FM. apply FLT_format_generic in FM; [|reflexivity].
  destruct FM as [g E1 E2 E3]. apply (FLT_spec radix2 (-1074) 53 _ (Float radix2 (Fnum g) (Fexp g - 52))).
  - rewrite E1. unfold F2R. cbn [Fnum Fexp]. rewrite Rmult_assoc, <- bpow_plus. f_equal.
  - exact E2.
  - cbn [Fexp]. destruct (Z_lt_le_dec (Fexp g) (-1022)) as [L|L]; [exfalso|lia]. apply Rle_not_lt in N. apply N.
    rewrite E1. unfold F2R. rewrite Rabs_mult, (Rabs_pos_eq (bpow _ _)) by apply bpow_ge_0. rewrite <- abs_IZR.
    apply Rlt_le_trans with (bpow radix2 53 * bpow radix2 (-1022)).
    + apply Rmult_le_0_lt_compat; [apply IZR_le; lia|apply bpow_ge_0| |apply bpow_lt; lia]. change (bpow radix2 53) with (IZR (2 ^ 53)). apply IZR_lt. exact E2.
    + rewrite <- bpow_plus. apply bpow_le. lia.
Qed.
Lemma gt_abs : forall v t : f64_num, finite v -> finite t -> fgt (f_abs v) t = true <-> val t < Rabs (val v).
Proof. intros v t Fv Ft. destruct (f_abs_val v Fv) as [Fa Va]. rewrite fgt_iff by assumption. rewrite Va. reflexivity. Qed.
Lemma decide_parts : forall th a0 a1 f0 f1, h_decide th a0 a1 f0 f1 = true <->
  fgt (f_abs (fsub f0 f1)) (h_th th) = true /\ fgt (f_abs a0) (h_th th) = true /\ fgt (f_abs a1) (h_th th) = true.
Proof.
  intros. unfold h_decide, h_not_zero. cbn [map forallb]. rewrite !andb_true_iff. tauto.
Qed.

(** With finite numbers, and frequencies at least twice the threshold [th * eps], the decision is what it would be in real numbers: the amplitudes and
    the difference of the frequencies are larger than the threshold. *)
Theorem c113_exact : forall th a0 a1 f0 f1 : f64_num, finite th -> finite a0 -> finite a1 -> finite f0 -> finite f1 ->
  val th = 0 \/ bpow radix2 (-900) <= val th <= bpow radix2 900 ->
  2 * (val th * bpow radix2 (-52)) <= val f0 <= bpow radix2 1022 -> 2 * (val th * bpow radix2 (-52)) <= val f1 <= bpow radix2 1022 ->
  (h_decide th a0 a1 f0 f1 = true <->
   val th * bpow radix2 (-52) < Rabs (val f0 - val f1) /\ val th * bpow radix2 (-52) < Rabs (val a0) /\ val th * bpow radix2 (-52) < Rabs (val a1)).
Proof.
  intros th a0 a1 f0 f1 Ft Fa0 Fa1 Ff0 Ff1 HT H0 H1. pose proof (bpow_gt_0 radix2 (-52)) as P52. pose proof (bpow_gt_0 radix2 (-900)) as P9.
  destruct (th_val th Ft) as [FT VT].
  { destruct HT as [HT|HT]; [now left|right; rewrite Rabs_pos_eq; lra]. }
  { destruct HT as [->|HT]; [rewrite Rabs_R0; apply bpow_ge_0|rewrite Rabs_pos_eq; lra]. }
  assert (T0 : 0 <= val th) by (destruct HT as [->|HT]; lra).
  set (t := val th * bpow radix2 (-52)) in *. assert (Tp : 0 <= t) by (apply Rmult_le_pos; lra).
  assert (BD : Rabs (val f0 - val f1) <= bpow radix2 1022) by (apply Rabs_le; lra).
  destruct (fsub_val f0 f1 Ff0 Ff1) as [Fd Vd]; [eapply Rle_trans; [exact BD|apply bpow_le; lia]|].
  rewrite decide_parts, !gt_abs by assumption. rewrite VT, Vd.
  assert (E : t < Rabs (rnd (val f0 - val f1)) <-> t < Rabs (val f0 - val f1)); [|tauto].
  assert (FT' : fmt t) by (rewrite <- VT; apply val_fmt).
  split; intros L.
  - destruct (Rle_lt_dec (Rabs (val f0 - val f1)) t) as [G|G]; [|exact G]. exfalso. pose proof (rnd_abs_le _ t FT' G). lra.
  - destruct (Rle_lt_dec (Rabs (val f0 - val f1)) (2 * t)) as [G|G].
    + rewrite rnd_id; [exact L|]. apply sterbenz; [exact valid64|exact mono64|apply val_fmt|apply val_fmt|]. apply Rabs_le_inv in G. split; lra.
    + destruct (Req_dec t 0) as [Z|NZ].
      * rewrite Z in *. destruct (rnd_minus _ _ (val_fmt f0) (val_fmt f1)) as (e & He & ->). pose proof uro_small. apply Rabs_le_inv in He.
        rewrite Rabs_mult. apply Rmult_lt_0_compat; [exact L|]. apply Rabs_pos_lt. lra.
      * apply Rlt_le_trans with (2 * t); [lra|]. rewrite rnd_abs. apply rnd_ge_fmt; [now apply fmt_double|lra].
Qed.

(** Doubles from [2^k] on are multiples of [2^(k-52)]. *)
Lemma multiple : forall x k, fmt x -> (-1000 <= k)%Z -> bpow radix2 k <= x -> exists m, x = IZR m * bpow radix2 (k - 52).
Proof.
  intros x k F K H. pose proof (bpow_gt_0 radix2 k) as P. unfold generic_format in F. set (e := cexp radix2 fexp64 x) in F.
  assert (E : (k - 52 <= e)%Z).
  { assert (G : (k + 1 <= mag radix2 x)%Z) by (apply mag_ge_bpow; rewrite Rabs_pos_eq by lra; replace (k + 1 - 1)%Z with k by lia; exact H).
    unfold e, cexp, FLT_exp. lia. }
  exists (Ztrunc (scaled_mantissa radix2 fexp64 x) * 2 ^ (e - (k - 52)))%Z. rewrite F at 1. unfold F2R. cbn [Fnum Fexp]. rewrite mult_IZR.
  change 2%Z with (radix_val radix2) at 1. rewrite IZR_Zpower by lia. rewrite Rmult_assoc, <- bpow_plus. do 2 f_equal. unfold e, cexp. lia.
Qed.
(** If frequencies are at least [2^k] and [th] is less than [2^k], they are "almost the same" only if they are the same. *)
Theorem c113_same : forall (th a0 a1 f0 f1 : f64_num) k, finite th -> finite a0 -> finite a1 -> finite f0 -> finite f1 ->
  (-800 <= k <= 800)%Z -> val th = 0 \/ bpow radix2 (-900) <= val th -> val th < bpow radix2 k ->
  bpow radix2 k <= val f0 <= bpow radix2 1022 -> bpow radix2 k <= val f1 <= bpow radix2 1022 ->
  (h_decide th a0 a1 f0 f1 = true <->
   val f0 <> val f1 /\ val th * bpow radix2 (-52) < Rabs (val a0) /\ val th * bpow radix2 (-52) < Rabs (val a1)).
Proof.
  intros th a0 a1 f0 f1 k Ft Fa0 Fa1 Ff0 Ff1 K HT LT H0 H1. pose proof (bpow_gt_0 radix2 (-52)) as P52. pose proof (bpow_gt_0 radix2 (-900)) as P9.
  assert (T0 : 0 <= val th) by (destruct HT as [->|HT]; lra).
  assert (TK : val th * bpow radix2 (-52) < bpow radix2 (k - 52)) by (unfold Zminus; rewrite bpow_plus; apply Rmult_lt_compat_r; assumption).
  assert (K2 : 2 * bpow radix2 (k - 52) <= bpow radix2 k).
  { change 2 with (bpow radix2 1). rewrite <- bpow_plus. apply bpow_le. lia. }
  rewrite (c113_exact th a0 a1 f0 f1); auto; try lra.
  2: { destruct HT as [HT|HT]; [now left|right]. split; [exact HT|]. apply Rle_trans with (bpow radix2 k); [lra|apply bpow_le; lia]. }
  assert (E : val th * bpow radix2 (-52) < Rabs (val f0 - val f1) <-> val f0 <> val f1); [|tauto]. split.
  - intros L E. rewrite E, Rminus_diag_eq, Rabs_R0 in L by reflexivity. assert (0 <= val th * bpow radix2 (-52)) by (apply Rmult_le_pos; lra). lra.
  - intros N. eapply Rlt_le_trans; [exact TK|].
    destruct (multiple (val f0) k (val_fmt f0) ltac:(lia) ltac:(lra)) as [m0 E0]. destruct (multiple (val f1) k (val_fmt f1) ltac:(lia) ltac:(lra)) as [m1 E1].
    rewrite E0, E1. rewrite <- Rmult_minus_distr_r, <- minus_IZR, Rabs_mult, (Rabs_pos_eq (bpow _ _)) by apply bpow_ge_0. rewrite <- abs_IZR.
    rewrite <- (Rmult_1_l (bpow radix2 (k - 52))) at 1. apply Rmult_le_compat_r; [apply bpow_ge_0|]. apply IZR_le.
    assert (m0 <> m1) by (intros ->; apply N; congruence). lia.
Qed.
(** So with the default, [th = 1], frequencies from 2 Hz on are compared exactly. *)
Theorem c113_default : forall a0 a1 f0 f1 : f64_num, finite a0 -> finite a1 -> finite f0 -> finite f1 ->
  2 <= val f0 <= bpow radix2 1022 -> 2 <= val f1 <= bpow radix2 1022 ->
  (h_decide (f64_of 1 0) a0 a1 f0 f1 = true <-> val f0 <> val f1 /\ bpow radix2 (-52) < Rabs (val a0) /\ bpow radix2 (-52) < Rabs (val a1)).
Proof.
  intros a0 a1 f0 f1 Fa0 Fa1 Ff0 Ff1 H0 H1. destruct (int_val 1 ltac:(lia)) as [F1 V1].
  rewrite (c113_same (f64_of 1 0) a0 a1 f0 f1 1); auto; rewrite ?V1.
  - rewrite Rmult_1_l. reflexivity.
  - lia.
  - right. change 1 with (bpow radix2 0). apply bpow_le. lia.
  - change (bpow radix2 1) with 2. lra.
Qed.

(** Exchanging the partials does not change the decision, whatever the numbers are (NaN and infinities too). *)
Lemma sub_abs : forall x y : f64_num, f_abs (fsub x y) = f_abs (fsub y x).
Proof.
  intros x y.
  assert (Z : forall v w : f64_num, finite v -> finite w -> Rabs (val v) = Rabs (val w) -> f_abs v = f_abs w).
  { intros v w Fv Fw E. destruct (f_abs_val v Fv) as [F1 V1]. destruct (f_abs_val w Fw) as [F2 V2]. destruct (Req_dec (val w) 0) as [Z|NZ].
    - destruct (zero_of w Fw Z) as [c ->]. rewrite Z, Rabs_R0 in E. destruct (zero_of v Fv) as [c' ->]; [|reflexivity].
      destruct (Req_dec (val v) 0) as [|N]; [assumption|]. apply Rabs_no_R0 in N. congruence.
    - apply val_inj; auto; [congruence|]. rewrite V2. now apply Rabs_no_R0. }
  destruct (is_finite x) eqn:Fx; [destruct (is_finite y) eqn:Fy|].
  - pose proof (Bminus_correct 53 1024 prec_pos prec_emax mode_NE x y Fx Fy) as H.
    pose proof (Bminus_correct 53 1024 prec_pos prec_emax mode_NE y x Fy Fx) as G.
    assert (E : Rabs (round radix2 (SpecFloat.fexp 53 1024) (round_mode mode_NE) (B2R x - B2R y)) = Rabs (round radix2 (SpecFloat.fexp 53 1024) (round_mode mode_NE) (B2R y - B2R x))).
    { change (Rabs (rnd (val x - val y)) = Rabs (rnd (val y - val x))). replace (val y - val x) with (- (val x - val y)) by ring. rewrite rnd_opp, Rabs_Ropp. reflexivity. }
    rewrite <- E in G. destruct (Rlt_bool _ _).
    + destruct H as (H1 & H2 & _). destruct G as (G1 & G2 & _). apply Z; [exact H2|exact G2|]. unfold fsub.
      etransitivity; [apply (f_equal Rabs), H1|]. rewrite E. symmetry. apply (f_equal Rabs), G1.
    + destruct H as (H1 & _). destruct G as (G1 & _).
      assert (I : forall (v : f64_num) s, B2SF v = SpecFloat.S754_infinity s -> f_abs v = B754_infinity false) by (intros [c|c| |c m e B] s HH; try discriminate HH; reflexivity).
      unfold fsub. rewrite (I _ _ H1), (I _ _ G1). reflexivity.
  - destruct x as [[|]|[|]| |[|] m e B]; destruct y as [[|]|[|]| |[|] m' e' B']; try discriminate Fx; try discriminate Fy; reflexivity.
  - destruct x as [[|]|[|]| |[|] m e B]; destruct y as [[|]|[|]| |[|] m' e' B']; try discriminate Fx; reflexivity.
Qed.
Theorem c113_symmetric : forall th a0 a1 f0 f1, h_decide th a1 a0 f1 f0 = h_decide th a0 a1 f0 f1.
Proof.
  intros. unfold h_decide. cbn [map forallb]. rewrite (sub_abs f1 f0). rewrite !andb_true_r. f_equal. apply andb_comm.
Qed.
(** A NaN among the parameters, or as a threshold, is never a beat; nor are infinite frequencies of the same sign. *)
Theorem c113_nan : forall th a0 a1 f0 f1 s, In B754_nan [th; a0; a1; f0; f1] \/ (f0 = B754_infinity s /\ f1 = B754_infinity s) -> h_decide th a0 a1 f0 f1 = false.
Proof.
  assert (GN : forall t, fgt B754_nan t = false) by (intros [c|c| |c m e B]; reflexivity).
  assert (NG : forall v, fgt v B754_nan = false) by (intros [c|c| |c m e B]; reflexivity).
  assert (SL : forall v, fsub B754_nan v = B754_nan) by (intros [c|c| |c m e B]; reflexivity).
  assert (SR : forall v, fsub v B754_nan = B754_nan) by (intros [c|c| |c m e B]; reflexivity).
  intros th a0 a1 f0 f1 s H. apply not_true_is_false. rewrite decide_parts. intros (D1 & D2 & D3).
  destruct H as [[->|[->|[->|[->|[->|[]]]]]]|[-> ->]].
  - change (h_th B754_nan) with (@B754_nan 53 1024) in D1. rewrite NG in D1. discriminate D1.
  - change (f_abs B754_nan) with (@B754_nan 53 1024) in D2. rewrite GN in D2. discriminate D2.
  - change (f_abs B754_nan) with (@B754_nan 53 1024) in D3. rewrite GN in D3. discriminate D3.
  - rewrite SL in D1. change (f_abs B754_nan) with (@B754_nan 53 1024) in D1. rewrite GN in D1. discriminate D1.
  - rewrite SR in D1. change (f_abs B754_nan) with (@B754_nan 53 1024) in D1. rewrite GN in D1. discriminate D1.
  - assert (E : f_abs (fsub (B754_infinity s) (B754_infinity s)) = B754_nan) by (destruct s; reflexivity). rewrite E, GN in D1. discriminate D1.
Qed.

(** 440 Hz and the next double, whose beats take half a million years, are a beat although "almost the same"; 1.5 Hz and the next double are not. *)
Theorem c113_almost_refuted : exists f0 f1 : f64_num, finite f0 /\ finite f1 /\ 440 <= val f0 /\ 0 < val f1 - val f0 <= / 10000000000000 /\
  h_decide (f64_of 1 0) (f64_of 1 0) (f64_of 1 0) f0 f1 = true.
Proof.
  destruct (int_val 440 ltac:(lia)) as [F0 V0]. destruct (f64_of_val (440 * 2 ^ 44 + 1) (-44) ltac:(lia) ltac:(lia)) as [F1 V1].
  exists (f64_of 440 0), (f64_of (440 * 2 ^ 44 + 1) (-44)). split; [exact F0|]. split; [exact F1|]. split; [rewrite V0; lra|]. split.
  - rewrite V0, V1, plus_IZR, mult_IZR. change (IZR (2 ^ 44)) with (bpow radix2 44). rewrite Rmult_plus_distr_r, Rmult_assoc, <- bpow_plus, Rmult_1_l.
    change (bpow radix2 (44 + -44)) with 1. replace (440 * 1 + bpow radix2 (-44) - 440) with (bpow radix2 (-44)) by ring. split; [apply bpow_gt_0|].
    change (bpow radix2 (-44)) with (/ IZR (2 ^ 44)). apply Rinv_le; [lra|]. apply IZR_le. lia.
  - vm_compute. reflexivity.
Qed.
Example ex_decide : h_decide (f64_of 1 0) (f64_of 1 (-1)) (f64_of (-1) (-1)) (f64_of 440 0) (f64_of 441 0) = true /\
  h_decide (f64_of 1 0) (f64_of 1 (-1)) (f64_of 1 (-52)) (f64_of 440 0) (f64_of 441 0) = false /\
  h_decide (f64_of 1 0) (f64_of 1 0) (f64_of 1 0) (f64_of 3 (-1)) (f64_of (3 * 2 ^ 51 + 1) (-52)) = false /\
  h_decide (f64_of 31 0) (f64_of 1 0) (f64_of 1 0) (f64_of 32 0) (f64_of (2 ^ 52 + 1) (-47)) = true.
Proof. repeat split; vm_compute; reflexivity. Qed.
Example ex_default : finite (f64_of 440 0) /\ finite (f64_of 441 0) /\ 2 <= val (f64_of 440 0) <= bpow radix2 1022 /\ val (f64_of 440 0) <> val (f64_of 441 0) /\
  val (f64_of 31 0) < bpow radix2 5 <= val (f64_of 440 0).
Proof.
  destruct (int_val 440 ltac:(lia)) as [F0 V0]. destruct (int_val 441 ltac:(lia)) as [F1 V1]. destruct (int_val 31 ltac:(lia)) as [F2 V2]. rewrite V0, V1, V2.
  split; [exact F0|]. split; [exact F1|]. assert (440 <= bpow radix2 1022) by (apply Rle_trans with (bpow radix2 9); [cbn; lra|apply bpow_le; lia]).
  split; [lra|]. split; [intro E; apply eq_IZR in E; discriminate E|]. cbn. lra.
Qed.

Print Assumptions c113_exact. Print Assumptions c113_same. Print Assumptions c113_default. Print Assumptions c113_symmetric. Print Assumptions c113_nan.
Print Assumptions c113_almost_refuted.
