(** C109: what the beat model computes in double precision. *)
From Coq Require Import String ZArith Reals Lra Lia Bool List.
From Flocq Require Import Core IEEE754.BinarySingleNaN.
Import ListNotations.
From Verif Require Import Base ListLemmas Double_Model Double_Float Peak_Model Peak_Round Peak_Accuracy
  Peak_Proofs Clock_Proofs Ripple_Model Ripple_Proofs Ripple_Audio Ripple_Pi.
Local Open Scope R_scope.

(** numpy's cosine is a cosine (it is within [2^-52] of it). *)
Definition accurate (T : trig) : Prop :=
  forall x : f64_num, finite x -> Rabs (val (t_cos T x) - cos (val x)) <= bpow radix2 (-50).

(** A number that is neither huge nor tiny. *)
Definition moderate (x : R) : Prop := bpow radix2 (-200) <= x <= bpow radix2 200.

(** ** The phase *)

(** C109. The phase whose cosine is taken is [2 pi (f0 - f1) / 2 t + (p0 - p1) / 2],
    to within [2^-46] of the sizes of its terms. *)
Theorem c109_phase : forall q F U P, moderate F -> moderate U -> moderate P ->
  finite (r_f0 q) -> finite (r_f1 q) -> finite (r_p0 q) -> finite (r_p1 q) -> finite (r_t q) ->
  Rabs (val (r_f0 q)) <= F -> Rabs (val (r_f1 q)) <= F -> Rabs (val (r_t q)) <= U ->
  Rabs (val (r_p0 q)) <= P -> Rabs (val (r_p1 q)) <= P ->
  finite (r_phase q) /\
  Rabs (val (r_phase q)
        - (2 * PI * ((val (r_f0 q) - val (r_f1 q)) / 2) * val (r_t q) + (val (r_p0 q) - val (r_p1 q)) / 2))
    <= bpow radix2 (-46) * (F * U + P).
Proof.
  intros q F U P RF RU RP Ff0 Ff1 Fp0 Fp1 Ft B0 B1 Bt BP0 BP1.
  pose proof (rng_pos _ _ _ RF) as PF. pose proof (rng_pos _ _ _ RU) as PU. pose proof (rng_pos _ _ _ RP) as PP.
  pose proof (rng_add _ _ _ _ RP RP) as RPP. pose proof (rng_add _ _ _ _ RF RF) as RFF.
  pose proof (rng_mul _ _ _ _ _ _ rng_7 (rng_half _ _ _ RFF)) as R7.
  assert (W : ap (r_w_hat q) (val two_pi * ((val (r_f0 q) - val (r_f1 q)) / 2)) (7 * ((F + F) / 2)) 7).
  { apply what_ap; auto; (split; [assumption|]); (eapply Rle_trans; [eassumption|apply RF]). }
  assert (H : ap (f_semidiff (r_p0 q) (r_p1 q)) ((val (r_p0 q) - val (r_p1 q)) / 2) ((P + P) / 2) 4).
  { replace 4 with (2 + 2) by ring. apply ap_half; [|lra|].
    - replace 2 with (0 + 2) by ring. apply ap_sub; try lra.
      + apply ap_const; auto.
      + apply ap_const; auto.
      + eapply rng_scale; [exact RPP|lia|lia].
    - eapply rng_scale; [apply rng_half, RPP|lia|lia]. }
  assert (M : ap (fmul (r_w_hat q) (r_t q)) (val two_pi * ((val (r_f0 q) - val (r_f1 q)) / 2) * val (r_t q))
                (7 * ((F + F) / 2) * U) 10).
  { replace 10 with (7 + 0 + 3) by ring. apply ap_mul; try lra; [exact W|apply ap_const; auto|].
    eapply rng_scale; [apply (rng_mul _ _ _ _ _ _ R7 RU)|lia|lia]. }
  pose proof (Rmult_lt_0_compat _ _ PF PU) as PFU.
  assert (E1 : 7 * ((F + F) / 2) * U = 7 * (F * U)) by field.
  assert (E2 : (P + P) / 2 = P) by field. rewrite E1 in M. rewrite E2 in H.
  assert (S := ap_add _ _ _ _ _ _ 10 M (ap_weak _ _ _ _ 10 P H ltac:(lra) (conj (Rlt_le _ _ PP) (Rle_refl _)))
                 ltac:(lra) ltac:(lra) ltac:(lra)).
  destruct S as (F1 & _ & D).
  { rewrite <- E1. split.
    - destruct RP as [RP _]. apply Rle_trans with (bpow radix2 (-200)); [apply bpow_le; lia|].
      rewrite E1. apply Rle_trans with P; [exact RP|lra].
    - rewrite E1. apply Rle_trans with (bpow radix2 403 + bpow radix2 200).
      + apply Rplus_le_compat; [|apply RP]. change 403%Z with (3 + (200 + 200))%Z. rewrite !bpow_plus.
        change (bpow radix2 3) with 8. apply Rmult_le_compat; [lra|lra|lra|].
        destruct RF as [_ RF]. destruct RU as [_ RU]. apply Rmult_le_compat; lra.
      + apply Rle_trans with (bpow radix2 (403 + 1)); [|apply bpow_le; lia]. rewrite bpow_S.
        assert (bpow radix2 200 <= bpow radix2 403) by (apply bpow_le; lia). lra. }
  split; [exact F1|].
  change (fadd (fmul (r_w_hat q) (r_t q)) (f_semidiff (r_p0 q) (r_p1 q))) with (r_phase q) in D.
  set (f0 := val (r_f0 q)) in *. set (f1 := val (r_f1 q)) in *. set (t := val (r_t q)) in *.
  set (ph := (val (r_p0 q) - val (r_p1 q)) / 2) in *.
  replace (val (r_phase q) - (2 * PI * ((f0 - f1) / 2) * t + ph))
    with ((val (r_phase q) - (val two_pi * ((f0 - f1) / 2) * t + ph)) + (val two_pi - 2 * PI) * ((f0 - f1) / 2 * t)) by ring.
  eapply Rle_trans; [apply Rabs_triang|]. rewrite (Rabs_mult (val two_pi - 2 * PI)).
  pose proof two_pi_pi as TP. pose proof uro_pos as UP.
  assert (Q : Rabs ((f0 - f1) / 2 * t) <= F * U).
  { rewrite Rabs_mult. apply Rmult_le_compat; try apply Rabs_pos; [|exact Bt].
    apply Rabs_le_inv in B0. apply Rabs_le_inv in B1. apply Rabs_le. lra. }
  assert (X : Rabs (val two_pi - 2 * PI) * Rabs ((f0 - f1) / 2 * t) <= bpow radix2 (-50) * (F * U)).
  { apply Rmult_le_compat; auto using Rabs_pos. }
  assert (E50 : bpow radix2 (-50) = 8 * uro).
  { rewrite uro_val. change 8 with (bpow radix2 3). rewrite <- bpow_plus. reflexivity. }
  assert (E46 : bpow radix2 (-46) = 128 * uro).
  { rewrite uro_val. change 128 with (bpow radix2 7). rewrite <- bpow_plus. reflexivity. }
  rewrite E50 in X. rewrite E46.
  assert (0 < uro * (F * U)) by (apply Rmult_lt_0_compat; assumption).
  assert (0 < uro * P) by (apply Rmult_lt_0_compat; assumption).
  replace (128 * uro * (F * U + P)) with (128 * (uro * (F * U)) + 128 * (uro * P)) by ring.
  replace ((10 + 2) * uro * (7 * (F * U) + P)) with (84 * (uro * (F * U)) + 12 * (uro * P)) in D by ring.
  replace (8 * uro * (F * U)) with (8 * (uro * (F * U))) in X by ring. lra.
Qed.
Print Assumptions c109_phase.

(** ** The envelope *)

(** C109. The envelope is never negative and never NaN, whatever the amplitudes
    (with or without sign) up to [2^500]. *)
Theorem c109_envelope_real : forall T q, good_trig T -> bd (r_a0 q) 500 -> bd (r_a1 q) 500 -> finite (r_phase q) ->
  finite (r_am T q) /\ 0 <= val (r_am T q).
Proof.
  intros T q G B0 B1 Fp. destruct (gt_cos T G _ Fp) as (Fc & _ & Bc).
  destruct (alpha2_nonneg T q B0 B1 Fc Bc) as [Fa Ba]. destruct (am_val T q Fa Ba) as (F & e & Be & V).
  split; [exact F|]. rewrite V. pose proof (sqrt_pos (val (r_alpha2 T q))). pose proof uro_tiny.
  apply Rabs_le_inv in Be. apply Rmult_le_pos; lra.
Qed.
Print Assumptions c109_envelope_real.

Lemma sin_abs : forall z, Rabs (sin z) <= Rabs z.
Proof.
  assert (H : forall z, 0 <= z -> Rabs (sin z) <= z).
  { intros z H. destruct (Rle_lt_dec z 1) as [L|L].
    - destruct (Req_dec z 0) as [->|N]; [rewrite sin_0, Rabs_R0; lra|].
      assert (0 < z) by lra. pose proof (sin_lt_x z H0). pose proof PI_RGT_0. pose proof PI2_1.
      rewrite Rabs_pos_eq; [lra|]. apply sin_ge_0; lra.
    - pose proof (SIN_bound z). apply Rabs_le. lra. }
  intros z. destruct (Rle_lt_dec 0 z) as [L|L].
  - rewrite (Rabs_pos_eq z L). now apply H.
  - rewrite <- (Rabs_Ropp (sin z)), <- sin_neg, (Rabs_left z) by exact L. apply H. lra.
Qed.
Lemma cos_lip : forall x y, Rabs (cos x - cos y) <= Rabs (x - y).
Proof.
  intros x y. rewrite form2. rewrite !Rabs_mult. rewrite (Rabs_left (-2)) by lra.
  pose proof (sin_abs ((x - y) / 2)) as H. pose proof (SIN_bound ((x + y) / 2)) as B.
  assert (Rabs (sin ((x + y) / 2)) <= 1) by (apply Rabs_le; lra).
  assert (E : Rabs ((x - y) / 2) = Rabs (x - y) / 2).
  { unfold Rdiv. rewrite Rabs_mult, (Rabs_pos_eq (/ 2)) by lra. reflexivity. }
  rewrite E in H. pose proof (Rabs_pos (sin ((x - y) / 2))). pose proof (Rabs_pos (sin ((x + y) / 2))).
  apply Rle_trans with (2 * (Rabs (x - y) / 2) * 1); [|lra]. apply Rmult_le_compat; lra.
Qed.

(** C109. The envelope is the length of the sum of two phasors: its square is
    [a0^2 + a1^2 + 2 a0 a1 cos(2 pi (f0 - f1) t + (p0 - p1))], with errors of
    [2^-46] of the square of the largest value, times the size of the phase. *)
Theorem c109_envelope : forall T q A F U P, good_trig T -> accurate T ->
  moderate A -> moderate F -> moderate U -> moderate P ->
  finite (r_a0 q) -> finite (r_a1 q) -> Rabs (val (r_a0 q)) + Rabs (val (r_a1 q)) = A ->
  finite (r_f0 q) -> finite (r_f1 q) -> finite (r_p0 q) -> finite (r_p1 q) -> finite (r_t q) ->
  Rabs (val (r_f0 q)) <= F -> Rabs (val (r_f1 q)) <= F -> Rabs (val (r_t q)) <= U ->
  Rabs (val (r_p0 q)) <= P -> Rabs (val (r_p1 q)) <= P ->
  let a0 := val (r_a0 q) in let a1 := val (r_a1 q) in
  finite (r_am T q) /\
  Rabs (val (r_am T q) * val (r_am T q)
        - (a0 * a0 + a1 * a1 + 2 * a0 * a1 *
             cos (2 * PI * (val (r_f0 q) - val (r_f1 q)) * val (r_t q) + (val (r_p0 q) - val (r_p1 q)))))
    <= bpow radix2 (-46) * (1 + F * U + P) * (A * A).
Proof.
  intros T q A F U P G AC RA RF RU RP Fa0 Fa1 HA Ff0 Ff1 Fp0 Fp1 Ft B0 B1 Bt BP0 BP1 a0 a1.
  destruct (c109_phase q F U P RF RU RP Ff0 Ff1 Fp0 Fp1 Ft B0 B1 Bt BP0 BP1) as [Fp Dp].
  destruct (gt_cos T G _ Fp) as (Fc & _ & Bc). pose proof (AC _ Fp) as Ac.
  destruct (alpha2_ap T q A RA Fa0 Fa1 HA Fc Bc) as (_ & _ & Dal).
  assert (BA : forall x : f64_num, finite x -> Rabs (val x) <= A -> bd x 500).
  { intros x Fx Hx. split; [exact Fx|]. eapply Rle_trans; [exact Hx|]. eapply Rle_trans; [apply RA|]. apply bpow_le. lia. }
  pose proof (Rabs_pos (val (r_a0 q))) as P0. pose proof (Rabs_pos (val (r_a1 q))) as P1.
  destruct (alpha2_nonneg T q (BA _ Fa0 ltac:(lra)) (BA _ Fa1 ltac:(lra)) Fc Bc) as [Fa Ba].
  destruct (am_val T q Fa Ba) as (Fam & e & Be & V). split; [exact Fam|].
  pose proof (rng_pos _ _ _ RA) as PA. pose proof (rng_pos _ _ _ RF) as PF. pose proof (rng_pos _ _ _ RU) as PU.
  pose proof (rng_pos _ _ _ RP) as PP. pose proof (Rmult_lt_0_compat _ _ PF PU) as PFU.
  pose proof (Rmult_lt_0_compat _ _ PA PA) as PAA. pose proof uro_pos as UP. pose proof uro_tiny as UT.
  assert (E50 : bpow radix2 (-50) = 8 * uro).
  { rewrite uro_val. change 8 with (bpow radix2 3). rewrite <- bpow_plus. reflexivity. }
  assert (E46 : bpow radix2 (-46) = 128 * uro).
  { rewrite uro_val. change 128 with (bpow radix2 7). rewrite <- bpow_plus. reflexivity. }
  rewrite E46 in *. rewrite E50 in Ac.
  set (th := 2 * PI * ((val (r_f0 q) - val (r_f1 q)) / 2) * val (r_t q) + (val (r_p0 q) - val (r_p1 q)) / 2) in *.
  replace (2 * PI * (val (r_f0 q) - val (r_f1 q)) * val (r_t q) + (val (r_p0 q) - val (r_p1 q))) with (2 * th)
    by (unfold th; field).
  set (ph := val (r_phase q)) in *. set (c := val (t_cos T (r_phase q))) in *. set (al := val (r_alpha2 T q)) in *.
  (* the cosine *)
  assert (C1 : Rabs ((2 * (c * c) - 1) - cos (2 * ph)) <= 32 * uro).
  { rewrite cos_2a_cos. replace (2 * (c * c) - 1 - (2 * cos ph * cos ph - 1)) with (2 * (c + cos ph) * (c - cos ph)) by ring.
    rewrite Rabs_mult. replace (32 * uro) with (4 * (8 * uro)) by ring.
    apply Rmult_le_compat; try apply Rabs_pos; [|exact Ac].
    pose proof (COS_bound ph). apply Rabs_le_inv in Bc. apply Rabs_le. lra. }
  assert (C2 : Rabs (cos (2 * ph) - cos (2 * th)) <= 256 * uro * (F * U + P)).
  { eapply Rle_trans; [apply cos_lip|]. replace (2 * ph - 2 * th) with (2 * (ph - th)) by ring.
    rewrite Rabs_mult, (Rabs_pos_eq 2) by lra. lra. }
  set (D := (2 * (c * c) - 1) - cos (2 * th)).
  assert (BD : Rabs D <= 32 * uro + 256 * uro * (F * U + P)).
  { unfold D. replace (2 * (c * c) - 1 - cos (2 * th)) with ((2 * (c * c) - 1 - cos (2 * ph)) + (cos (2 * ph) - cos (2 * th))) by ring.
    eapply Rle_trans; [apply Rabs_triang|]. lra. }
  assert (E4 : 4 * exact_alpha2 T q = a0 * a0 + a1 * a1 + 2 * a0 * a1 * (2 * (c * c) - 1)).
  { unfold exact_alpha2. fold a0 a1 c. field. }
  assert (M : Rabs (2 * a0 * a1) <= A * A / 2).
  { rewrite !Rabs_mult, (Rabs_pos_eq 2) by lra. fold a0 a1 in HA. rewrite <- HA.
    pose proof (sq_ge0 (Rabs a0 - Rabs a1)). lra. }
  (* the root *)
  assert (SQ : val (r_am T q) * val (r_am T q) = 4 * al + 4 * al * (2 * e + e * e)).
  { rewrite V. pose proof (sqrt_sqrt al (proj1 Ba)) as S. 
    replace (2 * sqrt al * (1 + e) * (2 * sqrt al * (1 + e))) with (4 * (sqrt al * sqrt al) * (1 + e) * (1 + e)) by ring.
    rewrite S. ring. }
  rewrite SQ. set (X := exact_alpha2 T q) in *.
  replace (4 * al + 4 * al * (2 * e + e * e) - (a0 * a0 + a1 * a1 + 2 * a0 * a1 * cos (2 * th)))
    with (4 * (al - X) + 2 * a0 * a1 * D + 4 * al * (2 * e + e * e)) by (unfold D; lra).
  replace (21 * uro * (3 / 4 * (A * A))) with (63 / 4 * (uro * (A * A))) in Dal by field.
  set (v := uro * (A * A)) in *. assert (Pv : 0 < v) by (apply Rmult_lt_0_compat; assumption).
  assert (XB : X <= A * A).
  { assert (X4 : 4 * X <= 4 * (A * A)); [|lra]. rewrite E4.
    assert (Rabs (2 * (c * c) - 1) <= 1).
    { apply Rabs_le_inv in Bc. fold c in Bc. assert (0 <= c * c <= 1) by nra. apply Rabs_le. lra. }
    assert (Rabs (2 * a0 * a1 * (2 * (c * c) - 1)) <= A * A / 2 * 1).
    { rewrite Rabs_mult. apply Rmult_le_compat; try apply Rabs_pos; assumption. }
    apply Rabs_le_inv in H0.
    assert (a0 * a0 <= A * A /\ a1 * a1 <= A * A).
    { fold a0 a1 in HA. assert (Rabs a0 <= A) by (fold a0 a1 in P0, P1; lra). assert (Rabs a1 <= A) by (fold a0 a1 in P0, P1; lra).
      apply Rabs_le_inv in H1. apply Rabs_le_inv in H2. split; nra. }
    lra. }
  assert (T1 : Rabs (4 * (al - X)) <= 63 * v).
  { rewrite Rabs_mult, (Rabs_pos_eq 4) by lra. lra. }
  assert (T2 : Rabs (2 * a0 * a1 * D) <= 16 * v + 128 * (F * U + P) * v).
  { rewrite Rabs_mult. apply Rle_trans with (A * A / 2 * (32 * uro + 256 * uro * (F * U + P))).
    - apply Rmult_le_compat; try apply Rabs_pos; assumption.
    - unfold v. right. field. }
  assert (AL : 0 <= al <= 2 * (A * A)).
  { split; [apply Ba|]. apply Rabs_le_inv in Dal.
    assert (v <= / 1048576 * (A * A)) by (unfold v; apply Rmult_le_compat_r; lra). lra. }
  assert (T3 : Rabs (4 * al * (2 * e + e * e)) <= 24 * v).
  { rewrite Rabs_mult, (Rabs_pos_eq (4 * al)) by lra.
    replace (24 * v) with (8 * (A * A) * (3 * uro)) by (unfold v; ring).
    apply Rmult_le_compat; try apply Rabs_pos; try lra. apply Rabs_le_inv in Be. apply Rabs_le. nra. }
  replace (128 * uro * (1 + F * U + P) * (A * A)) with (128 * v + 128 * (F * U + P) * v) by (unfold v; ring).
  eapply Rle_trans; [apply Rabs_triang|]. eapply Rle_trans; [apply Rplus_le_compat_r, Rabs_triang|]. lra.
Qed.
Print Assumptions c109_envelope.

(** ** The frequency *)

(** C109. The instantaneous angular frequency is the one of the sum of the two
    partials: with [C = 2 c^2 - 1] and [S] for the cosine and sine of the
    difference of their phases, it is
    [(a0^2 w0 + a1^2 w1 + a0 a1 (w0 + w1) C + (a0' a1 - a1' a0) S) / env^2]
    where [env^2 = a0^2 + a1^2 + 2 a0 a1 C], [w = 2 pi f] and the prime is the
    derivative.  If [env^2] is at least [1 / K] of what it can be, the error is at
    most [2^-40 K^2] of the size of the frequencies and of the rates at which
    the amplitudes change. *)
Theorem c109_frequency : forall T q A F D K, good_trig T ->
  moderate A -> moderate F -> moderate D -> 1 <= K <= bpow radix2 40 ->
  finite (r_phase q) -> finite (fmul (r_phase q) (f64_of 2 0)) ->
  finite (r_a0 q) -> finite (r_a1 q) -> Rabs (val (r_a0 q)) + Rabs (val (r_a1 q)) = A ->
  finite (r_f0 q) -> finite (r_f1 q) -> Rabs (val (r_f0 q)) <= F -> Rabs (val (r_f1 q)) <= F ->
  finite (r_da0 q) -> finite (r_da1 q) -> Rabs (val (r_da0 q)) <= D -> Rabs (val (r_da1 q)) <= D ->
  let a0 := val (r_a0 q) in let a1 := val (r_a1 q) in
  let c := val (t_cos T (r_phase q)) in let S := val (t_sin T (fmul (r_phase q) (f64_of 2 0))) in
  let C := 2 * (c * c) - 1 in
  let w0 := 2 * PI * val (r_f0 q) in let w1 := 2 * PI * val (r_f1 q) in
  let env2 := a0 * a0 + a1 * a1 + 2 * a0 * a1 * C in
  A * A <= K * env2 ->
  finite (r_fm T q) /\
  Rabs (val (r_fm T q)
        - (a0 * a0 * w0 + a1 * a1 * w1 + a0 * a1 * (w0 + w1) * C
           + (val (r_da0 q) * a1 - val (r_da1 q) * a0) * S) / env2)
    <= bpow radix2 (-40) * (K * K) * (F + D / A).
Proof.
  intros T q A F D K G RA RF RD HK Fp Fg Fa0 Fa1 HA Ff0 Ff1 B0 B1 Fd0 Fd1 D0 D1 a0 a1 c S C w0 w1 env2 HE.
  destruct (gt_cos T G _ Fp) as (Fc & _ & Bc). destruct (gt_sin T G _ Fg) as [Fs Bs].
  assert (E4 : 4 * exact_alpha2 T q = env2).
  { unfold exact_alpha2, env2, C. fold a0 a1 c. field. }
  assert (BF : forall x : f64_num, finite x -> Rabs (val x) <= F -> bd x 200).
  { intros x Fx Hx. split; [exact Fx|]. eapply Rle_trans; [exact Hx|apply RF]. }
  destruct (fm_ap T q A F D RA RF RD Fa0 Fa1 HA Fc Bc (BF _ Ff0 B0) (BF _ Ff1 B1) B0 B1 Fd0 Fd1 D0 D1 Fs Bs K HK) as [Fm Dm].
  { rewrite E4. exact HE. }
  split; [exact Fm|].
  pose proof (rng_pos _ _ _ RA) as PA. pose proof (rng_pos _ _ _ RF) as PF. pose proof (rng_pos _ _ _ RD) as PD.
  pose proof (Rmult_lt_0_compat _ _ PA PA) as PAA.
  assert (PE : 0 < env2). { destruct (Rle_lt_dec env2 0); [|assumption]. nra. }
  assert (EX : exact_alpha2 T q = env2 / 4) by lra.
  set (tau := val two_pi) in *. set (f0 := val (r_f0 q)) in *. set (f1 := val (r_f1 q)) in *.
  set (G0 := (val (r_da0 q) * a1 - val (r_da1 q) * a0) * S) in *.
  set (M := (a0 * a0 * f0 + a1 * a1 * f1 + a0 * a1 * (f0 + f1) * C) / env2).
  assert (E5 : exact_num T q / exact_alpha2 T q + tau * ((f0 + f1) / 2) = tau * M + G0 / env2).
  { rewrite EX. unfold exact_num, M. fold a0 a1 f0 f1 tau S.
    change ((val (r_da0 q) * a1 - val (r_da1 q) * a0) * S) with G0.
    assert (H : tau * ((f0 + f1) / 2) = tau * ((f0 + f1) / 2) * env2 / env2) by (field; lra).
    rewrite H. unfold env2 at 2. field. lra. }
  assert (E6 : (a0 * a0 * w0 + a1 * a1 * w1 + a0 * a1 * (w0 + w1) * C + G0) / env2 = 2 * PI * M + G0 / env2).
  { unfold M, w0, w1. fold f0 f1. field. lra. }
  rewrite E5 in Dm. rewrite E6.
  replace (val (r_fm T q) - (2 * PI * M + G0 / env2))
    with ((val (r_fm T q) - (tau * M + G0 / env2)) + (tau - 2 * PI) * M) by ring.
  eapply Rle_trans; [apply Rabs_triang|]. rewrite (Rabs_mult (tau - 2 * PI)).
  pose proof two_pi_pi as TP. fold tau in TP.
  assert (BM : Rabs M <= K * F).
  { unfold M. unfold Rdiv. rewrite Rabs_mult, (Rabs_pos_eq (/ env2)) by (apply Rlt_le, Rinv_0_lt_compat, PE).
    apply Rmult_le_reg_r with env2; [exact PE|]. rewrite Rmult_assoc, Rinv_l, Rmult_1_r by lra.
    apply Rle_trans with (F * (A * A)).
    - fold a0 a1 in HA. rewrite <- HA.
      assert (CB : Rabs C <= 1).
      { unfold C. apply Rabs_le_inv in Bc. fold c in Bc. assert (0 <= c * c <= 1) by nra. apply Rabs_le. lra. }
      assert (T1 : Rabs (a0 * a0 * f0) <= Rabs a0 * Rabs a0 * F).
      { rewrite !Rabs_mult. apply Rmult_le_compat_l; [apply Rmult_le_pos; apply Rabs_pos|exact B0]. }
      assert (T2 : Rabs (a1 * a1 * f1) <= Rabs a1 * Rabs a1 * F).
      { rewrite !Rabs_mult. apply Rmult_le_compat_l; [apply Rmult_le_pos; apply Rabs_pos|exact B1]. }
      assert (T3 : Rabs (a0 * a1 * (f0 + f1) * C) <= Rabs a0 * Rabs a1 * (2 * F) * 1).
      { rewrite !Rabs_mult. apply Rmult_le_compat; [|apply Rabs_pos| |].
        - repeat apply Rmult_le_pos; apply Rabs_pos.
        - apply Rmult_le_compat_l; [apply Rmult_le_pos; apply Rabs_pos|].
          eapply Rle_trans; [apply Rabs_triang|]. fold f0 in B0. fold f1 in B1. lra.
        - exact CB. }
      eapply Rle_trans; [apply Rabs_triang|]. eapply Rle_trans; [apply Rplus_le_compat_r, Rabs_triang|].
      replace (F * ((Rabs a0 + Rabs a1) * (Rabs a0 + Rabs a1)))
        with (Rabs a0 * Rabs a0 * F + Rabs a1 * Rabs a1 * F + Rabs a0 * Rabs a1 * (2 * F) * 1) by ring.
      lra.
    - replace (K * F * env2) with (F * (K * env2)) by ring. apply Rmult_le_compat_l; lra. }
  assert (X : Rabs (tau - 2 * PI) * Rabs M <= bpow radix2 (-50) * (K * F)).
  { apply Rmult_le_compat; auto using Rabs_pos. }
  assert (PDA : 0 < D / A) by (apply Rdiv_lt_0_compat; assumption).
  assert (Y : bpow radix2 (-50) * (K * F) <= bpow radix2 (-41) * (K * K) * (F + D / A)).
  { rewrite Rmult_assoc. apply Rmult_le_compat; [apply bpow_ge_0|apply Rmult_le_pos; lra|apply bpow_le; lia|].
    apply Rmult_le_compat; [lra|lra| |lra]. nra. }
  assert (Z : bpow radix2 (-40) * (K * K) * (F + D / A) = 2 * (bpow radix2 (-41) * (K * K) * (F + D / A))).
  { change (-40)%Z with (-41 + 1)%Z. rewrite bpow_S. ring. }
  rewrite Z. lra.
Qed.
Print Assumptions c109_frequency.

(** ** The audio *)

(** C109. As long as the amplitudes are not negative and not both almost zero,
    every sample of the audio is a number, not larger than the sum of the
    amplitudes (but for [2^-47] of it). *)
Theorem c109_audio : forall T z0 z1 qs, good_trig T -> bd z0 100 -> bd z1 100 -> Forall audible qs ->
  (Z.of_nat (List.length qs) <= 2 ^ 50)%Z ->
  Forall2 (fun q (x : f64_num) => finite x /\
    Rabs (val x) <= (val (r_a0 q) + val (r_a1 q)) * (1 + bpow radix2 (-47))) qs (r_audio T z0 z1 qs).
Proof. exact audible_audio. Qed.
Print Assumptions c109_audio.

(** C109. Once both amplitudes are below [2^-538], the audio is NaN, and it is NaN
    forever after, even if the partials come back. *)
Theorem c109_silence : forall T z0 z1 qs i j q x, good_trig T ->
  nth_error qs i = Some q -> bd (r_a0 q) (-538) -> bd (r_a1 q) (-538) ->
  (i <= j)%nat -> (1 <= j)%nat -> nth_error (r_audio T z0 z1 qs) j = Some x -> x = B754_nan.
Proof.
  intros T z0 z1 qs i j q x G Hi B0 B1 L L1 Hj. eapply silent_audio; eauto. split; assumption.
Qed.
Print Assumptions c109_silence.

(** Exponential decay. *)
Lemma decay_silent : forall T (a d t : f64_num), good_trig T -> bd a 20 -> bpow radix2 (-30) <= val d <= bpow radix2 30 ->
  finite d -> finite t -> 201 * val d <= val t <= bpow radix2 30 ->
  exists k, r_decay_k d = Ok k /\ bd (r_decay T a k t) (-538).
Proof.
  intros T a d t G [Fa Ba] [D1 D2] Fd Ft [T1 T2].
  pose proof (bpow_gt_0 radix2 (-30)) as P30. assert (Pd : 0 < val d) by lra.
  exists (fdiv (f64_of (-2) 0) d). split; [apply f64_div_ok; lra|].
  destruct (int_val (-2) ltac:(lia)) as [F2 V2]. pose proof uro_pos as UP. pose proof uro_tiny as UT.
  assert (I30 : / bpow radix2 (-30) = bpow radix2 30) by (rewrite <- bpow_opp; reflexivity).
  assert (I : bpow radix2 (-30) <= / val d <= bpow radix2 30).
  { split.
    - rewrite <- (Rinv_inv (bpow radix2 (-30))), I30. apply Rinv_le_contravar; [exact Pd|exact D2].
    - rewrite <- I30. apply Rinv_le_contravar; [exact P30|exact D1]. }
  assert (Q : Rabs (val (f64_of (-2) 0) / val d) <= bpow radix2 31).
  { rewrite V2. unfold Rdiv. rewrite Rabs_mult, (Rabs_left (-2)), (Rabs_pos_eq (/ val d)) by lra.
    change 31%Z with (30 + 1)%Z. rewrite bpow_S. lra. }
  destruct (fdiv_val (f64_of (-2) 0) d F2) as [Fk Vk]; [lra| |].
  { eapply Rle_trans; [exact Q|]. apply bpow_le. lia. }
  assert (Bk : Rabs (val (fdiv (f64_of (-2) 0) d)) <= bpow radix2 31).
  { rewrite Vk. apply rnd_abs_le; [apply fmt_bpow; lia|exact Q]. }
  set (k := fdiv (f64_of (-2) 0) d) in *.
  assert (Pt : 0 < val t) by lra.
  destruct (fmul_val k t Fk Ft) as [Fm Vm].
  { rewrite Rabs_mult, (Rabs_pos_eq (val t)) by lra. apply Rle_trans with (bpow radix2 31 * bpow radix2 30).
    - apply Rmult_le_compat; try apply Rabs_pos; lra.
    - rewrite <- bpow_plus. apply bpow_le. lia. }
  (* k is at most -1.999 / d *)
  assert (K : val k <= -(1999 / 1000) * / val d).
  { rewrite Vk, V2. pose proof (rnd_near (-2 / val d)) as N. apply Rabs_le_inv in N.
    assert (Rabs (-2 / val d) = 2 * / val d).
    { unfold Rdiv. rewrite Rabs_mult, (Rabs_left (-2)), (Rabs_pos_eq (/ val d)) by lra. ring. }
    rewrite H in N. assert (/ 2 * eta <= uro * / val d).
    { apply Rle_trans with (uro * bpow radix2 (-30)); [|apply Rmult_le_compat_l; lra].
      rewrite uro_val, <- bpow_plus.
      assert (ET : eta <= bpow radix2 (-53 + -30)) by (apply (bpow_le radix2 (-1074)); lia).
      pose proof eta_pos. lra. }
    assert (uro * / val d <= / 1048576 * / val d) by (apply Rmult_le_compat_r; lra).
    unfold Rdiv in *. lra. }
  assert (KT : val (fmul k t) <= -400).
  { rewrite Vm. replace (-400) with (IZR (-400) * bpow radix2 0) by (cbn; ring).
    apply rnd_le_fmt; [apply fmt_scaled; lia|]. cbn [bpow]. rewrite Rmult_1_r.
    apply Rle_trans with (-(1999 / 1000) * / val d * (201 * val d)).
    - assert (-(1999/1000) * / val d <= 0) by (assert (0 < / val d) by (apply Rinv_0_lt_compat, Pd); lra).
      apply Rle_trans with (-(1999/1000) * / val d * val t).
      + apply Rmult_le_compat_r; lra.
      + apply Rmult_le_compat_neg_l; lra.
    - replace (-(1999 / 1000) * / val d * (201 * val d)) with (-(1999 / 1000) * 201 * (/ val d * val d)) by ring.
      rewrite Rinv_l by lra. lra. }
  destruct (gt_exp T G _ Fm ltac:(lra)) as (Fe & E0 & E1). pose proof (gt_exp_tiny T G _ Fm KT) as ET.
  assert (BE : bd (t_exp T (fmul k t)) (-560)).
  { split; [exact Fe|]. rewrite Rabs_pos_eq by exact E0. exact ET. }
  exact (bd_weak _ _ (-538) (bd_mul _ _ 20 (-560) (conj Fa Ba) BE ltac:(lia)) ltac:(lia)).
Qed.

(** C109. A beat of exponentially decaying partials is NaN from 201 times the longer
    decay on: after 2.01 seconds for decays of ten milliseconds. *)
Theorem c109_modal_silence : forall T (a0 a1 f0 f1 d0 d1 p0 p1 : f64_num) ts i j t, good_trig T ->
  bd a0 20 -> bd a1 20 -> finite d0 -> finite d1 ->
  bpow radix2 (-30) <= val d0 <= bpow radix2 30 -> bpow radix2 (-30) <= val d1 <= bpow radix2 30 ->
  nth_error ts i = Some t -> finite t -> 201 * val d0 <= val t -> 201 * val d1 <= val t -> val t <= bpow radix2 30 ->
  exists xs, r_modal_audio T a0 a1 f0 f1 d0 d1 p0 p1 ts = Ok xs /\
    forall x, (i <= j)%nat -> (1 <= j)%nat -> nth_error xs j = Some x -> x = B754_nan.
Proof.
  intros T a0 a1 f0 f1 d0 d1 p0 p1 ts i j t G A0 A1 Fd0 Fd1 D0 D1 Ht Ft T0 T1 T2.
  destruct (decay_silent T a0 d0 t G A0 D0 Fd0 Ft (conj T0 T2)) as (k0 & K0 & S0).
  destruct (decay_silent T a1 d1 t G A1 D1 Fd1 Ft (conj T1 T2)) as (k1 & K1 & S1).
  unfold r_modal_audio. rewrite K0, K1. cbn [bind]. eexists. split; [reflexivity|].
  intros x L L1 Hx. eapply (c109_silence T _ _ _ i j (r_modal_point T a0 a1 f0 f1 k0 k1 p0 p1 t));
    [exact G| |exact S0|exact S1|exact L|exact L1|exact Hx].
  exact (map_nth_error (r_modal_point T a0 a1 f0 f1 k0 k1 p0 p1) i ts Ht).
Qed.
Print Assumptions c109_modal_silence.

(** C109. So it is not true that the audio of partials with finite amplitudes,
    frequencies, decays and phases consists of numbers: two partials with
    amplitudes 1, frequencies 440 and 441 hertz and decays of [1 / 128] seconds,
    at 0 and 2 seconds, are NaN at 2 seconds, whatever numpy's functions are. *)
Theorem c109_audio_finite_refuted : exists (a0 a1 f0 f1 d0 d1 p0 p1 : f64_num) ts,
  Forall (fun x : f64_num => finite x) ([a0; a1; f0; f1; d0; d1; p0; p1] ++ ts) /\
  val a0 = 1 /\ val a1 = 1 /\ val f0 = 440 /\ val f1 = 441 /\ val d0 = / 128 /\ val d1 = / 128 /\
  val p0 = 0 /\ val p1 = 0 /\ map (fun t : f64_num => val t) ts = [0; 2] /\
  forall T, good_trig T -> exists x, r_modal_audio T a0 a1 f0 f1 d0 d1 p0 p1 ts = Ok [x; B754_nan].
Proof.
  exists (f64_of 1 0), (f64_of 1 0), (f64_of 440 0), (f64_of 441 0), (f64_of 1 (-7)), (f64_of 1 (-7)), (f64_of 0 0), (f64_of 0 0).
  exists [f64_of 0 0; f64_of 2 0].
  destruct (int_val 1 ltac:(lia)) as [F1 V1]. destruct (int_val 440 ltac:(lia)) as [F440 V440].
  destruct (int_val 441 ltac:(lia)) as [F441 V441]. destruct (int_val 0 ltac:(lia)) as [F0 V0].
  destruct (int_val 2 ltac:(lia)) as [F2 V2]. destruct (f64_of_val 1 (-7) ltac:(lia) ltac:(lia)) as [Fd Vd].
  assert (Vd' : val (f64_of 1 (-7)) = / 128).
  { rewrite Vd, Rmult_1_l. reflexivity. }
  split; [repeat constructor; assumption|].
  repeat (split; [assumption|]). split; [cbn [map]; rewrite V0, V2; reflexivity|].
  intros T G.
  assert (L1 : bpow radix2 (-30) <= / 128) by (change (/ 128) with (bpow radix2 (-7)); apply bpow_le; lia).
  assert (L2 : / 128 <= bpow radix2 30) by (change (/ 128) with (bpow radix2 (-7)); apply bpow_le; lia).
  assert (L3 : 2 <= bpow radix2 30) by (change 2 with (bpow radix2 1) at 1; apply bpow_le; lia).
  assert (B1 : bd (f64_of 1 0) 20).
  { split; [exact F1|]. rewrite V1, Rabs_pos_eq by lra. change 1 with (bpow radix2 0) at 1. apply bpow_le. lia. }
  destruct (c109_modal_silence T (f64_of 1 0) (f64_of 1 0) (f64_of 440 0) (f64_of 441 0) (f64_of 1 (-7)) (f64_of 1 (-7))
              (f64_of 0 0) (f64_of 0 0) [f64_of 0 0; f64_of 2 0] 1 1 (f64_of 2 0) G B1 B1 Fd Fd) as (xs & E & H);
    rewrite ?Vd', ?V2; try split; try reflexivity; try assumption; try lra.
  assert (K : r_decay_k (f64_of 1 (-7)) = Ok (fdiv (f64_of (-2) 0) (f64_of 1 (-7)))) by (apply f64_div_ok; rewrite Vd'; lra).
  unfold r_modal_audio in E |- *. rewrite K in E |- *.
  cbn [bind map] in E |- *. injection E as <-.
  unfold r_audio, r_pm in H |- *. cbn [map f_cumtrapz f_trapz_from combine] in H |- *.
  eexists. f_equal. f_equal. f_equal. apply H; try lia. reflexivity.
Qed.
Print Assumptions c109_audio_finite_refuted.

(** ** Examples *)

(** Functions of the reals in doubles, to the nearest multiple of [2^-52], and
    never zero: functions like those of numpy exist. *)
Definition nonzero (m : Z) : Z := if Z.eqb m 0 then 1%Z else m.
Definition to_double (r : R) : f64_num := f64_of (nonzero (ZnearestE (r * bpow radix2 52))) (-52).
Definition real_trig : trig := mkTrig
  (fun x => if is_finite x then to_double (cos (val x)) else B754_nan)
  (fun x => if is_finite x then to_double (sin (val x)) else B754_nan)
  (fun y x => f64_of 0 0)
  (fun x => if Rle_dec (val x) (-400) then f64_of 0 0 else f64_of 1 0).

Lemma to_double_ok : forall r, Rabs r <= 1 -> finite (to_double r) /\
  bpow radix2 (-52) <= Rabs (val (to_double r)) <= 1 /\ Rabs (val (to_double r) - r) <= bpow radix2 (-50).
Proof.
  intros r Hr. unfold to_double. set (m := ZnearestE (r * bpow radix2 52)).
  pose proof (bpow_gt_0 radix2 52) as P. pose proof (bpow_gt_0 radix2 (-52)) as P'.
  assert (I : bpow radix2 52 * bpow radix2 (-52) = 1) by (rewrite <- bpow_plus; reflexivity).
  assert (N : Rabs (IZR m - r * bpow radix2 52) <= / 2).
  { rewrite Rabs_minus_sym. apply Znearest_half. }
  assert (B : (Z.abs m <= 2 ^ 52)%Z).
  { assert (L : (- (2 ^ 52) <= m <= 2 ^ 52)%Z); [|lia].
    apply Rabs_le_inv in Hr. unfold m. split.
    - rewrite <- (Zrnd_IZR ZnearestE (- (2 ^ 52))). apply Zrnd_le; [apply valid_rnd_N|].
      rewrite opp_IZR. change (IZR (2 ^ 52)) with (bpow radix2 52). nra.
    - rewrite <- (Zrnd_IZR ZnearestE (2 ^ 52)). apply Zrnd_le; [apply valid_rnd_N|].
      change (IZR (2 ^ 52)) with (bpow radix2 52). nra. }
  assert (N' : Rabs (IZR (nonzero m) - r * bpow radix2 52) <= 2 /\ (1 <= Z.abs (nonzero m) <= 2 ^ 52)%Z).
  { unfold nonzero. destruct (Z.eqb_spec m 0) as [E|E].
    - rewrite E in N. split; [|lia]. apply Rabs_le_inv in N. apply Rabs_le. lra.
    - split; [lra|lia]. }
  destruct N' as [N1 N2]. clearbody m. set (k := nonzero m) in *.
  destruct (f64_of_val k (-52) ltac:(lia) ltac:(lia)) as [F V]. split; [exact F|]. rewrite V.
  assert (A : Rabs (IZR k * bpow radix2 (-52)) = IZR (Z.abs k) * bpow radix2 (-52)).
  { rewrite Rabs_mult, <- abs_IZR, (Rabs_pos_eq (bpow radix2 (-52))) by lra. reflexivity. }
  rewrite A. destruct N2 as [N2 N3]. apply IZR_le in N2. apply IZR_le in N3.
  change (IZR (2 ^ 52)) with (bpow radix2 52) in N3. repeat split.
  - rewrite <- (Rmult_1_l (bpow radix2 (-52))) at 1. apply Rmult_le_compat_r; lra.
  - rewrite <- I. apply Rmult_le_compat_r; lra.
  - replace (IZR k * bpow radix2 (-52) - r) with ((IZR k - r * bpow radix2 52) * bpow radix2 (-52)
      + r * (bpow radix2 52 * bpow radix2 (-52) - 1)) by ring.
    replace (bpow radix2 52 * bpow radix2 (-52) - 1) with 0 by lra. rewrite Rmult_0_r, Rplus_0_r.
    rewrite Rabs_mult, (Rabs_pos_eq (bpow radix2 (-52))) by lra.
    change (-50)%Z with (2 + -52)%Z. rewrite bpow_plus. change (bpow radix2 2) with 4.
    apply Rmult_le_compat_r; lra.
Qed.

Example c109_trig_example : good_trig real_trig /\ accurate real_trig.
Proof.
  assert (L : bpow radix2 (-100) <= bpow radix2 (-52)) by (apply bpow_le; lia).
  assert (C : forall r, Rabs (cos r) <= 1) by (intro r; pose proof (COS_bound r); apply Rabs_le; lra).
  assert (S : forall r, Rabs (sin r) <= 1) by (intro r; pose proof (SIN_bound r); apply Rabs_le; lra).
  destruct (int_val 0 ltac:(lia)) as [F0 V0]. destruct (int_val 1 ltac:(lia)) as [F1 V1].
  split; [constructor|]; cbn [t_cos t_sin t_atan2 t_exp real_trig].
  - intros x F. rewrite F. destruct (to_double_ok _ (C (val x))) as (A & B & _). split; [exact A|lra].
  - intros x F. rewrite F. destruct (to_double_ok _ (S (val x))) as (A & B & _). split; [exact A|lra].
  - intros x F. rewrite F. reflexivity.
  - intros x F. rewrite F. reflexivity.
  - intros y x _ _. rewrite V0, Rabs_R0. split; [exact F0|lra].
  - intros x _ _. destruct (Rle_dec _ _); rewrite ?V0, ?V1; (split; [assumption|lra]).
  - intros x _ H. destruct (Rle_dec _ _); [|contradiction]. rewrite V0. apply bpow_ge_0.
  - intros x F. cbn [t_cos real_trig]. rewrite F. apply to_double_ok, C.
Qed.

(** Functions that can be run: every angle is a multiple of a turn. *)
Definition flat_trig : trig := mkTrig
  (fun x => if is_finite x then f64_of 1 0 else B754_nan) (fun x => if is_finite x then f64_of 0 0 else B754_nan)
  (fun y x => f64_of 0 0) (fun x => if fgt x (f64_of (-400) 0) then f64_of 1 (-1) else f64_of 0 0).
Example c109_flat_example : good_trig flat_trig.
Proof.
  destruct (int_val 0 ltac:(lia)) as [F0 V0]. destruct (int_val 1 ltac:(lia)) as [F1 V1].
  destruct (int_val (-400) ltac:(lia)) as [F4 V4].
  destruct (f64_of_val 1 (-1) ltac:(lia) ltac:(lia)) as [Fh Vh].
  assert (Vh' : val (f64_of 1 (-1)) = / 2) by (rewrite Vh, Rmult_1_l; reflexivity).
  assert (L : bpow radix2 (-100) <= 1) by (change 1 with (bpow radix2 0); apply bpow_le; lia).
  constructor; cbn [t_cos t_sin t_atan2 t_exp flat_trig].
  - intros x F. rewrite F, V1, Rabs_R1. split; [exact F1|lra].
  - intros x F. rewrite F, V0, Rabs_R0. split; [exact F0|lra].
  - intros x F. rewrite F. reflexivity.
  - intros x F. rewrite F. reflexivity.
  - intros y x _ _. rewrite V0, Rabs_R0. split; [exact F0|lra].
  - intros x _ _. destruct (fgt _ _); rewrite ?V0, ?Vh'; (split; [assumption|lra]).
  - intros x F H. destruct (fgt x (f64_of (-400) 0)) eqn:E.
    + apply fgt_iff in E; auto. lra.
    + rewrite V0. apply bpow_ge_0.
Qed.

(** Amplitudes 3 and 4 at 100 and 104 hertz, one quarter of a second after the
    start, when their phases agree: the envelope is 7 and the angular frequency
    is that of [(9 * 100 + 16 * 104 + 12 * 204) / 49] hertz, [102.285...]. *)
Definition ex_point (a0 a1 t : f64_num) : rpoint :=
  mkRPoint a0 a1 (f64_of 0 0) (f64_of 0 0) (f64_of 100 0) (f64_of 104 0) (f64_of 0 0) (f64_of 0 0) t.
Example c109_example :
  B2SF (r_am flat_trig (ex_point (f64_of 3 0) (f64_of 4 0) (f64_of 1 (-2)))) = B2SF (f64_of 7 0) /\
  fgt (r_fm flat_trig (ex_point (f64_of 3 0) (f64_of 4 0) (f64_of 1 (-2)))) (f64_of 642 0) = true /\
  fgt (f64_of 643 0) (r_fm flat_trig (ex_point (f64_of 3 0) (f64_of 4 0) (f64_of 1 (-2)))) = true /\
  map B2SF (r_audio flat_trig (f64_of 3 0) (f64_of 4 0)
    [ex_point (f64_of 3 0) (f64_of 4 0) (f64_of 0 0); ex_point (f64_of 0 0) (f64_of 0 0) (f64_of 1 (-2));
     ex_point (f64_of 3 0) (f64_of 4 0) (f64_of 1 (-1))])
  = [B2SF (f64_of 7 0); SpecFloat.S754_nan; SpecFloat.S754_nan].
Proof. vm_compute. repeat split; reflexivity. Qed.

Example c109_audible_example : audible (ex_point (f64_of 3 0) (f64_of 4 0) (f64_of 1 (-2))).
Proof.
  assert (B : forall m e, (0 <= m <= 104)%Z -> (0 <= e)%Z -> (e <= 10)%Z -> finite (f64_of m 0) /\ val (f64_of m 0) = IZR m /\ bd (f64_of m 0) (e + 7)).
  { intros m e H He He'. destruct (int_val m ltac:(lia)) as [F V]. split; [exact F|]. split; [exact V|]. split; [exact F|].
    rewrite V, Rabs_pos_eq by (apply IZR_le; lia). apply Rle_trans with 128.
    - apply IZR_le. lia.
    - change 128 with (bpow radix2 7). apply bpow_le. lia. }
  assert (Q : forall m E, (0 <= m <= 104)%Z -> (7 <= E)%Z -> bd (f64_of m 0) E).
  { intros m E H HE. apply bd_weak with (0 + 7)%Z; [apply B; lia|lia]. }
  destruct (f64_of_val 1 (-2) ltac:(lia) ltac:(lia)) as [Fq Vq].
  constructor; cbn [r_a0 r_a1 r_da0 r_da1 r_f0 r_f1 r_p0 r_p1 r_t ex_point]; try (apply Q; lia).
  - rewrite (proj1 (proj2 (B 3%Z 0%Z ltac:(lia) ltac:(lia) ltac:(lia)))). lra.
  - rewrite (proj1 (proj2 (B 4%Z 0%Z ltac:(lia) ltac:(lia) ltac:(lia)))). lra.
  - rewrite (proj1 (proj2 (B 3%Z 0%Z ltac:(lia) ltac:(lia) ltac:(lia)))), (proj1 (proj2 (B 4%Z 0%Z ltac:(lia) ltac:(lia) ltac:(lia)))).
    apply Rle_trans with (bpow radix2 0); [apply bpow_le; lia|]. cbn [bpow]. lra.
  - split; [exact Fq|]. rewrite Vq, Rmult_1_l, Rabs_pos_eq by apply bpow_ge_0. apply bpow_le. lia.
Qed.
