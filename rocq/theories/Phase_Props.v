(** Properties of the initial phase of the beat regression: C89. *)
From Coquelicot Require Import Coquelicot.
From Coq Require Import String List Bool ZArith Reals Lra Lia.
Import ListNotations.
From Verif Require Import Base Py PyLemmas ListLemmas RLists Np_Model Dsp_Model Sample_Model Sample_Proofs Beat_Model
  Beat_Proofs Beat_Props Gamma_Model Resid_Model Resid_Proofs Resid_Props Corr_Proofs Dft_Proofs.
Local Open Scope R_scope.

(** ** C89 *)

(** Spec: correlation of the amplitudes with the beat pattern of phase [phi]. *)
Definition correlation (a t : list R) (am_freq phi : R) : R :=
  rsum (map (fun p => amplitude (fst p) * cos (4 * PI * am_freq * snd p + 2 * phi)) (combine a t)).

Lemma np_mod_spec : forall x m, 0 < m -> 0 <= np_mod x m < m /\ exists z, np_mod x m = x + IZR z * m.
Proof.
  intros x m Hm. unfold np_mod. pose proof (Rfloor_spec (x / m)) as F. split.
  - assert (E : x = m * (x / m)) by (field; lra). nra.
  - exists (- Rfloor (x / m))%Z. rewrite opp_IZR. ring.
Qed.

Lemma estimate_polar : forall a t am, exists r z, 0 <= r /\
  let re := rsum (map (fun p => amplitude (fst p) * cos (- 4 * PI * am * snd p)) (combine a t)) in
  let im := rsum (map (fun p => amplitude (fst p) * sin (- 4 * PI * am * snd p)) (combine a t)) in
  r = sqrt (re * re + im * im) /\
  0 <= phase_estimate a t am < PI /\ phase_estimate a t am = atan2 im re / 2 + IZR z * PI /\
  re = r * cos (2 * phase_estimate a t am) /\ im = r * sin (2 * phase_estimate a t am).
Proof.
  intros a t am. unfold phase_estimate. cbv zeta.
  change (map2 (fun aj tj => db2a aj * cos (-4 * PI * am * tj)) a t)
    with (map (fun p => amplitude (fst p) * cos (- 4 * PI * am * snd p)) (combine a t)).
  change (map2 (fun aj tj => db2a aj * sin (-4 * PI * am * tj)) a t)
    with (map (fun p => amplitude (fst p) * sin (- 4 * PI * am * snd p)) (combine a t)).
  set (re := rsum (map (fun p => amplitude (fst p) * cos _) _)).
  set (im := rsum (map (fun p => amplitude (fst p) * sin _) _)).
  destruct (np_mod_spec (atan2 im re / 2) PI PI_RGT_0) as (B & z & E).
  exists (sqrt (re * re + im * im)), z. split; [apply sqrt_pos|]. split; [reflexivity|]. split; [exact B|]. split; [exact E|].
  rewrite E. replace (2 * (atan2 im re / 2 + IZR z * PI)) with (atan2 im re + 2 * IZR z * PI) by field.
  rewrite Dft_Proofs.cos_shift, Dft_Proofs.sin_shift.
  destruct (Req_dec re 0) as [Zr|Nr]; [destruct (Req_dec im 0) as [Zi|Ni]|].
  - rewrite Zr, Zi. replace (0 * 0 + 0 * 0) with 0 by ring. rewrite sqrt_0. split; ring.
  - destruct (atan2_polar re im (or_intror Ni)) as [C S]. split; symmetry; assumption.
  - destruct (atan2_polar re im (or_introl Nr)) as [C S]. split; symmetry; assumption.
Qed.

Lemma correlation_split : forall a t am phi, correlation a t am phi =
  rsum (map (fun p => amplitude (fst p) * cos (- 4 * PI * am * snd p)) (combine a t)) * cos (2 * phi) +
  rsum (map (fun p => amplitude (fst p) * sin (- 4 * PI * am * snd p)) (combine a t)) * sin (2 * phi).
Proof.
  intros a t am phi. unfold correlation. induction (combine a t) as [|p l IH]; [cbn; ring|].
  cbn [map]. change (rsum (?u :: ?v)) with (u + rsum v). rewrite IH.
  replace (-4 * PI * am * snd p) with (- (4 * PI * am * snd p)) by ring. rewrite cos_neg, sin_neg, cos_plus. ring.
Qed.

(** The estimate is an angle in [0, pi) and no phase correlates better with the
    amplitudes. *)
Theorem c89_best : forall a t am_freq, 0 <= phase_estimate a t am_freq < PI /\
  forall phi, correlation a t am_freq phi <= correlation a t am_freq (phase_estimate a t am_freq).
Proof.
  intros a t am. destruct (estimate_polar a t am) as (r & z & Hr & _ & B & _ & ER & EI). split; [exact B|].
  intros phi. rewrite !correlation_split, ER, EI. set (p := phase_estimate a t am).
  replace (r * cos (2 * p) * cos (2 * p) + r * sin (2 * p) * sin (2 * p)) with (r * ((sin (2 * p))² + (cos (2 * p))²))
    by (unfold Rsqr; ring). rewrite sin2_cos2.
  replace (r * cos (2 * p) * cos (2 * phi) + r * sin (2 * p) * sin (2 * phi)) with (r * cos (2 * p - 2 * phi))
    by (rewrite cos_minus; ring).
  apply Rmult_le_compat_l; [exact Hr|]. apply COS_bound.
Qed.
Print Assumptions c89_best.

(** It is the only one, unless all phases are equally good. *)
Theorem c89_unique : forall a t am_freq phi, 0 <= phi < PI ->
  (forall psi, correlation a t am_freq psi <= correlation a t am_freq phi) ->
  phi = phase_estimate a t am_freq \/ (forall psi, correlation a t am_freq psi = 0).
Proof.
  intros a t am phi Hp H. destruct (estimate_polar a t am) as (r & z & Hr & _ & B & _ & ER & EI).
  set (p := phase_estimate a t am) in *.
  assert (C : forall psi, correlation a t am psi = r * cos (2 * p - 2 * psi)).
  { intros psi. rewrite correlation_split, ER, EI, cos_minus. ring. }
  destruct (Req_dec r 0) as [Z|N]; [right; intros psi; rewrite C, Z; ring|]. left.
  specialize (H p). rewrite !C in H. replace (2 * p - 2 * p) with 0 in H by ring. rewrite cos_0 in H.
  assert (G : cos (2 * p - 2 * phi) = 1) by (pose proof (COS_bound (2 * p - 2 * phi)); nra).
  replace (2 * p - 2 * phi) with (2 * (p - phi)) in G by ring. rewrite cos_2a_sin in G.
  assert (S : sin (p - phi) = 0) by (apply Rsqr_0_uniq; unfold Rsqr; lra).
  apply sin_eq_0_0 in S. destruct S as [k Hk].
  assert (k = 0%Z).
  { pose proof PI_RGT_0. assert (-1 < IZR k < 1) as [U V] by nra. apply lt_IZR in U. apply (lt_IZR k 1) in V. lia. }
  subst k. lra.
Qed.
Print Assumptions c89_unique.

(** For an envelope [c0 + c1 cos(4 pi am_freq t + 2 phi)], sampled [N] times at
    equal distances over a whole number [K] of its periods, the estimate is its
    phase up to a multiple of pi. *)
Theorem c89_sinusoid : forall N K h t0 am_freq c0 c1 phi a t,
  (0 < N)%nat -> 2 * am_freq * h * INR N = IZR K ->
  (K mod Z.of_nat N <> 0)%Z -> (2 * K mod Z.of_nat N <> 0)%Z -> 0 < c1 ->
  t = map (fun j => t0 + INR j * h) (seq 0 N) ->
  Forall2 (fun tj aj => amplitude aj = c0 + c1 * cos (4 * PI * am_freq * tj + 2 * phi)) t a ->
  exists z, phase_estimate a t am_freq = phi + IZR z * PI.
Proof.
  intros N K h t0 am c0 c1 phi a t HN HK M1 M2 Hc Et F.
  assert (N0 : INR N <> 0) by (apply not_0_INR; lia).
  set (th := fun tj => 4 * PI * am * tj).
  assert (C : forall psi, correlation a t am psi = sumn N (fun j =>
    (c0 + c1 * cos (th (t0 + INR j * h) + 2 * phi)) * cos (th (t0 + INR j * h) + 2 * psi))).
  { intros psi. unfold correlation, sumn. subst t. clear - F.
    revert a F. generalize 0%nat as s. induction N as [|N IH]; intros s a F.
    - cbn [seq map] in F. inversion F. reflexivity.
    - cbn [seq map] in F |- *. inversion F as [|? aj ? a' Hj F']; subst. cbn [combine map fst snd].
      change (rsum (?u :: ?v)) with (u + rsum v). rewrite Hj. unfold th at 1 2. f_equal. apply IH. exact F'. }
  assert (A : forall j, th (t0 + INR j * h) = th t0 + ang N j K).
  { intros j. unfold th, ang. rewrite <- HK. field. exact N0. }
  destruct (orth N K HN) as [O1 O2]. destruct (orth N (2 * K) HN) as [O3 O4].
  destruct (Z.eqb_spec (K mod Z.of_nat N) 0) as [E|_]; [contradiction|].
  destruct (Z.eqb_spec (2 * K mod Z.of_nat N) 0) as [E|_]; [contradiction|].
  assert (S1 : forall x, sumn N (fun j => cos (ang N j K + x)) = 0).
  { intros x. rewrite (sumn_ext _ _ (fun j => cos (ang N j K) * cos x + (- (sin (ang N j K)) * sin x)))
      by (intros; rewrite cos_plus; ring).
    rewrite sumn_plus, sumn_scale_r, O1.
    rewrite (sumn_ext _ (fun j => - sin (ang N j K) * sin x) (fun j => sin (ang N j K) * (- sin x))) by (intros; ring).
    rewrite sumn_scale_r, O2. ring. }
  assert (S2 : forall x, sumn N (fun j => cos (ang N j (2 * K) + x)) = 0).
  { intros x. rewrite (sumn_ext _ _ (fun j => cos (ang N j (2 * K)) * cos x + (- (sin (ang N j (2 * K))) * sin x)))
      by (intros; rewrite cos_plus; ring).
    rewrite sumn_plus, sumn_scale_r, O3.
    rewrite (sumn_ext _ (fun j => - sin (ang N j (2 * K)) * sin x) (fun j => sin (ang N j (2 * K)) * (- sin x))) by (intros; ring).
    rewrite sumn_scale_r, O4. ring. }
  assert (V : forall psi, correlation a t am psi = INR N * (c1 / 2) * cos (2 * phi - 2 * psi)).
  { intros psi. rewrite C.
    rewrite (sumn_ext _ _ (fun j => c0 * cos (ang N j K + (th t0 + 2 * psi)) +
       (c1 / 2 * cos (ang N j (2 * K) + (2 * th t0 + 2 * phi + 2 * psi)) + c1 / 2 * cos (2 * phi - 2 * psi)))).
    - rewrite !sumn_plus, !sumn_scale, S1, S2, sumn_const. ring.
    - intros j _. rewrite A.
      replace (th t0 + ang N j K + 2 * psi) with (ang N j K + (th t0 + 2 * psi)) by ring.
      assert (P : forall u v, cos u * cos v = / 2 * cos (u + v) + / 2 * cos (u - v))
        by (intros; rewrite cos_plus, cos_minus; field).
      rewrite Rmult_plus_distr_r, Rmult_assoc, P.
      replace (th t0 + ang N j K + 2 * phi + (ang N j K + (th t0 + 2 * psi)))
        with (ang N j (2 * K) + (2 * th t0 + 2 * phi + 2 * psi)) by (unfold ang; rewrite mult_IZR; field; exact N0).
      replace (th t0 + ang N j K + 2 * phi - (ang N j K + (th t0 + 2 * psi))) with (2 * phi - 2 * psi) by ring.
      field. }
  destruct (c89_best a t am) as [_ B]. set (p := phase_estimate a t am) in *. specialize (B phi). rewrite !V in B.
  replace (2 * phi - 2 * phi) with 0 in B by ring. rewrite cos_0 in B.
  assert (PN : 0 < INR N) by (apply lt_0_INR; lia).
  assert (G : cos (2 * phi - 2 * p) = 1).
  { pose proof (COS_bound (2 * phi - 2 * p)). assert (0 < INR N * (c1 / 2)) by (apply Rmult_lt_0_compat; lra). nra. }
  replace (2 * phi - 2 * p) with (2 * (phi - p)) in G by ring. rewrite cos_2a_sin in G.
  assert (S : sin (phi - p) = 0) by (apply Rsqr_0_uniq; unfold Rsqr; lra).
  apply sin_eq_0_0 in S. destruct S as [k Hk]. exists (- k)%Z. rewrite opp_IZR. lra.
Qed.
Print Assumptions c89_sinusoid.

(** The beat with the initial parameters: its envelope is a rectified cosine of
    that phase, with decay and level of the regression line. *)
Theorem c89_envelope : forall k q am_freq p_hat f t, k < 0 ->
  beat_env (default_params_init k q am_freq p_hat f) t =
  amplitude (k * t + q) * Rabs (cos (2 * PI * am_freq * t + p_hat)).
Proof.
  intros k q am ph f t Hk. pose proof ln10_pos as P10.
  set (p := default_params_init k q am ph f).
  assert (EA : amplitude (k * t + q) = db2a q * exp (- 2 * t / q_d0 p)).
  { unfold amplitude, db2a, Rpower. rewrite <- exp_plus. f_equal. cbn [p default_params_init q_d0]. unfold log10. rewrite ln_exp.
    field; repeat split; lra. }
  assert (PA : 0 < amplitude (k * t + q)) by apply exp_pos.
  set (th := 2 * PI * am * t + ph). set (c := 2 * PI * (mean f) * t - ph).
  unfold beat_env, beat_re, beat_im.
  replace (q_a0 p * exp (- 2 * t / q_d0 p)) with (amplitude (k * t + q) / 2)
    by (rewrite EA; cbn [p default_params_init q_a0]; field).
  replace (q_a1 p * exp (- 2 * t / q_d1 p)) with (amplitude (k * t + q) / 2)
    by (rewrite EA; cbn [p default_params_init q_a1 q_d0 q_d1]; field).
  replace (2 * PI * q_f0 p * t + q_p0 p) with (c + th) by (unfold c, th; cbn [p default_params_init q_f0 q_p0]; ring).
  replace (2 * PI * q_f1 p * t + q_p1 p) with (c - th) by (unfold c, th; cbn [p default_params_init q_f1 q_p1]; ring).
  set (A := amplitude (k * t + q)) in *.
  replace ((A / 2 * cos (c + th) + A / 2 * cos (c - th)) ^ 2 + (A / 2 * sin (c + th) + A / 2 * sin (c - th)) ^ 2)
    with (Rsqr (A * cos th)).
  - rewrite sqrt_Rsqr_abs, Rabs_mult, (Rabs_right A) by lra. reflexivity.
  - rewrite cos_plus, cos_minus, sin_plus, sin_minus.
    transitivity ((A * cos th)² * ((sin c)² + (cos c)²)); [rewrite sin2_cos2; ring|]. unfold Rsqr. field.
Qed.
Print Assumptions c89_envelope.

(** Four samples for each of two periods. *)
Example c89_example : exists a t, List.length t = 8%nat /\
  Forall2 (fun tj aj => amplitude aj = 3 + 1 * cos (4 * PI * 1 * tj + 2 * 1)) t a /\
  exists z, phase_estimate a t 1 = 1 + IZR z * PI.
Proof.
  set (t := map (fun j => 5 + INR j * (1 / 8)) (seq 0 8)).
  exists (map (fun tj => 20 * (ln (3 + 1 * cos (4 * PI * 1 * tj + 2 * 1)) / ln 10)) t), t.
  assert (F : Forall2 (fun tj aj => amplitude aj = 3 + 1 * cos (4 * PI * 1 * tj + 2 * 1)) t
    (map (fun tj => 20 * (ln (3 + 1 * cos (4 * PI * 1 * tj + 2 * 1)) / ln 10)) t)).
  { clearbody t. induction t as [|tj t IH]; constructor; [|exact IH]. unfold amplitude, Rpower. pose proof ln10_pos.
    rewrite <- (exp_ln (3 + 1 * cos (4 * PI * 1 * tj + 2 * 1))) at 2.
    - f_equal. field. lra.
    - pose proof (COS_bound (4 * PI * 1 * tj + 2 * 1)). lra. }
  split; [reflexivity|]. split; [exact F|].
  apply (c89_sinusoid 8 2 (1 / 8) 5 1 3 1 1); try lia; try lra; try reflexivity.
  - simpl INR. lra.
  - vm_compute. discriminate.
  - vm_compute. discriminate.
  - exact F.
Qed.
