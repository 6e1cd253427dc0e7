(** C109, continued: exponential decays in double precision. *)
From Coq Require Import String ZArith Reals Lra Lia Bool List.
From Flocq Require Import Core IEEE754.BinarySingleNaN.
Import ListNotations.
From Verif Require Import Base ListLemmas RLists Double_Model Double_Float Peak_Model Peak_Round Peak_Accuracy
  Peak_Proofs Clock_Proofs Ripple_Model Ripple_Proofs Ripple_Audio Ripple_Pi Ripple_Props Synth_Model Synth_Proofs Synth_Props.
Local Open Scope R_scope.

(** C109. [ExponentialDecay] is [a exp(-2 t / d)] and its derivative [-2 / d] times that, up to [2^-49]
    of their sizes, times [1 + U / D]. *)
Theorem c109_decay : forall T (a d t : f64_num) U D, good_trig T -> accurate_exp T -> moderate U -> moderate D ->
  bd a 500 -> finite t -> finite d -> 0 <= val t <= U -> D <= val d <= bpow radix2 200 ->
  exists k, r_decay_k d = Ok k /\
  finite (r_decay T a k t) /\ finite (r_decay_dt T a k t) /\
  Rabs (val (r_decay T a k t) - val a * exp (-2 * val t / val d))
    <= bpow radix2 (-49) * (1 + U / D) * Rabs (val a) + bpow radix2 (-1075) /\
  Rabs (val (r_decay_dt T a k t) - -2 / val d * (val a * exp (-2 * val t / val d)))
    <= bpow radix2 (-49) * (1 + U / D) * (2 / val d) * Rabs (val a) + (1 + 2 / val d) * bpow radix2 (-1074).
Proof.
  intros T a d t U D G AE RU RD [Fa Ba] Ft Fd [T0 T1] [D1 D2].
  destruct (dec_ok t d U D RU RD Ft Fd (conj T0 T1) (conj D1 D2)) as (F1 & N1 & E1).
  pose proof (rng_pos _ _ _ RU) as PU. pose proof (rng_pos _ _ _ RD) as PD. assert (Pd : 0 < val d) by lra.
  destruct (int_val (-2) ltac:(lia)) as [F2 V2]. pose proof uro_pos as UP. pose proof uro_tiny as UT. pose proof eta_pos as EP.
  destruct RU as [U1 U2]. destruct RD as [RD1 RD2].
  assert (I200 : / bpow radix2 (-200) = bpow radix2 200) by (rewrite <- bpow_opp; reflexivity).
  assert (Id1 : / val d <= / D) by (apply Rinv_le_contravar; lra).
  assert (Id2 : / D <= bpow radix2 200).
  { rewrite <- I200. apply Rinv_le_contravar; [apply bpow_gt_0|exact RD1]. }
  assert (Id3 : bpow radix2 (-200) <= / val d).
  { rewrite <- (Rinv_inv (bpow radix2 (-200))), I200. apply Rinv_le_contravar; lra. }
  pose proof (bpow_gt_0 radix2 (-200)) as B2. set (i := / val d) in *.
  assert (AQ : Rabs (-2 / val d) = 2 * i).
  { unfold Rdiv. fold i. rewrite Rabs_mult, (Rabs_left (-2)), (Rabs_pos_eq i) by lra. ring. }
  assert (B201 : 2 * bpow radix2 200 = bpow radix2 201) by (symmetry; change 201%Z with (200 + 1)%Z; apply bpow_S).
  exists (fdiv (f64_of (-2) 0) d). split; [apply f64_div_ok; lra|].
  destruct (fdiv_val (f64_of (-2) 0) d F2) as [Fk Vk]; [lra| |].
  { rewrite V2, AQ. apply Rle_trans with (bpow radix2 201); [lra|apply bpow_le; lia]. }
  unfold s_dec in F1, N1, E1.
  rewrite V2 in Vk. set (k := fdiv (f64_of (-2) 0) d) in *.
  assert (K2 : Rabs (val k - -2 / val d) <= 3 * uro * i).
  { rewrite Vk. pose proof (rnd_near (-2 / val d)) as N. rewrite AQ in N.
    pose proof (eta_small (-200) ltac:(lia)) as ES.
    assert (uro * bpow radix2 (-200) <= uro * i) by (apply Rmult_le_compat_l; lra). lra. }
  assert (UI : 0 <= uro * i <= / 1048576 * i) by (split; [apply Rmult_le_pos; lra|apply Rmult_le_compat_r; lra]).
  assert (K1 : Rabs (val k) <= 9 / 4 * i).
  { replace (val k) with ((val k - -2 / val d) + -2 / val d) by ring. eapply Rle_trans; [apply Rabs_triang|]. rewrite AQ. lra. }
  assert (B400 : bpow radix2 200 * bpow radix2 202 = bpow radix2 402) by (rewrite <- bpow_plus; reflexivity).
  assert (B202 : 2 * bpow radix2 201 = bpow radix2 202) by (symmetry; change 202%Z with (201 + 1)%Z; apply bpow_S).
  assert (BKT : Rabs (val t * val k) <= bpow radix2 402).
  { rewrite Rabs_mult, (Rabs_pos_eq (val t)) by lra. rewrite <- B400. apply Rmult_le_compat; try lra. apply Rabs_pos. }
  assert (L402 : bpow radix2 402 <= bpow radix2 1023) by (apply bpow_le; lia).
  destruct (fmul_val t k Ft Fk) as [_ Vm]; [lra|].
  destruct (fmul_val k t Fk Ft) as [Fm' Vm']; [rewrite Rmult_comm; lra|].
  assert (VV : val (fmul k t) = val (fmul t k)) by (rewrite Vm, Vm', Rmult_comm; reflexivity).
  rewrite <- VV in N1, E1.
  destruct (gt_exp T G _ Fm' N1) as (Fe & Be). pose proof (AE _ Fm' N1) as De.
  unfold r_decay_dt. set (rd := r_decay T a k t). unfold r_decay in rd. set (e := t_exp T (fmul k t)) in *.
  assert (E50 : bpow radix2 (-50) = 8 * uro).
  { rewrite uro_val. change 8 with (bpow radix2 3). rewrite <- bpow_plus. reflexivity. }
  assert (E49 : bpow radix2 (-49) = 16 * uro).
  { rewrite uro_val. change 16 with (bpow radix2 4). rewrite <- bpow_plus. reflexivity. }
  assert (E75 : bpow radix2 (-1075) = / 2 * bpow radix2 (-1074)).
  { change (-1074)%Z with (-1075 + 1)%Z. rewrite bpow_S. field. }
  rewrite E50 in De. rewrite E49, E75.
  assert (ND : val t * (-2 / val d) <= 0) by (unfold Rdiv; fold i; nra).
  assert (DE : Rabs (val e - exp (-2 * val t / val d)) <= 8 * uro + 9 * uro * (U / D)).
  { replace (-2 * val t / val d) with (val t * (-2 / val d)) by (unfold Rdiv; ring).
    replace (val e - exp (val t * (-2 / val d))) with
      ((val e - exp (val (fmul k t))) + (exp (val (fmul k t)) - exp (val t * (-2 / val d)))) by ring.
    eapply Rle_trans; [apply Rabs_triang|]. apply Rplus_le_compat; [exact De|].
    eapply Rle_trans; [apply exp_lip; assumption|exact E1]. }
  assert (BE : 0 <= exp (-2 * val t / val d) <= 1).
  { split; [left; apply exp_pos|]. rewrite <- exp_0.
    replace (-2 * val t / val d) with (val t * (-2 / val d)) by (unfold Rdiv; ring).
    destruct ND as [H|H]; [left; apply exp_increasing, H|rewrite H; right; reflexivity]. }
  set (E := exp (-2 * val t / val d)) in *. set (q := U / D) in *.
  assert (PQ : 0 < q) by (apply Rdiv_lt_0_compat; lra). assert (UQ : 0 < uro * q) by (apply Rmult_lt_0_compat; lra).
  set (A := Rabs (val a)) in *. assert (PA : 0 <= A) by apply Rabs_pos.
  assert (MA : Rabs (val a * val e) <= A).
  { rewrite Rabs_mult. fold A. rewrite <- (Rmult_1_r A) at 2. apply Rmult_le_compat_l; [exact PA|]. apply Rabs_le. lra. }
  assert (L500 : bpow radix2 500 <= bpow radix2 1023) by (apply bpow_le; lia).
  destruct (fmul_val a e Fa Fe) as [Fr Vr]; [lra|]. fold rd in Fr, Vr.
  assert (BR : Rabs (val rd) <= A).
  { rewrite Vr. apply rnd_abs_le; [|exact MA]. unfold A. destruct (Rcase_abs (val a)) as [H|H].
    - rewrite Rabs_left by exact H. apply generic_format_opp, val_fmt.
    - rewrite Rabs_right by exact H. apply val_fmt. }
  assert (D3 : Rabs (val rd - val a * E) <= (9 * uro + 9 * (uro * q)) * A + / 2 * eta).
  { rewrite Vr. pose proof (rnd_near (val a * val e)) as N.
    replace (rnd (val a * val e) - val a * E) with ((rnd (val a * val e) - val a * val e) + val a * (val e - E)) by ring.
    eapply Rle_trans; [apply Rabs_triang|]. rewrite (Rabs_mult (val a) (val e - E)). fold A.
    assert (A * Rabs (val e - E) <= A * (8 * uro + 9 * uro * q)) by (apply Rmult_le_compat_l; assumption).
    assert (uro * Rabs (val a * val e) <= uro * A) by (apply Rmult_le_compat_l; lra). lra. }
  assert (UA : 0 <= uro * A) by (apply Rmult_le_pos; lra). assert (UQA : 0 <= uro * q * A) by (apply Rmult_le_pos; lra).
  assert (BRK : Rabs (val rd * val k) <= A * (9 / 4 * i)).
  { rewrite Rabs_mult. apply Rmult_le_compat; auto using Rabs_pos. }
  destruct (fmul_val rd k Fr Fk) as [Fz Vz].
  { eapply Rle_trans; [exact BRK|]. apply Rle_trans with (bpow radix2 500 * bpow radix2 202).
    - apply Rmult_le_compat; lra.
    - rewrite <- bpow_plus. apply bpow_le. lia. }
  split; [exact Fr|]. split; [exact Fz|]. split; [lra|].
  rewrite Vz. pose proof (rnd_near (val rd * val k)) as N. set (kk := -2 / val d) in *.
  replace (rnd (val rd * val k) - kk * (val a * E))
    with ((rnd (val rd * val k) - val rd * val k) + ((val rd - val a * E) * val k + val a * E * (val k - kk))) by ring.
  eapply Rle_trans; [apply Rabs_triang|]. eapply Rle_trans; [apply Rplus_le_compat_l, Rabs_triang|].
  rewrite (Rabs_mult (val rd - val a * E)), (Rabs_mult (val a * E)), (Rabs_mult (val a) E). fold A. rewrite (Rabs_pos_eq E) by lra.
  assert (X1 : Rabs (val rd - val a * E) * Rabs (val k) <= ((9 * uro + 9 * (uro * q)) * A + / 2 * eta) * (2 * i + 3 * uro * i)).
  { apply Rmult_le_compat; auto using Rabs_pos. replace (val k) with ((val k - kk) + kk) by ring.
    eapply Rle_trans; [apply Rabs_triang|]. lra. }
  assert (X2 : A * E * Rabs (val k - kk) <= A * 1 * (3 * uro * i)).
  { apply Rmult_le_compat; auto using Rabs_pos; [apply Rmult_le_pos; lra|]. apply Rmult_le_compat_l; lra. }
  assert (X3 : uro * Rabs (val rd * val k) <= uro * (A * (9 / 4 * i))) by (apply Rmult_le_compat_l; lra).
  replace (2 / val d) with (2 * i) by reflexivity.
  set (h := uro * A * i). set (g := uro * q * A * i).
  assert (Ph : 0 <= h) by (apply Rmult_le_pos; lra). assert (Pg : 0 <= g) by (apply Rmult_le_pos; lra).
  assert (Uh : uro * h <= / 1048576 * h) by (apply Rmult_le_compat_r; lra).
  assert (Ug : uro * g <= / 1048576 * g) by (apply Rmult_le_compat_r; lra).
  assert (PEI : 0 <= eta * i) by (apply Rmult_le_pos; lra).
  assert (UEI : uro * (eta * i) <= / 1048576 * (eta * i)) by (apply Rmult_le_compat_r; lra).
  replace (((9 * uro + 9 * (uro * q)) * A + / 2 * eta) * (2 * i + 3 * uro * i))
    with (18 * h + 18 * g + 27 * (uro * h) + 27 * (uro * g) + eta * i + 3 / 2 * (uro * (eta * i))) in X1 by (unfold h, g; field).
  replace (A * 1 * (3 * uro * i)) with (3 * h) in X2 by (unfold h; ring).
  replace (uro * (A * (9 / 4 * i))) with (9 / 4 * h) in X3 by (unfold h; ring).
  replace (16 * uro * (1 + q) * (2 * i) * A) with (32 * h + 32 * g) by (unfold h, g; ring).
  replace ((1 + 2 * i) * bpow radix2 (-1074)) with (eta + 2 * (eta * i)) by ring. lra.
Qed.
Print Assumptions c109_decay.

(** A point of a [Beat] near the decays of two modes. *)
Definition decays_to (U D a d t : R) (x : f64_num) : Prop :=
  Rabs (val x - a * exp (-2 * t / d)) <= bpow radix2 (-49) * (1 + U / D) * Rabs a + bpow radix2 (-1075).
Definition slopes_to (U D a d t : R) (x : f64_num) : Prop :=
  Rabs (val x - -2 / d * (a * exp (-2 * t / d)))
    <= bpow radix2 (-49) * (1 + U / D) * (2 / d) * Rabs a + (1 + 2 / d) * bpow radix2 (-1074).

(** C109. The audio of a [ModalBeat] is that of a [Beat] whose amplitudes are the decays of the
    two modes, with their derivatives, and whose initial amplitudes are those of the modes. *)
Theorem c109_modal : forall T (a0 a1 f0 f1 d0 d1 p0 p1 : f64_num) ts U D, good_trig T -> accurate_exp T -> moderate U -> moderate D ->
  bd a0 500 -> bd a1 500 -> finite d0 -> finite d1 -> D <= val d0 <= bpow radix2 200 -> D <= val d1 <= bpow radix2 200 ->
  Forall (fun t : f64_num => finite t /\ 0 <= val t <= U) ts ->
  exists z0 z1 qs, r_modal_audio T a0 a1 f0 f1 d0 d1 p0 p1 ts = Ok (r_audio T z0 z1 qs) /\
    Rabs (val z0 - val a0) <= bpow radix2 (-49) * (1 + U / D) * Rabs (val a0) + bpow radix2 (-1075) /\
    Rabs (val z1 - val a1) <= bpow radix2 (-49) * (1 + U / D) * Rabs (val a1) + bpow radix2 (-1075) /\
    Forall2 (fun (t : f64_num) q =>
      r_t q = t /\ r_f0 q = f0 /\ r_f1 q = f1 /\ r_p0 q = p0 /\ r_p1 q = p1 /\
      decays_to U D (val a0) (val d0) (val t) (r_a0 q) /\ decays_to U D (val a1) (val d1) (val t) (r_a1 q) /\
      slopes_to U D (val a0) (val d0) (val t) (r_da0 q) /\ slopes_to U D (val a1) (val d1) (val t) (r_da1 q)) ts qs.
Proof.
  intros T a0 a1 f0 f1 d0 d1 p0 p1 ts U D G AE RU RD B0 B1 Fd0 Fd1 H0 H1 HT.
  pose proof (rng_pos _ _ _ RU) as PU. pose proof (rng_pos _ _ _ RD) as PD.
  assert (S : forall a d, bd a 500 -> finite d -> D <= val d <= bpow radix2 200 -> exists k, r_decay_k d = Ok k /\
    forall t : f64_num, finite t -> 0 <= val t <= U ->
      decays_to U D (val a) (val d) (val t) (r_decay T a k t) /\ slopes_to U D (val a) (val d) (val t) (r_decay_dt T a k t)).
  { intros a d Ba Fd Hd. exists (fdiv (f64_of (-2) 0) d). assert (K : r_decay_k d = Ok (fdiv (f64_of (-2) 0) d)) by (apply f64_div_ok; lra).
    split; [exact K|]. intros t Ft Ht. destruct (c109_decay T a d t U D G AE RU RD Ba Ft Fd Ht Hd) as (k & K' & _ & _ & X & Y).
    rewrite K in K'. injection K' as <-. split; assumption. }
  destruct (S a0 d0 B0 Fd0 H0) as (k0 & K0 & S0). destruct (S a1 d1 B1 Fd1 H1) as (k1 & K1 & S1).
  destruct (int_val 0 ltac:(lia)) as [FZ VZ].
  assert (Z : forall a d (x : f64_num), decays_to U D a d (val (f64_of 0 0)) x ->
    Rabs (val x - a) <= bpow radix2 (-49) * (1 + U / D) * Rabs a + bpow radix2 (-1075)).
  { intros a d x H. unfold decays_to in H. rewrite VZ in H. unfold Rdiv in H at 1. rewrite Rmult_0_r, Rmult_0_l, exp_0, Rmult_1_r in H. exact H. }
  unfold r_modal_audio. rewrite K0, K1. cbn [bind]. do 3 eexists. split; [reflexivity|].
  split; [apply (Z _ (val d0)), S0; [exact FZ|rewrite VZ; lra]|]. split; [apply (Z _ (val d1)), S1; [exact FZ|rewrite VZ; lra]|].
  induction HT as [|t ts [Ft Ht] _ IH]; constructor; [|exact IH].
  destruct (S0 t Ft Ht). destruct (S1 t Ft Ht). repeat split; assumption.
Qed.
Print Assumptions c109_modal.

Example c109_decay_example :
  (exists k, r_decay_k (f64_of 4 0) = Ok k /\ B2SF k = B2SF (f64_of (-1) (-1)) /\
   B2SF (r_decay flat_trig (f64_of 3 0) k (f64_of 2 0)) = B2SF (f64_of 3 (-1)) /\
   B2SF (r_decay_dt flat_trig (f64_of 3 0) k (f64_of 2 0)) = B2SF (f64_of (-3) (-2))) /\
  r_decay_k (f64_of 0 0) = Err ZeroDivisionError /\ moderate 4 /\ moderate 2.
Proof.
  split; [|split].
  - eexists. split; [reflexivity|]. vm_compute. repeat split; reflexivity.
  - reflexivity.
  - assert (bpow radix2 (-200) <= 1) by (change 1 with (bpow radix2 0); apply bpow_le; lia).
    assert (4 <= bpow radix2 200) by (change 4 with (bpow radix2 2) at 1; apply bpow_le; lia). split; split; lra.
Qed.
