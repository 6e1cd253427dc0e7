(** C109, continued: the phase of the audio of beats is the integral of its frequency, in
    double precision. *)
From Coq Require Import String ZArith Reals Lra Lia Bool List.
From Flocq Require Import Core IEEE754.BinarySingleNaN.
Import ListNotations.
From Verif Require Import Base ListLemmas RLists Double_Model Double_Float Peak_Model Peak_Round Peak_Accuracy
  Peak_Proofs Clock_Proofs Ripple_Model Ripple_Proofs Ripple_Audio Ripple_Pi Ripple_Props.
Local Open Scope R_scope.

(** The area under the first [i] segments of the line through the points [(x, y)] of
    [yx], and under their moduli. *)
Definition y_at (yx : list (f64_num * f64_num)) (j : nat) : R := val (fst (nth j yx (f64_of 0 0, f64_of 0 0))).
Definition x_at (yx : list (f64_num * f64_num)) (j : nat) : R := val (snd (nth j yx (f64_of 0 0, f64_of 0 0))).
Definition area (yx : list (f64_num * f64_num)) (i : nat) : R :=
  rsum (map (fun j => (x_at yx (S j) - x_at yx j) * (y_at yx j + y_at yx (S j)) / 2) (seq 0 i)).
Definition area_abs (yx : list (f64_num * f64_num)) (i : nat) : R :=
  rsum (map (fun j => Rabs (x_at yx (S j) - x_at yx j) * Rabs (y_at yx j + y_at yx (S j)) / 2) (seq 0 i)).

Lemma area_cons : forall p l i, area (p :: l) (S i) =
  (x_at l 0 - val (snd p)) * (val (fst p) + y_at l 0) / 2 + area l i.
Proof.
  intros p l i. unfold area. cbn [seq map]. change (rsum (?a :: ?l)) with (a + rsum l). f_equal.
  rewrite <- seq_shift, map_map. reflexivity.
Qed.
Lemma area_abs_cons : forall p l i, area_abs (p :: l) (S i) =
  Rabs (x_at l 0 - val (snd p)) * Rabs (val (fst p) + y_at l 0) / 2 + area_abs l i.
Proof.
  intros p l i. unfold area_abs. cbn [seq map]. change (rsum (?a :: ?l)) with (a + rsum l). f_equal.
  rewrite <- seq_shift, map_map. reflexivity.
Qed.
Lemma area_abs_nonneg : forall l i, 0 <= area_abs l i.
Proof.
  intros l i. unfold area_abs. induction (seq 0 i) as [|j s IH]; cbn [map]; [right; reflexivity|].
  apply Rplus_le_le_0_compat; [|exact IH]. apply Rmult_le_pos; [apply Rmult_le_pos; apply Rabs_pos|lra].
Qed.
Lemma area_le : forall l i, Rabs (area l i) <= area_abs l i.
Proof.
  intros l i. unfold area, area_abs. induction (seq 0 i) as [|j s IH]; cbn [map].
  { change (rsum []) with 0. rewrite Rabs_R0. lra. }
  change (rsum (?a :: ?l)) with (a + rsum l). eapply Rle_trans; [apply Rabs_triang|]. apply Rplus_le_compat; [|exact IH].
  unfold Rdiv. rewrite !Rabs_mult, (Rabs_pos_eq (/ 2)) by lra. lra.
Qed.

(** One segment. *)
Lemma segment_ok : forall y y0 x x0 : f64_num, bd y 668 -> bd y0 668 -> bd x 60 -> bd x0 60 ->
  let s := Rabs (val x - val x0) * Rabs (val y0 + val y) / 2 in
  let z := fdiv (fmul (fsub x x0) (fadd y y0)) (f64_of 2 0) in
  finite z /\ Rabs (val z - (val x - val x0) * (val y0 + val y) / 2) <= 6 * uro * s + eta /\ s <= bpow radix2 729.
Proof.
  intros y y0 x x0 [Fy By] [Fy0 By0] [Fx Bx] [Fx0 Bx0] s z.
  destruct half_val as [F2 V2]. pose proof uro_pos as UP. pose proof uro_tiny as UT. pose proof eta_pos as EP.
  assert (BX : Rabs (val x - val x0) <= bpow radix2 61).
  { change 61%Z with (60 + 1)%Z. rewrite bpow_S. apply Rabs_le_inv in Bx. apply Rabs_le_inv in Bx0. apply Rabs_le. lra. }
  assert (BY : Rabs (val y + val y0) <= bpow radix2 669).
  { change 669%Z with (668 + 1)%Z. rewrite bpow_S. apply Rabs_le_inv in By. apply Rabs_le_inv in By0. apply Rabs_le. lra. }
  destruct (fsub_rel x x0 Fx Fx0) as (e1 & E1 & Fd & Vd); [eapply Rle_trans; [exact BX|apply bpow_le; lia]|].
  destruct (fadd_rel y y0 Fy Fy0) as (e2 & E2 & Fs & Vs); [eapply Rle_trans; [exact BY|apply bpow_le; lia]|].
  set (q := (val x - val x0) * (val y + val y0)) in *. set (Q := Rabs q).
  assert (EQ : Q = Rabs (val x - val x0) * Rabs (val y0 + val y)).
  { unfold Q, q. rewrite Rabs_mult. f_equal. f_equal. ring. }
  assert (BQ : Q <= bpow radix2 730).
  { rewrite EQ, (Rplus_comm (val y0)). change 730%Z with (61 + 669)%Z. rewrite bpow_plus.
    apply Rmult_le_compat; auto using Rabs_pos. }
  assert (PQ : 0 <= Q) by apply Rabs_pos.
  set (v1 := val (fsub x x0) * val (fadd y y0)).
  assert (EV : v1 = q * ((1 + e1) * (1 + e2))) by (unfold v1, q; rewrite Vd, Vs; ring).
  assert (D1 : Rabs (v1 - q) <= 3 * uro * Q).
  { rewrite EV. replace (q * ((1 + e1) * (1 + e2)) - q) with (q * (e1 + e2 + e1 * e2)) by ring.
    rewrite Rabs_mult. fold Q. rewrite Rmult_comm. apply Rmult_le_compat_r; [exact PQ|].
    eapply Rle_trans; [apply Rabs_triang|]. eapply Rle_trans; [apply Rplus_le_compat_r, Rabs_triang|]. rewrite Rabs_mult.
    assert (Rabs e1 * Rabs e2 <= uro * 1) by (apply Rmult_le_compat; try apply Rabs_pos; lra). lra. }
  assert (U1 : 3 * uro * Q <= / 1024 * Q) by (apply Rmult_le_compat_r; lra).
  assert (A1 : Rabs v1 <= 2 * Q).
  { replace v1 with ((v1 - q) + q) by ring. eapply Rle_trans; [apply Rabs_triang|]. fold Q. lra. }
  assert (L731 : 2 * bpow radix2 730 <= bpow radix2 1000) by (rewrite <- bpow_S; apply bpow_le; lia).
  destruct (fmul_val _ _ Fd Fs) as [Fm Vm].
  { fold v1. assert (bpow radix2 1000 <= bpow radix2 1023) by (apply bpow_le; lia). lra. }
  fold v1 in Vm. pose proof (rnd_near v1) as R1. rewrite <- Vm in R1. set (m := val (fmul (fsub x x0) (fadd y y0))) in *.
  assert (E1' : eta <= 1) by (change 1 with (bpow radix2 0); apply bpow_le; lia).
  assert (A1' : Rabs v1 <= 5 / 4 * Q).
  { replace v1 with ((v1 - q) + q) by ring. eapply Rle_trans; [apply Rabs_triang|]. fold Q. lra. }
  assert (X1 : uro * Rabs v1 <= uro * (5 / 4 * Q)) by (apply Rmult_le_compat_l; lra).
  assert (D2 : Rabs (m - q) <= 17 / 4 * (uro * Q) + / 2 * eta).
  { replace (m - q) with ((m - v1) + (v1 - q)) by ring. eapply Rle_trans; [apply Rabs_triang|]. lra. }
  assert (UQ : 0 <= uro * Q <= / 1048576 * Q) by (split; [apply Rmult_le_pos; lra|apply Rmult_le_compat_r; lra]).
  assert (A2 : Rabs m <= 5 / 4 * Q + / 2 * eta).
  { replace m with ((m - q) + q) by ring. eapply Rle_trans; [apply Rabs_triang|]. fold Q. lra. }
  assert (H2 : Rabs (m / 2) <= 5 / 8 * Q + / 4 * eta).
  { unfold Rdiv. rewrite Rabs_mult, (Rabs_pos_eq (/ 2)) by lra. lra. }
  assert (L1000 : 1 <= bpow radix2 1000) by (change 1 with (bpow radix2 0); apply bpow_le; lia).
  destruct (fdiv_val (fmul (fsub x x0) (fadd y y0)) (f64_of 2 0) Fm) as [Fz Vz].
  { rewrite V2. lra. }
  { rewrite V2. fold m. assert (2 * bpow radix2 1000 <= bpow radix2 1023) by (rewrite <- bpow_S; apply bpow_le; lia). lra. }
  fold z in Fz, Vz. rewrite V2 in Vz. fold m in Vz. pose proof (rnd_near (m / 2)) as R2. rewrite <- Vz in R2.
  split; [exact Fz|]. split.
  - replace ((val x - val x0) * (val y0 + val y) / 2) with (q / 2) by (unfold q; field).
    replace (val z - q / 2) with ((val z - m / 2) + (m - q) * / 2) by field.
    eapply Rle_trans; [apply Rabs_triang|]. rewrite (Rabs_mult (m - q)), (Rabs_pos_eq (/ 2)) by lra.
    assert (X2 : uro * Rabs (m / 2) <= uro * (5 / 8 * Q + / 4 * eta)) by (apply Rmult_le_compat_l; lra).
    assert (X3 : uro * eta <= / 1048576 * eta) by (apply Rmult_le_compat_r; lra).
    assert (ES : 6 * uro * s = 3 * (uro * Q)) by (unfold s; rewrite EQ; field). rewrite ES. lra.
  - unfold s. rewrite <- EQ. change 730%Z with (729 + 1)%Z in BQ. rewrite bpow_S in BQ. lra.
Qed.

(** The sum so far. *)
Lemma integral_from : forall yx (acc y0 x0 : f64_num) (k : nat) s S, finite acc -> bd y0 668 -> bd x0 60 ->
  Forall (fun p : f64_num * f64_num => bd (fst p) 668 /\ bd (snd p) 60) yx ->
  Rabs s <= S -> S <= INR k * bpow radix2 729 -> Rabs (val acc - s) <= 8 * uro * INR k * S + 4 * INR k * eta ->
  (Z.of_nat (k + List.length yx) <= 2 ^ 50)%Z ->
  forall i v, nth_error (f_trapz_from acc y0 x0 yx) i = Some v -> finite v /\
    Rabs (val v - (s + area ((y0, x0) :: yx) (i + 1)))
      <= 8 * uro * INR (k + (i + 1)) * (S + area_abs ((y0, x0) :: yx) (i + 1)) + 4 * INR (k + (i + 1)) * eta.
Proof.
  pose proof uro_pos as UP. pose proof uro_tiny as UT. pose proof eta_pos as EP.
  assert (E1 : eta <= 1) by (change 1 with (bpow radix2 0); apply bpow_le; lia).
  induction yx as [|[y x] yx IH]; intros acc y0 x0 k s S Fa By0 Bx0 FY Hs HS HA HL i v Hv; [destruct i; discriminate Hv|].
  inversion FY as [|? ? [By Bx] FY']; subst. cbn [fst snd] in By, Bx. cbn [f_trapz_from] in Hv.
  destruct (segment_ok y y0 x x0 By By0 Bx Bx0) as (Fz & Dz & Sz). cbv zeta in Fz, Dz, Sz.
  set (z := fdiv (fmul (fsub x x0) (fadd y y0)) (f64_of 2 0)) in *.
  set (g := (val x - val x0) * (val y0 + val y) / 2) in *. set (G := Rabs (val x - val x0) * Rabs (val y0 + val y) / 2) in *.
  assert (GG : Rabs g <= G).
  { unfold g, G, Rdiv. rewrite !Rabs_mult, (Rabs_pos_eq (/ 2)) by lra. lra. }
  assert (PG : 0 <= G) by (pose proof (Rabs_pos g); lra). assert (PS : 0 <= S) by (pose proof (Rabs_pos s); lra).
  cbn [List.length] in HL. pose proof (pos_INR k) as Pk.
  assert (K50 : INR k <= bpow radix2 50) by (rewrite INR_IZR_INZ; apply IZR_le_bpow; lia).
  assert (KU : 8 * uro * INR k <= 1).
  { apply Rle_trans with (8 * uro * bpow radix2 50); [apply Rmult_le_compat_l; lra|].
    rewrite uro_val. change 8 with (bpow radix2 3). rewrite <- !bpow_plus. cbn. lra. }
  assert (KE : 4 * INR k * eta <= 1).
  { apply Rle_trans with (4 * bpow radix2 50 * eta); [apply Rmult_le_compat_r; lra|].
    change 4 with (bpow radix2 2). rewrite <- !bpow_plus. change 1 with (bpow radix2 0). apply bpow_le. lia. }
  assert (B779 : INR k * bpow radix2 729 <= bpow radix2 779).
  { change 779%Z with (50 + 729)%Z. rewrite bpow_plus. apply Rmult_le_compat_r; [apply bpow_ge_0|exact K50]. }
  assert (BA : Rabs (val acc) <= 2 * S + 4 * INR k * eta).
  { replace (val acc) with ((val acc - s) + s) by ring. eapply Rle_trans; [apply Rabs_triang|].
    assert (8 * uro * INR k * S <= 1 * S) by (apply Rmult_le_compat_r; lra). lra. }
  assert (UG : 6 * uro * G <= / 1024 * G) by (apply Rmult_le_compat_r; lra).
  assert (BZ : Rabs (val z) <= 2 * G + eta).
  { replace (val z) with ((val z - g) + g) by ring. eapply Rle_trans; [apply Rabs_triang|]. lra. }
  destruct (fadd_rel acc z Fa Fz) as (e & Be & Fn & Vn).
  { eapply Rle_trans; [apply Rabs_triang|].
    assert (1 <= bpow radix2 779) by (change 1 with (bpow radix2 0); apply bpow_le; lia).
    assert (bpow radix2 729 <= bpow radix2 779) by (apply bpow_le; lia).
    assert (8 * bpow radix2 779 <= bpow radix2 1023) by (change 8 with (bpow radix2 3); rewrite <- bpow_plus; apply bpow_le; lia). lra. }
  set (acc' := fadd acc z) in *.
  assert (HA' : Rabs (val acc' - (s + g)) <= 8 * uro * INR (k + 1) * (S + G) + 4 * INR (k + 1) * eta).
  { rewrite Vn. replace ((val acc + val z) * (1 + e) - (s + g)) with ((val acc - s) + (val z - g) + (val acc + val z) * e) by ring.
    eapply Rle_trans; [apply Rabs_triang|]. eapply Rle_trans; [apply Rplus_le_compat_r, Rabs_triang|]. rewrite (Rabs_mult _ e).
    assert (X : Rabs (val acc + val z) * Rabs e <= (2 * S + 4 * INR k * eta + (2 * G + eta)) * uro).
    { apply Rmult_le_compat; try apply Rabs_pos; [|exact Be]. eapply Rle_trans; [apply Rabs_triang|]. lra. }
    rewrite plus_INR. change (INR 1) with 1.
    assert (Y1 : uro * (4 * INR k * eta) <= eta).
    { replace (uro * (4 * INR k * eta)) with (8 * uro * INR k * (/ 2 * eta)) by field.
      apply Rle_trans with (1 * (/ 2 * eta)); [apply Rmult_le_compat_r; lra|lra]. }
    assert (Y2 : uro * eta <= eta) by (rewrite <- (Rmult_1_l eta) at 2; apply Rmult_le_compat_r; lra).
    assert (Y3 : 0 <= 8 * uro * INR k * G) by (apply Rmult_le_pos; [apply Rmult_le_pos; lra|exact PG]).
    assert (Y4 : 0 <= uro * S) by (apply Rmult_le_pos; lra). assert (Y5 : 0 <= uro * G) by (apply Rmult_le_pos; [lra|exact PG]).
    replace (8 * uro * (INR k + 1) * (S + G)) with (8 * uro * INR k * S + 8 * uro * INR k * G + 8 * (uro * S) + 8 * (uro * G)) by ring.
    replace ((2 * S + 4 * INR k * eta + (2 * G + eta)) * uro)
      with (2 * (uro * S) + uro * (4 * INR k * eta) + 2 * (uro * G) + uro * eta) in X by ring.
    lra. }
  destruct i as [|i]; cbn [nth_error] in Hv.
  - injection Hv as <-. split; [exact Fn|]. change (0 + 1)%nat with 1%nat.
    rewrite area_cons, area_abs_cons. cbn [fst snd]. change (x_at ((y, x) :: yx) 0) with (val x). change (y_at ((y, x) :: yx) 0) with (val y).
    fold g G. change (area ((y, x) :: yx) 0) with 0. change (area_abs ((y, x) :: yx) 0) with 0. rewrite !Rplus_0_r. exact HA'.
  - destruct (IH acc' y x (k + 1)%nat (s + g) (S + G) Fn By Bx FY') with (i := i) (v := v) as [Fv Dv]; auto.
    + eapply Rle_trans; [apply Rabs_triang|]. lra.
    + rewrite plus_INR. change (INR 1) with 1. lra.
    + cbn [List.length] in *. lia.
    + split; [exact Fv|]. change (Datatypes.S i + 1)%nat with (Datatypes.S (i + 1)).
      rewrite area_cons, area_abs_cons. cbn [fst snd]. change (x_at ((y, x) :: yx) 0) with (val x). change (y_at ((y, x) :: yx) 0) with (val y).
      fold g G. rewrite <- !Rplus_assoc. replace (k + Datatypes.S (i + 1))%nat with (k + 1 + (i + 1))%nat by lia. exact Dv.
Qed.

(** C109. The numbers [cumulative_trapezoid] returns are the areas under the line through
    the points, up to [2^-50] for every segment of the area under the moduli. *)
Theorem c109_integral : forall yx i v, (Z.of_nat (List.length yx) <= 2 ^ 50)%Z ->
  Forall (fun p : f64_num * f64_num => bd (fst p) 668 /\ bd (snd p) 60) yx ->
  nth_error (f_cumtrapz yx) i = Some v ->
  finite v /\ Rabs (val v - area yx i) <= bpow radix2 (-50) * INR i * area_abs yx i + INR i * bpow radix2 (-1072).
Proof.
  intros [|[y x] yx] i v HL FY Hv; [destruct i; discriminate Hv|]. cbn [f_cumtrapz] in Hv.
  destruct (int_val 0 ltac:(lia)) as [F0 V0]. destruct i as [|i]; cbn [nth_error] in Hv.
  - assert (Ev : v = f64_of 0 0) by (now injection Hv). rewrite Ev. split; [exact F0|]. rewrite V0. change (area ((y, x) :: yx) 0) with 0. cbn [INR].
    rewrite Rminus_0_r, Rabs_R0. lra.
  - inversion FY as [|? ? [By Bx] FY']; subst. cbn [fst snd] in By, Bx. cbn [List.length] in HL.
    destruct (integral_from yx (f64_of 0 0) y x 0 0 0 F0 By Bx FY') with (i := i) (v := v) as [Fv Dv]; auto.
    + rewrite Rabs_R0. lra.
    + cbn [INR]. lra.
    + rewrite V0, Rminus_0_r, Rabs_R0. cbn [INR]. lra.
    + cbn [Nat.add]. lia.
    + split; [exact Fv|]. rewrite !Rplus_0_l in Dv. change (0 + (i + 1))%nat with (i + 1)%nat in Dv.
      replace (i + 1)%nat with (S i) in Dv by lia. eapply Rle_trans; [exact Dv|]. right.
      assert (E50 : bpow radix2 (-50) = 8 * uro).
      { rewrite uro_val. change 8 with (bpow radix2 3). rewrite <- bpow_plus. reflexivity. }
      assert (E72 : bpow radix2 (-1072) = 4 * eta).
      { change 4 with (bpow radix2 2). rewrite <- bpow_plus. reflexivity. }
      rewrite E50, E72. ring.
Qed.
Print Assumptions c109_integral.

(** ** The initial phase *)

(** numpy's sine is a sine, and its [arctan2] the angle of a point. *)
Definition accurate_sin (T : trig) : Prop :=
  forall x : f64_num, finite x -> Rabs (val (t_sin T x) - sin (val x)) <= bpow radix2 (-50).
Definition accurate_atan2 (T : trig) : Prop := forall y x : f64_num, finite y -> finite x ->
  exists r th, 0 <= r /\ val x = r * cos th /\ val y = r * sin th /\ Rabs (val (t_atan2 T y x) - th) <= bpow radix2 (-48).

Lemma sin_lip : forall x y, Rabs (sin x - sin y) <= Rabs (x - y).
Proof.
  intros x y. rewrite !sin_cos.
  replace (- cos (PI / 2 + x) - - cos (PI / 2 + y)) with (cos (PI / 2 + y) - cos (PI / 2 + x)) by ring.
  eapply Rle_trans; [apply cos_lip|]. rewrite Rabs_minus_sym. right. f_equal. ring.
Qed.

(** C109. The initial phase is the mean of the phases plus the angle of a point
    that is, up to rounding, [((z0 + z1) / 2 cos((p0 - p1) / 2), (z0 - z1) / 2 sin((p0 - p1) / 2))],
    with [z0] and [z1] the amplitudes at time zero. *)
Theorem c109_start : forall T q z0 z1 Z P, good_trig T -> accurate T -> accurate_sin T -> accurate_atan2 T ->
  moderate Z -> moderate P -> finite z0 -> finite z1 -> Rabs (val z0) <= Z -> Rabs (val z1) <= Z ->
  finite (r_p0 q) -> finite (r_p1 q) -> Rabs (val (r_p0 q)) <= P -> Rabs (val (r_p1 q)) <= P ->
  finite (r_phase0 T z0 z1 q) /\ exists r th, 0 <= r /\
    Rabs (r * cos th - (val z0 + val z1) / 2 * cos ((val (r_p0 q) - val (r_p1 q)) / 2)) <= bpow radix2 (-49) * (1 + P) * Z /\
    Rabs (r * sin th - (val z0 - val z1) / 2 * sin ((val (r_p0 q) - val (r_p1 q)) / 2)) <= bpow radix2 (-49) * (1 + P) * Z /\
    Rabs (val (r_phase0 T z0 z1 q) - ((val (r_p0 q) + val (r_p1 q)) / 2 + th)) <= bpow radix2 (-47) * (1 + P) /\
    Rabs ((val (r_p0 q) + val (r_p1 q)) / 2 + th) <= P + 5.
Proof.
  intros T q z0 z1 Z P G AC AS AT RZ RP Fz0 Fz1 Bz0 Bz1 Fp0 Fp1 Bp0 Bp1.
  pose proof (rng_pos _ _ _ RZ) as PZ. pose proof (rng_pos _ _ _ RP) as PP. pose proof uro_pos as UP. pose proof uro_tiny as UT.
  assert (SEMI : forall (a b : f64_num) A, moderate A -> finite a -> finite b -> Rabs (val a) <= A -> Rabs (val b) <= A ->
    ap (f_semisum a b) ((val a + val b) / 2) A 4 /\ ap (f_semidiff a b) ((val a - val b) / 2) A 4).
  { intros a b A RA Fa Fb Ba Bb. pose proof (rng_pos _ _ _ RA) as PA. pose proof (rng_add _ _ _ _ RA RA) as RAA.
    replace A with ((A + A) / 2) by field. replace 4 with (2 + 2) by ring.
    split; (apply ap_half; [|lra|eapply rng_scale; [apply rng_half, RAA|lia|lia]]); replace 2 with (0 + 2) by ring;
      [apply ap_add|apply ap_sub]; try lra; try (apply ap_const; auto); eapply rng_scale; try exact RAA; lia. }
  destruct (SEMI z0 z1 Z RZ Fz0 Fz1 Bz0 Bz1) as [Zs Zd]. destruct (SEMI _ _ P RP Fp0 Fp1 Bp0 Bp1) as [Ps Pd].
  fold (r_p_hat q) in Pd. fold (r_p_oln q) in Ps.
  set (ph := (val (r_p0 q) - val (r_p1 q)) / 2) in *. set (po := (val (r_p0 q) + val (r_p1 q)) / 2) in *.
  destruct Pd as (Fh & Bh & Dh).
  assert (E50 : bpow radix2 (-50) = 8 * uro).
  { rewrite uro_val. change 8 with (bpow radix2 3). rewrite <- bpow_plus. reflexivity. }
  assert (UPP : 0 <= uro * P) by (apply Rmult_le_pos; lra).
  destruct (gt_cos T G _ Fh) as (Fc & _). destruct (gt_sin T G _ Fh) as (Fs & _).
  assert (Cc : ap (t_cos T (r_p_hat q)) (cos ph) (1 + P) 8).
  { split; [exact Fc|]. split; [pose proof (COS_bound ph); apply Rabs_le; lra|].
    replace (val (t_cos T (r_p_hat q)) - cos ph)
      with ((val (t_cos T (r_p_hat q)) - cos (val (r_p_hat q))) + (cos (val (r_p_hat q)) - cos ph)) by ring.
    eapply Rle_trans; [apply Rabs_triang|]. pose proof (AC _ Fh) as X. rewrite E50 in X.
    pose proof (cos_lip (val (r_p_hat q)) ph). lra. }
  assert (Ss : ap (t_sin T (r_p_hat q)) (sin ph) (1 + P) 8).
  { split; [exact Fs|]. split; [pose proof (SIN_bound ph); apply Rabs_le; lra|].
    replace (val (t_sin T (r_p_hat q)) - sin ph)
      with ((val (t_sin T (r_p_hat q)) - sin (val (r_p_hat q))) + (sin (val (r_p_hat q)) - sin ph)) by ring.
    eapply Rle_trans; [apply Rabs_triang|]. pose proof (AS _ Fh) as X. rewrite E50 in X.
    pose proof (sin_lip (val (r_p_hat q)) ph). lra. }
  assert (R1P : rng (1 + P) 0 201).
  { split; [change (bpow radix2 0) with 1; lra|]. change 201%Z with (200 + 1)%Z. rewrite bpow_S. destruct RP as [_ RP].
    assert (1 <= bpow radix2 200) by (change 1 with (bpow radix2 0); apply bpow_le; lia). lra. }
  assert (SZ : scale (Z * (1 + P))) by (eapply rng_scale; [apply (rng_mul _ _ _ _ _ _ RZ R1P)|lia|lia]).
  assert (X0 := ap_mul _ _ _ _ _ _ 4 8 Zs Cc ltac:(lra) ltac:(lra) ltac:(lra) ltac:(lra) SZ).
  assert (Y0 := ap_mul _ _ _ _ _ _ 4 8 Zd Ss ltac:(lra) ltac:(lra) ltac:(lra) ltac:(lra) SZ).
  set (x0 := fmul (f_semisum z0 z1) (t_cos T (r_p_hat q))) in *. set (y0 := fmul (f_semidiff z0 z1) (t_sin T (r_p_hat q))) in *.
  destruct X0 as (Fx & _ & Dx). destruct Y0 as (Fy & _ & Dy).
  destruct (AT y0 x0 Fy Fx) as (r & th & Pr & Ex & Ey & Da). destruct (gt_atan2 T G y0 x0 Fy Fx) as (Fa & Ba).
  assert (E48 : bpow radix2 (-48) = 32 * uro).
  { rewrite uro_val. change 32 with (bpow radix2 5). rewrite <- bpow_plus. reflexivity. }
  rewrite E48 in Da.
  assert (Bth : Rabs th <= 5).
  { replace th with (val (t_atan2 T y0 x0) - (val (t_atan2 T y0 x0) - th)) by ring.
    eapply Rle_trans; [apply Rabs_triang|]. rewrite Rabs_Ropp. lra. }
  assert (Aa : ap (t_atan2 T y0 x0) th 5 7) by (split; [exact Fa|]; split; [exact Bth|lra]).
  assert (SP : scale (P + 5)).
  { assert (bpow radix2 (-900) <= 1) by (change 1 with (bpow radix2 0); apply bpow_le; lia).
    destruct RP as [_ RP]. split; [lra|]. apply Rle_trans with (bpow radix2 (200 + 3)); [|apply bpow_le; lia].
    rewrite bpow_plus. change (bpow radix2 3) with 8.
    assert (1 <= bpow radix2 200) by (change 1 with (bpow radix2 0); apply bpow_le; lia). lra. }
  assert (W := ap_add _ _ _ _ _ _ 7 (ap_weak _ _ _ _ 7 P Ps ltac:(lra) ltac:(lra)) Aa ltac:(lra) ltac:(lra) ltac:(lra) SP).
  change (fadd (r_p_oln q) (t_atan2 T y0 x0)) with (r_phase0 T z0 z1 q) in W. destruct W as (Fw & Bw & Dw).
  split; [exact Fw|]. exists r, th. split; [exact Pr|].
  assert (E49 : bpow radix2 (-49) = 16 * uro).
  { rewrite uro_val. change 16 with (bpow radix2 4). rewrite <- bpow_plus. reflexivity. }
  assert (E47 : bpow radix2 (-47) = 64 * uro).
  { rewrite uro_val. change 64 with (bpow radix2 6). rewrite <- bpow_plus. reflexivity. }
  rewrite E49, E47, <- Ex, <- Ey.
  assert (UZ : 0 <= uro * (Z * (1 + P))) by (apply Rmult_le_pos; [lra|]; apply Rmult_le_pos; lra).
  repeat split; try assumption; try lra.
Qed.
Print Assumptions c109_start.

(** ** The audio *)

(** C109. Each sample is the envelope times the cosine of a phase: the area under the
    instantaneous frequencies before it, plus the initial phase of [c109_start]. *)
Theorem c109_sound : forall T z0 z1 qs Z P i q x, good_trig T -> accurate T -> accurate_sin T -> accurate_atan2 T ->
  moderate Z -> moderate P -> finite z0 -> finite z1 -> Rabs (val z0) <= Z -> Rabs (val z1) <= Z ->
  Forall audible qs -> (Z.of_nat (List.length qs) <= 2 ^ 50)%Z ->
  nth_error qs i = Some q -> nth_error (r_audio T z0 z1 qs) i = Some x ->
  Rabs (val (r_p0 q)) <= P -> Rabs (val (r_p1 q)) <= P ->
  let fs := map (fun q => (r_fm T q, r_t q)) qs in
  exists r th, 0 <= r /\
    Rabs (r * cos th - (val z0 + val z1) / 2 * cos ((val (r_p0 q) - val (r_p1 q)) / 2)) <= bpow radix2 (-49) * (1 + P) * Z /\
    Rabs (r * sin th - (val z0 - val z1) / 2 * sin ((val (r_p0 q) - val (r_p1 q)) / 2)) <= bpow radix2 (-49) * (1 + P) * Z /\
    Rabs (val x - val (r_am T q) * cos (area fs i + (val (r_p0 q) + val (r_p1 q)) / 2 + th))
      <= val (r_am T q) * (bpow radix2 (-46) * (1 + P) + bpow radix2 (-50) * (INR i + 1) * area_abs fs i) + bpow radix2 (-1075).
Proof.
  intros T z0 z1 qs Z P i q x G AC AS AT RZ RP Fz0 Fz1 Bz0 Bz1 FA HL Hq Hx Bp0 Bp1 fs.
  assert (Aq : audible q) by (rewrite Forall_forall in FA; apply FA; eapply nth_error_In, Hq).
  pose proof uro_pos as UP. pose proof uro_tiny as UT. pose proof eta_pos as EP.
  pose proof (rng_pos _ _ _ RP) as PP.
  destruct (c109_start T q z0 z1 Z P G AC AS AT RZ RP Fz0 Fz1 Bz0 Bz1 (proj1 (au_p0 q Aq)) (proj1 (au_p1 q Aq)) Bp0 Bp1)
    as (Fs & r & th & Pr & D1 & D2 & D3 & B3).
  exists r, th. split; [exact Pr|]. split; [exact D1|]. split; [exact D2|].
  (* the numbers behind a sample *)
  assert (LF : List.length fs = List.length qs) by apply map_length.
  assert (N : exists v, nth_error (f_cumtrapz fs) i = Some v /\ x = fmul (r_am T q) (t_cos T (fadd v (r_phase0 T z0 z1 q)))).
  { assert (C : forall (A B : Type) (l : list A) (m : list B) i p, nth_error (combine l m) i = Some p ->
      nth_error l i = Some (fst p) /\ nth_error m i = Some (snd p)).
    { intros A B l. induction l as [|a l IH]; intros [|b m] [|j] p H; try discriminate H; cbn in *; [injection H as <-; auto|eauto]. }
    unfold r_audio, r_pm in Hx. rewrite nth_error_map in Hx. fold fs in Hx.
    destruct (nth_error (combine _ qs) i) as [[p1 q1]|] eqn:E1; [|discriminate Hx]. injection Hx as <-.
    apply C in E1. cbn [fst snd] in E1. destruct E1 as [E1 E2]. rewrite Hq in E2. injection E2 as <-.
    rewrite nth_error_map in E1. destruct (nth_error (combine (f_cumtrapz fs) qs) i) as [[v q2]|] eqn:E3; [|discriminate E1].
    injection E1 as <-. apply C in E3. cbn [fst snd] in *. destruct E3 as [E3 E4]. rewrite Hq in E4. injection E4 as <-.
    exists v. auto. }
  destruct N as (v & Hv & ->).
  assert (FY : Forall (fun p : f64_num * f64_num => bd (fst p) 668 /\ bd (snd p) 60) fs).
  { unfold fs. apply Forall_map. eapply Forall_impl; [|exact FA]. intros q' H. split; [now apply fm_bd|apply au_t, H]. }
  destruct (c109_integral fs i v) as [Fv Dv]; auto; [rewrite LF; exact HL|].
  assert (Li : (i < List.length qs)%nat) by (apply nth_error_Some; congruence).
  pose proof (pos_INR i) as Pi. pose proof (area_abs_nonneg fs i) as PA. pose proof (area_le fs i) as AL.
  assert (I50 : INR i <= bpow radix2 50) by (rewrite INR_IZR_INZ; apply IZR_le_bpow; lia).
  assert (E50 : bpow radix2 (-50) = 8 * uro).
  { rewrite uro_val. change 8 with (bpow radix2 3). rewrite <- bpow_plus. reflexivity. }
  assert (E46 : bpow radix2 (-46) = 128 * uro).
  { rewrite uro_val. change 128 with (bpow radix2 7). rewrite <- bpow_plus. reflexivity. }
  assert (E47 : bpow radix2 (-47) = 64 * uro).
  { rewrite uro_val. change 64 with (bpow radix2 6). rewrite <- bpow_plus. reflexivity. }
  rewrite E50 in Dv |- *. rewrite E46. rewrite E47 in D3.
  assert (KU : 8 * uro * INR i <= 1).
  { apply Rle_trans with (8 * uro * bpow radix2 50); [apply Rmult_le_compat_l; lra|].
    rewrite uro_val. change 8 with (bpow radix2 3). rewrite <- !bpow_plus. cbn. lra. }
  assert (KE : INR i * bpow radix2 (-1072) <= uro).
  { apply Rle_trans with (bpow radix2 50 * bpow radix2 (-1072)); [apply Rmult_le_compat_r; [apply bpow_ge_0|exact I50]|].
    rewrite uro_val, <- bpow_plus. apply bpow_le. lia. }
  set (s := (val (r_p0 q) + val (r_p1 q)) / 2 + th) in *. set (S := area_abs fs i) in *. set (w := area fs i) in *.
  set (p0 := r_phase0 T z0 z1 q) in *.
  assert (US : 0 <= uro * S) by (apply Rmult_le_pos; lra). assert (UPP : 0 <= uro * P) by (apply Rmult_le_pos; lra).
  assert (KUS : 8 * uro * INR i * S <= 1 * S) by (apply Rmult_le_compat_r; lra).
  assert (BV : Rabs (val v) <= 2 * S + uro).
  { replace (val v) with ((val v - w) + w) by ring. eapply Rle_trans; [apply Rabs_triang|]. lra. }
  assert (BP : Rabs (val p0) <= 2 * P + 6).
  { replace (val p0) with ((val p0 - s) + s) by ring. eapply Rle_trans; [apply Rabs_triang|].
    assert (64 * uro * (1 + P) <= 1 * (1 + P)) by (apply Rmult_le_compat_r; lra). lra. }
  assert (BS : S <= INR i * bpow radix2 729).
  { unfold S, area_abs. assert (LS : List.length (seq 0 i) = i) by apply seq_length.
    assert (FS : Forall (fun j => (Datatypes.S j < List.length fs)%nat) (seq 0 i)).
    { apply Forall_forall. intros j Hj. apply in_seq in Hj. rewrite LF. lia. }
    rewrite <- LS at 2. clear LS. clear -FS FY. induction FS as [|j l Hj _ IH].
    - change (INR (List.length [])) with 0. change (rsum (map _ [])) with 0. lra.
    - cbn [map List.length]. rewrite S_INR.
      replace ((INR (List.length l) + 1) * bpow radix2 729) with (bpow radix2 729 + INR (List.length l) * bpow radix2 729) by ring.
      change (rsum (?a :: ?l)) with (a + rsum l). apply Rplus_le_compat; [|exact IH]. rewrite Forall_forall in FY.
      assert (I1 : In (nth j fs (f64_of 0 0, f64_of 0 0)) fs) by (apply nth_In; lia).
      assert (I2 : In (nth (Datatypes.S j) fs (f64_of 0 0, f64_of 0 0)) fs) by (apply nth_In; lia).
      destruct (FY _ I1) as [Y1 X1]. destruct (FY _ I2) as [Y2 X2].
      apply (segment_ok _ _ _ _ Y2 Y1 X2 X1). }
  assert (BS' : S <= bpow radix2 779).
  { eapply Rle_trans; [exact BS|]. change 779%Z with (50 + 729)%Z. rewrite bpow_plus. apply Rmult_le_compat_r; [apply bpow_ge_0|exact I50]. }
  assert (L7 : 1 <= bpow radix2 200) by (change 1 with (bpow radix2 0); apply bpow_le; lia).
  assert (L8 : bpow radix2 200 <= bpow radix2 779) by (apply bpow_le; lia).
  destruct (fadd_rel v p0 Fv Fs) as (e & Be & Fp & Vp).
  { eapply Rle_trans; [apply Rabs_triang|]. destruct RP as [_ RP].
    assert (16 * bpow radix2 779 <= bpow radix2 1023) by (change 16 with (bpow radix2 4); rewrite <- bpow_plus; apply bpow_le; lia). lra. }
  set (pm := fadd v p0) in *.
  assert (DP : Rabs (val pm - (w + s)) <= 8 * uro * INR i * S + 2 * (uro * S) + 75 * uro + 70 * (uro * P)).
  { rewrite Vp. replace ((val v + val p0) * (1 + e) - (w + s)) with ((val v - w) + (val p0 - s) + (val v + val p0) * e) by ring.
    eapply Rle_trans; [apply Rabs_triang|]. eapply Rle_trans; [apply Rplus_le_compat_r, Rabs_triang|]. rewrite (Rabs_mult _ e).
    assert (X : Rabs (val v + val p0) * Rabs e <= ((2 * S + uro) + (2 * P + 6)) * uro).
    { apply Rmult_le_compat; try apply Rabs_pos; [|exact Be]. eapply Rle_trans; [apply Rabs_triang|]. lra. }
    assert (uro * uro <= uro * 1) by (apply Rmult_le_compat_l; lra). lra. }
  destruct (am_bound T q G Aq) as (Fm & Pm & Bm). cbv zeta in Bm. set (m := val (r_am T q)) in *.
  destruct (gt_cos T G _ Fp) as (Fc & _ & Bc). pose proof (AC _ Fp) as Dc. rewrite E50 in Dc. set (c := val (t_cos T pm)) in *.
  assert (Bm' : m <= bpow radix2 110).
  { eapply Rle_trans; [exact Bm|]. destruct (au_a0 q Aq) as [_ X]. destruct (au_a1 q Aq) as [_ Y].
    rewrite Rabs_pos_eq in X by apply (au_pos0 q Aq). rewrite Rabs_pos_eq in Y by apply (au_pos1 q Aq).
    apply Rle_trans with ((bpow radix2 100 + bpow radix2 100) * 2).
    - apply Rmult_le_compat; try lra. pose proof (au_pos0 q Aq). pose proof (au_pos1 q Aq). lra.
    - apply Rle_trans with (bpow radix2 (100 + 2)); [|apply bpow_le; lia]. rewrite bpow_plus. change (bpow radix2 2) with 4. lra. }
  assert (MC : Rabs (m * c) <= m).
  { rewrite Rabs_mult, (Rabs_pos_eq m Pm). rewrite <- (Rmult_1_r m) at 2. apply Rmult_le_compat_l; [exact Pm|exact Bc]. }
  destruct (fmul_val (r_am T q) (t_cos T pm) Fm Fc) as [Fx Vx].
  { fold m c. assert (bpow radix2 110 <= bpow radix2 1023) by (apply bpow_le; lia). lra. }
  rewrite Vx. fold m c. pose proof (rnd_near (m * c)) as RN.
  assert (E75 : bpow radix2 (-1075) = / 2 * bpow radix2 (-1074)).
  { change (-1074)%Z with (-1075 + 1)%Z. rewrite bpow_S. field. }
  rewrite E75.
  replace (w + (val (r_p0 q) + val (r_p1 q)) / 2 + th) with (w + s) by (unfold s; ring).
  replace (rnd (m * c) - m * cos (w + s)) with ((rnd (m * c) - m * c) + m * ((c - cos (val pm)) + (cos (val pm) - cos (w + s)))) by ring.
  eapply Rle_trans; [apply Rabs_triang|]. rewrite (Rabs_mult m), (Rabs_pos_eq m Pm).
  assert (X1 : uro * Rabs (m * c) <= uro * m) by (apply Rmult_le_compat_l; lra).
  assert (X2 : m * Rabs ((c - cos (val pm)) + (cos (val pm) - cos (w + s)))
               <= m * (8 * uro + (8 * uro * INR i * S + 2 * (uro * S) + 75 * uro + 70 * (uro * P)))).
  { apply Rmult_le_compat_l; [exact Pm|]. eapply Rle_trans; [apply Rabs_triang|]. apply Rplus_le_compat; [exact Dc|].
    eapply Rle_trans; [apply cos_lip|exact DP]. }
  assert (X3 : m * (8 * uro + (8 * uro * INR i * S + 2 * (uro * S) + 75 * uro + 70 * (uro * P))) + uro * m
               <= m * (128 * uro * (1 + P) + 8 * uro * (INR i + 1) * S)).
  { replace (uro * m) with (m * uro) by ring. rewrite <- Rmult_plus_distr_l. apply Rmult_le_compat_l; [exact Pm|]. lra. }
  lra.
Qed.
Print Assumptions c109_sound.

(** ** Examples *)

(** The angle of a point. *)
Definition radius (y x : R) : R := sqrt (x * x + y * y).
Definition angle (y x : R) : R :=
  if Rle_dec (radius y x) 0 then 0 else if Rle_dec 0 y then acos (x / radius y x) else - acos (x / radius y x).
Lemma angle_ok : forall y x, 0 <= radius y x /\ x = radius y x * cos (angle y x) /\ y = radius y x * sin (angle y x) /\
  Rabs (angle y x) < 4.
Proof.
  intros y x. assert (Q : 0 <= x * x + y * y) by nra. pose proof (sqrt_pos (x * x + y * y)) as PR. fold (radius y x) in PR.
  pose proof (sqrt_sqrt _ Q) as SS. fold (radius y x) in SS. set (r := radius y x) in *.
  assert (PI4 : PI < 4).
  { pose proof two_pi_pi as H. pose proof two_pi_range. apply Rabs_le_inv in H.
    assert (bpow radix2 (-50) <= / 2) by (change (/ 2) with (bpow radix2 (-1)); apply bpow_le; lia). lra. }
  split; [exact PR|]. unfold angle. fold r. destruct (Rle_dec r 0) as [L|L].
  { assert (r = 0) by lra. rewrite H in *. assert (x = 0 /\ y = 0) as [-> ->] by nra. rewrite Rabs_R0. repeat split; lra. }
  assert (P : 0 < r) by lra.
  assert (B : -1 <= x / r <= 1).
  { assert (- r <= x <= r) by nra. split; apply (Rmult_le_reg_r r); try exact P; unfold Rdiv; rewrite Rmult_assoc, Rinv_l by lra; lra. }
  pose proof (acos_bound (x / r)) as BA.
  assert (C : r * cos (acos (x / r)) = x) by (rewrite cos_acos by exact B; field; lra).
  assert (S : r * sin (acos (x / r)) = Rabs y).
  { rewrite sin_acos by exact B. rewrite <- (sqrt_square r) at 1 by lra. rewrite <- sqrt_mult_alt by nra.
    replace (r * r * (1 - (x / r)²)) with (y * y).
    - apply sqrt_Rsqr_abs.
    - unfold Rsqr. replace (r * r * (1 - x / r * (x / r))) with (r * r - x * x) by (field; lra). lra. }
  destruct (Rle_dec 0 y) as [Ly|Ly].
  - rewrite Rabs_pos_eq in S by exact Ly. repeat split; try lra. apply Rabs_lt. lra.
  - rewrite cos_neg, sin_neg. rewrite Rabs_left in S by lra. repeat split; try lra. apply Rabs_lt. lra.
Qed.

Definition sound_trig : trig := mkTrig (t_cos real_trig) (t_sin real_trig)
  (fun y x => f64_of (ZnearestE (angle (val y) (val x) * bpow radix2 50)) (-50)) (t_exp real_trig).
Example c109_sound_trig_example : good_trig sound_trig /\ accurate sound_trig /\ accurate_sin sound_trig /\ accurate_atan2 sound_trig.
Proof.
  destruct c109_trig_example as [[G1 G2 G3 G4 G5 G6 G7] A].
  assert (K : forall y x : f64_num, finite (t_atan2 sound_trig y x) /\ Rabs (val (t_atan2 sound_trig y x)) <= 4 /\
                Rabs (val (t_atan2 sound_trig y x) - angle (val y) (val x)) <= bpow radix2 (-48)).
  { intros y x. cbn [t_atan2 sound_trig]. destruct (angle_ok (val y) (val x)) as (_ & _ & _ & B).
    set (th := angle (val y) (val x)) in *. set (m := ZnearestE (th * bpow radix2 50)).
    pose proof (bpow_gt_0 radix2 50) as P. pose proof (bpow_gt_0 radix2 (-50)) as P'.
    assert (I : bpow radix2 50 * bpow radix2 (-50) = 1) by (rewrite <- bpow_plus; reflexivity).
    assert (N : Rabs (IZR m - th * bpow radix2 50) <= / 2) by (rewrite Rabs_minus_sym; apply Znearest_half).
    apply Rabs_lt_inv in B.
    assert (L : (- (2 ^ 52) <= m <= 2 ^ 52)%Z).
    { unfold m. split.
      - rewrite <- (Zrnd_IZR ZnearestE (- (2 ^ 52))). apply Zrnd_le; [apply valid_rnd_N|].
        rewrite opp_IZR. change (IZR (2 ^ 52)) with (bpow radix2 (2 + 50)). rewrite bpow_plus. change (bpow radix2 2) with 4. nra.
      - rewrite <- (Zrnd_IZR ZnearestE (2 ^ 52)). apply Zrnd_le; [apply valid_rnd_N|].
        change (IZR (2 ^ 52)) with (bpow radix2 (2 + 50)). rewrite bpow_plus. change (bpow radix2 2) with 4. nra. }
    destruct (f64_of_val m (-50) ltac:(lia) ltac:(lia)) as [F V]. split; [exact F|]. rewrite V. destruct L as [L1 L2].
    apply IZR_le in L1. apply IZR_le in L2. rewrite opp_IZR in L1. change (IZR (2 ^ 52)) with (bpow radix2 (2 + 50)) in L1, L2.
    rewrite bpow_plus in L1, L2. change (bpow radix2 2) with 4 in L1, L2. split.
    - apply Rabs_le. replace 4 with (4 * (bpow radix2 50 * bpow radix2 (-50))) by lra. nra.
    - replace (IZR m * bpow radix2 (-50) - th) with ((IZR m - th * bpow radix2 50) * bpow radix2 (-50)
        + th * (bpow radix2 50 * bpow radix2 (-50) - 1)) by ring.
      replace (bpow radix2 50 * bpow radix2 (-50) - 1) with 0 by lra. rewrite Rmult_0_r, Rplus_0_r.
      rewrite Rabs_mult, (Rabs_pos_eq (bpow radix2 (-50))) by lra.
      change (-48)%Z with (2 + -50)%Z. rewrite bpow_plus. change (bpow radix2 2) with 4. apply Rmult_le_compat_r; lra. }
  split; [|split; [|split]].
  - constructor; try assumption. intros y x _ _. destruct (K y x) as (K1 & K2 & _). auto.
  - exact A.
  - intros x F. cbn [t_sin sound_trig real_trig]. rewrite F. apply to_double_ok.
    pose proof (SIN_bound (val x)). apply Rabs_le. lra.
  - intros y x _ _. destruct (angle_ok (val y) (val x)) as (B1 & B2 & B3 & _).
    exists (radius (val y) (val x)), (angle (val y) (val x)). repeat split; auto. apply K.
Qed.

(** The area under the line through (0, 1), (1, 3) and (3, 5). *)
Example c109_integral_example :
  map B2SF (f_cumtrapz [(f64_of 1 0, f64_of 0 0); (f64_of 3 0, f64_of 1 0); (f64_of 5 0, f64_of 3 0)])
  = [B2SF (f64_of 0 0); B2SF (f64_of 2 0); B2SF (f64_of 10 0)].
Proof. vm_compute. reflexivity. Qed.
Example c109_sound_example : exists x, nth_error (r_audio sound_trig (f64_of 3 0) (f64_of 4 0)
  [ex_point (f64_of 3 0) (f64_of 4 0) (f64_of 1 (-2)); ex_point (f64_of 3 0) (f64_of 4 0) (f64_of 1 (-2))]) 1 = Some x.
Proof. eexists. reflexivity. Qed.
