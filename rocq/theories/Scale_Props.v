(** C119: the Bark scale and equivalent rectangular bandwidths in double precision. *)
From Coq Require Import String ZArith Reals Lra Lia Bool List.
From Flocq Require Import Core IEEE754.BinarySingleNaN.
Import ListNotations.
From Verif Require Import Base Double_Model Double_Float Peak_Model Peak_Round Peak_Accuracy Peak_Proofs Clock_Proofs Scale_Model.
Local Open Scope R_scope.

(** The scales over the reals. *)
Definition r_bark (f : R) : R := 26.81 * f / (1960 + f) - 0.53.
Definition r_hz (b : R) : R := (0.53 + b) / (26.28 - b) * 1960.
Definition r_erb (f : R) : R := 0.00000623 * (f * f) + 0.009339 * f + 28.52.
Definition r_erb_linear (f : R) : R := 24.7 * (0.00437 * f + 1).

(** [near k x y]: [x] is [y] up to [k] times [2^-53], relatively; numbers are not negative. *)
Definition near (k x y : R) : Prop := 0 <= y /\ y * (1 - k * uro) <= x <= y * (1 + k * uro).
Lemma uu : 0 < uro /\ uro <= / 1048576 /\ 0 <= uro * uro <= uro * / 1048576.
Proof.
  pose proof uro_pos as U. assert (L : uro <= / 1048576) by (rewrite uro_val; change (/ 1048576) with (bpow radix2 (-20)); apply bpow_le; lia).
  split; [exact U|]. split; [exact L|]. split; [apply Rmult_le_pos; lra|apply Rmult_le_compat_l; lra].
Qed.
Lemma near_refl : forall x, 0 <= x -> near 0 x x. Proof. intros x H. split; [exact H|]. split; lra. Qed.
Lemma near_le : forall j k x y, near j x y -> j <= k -> near k x y.
Proof.
  intros j k x y (P & L & U) H. destruct uu as (U0 & _). split; [exact P|]. assert (y * (j * uro) <= y * (k * uro)) by (apply Rmult_le_compat_l; [exact P|]; apply Rmult_le_compat_r; lra). lra.
Qed.
Lemma near_pos : forall k x y, near k x y -> 0 <= k <= 100 -> 0 <= x.
Proof. intros k x y (P & L & _) H. destruct uu as (U0 & U1 & _). eapply Rle_trans; [|exact L]. apply Rmult_le_pos; [exact P|]. nra. Qed.
Lemma near_rnd : forall k x y, near k x y -> 0 <= k <= 100 -> x = 0 \/ bpow radix2 (-1022) <= x -> near (k + 2) (rnd x) y.
Proof.
  intros k x y N Hk C. pose proof (near_pos _ _ _ N Hk) as PX. destruct N as (P & L & U). destruct uu as (U0 & U1 & U2 & U3).
  destruct (rnd_rel x) as (e & He & Ee); [rewrite Rabs_pos_eq by exact PX; exact C|]. apply Rabs_le_inv in He. rewrite Ee. split; [exact P|].
  assert (K : 0 <= k * uro <= / 10000) by nra.
  split.
  - apply Rle_trans with (y * (1 - k * uro) * (1 - uro)); [|apply Rmult_le_compat; try lra; apply Rmult_le_pos; lra].
    rewrite Rmult_assoc. apply Rmult_le_compat_l; [exact P|]. nra.
  - apply Rle_trans with (y * (1 + k * uro) * (1 + uro)); [apply Rmult_le_compat; lra|]. rewrite Rmult_assoc. apply Rmult_le_compat_l; [exact P|]. nra.
Qed.
Lemma near_add : forall k a x b y, near k a x -> near k b y -> near k (a + b) (x + y).
Proof. intros k a x b y (P & L & U) (P' & L' & U'). split; [lra|]. split; lra. Qed.
Lemma near_mul : forall j k a x b y, near j a x -> near k b y -> 0 <= j <= 100 -> 0 <= k <= 100 -> near (j + k + 1) (a * b) (x * y).
Proof.
  intros j k a x b y N N' Hj Hk. pose proof (near_pos _ _ _ N Hj) as PA. pose proof (near_pos _ _ _ N' Hk) as PB. destruct N as (P & L & U), N' as (P' & L' & U').
  destruct uu as (U0 & U1 & U2 & U3). assert (KJ : 0 <= j * uro <= / 10000) by nra. assert (KK : 0 <= k * uro <= / 10000) by nra.
  assert (KU : (j * uro) * (k * uro) <= uro). { replace ((j * uro) * (k * uro)) with ((j * k) * (uro * uro)) by ring. assert (0 <= j * k <= 10000) by nra. nra. }
  split; [apply Rmult_le_pos; assumption|]. assert (XY : 0 <= x * y) by (apply Rmult_le_pos; assumption). assert (J0 : 0 <= (j * uro) * (k * uro)) by (apply Rmult_le_pos; lra). split.
  - apply Rle_trans with ((x * (1 - j * uro)) * (y * (1 - k * uro))); [|apply Rmult_le_compat; auto; apply Rmult_le_pos; lra].
    replace (x * (1 - j * uro) * (y * (1 - k * uro))) with (x * y * ((1 - j * uro) * (1 - k * uro))) by ring. apply Rmult_le_compat_l; [exact XY|]. lra.
  - apply Rle_trans with ((x * (1 + j * uro)) * (y * (1 + k * uro))); [apply Rmult_le_compat; auto|].
    replace (x * (1 + j * uro) * (y * (1 + k * uro))) with (x * y * ((1 + j * uro) * (1 + k * uro))) by ring. apply Rmult_le_compat_l; [exact XY|]. lra.
Qed.
Lemma near_inv : forall k b y, near k b y -> 0 < y -> 0 <= k <= 100 -> near (k + 1) (/ b) (/ y).
Proof.
  intros k b y N Py Hk. destruct N as (P & L & U). destruct uu as (U0 & U1 & U2 & U3). assert (KK : 0 <= k * uro <= / 10000) by nra.
  assert (KU : (k * uro) * (k * uro) <= / 2 * uro). { replace ((k * uro) * (k * uro)) with ((k * k) * (uro * uro)) by ring. assert (0 <= k * k <= 10000) by nra. nra. }
  assert (K0 : 0 <= (k * uro) * (k * uro)) by (apply Rmult_le_pos; lra).
  assert (LB : 0 < y * (1 - k * uro)) by (apply Rmult_lt_0_compat; lra). assert (PB : 0 < b) by lra. assert (IY : 0 < / y) by (apply Rinv_0_lt_compat; exact Py).
  split; [lra|]. split.
  - apply Rle_trans with (/ (y * (1 + k * uro))); [|apply Rinv_le; lra]. rewrite Rinv_mult_distr by lra. apply Rmult_le_compat_l; [lra|].
    apply Rmult_le_reg_r with (1 + k * uro); [lra|]. rewrite Rinv_l by lra. assert (0 <= uro * (k * uro)) by (apply Rmult_le_pos; lra). lra.
  - apply Rle_trans with (/ (y * (1 - k * uro))); [apply Rinv_le; lra|]. rewrite Rinv_mult_distr by lra. apply Rmult_le_compat_l; [lra|].
    apply Rmult_le_reg_r with (1 - k * uro); [lra|]. rewrite Rinv_l by lra. assert (uro * (k * uro) <= uro * / 10000) by (apply Rmult_le_compat_l; lra). nra.
Qed.
Lemma near_abs : forall k x y, near k x y -> Rabs (x - y) <= y * (k * uro).
Proof. intros k x y (P & L & U). apply Rabs_le. split; lra. Qed.

(** The constants are right. *)
Ltac const := unfold near; rewrite uro_val; unfold val; cbn; unfold F2R; cbn; split; [|split]; lra.
Lemma n_26_81 : near 1 (val k_26_81) 26.81. Proof. const. Qed.
Lemma n_0_53 : near 1 (val k_0_53) 0.53. Proof. const. Qed.
Lemma n_26_28 : near 1 (val k_26_28) 26.28. Proof. const. Qed.
Lemma n_6_23e_6 : near 1 (val k_6_23e_6) 0.00000623. Proof. const. Qed.
Lemma n_0_009339 : near 1 (val k_0_009339) 0.009339. Proof. const. Qed.
Lemma n_28_52 : near 1 (val k_28_52) 28.52. Proof. const. Qed.
Lemma n_0_00437 : near 1 (val k_0_00437) 0.00437. Proof. const. Qed.
Lemma n_24_7 : near 1 (val k_24_7) 24.7. Proof. const. Qed.
Lemma k_fin : finite k_26_81 /\ finite k_0_53 /\ finite k_26_28 /\ finite k_6_23e_6 /\ finite k_0_009339 /\ finite k_28_52 /\ finite k_0_00437 /\ finite k_24_7.
Proof. repeat split; reflexivity. Qed.
Lemma k_lo : forall x y, near 1 x y -> y * / 2 <= x <= y * 2.
Proof. intros x y (P & L & U). destruct uu as (U0 & U1 & _). assert (y * uro <= y * / 1048576) by (apply Rmult_le_compat_l; lra). lra. Qed.

(** A frequency that is 0 or not too small, as a double. *)
Definition freq (B : R) (f : f64_num) : Prop := finite f /\ 0 <= val f <= B /\ (val f = 0 \/ bpow radix2 (-400) <= val f).

Lemma mul_const : forall (c f : f64_num) y, finite c -> finite f -> near 1 (val c) y -> bpow radix2 (-20) <= y <= bpow radix2 20 -> 0 <= val f <= bpow radix2 900 ->
  val f = 0 \/ bpow radix2 (-900) <= val f -> finite (fmul c f) /\ val (fmul c f) = rnd (val c * val f) /\ near 4 (val (fmul c f)) (y * val f).
Proof.
  intros c f y Fc Ff N Hy Hf C. pose proof (k_lo _ _ N) as KL. pose proof (bpow_gt_0 radix2 (-20)) as P20.
  assert (B : 0 <= val c * val f <= bpow radix2 21 * bpow radix2 900).
  { split; [apply Rmult_le_pos; lra|]. apply Rmult_le_compat; try lra. change 21%Z with (20 + 1)%Z. rewrite bpow_plus. change (bpow radix2 1) with 2. lra. }
  rewrite <- bpow_plus in B. destruct (fmul_val c f Fc Ff) as [F V]; [rewrite Rabs_pos_eq by lra; eapply Rle_trans; [apply B|apply bpow_le; lia]|].
  split; [exact F|]. split; [exact V|]. rewrite V. replace 4 with (1 + 0 + 1 + 2) by ring. apply near_rnd; [|lra|].
  - apply near_mul; [exact N|apply near_refl; lra|lra|lra].
  - destruct C as [C|C]; [left; rewrite C; ring|right]. apply Rle_trans with (bpow radix2 (-21) * bpow radix2 (-900)); [rewrite <- bpow_plus; apply bpow_le; lia|].
    apply Rmult_le_compat; try apply bpow_ge_0; [|exact C]. change (-21)%Z with (-20 + -1)%Z. rewrite bpow_plus. change (bpow radix2 (-1)) with (/ 2). lra.
Qed.
Lemma near_fadd : forall k (x y : f64_num) a b, finite x -> finite y -> near k (val x) a -> near k (val y) b -> 0 <= k <= 90 -> val x + val y <= bpow radix2 1023 ->
  finite (fadd x y) /\ val (fadd x y) = rnd (val x + val y) /\ near (k + 2) (val (fadd x y)) (a + b).
Proof.
  intros k x y a b Fx Fy Nx Ny Hk B. pose proof (near_pos _ _ _ Nx ltac:(lra)) as Px. pose proof (near_pos _ _ _ Ny ltac:(lra)) as Py.
  destruct (fadd_val x y Fx Fy) as [F V]; [rewrite Rabs_pos_eq by lra; exact B|]. split; [exact F|]. split; [exact V|]. rewrite V.
  pose proof (near_add _ _ _ _ _ Nx Ny) as N. destruct (rnd_plus (val x) (val y) (val_fmt x) (val_fmt y)) as (e & He & Ee). rewrite Ee.
  destruct N as (P & L & U). destruct uu as (U0 & U1 & U2 & U3). apply Rabs_le_inv in He. assert (K : 0 <= k * uro <= / 10000) by nra. split; [exact P|]. set (s := a + b) in *. split.
  - apply Rle_trans with (s * (1 - k * uro) * (1 - uro)); [|apply Rmult_le_compat; try lra; apply Rmult_le_pos; lra]. rewrite Rmult_assoc. apply Rmult_le_compat_l; [exact P|]. nra.
  - apply Rle_trans with (s * (1 + k * uro) * (1 + uro)); [apply Rmult_le_compat; lra|]. rewrite Rmult_assoc. apply Rmult_le_compat_l; [exact P|]. nra.
Qed.
Lemma b20 : forall y, / 1048576 <= y <= 1048576 -> bpow radix2 (-20) <= y <= bpow radix2 20.
Proof. intros y H. change (bpow radix2 (-20)) with (/ 1048576). change (bpow radix2 20) with 1048576. exact H. Qed.

(** Bandwidths are right up to [2^-49], never below the one at 0, and never decrease. *)
Lemma erb_parts : forall f, freq (bpow radix2 400) f ->
  finite (s_erb f) /\ near 10 (val (s_erb f)) (r_erb (val f)) /\
  val (s_erb f) = rnd (rnd (rnd (val k_6_23e_6 * rnd (val f * val f)) + rnd (val k_0_009339 * val f)) + val k_28_52).
Proof.
  intros f (Ff & Hf & C). destruct k_fin as (_ & _ & _ & F1 & F2 & F3 & _). pose proof (bpow_gt_0 radix2 (-400)) as P4.
  assert (B49 : bpow radix2 400 <= bpow radix2 900) by (apply bpow_le; lia). assert (B94 : bpow radix2 (-900) <= bpow radix2 (-400)) by (apply bpow_le; lia).
  destruct (mul_const k_0_009339 f 0.009339 F2 Ff n_0_009339 ltac:(apply b20; lra) ltac:(lra) ltac:(destruct C; [left|right]; lra)) as (Ft & Vt & Nt).
  assert (QB : 0 <= val f * val f <= bpow radix2 400 * bpow radix2 400) by (split; [apply Rmult_le_pos; lra|apply Rmult_le_compat; lra]). rewrite <- bpow_plus in QB.
  assert (QL : val f * val f = 0 \/ bpow radix2 (-800) <= val f * val f).
  { destruct C as [C|C]; [left; rewrite C; ring|right]. change (-800)%Z with (-400 + -400)%Z. rewrite bpow_plus. apply Rmult_le_compat; lra. }
  assert (B8 : bpow radix2 (-1022) <= bpow radix2 (-800)) by (apply bpow_le; lia).
  destruct (fmul_val f f Ff Ff) as [Fq Vq]; [rewrite Rabs_pos_eq by lra; eapply Rle_trans; [apply QB|apply bpow_le; lia]|].
  assert (Nq : near 2 (val (fmul f f)) (val f * val f)).
  { rewrite Vq. replace 2 with (0 + 2) by ring. apply near_rnd; [apply near_refl; lra|lra|]. destruct QL; [left|right]; lra. }
  set (q := fmul f f) in *. pose proof (near_pos _ _ _ Nq ltac:(lra)) as Pq. destruct uu as (U0 & U1 & _).
  assert (Q2 : val q <= bpow radix2 801).
  { destruct Nq as (_ & _ & N). eapply Rle_trans; [exact N|]. change 801%Z with (800 + 1)%Z. rewrite (bpow_plus radix2 800 1). change (bpow radix2 1) with 2. change (400 + 400)%Z with 800%Z in QB. apply Rmult_le_compat; lra. }
  assert (C6 : near 6 (val (fmul k_6_23e_6 q)) (0.00000623 * (val f * val f)) /\ finite (fmul k_6_23e_6 q) /\ val (fmul k_6_23e_6 q) = rnd (val k_6_23e_6 * val q)).
  { pose proof (k_lo _ _ n_6_23e_6) as KL. assert (B : 0 <= val k_6_23e_6 * val q <= 1 * bpow radix2 801) by (split; [apply Rmult_le_pos; lra|apply Rmult_le_compat; lra]). rewrite Rmult_1_l in B.
    destruct (fmul_val k_6_23e_6 q F1 Fq) as [F V]; [rewrite Rabs_pos_eq by lra; eapply Rle_trans; [apply B|apply bpow_le; lia]|]. split; [|split; [exact F|exact V]].
    rewrite V. replace 6 with (1 + 2 + 1 + 2) by ring. apply near_rnd; [apply near_mul; [exact n_6_23e_6|exact Nq|lra|lra]|lra|].
    destruct QL as [Q0|Q0]; [left; rewrite Vq, Q0, rnd_0; ring|right].
    assert (bpow radix2 (-801) <= val q).
    { destruct Nq as (_ & N & _). eapply Rle_trans; [|exact N]. change (-801)%Z with (-800 + -1)%Z. rewrite (bpow_plus radix2 (-800) (-1)). change (bpow radix2 (-1)) with (/ 2). apply Rmult_le_compat; try lra; apply bpow_ge_0. }
    apply Rle_trans with (bpow radix2 (-20) * bpow radix2 (-801)); [rewrite <- bpow_plus; apply bpow_le; lia|]. apply Rmult_le_compat; try apply bpow_ge_0; [|assumption]. change (bpow radix2 (-20)) with (/ 1048576). lra. }
  destruct C6 as (Nm & Fm & Vm). unfold s_erb. cbv zeta. fold q. set (p := fmul k_6_23e_6 q) in *. set (t := fmul k_0_009339 f) in *.
  assert (BIG : 16 * bpow radix2 801 <= bpow radix2 1023) by (change 16 with (bpow radix2 4); rewrite <- bpow_plus; apply bpow_le; lia).
  assert (B48 : bpow radix2 400 <= bpow radix2 801) by (apply bpow_le; lia). assert (ONE : 256 <= bpow radix2 801) by (change 256 with (bpow radix2 8); apply bpow_le; lia).
  assert (PU : val p <= bpow radix2 801).
  { destruct Nm as (_ & _ & N). eapply Rle_trans; [exact N|]. change (400 + 400)%Z with 800%Z in QB. assert (bpow radix2 800 <= bpow radix2 801) by (apply bpow_le; lia). assert (val f * val f * uro <= val f * val f * / 1048576) by (apply Rmult_le_compat_l; lra). lra. }
  assert (TU : val t <= bpow radix2 801).
  { destruct Nt as (_ & _ & N). eapply Rle_trans; [exact N|]. assert (val f * uro <= val f * / 1048576) by (apply Rmult_le_compat_l; lra). lra. }
  destruct (near_fadd 6 p t _ _ Fm Ft Nm (near_le _ 6 _ _ Nt ltac:(lra)) ltac:(lra) ltac:(lra)) as (Fs & Vs & Ns). set (s := fadd p t) in *.
  assert (SU : val s <= 4 * bpow radix2 801).
  { rewrite Vs. apply rnd_le_fmt; [|lra]. change 4 with (bpow radix2 2). rewrite <- bpow_plus. apply generic_format_bpow. unfold fexp64, FLT_exp, SpecFloat.fexp, SpecFloat.emin. lia. }
  pose proof (k_lo _ _ n_28_52) as KL.
  destruct (near_fadd 8 s k_28_52 _ _ Fs F3 (near_le _ 8 _ _ Ns ltac:(lra)) (near_le _ 8 _ _ n_28_52 ltac:(lra)) ltac:(lra) ltac:(lra)) as (Fr & Vr & Nr).
  split; [exact Fr|]. split; [replace 10 with (8 + 2) by ring; exact Nr|]. rewrite Vr, Vs, Vm, Vq, Vt. reflexivity.
Qed.
Theorem c119_erb : forall f, freq (bpow radix2 400) f ->
  finite (s_erb f) /\ Rabs (val (s_erb f) - r_erb (val f)) <= bpow radix2 (-49) * r_erb (val f) /\ val (s_erb (f64_of 0 0)) <= val (s_erb f) /\
  forall g, freq (bpow radix2 400) g -> val f <= val g -> val (s_erb f) <= val (s_erb g).
Proof.
  assert (MON : forall f g, freq (bpow radix2 400) f -> freq (bpow radix2 400) g -> val f <= val g -> val (s_erb f) <= val (s_erb g)).
  { intros f g Hf Hg L. destruct (erb_parts f Hf) as (_ & _ & ->). destruct (erb_parts g Hg) as (_ & _ & ->). destruct Hf as (_ & Hf & _), Hg as (_ & Hg & _).
    pose proof (k_lo _ _ n_6_23e_6) as K1. pose proof (k_lo _ _ n_0_009339) as K2.
    apply rnd_mono, Rplus_le_compat_r, rnd_mono, Rplus_le_compat; apply rnd_mono; apply Rmult_le_compat_l; try lra. apply rnd_mono. apply Rmult_le_compat; lra. }
  assert (Z0 : freq (bpow radix2 400) (f64_of 0 0)).
  { destruct (int_val 0 ltac:(lia)) as [F V]. split; [exact F|]. rewrite V. pose proof (bpow_ge_0 radix2 400). split; [split; lra|left; reflexivity]. }
  intros f Hf. destruct (erb_parts f Hf) as (F & N & _). split; [exact F|]. split; [|split; [|intros g; apply MON; exact Hf]].
  - eapply Rle_trans; [apply (near_abs _ _ _ N)|]. assert (E : bpow radix2 (-49) = 16 * uro) by (rewrite uro_val; change 16 with (bpow radix2 4); rewrite <- bpow_plus; reflexivity). rewrite E.
    destruct N as (P & _). rewrite Rmult_comm. apply Rmult_le_compat_r; [exact P|]. destruct uu; lra.
  - apply MON; [exact Z0|exact Hf|]. destruct (int_val 0 ltac:(lia)) as [_ ->]. apply Hf.
Qed.

Lemma linear_parts : forall f, freq (bpow radix2 400) f ->
  finite (s_erb_linear f) /\ near 10 (val (s_erb_linear f)) (r_erb_linear (val f)) /\ val (s_erb_linear f) = rnd (val k_24_7 * rnd (rnd (val k_0_00437 * val f) + 1)).
Proof.
  intros f (Ff & Hf & C). destruct k_fin as (_ & _ & _ & _ & _ & _ & F1 & F2). pose proof (bpow_gt_0 radix2 (-400)) as P4. destruct uu as (U0 & U1 & _).
  assert (B49 : 4 * bpow radix2 400 <= bpow radix2 900) by (change 4 with (bpow radix2 2); rewrite <- bpow_plus; apply bpow_le; lia). assert (B94 : bpow radix2 (-900) <= bpow radix2 (-400)) by (apply bpow_le; lia).
  assert (ONE : 1 <= bpow radix2 400) by (change 1 with (bpow radix2 0); apply bpow_le; lia).
  destruct (mul_const k_0_00437 f 0.00437 F1 Ff n_0_00437 ltac:(apply b20; lra) ltac:(lra) ltac:(destruct C; [left|right]; lra)) as (Ft & Vt & Nt).
  destruct (int_val 1 ltac:(lia)) as [Fo Vo]. unfold s_erb_linear. cbv zeta. set (t := fmul k_0_00437 f) in *. set (o := f64_of 1 0) in *.
  assert (TU : val t <= bpow radix2 400).
  { destruct Nt as (_ & _ & N). eapply Rle_trans; [exact N|]. assert (val f * uro <= val f * / 1048576) by (apply Rmult_le_compat_l; lra). lra. }
  assert (B9 : bpow radix2 900 <= bpow radix2 1023) by (apply bpow_le; lia).
  assert (No : near 4 (val o) 1) by (rewrite Vo; apply (near_le 0); [apply near_refl; lra|lra]).
  destruct (near_fadd 4 t o _ _ Ft Fo Nt No ltac:(lra) ltac:(rewrite Vo; lra)) as (Fs & Vs & Ns). set (s := fadd t o) in *.
  assert (S1 : 1 <= val s).
  { rewrite Vs, Vo. apply rnd_ge_fmt; [rewrite <- Vo; apply val_fmt|]. pose proof (near_pos _ _ _ Nt ltac:(lra)). lra. }
  assert (S2 : val s <= bpow radix2 402).
  { rewrite Vs, Vo. apply rnd_le_fmt; [apply generic_format_bpow; unfold fexp64, FLT_exp, SpecFloat.fexp, SpecFloat.emin; lia|]. change 402%Z with (400 + 2)%Z. rewrite bpow_plus. change (bpow radix2 2) with 4. lra. }
  pose proof (k_lo _ _ n_24_7) as KL. assert (B : 1 <= val k_24_7 * val s <= 64 * bpow radix2 402) by (split; [apply Rle_trans with (1 * 1); [lra|apply Rmult_le_compat; lra]|apply Rmult_le_compat; lra]).
  assert (B64 : 64 * bpow radix2 402 <= bpow radix2 1023) by (change 64 with (bpow radix2 6); rewrite <- bpow_plus; apply bpow_le; lia).
  destruct (fmul_val k_24_7 s F2 Fs) as [Fr Vr]; [rewrite Rabs_pos_eq by lra; lra|]. split; [exact Fr|]. split; [|rewrite Vr, Vs, Vt, Vo; reflexivity].
  rewrite Vr. replace 10 with (1 + 6 + 1 + 2) by ring. apply near_rnd; [|lra|right; apply Rle_trans with 1; [change 1 with (bpow radix2 0); apply bpow_le; lia|apply B]].
  apply near_mul; [exact n_24_7|replace 6 with (4 + 2) by ring; exact Ns|lra|lra].
Qed.
Theorem c119_erb_linear : forall f, freq (bpow radix2 400) f ->
  finite (s_erb_linear f) /\ Rabs (val (s_erb_linear f) - r_erb_linear (val f)) <= bpow radix2 (-49) * r_erb_linear (val f) /\
  forall g, freq (bpow radix2 400) g -> val f <= val g -> val (s_erb_linear f) <= val (s_erb_linear g).
Proof.
  intros f Hf. destruct (linear_parts f Hf) as (F & N & E). split; [exact F|]. split.
  - eapply Rle_trans; [apply (near_abs _ _ _ N)|]. assert (E49 : bpow radix2 (-49) = 16 * uro) by (rewrite uro_val; change 16 with (bpow radix2 4); rewrite <- bpow_plus; reflexivity). rewrite E49.
    destruct N as (P & _). rewrite Rmult_comm. apply Rmult_le_compat_r; [exact P|]. destruct uu; lra.
  - intros g Hg L. destruct (linear_parts g Hg) as (_ & _ & ->). rewrite E. pose proof (k_lo _ _ n_24_7) as K1. pose proof (k_lo _ _ n_0_00437) as K2.
    apply rnd_mono. apply Rmult_le_compat_l; [lra|]. apply rnd_mono, Rplus_le_compat_r, rnd_mono. apply Rmult_le_compat_l; lra.
Qed.

(** Bark of Hertz are right up to [2^-44]. *)
Theorem c119_bark : forall f, freq (bpow radix2 400) f -> finite (s_bark f) /\ Rabs (val (s_bark f) - r_bark (val f)) <= bpow radix2 (-44).
Proof.
  intros f (Ff & Hf & C). destruct k_fin as (F1 & F2 & _). pose proof (bpow_gt_0 radix2 (-400)) as P4. destruct uu as (U0 & U1 & _).
  assert (B49 : 4096 * bpow radix2 400 <= bpow radix2 900) by (change 4096 with (bpow radix2 12); rewrite <- bpow_plus; apply bpow_le; lia). assert (B94 : bpow radix2 (-900) <= bpow radix2 (-400)) by (apply bpow_le; lia).
  assert (ONE : 1 <= bpow radix2 400) by (change 1 with (bpow radix2 0); apply bpow_le; lia). assert (B9 : bpow radix2 900 <= bpow radix2 1023) by (apply bpow_le; lia).
  destruct (mul_const k_26_81 f 26.81 F1 Ff n_26_81 ltac:(apply b20; lra) ltac:(lra) ltac:(destruct C; [left|right]; lra)) as (Fn & Vn & Nn).
  destruct (int_val 1960 ltac:(lia)) as [Fo Vo]. unfold s_bark. cbv zeta. set (n := fmul k_26_81 f) in *. set (o := f64_of 1960 0) in *.
  assert (No : near 0 (val o) 1960) by (rewrite Vo; apply near_refl; lra).
  destruct (near_fadd 0 o f _ _ Fo Ff No (near_refl _ (proj1 Hf)) ltac:(lra) ltac:(rewrite Vo; lra)) as (Fd & Vd & Nd). rewrite Rplus_0_l in Nd. set (d := fadd o f) in *.
  assert (D1 : 1960 <= val d).
  { rewrite Vd, Vo. apply rnd_ge_fmt; [rewrite <- Vo; apply val_fmt|lra]. }
  set (x := val f) in *. assert (G : 0 <= x / (1960 + x) <= 1).
  { unfold Rdiv. split; [apply Rmult_le_pos; [lra|left; apply Rinv_0_lt_compat; lra]|]. apply Rmult_le_reg_r with (1960 + x); [lra|]. rewrite Rmult_assoc, Rinv_l by lra. lra. }
  pose proof (near_mul 4 (2 + 1) _ _ _ _ Nn (near_inv _ _ _ Nd ltac:(lra) ltac:(lra)) ltac:(lra) ltac:(lra)) as Nq.
  assert (EG : 26.81 * x * / (1960 + x) = 26.81 * (x / (1960 + x))) by (unfold Rdiv; ring). rewrite EG in Nq. set (g := x / (1960 + x)) in *.
  assert (QU : 0 <= val n * / val d <= 27).
  { split; [apply (near_pos _ _ _ Nq); lra|]. destruct Nq as (_ & _ & N). eapply Rle_trans; [exact N|]. assert (g * uro <= 1 * uro) by (apply Rmult_le_compat_r; lra). lra. }
  destruct (fdiv_val n d Fn ltac:(lra)) as [Ft Vt].
  { unfold Rdiv. rewrite Rabs_pos_eq by lra. apply Rle_trans with (bpow radix2 5); [change (bpow radix2 5) with 32; lra|apply bpow_le; lia]. }
  assert (Nt : near 10 (val (fdiv n d)) (26.81 * g)).
  { rewrite Vt. replace 10 with (4 + (2 + 1) + 1 + 2) by ring. apply near_rnd; [exact Nq|lra|]. destruct C as [C|C].
    - left. rewrite Vn. rewrite C, Rmult_0_r, rnd_0. unfold Rdiv. ring.
    - right. assert (NL : bpow radix2 (-400) <= val n).
      { destruct Nn as (_ & N & _). eapply Rle_trans; [|exact N]. assert (x * uro <= x * / 1048576) by (apply Rmult_le_compat_l; lra). lra. }
      assert (DU : val d <= bpow radix2 500).
      { rewrite Vd, Vo. apply rnd_le_fmt; [apply generic_format_bpow; unfold fexp64, FLT_exp, SpecFloat.fexp, SpecFloat.emin; lia|]. apply Rle_trans with (4096 * bpow radix2 400); [lra|]. change 4096 with (bpow radix2 12). rewrite <- bpow_plus. apply bpow_le. lia. }
      apply Rle_trans with (bpow radix2 (-400) * bpow radix2 (-500)); [rewrite <- bpow_plus; apply bpow_le; lia|]. unfold Rdiv. apply Rmult_le_compat; try apply bpow_ge_0; [exact NL|].
      change (bpow radix2 (-500)) with (bpow radix2 (- (500))). rewrite bpow_opp. apply Rinv_le; lra. }
  set (t := fdiv n d) in *. pose proof (near_abs _ _ _ Nt) as At. pose proof (near_abs _ _ _ n_0_53) as A53. pose proof (k_lo _ _ n_0_53) as K53.
  assert (GU : g * uro <= 1 * uro) by (apply Rmult_le_compat_r; lra). apply Rabs_le_inv in At, A53. pose proof (near_pos _ _ _ Nt ltac:(lra)) as Pt.
  assert (TU : val t <= 28) by lra.
  assert (BB : Rabs (val t - val k_0_53) <= 28) by (apply Rabs_le; lra).
  destruct (fsub_rel t k_0_53 Ft F2) as (e & He & Fr & Vr); [eapply Rle_trans; [exact BB|]; apply Rle_trans with (bpow radix2 5); [change (bpow radix2 5) with 32; lra|apply bpow_le; lia]|].
  split; [exact Fr|]. rewrite Vr. assert (E44 : bpow radix2 (-44) = 512 * uro) by (rewrite uro_val; change 512 with (bpow radix2 9); rewrite <- bpow_plus; reflexivity). rewrite E44.
  assert (RB : r_bark x = 26.81 * g - 0.53) by (unfold r_bark, g, Rdiv; ring). rewrite RB.
  assert (XE : Rabs ((val t - val k_0_53) * e) <= 28 * uro) by (rewrite Rabs_mult; apply Rmult_le_compat; auto using Rabs_pos). apply Rabs_le_inv in XE.
  apply Rabs_le. split; lra.
Qed.

(** Hertz of Bark, up to 26 Bark, are right up to [2^-27] Hz and never decrease. *)
Lemma hz_parts : forall b, finite b -> -1 <= val b <= 26 ->
  finite (s_hz b) /\ Rabs (val (s_hz b) - r_hz (val b)) <= bpow radix2 (-27) /\
  rnd (val k_26_28 - val b) > 0 /\ val (s_hz b) = rnd (rnd (rnd (val k_0_53 + val b) / rnd (val k_26_28 - val b)) * 1960).
Proof.
  intros b Fb Hb. destruct k_fin as (_ & F1 & F2 & _). destruct uu as (U0 & U1 & _). pose proof (near_abs _ _ _ n_0_53) as A53. pose proof (near_abs _ _ _ n_26_28) as A26. apply Rabs_le_inv in A53, A26.
  assert (B32 : forall v, Rabs v <= 1048576 -> Rabs v <= bpow radix2 1023) by (intros v H; eapply Rle_trans; [exact H|]; change 1048576 with (bpow radix2 20); apply bpow_le; lia).
  destruct (int_val 1960 ltac:(lia)) as [Fo Vo]. unfold s_hz. cbv zeta. set (o := f64_of 1960 0) in *. set (x := val b) in *.
  assert (NB : Rabs (val k_0_53 + x) <= 27) by (apply Rabs_le; lra). assert (DB : Rabs (val k_26_28 - x) <= 28) by (apply Rabs_le; lra).
  assert (NB1 : Rabs (val k_0_53 + val b) <= bpow radix2 1023) by (apply B32; fold x; lra). assert (DB1 : Rabs (val k_26_28 - val b) <= bpow radix2 1023) by (apply B32; fold x; lra).
  destruct (fadd_val k_0_53 b F1 Fb NB1) as [Fn Vn]. destruct (fadd_rel k_0_53 b F1 Fb NB1) as (e1 & He1 & _ & Rn).
  destruct (fsub_val k_26_28 b F2 Fb DB1) as [Fd Vd]. destruct (fsub_rel k_26_28 b F2 Fb DB1) as (e2 & He2 & _ & Rd). fold x in Vn, Rn, Vd, Rd.
  set (n := fadd k_0_53 b) in *. set (d := fsub k_26_28 b) in *.
  assert (E1 : Rabs ((val k_0_53 + x) * e1) <= 27 * uro) by (rewrite Rabs_mult; apply Rmult_le_compat; auto using Rabs_pos). apply Rabs_le_inv in E1.
  assert (E2 : Rabs ((val k_26_28 - x) * e2) <= 28 * uro) by (rewrite Rabs_mult; apply Rmult_le_compat; auto using Rabs_pos). apply Rabs_le_inv in E2.
  set (N := 0.53 + x). set (D := 26.28 - x). assert (DN : Rabs (val n - N) <= 28 * uro) by (rewrite Rn; unfold N; apply Rabs_le; split; lra).
  assert (DD : Rabs (val d - D) <= 55 * uro) by (rewrite Rd; unfold D; apply Rabs_le; split; lra). pose proof DN as DN'. pose proof DD as DD'. apply Rabs_le_inv in DN', DD'.
  assert (D0 : 0.28 <= D) by (unfold D; lra). assert (D27 : 0.27 <= val d) by lra. assert (NA : Rabs N <= 27) by (unfold N; apply Rabs_le; split; lra).
  assert (ID : 0 < / val d <= / 0.27) by (split; [apply Rinv_0_lt_compat; lra|apply Rinv_le; lra]). assert (ID' : 0 < / D <= / 0.28) by (split; [apply Rinv_0_lt_compat; lra|apply Rinv_le; lra]).
  assert (QD : Rabs (val n / val d - N / D) <= 20000 * uro).
  { replace (val n / val d - N / D) with ((val n - N) * / val d - N * (val d - D) * (/ val d * / D)) by (field; lra).
    eapply Rle_trans; [apply Rabs_triang|]. rewrite Rabs_Ropp, !Rabs_mult. rewrite (Rabs_pos_eq (/ val d)), (Rabs_pos_eq (/ D)) by lra.
    assert (Rabs (val n - N) * / val d <= 28 * uro * / 0.27) by (apply Rmult_le_compat; auto using Rabs_pos; lra).
    assert (Rabs N * Rabs (val d - D) * (/ val d * / D) <= 27 * (55 * uro) * (/ 0.27 * / 0.28)).
    { apply Rmult_le_compat; [apply Rmult_le_pos; apply Rabs_pos|apply Rmult_le_pos; lra| |apply Rmult_le_compat; lra]. apply Rmult_le_compat; auto using Rabs_pos. }
    lra. }
  assert (ND : Rabs (N / D) <= 97).
  { unfold Rdiv. rewrite Rabs_mult, (Rabs_pos_eq (/ D)) by lra. apply Rle_trans with (27 * / 0.28); [apply Rmult_le_compat; auto using Rabs_pos; lra|lra]. }
  apply Rabs_le_inv in QD, ND. assert (QB : Rabs (val n / val d) <= 98) by (apply Rabs_le; split; lra).
  destruct (fdiv_val n d Fn ltac:(lra)) as [Fq Vq]; [apply B32; lra|]. set (q := fdiv n d) in *.
  pose proof (rnd_near (val n / val d)) as RN. rewrite <- Vq in RN. assert (EU : bpow radix2 (-1074) <= uro) by (rewrite uro_val; apply bpow_le; lia). pose proof (bpow_gt_0 radix2 (-1074)) as EP.
  assert (RN' : Rabs (val q - val n / val d) <= 99 * uro).
  { eapply Rle_trans; [exact RN|]. assert (uro * Rabs (val n / val d) <= uro * 98) by (apply Rmult_le_compat_l; lra). lra. }
  apply Rabs_le_inv in RN'. assert (QQ : Rabs (val q) <= 100) by (apply Rabs_le_inv in QB; apply Rabs_le; split; lra).
  assert (PB : Rabs (val q * val o) <= 196000) by (rewrite Vo, Rabs_mult, (Rabs_pos_eq 1960) by lra; lra).
  destruct (fmul_val q o Fq Fo) as [Fr Vr]; [apply B32; lra|]. rewrite Vo in Vr. rewrite Vo in PB.
  split; [exact Fr|]. split; [|split; [rewrite <- Vd; lra|rewrite Vr, Vq, Vn, Vd; reflexivity]].
  rewrite Vr. pose proof (rnd_near (val q * 1960)) as RM. assert (uro * Rabs (val q * 1960) <= uro * 196000) by (apply Rmult_le_compat_l; lra).
  assert (E27 : bpow radix2 (-27) = 67108864 * uro) by (rewrite uro_val; change 67108864 with (bpow radix2 26); rewrite <- bpow_plus; reflexivity). rewrite E27.
  assert (RH : r_hz x = N / D * 1960) by reflexivity. rewrite RH. set (Q := N / D) in *. set (nd := val n / val d) in *. clearbody Q nd. apply Rabs_le_inv in RM. apply Rabs_le. split; lra.
Qed.
Theorem c119_hz : forall b, finite b -> -1 <= val b <= 26 ->
  finite (s_hz b) /\ Rabs (val (s_hz b) - r_hz (val b)) <= bpow radix2 (-27) /\
  forall c, finite c -> val k_0_53 + val b >= 0 -> val b <= val c <= 26 -> 0 <= val (s_hz b) <= val (s_hz c).
Proof.
  intros b Fb Hb. destruct (hz_parts b Fb Hb) as (F & A & P & E). split; [exact F|]. split; [exact A|]. intros c Fc N L.
  destruct (hz_parts c Fc ltac:(lra)) as (_ & _ & P' & E'). rewrite E, E'.
  assert (N0 : 0 <= rnd (val k_0_53 + val b)) by (apply rnd_ge_fmt; [apply generic_format_0|lra]). assert (N1 : rnd (val k_0_53 + val b) <= rnd (val k_0_53 + val c)) by (apply rnd_mono; lra).
  assert (D1 : rnd (val k_26_28 - val c) <= rnd (val k_26_28 - val b)) by (apply rnd_mono; lra).
  set (n := rnd (val k_0_53 + val b)) in *. set (n' := rnd (val k_0_53 + val c)) in *. set (d := rnd (val k_26_28 - val b)) in *. set (d' := rnd (val k_26_28 - val c)) in *.
  assert (I0 : 0 < / d) by (apply Rinv_0_lt_compat; lra). assert (I1 : / d <= / d') by (apply Rinv_le; lra).
  assert (Q0 : 0 <= n / d) by (apply Rmult_le_pos; lra). assert (Q1 : n / d <= n' / d') by (apply Rmult_le_compat; lra).
  assert (R0 : 0 <= rnd (n / d)) by (apply rnd_ge_fmt; [apply generic_format_0|exact Q0]). assert (R1 : rnd (n / d) <= rnd (n' / d')) by (apply rnd_mono; exact Q1).
  split; [apply rnd_ge_fmt; [apply generic_format_0|lra]|apply rnd_mono; lra].
Qed.
(** To Bark and back: up to 32768 Hz, less than [2^-26] Hz off. *)
Theorem c119_roundtrip : forall f, freq 32768 f -> finite (s_hz (s_bark f)) /\ Rabs (val (s_hz (s_bark f)) - val f) <= bpow radix2 (-26).
Proof.
  intros f (Ff & Hf & C). assert (B15 : 32768 <= bpow radix2 400) by (change 32768 with (bpow radix2 15); apply bpow_le; lia).
  destruct (c119_bark f) as [Fb Ab]; [split; [exact Ff|split; [lra|exact C]]|]. set (b := s_bark f) in *. set (x := val f) in *. destruct uu as (U0 & U1 & _).
  assert (E44 : bpow radix2 (-44) = 512 * uro) by (rewrite uro_val; change 512 with (bpow radix2 9); rewrite <- bpow_plus; reflexivity). rewrite E44 in Ab.
  assert (IX : 0 < / (1960 + x)) by (apply Rinv_0_lt_compat; lra).
  assert (RB : 26.28 - r_bark x = 26.81 * 1960 * / (1960 + x)) by (assert (G1 : 1 - x * / (1960 + x) = 1960 * / (1960 + x)) by (field; lra); assert (G2 : r_bark x = 26.81 * (x * / (1960 + x)) - 0.53) by (unfold r_bark, Rdiv; ring); rewrite G2; lra).
  assert (RL : / 34728 <= / (1960 + x) <= / 1960) by (split; apply Rinv_le; lra). set (r := r_bark x) in *. set (i := / (1960 + x)) in *.
  apply Rabs_le_inv in Ab. assert (HB : -1 <= val b <= 26) by (split; lra).
  destruct (hz_parts b Fb HB) as (F & A & _). split; [exact F|].
  assert (HX : r_hz r = x).
  { unfold r_hz. rewrite RB. assert (E : 0.53 + r = 26.81 * x * i) by (unfold r, r_bark, i, Rdiv; ring). rewrite E. unfold i. field. lra. }
  set (D := 26.28 - r) in *. set (D' := 26.28 - val b).
  assert (DL : 1.5 <= D) by (rewrite RB; lra). assert (DL' : 1.4 <= D') by (unfold D', D in *; lra).
  assert (DF : r_hz (val b) - x = 26.81 * 1960 * (val b - r) * (/ D * / D')).
  { rewrite <- HX. unfold r_hz. fold D D'. replace (0.53 + val b) with (26.81 - D') by (unfold D'; lra). replace (0.53 + r) with (26.81 - D) by (unfold D; lra). replace (val b - r) with (D - D') by (unfold D, D'; ring). field. split; lra. }
  assert (I1 : 0 < / D <= / 1.5) by (split; [apply Rinv_0_lt_compat; lra|apply Rinv_le; lra]). assert (I2 : 0 < / D' <= / 1.4) by (split; [apply Rinv_0_lt_compat; lra|apply Rinv_le; lra]).
  assert (DA : Rabs (r_hz (val b) - x) <= 26.81 * 1960 * (512 * uro) * (/ 1.5 * / 1.4)).
  { rewrite DF, !Rabs_mult. rewrite (Rabs_pos_eq 26.81), (Rabs_pos_eq 1960), (Rabs_pos_eq (/ D)), (Rabs_pos_eq (/ D')) by lra. apply Rmult_le_compat; [|apply Rmult_le_pos; lra| |apply Rmult_le_compat; lra].
    - apply Rmult_le_pos; [lra|apply Rabs_pos].
    - apply Rmult_le_compat_l; [lra|]. apply Rabs_le. split; lra. }
  assert (E27 : bpow radix2 (-27) = 67108864 * uro) by (rewrite uro_val; change 67108864 with (bpow radix2 26); rewrite <- bpow_plus; reflexivity). rewrite E27 in A.
  assert (E26 : bpow radix2 (-26) = 134217728 * uro) by (rewrite uro_val; change 134217728 with (bpow radix2 27); rewrite <- bpow_plus; reflexivity). rewrite E26.
  replace (val (s_hz b) - x) with ((val (s_hz b) - r_hz (val b)) + (r_hz (val b) - x)) by ring. eapply Rle_trans; [apply Rabs_triang|]. lra.
Qed.
(** Unlike over the reals (C33), a higher frequency can have fewer Bark. *)
Theorem c119_decreasing_refuted : exists f g : f64_num, finite f /\ finite g /\ 274 < val f < val g /\ val (s_bark g) < val (s_bark f).
Proof.
  exists (f64_of 4820258976169988 (-44)), (f64_of 4820258976169989 (-44)). split; [reflexivity|]. split; [reflexivity|]. split.
  - unfold val. cbn. unfold F2R. cbn. lra.
  - assert (E1 : s_bark (f64_of 4820258976169988 (-44)) = f64_of 6211016252436624 (-51)) by (apply (B2SF_inj 53 1024); vm_compute; reflexivity).
    assert (E2 : s_bark (f64_of 4820258976169989 (-44)) = f64_of 6211016252436622 (-51)) by (apply (B2SF_inj 53 1024); vm_compute; reflexivity).
    rewrite E1, E2. unfold val. cbn. unfold F2R. cbn. lra.
Qed.

Lemma ex_freq : freq 32768 (f64_of 440 0).
Proof.
  destruct (int_val 440 ltac:(lia)) as [F V]. split; [exact F|]. rewrite V. split; [lra|]. right. apply Rle_trans with (bpow radix2 0); [apply bpow_le; lia|cbn; lra].
Qed.
(** 440 Hz are 4.385166666666667 Bark, and 440.0 Hz again. *)
Example ex_bark : s_bark (f64_of 440 0) = f64_of 4937258741489380 (-50) /\ s_hz (s_bark (f64_of 440 0)) = f64_of 7740561859543040 (-44).
Proof. split; apply (B2SF_inj 53 1024); vm_compute; reflexivity. Qed.
(** At 1000 Hz: 44.089 and 132.639 Hz. *)
Example ex_erb : s_erb (f64_of 1000 0) = f64_of 6204975124098056 (-47) /\ s_erb_linear (f64_of 1000 0) = f64_of 4666819929490588 (-45).
Proof. split; apply (B2SF_inj 53 1024); vm_compute; reflexivity. Qed.
Print Assumptions c119_erb. Print Assumptions c119_erb_linear. Print Assumptions c119_bark. Print Assumptions c119_hz. Print Assumptions c119_roundtrip. Print Assumptions c119_decreasing_refuted.
