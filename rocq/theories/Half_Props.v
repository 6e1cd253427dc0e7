(** C122: half sums and half differences in double precision. *)
From Coq Require Import String ZArith Reals Lra Lia Bool List.
From Flocq Require Import Core IEEE754.BinarySingleNaN.
From Flocq Require Mult_error.
Import ListNotations.
From Verif Require Import Base RLists Double_Model Double_Float Peak_Model Peak_Round Peak_Accuracy Peak_Proofs Clock_Model Clock_Proofs Half_Model.
Local Open Scope R_scope.

Definition ranged (v : f64_num) : Prop := finite v /\ Rabs (val v) <= bpow radix2 1000.
Lemma twice_fmt : forall x, fmt x -> fmt (2 * x).
Proof. intros x F. rewrite Rmult_comm. apply (Mult_error.mult_bpow_pos_exact_FLT radix2 (-1074) 53 x 1 F). lia. Qed.
Lemma half_val : forall s : f64_num, finite s -> Rabs (val s) <= bpow radix2 1002 -> finite (fdiv s (f64_of 2 0)) /\ val (fdiv s (f64_of 2 0)) = rnd (val s / 2).
Proof.
  intros s F B. destruct (int_val 2 ltac:(lia)) as [F2 V2]. destruct (fdiv_val s (f64_of 2 0) F) as [Fd Vd]; rewrite V2 in *; [lra| |split; assumption].
  unfold Rdiv. rewrite Rabs_mult, (Rabs_pos_eq (/ 2)) by lra. apply Rle_trans with (bpow radix2 1002); [pose proof (Rabs_pos (val s)); lra|apply bpow_le; lia].
Qed.
Lemma half_near : forall s, Rabs (rnd (s / 2) - s / 2) <= uro * (Rabs s / 2) + / 2 * bpow radix2 (-1074).
Proof.
  intros s. pose proof (rnd_near (s / 2)) as H. replace (Rabs (s / 2)) with (Rabs s / 2) in H; [exact H|]. unfold Rdiv. rewrite Rabs_mult, (Rabs_pos_eq (/ 2)) by lra. reflexivity.
Qed.
(** A number [t] rounded, halved and rounded. *)
Lemma half_err : forall t s e, Rabs e <= uro -> s = t * (1 + e) -> Rabs s <= 2 * Rabs t /\ Rabs (rnd (s / 2) - t / 2) <= 4 * uro * (Rabs t / 2) + / 2 * bpow radix2 (-1074).
Proof.
  intros t s e He E. pose proof uro_pos as U. pose proof uro_small as US. pose proof (half_near s) as H. assert (TE : Rabs (t * e) <= uro * Rabs t) by (rewrite Rabs_mult, Rmult_comm; apply Rmult_le_compat_r; auto using Rabs_pos).
  pose proof (Rabs_pos t) as PT. assert (UT : uro * Rabs t <= / 2 * Rabs t) by (apply Rmult_le_compat_r; lra).
  assert (S1 : Rabs s <= 2 * Rabs t) by (rewrite E; replace (t * (1 + e)) with (t + t * e) by ring; eapply Rle_trans; [apply Rabs_triang|lra]). split; [exact S1|].
  assert (US2 : uro * (Rabs s / 2) <= uro * Rabs t) by (apply Rmult_le_compat_l; lra). rewrite E in H at 2. set (r := rnd (s / 2)) in *. apply Rabs_le_inv in H, TE. apply Rabs_le. split; lra.
Qed.
Lemma parts : forall x y, ranged x -> ranged y ->
  (exists e, Rabs e <= uro /\ finite (e_semisum x y) /\ val (e_semisum x y) = rnd (rnd (val x + val y) / 2) /\ rnd (val x + val y) = (val x + val y) * (1 + e)) /\
  (exists e, Rabs e <= uro /\ finite (e_semidiff x y) /\ val (e_semidiff x y) = rnd (rnd (val x - val y) / 2) /\ rnd (val x - val y) = (val x - val y) * (1 + e)).
Proof.
  intros x y [Fx Bx] [Fy By]. pose proof uro_pos as U. pose proof uro_small as US.
  assert (B1 : Rabs (val x + val y) <= bpow radix2 1001).
  { eapply Rle_trans; [apply Rabs_triang|]. change 1001%Z with (1000 + 1)%Z. rewrite bpow_plus. change (bpow radix2 1) with 2. lra. }
  assert (B2 : Rabs (val x - val y) <= bpow radix2 1001).
  { eapply Rle_trans; [apply Rabs_triang|]. rewrite Rabs_Ropp. change 1001%Z with (1000 + 1)%Z. rewrite bpow_plus. change (bpow radix2 1) with 2. lra. }
  assert (B3 : bpow radix2 1001 <= bpow radix2 1023) by (apply bpow_le; lia). assert (B4 : bpow radix2 1002 = 2 * bpow radix2 1001) by (change 1002%Z with (1 + 1001)%Z; rewrite bpow_plus; reflexivity).
  split.
  - destruct (fadd_val x y Fx Fy ltac:(lra)) as [Fa Va]. destruct (rnd_plus (val x) (val y) (val_fmt x) (val_fmt y)) as (e & He & Ee). exists e. split; [exact He|].
    destruct (half_err _ _ _ He Ee) as [S _]. unfold e_semisum. cbv zeta. destruct (half_val (fadd x y) Fa) as [Fh Vh]; [rewrite Va; lra|]. rewrite Vh, Va. repeat split; assumption.
  - destruct (fsub_val x y Fx Fy ltac:(lra)) as [Fa Va]. destruct (rnd_minus (val x) (val y) (val_fmt x) (val_fmt y)) as (e & He & Ee). exists e. split; [exact He|].
    destruct (half_err _ _ _ He Ee) as [S _]. unfold e_semidiff. cbv zeta. destruct (half_val (fsub x y) Fa) as [Fh Vh]; [rewrite Va; lra|]. rewrite Vh, Va. repeat split; assumption.
Qed.
Lemma e51 : bpow radix2 (-51) = 4 * uro. Proof. rewrite uro_val. change 4 with (bpow radix2 2). rewrite <- bpow_plus. reflexivity. Qed.
Lemma e75 : bpow radix2 (-1075) = / 2 * bpow radix2 (-1074). Proof. change (/ 2) with (bpow radix2 (-1)). rewrite <- bpow_plus. reflexivity. Qed.

(** The half sum lies between the numbers, does not depend on their order, and is right up to [2^-51] of it; of a number and itself, it is that number. *)
Theorem c122_semisum : forall x y, ranged x -> ranged y -> finite (e_semisum x y) /\ Rmin (val x) (val y) <= val (e_semisum x y) <= Rmax (val x) (val y) /\
  val (e_semisum y x) = val (e_semisum x y) /\ Rabs (val (e_semisum x y) - (val x + val y) / 2) <= bpow radix2 (-51) * Rabs ((val x + val y) / 2) + bpow radix2 (-1075) /\
  val (e_semisum x x) = val x.
Proof.
  intros x y Hx Hy. destruct (parts x y Hx Hy) as [(e & He & F & V & E) _]. destruct (parts y x Hy Hx) as [(_ & _ & _ & V' & _) _]. destruct (parts x x Hx Hx) as [(_ & _ & _ & V2 & _) _].
  assert (W : forall a b, fmt b -> a <= b -> rnd (rnd (a + b) / 2) <= b).
  { intros a b Fb L. apply rnd_le_fmt; [exact Fb|]. assert (rnd (a + b) <= 2 * b) by (apply rnd_le_fmt; [apply twice_fmt, Fb|lra]). lra. }
  assert (W' : forall a b, fmt a -> a <= b -> a <= rnd (rnd (a + b) / 2)).
  { intros a b Fa L. apply rnd_ge_fmt; [exact Fa|]. assert (2 * a <= rnd (a + b)) by (apply rnd_ge_fmt; [apply twice_fmt, Fa|lra]). lra. }
  split; [exact F|]. split; [|split; [rewrite V', V, (Rplus_comm (val y)); reflexivity|split]].
  - rewrite V. destruct (Rle_dec (val x) (val y)) as [L|L].
    + rewrite Rmin_left, Rmax_right by lra. split; [apply W'|apply W]; auto using val_fmt.
    + rewrite Rmin_right, Rmax_left by lra. rewrite (Rplus_comm (val x)). split; [apply W'|apply W]; auto using val_fmt; lra.
  - destruct (half_err _ _ _ He E) as [_ H]. rewrite V, e51, e75. replace (Rabs ((val x + val y) / 2)) with (Rabs (val x + val y) / 2); [exact H|].
    unfold Rdiv. rewrite Rabs_mult, (Rabs_pos_eq (/ 2)) by lra. reflexivity.
  - rewrite V2. apply Rle_antisym; [apply W|apply W']; auto using val_fmt; lra.
Qed.
(** The half difference is right up to [2^-51] of it, changes sign with the order, is never of the wrong sign, and 0 if the numbers are equal. *)
Theorem c122_semidiff : forall x y, ranged x -> ranged y -> finite (e_semidiff x y) /\ val (e_semidiff y x) = - val (e_semidiff x y) /\ (val y <= val x -> 0 <= val (e_semidiff x y)) /\
  Rabs (val (e_semidiff x y) - (val x - val y) / 2) <= bpow radix2 (-51) * Rabs ((val x - val y) / 2) + bpow radix2 (-1075) /\
  (val x = val y -> val (e_semidiff x y) = 0) /\ (bpow radix2 (-1072) <= Rabs (val x - val y) -> val (e_semidiff x y) <> 0).
Proof.
  intros x y Hx Hy. destruct (parts x y Hx Hy) as [_ (e & He & F & V & E)]. destruct (parts y x Hy Hx) as [_ (_ & _ & _ & V' & _)]. destruct (half_err _ _ _ He E) as [_ H].
  assert (HA : Rabs ((val x - val y) / 2) = Rabs (val x - val y) / 2) by (unfold Rdiv; rewrite Rabs_mult, (Rabs_pos_eq (/ 2)) by lra; reflexivity). rewrite <- V in H.
  split; [exact F|]. split; [|split; [|split; [|split]]].
  - rewrite V', V, <- rnd_opp. f_equal. replace (val y - val x) with (- (val x - val y)) by ring. rewrite rnd_opp. unfold Rdiv. ring.
  - intros L. rewrite V. apply rnd_ge_fmt; [apply generic_format_0|]. assert (0 <= rnd (val x - val y)) by (apply rnd_ge_fmt; [apply generic_format_0|lra]). lra.
  - rewrite e51, e75, HA. exact H.
  - intros Q. rewrite V, Q, Rminus_eq_0, rnd_0. unfold Rdiv. rewrite Rmult_0_l. apply rnd_0.
  - intros L Z0. rewrite Z0 in H. unfold Rminus at 1 in H. rewrite Rplus_0_l, Rabs_Ropp, HA in H. set (A := Rabs (val x - val y)) in *. pose proof uro_small as US.
    assert (uro * (A / 2) <= / 16 * (A / 2)) by (apply Rmult_le_compat_r; [unfold A; pose proof (Rabs_pos (val x - val y)); lra|lra]).
    assert (E4 : bpow radix2 (-1072) = 4 * bpow radix2 (-1074)) by (change 4 with (bpow radix2 2); rewrite <- bpow_plus; reflexivity). pose proof (bpow_gt_0 radix2 (-1074)). lra.
Qed.
(** It can vanish for numbers that differ. *)
Theorem c122_semidiff_refuted : exists x y, ranged x /\ ranged y /\ val y < val x /\ val (e_semidiff x y) = 0.
Proof.
  exists (f64_of 1 (-1074)), (f64_of 0 0). destruct (int_val 0 ltac:(lia)) as [F0 V0]. assert (V1 : val (f64_of 1 (-1074)) = bpow radix2 (-1074)) by (unfold val; cbn -[bpow]; unfold F2R; cbn -[bpow]; ring).
  pose proof (bpow_gt_0 radix2 (-1074)) as P. assert (P2 : bpow radix2 (-1074) <= bpow radix2 1000) by (apply bpow_le; lia).
  split; [split; [reflexivity|rewrite V1, Rabs_pos_eq by lra; exact P2]|]. split; [split; [exact F0|rewrite V0, Rabs_R0; apply bpow_ge_0]|]. split; [rewrite V0, V1; exact P|].
  assert (E : e_semidiff (f64_of 1 (-1074)) (f64_of 0 0) = f64_of 0 0) by (apply (B2SF_inj 53 1024); vm_compute; reflexivity). rewrite E. exact V0.
Qed.
(** Sum and difference of the half sum and the half difference are the numbers again, up to [2^-50] of the sum of their moduli. *)
Theorem c122_back : forall x y, ranged x -> ranged y -> let s := e_semisum x y in let d := e_semidiff x y in let M := Rabs (val x) + Rabs (val y) in
  finite (fadd s d) /\ Rabs (val (fadd s d) - val x) <= bpow radix2 (-50) * M + bpow radix2 (-1073) /\
  finite (fsub s d) /\ Rabs (val (fsub s d) - val y) <= bpow radix2 (-50) * M + bpow radix2 (-1073).
Proof.
  intros x y Hx Hy s d M. destruct (parts x y Hx Hy) as [(e & He & Fs & Vs & Es) (e' & He' & Fd & Vd & Ed)]. destruct (half_err _ _ _ He Es) as [_ Hs]. destruct (half_err _ _ _ He' Ed) as [_ Hd].
  rewrite <- Vs in Hs. rewrite <- Vd in Hd. fold s in Fs, Hs. fold d in Fd, Hd. pose proof uro_pos as U. pose proof uro_small as US. destruct Hx as [_ Bx]. destruct Hy as [_ By].
  set (t := bpow radix2 (-1074)) in *. assert (T0 : 0 < t) by apply bpow_gt_0. assert (T1 : t <= 1) by (change 1 with (bpow radix2 0); apply bpow_le; lia).
  assert (M1 : Rabs (val x + val y) <= M) by apply Rabs_triang. assert (M2 : Rabs (val x - val y) <= M) by (unfold M; eapply Rle_trans; [apply Rabs_triang|rewrite Rabs_Ropp; lra]).
  assert (M0 : 0 <= M) by (unfold M; pose proof (Rabs_pos (val x)); pose proof (Rabs_pos (val y)); lra). assert (MX : Rabs (val x) <= M) by (unfold M; pose proof (Rabs_pos (val y)); lra). assert (MY : Rabs (val y) <= M) by (unfold M; pose proof (Rabs_pos (val x)); lra).
  assert (Q1 : 4 * uro * (Rabs (val x + val y) / 2) <= 4 * uro * (M / 2)) by (apply Rmult_le_compat_l; lra). assert (Q2 : 4 * uro * (Rabs (val x - val y) / 2) <= 4 * uro * (M / 2)) by (apply Rmult_le_compat_l; lra).
  assert (UM : 0 <= uro * M <= / 64 * M) by (split; [apply Rmult_le_pos; lra|apply Rmult_le_compat_r; lra]).
  assert (MB : M <= 2 * bpow radix2 1000) by (unfold M; lra). assert (B23 : 2 * (2 * bpow radix2 1000) + 4 <= bpow radix2 1023).
  { assert (4 <= bpow radix2 1000) by (change 4 with (bpow radix2 2); apply bpow_le; lia). apply Rle_trans with (bpow radix2 1003); [change 1003%Z with (3 + 1000)%Z; rewrite bpow_plus; change (bpow radix2 3) with 8; lra|apply bpow_le; lia]. }
  assert (K : forall v w, Rabs w <= M -> Rabs (v - w) <= 4 * uro * M + t -> Rabs v <= bpow radix2 1023 /\ Rabs (rnd v - w) <= bpow radix2 (-50) * M + bpow radix2 (-1073)).
  { intros v w W H. pose proof (rnd_near v) as RN. fold t in RN. assert (VM : Rabs v <= M + (4 * uro * M + t)) by (replace v with ((v - w) + w) by ring; eapply Rle_trans; [apply Rabs_triang|lra]).
    assert (UV : uro * Rabs v <= uro * (M + (4 * uro * M + t))) by (apply Rmult_le_compat_l; lra). assert (UUM : uro * (uro * M) <= / 64 * (uro * M)) by (apply Rmult_le_compat_r; lra). assert (UT : uro * t <= / 64 * t) by (apply Rmult_le_compat_r; lra).
    split; [lra|]. assert (E50 : bpow radix2 (-50) = 8 * uro) by (rewrite uro_val; change 8 with (bpow radix2 3); rewrite <- bpow_plus; reflexivity).
    assert (E73 : bpow radix2 (-1073) = 2 * t) by (unfold t; change 2 with (bpow radix2 1); rewrite <- bpow_plus; reflexivity). rewrite E50, E73.
    replace (rnd v - w) with ((rnd v - v) + (v - w)) by ring. eapply Rle_trans; [apply Rabs_triang|]. lra. }
  apply Rabs_le_inv in Hs, Hd.
  destruct (K (val s + val d) (val x) MX) as [A1 A2]; [apply Rabs_le; split; lra|]. destruct (K (val s - val d) (val y) MY) as [C1 C2]; [apply Rabs_le; split; lra|].
  destruct (fadd_val s d Fs Fd A1) as [G1 W1]. destruct (fsub_val s d Fs Fd C1) as [G2 W2]. rewrite W1, W2. repeat split; assumption.
Qed.
(** Not exactly: 1 comes back as 0.5. *)
Theorem c122_back_refuted : exists x y, ranged x /\ ranged y /\ val x = 1 /\ val (fadd (e_semisum x y) (e_semidiff x y)) = / 2.
Proof.
  exists (f64_of 1 0), (f64_of 9007199254740992 0). destruct (int_val 1 ltac:(lia)) as [F1 V1].
  assert (V2 : val (f64_of 9007199254740992 0) = 9007199254740992) by (unfold val; cbn; unfold F2R; cbn; lra).
  assert (B : forall v, 0 <= v <= 9007199254740992 -> Rabs v <= bpow radix2 1000).
  { intros v Hv. rewrite Rabs_pos_eq by lra. apply Rle_trans with (bpow radix2 54); [change (bpow radix2 54) with 18014398509481984; lra|apply bpow_le; lia]. }
  split; [split; [exact F1|apply B; lra]|]. split; [split; [reflexivity|apply B; lra]|]. split; [exact V1|].
  assert (E : fadd (e_semisum (f64_of 1 0) (f64_of 9007199254740992 0)) (e_semidiff (f64_of 1 0) (f64_of 9007199254740992 0)) = f64_of 1 (-1)) by (apply (B2SF_inj 53 1024); vm_compute; reflexivity).
  rewrite E. unfold val. cbn. unfold F2R. cbn. lra.
Qed.
(** Beyond the range, the half sum of a number and itself can be infinite. *)
Theorem c122_overflow_refuted : exists x : f64_num, finite x /\ e_semisum x x = B754_infinity false.
Proof. exists (f64_of 9007199254740991 971). split; [reflexivity|]. apply (B2SF_inj 53 1024). vm_compute. reflexivity. Qed.

Example ex_half : ranged (f64_of 3 0) /\ ranged (f64_of 8 0) /\ e_semisum (f64_of 3 0) (f64_of 8 0) = f64_of 11 (-1) /\ e_semidiff (f64_of 3 0) (f64_of 8 0) = f64_of (-5) (-1).
Proof.
  destruct (int_val 3 ltac:(lia)) as [F3 V3]. destruct (int_val 8 ltac:(lia)) as [F8 V8]. assert (B : 16 <= bpow radix2 1000) by (change 16 with (bpow radix2 4); apply bpow_le; lia).
  split; [split; [exact F3|rewrite V3, Rabs_pos_eq by lra; lra]|]. split; [split; [exact F8|rewrite V8, Rabs_pos_eq by lra; lra]|]. split; apply (B2SF_inj 53 1024); vm_compute; reflexivity.
Qed.
Print Assumptions c122_semisum. Print Assumptions c122_semidiff. Print Assumptions c122_semidiff_refuted. Print Assumptions c122_back. Print Assumptions c122_back_refuted. Print Assumptions c122_overflow_refuted.
