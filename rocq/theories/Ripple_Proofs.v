(** Rounding errors of the beat model (C109). *)
From Coq Require Import String ZArith Reals Lra Lia Bool List.
From Flocq Require Import Core IEEE754.BinarySingleNaN.
Import ListNotations.
From Verif Require Import Base ListLemmas Double_Model Double_Float Peak_Model Peak_Round Peak_Accuracy
  Peak_Proofs Clock_Proofs Ripple_Model.
Local Open Scope R_scope.

Lemma uro_tiny : uro <= / 1048576.
Proof.
  rewrite uro_val. change (/ 1048576) with (bpow radix2 (-20)). apply bpow_le. lia.
Qed.

(** ** Bounds *)

(** [x] is a finite double, at most [2^e]. *)
Definition bd (x : f64_num) (e : Z) : Prop := finite x /\ Rabs (val x) <= bpow radix2 e.

Lemma bd_weak : forall x a b, bd x a -> (a <= b)%Z -> bd x b.
Proof. intros x a b [F B] L. split; [exact F|]. eapply Rle_trans; [exact B|]. apply bpow_le, L. Qed.
Lemma bpow_S : forall e, bpow radix2 (e + 1) = 2 * bpow radix2 e.
Proof. intros e. rewrite bpow_plus. change (bpow radix2 1) with 2. ring. Qed.
Lemma bd_add : forall x y e, bd x e -> bd y e -> (-1075 <= e <= 1022)%Z -> bd (fadd x y) (e + 1).
Proof.
  intros x y e [Fx Bx] [Fy By] E.
  assert (B : Rabs (val x + val y) <= bpow radix2 (e + 1)).
  { rewrite bpow_S. eapply Rle_trans; [apply Rabs_triang|]. lra. }
  destruct (fadd_val x y Fx Fy) as [F V].
  { eapply Rle_trans; [exact B|]. apply bpow_le. lia. }
  split; [exact F|]. rewrite V. apply rnd_abs_le; [apply fmt_bpow; lia|exact B].
Qed.
Lemma bd_sub : forall x y e, bd x e -> bd y e -> (-1075 <= e <= 1022)%Z -> bd (fsub x y) (e + 1).
Proof.
  intros x y e [Fx Bx] [Fy By] E.
  assert (B : Rabs (val x - val y) <= bpow radix2 (e + 1)).
  { rewrite bpow_S. unfold Rminus. eapply Rle_trans; [apply Rabs_triang|]. rewrite Rabs_Ropp. lra. }
  destruct (fsub_val x y Fx Fy) as [F V].
  { eapply Rle_trans; [exact B|]. apply bpow_le. lia. }
  split; [exact F|]. rewrite V. apply rnd_abs_le; [apply fmt_bpow; lia|exact B].
Qed.
Lemma bd_mul : forall x y a b, bd x a -> bd y b -> (-1074 <= a + b <= 1023)%Z -> bd (fmul x y) (a + b).
Proof.
  intros x y a b [Fx Bx] [Fy By] E.
  assert (B : Rabs (val x * val y) <= bpow radix2 (a + b)).
  { rewrite bpow_plus, Rabs_mult. apply Rmult_le_compat; auto using Rabs_pos. }
  destruct (fmul_val x y Fx Fy) as [F V].
  { eapply Rle_trans; [exact B|]. apply bpow_le. lia. }
  split; [exact F|]. rewrite V. apply rnd_abs_le; [apply fmt_bpow; lia|exact B].
Qed.
Lemma bd_div : forall x y a b, bd x a -> bpow radix2 b <= Rabs (val y) ->
  (-1074 <= a - b <= 1023)%Z -> bd (fdiv x y) (a - b).
Proof.
  intros x y a b [Fx Bx] By E. pose proof (bpow_gt_0 radix2 b) as Pb.
  assert (N : val y <> 0) by (intro Z; rewrite Z, Rabs_R0 in By; lra).
  assert (B : Rabs (val x / val y) <= bpow radix2 (a - b)).
  { unfold Zminus, Rdiv. rewrite bpow_plus, bpow_opp, Rabs_mult, Rabs_Rinv by exact N.
    apply Rmult_le_compat; auto using Rabs_pos.
    - apply Rlt_le, Rinv_0_lt_compat, Rabs_pos_lt, N.
    - apply Rinv_le_contravar; auto. }
  destruct (fdiv_val x y Fx N) as [F V].
  { eapply Rle_trans; [exact B|]. apply bpow_le. lia. }
  split; [exact F|]. rewrite V. apply rnd_abs_le; [apply fmt_bpow; lia|exact B].
Qed.

(** The constants. *)
Lemma half_val : finite (f64_of 2 0) /\ val (f64_of 2 0) = 2.
Proof. apply int_val. lia. Qed.
Lemma quarter_val : finite (f64_of 1 (-2)) /\ val (f64_of 1 (-2)) = / 4.
Proof. destruct (f64_of_val 1 (-2) ltac:(lia) ltac:(lia)) as [F V]. split; [exact F|]. rewrite V. cbn. lra. Qed.
Lemma bd_half : forall x e, bd x e -> (-1073 <= e <= 1023)%Z -> bd (fdiv x (f64_of 2 0)) (e - 1).
Proof.
  intros x e B E. apply bd_div with (b := 1%Z); [exact B| |lia].
  destruct half_val as [_ ->]. rewrite Rabs_pos_eq by lra. change (bpow radix2 1) with 2. lra.
Qed.
Lemma two_pi_val : finite two_pi /\ val two_pi = IZR 884279719003555 * bpow radix2 (-47).
Proof.
  unfold two_pi. destruct half_val as [F2 V2].
  destruct (f64_of_val 884279719003555 (-48) ltac:(lia) ltac:(lia)) as [Fp Vp].
  assert (E : val (f64_of 2 0) * val (f64_of 884279719003555 (-48)) = IZR 884279719003555 * bpow radix2 (-47)).
  { rewrite V2, Vp. change (-47)%Z with (-48 + 1)%Z. rewrite bpow_S. ring. }
  destruct (fmul_val _ _ F2 Fp) as [F V].
  { rewrite E. rewrite Rabs_pos_eq by (apply Rmult_le_pos; [apply IZR_le; lia|apply bpow_ge_0]).
    apply Rle_trans with (bpow radix2 50 * bpow radix2 (-47)).
    - apply Rmult_le_compat_r; [apply bpow_ge_0|]. apply IZR_le_bpow; lia.
    - rewrite <- bpow_plus. apply bpow_le. lia. }
  split; [exact F|]. rewrite V, E. apply rnd_id, fmt_scaled; lia.
Qed.
Lemma two_pi_range : 6 <= val two_pi <= 7.
Proof.
  destruct two_pi_val as [_ ->]. change (-47)%Z with (Z.opp 47). rewrite bpow_opp.
  change (bpow radix2 47) with (IZR (2 ^ 47)). change (2 ^ 47)%Z with 140737488355328%Z. lra.
Qed.
Lemma two_pi_bd : bd two_pi 3.
Proof.
  split; [apply two_pi_val|]. pose proof two_pi_range. rewrite Rabs_pos_eq by lra.
  change (bpow radix2 3) with 8. lra.
Qed.

(** ** Approximations *)

(** [x] is [X] up to [k] units of [A], which is not below [X]. *)
Definition ap (x : f64_num) (X A k : R) : Prop :=
  finite x /\ Rabs X <= A /\ Rabs (val x - X) <= k * uro * A.
(** Scales: neither underflow nor overflow. *)
Definition scale (A : R) : Prop := bpow radix2 (-900) <= A <= bpow radix2 900.

Lemma scale_pos : forall A, scale A -> 0 < A.
Proof. intros A [H _]. pose proof (bpow_gt_0 radix2 (-900)). lra. Qed.
Lemma scale_eta : forall A, scale A -> / 2 * bpow radix2 (-1074) <= / 4 * uro * A.
Proof.
  intros A [H _]. pose proof uro_pos.
  apply Rle_trans with (/ 4 * uro * bpow radix2 (-900)).
  - rewrite uro_val, Rmult_assoc, <- bpow_plus.
    assert (bpow radix2 (-1074) <= bpow radix2 (-1) * bpow radix2 (-53 + -900)).
    { rewrite <- bpow_plus. apply bpow_le. lia. }
    change (bpow radix2 (-1)) with (/ 2) in H1. lra.
  - apply Rmult_le_compat_l; lra.
Qed.
Lemma ap_abs : forall x X A k, ap x X A k -> 0 <= k <= 200 -> 0 <= A -> Rabs (val x) <= A * (1 + k * uro).
Proof.
  intros x X A k (_ & B & D) K HA. replace (val x) with ((val x - X) + X) by ring.
  eapply Rle_trans; [apply Rabs_triang|]. lra.
Qed.
Lemma ku_small : forall k, 0 <= k <= 200 -> 0 <= k * uro <= / 4096.
Proof.
  intros k H. pose proof uro_pos. pose proof uro_tiny. split; [apply Rmult_le_pos; lra|].
  apply Rle_trans with (200 * / 1048576); [|lra]. apply Rmult_le_compat; lra.
Qed.
Lemma ap_bound : forall x X A k, ap x X A k -> 0 <= k <= 200 -> scale A -> Rabs (val x) <= 2 * A.
Proof.
  intros x X A k H K S. pose proof (scale_pos _ S). pose proof (ap_abs _ _ _ _ H K ltac:(lra)).
  pose proof (ku_small k K). nra.
Qed.
Lemma ap_weak : forall x X A k k' A', ap x X A k -> 0 <= k <= k' -> 0 <= A <= A' -> ap x X A' k'.
Proof.
  intros x X A k k' A' (F & B & D) K HA. split; [exact F|]. split; [lra|]. eapply Rle_trans; [exact D|].
  pose proof uro_pos. apply Rmult_le_compat; try lra.
  - apply Rmult_le_pos; lra.
  - apply Rmult_le_compat_r; lra.
Qed.
Lemma ap_eq : forall x X Y A k, ap x X A k -> X = Y -> ap x Y A k.
Proof. intros. now subst. Qed.
Lemma ap_const : forall x A, finite x -> Rabs (val x) <= A -> ap x (val x) A 0.
Proof.
  intros x A F B. split; [exact F|]. split; [exact B|].
  replace (val x - val x) with 0 by ring. rewrite Rabs_R0. lra.
Qed.
Lemma scale_max : bpow radix2 900 <= bpow radix2 1020.
Proof. apply bpow_le. lia. Qed.
Lemma ap_round : forall (z : f64_num) v X A k, finite z -> val z = rnd v -> 0 <= k <= 200 -> scale A ->
  Rabs X <= A -> Rabs (v - X) <= k * uro * A -> ap z X A (k + 2).
Proof.
  intros z v X A k F V K S B D. split; [exact F|]. split; [exact B|]. rewrite V.
  pose proof (scale_pos _ S) as PA. pose proof (ku_small k K) as KU. pose proof (scale_eta _ S) as SE.
  pose proof uro_pos as U.
  replace (rnd v - X) with ((rnd v - v) + (v - X)) by ring.
  eapply Rle_trans; [apply Rabs_triang|]. pose proof (rnd_near v) as RN.
  assert (Rabs v <= A * (1 + k * uro)).
  { replace v with ((v - X) + X) by ring. eapply Rle_trans; [apply Rabs_triang|]. lra. }
  assert (uro * Rabs v <= uro * (A * (1 + / 4096))).
  { apply Rmult_le_compat_l; [lra|]. eapply Rle_trans; [exact H|]. apply Rmult_le_compat_l; lra. }
  assert (0 < uro * A) by (apply Rmult_lt_0_compat; lra).
  replace ((k + 2) * uro * A) with (k * uro * A + 2 * (uro * A)) by ring.
  replace (uro * (A * (1 + / 4096))) with ((1 + / 4096) * (uro * A)) in H0 by ring.
  replace (/ 4 * uro * A) with (/ 4 * (uro * A)) in SE by ring. lra.
Qed.
Lemma ap_add : forall x y X Y A B k, ap x X A k -> ap y Y B k -> 0 <= k <= 200 ->
  0 <= A -> 0 <= B -> scale (A + B) -> ap (fadd x y) (X + Y) (A + B) (k + 2).
Proof.
  intros x y X Y A B k Hx Hy K PA PB S. pose proof (ap_abs _ _ _ _ Hx K PA) as Ax. pose proof (ap_abs _ _ _ _ Hy K PB) as Ay.
  destruct Hx as (Fx & Bx & Dx). destruct Hy as (Fy & By & Dy). pose proof (ku_small k K) as KU.
  pose proof scale_max as SM.
  assert (S20 : 2 * bpow radix2 1020 <= bpow radix2 1023).
  { rewrite <- bpow_S. apply bpow_le. lia. }
  destruct (fadd_val x y Fx Fy) as [F V].
  { eapply Rle_trans; [apply Rabs_triang|]. destruct S as [_ S]. nra. }
  apply (ap_round _ (val x + val y) _ _ k F V K S).
  - eapply Rle_trans; [apply Rabs_triang|]. lra.
  - replace (val x + val y - (X + Y)) with ((val x - X) + (val y - Y)) by ring.
    eapply Rle_trans; [apply Rabs_triang|]. lra.
Qed.
Lemma ap_sub : forall x y X Y A B k, ap x X A k -> ap y Y B k -> 0 <= k <= 200 ->
  0 <= A -> 0 <= B -> scale (A + B) -> ap (fsub x y) (X - Y) (A + B) (k + 2).
Proof.
  intros x y X Y A B k Hx Hy K PA PB S. pose proof (ap_abs _ _ _ _ Hx K PA) as Ax. pose proof (ap_abs _ _ _ _ Hy K PB) as Ay.
  destruct Hx as (Fx & Bx & Dx). destruct Hy as (Fy & By & Dy). pose proof (ku_small k K) as KU.
  pose proof scale_max as SM.
  assert (S20 : 2 * bpow radix2 1020 <= bpow radix2 1023).
  { rewrite <- bpow_S. apply bpow_le. lia. }
  assert (TR : forall u v, Rabs (u - v) <= Rabs u + Rabs v).
  { intros u v. unfold Rminus. rewrite <- (Rabs_Ropp v). apply Rabs_triang. }
  destruct (fsub_val x y Fx Fy) as [F V].
  { eapply Rle_trans; [apply TR|]. destruct S as [_ S]. nra. }
  apply (ap_round _ (val x - val y) _ _ k F V K S).
  - eapply Rle_trans; [apply TR|]. lra.
  - replace (val x - val y - (X - Y)) with ((val x - X) - (val y - Y)) by ring.
    eapply Rle_trans; [apply TR|]. lra.
Qed.
Lemma ap_mul : forall x y X Y A B k l, ap x X A k -> ap y Y B l -> 0 <= k <= 90 -> 0 <= l <= 90 ->
  0 <= A -> 0 <= B -> scale (A * B) -> ap (fmul x y) (X * Y) (A * B) (k + l + 3).
Proof.
  intros x y X Y A B k l Hx Hy K L PA PB S.
  pose proof (ap_abs _ _ _ _ Hx ltac:(lra) PA) as Ax. pose proof (ap_abs _ _ _ _ Hy ltac:(lra) PB) as Ay.
  destruct Hx as (Fx & Bx & Dx). destruct Hy as (Fy & By & Dy).
  pose proof (ku_small k ltac:(lra)) as KU. pose proof (ku_small l ltac:(lra)) as LU.
  pose proof uro_pos as U. pose proof scale_max as SM. pose proof (scale_pos _ S) as PS.
  assert (S20 : 2 * bpow radix2 1020 <= bpow radix2 1023).
  { rewrite <- bpow_S. apply bpow_le. lia. }
  assert (XY : Rabs (val x * val y) <= A * B * 2).
  { rewrite Rabs_mult. apply Rle_trans with ((A * (1 + k * uro)) * (B * (1 + l * uro))).
    - apply Rmult_le_compat; auto using Rabs_pos.
    - replace (A * (1 + k * uro) * (B * (1 + l * uro))) with (A * B * ((1 + k * uro) * (1 + l * uro))) by ring.
      apply Rmult_le_compat_l; [lra|]. nra. }
  destruct (fmul_val x y Fx Fy) as [F V].
  { eapply Rle_trans; [exact XY|]. destruct S as [_ S]. lra. }
  replace (k + l + 3) with ((k + l + 1) + 2) by ring.
  apply (ap_round _ (val x * val y) _ _ (k + l + 1) F V ltac:(lra) S).
  - rewrite Rabs_mult. apply Rmult_le_compat; auto using Rabs_pos.
  - replace (val x * val y - X * Y) with ((val x - X) * val y + X * (val y - Y)) by ring.
    eapply Rle_trans; [apply Rabs_triang|]. rewrite !Rabs_mult.
    assert (Rabs (val x - X) * Rabs (val y) <= (k * uro * A) * (B * (1 + l * uro)))
      by (apply Rmult_le_compat; auto using Rabs_pos).
    assert (Rabs X * Rabs (val y - Y) <= A * (l * uro * B)) by (apply Rmult_le_compat; auto using Rabs_pos).
    assert (k * uro * A * (B * (1 + l * uro)) + A * (l * uro * B)
            = (k + l + k * (l * uro)) * (uro * (A * B))) by ring.
    assert (k * (l * uro) <= 1).
    { apply Rle_trans with (90 * / 4096); [|lra]. apply Rmult_le_compat; lra. }
    assert (0 < uro * (A * B)) by (apply Rmult_lt_0_compat; lra).
    replace ((k + l + 1) * uro * (A * B)) with ((k + l + 1) * (uro * (A * B))) by ring.
    assert ((k + l + k * (l * uro)) * (uro * (A * B)) <= (k + l + 1) * (uro * (A * B)))
      by (apply Rmult_le_compat_r; lra).
    lra.
Qed.
Lemma ap_half : forall x X A k, ap x X A k -> 0 <= k <= 200 -> scale (A / 2) ->
  ap (fdiv x (f64_of 2 0)) (X / 2) (A / 2) (k + 2).
Proof.
  intros x X A k H K S. pose proof (scale_pos _ S) as PS. pose proof (ap_abs _ _ _ _ H K ltac:(lra)) as Ax.
  pose proof (ku_small k K) as KU.
  destruct H as (F & B & D). destruct half_val as [F2 V2]. pose proof scale_max as SM.
  assert (H2 : forall v, Rabs (v / 2) = Rabs v / 2).
  { intro v. unfold Rdiv. rewrite Rabs_mult, (Rabs_pos_eq (/ 2)) by lra. reflexivity. }
  assert (S20 : 2 * bpow radix2 1020 <= bpow radix2 1023).
  { rewrite <- bpow_S. apply bpow_le. lia. }
  destruct (fdiv_val x (f64_of 2 0) F) as [F' V]; [rewrite V2; lra| |].
  { rewrite V2, H2. destruct S as [_ S]. nra. }
  rewrite V2 in V. apply (ap_round _ (val x / 2) _ _ k F' V K S).
  - rewrite H2. lra.
  - replace (val x / 2 - X / 2) with ((val x - X) / 2) by field. rewrite H2. lra.
Qed.

(** Ranges of scales. *)
Definition rng (A : R) (a b : Z) : Prop := bpow radix2 a <= A <= bpow radix2 b.
Lemma rng_scale : forall A a b, rng A a b -> (-900 <= a)%Z -> (b <= 900)%Z -> scale A.
Proof.
  intros A a b [H1 H2] Ha Hb. split.
  - eapply Rle_trans; [apply bpow_le, Ha|exact H1].
  - eapply Rle_trans; [exact H2|apply bpow_le, Hb].
Qed.
Lemma rng_pos : forall A a b, rng A a b -> 0 < A.
Proof. intros A a b [H _]. pose proof (bpow_gt_0 radix2 a). lra. Qed.
Lemma rng_mul : forall A B a b c d, rng A a b -> rng B c d -> rng (A * B) (a + c) (b + d).
Proof.
  intros A B a b c d HA HB. pose proof (rng_pos _ _ _ HA). pose proof (rng_pos _ _ _ HB).
  destruct HA, HB. unfold rng. rewrite !bpow_plus.
  split; apply Rmult_le_compat; auto using bpow_ge_0; lra.
Qed.
Lemma rng_add : forall A B a b, rng A a b -> rng B a b -> rng (A + B) a (b + 1).
Proof.
  intros A B a b HA HB. pose proof (rng_pos _ _ _ HA). pose proof (rng_pos _ _ _ HB).
  destruct HA, HB. unfold rng. rewrite bpow_S. lra.
Qed.
Lemma rng_half : forall A a b, rng A a b -> rng (A / 2) (a - 1) (b - 1).
Proof.
  intros A a b H. apply (rng_mul A (/ 2) a b (-1) (-1)); [exact H|].
  split; change (bpow radix2 (-1)) with (/ 2); lra.
Qed.
Lemma rng_weak : forall A a b c d, rng A a b -> (c <= a)%Z -> (b <= d)%Z -> rng A c d.
Proof.
  intros A a b c d [H1 H2] Ha Hb. split.
  - eapply Rle_trans; [apply bpow_le, Ha|exact H1].
  - eapply Rle_trans; [exact H2|apply bpow_le, Hb].
Qed.
Lemma rng_1 : rng 1 0 0. Proof. split; change (bpow radix2 0) with 1; lra. Qed.
Lemma rng_7 : rng 7 2 3. Proof. split; [change (bpow radix2 2) with 4|change (bpow radix2 3) with 8]; lra. Qed.
Lemma rng_4 : rng (/ 4) (-2) (-2). Proof. split; change (bpow radix2 (-2)) with (/ 4); lra. Qed.

(** ** The envelope *)

Section Point.
Variable T : trig.
Variable q : rpoint.
(** Sizes of amplitudes, of frequencies and of derivatives of amplitudes. *)
Variables A F D : R.
Hypothesis RA : rng A (-200) 200.
Hypothesis RF : rng F (-200) 200.
Hypothesis RD : rng D (-200) 200.
Notation c := (val (t_cos T (r_phase q))).
Notation s := (val (t_sin T (fmul (r_phase q) (f64_of 2 0)))).
Hypothesis Fa0 : finite (r_a0 q).
Hypothesis Fa1 : finite (r_a1 q).
Hypothesis HA : Rabs (val (r_a0 q)) + Rabs (val (r_a1 q)) = A.
Hypothesis Fc : finite (t_cos T (r_phase q)).
Hypothesis Bc : Rabs c <= 1.
Notation a0 := (val (r_a0 q)).
Notation a1 := (val (r_a1 q)).

Let PA : 0 < A. Proof. eapply rng_pos. exact RA. Qed.

Lemma oln_ap : ap (r_a_oln q) ((a0 + a1) / 2) (A / 2) 4.
Proof.
  replace 4 with (2 + 2) by ring. apply ap_half; [|lra|].
  - rewrite <- HA. replace 2 with (0 + 2) by ring. apply ap_add; try lra; auto using Rabs_pos.
    + apply ap_const; auto. lra.
    + apply ap_const; auto. lra.
    + rewrite HA. eapply rng_scale; [exact RA|lia|lia].
  - eapply rng_scale; [apply rng_half, RA|lia|lia].
Qed.
Lemma hat_ap : ap (r_a_hat q) ((a0 - a1) / 2) (A / 2) 4.
Proof.
  replace 4 with (2 + 2) by ring. apply ap_half; [|lra|].
  - rewrite <- HA. replace 2 with (0 + 2) by ring. apply ap_sub; try lra; auto using Rabs_pos.
    + apply ap_const; auto. lra.
    + apply ap_const; auto. lra.
    + rewrite HA. eapply rng_scale; [exact RA|lia|lia].
  - eapply rng_scale; [apply rng_half, RA|lia|lia].
Qed.

(** The square of half the envelope. *)
Definition exact_alpha2 : R :=
  ((a0 + a1) / 2 * ((a0 + a1) / 2) - (a0 - a1) / 2 * ((a0 - a1) / 2)) * (c * c) + (a0 - a1) / 2 * ((a0 - a1) / 2).

Lemma alpha2_ap : ap (r_alpha2 T q) exact_alpha2 (3 / 4 * (A * A)) 21.
Proof.
  pose proof (rng_half _ _ _ RA) as R2. pose proof (rng_mul _ _ _ _ _ _ R2 R2) as R4.
  assert (O2 : ap (f_square (r_a_oln q)) ((a0 + a1) / 2 * ((a0 + a1) / 2)) (A / 2 * (A / 2)) 11).
  { replace 11 with (4 + 4 + 3) by ring. apply ap_mul; try lra; try apply oln_ap.
    eapply rng_scale; [exact R4|lia|lia]. }
  assert (H2 : ap (f_square (r_a_hat q)) ((a0 - a1) / 2 * ((a0 - a1) / 2)) (A / 2 * (A / 2)) 11).
  { replace 11 with (4 + 4 + 3) by ring. apply ap_mul; try lra; try apply hat_ap.
    eapply rng_scale; [exact R4|lia|lia]. }
  assert (M : ap (f_square (t_cos T (r_phase q))) (c * c) (1 * 1) 3).
  { replace 3 with (0 + 0 + 3) by ring. apply ap_mul; try lra; try (apply ap_const; auto).
    eapply rng_scale; [apply (rng_mul _ _ _ _ _ _ rng_1 rng_1)|lia|lia]. }
  assert (P4 : 0 < A / 2 * (A / 2)) by (eapply rng_pos; exact R4).
  assert (RG := ap_sub _ _ _ _ _ _ 11 O2 H2 ltac:(lra) ltac:(lra) ltac:(lra)
                  ltac:(eapply rng_scale; [apply (rng_add _ _ _ _ R4 R4)|lia|lia])).
  assert (PR := ap_mul _ _ _ _ _ _ _ _ RG M ltac:(lra) ltac:(lra) ltac:(lra) ltac:(lra)
                  ltac:(eapply rng_scale; [apply (rng_mul _ _ _ _ _ _ (rng_add _ _ _ _ R4 R4)
                                                   (rng_mul _ _ _ _ _ _ rng_1 rng_1))|lia|lia])).
  assert (H3 : ap (f_square (r_a_hat q)) ((a0 - a1) / 2 * ((a0 - a1) / 2)) (A / 2 * (A / 2)) (11 + 2 + 3 + 3)).
  { eapply ap_weak; [exact H2|lra|lra]. }
  assert (SC : scale ((A / 2 * (A / 2) + A / 2 * (A / 2)) * (1 * 1) + A / 2 * (A / 2))).
  { eapply rng_scale with (a := (-402)%Z) (b := 402%Z); [|lia|lia]. 
    apply (rng_add _ _ (-402) 401).
    - eapply rng_weak; [apply (rng_mul _ _ _ _ _ _ (rng_add _ _ _ _ R4 R4) (rng_mul _ _ _ _ _ _ rng_1 rng_1))|lia|lia].
    - eapply rng_weak; [exact R4|lia|lia]. }
  assert (Z := ap_add _ _ _ _ _ _ _ PR H3 ltac:(lra) ltac:(lra) ltac:(lra) SC).
  replace (3 / 4 * (A * A)) with ((A / 2 * (A / 2) + A / 2 * (A / 2)) * (1 * 1) + A / 2 * (A / 2)) by field.
  eapply ap_weak; [exact Z|lra|]. split; [apply Rlt_le, (scale_pos _ SC)|lra].
Qed.

(** ** The instantaneous frequency *)

Hypothesis Ff0 : bd (r_f0 q) 200.
Hypothesis Ff1 : bd (r_f1 q) 200.
Hypothesis Hf0 : Rabs (val (r_f0 q)) <= F.
Hypothesis Hf1 : Rabs (val (r_f1 q)) <= F.
Hypothesis Fd0 : finite (r_da0 q).
Hypothesis Fd1 : finite (r_da1 q).
Hypothesis Hd0 : Rabs (val (r_da0 q)) <= D.
Hypothesis Hd1 : Rabs (val (r_da1 q)) <= D.
Hypothesis Fs : finite (t_sin T (fmul (r_phase q) (f64_of 2 0))).
Hypothesis Bs : Rabs s <= 1.
Notation f0 := (val (r_f0 q)).
Notation f1 := (val (r_f1 q)).
Notation da0 := (val (r_da0 q)).
Notation da1 := (val (r_da1 q)).
Notation tau := (val two_pi).
Let PF : 0 < F. Proof. eapply rng_pos. exact RF. Qed.
Let PD : 0 < D. Proof. eapply rng_pos. exact RD. Qed.

Lemma tau_ap : ap two_pi tau 7 0.
Proof. apply ap_const; [apply two_pi_val|]. pose proof two_pi_range. rewrite Rabs_pos_eq; lra. Qed.
Lemma what_ap : ap (r_w_hat q) (tau * ((f0 - f1) / 2)) (7 * ((F + F) / 2)) 7.
Proof.
  pose proof (rng_add _ _ _ _ RF RF) as R2.
  assert (S : ap (f_semidiff (r_f0 q) (r_f1 q)) ((f0 - f1) / 2) ((F + F) / 2) 4).
  { replace 4 with (2 + 2) by ring. apply ap_half; [|lra|].
    - replace 2 with (0 + 2) by ring. apply ap_sub; try lra.
      + apply ap_const; [apply Ff0|auto].
      + apply ap_const; [apply Ff1|auto].
      + eapply rng_scale; [exact R2|lia|lia].
    - eapply rng_scale; [apply rng_half, R2|lia|lia]. }
  replace 7 with (0 + 4 + 3) at 2 by ring. apply ap_mul; try lra; [apply tau_ap|exact S|].
  eapply rng_scale; [apply (rng_mul _ _ _ _ _ _ rng_7 (rng_half _ _ _ R2))|lia|lia].
Qed.
Lemma woln_ap : ap (r_w_oln q) (tau * ((f0 + f1) / 2)) (7 * ((F + F) / 2)) 7.
Proof.
  pose proof (rng_add _ _ _ _ RF RF) as R2.
  assert (S : ap (f_semisum (r_f0 q) (r_f1 q)) ((f0 + f1) / 2) ((F + F) / 2) 4).
  { replace 4 with (2 + 2) by ring. apply ap_half; [|lra|].
    - replace 2 with (0 + 2) by ring. apply ap_add; try lra.
      + apply ap_const; [apply Ff0|auto].
      + apply ap_const; [apply Ff1|auto].
      + eapply rng_scale; [exact R2|lia|lia].
    - eapply rng_scale; [apply rng_half, R2|lia|lia]. }
  replace 7 with (0 + 4 + 3) at 2 by ring. apply ap_mul; try lra; [apply tau_ap|exact S|].
  eapply rng_scale; [apply (rng_mul _ _ _ _ _ _ rng_7 (rng_half _ _ _ R2))|lia|lia].
Qed.

(** The numerator of the frequency. *)
Definition f_num : f64_num :=
  fadd (fmul (fmul (r_a_oln q) (r_a_hat q)) (r_w_hat q))
    (fmul (fmul (fsub (fmul (r_da0 q) (r_a1 q)) (fmul (r_da1 q) (r_a0 q)))
                (t_sin T (fmul (r_phase q) (f64_of 2 0)))) (f64_of 1 (-2))).
Lemma fm_num : r_fm T q = fadd (fdiv f_num (r_alpha2 T q)) (r_w_oln q).
Proof. reflexivity. Qed.
Definition exact_num : R :=
  (a0 + a1) / 2 * ((a0 - a1) / 2) * (tau * ((f0 - f1) / 2)) + (da0 * a1 - da1 * a0) * s * / 4.
Definition num_scale : R := A * A * F * (7 / 4) + D * A / 2.

Lemma num_ap : ap f_num exact_num num_scale 23.
Proof.
  pose proof (rng_half _ _ _ RA) as R2. pose proof (rng_mul _ _ _ _ _ _ R2 R2) as R4.
  pose proof (rng_mul _ _ _ _ _ _ rng_7 (rng_half _ _ _ (rng_add _ _ _ _ RF RF))) as RW.
  assert (PW := rng_pos _ _ _ RW).
  assert (P4 : 0 < A / 2 * (A / 2)) by (eapply rng_pos; exact R4).
  assert (X1 := ap_mul _ _ _ _ _ _ _ _ oln_ap hat_ap ltac:(lra) ltac:(lra) ltac:(lra) ltac:(lra)
                  ltac:(eapply rng_scale; [exact R4|lia|lia])).
  assert (X2 := ap_mul _ _ _ _ _ _ _ _ X1 what_ap ltac:(lra) ltac:(lra) ltac:(lra) ltac:(lra)
                  ltac:(eapply rng_scale; [apply (rng_mul _ _ _ _ _ _ R4 RW)|lia|lia])).
  pose proof (rng_mul _ _ _ _ _ _ RD RA) as RDA. pose proof (rng_pos _ _ _ RDA) as PDA.
  assert (B0 : Rabs a0 <= A) by (rewrite <- HA; pose proof (Rabs_pos a1); lra).
  assert (B1 : Rabs a1 <= A) by (rewrite <- HA; pose proof (Rabs_pos a0); lra).
  assert (Y0 := ap_mul _ _ _ _ _ _ 0 0 (ap_const _ _ Fd0 Hd0) (ap_const _ _ Fa1 B1) ltac:(lra) ltac:(lra)
                  ltac:(lra) ltac:(lra) ltac:(eapply rng_scale; [exact RDA|lia|lia])).
  assert (Y1 := ap_mul _ _ _ _ _ _ 0 0 (ap_const _ _ Fd1 Hd1) (ap_const _ _ Fa0 B0) ltac:(lra) ltac:(lra)
                  ltac:(lra) ltac:(lra) ltac:(eapply rng_scale; [exact RDA|lia|lia])).
  pose proof (rng_add _ _ _ _ RDA RDA) as RG.
  assert (Y2 := ap_sub _ _ _ _ _ _ _ Y0 Y1 ltac:(lra) ltac:(lra) ltac:(lra)
                  ltac:(eapply rng_scale; [exact RG|lia|lia])).
  pose proof (rng_mul _ _ _ _ _ _ RG rng_1) as RG1.
  assert (Y3 := ap_mul _ _ _ _ _ _ _ 0 Y2 (ap_const _ 1 Fs Bs) ltac:(lra) ltac:(lra) ltac:(lra) ltac:(lra)
                  ltac:(eapply rng_scale; [exact RG1|lia|lia])).
  destruct quarter_val as [FQ VQ].
  assert (BQ : Rabs (val (f64_of 1 (-2))) <= / 4) by (rewrite VQ, Rabs_pos_eq; lra).
  pose proof (rng_mul _ _ _ _ _ _ RG1 rng_4) as RG4.
  assert (Y4 := ap_mul _ _ _ _ _ _ _ 0 Y3 (ap_const _ _ FQ BQ) ltac:(lra) ltac:(lra) ltac:(lra) ltac:(lra)
                  ltac:(eapply rng_scale; [exact RG4|lia|lia])).
  rewrite VQ in Y4. pose proof (rng_pos _ _ _ RG4) as PG4.
  pose proof (rng_mul _ _ _ _ _ _ R4 RW) as RX. pose proof (rng_pos _ _ _ RX) as PX.
  assert (SC : scale (A / 2 * (A / 2) * (7 * ((F + F) / 2)) + (D * A + D * A) * 1 * / 4)).
  { eapply rng_scale with (a := (-700)%Z) (b := 701%Z); [|lia|lia].
    apply (rng_add _ _ (-700) 700).
    - eapply rng_weak; [exact RX|lia|lia].
    - eapply rng_weak; [exact RG4|lia|lia]. }
  assert (Z := ap_add _ _ _ _ _ _ 21 (ap_weak _ _ _ _ 21 _ X2 ltac:(lra) (conj (Rlt_le _ _ PX) (Rle_refl _)))
                 (ap_weak _ _ _ _ 21 _ Y4 ltac:(lra) (conj (Rlt_le _ _ PG4) (Rle_refl _)))
                 ltac:(lra) ltac:(lra) ltac:(lra) SC).
  unfold exact_num. apply ap_weak with (A := A / 2 * (A / 2) * (7 * ((F + F) / 2)) + (D * A + D * A) * 1 * / 4) (k := 21 + 2).
  - exact Z.
  - lra.
  - split; [apply Rlt_le, (scale_pos _ SC)|]. unfold num_scale. right. field.
Qed.

(** What the frequency is: [K] says how much deeper than the sum of the
    amplitudes the envelope is. *)
Lemma fm_ap : forall K, 1 <= K <= bpow radix2 40 -> A * A <= K * (4 * exact_alpha2) ->
  finite (r_fm T q) /\
  Rabs (val (r_fm T q) - (exact_num / exact_alpha2 + tau * ((f0 + f1) / 2)))
    <= bpow radix2 (-41) * (K * K) * (F + D / A).
Proof.
  intros K [K1 K2] HK. pose proof alpha2_ap as (Fal & _ & Dal). pose proof num_ap as (Fn & Bn & Dn).
  pose proof woln_ap as (Fw & Bw & Dw).
  set (E := exact_alpha2) in *. set (al := val (r_alpha2 T q)) in *. set (N := exact_num) in *.
  set (n := val f_num) in *. set (w := val (r_w_oln q)) in *. set (W := tau * ((f0 + f1) / 2)) in *.
  pose proof uro_pos as U0. remember uro as u eqn:EU.
  assert (UK : u * K <= / 4096).
  { rewrite EU, uro_val. apply Rle_trans with (bpow radix2 (-53) * bpow radix2 40).
    - apply Rmult_le_compat_l; [apply bpow_ge_0|exact K2].
    - rewrite <- bpow_plus. change (/ 4096) with (bpow radix2 (-12)). apply bpow_le. lia. }
  assert (PAA : 0 < A * A) by (apply Rmult_lt_0_compat; exact PA).
  assert (PE : 0 < E). { destruct (Rle_lt_dec E 0); [|assumption]. nra. }
  assert (DE : Rabs (al - E) <= 64 * (u * K) * E).
  { eapply Rle_trans; [exact Dal|]. replace (21 * u * (3 / 4 * (A * A))) with (63 / 4 * u * (A * A)) by field.
    apply Rle_trans with (16 * u * (A * A)); [apply Rmult_le_compat_r; lra|].
    replace (64 * (u * K) * E) with (16 * u * (K * (4 * E))) by ring.
    apply Rmult_le_compat_l; lra. }
  assert (Hal : E / 2 <= al <= 2 * E).
  { apply Rabs_le_inv in DE.
    assert (64 * (u * K) * E <= / 64 * E) by (apply Rmult_le_compat_r; lra). lra. }
  set (S := num_scale) in *.
  set (Q := F + D / A).
  assert (PDA : 0 < D / A) by (apply Rmult_lt_0_compat; [exact PD|apply Rinv_0_lt_compat, PA]).
  assert (PQ : 0 < Q) by (unfold Q; lra).
  assert (HS : S <= 2 * (A * A) * Q).
  { unfold S, num_scale, Q. replace (2 * (A * A) * (F + D / A)) with (2 * (A * A * F) + 2 * (D * A)).
    - assert (0 < A * A * F) by (apply Rmult_lt_0_compat; lra). assert (0 < D * A) by (apply Rmult_lt_0_compat; lra). lra.
    - field. lra. }
  assert (HSE : S <= 8 * K * E * Q).
  { eapply Rle_trans; [exact HS|]. replace (8 * K * E * Q) with (2 * (K * (4 * E)) * Q) by ring.
    apply Rmult_le_compat_r; lra. }
  assert (PS : 0 <= S) by (eapply Rle_trans; [apply Rabs_pos|exact Bn]).
  (* the quotient of the doubles *)
  assert (NE : al <> 0) by lra.
  assert (Bq : Rabs (n / al) <= 64 * K * Q).
  { unfold Rdiv. rewrite Rabs_mult, Rabs_Rinv by exact NE. rewrite (Rabs_pos_eq al) by lra.
    assert (Rabs n <= 2 * S).
    { replace n with ((n - N) + N) by ring. eapply Rle_trans; [apply Rabs_triang|].
      assert (23 * u * S <= 1 * S) by (apply Rmult_le_compat_r; [exact PS|]; rewrite EU; pose proof uro_tiny; lra). lra. }
    apply Rle_trans with (2 * S * / (E / 2)).
    - apply Rmult_le_compat; [apply Rabs_pos|apply Rlt_le, Rinv_0_lt_compat; lra|lra|].
      apply Rinv_le_contravar; lra.
    - replace (2 * S * / (E / 2)) with (4 * S / E) by (field; lra).
      apply Rmult_le_reg_r with E; [lra|]. replace (4 * S / E * E) with (4 * S) by (field; lra).
      apply Rle_trans with (4 * (8 * K * E * Q)); [lra|].
      assert (0 < K * E * Q) by (repeat apply Rmult_lt_0_compat; lra). nra. }
  assert (Dq : Rabs (n / al - N / E) <= 1760 * u * (K * K) * Q).
  { replace (n / al - N / E) with ((n - N) / al + N * (E - al) / (al * E)) by (field; lra).
    eapply Rle_trans; [apply Rabs_triang|].
    assert (I2 : / al <= 2 / E).
    { replace (2 / E) with (/ (E / 2)) by (field; lra). apply Rinv_le_contravar; lra. }
    assert (T1 : Rabs ((n - N) / al) <= 23 * u * S * (2 / E)).
    { unfold Rdiv. rewrite Rabs_mult, Rabs_Rinv by exact NE. rewrite (Rabs_pos_eq al) by lra.
      apply Rmult_le_compat; [apply Rabs_pos|apply Rlt_le, Rinv_0_lt_compat; lra|exact Dn|exact I2]. }
    assert (T2 : Rabs (N * (E - al) / (al * E)) <= S * (64 * (u * K) * E) * (2 / E * / E)).
    { unfold Rdiv. rewrite !Rabs_mult. rewrite Rinv_mult_distr by lra.
      rewrite Rabs_mult, !Rabs_Rinv by lra. rewrite (Rabs_pos_eq al), (Rabs_pos_eq E) by lra.
      rewrite (Rabs_minus_sym E al).
      apply Rmult_le_compat.
      - apply Rmult_le_pos; apply Rabs_pos.
      - apply Rmult_le_pos; apply Rlt_le, Rinv_0_lt_compat; lra.
      - apply Rmult_le_compat; auto using Rabs_pos.
      - apply Rmult_le_compat_r; [apply Rlt_le, Rinv_0_lt_compat; lra|exact I2]. }
    assert (T1' : 23 * u * S * (2 / E) <= 23 * u * (8 * K * E * Q) * (2 / E)).
    { apply Rmult_le_compat_r; [apply Rlt_le, Rdiv_lt_0_compat; lra|]. apply Rmult_le_compat_l; [lra|exact HSE]. }
    assert (T2' : S * (64 * (u * K) * E) * (2 / E * / E) <= (8 * K * E * Q) * (64 * (u * K) * E) * (2 / E * / E)).
    { apply Rmult_le_compat_r.
      - apply Rmult_le_pos; apply Rlt_le; [apply Rdiv_lt_0_compat|apply Rinv_0_lt_compat]; lra.
      - apply Rmult_le_compat_r; [|exact HSE]. assert (0 < u * K) by (apply Rmult_lt_0_compat; lra).
        apply Rmult_le_pos; lra. }
    replace (23 * u * (8 * K * E * Q) * (2 / E)) with (368 * u * K * Q) in T1' by (field; lra).
    replace (8 * K * E * Q * (64 * (u * K) * E) * (2 / E * / E)) with (1024 * u * (K * K) * Q) in T2' by (field; lra).
    assert (368 * u * K * Q <= 368 * u * (K * K) * Q).
    { apply Rmult_le_compat_r; [lra|]. apply Rmult_le_compat_l; [lra|]. nra. }
    assert (0 < u * (K * K) * Q) by (repeat apply Rmult_lt_0_compat; lra).
    lra. }
  (* its rounding *)
  assert (UQ : rng (64 * K * Q) (-194) 448).
  { replace (64 * K * Q) with (64 * (K * Q)) by ring. change (-194)%Z with (6 + -200)%Z. change 448%Z with (6 + 442)%Z.
    apply rng_mul; [split; change (bpow radix2 6) with 64; lra|].
    change (-200)%Z with (0 + -200)%Z. change 442%Z with (40 + 402)%Z. apply rng_mul.
    - split; [change (bpow radix2 0) with 1; lra|exact K2].
    - unfold Q. split.
      + destruct RF as [X _]. lra.
      + assert (D / A <= bpow radix2 400).
        { unfold Rdiv. change 400%Z with (200 + 200)%Z. rewrite bpow_plus. apply Rmult_le_compat.
          - lra.
          - apply Rlt_le, Rinv_0_lt_compat; lra.
          - apply RD.
          - replace (bpow radix2 200) with (/ bpow radix2 (-200)).
            + apply Rinv_le_contravar; [apply bpow_gt_0|apply RA].
            + rewrite <- bpow_opp. reflexivity. }
        assert (F <= bpow radix2 400) by (eapply Rle_trans; [apply RF|]; apply bpow_le; lia).
        replace 402%Z with (400 + 1 + 1)%Z by lia. rewrite !bpow_S. pose proof (bpow_gt_0 radix2 400). lra. }
  pose proof (rng_scale _ _ _ UQ ltac:(lia) ltac:(lia)) as SQ.
  assert (KQ : 0 < K * Q) by (apply Rmult_lt_0_compat; lra).
  assert (AQ : ap (fdiv f_num (r_alpha2 T q)) (n / al) (64 * K * Q) 2).
  { destruct (fdiv_val f_num (r_alpha2 T q) Fn NE) as [F1 V1].
    { eapply Rle_trans; [exact Bq|]. destruct UQ as [_ UQ]. eapply Rle_trans; [exact UQ|]. apply bpow_le. lia. }
    replace 2 with (0 + 2) by ring. apply (ap_round _ (n / al) _ _ 0 F1 V1 ltac:(lra) SQ Bq).
    replace (val f_num / val (r_alpha2 T q) - n / al) with 0 by (unfold n, al; ring).
    replace (n / al - n / al) with 0 by ring. rewrite Rabs_R0. lra. }
  assert (AW : ap (r_w_oln q) W (64 * K * Q) 7).
  { eapply ap_weak; [apply woln_ap|lra|]. split; [lra|]. unfold Q in *. nra. }
  assert (AS := ap_add _ _ _ _ _ _ 7 (ap_weak _ _ _ _ 7 _ AQ ltac:(lra) (conj (Rlt_le _ _ (scale_pos _ SQ)) (Rle_refl _))) AW
                  ltac:(lra) (Rlt_le _ _ (scale_pos _ SQ)) (Rlt_le _ _ (scale_pos _ SQ))
                  ltac:(eapply rng_scale; [apply (rng_add _ _ _ _ UQ UQ)|lia|lia])).
  rewrite <- fm_num in AS. destruct AS as (Ff & _ & Df). split; [exact Ff|].
  replace (val (r_fm T q) - (N / E + W)) with ((val (r_fm T q) - (n / al + W)) + (n / al - N / E)) by ring.
  eapply Rle_trans; [apply Rabs_triang|].
  rewrite <- EU in Df.
  assert (U42 : bpow radix2 (-41) = 4096 * u).
  { rewrite EU, uro_val. change 4096 with (bpow radix2 12). rewrite <- bpow_plus. reflexivity. }
  assert (Df' : (7 + 2) * u * (64 * K * Q + 64 * K * Q) <= 1152 * u * (K * K) * Q).
  { replace ((7 + 2) * u * (64 * K * Q + 64 * K * Q)) with (1152 * u * K * Q) by ring.
    apply Rmult_le_compat_r; [lra|]. replace (1152 * u * (K * K)) with (1152 * u * K * K) by ring.
    rewrite <- (Rmult_1_r (1152 * u * K)) at 1. apply Rmult_le_compat_l; [|lra].
    apply Rmult_le_pos; lra. }
  rewrite U42. fold Q.
  replace (4096 * u * (K * K) * Q) with (4096 * (u * (K * K) * Q)) by ring.
  replace (1152 * u * (K * K) * Q) with (1152 * (u * (K * K) * Q)) in Df' by ring.
  replace (1760 * u * (K * K) * Q) with (1760 * (u * (K * K) * Q)) in Dq by ring.
  assert (0 < u * (K * K) * Q) by (repeat apply Rmult_lt_0_compat; lra).
  lra.
Qed.

End Point.
