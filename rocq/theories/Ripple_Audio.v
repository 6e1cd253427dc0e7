(** Which audio samples of the beat model are finite (C109). *)
From Coq Require Import String ZArith Reals Lra Lia Bool List.
From Flocq Require Import Core IEEE754.BinarySingleNaN.
Import ListNotations.
From Verif Require Import Base ListLemmas Double_Model Double_Float Peak_Model Peak_Round Peak_Accuracy
  Peak_Proofs Clock_Proofs Ripple_Model Ripple_Proofs.
Local Open Scope R_scope.

(** What is assumed of numpy's functions: values of sine and cosine are between
    -1 and 1, and NaN for infinite and undefined arguments; the cosine of a double
    is never as small as [2^-100] (the smallest one is about [2^-62]); angles of
    [arctan2] are at most 4; the exponential of a number is between 0 and 1 if
    the number is not positive, and at most [2^-560] if it is at most -400
    (it is about [2^-577] there). *)
Record good_trig (T : trig) : Prop := mkGoodTrig
  { gt_cos : forall x : f64_num, finite x -> finite (t_cos T x) /\ bpow radix2 (-100) <= Rabs (val (t_cos T x)) <= 1;
    gt_sin : forall x : f64_num, finite x -> finite (t_sin T x) /\ Rabs (val (t_sin T x)) <= 1;
    gt_cos_nan : forall x : f64_num, is_finite x = false -> t_cos T x = B754_nan;
    gt_sin_nan : forall x : f64_num, is_finite x = false -> t_sin T x = B754_nan;
    gt_atan2 : forall y x : f64_num, finite y -> finite x -> finite (t_atan2 T y x) /\ Rabs (val (t_atan2 T y x)) <= 4;
    gt_exp : forall x : f64_num, finite x -> val x <= 0 -> finite (t_exp T x) /\ 0 <= val (t_exp T x) <= 1;
    gt_exp_tiny : forall x : f64_num, finite x -> val x <= -400 -> val (t_exp T x) <= bpow radix2 (-560) }.

(** ** Squares and roots *)

Lemma Rabs1_bd : forall x : f64_num, finite x -> Rabs (val x) <= 1 -> bd x 0.
Proof. intros x F B. split; [exact F|exact B]. Qed.

(** The operations of [alpha2], with sizes of their results. *)
Lemma alpha2_steps : forall T q, bd (r_a0 q) 500 -> bd (r_a1 q) 500 ->
  finite (t_cos T (r_phase q)) -> Rabs (val (t_cos T (r_phase q))) <= 1 ->
  let ao := rnd (rnd (val (r_a0 q) + val (r_a1 q)) / 2) in
  let ah := rnd (rnd (val (r_a0 q) - val (r_a1 q)) / 2) in
  let c := val (t_cos T (r_phase q)) in
  finite (r_alpha2 T q) /\ bd (r_alpha2 T q) 1002 /\
  val (r_alpha2 T q) = rnd (rnd (rnd (rnd (ao * ao) - rnd (ah * ah)) * rnd (c * c)) + rnd (ah * ah)).
Proof.
  intros T q B0 B1 Fc Bc ao ah c.
  assert (Bs := bd_add _ _ _ B0 B1 ltac:(lia)). assert (Bd := bd_sub _ _ _ B0 B1 ltac:(lia)).
  assert (Bo := bd_half _ _ Bs ltac:(lia)). assert (Bh := bd_half _ _ Bd ltac:(lia)).
  change (bd (r_a_oln q) 500) in Bo. change (bd (r_a_hat q) 500) in Bh.
  assert (Bo2 := bd_mul _ _ _ _ Bo Bo ltac:(lia)). assert (Bh2 := bd_mul _ _ _ _ Bh Bh ltac:(lia)).
  assert (Bm := bd_mul _ _ _ _ (Rabs1_bd _ Fc Bc) (Rabs1_bd _ Fc Bc) ltac:(lia)).
  assert (Br := bd_sub _ _ _ Bo2 Bh2 ltac:(lia)).
  assert (Bp := bd_mul _ _ _ _ Br Bm ltac:(lia)).
  change (500 + 500 + 1 + (0 + 0))%Z with 1001%Z in Bp.
  assert (Ba := bd_add _ _ 1001 Bp (bd_weak _ _ 1001 Bh2 ltac:(lia)) ltac:(lia)).
  assert (L : forall e, (e <= 1023)%Z -> bpow radix2 e <= bpow radix2 1023) by (intros e H; apply bpow_le, H).
  assert (TR : forall u v, Rabs (u - v) <= Rabs u + Rabs v).
  { intros u v. unfold Rminus. rewrite <- (Rabs_Ropp v). apply Rabs_triang. }
  destruct half_val as [F2 V2].
  assert (Vo : val (r_a_oln q) = ao).
  { unfold r_a_oln, f_semisum, ao. destruct B0 as [X0 Y0]. destruct B1 as [X1 Y1].
    destruct (fadd_val _ _ X0 X1) as [_ V].
    { eapply Rle_trans; [apply Rabs_triang|]. apply Rle_trans with (bpow radix2 501); [|apply L; lia].
      change 501%Z with (500 + 1)%Z. rewrite bpow_S. lra. }
    destruct (fdiv_val (fadd (r_a0 q) (r_a1 q)) (f64_of 2 0) (proj1 Bs)) as [_ V']; [rewrite V2; lra| |rewrite V', V2, V; reflexivity].
    rewrite V2. unfold Rdiv. rewrite Rabs_mult, (Rabs_pos_eq (/ 2)) by lra. destruct Bs as [_ Bs].
    pose proof (L (500 + 1)%Z ltac:(lia)). pose proof (Rabs_pos (val (fadd (r_a0 q) (r_a1 q)))). lra. }
  assert (Vh : val (r_a_hat q) = ah).
  { unfold r_a_hat, f_semidiff, ah. destruct B0 as [X0 Y0]. destruct B1 as [X1 Y1].
    destruct (fsub_val _ _ X0 X1) as [_ V].
    { eapply Rle_trans; [apply TR|]. apply Rle_trans with (bpow radix2 501); [|apply L; lia].
      change 501%Z with (500 + 1)%Z. rewrite bpow_S. lra. }
    destruct (fdiv_val (fsub (r_a0 q) (r_a1 q)) (f64_of 2 0) (proj1 Bd)) as [_ V']; [rewrite V2; lra| |rewrite V', V2, V; reflexivity].
    rewrite V2. unfold Rdiv. rewrite Rabs_mult, (Rabs_pos_eq (/ 2)) by lra. destruct Bd as [_ Bd].
    pose proof (L (500 + 1)%Z ltac:(lia)). pose proof (Rabs_pos (val (fsub (r_a0 q) (r_a1 q)))). lra. }
  assert (M : forall x y a b, bd x a -> bd y b -> (a + b <= 1023)%Z -> val (fmul x y) = rnd (val x * val y)).
  { intros x y a b [X1 X2] [Y1 Y2] H. apply fmul_val; auto. rewrite Rabs_mult.
    apply Rle_trans with (bpow radix2 (a + b)); [|apply L, H]. rewrite bpow_plus.
    apply Rmult_le_compat; auto using Rabs_pos. }
  split; [apply Ba|]. split; [eapply bd_weak; [exact Ba|lia]|].
  assert (Vo2 : val (f_square (r_a_oln q)) = rnd (ao * ao)) by (unfold f_square; rewrite (M _ _ _ _ Bo Bo) by lia; now rewrite Vo).
  assert (Vh2 : val (f_square (r_a_hat q)) = rnd (ah * ah)) by (unfold f_square; rewrite (M _ _ _ _ Bh Bh) by lia; now rewrite Vh).
  assert (Vm : val (f_square (t_cos T (r_phase q))) = rnd (c * c)).
  { unfold f_square. rewrite (M _ _ _ _ (Rabs1_bd _ Fc Bc) (Rabs1_bd _ Fc Bc)) by lia. reflexivity. }
  assert (Vr : val (fsub (f_square (r_a_oln q)) (f_square (r_a_hat q))) = rnd (rnd (ao * ao) - rnd (ah * ah))).
  { rewrite <- Vo2, <- Vh2. apply fsub_val; [apply Bo2|apply Bh2|]. eapply Rle_trans; [apply TR|].
    apply Rle_trans with (bpow radix2 (1000 + 1)); [|apply L; lia]. rewrite bpow_S.
    destruct Bo2 as [_ X]. destruct Bh2 as [_ Y]. change (500 + 500)%Z with 1000%Z in X, Y.
    replace (2 * bpow radix2 1000) with (bpow radix2 1000 + bpow radix2 1000) by ring.
    exact (Rplus_le_compat _ _ _ _ X Y). }
  unfold r_alpha2. cbv zeta.
  assert (Vp : val (fmul (fsub (f_square (r_a_oln q)) (f_square (r_a_hat q))) (f_square (t_cos T (r_phase q))))
               = rnd (rnd (rnd (ao * ao) - rnd (ah * ah)) * rnd (c * c))).
  { rewrite <- Vr, <- Vm. apply (M _ _ _ _ Br Bm). lia. }
  rewrite <- Vp, <- Vh2. apply fadd_val; [apply Bp|apply Bh2|]. eapply Rle_trans; [apply Rabs_triang|].
  apply Rle_trans with (bpow radix2 (1001 + 1)); [|apply L; lia]. rewrite bpow_S.
  destruct Bp as [_ X]. destruct (bd_weak _ _ 1001 Bh2 ltac:(lia)) as [_ Y].

  replace (2 * bpow radix2 1001) with (bpow radix2 1001 + bpow radix2 1001) by ring.
  exact (Rplus_le_compat _ _ _ _ X Y).
Qed.

Lemma rnd_ge0 : forall x, 0 <= x -> 0 <= rnd x.
Proof. intros x H. rewrite <- rnd_0. now apply rnd_mono. Qed.
Lemma sq_ge0 : forall x, 0 <= x * x.
Proof. intros x. apply Rle_0_sqr. Qed.

(** [alpha2] is never negative, so its root is never NaN. *)
Lemma alpha2_nonneg : forall T q, bd (r_a0 q) 500 -> bd (r_a1 q) 500 ->
  finite (t_cos T (r_phase q)) -> Rabs (val (t_cos T (r_phase q))) <= 1 ->
  finite (r_alpha2 T q) /\ 0 <= val (r_alpha2 T q) <= bpow radix2 1002.
Proof.
  intros T q B0 B1 Fc Bc. destruct (alpha2_steps T q B0 B1 Fc Bc) as (F & B & V). cbv zeta in V.
  split; [exact F|]. split; [|eapply Rle_trans; [apply Rle_abs|apply B]].
  rewrite V. set (c := val (t_cos T (r_phase q))) in *.
  set (o2 := rnd (rnd (rnd (val (r_a0 q) + val (r_a1 q)) / 2) * rnd (rnd (val (r_a0 q) + val (r_a1 q)) / 2))).
  set (h2 := rnd (rnd (rnd (val (r_a0 q) - val (r_a1 q)) / 2) * rnd (rnd (val (r_a0 q) - val (r_a1 q)) / 2))).
  assert (O : 0 <= o2) by apply rnd_ge0, sq_ge0. assert (H : 0 <= h2) by apply rnd_ge0, sq_ge0.
  assert (Fh : fmt (- h2)) by (apply generic_format_opp, rnd_fmt).
  assert (C : 0 <= rnd (c * c) <= 1).
  { split; [apply rnd_ge0, sq_ge0|]. apply rnd_le_fmt; [apply (fmt_bpow 0); lia|].
    apply Rabs_le_inv in Bc. fold c in Bc. nra. }
  assert (R : - h2 <= rnd (o2 - h2)) by (apply rnd_ge_fmt; [exact Fh|lra]).
  assert (P : - h2 <= rnd (rnd (o2 - h2) * rnd (c * c))).
  { apply rnd_ge_fmt; [exact Fh|]. destruct (Rle_lt_dec 0 (rnd (o2 - h2))); nra. }
  apply rnd_ge0. lra.
Qed.

Lemma fsqrt_val : forall x : f64_num, finite x -> 0 <= val x ->
  finite (fsqrt x) /\ val (fsqrt x) = rnd (sqrt (val x)).
Proof.
  intros x F P. unfold fsqrt. destruct (Bsqrt_correct 53 1024 prec_pos prec_emax mode_NE x) as (V & FF & _).
  split; [|exact V]. rewrite FF. destruct x as [s|s| |s m e b]; try discriminate F; [reflexivity|].
  destruct s; [|reflexivity]. exfalso.
  assert (val (B754_finite true m e b) < 0); [|lra]. cbn. apply F2R_lt_0. reflexivity.
Qed.

(** The envelope is twice the root, up to one rounding. *)
Lemma am_val : forall T q, finite (r_alpha2 T q) -> 0 <= val (r_alpha2 T q) <= bpow radix2 1002 ->
  finite (r_am T q) /\ exists e, Rabs e <= uro /\ val (r_am T q) = 2 * sqrt (val (r_alpha2 T q)) * (1 + e).
Proof.
  intros T q F [P B]. destruct (fsqrt_val _ F P) as [FS VS]. destruct half_val as [F2 V2].
  set (a := val (r_alpha2 T q)) in *.
  assert (Sb : sqrt a <= bpow radix2 501).
  { rewrite <- (sqrt_Rsqr (bpow radix2 501)) by apply bpow_ge_0. apply sqrt_le_1_alt. unfold Rsqr.
    rewrite <- bpow_plus. exact B. }
  assert (S0 : 0 <= sqrt a) by apply sqrt_pos.
  assert (Rb : Rabs (rnd (sqrt a)) <= bpow radix2 501).
  { apply rnd_abs_le; [apply fmt_bpow; lia|]. rewrite Rabs_pos_eq; assumption. }
  unfold r_am. destruct (fmul_val (fsqrt (r_alpha2 T q)) (f64_of 2 0) FS F2) as [FM VM].
  { rewrite VS, V2, Rabs_mult, (Rabs_pos_eq 2) by lra. fold a.
    apply Rle_trans with (bpow radix2 (501 + 1)); [|apply bpow_le; lia]. rewrite bpow_S. lra. }
  split; [exact FM|].
  destruct (rnd_rel (sqrt a)) as (e & Be & E).
  { destruct (Req_dec a 0) as [Z|NZ]; [left; rewrite Z; apply sqrt_0|right].
    rewrite Rabs_pos_eq by exact S0.
    assert (bpow radix2 (-1074) <= a).
    { destruct (fmt_multiple a (val_fmt (r_alpha2 T q))) as (k & K). pose proof (bpow_gt_0 radix2 (-1074)).
      assert (1 <= k)%Z.
      { destruct (Z_le_gt_dec k 0) as [L|L]; [|lia]. exfalso. apply IZR_le in L.
        assert (a <= 0) by (rewrite K; nra). lra. }
      apply IZR_le in H0. rewrite K. nra. }
    apply Rle_trans with (bpow radix2 (-537)); [apply bpow_le; lia|].
    rewrite <- (sqrt_Rsqr (bpow radix2 (-537))) by apply bpow_ge_0. apply sqrt_le_1_alt. unfold Rsqr.
    rewrite <- bpow_plus. exact H. }
  exists e. split; [exact Be|]. rewrite VM, VS, V2. fold a.
  rewrite (Rmult_comm (rnd (sqrt a)) 2), rnd_id by apply fmt_double, rnd_fmt. rewrite E. ring.
Qed.

(** ** Silence *)

(** Doubles that are not numbers stay so. *)
Notation lost x := (is_finite (prec:=53) (emax:=1024) x = false).
Lemma lost_add_l : forall x y : f64_num, lost x -> lost (fadd x y).
Proof. intros [s|[]| |s m e b] [s'|[]| |s' m' e' b'] H; try discriminate H; reflexivity. Qed.
Lemma lost_add_r : forall x y : f64_num, lost y -> lost (fadd x y).
Proof. intros [s|[]| |s m e b] [s'|[]| |s' m' e' b'] H; try discriminate H; reflexivity. Qed.
Lemma lost_mul_r : forall x y : f64_num, lost y -> lost (fmul x y).
Proof. intros [s|[]| |s m e b] [s'|[]| |s' m' e' b'] H; try discriminate H; reflexivity. Qed.
Lemma lost_half : forall x : f64_num, lost x -> lost (fdiv x (f64_of 2 0)).
Proof.
  intros x H. destruct half_val as [F V]. destruct (f64_of 2 0) as [s|s| |s m e b]; try discriminate F.
  - cbn in V. lra.
  - destruct x as [s'|s'| |s' m' e' b']; try discriminate H; reflexivity.
Qed.
Lemma lost_div0 : forall (x y : f64_num), finite y -> val y = 0 -> lost (fdiv x y).
Proof.
  intros x [s|s| |s m e b] F V; try discriminate F.
  - destruct x; reflexivity.
  - exfalso. cbn in V. apply eq_0_F2R in V. destruct s; discriminate V.
Qed.
Lemma lost_div_nan : forall (x : f64_num), lost (fdiv x B754_nan).
Proof. intros [s|s| |s m e b]; reflexivity. Qed.
Lemma nan_mul_r : forall x : f64_num, fmul x B754_nan = B754_nan.
Proof. intros [s|s| |s m e b]; reflexivity. Qed.
Lemma nan_mul_l : forall x : f64_num, fmul B754_nan x = B754_nan.
Proof. intros [s|s| |s m e b]; reflexivity. Qed.
Lemma nan_add_l : forall x : f64_num, fadd B754_nan x = B754_nan.
Proof. intros [s|s| |s m e b]; reflexivity. Qed.

Lemma rnd_tiny : forall x, Rabs x <= bpow radix2 (-1076) -> rnd x = 0.
Proof.
  intros x H. destruct (fmt_multiple (rnd x) (rnd_fmt x)) as (k & K). pose proof eta_pos as P.
  pose proof (rnd_near x) as N. pose proof uro_small as US. pose proof uro_pos as U0.
  assert (Rabs (rnd x) < eta).
  { replace (rnd x) with ((rnd x - x) + x) by ring. eapply Rle_lt_trans; [apply Rabs_triang|].
    assert (E4 : bpow radix2 (-1076) = / 4 * eta).
    { change (-1076)%Z with (-2 + -1074)%Z. rewrite bpow_plus. reflexivity. }
    assert (uro * Rabs x <= / 1024 * Rabs x) by (apply Rmult_le_compat_r; [apply Rabs_pos|exact US]).
    rewrite E4 in H. lra. }
  rewrite K, Rabs_mult, (Rabs_pos_eq eta), <- abs_IZR in H0 by lra.
  assert (IZR (Z.abs k) < 1) by (apply Rmult_lt_reg_r with eta; lra).
  apply lt_IZR in H1. assert (k = 0)%Z by lia. subst k. rewrite K. ring.
Qed.

(** Two amplitudes whose squares are no doubles. *)
Definition silent (q : rpoint) : Prop := bd (r_a0 q) (-538) /\ bd (r_a1 q) (-538).

Lemma silent_alpha2 : forall T q, good_trig T -> silent q -> finite (r_phase q) ->
  finite (r_alpha2 T q) /\ val (r_alpha2 T q) = 0.
Proof.
  intros T q G [B0 B1] Fp. destruct (gt_cos T G _ Fp) as (Fc & _ & Bc).
  destruct (alpha2_steps T q (bd_weak _ _ 500 B0 ltac:(lia)) (bd_weak _ _ 500 B1 ltac:(lia)) Fc Bc) as (F & _ & V).
  cbv zeta in V. split; [exact F|]. rewrite V.
  assert (S : forall x, Rabs x <= bpow radix2 (-537) -> rnd (rnd (rnd x / 2) * rnd (rnd x / 2)) = 0).
  { intros x H. apply rnd_tiny.
    assert (R1 : Rabs (rnd x) <= bpow radix2 (-537)) by (apply rnd_abs_le; [apply fmt_bpow; lia|exact H]).
    assert (R2 : Rabs (rnd (rnd x / 2)) <= bpow radix2 (-538)).
    { apply rnd_abs_le; [apply fmt_bpow; lia|]. unfold Rdiv. rewrite Rabs_mult, (Rabs_pos_eq (/ 2)) by lra.
      change (-537)%Z with (-538 + 1)%Z in R1. rewrite bpow_S in R1. lra. }
    rewrite Rabs_mult. change (-1076)%Z with (-538 + -538)%Z. rewrite bpow_plus.
    apply Rmult_le_compat; auto using Rabs_pos. }
  destruct B0 as [_ B0]. destruct B1 as [_ B1].
  assert (E2 : bpow radix2 (-537) = 2 * bpow radix2 (-538)) by (change (-537)%Z with (-538 + 1)%Z; apply bpow_S).
  rewrite !S.
  - rewrite Rminus_0_r, rnd_0, Rmult_0_l, rnd_0, Rplus_0_r. apply rnd_0.
  - unfold Rminus. eapply Rle_trans; [apply Rabs_triang|]. rewrite Rabs_Ropp. lra.
  - eapply Rle_trans; [apply Rabs_triang|]. lra.
Qed.

Lemma silent_fm : forall T q, good_trig T -> silent q -> lost (r_fm T q).
Proof.
  intros T q G S. rewrite fm_num. apply lost_add_l.
  destruct (is_finite (r_phase q)) eqn:E.
  - destruct (silent_alpha2 T q G S E) as [F V]. apply lost_div0; auto.
  - assert (C : t_cos T (r_phase q) = B754_nan) by (apply (gt_cos_nan T G), E).
    assert (A : r_alpha2 T q = B754_nan).
    { unfold r_alpha2. cbv zeta. rewrite C. change (f_square B754_nan) with (@B754_nan 53 1024). rewrite nan_mul_r. apply nan_add_l. }
    rewrite A. apply lost_div_nan.
Qed.

(** Sums after a lost value are lost. *)
Lemma trapz_lost_acc : forall yx acc y0 x0, lost acc -> Forall (fun z : f64_num => lost z) (f_trapz_from acc y0 x0 yx).
Proof.
  induction yx as [|[y x] yx IH]; intros acc y0 x0 H; cbn [f_trapz_from]; constructor.
  - apply lost_add_l, H.
  - apply IH, lost_add_l, H.
Qed.
Lemma trapz_lost_y0 : forall yx acc y0 x0, lost y0 -> Forall (fun z : f64_num => lost z) (f_trapz_from acc y0 x0 yx).
Proof.
  intros [|[y x] yx] acc y0 x0 H; cbn [f_trapz_from]; constructor.
  - apply lost_add_r, lost_half, lost_mul_r, lost_add_r, H.
  - apply trapz_lost_acc. apply lost_add_r, lost_half, lost_mul_r, lost_add_r, H.
Qed.
Lemma trapz_lost : forall yx acc y0 x0 i j y x z, nth_error yx i = Some (y, x) -> lost y -> (i <= j)%nat ->
  nth_error (f_trapz_from acc y0 x0 yx) j = Some z -> lost z.
Proof.
  induction yx as [|[y1 x1] yx IH]; intros acc y0 x0 i j y x z Hi Hy L Hj; [destruct i; discriminate Hi|].
  cbn [f_trapz_from] in Hj.
  assert (H0 : i = 0%nat -> Forall (fun z : f64_num => lost z)
     (fadd acc (fdiv (fmul (fsub x1 x0) (fadd y1 y0)) (f64_of 2 0))
       :: f_trapz_from (fadd acc (fdiv (fmul (fsub x1 x0) (fadd y1 y0)) (f64_of 2 0))) y1 x1 yx)).
  { intros ->. cbn in Hi. injection Hi as -> ->.
    assert (lost (fadd acc (fdiv (fmul (fsub x x0) (fadd y y0)) (f64_of 2 0))))
      by apply lost_add_r, lost_half, lost_mul_r, lost_add_l, Hy.
    constructor; [assumption|]. now apply trapz_lost_acc. }
  destruct i as [|i].
  - specialize (H0 eq_refl). rewrite Forall_forall in H0. apply H0. eapply nth_error_In. exact Hj.
  - destruct j as [|j]; [lia|]. cbn in Hi, Hj. eapply (IH _ _ _ i j); eauto. lia.
Qed.
Lemma cumtrapz_lost : forall yx i j y x z, nth_error yx i = Some (y, x) -> lost y -> (i <= j)%nat -> (1 <= j)%nat ->
  nth_error (f_cumtrapz yx) j = Some z -> lost z.
Proof.
  intros [|[y0 x0] yx] i j y x z Hi Hy L L1 Hj; [destruct i; discriminate Hi|].
  cbn [f_cumtrapz] in Hj. destruct j as [|j]; [lia|]. cbn in Hj. destruct i as [|i].
  - cbn in Hi. injection Hi as -> ->. pose proof (trapz_lost_y0 yx (f64_of 0 0) y x Hy) as FA.
    rewrite Forall_forall in FA. apply FA. eapply nth_error_In. exact Hj.
  - cbn in Hi. eapply (trapz_lost yx _ _ _ i j); eauto. lia.
Qed.

Lemma nth_error_combine' : forall X Y (l : list X) (r : list Y) i z, nth_error (combine l r) i = Some z ->
  nth_error l i = Some (fst z) /\ nth_error r i = Some (snd z).
Proof.
  intros X Y l. induction l as [|a l IH]; intros [|b r] [|i] z H; cbn in *; try discriminate.
  - injection H as <-. auto.
  - now apply IH.
Qed.

Lemma silent_audio : forall T z0 z1 qs i j q x, good_trig T -> nth_error qs i = Some q -> silent q ->
  (i <= j)%nat -> (1 <= j)%nat -> nth_error (r_audio T z0 z1 qs) j = Some x -> x = B754_nan.
Proof.
  intros T z0 z1 qs i j q x G Hi S L L1 Hj. unfold r_audio in Hj.
  rewrite nth_error_map in Hj. destruct (nth_error (combine (r_pm T z0 z1 qs) qs) j) as [[p r]|] eqn:E; [|discriminate].
  cbn in Hj. injection Hj as <-. apply nth_error_combine' in E. destruct E as [E _]. cbn in E.
  unfold r_pm in E. rewrite nth_error_map in E.
  destruct (nth_error (combine (f_cumtrapz _) qs) j) as [[p' r']|] eqn:E'; [|discriminate].
  cbn in E. injection E as <-. apply nth_error_combine' in E'. destruct E' as [E' _]. cbn in E'.
  assert (lost p').
  { eapply (cumtrapz_lost _ i j); [|apply (silent_fm T q G S)|exact L|exact L1|exact E'].
    rewrite nth_error_map, Hi. reflexivity. }
  rewrite (gt_cos_nan T G); [apply nan_mul_r|]. apply lost_add_l, H.
Qed.

(** ** Sound *)

(** What a sample must be like to be heard: amplitudes that are not negative and
    not both almost zero, and moderate numbers. *)
Record audible (q : rpoint) : Prop := mkAudible
  { au_a0 : bd (r_a0 q) 100; au_a1 : bd (r_a1 q) 100;
    au_pos0 : 0 <= val (r_a0 q); au_pos1 : 0 <= val (r_a1 q);
    au_sum : bpow radix2 (-100) <= val (r_a0 q) + val (r_a1 q);
    au_da0 : bd (r_da0 q) 100; au_da1 : bd (r_da1 q) 100;
    au_f0 : bd (r_f0 q) 60; au_f1 : bd (r_f1 q) 60;
    au_p0 : bd (r_p0 q) 60; au_p1 : bd (r_p1 q) 60; au_t : bd (r_t q) 60 }.

Lemma semi_bd : forall x y e, bd x e -> bd y e -> (-1000 <= e <= 1000)%Z ->
  bd (f_semisum x y) e /\ bd (f_semidiff x y) e.
Proof.
  intros x y e Hx Hy E.
  pose proof (bd_half _ _ (bd_add _ _ _ Hx Hy ltac:(lia)) ltac:(lia)) as H1.
  pose proof (bd_half _ _ (bd_sub _ _ _ Hx Hy ltac:(lia)) ltac:(lia)) as H2.
  replace (e + 1 - 1)%Z with e in H1, H2 by lia. split; assumption.
Qed.
Lemma w_bd : forall q, audible q -> bd (r_w_oln q) 63 /\ bd (r_w_hat q) 63.
Proof.
  intros q H. destruct (semi_bd _ _ _ (au_f0 q H) (au_f1 q H) ltac:(lia)) as [H1 H2].
  pose proof (bd_mul _ _ _ _ two_pi_bd H1 ltac:(lia)). pose proof (bd_mul _ _ _ _ two_pi_bd H2 ltac:(lia)).
  split; assumption.
Qed.
Lemma phase_bd : forall q, audible q -> bd (r_phase q) 124.
Proof.
  intros q H. destruct (semi_bd _ _ _ (au_p0 q H) (au_p1 q H) ltac:(lia)) as [_ H2].
  pose proof (bd_mul _ _ _ _ (proj2 (w_bd q H)) (au_t q H) ltac:(lia)) as H3.
  exact (bd_add _ _ 123 H3 (bd_weak _ _ 123 H2 ltac:(lia)) ltac:(lia)).
Qed.

Lemma alpha2_lower : forall T q, good_trig T -> audible q ->
  finite (r_alpha2 T q) /\ bpow radix2 (-403) <= val (r_alpha2 T q).
Proof.
  intros T q G H. destruct (gt_cos T G _ (proj1 (phase_bd q H))) as (Fc & Lc & Bc).
  destruct (alpha2_steps T q (bd_weak _ _ 500 (au_a0 q H) ltac:(lia)) (bd_weak _ _ 500 (au_a1 q H) ltac:(lia)) Fc Bc) as (F & _ & V).
  cbv zeta in V. split; [exact F|]. rewrite V.
  pose proof (au_pos0 q H) as P0. pose proof (au_pos1 q H) as P1. pose proof (au_sum q H) as PS.
  set (a0 := val (r_a0 q)) in *. set (a1 := val (r_a1 q)) in *. set (c := val (t_cos T (r_phase q))) in *.
  assert (E1 : forall e, bpow radix2 e = 2 * bpow radix2 (e - 1)).
  { intro e. rewrite <- bpow_S. f_equal. lia. }
  assert (S1 : bpow radix2 (-100) <= rnd (a0 + a1)) by (apply rnd_ge_fmt; [apply fmt_bpow; lia|exact PS]).
  assert (S2 : bpow radix2 (-101) <= rnd (rnd (a0 + a1) / 2)).
  { apply rnd_ge_fmt; [apply fmt_bpow; lia|]. rewrite (E1 (-100)%Z) in S1. change (-100 - 1)%Z with (-101)%Z in S1. lra. }
  set (o := rnd (rnd (a0 + a1) / 2)) in *. set (h := rnd (rnd (a0 - a1) / 2)).
  pose proof (bpow_gt_0 radix2 (-101)) as B101.
  assert (Lh : Rabs h <= o).
  { unfold h, o. rewrite rnd_abs. apply rnd_mono. unfold Rdiv. rewrite Rabs_mult, (Rabs_pos_eq (/ 2)) by lra.
    apply Rmult_le_compat_r; [lra|]. rewrite rnd_abs. apply rnd_mono. apply Rabs_le. lra. }
  assert (S3 : bpow radix2 (-202) <= rnd (o * o)).
  { apply rnd_ge_fmt; [apply fmt_bpow; lia|]. change (-202)%Z with (-101 + -101)%Z. rewrite bpow_plus.
    apply Rmult_le_compat; lra. }
  assert (S4 : 0 <= rnd (h * h) <= rnd (o * o)).
  { split; [apply rnd_ge0, sq_ge0|]. apply rnd_mono. apply Rabs_le_inv in Lh. nra. }
  set (o2 := rnd (o * o)) in *. set (h2 := rnd (h * h)) in *.
  assert (C : bpow radix2 (-200) <= rnd (c * c)).
  { apply rnd_ge_fmt; [apply fmt_bpow; lia|]. change (-200)%Z with (-100 + -100)%Z. rewrite bpow_plus.
    assert (c * c = Rabs c * Rabs c) as -> by (rewrite <- Rabs_mult; symmetry; apply Rabs_pos_eq, sq_ge0).
    pose proof (bpow_gt_0 radix2 (-100)). apply Rmult_le_compat; lra. }
  pose proof (bpow_gt_0 radix2 (-200)) as B200. pose proof (bpow_gt_0 radix2 (-203)) as B203.
  assert (P : 0 <= rnd (rnd (o2 - h2) * rnd (c * c))).
  { apply rnd_ge0. apply Rmult_le_pos; [apply rnd_ge0; lra|lra]. }
  rewrite (E1 (-202)%Z) in S3. change (-202 - 1)%Z with (-203)%Z in S3.
  destruct (Rle_lt_dec (bpow radix2 (-203)) h2) as [Hh|Hh].
  - apply Rle_trans with (bpow radix2 (-203)); [apply bpow_le; lia|].
    apply rnd_ge_fmt; [apply fmt_bpow; lia|]. lra.
  - apply rnd_ge_fmt; [apply fmt_bpow; lia|].
    assert (bpow radix2 (-403) <= rnd (rnd (o2 - h2) * rnd (c * c))); [|lra].
    apply rnd_ge_fmt; [apply fmt_bpow; lia|]. change (-403)%Z with (-203 + -200)%Z. rewrite bpow_plus.
    apply Rmult_le_compat; try lra. apply rnd_ge_fmt; [apply fmt_bpow; lia|]. lra.
Qed.

Lemma fm_bd : forall T q, good_trig T -> audible q -> bd (r_fm T q) 668.
Proof.
  intros T q G H. destruct (alpha2_lower T q G H) as [_ L].
  destruct (semi_bd _ _ _ (au_a0 q H) (au_a1 q H) ltac:(lia)) as [Bo Bh]. destruct (w_bd q H) as [Wo Wh].
  pose proof (phase_bd q H) as Bp.
  assert (B2 : bd (f64_of 2 0) 1).
  { destruct half_val as [F V]. split; [exact F|]. rewrite V, Rabs_pos_eq by lra. change (bpow radix2 1) with 2. lra. }
  assert (B4 : bd (f64_of 1 (-2)) 0).
  { destruct quarter_val as [F V]. split; [exact F|]. rewrite V, Rabs_pos_eq by lra. change (bpow radix2 0) with 1. lra. }
  pose proof (bd_mul _ _ _ _ Bp B2 ltac:(lia)) as Bg.
  destruct (gt_sin T G _ (proj1 Bg)) as [Fs Bs].
  assert (X := bd_mul _ _ _ _ (bd_mul _ _ _ _ Bo Bh ltac:(lia)) Wh ltac:(lia)).
  assert (Y := bd_mul _ _ _ _ (bd_mul _ _ _ _ (bd_sub _ _ _ (bd_mul _ _ _ _ (au_da0 q H) (au_a1 q H) ltac:(lia))
                  (bd_mul _ _ _ _ (au_da1 q H) (au_a0 q H) ltac:(lia)) ltac:(lia)) (Rabs1_bd _ Fs Bs) ltac:(lia)) B4 ltac:(lia)).
  assert (Z := bd_add _ _ 263 X (bd_weak _ _ 263 Y ltac:(lia)) ltac:(lia)).
  assert (Q : bd (fdiv (f_num T q) (r_alpha2 T q)) 667).
  { refine (bd_div _ _ 264 (-403) Z _ _); [|lia]. eapply Rle_trans; [exact L|apply Rle_abs]. }
  rewrite fm_num. exact (bd_add _ _ 667 Q (bd_weak _ _ 667 Wo ltac:(lia)) ltac:(lia)).
Qed.

(** The integral stays finite. *)
Lemma trapz_bd : forall yx acc y0 x0 n, finite acc -> Rabs (val acc) <= IZR n * bpow radix2 729 ->
  bd y0 668 -> bd x0 60 -> Forall (fun p => bd (fst p) 668 /\ bd (snd p) 60) yx ->
  (0 <= n)%Z -> (n + Z.of_nat (List.length yx) <= 2 ^ 50)%Z ->
  Forall (fun z => bd z 779) (f_trapz_from acc y0 x0 yx).
Proof.
  induction yx as [|[y x] yx IH]; intros acc y0 x0 n Fa Ba By Bx FA Hn HL; cbn [f_trapz_from]; [constructor|].
  inversion FA as [|? ? [Hy Hx] FA']; subst. cbn [fst snd] in *. cbn [List.length] in HL. rewrite Nat2Z.inj_succ in HL.
  assert (Bt : bd (fdiv (fmul (fsub x x0) (fadd y y0)) (f64_of 2 0)) 729).
  { exact (bd_half _ 730 (bd_mul _ _ 61 669 (bd_sub _ _ 60 Hx Bx ltac:(lia)) (bd_add _ _ 668 Hy By ltac:(lia)) ltac:(lia)) ltac:(lia)). }
  set (t := fdiv (fmul (fsub x x0) (fadd y y0)) (f64_of 2 0)) in *. destruct Bt as [Ft Bt].
  assert (P729 := bpow_gt_0 radix2 729).
  assert (S : Rabs (val acc + val t) <= IZR (n + 1) * bpow radix2 729).
  { eapply Rle_trans; [apply Rabs_triang|]. rewrite plus_IZR. lra. }
  assert (N : forall k, (0 <= k <= 2 ^ 50)%Z -> IZR k * bpow radix2 729 <= bpow radix2 779).
  { intros k Hk. change 779%Z with (50 + 729)%Z. rewrite bpow_plus. apply Rmult_le_compat_r; [lra|].
    apply IZR_le_bpow; lia. }
  destruct (fadd_val acc t Fa Ft) as [F V].
  { eapply Rle_trans; [exact S|]. eapply Rle_trans; [apply N; lia|]. apply bpow_le. lia. }
  assert (B : Rabs (val (fadd acc t)) <= IZR (n + 1) * bpow radix2 729).
  { rewrite V. apply rnd_abs_le; [|exact S]. apply fmt_scaled; lia. }
  constructor.
  - split; [exact F|]. eapply Rle_trans; [exact B|]. apply N; lia.
  - apply (IH _ _ _ (n + 1)%Z); auto; lia.
Qed.

Lemma pm_finite : forall T z0 z1 qs, good_trig T -> bd z0 100 -> bd z1 100 -> Forall audible qs ->
  (Z.of_nat (List.length qs) <= 2 ^ 50)%Z ->
  Forall (fun z : f64_num => finite z) (r_pm T z0 z1 qs) /\ List.length (r_pm T z0 z1 qs) = List.length qs.
Proof.
  intros T z0 z1 qs G B0 B1 FA HL. unfold r_pm.
  set (yx := map (fun q => (r_fm T q, r_t q)) qs).
  assert (FY : Forall (fun p => bd (fst p) 668 /\ bd (snd p) 60) yx).
  { unfold yx. apply Forall_map. eapply Forall_impl; [|exact FA]. intros q H. split; [now apply fm_bd|apply au_t, H]. }
  assert (LY : List.length yx = List.length qs) by apply map_length.
  assert (C : Forall (fun z => bd z 779) (f_cumtrapz yx) /\ List.length (f_cumtrapz yx) = List.length yx).
  { clearbody yx. destruct yx as [|[y x] yx]; [split; [constructor|reflexivity]|]. cbn [f_cumtrapz].
    inversion FY as [|? ? [Hy Hx] FY']; subst. cbn [fst snd] in *.
    destruct (int_val 0 ltac:(lia)) as [FZ VZ]. split.
    - constructor; [split; [exact FZ|rewrite VZ, Rabs_R0; apply bpow_ge_0]|].
      apply (trapz_bd _ _ _ _ 0%Z); auto; try lia.
      + rewrite VZ, Rabs_R0. lra.
      + cbn [List.length] in LY. lia.
    - cbn [List.length]. f_equal. generalize (f64_of 0 0), y, x. clear. induction yx as [|[y x] yx IH]; intros; [reflexivity|].
      cbn [f_trapz_from List.length]. f_equal. apply IH. }
  destruct C as [C1 C2]. split.
  - apply Forall_map, Forall_forall. intros [p q] Hpq. cbn [fst snd].
    pose proof (in_combine_l _ _ _ _ Hpq) as Hp. pose proof (in_combine_r _ _ _ _ Hpq) as Hq.
    rewrite Forall_forall in C1, FA. specialize (C1 p Hp). specialize (FA q Hq).
    destruct (semi_bd _ _ _ B0 B1 ltac:(lia)) as [Zo Zh].
    destruct (semi_bd _ _ _ (au_p0 q FA) (au_p1 q FA) ltac:(lia)) as [Po Ph].
    destruct (gt_cos T G _ (proj1 Ph)) as (Fc & _ & Bc). destruct (gt_sin T G _ (proj1 Ph)) as (Fs & Bs).
    pose proof (bd_mul _ _ _ _ Zh (Rabs1_bd _ Fs Bs) ltac:(lia)) as Y0.
    pose proof (bd_mul _ _ _ _ Zo (Rabs1_bd _ Fc Bc) ltac:(lia)) as X0.
    destruct (gt_atan2 T G _ _ (proj1 Y0) (proj1 X0)) as [Fat Bat].
    assert (Bt : bd (t_atan2 T (fmul (f_semidiff z0 z1) (t_sin T (r_p_hat q))) (fmul (f_semisum z0 z1) (t_cos T (r_p_hat q)))) 2).
    { split; [exact Fat|]. change (bpow radix2 2) with 4. exact Bat. }
    assert (P0 : bd (r_phase0 T z0 z1 q) 61) by exact (bd_add _ _ 60 Po (bd_weak _ _ 60 Bt ltac:(lia)) ltac:(lia)).
    exact (proj1 (bd_add _ _ 779 C1 (bd_weak _ _ 779 P0 ltac:(lia)) ltac:(lia))).
  - rewrite map_length, combine_length. lia.
Qed.

Lemma am_bound : forall T q, good_trig T -> audible q ->
  let A := val (r_a0 q) + val (r_a1 q) in
  finite (r_am T q) /\ 0 <= val (r_am T q) <= A * (1 + 40 * uro).
Proof.
  intros T q G H A. pose proof (au_pos0 q H) as P0. pose proof (au_pos1 q H) as P1. pose proof (au_sum q H) as PS.
  destruct (gt_cos T G _ (proj1 (phase_bd q H))) as (Fc & Lc & Bc).
  destruct (alpha2_nonneg T q (bd_weak _ _ 500 (au_a0 q H) ltac:(lia)) (bd_weak _ _ 500 (au_a1 q H) ltac:(lia)) Fc Bc) as [Fa Ba].
  destruct (am_val T q Fa Ba) as (F & e & Be & V).
  assert (RA : rng A (-200) 200).
  { split.
    - eapply Rle_trans; [|exact PS]. apply bpow_le. lia.
    - apply Rle_trans with (bpow radix2 (100 + 1)); [|apply bpow_le; lia]. rewrite bpow_S. unfold A.
      destruct (au_a0 q H) as [_ X]. destruct (au_a1 q H) as [_ Y]. rewrite Rabs_pos_eq in X, Y by assumption. lra. }
  assert (HA : Rabs (val (r_a0 q)) + Rabs (val (r_a1 q)) = A) by (rewrite !Rabs_pos_eq by assumption; reflexivity).
  destruct (alpha2_ap T q A RA (proj1 (au_a0 q H)) (proj1 (au_a1 q H)) HA Fc Bc) as (_ & _ & D).
  assert (E : 0 <= exact_alpha2 T q <= A * A / 4).
  { unfold exact_alpha2, A in *. set (c := val (t_cos T (r_phase q))) in *.
    assert (0 <= c * c <= 1) by (apply Rabs_le_inv in Bc; fold c in Bc; nra).
    set (a0 := val (r_a0 q)) in *. set (a1 := val (r_a1 q)) in *.
    replace (((a0 + a1) / 2 * ((a0 + a1) / 2) - (a0 - a1) / 2 * ((a0 - a1) / 2)) * (c * c) + (a0 - a1) / 2 * ((a0 - a1) / 2))
      with (a0 * a1 * (c * c) + (a0 - a1) * (a0 - a1) / 4) by field.
    assert (0 <= a0 * a1) by (apply Rmult_le_pos; assumption).
    assert (0 <= a0 * a1 * (c * c) <= a0 * a1 * 1) by (split; [apply Rmult_le_pos; lra|apply Rmult_le_compat_l; lra]).
    pose proof (sq_ge0 (a0 - a1)). split; [lra|]. nra. }
  pose proof uro_pos as U. pose proof uro_tiny as UT. pose proof (rng_pos _ _ _ RA) as PA.
  set (al := val (r_alpha2 T q)) in *.
  assert (AL : al <= (A / 2 * (1 + 32 * uro)) * (A / 2 * (1 + 32 * uro))).
  { apply Rabs_le_inv in D. replace (A / 2 * (1 + 32 * uro) * (A / 2 * (1 + 32 * uro)))
      with (A * A / 4 + 16 * uro * (A * A) + (16 * uro * A) * (16 * uro * A)) by field.
    pose proof (sq_ge0 (16 * uro * A)).
    assert (21 * uro * (3 / 4 * (A * A)) <= 16 * uro * (A * A)).
    { replace (21 * uro * (3 / 4 * (A * A))) with (63 / 4 * uro * (A * A)) by field.
      apply Rmult_le_compat_r; [apply sq_ge0|lra]. }
    lra. }
  assert (SQ : 0 <= sqrt al <= A / 2 * (1 + 32 * uro)).
  { split; [apply sqrt_pos|]. rewrite <- (sqrt_square (A / 2 * (1 + 32 * uro))).
    - apply sqrt_le_1_alt, AL.
    - apply Rmult_le_pos; lra. }
  split; [exact F|]. rewrite V. apply Rabs_le_inv in Be. split.
  - apply Rmult_le_pos; lra.
  - apply Rle_trans with (2 * (A / 2 * (1 + 32 * uro)) * (1 + uro)).
    + apply Rmult_le_compat; lra.
    + replace (2 * (A / 2 * (1 + 32 * uro)) * (1 + uro)) with (A * ((1 + 32 * uro) * (1 + uro))) by field.
      apply Rmult_le_compat_l; [lra|]. nra.
Qed.

Lemma audible_audio : forall T z0 z1 qs, good_trig T -> bd z0 100 -> bd z1 100 -> Forall audible qs ->
  (Z.of_nat (List.length qs) <= 2 ^ 50)%Z ->
  Forall2 (fun q (x : f64_num) => finite x /\
    Rabs (val x) <= (val (r_a0 q) + val (r_a1 q)) * (1 + bpow radix2 (-47))) qs (r_audio T z0 z1 qs).
Proof.
  intros T z0 z1 qs G B0 B1 FA HL. destruct (pm_finite T z0 z1 qs G B0 B1 FA HL) as [FP LP].
  unfold r_audio. set (pm := r_pm T z0 z1 qs) in *. clearbody pm. clear HL.
  revert qs FA LP. induction FP as [|p pm Fp FP IH]; intros [|q qs] FA LP; try discriminate LP; [constructor|].
  inversion FA as [|? ? Hq FA']; subst. cbn [combine map]. constructor; [|apply IH; auto]. cbn [fst snd].
  destruct (gt_cos T G _ Fp) as (Fc & _ & Bc). destruct (am_bound T q G Hq) as (Fm & Bm).
  set (A := val (r_a0 q) + val (r_a1 q)) in *. pose proof (au_sum q Hq) as PS. fold A in PS.
  pose proof uro_pos as U. pose proof uro_tiny as UT. pose proof (bpow_gt_0 radix2 (-100)) as B100.
  assert (AU : A <= bpow radix2 101).
  { change 101%Z with (100 + 1)%Z. rewrite bpow_S. unfold A.
    destruct (au_a0 q Hq) as [_ X]. destruct (au_a1 q Hq) as [_ Y].
    rewrite Rabs_pos_eq in X by apply (au_pos0 q Hq). rewrite Rabs_pos_eq in Y by apply (au_pos1 q Hq). lra. }
  assert (Pr : Rabs (val (r_am T q) * val (t_cos T p)) <= A * (1 + 40 * uro)).
  { rewrite Rabs_mult, (Rabs_pos_eq (val (r_am T q))) by lra.
    rewrite <- (Rmult_1_r (A * (1 + 40 * uro))). apply Rmult_le_compat; try lra. apply Rabs_pos. }
  destruct (fmul_val _ _ Fm Fc) as [F V].
  { eapply Rle_trans; [exact Pr|]. apply Rle_trans with (bpow radix2 (101 + 1)); [|apply bpow_le; lia].
    rewrite bpow_S. nra. }
  split; [exact F|]. rewrite V.
  set (y := val (r_am T q) * val (t_cos T p)) in *. pose proof (rnd_near y) as N.
  replace (rnd y) with ((rnd y - y) + y) by ring. eapply Rle_trans; [apply Rabs_triang|].
  assert (SA : scale A).
  { split; [eapply Rle_trans; [|exact PS]; apply bpow_le; lia|eapply Rle_trans; [exact AU|]; apply bpow_le; lia]. }
  pose proof (scale_eta _ SA) as SE.
  assert (U47 : bpow radix2 (-47) = 64 * uro).
  { rewrite uro_val. change 64 with (bpow radix2 6). rewrite <- bpow_plus. reflexivity. }
  rewrite U47.
  assert (uro * Rabs y <= uro * (A * 2)).
  { apply Rmult_le_compat_l; [lra|]. eapply Rle_trans; [exact Pr|]. apply Rmult_le_compat_l; lra. }
  assert (0 < uro * A) by (apply Rmult_lt_0_compat; lra).
  replace (A * (1 + 64 * uro)) with (A + 64 * (uro * A)) by ring.
  replace (A * (1 + 40 * uro)) with (A + 40 * (uro * A)) in Pr by ring.
  replace (/ 4 * uro * A) with (/ 4 * (uro * A)) in SE by ring.
  replace (uro * (A * 2)) with (2 * (uro * A)) in H by ring. lra.
Qed.
