(** Inverses, monotonicity and bounds of the formulas of Psycho_Proofs. *)
From Coq Require Import List ZArith Reals Lra Lia.
Import ListNotations.
From Verif Require Import Base Sample_Model Sample_Proofs Psycho_Model.
Local Open Scope R_scope.

Lemma ln2_pos : 0 < ln 2.
Proof. rewrite <- ln_1. apply ln_increasing; lra. Qed.

Lemma log10_inc : forall x y, 0 < x -> x < y -> log10 x < log10 y.
Proof.
  intros. unfold log10, Rdiv. apply Rmult_lt_compat_r.
  - apply Rinv_0_lt_compat, ln10_pos.
  - now apply ln_increasing.
Qed.
Lemma log2_inc : forall x y, 0 < x -> x < y -> log2 x < log2 y.
Proof.
  intros. unfold log2, Rdiv. apply Rmult_lt_compat_r.
  - apply Rinv_0_lt_compat, ln2_pos.
  - now apply ln_increasing.
Qed.
Lemma pow10_log10 : forall x, 0 < x -> Rpower 10 (log10 x) = x.
Proof.
  intros. unfold Rpower, log10. pose proof ln10_pos.
  replace (ln x / ln 10 * ln 10) with (ln x) by (field; lra). now apply exp_ln.
Qed.
Lemma log10_pow10 : forall x, log10 (Rpower 10 x) = x.
Proof.
  intros. unfold Rpower, log10. rewrite ln_exp. pose proof ln10_pos. field. lra.
Qed.
Lemma pow2_log2 : forall x, 0 < x -> Rpower 2 (log2 x) = x.
Proof.
  intros. unfold Rpower, log2. pose proof ln2_pos.
  replace (ln x / ln 2 * ln 2) with (ln x) by (field; lra). now apply exp_ln.
Qed.
Lemma log2_pow2 : forall x, log2 (Rpower 2 x) = x.
Proof.
  intros. unfold Rpower, log2. rewrite ln_exp. pose proof ln2_pos. field. lra.
Qed.
Lemma pow10_inc : forall x y, x < y -> Rpower 10 x < Rpower 10 y.
Proof. intros. apply Rpower_lt; lra. Qed.
Lemma Rpower_pos : forall a x, 0 < Rpower a x.
Proof. intros. apply exp_pos. Qed.

Lemma mel_inv : forall f, -700 < f ->
  (Rpower 10 (2595 * log10 (1 + f / 700) / 2595) - 1) * 700 = f.
Proof.
  intros. replace (2595 * log10 (1 + f / 700) / 2595) with (log10 (1 + f / 700)) by field.
  rewrite pow10_log10 by lra. field.
Qed.
Lemma mel_inv' : forall m,
  2595 * log10 (1 + (Rpower 10 (m / 2595) - 1) * 700 / 700) = m.
Proof.
  intros. replace (1 + (Rpower 10 (m / 2595) - 1) * 700 / 700) with (Rpower 10 (m / 2595)) by field.
  rewrite log10_pow10. field.
Qed.
Lemma fant_inv : forall f, -1000 < f ->
  (Rpower 2 (1000 * log2 (1 + f / 1000) / 1000) - 1) * 1000 = f.
Proof.
  intros. replace (1000 * log2 (1 + f / 1000) / 1000) with (log2 (1 + f / 1000)) by field.
  rewrite pow2_log2 by lra. field.
Qed.
Lemma fant_inv' : forall m,
  1000 * log2 (1 + (Rpower 2 (m / 1000) - 1) * 1000 / 1000) = m.
Proof.
  intros. replace (1 + (Rpower 2 (m / 1000) - 1) * 1000 / 1000) with (Rpower 2 (m / 1000)) by field.
  rewrite log2_pow2. field.
Qed.

Lemma traun_inv : forall f, f <> -1960 ->
  (53 / 100 + (2681 / 100 * f / (1960 + f) - 53 / 100))
  / (2628 / 100 - (2681 / 100 * f / (1960 + f) - 53 / 100)) * 1960 = f.
Proof.
  intros.
  replace (2628 / 100 - (2681 / 100 * f / (1960 + f) - 53 / 100))
    with (2681 / 100 * 1960 / (1960 + f)) by (field; lra).
  field. lra.
Qed.
Lemma traun_inv' : forall b, b <> 2628 / 100 ->
  let f := (53 / 100 + b) / (2628 / 100 - b) * 1960 in
  2681 / 100 * f / (1960 + f) - 53 / 100 = b.
Proof.
  intros b Hb f.
  assert (E : 1960 + f = 2681 / 100 * 1960 / (2628 / 100 - b)).
  { unfold f. field. lra. }
  rewrite E. unfold f. field. lra.
Qed.
Lemma traun_inc : forall x y, -1960 < x -> x < y ->
  2681 / 100 * x / (1960 + x) - 53 / 100 < 2681 / 100 * y / (1960 + y) - 53 / 100.
Proof.
  intros. replace (2681 / 100 * x / (1960 + x)) with (2681 / 100 - 2681 / 100 * 1960 * / (1960 + x)) by (field; lra).
  replace (2681 / 100 * y / (1960 + y)) with (2681 / 100 - 2681 / 100 * 1960 * / (1960 + y)) by (field; lra).
  assert (/ (1960 + y) < / (1960 + x)) by (apply Rinv_lt_contravar; [nra|lra]). lra.
Qed.

Lemma zwicker_inc : forall x y, 0 <= x -> x < y ->
  13 * atan (76 / 100000 * x) + 35 / 10 * atan (x / 7500 * (x / 7500)) <
  13 * atan (76 / 100000 * y) + 35 / 10 * atan (y / 7500 * (y / 7500)).
Proof.
  intros.
  assert (A : atan (76 / 100000 * x) < atan (76 / 100000 * y)) by (apply atan_increasing; lra).
  assert (B : atan (x / 7500 * (x / 7500)) < atan (y / 7500 * (y / 7500))).
  { apply atan_increasing. nra. }
  lra.
Qed.

Lemma wang_inv : forall f, 600 * sinh (6 * arcsinh (f / 600) / 6) = f.
Proof.
  intros. replace (6 * arcsinh (f / 600) / 6) with (arcsinh (f / 600)) by field.
  rewrite sinh_arcsinh. field.
Qed.
Lemma wang_inv' : forall b, 6 * arcsinh (600 * sinh (b / 6) / 600) = b.
Proof.
  intros. replace (600 * sinh (b / 6) / 600) with (sinh (b / 6)) by field.
  rewrite arcsinh_sinh. field.
Qed.
Lemma wang_inc : forall x y, x < y -> 6 * arcsinh (x / 600) < 6 * arcsinh (y / 600).
Proof.
  intros. assert (arcsinh (x / 600) < arcsinh (y / 600)) by (apply arcsinh_lt; lra). lra.
Qed.

(** ERB-rate, quadratic. *)
Lemma cams_ratio : forall f, -312 < f -> 0 < (f + 312) / (f + 14675) < 1.
Proof.
  intros. split.
  - apply Rdiv_lt_0_compat; lra.
  - apply Rmult_lt_reg_r with (f + 14675); [lra|].
    unfold Rdiv. rewrite Rmult_assoc, Rinv_l by lra. lra.
Qed.
Lemma cams_inv : forall f, -312 < f ->
  let c := 1117 / 100 * ln ((f + 312) / (f + 14675)) + 43 in
  (312 - 14675 * exp ((c - 43) / (1117 / 100))) / (exp ((c - 43) / (1117 / 100)) - 1) = f.
Proof.
  intros f H c. pose proof (cams_ratio f H).
  replace ((c - 43) / (1117 / 100)) with (ln ((f + 312) / (f + 14675))) by (unfold c; field).
  rewrite exp_ln by lra.
  replace ((f + 312) / (f + 14675) - 1) with (- 14363 / (f + 14675)) by (field; lra).
  field. lra.
Qed.
Lemma cams_below : forall f, -312 < f ->
  1117 / 100 * ln ((f + 312) / (f + 14675)) + 43 < 43.
Proof.
  intros f H. pose proof (cams_ratio f H) as [A B].
  apply (ln_increasing _ 1) in B; auto. rewrite ln_1 in B. lra.
Qed.
Lemma cams_inv' : forall c, c < 43 ->
  let k := exp ((c - 43) / (1117 / 100)) in
  let f := (312 - 14675 * k) / (k - 1) in
  -312 < f /\ 1117 / 100 * ln ((f + 312) / (f + 14675)) + 43 = c.
Proof.
  intros c H k f.
  assert (K : 0 < k < 1).
  { split; [apply exp_pos|]. unfold k. rewrite <- exp_0. apply exp_increasing. lra. }
  assert (F : f = (14675 * k - 312) / (1 - k)) by (unfold f; field; lra).
  split.
  - rewrite F. apply Rmult_lt_reg_r with (1 - k); [lra|].
    unfold Rdiv. rewrite Rmult_assoc, Rinv_l by lra. lra.
  - replace ((f + 312) / (f + 14675)) with k.
    + unfold k. rewrite ln_exp. field.
    + assert (E1 : f + 312 = 14363 * k / (1 - k)) by (rewrite F; field; lra).
      assert (E2 : f + 14675 = 14363 / (1 - k)) by (rewrite F; field; lra).
      rewrite E1, E2. field. lra.
Qed.
Lemma cams_inc : forall x y, -312 < x -> x < y ->
  1117 / 100 * ln ((x + 312) / (x + 14675)) + 43 <
  1117 / 100 * ln ((y + 312) / (y + 14675)) + 43.
Proof.
  intros x y Hx Hy. pose proof (cams_ratio x Hx) as [A B].
  assert (L : ln ((x + 312) / (x + 14675)) < ln ((y + 312) / (y + 14675))).
  { apply ln_increasing; auto.
    replace ((x + 312) / (x + 14675)) with (1 - 14363 * / (x + 14675)) by (field; lra).
    replace ((y + 312) / (y + 14675)) with (1 - 14363 * / (y + 14675)) by (field; lra).
    assert (/ (y + 14675) < / (x + 14675)) by (apply Rinv_lt_contravar; [nra|lra]). lra. }
  lra.
Qed.

(** ERB-rate, linear. *)
Lemma camsl_inv : forall f, - (100000 / 437) < f ->
  (Rpower 10 (214 / 10 * log10 (1 + 437 / 100000 * f) / (214 / 10)) - 1) / (437 / 100000) = f.
Proof.
  intros. replace (214 / 10 * log10 (1 + 437 / 100000 * f) / (214 / 10))
    with (log10 (1 + 437 / 100000 * f)) by field.
  rewrite pow10_log10 by lra. field.
Qed.
Lemma camsl_inv' : forall c,
  214 / 10 * log10 (1 + 437 / 100000 * ((Rpower 10 (c / (214 / 10)) - 1) / (437 / 100000))) = c.
Proof.
  intros. replace (1 + 437 / 100000 * ((Rpower 10 (c / (214 / 10)) - 1) / (437 / 100000)))
    with (Rpower 10 (c / (214 / 10))) by field.
  rewrite log10_pow10. field.
Qed.

Lemma erb_inc : forall x y, 0 <= x -> x < y -> erb_value x < erb_value y.
Proof. intros. unfold erb_value. nra. Qed.
Lemma erb_pos : forall x, 0 < erb_value x.
Proof.
  intro. unfold erb_value.
  assert (0 <= (x + 9339 / 1000000 / (2 * (623 / 100000000))) ^ 2) by apply pow2_ge_0.
  nra.
Qed.

(** A-weighting. *)
Definition a_weight (x : R) : R :=
  148693636 * (x * x * (x * x))
  / (sqrt ((x * x + 1159929 / 100) * (x * x + 54449641 / 100))
     * (x * x + 42436 / 100) * (x * x + 148693636)).

Lemma a_den_pos : forall x,
  0 < sqrt ((x * x + 1159929 / 100) * (x * x + 54449641 / 100))
     * (x * x + 42436 / 100) * (x * x + 148693636).
Proof.
  intro. assert (0 <= x * x) by nra.
  apply Rmult_lt_0_compat; [apply Rmult_lt_0_compat|]; try lra.
  apply sqrt_lt_R0. apply Rmult_lt_0_compat; lra.
Qed.

Lemma a_weight_zero : a_weight 0 = 0.
Proof. unfold a_weight. unfold Rdiv at 1. ring. Qed.

Lemma a_weight_pos : forall x, x <> 0 -> 0 < a_weight x.
Proof.
  intros. unfold a_weight. apply Rdiv_lt_0_compat; [|apply a_den_pos].
  assert (0 < x * x) by nra. nra.
Qed.

Lemma a_weight_even : forall x, a_weight (- x) = a_weight x.
Proof. intro. unfold a_weight. replace (- x * - x) with (x * x) by ring. reflexivity. Qed.

Lemma a_weight_below : forall x, a_weight x < 1.
Proof.
  intro. unfold a_weight. pose proof (a_den_pos x) as P.
  apply Rmult_lt_reg_r with (1 := P).
  unfold Rdiv at 1. rewrite Rmult_assoc, Rinv_l, Rmult_1_r, Rmult_1_l by lra.
  assert (S : 0 <= x * x) by nra. set (u := x * x) in *.
  assert (Q : u < sqrt ((u + 1159929 / 100) * (u + 54449641 / 100))).
  { rewrite <- (sqrt_square u) at 1 by lra. apply sqrt_lt_1_alt. nra. }
  set (s := sqrt ((u + 1159929 / 100) * (u + 54449641 / 100))) in *.
  assert (u * u <= s * u) by nra.
  assert (s * u < s * (u + 42436 / 100)) by nra.
  assert (0 < s * (u + 42436 / 100)) by nra.
  nra.
Qed.

(** Envelope of the gammatone filter. *)
Definition gt_env (n : nat) (t_c b t : R) : R :=
  exp (-2 * PI * b * (t + t_c))
  * ((t + t_c) ^ (n - 1) * (if Rle_lt_dec 0 (t + t_c) then 1 else 0)).

Lemma gt_env_before : forall n t_c b t, t < - t_c -> gt_env n t_c b t = 0.
Proof.
  intros. unfold gt_env. destruct (Rle_lt_dec 0 (t + t_c)); [lra|ring].
Qed.

Lemma gt_env_nonneg : forall n t_c b t, 0 <= gt_env n t_c b t.
Proof.
  intros. unfold gt_env. destruct (Rle_lt_dec 0 (t + t_c)).
  - rewrite Rmult_1_r. apply Rmult_le_pos; [left; apply exp_pos|]. now apply pow_le.
  - right. ring.
Qed.

Lemma exp_pow : forall x n, exp x ^ n = exp (INR n * x).
Proof.
  induction n.
  - simpl. now rewrite Rmult_0_l, exp_0.
  - rewrite S_INR. simpl. rewrite IHn, <- exp_plus. f_equal. ring.
Qed.

Lemma y_le_exp : forall y, 0 <= y -> y <= exp (y - 1) /\ (y <> 1 -> y < exp (y - 1)).
Proof.
  intros. assert (L : y <> 1 -> y < exp (y - 1)).
  { intro. pose proof (exp_ineq1 (y - 1)). lra. }
  split; auto. destruct (Req_dec y 1) as [->|N].
  - replace (1 - 1) with 0 by ring. rewrite exp_0. lra.
  - left. auto.
Qed.

Lemma pow_lt_compat : forall x y n, 0 <= x -> x < y -> (0 < n)%nat -> x ^ n < y ^ n.
Proof.
  intros x y n Hx Hy Hn. destruct n; [lia|]. clear Hn. induction n.
  - simpl. lra.
  - change (x * x ^ S n < y * y ^ S n). assert (0 <= x ^ S n) by now apply pow_le.
    apply Rle_lt_trans with (y * x ^ S n); [nra|]. apply Rmult_lt_compat_l; lra.
Qed.

(** For [m >= 1] and [c > 0] the function [x^m * exp(-c*x)] has its only
    maximum over [x >= 0] at [m/c]. *)
Lemma gamma_max : forall m c x, (0 < m)%nat -> 0 < c -> 0 <= x -> x <> INR m / c ->
  x ^ m * exp (- (c * x)) < (INR m / c) ^ m * exp (- (c * (INR m / c))).
Proof.
  intros m c x Hm Hc Hx Hne.
  assert (Mp : 0 < INR m) by now apply lt_0_INR.
  set (x0 := INR m / c) in *.
  assert (X0 : 0 < x0) by (apply Rdiv_lt_0_compat; auto).
  set (y := x / x0).
  assert (Y : 0 <= y) by (unfold y, Rdiv; apply Rmult_le_pos; [auto|left; now apply Rinv_0_lt_compat]).
  assert (Yn : y <> 1).
  { unfold y. intro E. apply Hne. apply (Rmult_eq_compat_r x0) in E.
    unfold Rdiv in E. rewrite Rmult_assoc, Rinv_l in E by lra. lra. }
  destruct (y_le_exp y Y) as [_ L]. specialize (L Yn).
  pose proof (pow_lt_compat y (exp (y - 1)) m Y L Hm) as P.
  rewrite exp_pow in P.
  assert (Ex : x = x0 * y) by (unfold y; field; lra).
  assert (C : c * x0 = INR m) by (unfold x0; field; lra).
  rewrite Ex at 1. rewrite Rpow_mult_distr, C.
  replace (- (c * x)) with (- (INR m) + - (INR m * (y - 1))) by (rewrite Ex, <- Rmult_assoc, C; ring).
  rewrite exp_plus.
  assert (X0m : 0 < x0 ^ m) by now apply pow_lt.
  assert (E1 : 0 < exp (- INR m)) by apply exp_pos.
  assert (E2 : y ^ m * exp (- (INR m * (y - 1))) < 1).
  { rewrite exp_Ropp. apply Rmult_lt_reg_r with (exp (INR m * (y - 1))); [apply exp_pos|].
    rewrite Rmult_assoc, Rinv_l by (apply Rgt_not_eq, exp_pos). lra. }
  replace (x0 ^ m * y ^ m * (exp (- INR m) * exp (- (INR m * (y - 1)))))
    with ((x0 ^ m * exp (- INR m)) * (y ^ m * exp (- (INR m * (y - 1))))) by ring.
  assert (0 < x0 ^ m * exp (- INR m)) by nra. nra.
Qed.

Lemma gt_env_max : forall n t_c b t, (2 <= n)%nat -> 0 < b ->
  t <> (INR n - 1) / (2 * PI * b) - t_c ->
  gt_env n t_c b t < gt_env n t_c b ((INR n - 1) / (2 * PI * b) - t_c).
Proof.
  intros n t_c b t Hn Hb Hne.
  set (m := (n - 1)%nat). assert (Em : INR n - 1 = INR m).
  { unfold m. rewrite minus_INR by lia. reflexivity. }
  set (c := 2 * PI * b). assert (Hc : 0 < c).
  { unfold c. pose proof PI_RGT_0. nra. }
  assert (Hm : (0 < m)%nat) by (unfold m; lia).
  assert (X : 0 < INR m / c) by (apply Rdiv_lt_0_compat; auto; now apply lt_0_INR).
  rewrite Em in *. fold c in Hne. 
  assert (V : forall t, 0 <= t + t_c ->
    gt_env n t_c b t = (t + t_c) ^ m * exp (- (c * (t + t_c)))).
  { intros s Hs. unfold gt_env. fold m. destruct (Rle_lt_dec 0 (s + t_c)); [|lra].
    replace (-2 * PI * b * (s + t_c)) with (- (c * (s + t_c))) by (unfold c; ring). ring. }
  fold c. rewrite (V (INR m / c - t_c)) by lra.
  replace (INR m / c - t_c + t_c) with (INR m / c) by ring.
  assert (Pos : 0 < (INR m / c) ^ m * exp (- (c * (INR m / c)))).
  { apply Rmult_lt_0_compat; [now apply pow_lt|apply exp_pos]. }
  destruct (Rle_lt_dec 0 (t + t_c)).
  - rewrite V by auto. apply gamma_max; auto. lra.
  - rewrite gt_env_before by lra. exact Pos.
Qed.
