(** Properties C81 (duration of gammatone filters), C82 (impulse responses) and
    C83 (banks and cochleagrams). *)
From Coq Require Import FunctionalExtensionality String List Bool ZArith Reals Lra Lia Psatz.
Import ListNotations.
From Verif Require Import Base Py RLists PyLemmas Np_Model Np_Lemmas Stft_Model Dsp_Model Dsp_Proofs Sample_Model
  Sample_Proofs Psycho_Math Psycho_Model Psycho_Proofs Bank_Model Bank_Proofs Gamma_Model Gamma_Proofs.
Local Open Scope R_scope.

(** ** C81 *)

(** The level of the impulse response at a time, in decibel below its peak: the
    envelope is [x^(n-1) e^(-2 pi b x)], [x] seconds after the leading time, and
    has its peak at [(n-1)/(2 pi b)]. *)
Definition decay (g : gammatone) (x : R) : R := x ^ (gt_n g - 1) * exp (- (2 * PI * bandwidth g * x)).
Definition peak (g : gammatone) : R := (INR (gt_n g) - 1) / (2 * PI * bandwidth g).
Definition level (g : gammatone) (t : R) : R := 20 * (ln (decay g (t + t_c g) / decay g (peak g)) / ln 10).

Lemma decay_env : forall g t, 0 < t + t_c g -> decay g (t + t_c g) = gt_env (gt_n g) (t_c g) (bandwidth g) t.
Proof.
  intros g t Ht. unfold decay, gt_env. destruct (Rle_lt_dec 0 (t + t_c g)); [|lra].
  rewrite Rmult_1_r, Rmult_comm. do 2 f_equal. ring.
Qed.
Lemma level_lev : forall g t, (2 <= gt_n g)%nat -> 0 < bandwidth g -> group_delay g <= t -> level g t = lev g t.
Proof.
  intros g t Hn Hb Ht. pose proof (raw_pos g Hn Hb). pose proof (gd_tc g). unfold level.
  replace (peak g) with (group_delay g + t_c g) by (rewrite gd_tc; reflexivity).
  rewrite !decay_env by lra. rewrite <- (lev_env g Hn Hb) by lra. reflexivity.
Qed.

(** The range that is searched first. *)
Definition first_range (g : gammatone) (k : t60_kws) : R :=
  match k_range k with Some r => r | None => 2 * peak g end.

Lemma t60_eq : forall junk g k, t60 junk g k =
  bind (t60_search (foo g (k_floor k)) (group_delay g) (first_range g k) (k_steps k) (k_n_starts k)) (fun t =>
  match k_warn_th k with
  | None => Ok t
  | Some th =>
    let v := gt_env (gt_n g) (t_c g) (bandwidth g) t / gt_env (gt_n g) (t_c g) (bandwidth g) (group_delay g) in
    if Req_EM_T v 0 then Err ConvergenceWarning
    else if Rlt_dec th (Rabs (a2db v - k_floor k)) then Err ConvergenceWarning
    else Ok t
  end).
Proof.
  intros junk g k. unfold t60. rewrite gd_tc. fold (first_range g k).
  replace (fun t => envelope_at junk g t - db2a (k_floor k) * envelope_at junk g (group_delay g)) with (foo g (k_floor k)).
  - unfold first_range, peak, raw_group_delay. destruct (k_range k);
    (destruct (t60_search _ _ _ _ _) as [t|]; [|reflexivity]); cbn [bind]; now rewrite !envelope_at_env.
  - apply functional_extensionality. intros t. unfold foo. now rewrite !envelope_at_env.
Qed.
Lemma warn_eq : forall g t floor th (A : Type) (a b : A), (2 <= gt_n g)%nat -> 0 < bandwidth g -> group_delay g <= t ->
  (let v := gt_env (gt_n g) (t_c g) (bandwidth g) t / gt_env (gt_n g) (t_c g) (bandwidth g) (group_delay g) in
   if Req_EM_T v 0 then a else if Rlt_dec th (Rabs (a2db v - floor)) then a else b) =
  if Rlt_dec th (Rabs (level g t - floor)) then a else b.
Proof.
  intros g t floor th A a b Hn Hb Ht. pose proof (raw_pos g Hn Hb). pose proof (gd_tc g). cbv zeta.
  rewrite (lev_env g Hn Hb) by lra. rewrite level_lev by assumption.
  destruct (Req_EM_T _ 0) as [E|_]; [|reflexivity]. exfalso.
  assert (0 < gt_env (gt_n g) (t_c g) (bandwidth g) t / gt_env (gt_n g) (t_c g) (bandwidth g) (group_delay g)); [|lra].
  apply Rdiv_lt_0_compat; apply env_pos; auto; lra.
Qed.

(** [k] has a floor below the peak and a range that is not empty. *)
Definition sensible (k : t60_kws) : Prop :=
  k_floor k < 0 /\ match k_range k with Some r => 0 < r | None => True end.
Lemma first_range_pos : forall g k, (2 <= gt_n g)%nat -> 0 < bandwidth g -> sensible k -> 0 < first_range g k.
Proof.
  intros g k Hn Hb [_ H]. unfold first_range. destruct (k_range k); [exact H|].
  pose proof (raw_pos g Hn Hb) as P. change (raw_group_delay g) with (peak g) in P. lra.
Qed.

(** What is returned is after the peak, and near the only time after it where the
    level is the floor: the error is at most half the range where that time is,
    halved by every step; the ranges follow each other and double.  With a
    threshold the level is that near to the floor. *)
Theorem c81_t60 : forall junk g k t, (2 <= gt_n g)%nat -> 0 < bandwidth g -> sensible k ->
  t60 junk g k = Ok t ->
  group_delay g < t /\
  (exists z j, let r := first_range g k in
     group_delay g + r * (2 ^ j - 1) < z <= group_delay g + r * (2 ^ S j - 1) /\
     level g z = k_floor k /\
     (forall z', group_delay g < z' -> level g z' = k_floor k -> z' = z) /\
     Rabs (t - z) <= r * 2 ^ j / 2 / 2 ^ k_steps k) /\
  (forall th, k_warn_th k = Some th -> Rabs (level g t - k_floor k) <= th).
Proof.
  intros junk g k t Hn Hb Hk E. pose proof (first_range_pos g k Hn Hb Hk) as Hr. destruct Hk as [Hf _].
  rewrite t60_eq in E.
  pose proof (search_spec g Hn Hb (k_floor k) (k_steps k) (k_n_starts k) (group_delay g) (first_range g k)
                (Rle_refl _) Hr ltac:(rewrite lev_peak; exact Hf)) as S0.
  destruct (t60_search _ _ _ _ _) as [t'|e] eqn:Es; [|discriminate]. cbn [bind] in E.
  destruct S0 as (j & z & Hj & Ht & Hz & Ez & D).
  assert (Pj : 0 <= first_range g k * (2 ^ j - 1)).
  { apply Rmult_le_pos; [lra|]. pose proof (pow_R1_Rle 2 j ltac:(lra)). lra. }
  assert (t' = t /\ (forall th, k_warn_th k = Some th -> Rabs (level g t - k_floor k) <= th)) as [-> W].
  { destruct (k_warn_th k) as [th|] eqn:Ew; [|injection E as ->; split; [reflexivity|discriminate]].
    rewrite warn_eq in E by (auto; lra). destruct (Rlt_dec th _) as [|N]; [discriminate|]. injection E as ->.
    split; [reflexivity|]. intros th' [= <-]. lra. }
  split; [lra|]. split; [|exact W]. exists z, j. cbv zeta. split; [exact Hz|].
  split; [rewrite level_lev by (auto; lra); exact Ez|]. split.
  - intros z' Hz' L. rewrite level_lev in L by (auto; lra). apply (lev_inj g Hn Hb); lra.
  - replace (first_range g k * 2 ^ j / 2 / 2 ^ k_steps k) with (first_range g k * 2 ^ j / 2 ^ S (k_steps k)); [exact D|].
    simpl. field. apply pow_nonzero. lra.
Qed.
Print Assumptions c81_t60.

(** ValueError means that the level is above the floor up to the end of the last
    range, and the other way round. *)
Theorem c81_range : forall junk g k, (2 <= gt_n g)%nat -> 0 < bandwidth g -> sensible k ->
  t60 junk g k = Err ValueError <->
  k_floor k < level g (group_delay g + first_range g k * (2 ^ k_n_starts k - 1)).
Proof.
  intros junk g k Hn Hb Hk. pose proof (first_range_pos g k Hn Hb Hk) as Hr. destruct Hk as [Hf _].
  rewrite t60_eq.
  pose proof (search_spec g Hn Hb (k_floor k) (k_steps k) (k_n_starts k) (group_delay g) (first_range g k)
                (Rle_refl _) Hr ltac:(rewrite lev_peak; exact Hf)) as S0.
  assert (Pn : forall j, 0 <= first_range g k * (2 ^ j - 1)).
  { intros j. apply Rmult_le_pos; [lra|]. pose proof (pow_R1_Rle 2 j ltac:(lra)). lra. }
  pose proof (Pn (k_n_starts k)). rewrite level_lev by (auto; lra).
  destruct (t60_search _ _ _ _ _) as [t|e]; cbn [bind].
  - destruct S0 as (j & z & Hj & Ht & Hz & Ez & D). split.
    + destruct (k_warn_th k); [|discriminate]. cbv zeta.
      destruct (Req_EM_T _ 0); [discriminate|]. destruct (Rlt_dec _ _); discriminate.
    + intros L. exfalso. pose proof (Pn j).
      assert (lev g (group_delay g + first_range g k * (2 ^ k_n_starts k - 1)) <= lev g z); [|lra].
      apply (lev_le g Hn Hb); [lra|].
      assert (2 ^ S j <= 2 ^ k_n_starts k) by (apply Rle_pow; [lra|lia]). nra.
  - destruct S0 as [-> S0]. split; auto.
Qed.
Print Assumptions c81_range.

Lemma ln10_bounds : 2 < ln 10 < 3.
Proof.
  pose proof exp_le_3 as E3. pose proof (exp_pos 1). assert (E2 : 13 / 5 < exp 1).
  { replace 1 with (1 / 2 + 1 / 2) by field. rewrite exp_plus.
    assert (H2 : exp (1 / 2) = exp (1 / 4) * exp (1 / 4)) by (rewrite <- exp_plus; f_equal; field).
    assert (H4 : exp (1 / 4) = exp (1 / 8) * exp (1 / 8)) by (rewrite <- exp_plus; f_equal; field).
    assert (H8 : exp (1 / 8) = exp (1 / 16) * exp (1 / 16)) by (rewrite <- exp_plus; f_equal; field).
    pose proof (exp_ineq1 (1 / 16) ltac:(lra)) as G. set (z := exp (1 / 16)) in *. rewrite H2, H4, H8.
    assert (1 + 128 / 1000 < z * z) by nra. assert (1 + 272 / 1000 < z * z * (z * z)) by nra.
    set (w := z * z * (z * z)) in *. assert (1 + 617 / 1000 < w * w) by nra. nra. }
  split; apply exp_lt_inv; rewrite exp_ln by lra.
  - replace 2 with (1 + 1) by ring. rewrite exp_plus. nra.
  - replace 3 with (1 + (1 + 1)) by ring. rewrite !exp_plus. nra.
Qed.
Lemma ln2_bound : ln 2 < 1.
Proof. apply exp_lt_inv. rewrite exp_ln by lra. pose proof (exp_ineq1 1 ltac:(lra)). lra. Qed.

(** How far after the leading time the level is still above -60 dB. *)
Lemma lev_far : forall g t, (2 <= gt_n g)%nat -> 0 < bandwidth g -> group_delay g <= t -> -60 <= lev g t ->
  spec_c g * (t + t_c g) <= 6 * ln 10 + 2 * spec_m g.
Proof.
  intros g t Hn Hb Ht L. pose proof (raw_pos g Hn Hb) as Hr. pose proof (gd_tc g) as Hg.
  pose proof (m_pos g Hn) as Hm. pose proof (c_pos g Hb) as Hc. pose proof ln10_bounds as L10.
  set (x := t + t_c g). assert (X : raw_group_delay g <= x) by (unfold x; lra).
  unfold lev, lenv in L. fold x in L. set (m := spec_m g) in *. set (c := spec_c g) in *.
  assert (R0 : raw_group_delay g = m / c) by apply raw_eq. rewrite R0 in *.
  replace (c * (m / c)) with m in L by (field; lra).
  assert (L1 : - 3 * ln 10 <= m * (ln x - ln (m / c)) - c * x + m).
  { apply Rmult_le_reg_l with (20 / ln 10); [apply Rdiv_lt_0_compat; lra|].
    replace (20 / ln 10 * (- 3 * ln 10)) with (- 60) by (field; lra).
    eapply Rle_trans; [exact L|]. right. ring. }
  set (v := c * x / m). assert (V : 0 < v) by (unfold v; apply Rdiv_lt_0_compat; [nra|lra]).
  assert (Lv : ln x - ln (m / c) = ln v).
  { replace v with (x * / (m / c)) by (unfold v; field; split; lra).
    rewrite ln_mult by (try (apply Rinv_0_lt_compat); lra). rewrite ln_Rinv by lra. ring. }
  assert (L2 : ln v <= v / 2 - 1 + ln 2).
  { replace v with (v / 2 * 2) at 1 by field. rewrite ln_mult by lra.
    assert (ln (v / 2) <= v / 2 - 1); [|lra].
    destruct (Req_dec (v / 2) 1) as [->|N]; [rewrite ln_1; lra|]. left. apply exp_lt_inv. rewrite exp_ln by lra.
    pose proof (exp_ineq1 (v / 2 - 1) ltac:(lra)). lra. }
  rewrite Lv in L1. assert (Ev : c * x = m * v) by (unfold v; field; lra). rewrite Ev in *.
  pose proof ln2_bound. assert (m * ln v <= m * (v / 2 - 1 + ln 2)) by (apply Rmult_le_compat_l; lra).
  assert (m * ln 2 <= m) by nra. lra.
Qed.

(** With default arguments filters of order 2 to 250000 have a t60. *)
Theorem c81_default : forall junk g, (2 <= gt_n g)%nat -> INR (gt_n g) <= 250000 -> 0 < bandwidth g ->
  exists t, t60 junk g t60_default = Ok t.
Proof.
  intros junk g Hn Hn2 Hb. pose proof (raw_pos g Hn Hb) as Hraw. pose proof (gd_tc g) as Hg.
  pose proof (m_pos g Hn) as Hm. pose proof (c_pos g Hb) as Hc. pose proof ln10_bounds as L10.
  assert (M1 : 1 <= spec_m g). { unfold spec_m. apply le_INR in Hn. simpl in Hn. lra. }
  assert (R0 : raw_group_delay g = spec_m g / spec_c g) by apply raw_eq.
  rewrite t60_eq. change (k_floor t60_default) with (-60). change (k_steps t60_default) with 32%nat.
  change (k_n_starts t60_default) with 16%nat. change (k_warn_th t60_default) with (Some (1 / 1000)).
  replace (first_range g t60_default) with (2 * raw_group_delay g) by reflexivity.
  pose proof (search_spec g Hn Hb (-60) 32 16 (group_delay g) (2 * raw_group_delay g)
                (Rle_refl _) ltac:(lra) ltac:(rewrite lev_peak; lra)) as S0.
  destruct (t60_search _ _ _ _ _) as [t|e]; cbn [bind].
  - destruct S0 as (j & z & Hj & Ht & Hz & Ez & D).
    assert (Pj : 0 <= 2 * raw_group_delay g * (2 ^ j - 1)).
    { apply Rmult_le_pos; [lra|]. pose proof (pow_R1_Rle 2 j ltac:(lra)). lra. }
    exists t. rewrite warn_eq by (auto; lra). destruct (Rlt_dec _ _) as [L|]; [exfalso|reflexivity].
    rewrite level_lev in L by (auto; lra).
    pose proof (lev_far g z Hn Hb ltac:(lra) ltac:(lra)) as F.
    assert (F2 : spec_m g * (2 * 2 ^ j) <= 6 * ln 10 + 3 * spec_m g).
    { assert (X : raw_group_delay g * (2 * 2 ^ j - 1) <= z + t_c g) by lra.
      apply (Rmult_le_compat_l (spec_c g)) in X; [|lra].
      replace (spec_c g * (raw_group_delay g * (2 * 2 ^ j - 1))) with (spec_m g * (2 * 2 ^ j - 1)) in X
        by (rewrite R0; field; lra). lra. }
    assert (D2 : spec_c g * Rabs (t - z) <= (6 * ln 10 + 3 * spec_m g) / 2 ^ 33).
    { apply (Rmult_le_compat_l (spec_c g)) in D; [|lra]. eapply Rle_trans; [exact D|].
      assert (P33 : 0 < 2 ^ 33) by (apply pow_lt; lra). set (P := 2 ^ 33) in *.
      replace (spec_c g * (2 * raw_group_delay g * 2 ^ j / P)) with (spec_m g * (2 * 2 ^ j) * / P) by (rewrite R0; field; lra).
      unfold Rdiv. apply Rmult_le_compat_r; [|exact F2]. left. apply Rinv_0_lt_compat. lra. }
    assert (D3 : Rabs (lev g t - -60) <= 20 / ln 10 * (spec_c g * Rabs (t - z))).
    { rewrite <- Ez. destruct (Rle_lt_dec t z) as [T|T].
      - pose proof (lev_lip g Hn Hb t z ltac:(lra) T). pose proof (lev_le g Hn Hb t z ltac:(lra) T).
        rewrite (Rabs_right (lev g t - lev g z)), Rabs_left1 by lra. replace (- (t - z)) with (z - t) by ring. lra.
      - pose proof (lev_lip g Hn Hb z t ltac:(lra) ltac:(lra)). pose proof (lev_le g Hn Hb z t ltac:(lra) ltac:(lra)).
        rewrite Rabs_left1, (Rabs_right (t - z)) by lra. lra. }
    assert (D4 : 20 / ln 10 * (spec_c g * Rabs (t - z)) <= 20 / ln 10 * ((6 * ln 10 + 3 * spec_m g) / 2 ^ 33)).
    { apply Rmult_le_compat_l; [left; apply Rdiv_lt_0_compat; lra|exact D2]. }
    assert (D5 : 20 / ln 10 * ((6 * ln 10 + 3 * spec_m g) / 2 ^ 33) <= (120 + 30 * spec_m g) / 2 ^ 33).
    { assert (P33 : 0 < 2 ^ 33) by (apply pow_lt; lra). set (P := 2 ^ 33) in *.
      replace (20 / ln 10 * ((6 * ln 10 + 3 * spec_m g) / P)) with ((120 + 60 * spec_m g / ln 10) * / P) by (field; split; lra).
      change ((120 + 30 * spec_m g) / P) with ((120 + 30 * spec_m g) * / P).
      apply Rmult_le_compat_r; [left; apply Rinv_0_lt_compat; lra|].
      assert (60 * spec_m g / ln 10 <= 30 * spec_m g); [|lra].
      apply Rmult_le_reg_r with (ln 10); [lra|]. replace (60 * spec_m g / ln 10 * ln 10) with (60 * spec_m g) by (field; lra). nra. }
    assert (D6 : (120 + 30 * spec_m g) / 2 ^ 33 <= 1 / 1000).
    { apply Rmult_le_reg_r with (2 ^ 33); [apply pow_lt; lra|].
      replace ((120 + 30 * spec_m g) / 2 ^ 33 * 2 ^ 33) with (120 + 30 * spec_m g) by (field; apply pow_nonzero; lra).
      assert (P33 : 2 ^ 33 = 8589934592) by (simpl; lra). rewrite P33. unfold spec_m. lra. }
    lra.
  - destruct S0 as [_ S0]. exfalso. assert (P16 : 2 ^ 16 = 65536) by (simpl; lra). rewrite P16 in S0.
    set (q := group_delay g + 2 * raw_group_delay g * (65536 - 1)) in *.
    assert (He : q + t_c g = 131071 * raw_group_delay g) by (unfold q; rewrite <- Hg; ring).
    pose proof (lev_far g q Hn Hb ltac:(lra) (Rlt_le _ _ S0)) as F. rewrite He in F.
    replace (spec_c g * (131071 * raw_group_delay g)) with (131071 * spec_m g) in F by (rewrite R0; field; lra). nra.
Qed.
Print Assumptions c81_default.

(** Filters of order one have none: the range that is searched is empty. *)
Theorem c81_order_one_refuted : exists g, gt_n g = 1%nat /\ 0 < bandwidth g /\
  (forall t, level g t <= -60 <-> 60 * (ln 10 / 20) <= 2 * PI * bandwidth g * (t + t_c g)) /\
  forall junk, t60 junk g t60_default = Err ValueError.
Proof.
  exists (mkGt 1000 1 None None None false None). set (g := mkGt 1000 1 None None None false None).
  assert (Hb : 0 < bandwidth g) by apply erb_pos. split; [reflexivity|]. split; [exact Hb|].
  assert (Pk : peak g = 0) by (unfold peak; simpl; unfold Rdiv; ring). pose proof ln10_bounds. split.
  - intros t. unfold level. rewrite Pk. unfold decay. cbn [gt_n g Nat.sub pow].
    rewrite Rmult_0_r, Ropp_0, exp_0, !Rmult_1_l. unfold Rdiv at 2. rewrite Rinv_1, Rmult_1_r, ln_exp.
    set (y := 2 * PI * bandwidth g * (t + t_c g)).
    assert (E : 20 * (- y / ln 10) = - (y / (ln 10 / 20))) by (field; lra). rewrite E.
    assert (Q : 0 < ln 10 / 20) by lra. set (q := ln 10 / 20) in *.
    assert (Ey : y = y / q * q) by (field; lra). split; intros I; [rewrite Ey; nra|].
    assert (60 <= y / q); [|lra]. apply Rmult_le_reg_r with q; [exact Q|]. lra.
  - intros junk. rewrite t60_eq.
    assert (F0 : first_range g t60_default = 0) by (unfold first_range; cbn [k_range t60_default]; rewrite Pk; ring).
    rewrite F0. change (k_floor t60_default) with (-60).
    assert (T : t_c g + group_delay g = 0).
    { unfold group_delay. replace (raw_group_delay g) with (peak g) by reflexivity. rewrite Pk. ring. }
    assert (E1 : gt_env (gt_n g) (t_c g) (bandwidth g) (group_delay g) = 1).
    { unfold gt_env. replace (group_delay g + t_c g) with 0 by lra. rewrite Rmult_0_r, exp_0.
      destruct (Rle_lt_dec 0 0); [|lra]. cbn [gt_n g Nat.sub pow]. ring. }
    assert (P : 0 < foo g (-60) (group_delay g)).
    { unfold foo. rewrite E1. assert (db2a (-60) < db2a 0) by (apply db2a_inc; lra).
      replace (db2a 0) with 1 in * by (unfold db2a; replace (0 / 20) with 0 by field; rewrite Rpower_O by lra; reflexivity). lra. }
    assert (N : forall n, t60_search (foo g (-60)) (group_delay g) 0 (k_steps t60_default) n = Err ValueError).
    { induction n as [|n IH]; [reflexivity|]. cbn [t60_search]. unfold dychotomic_zero_crossing. rewrite Rplus_0_r.
      destruct (Rlt_dec 0 _) as [_|N]; [rewrite Rmult_0_l; exact IH|]. exfalso. apply N. nra. }
    rewrite N. reflexivity.
Qed.
Print Assumptions c81_order_one_refuted.

(** The suggested size ends where the oscillator or its derivative is zero for
    the first time after the t60; there are as many samples as there is time up
    to there. *)
Theorem c81_ir_size : forall junk g fs k n, 0 < gt_f g -> 0 < fs -> ir_size junk g fs k = Ok n ->
  exists t e, t60 junk g k = Ok t /\
    (let phase s := 2 * PI * gt_f g * s + phi g in
     (sin (phase e) = 0 \/ cos (phase e) = 0) /\ t <= e /\
     (forall s, t <= s < e -> sin (phase s) <> 0 /\ cos (phase s) <> 0)) /\
    IZR n / fs <= e + t_c g < (IZR n + 1) / fs.
Proof.
  intros junk g fs k n Hf Hs E. unfold ir_size in E. destruct (t60 junk g k) as [t|]; [|discriminate]. cbn [bind] in E.
  pose proof PI_RGT_0 as HP. set (w := 2 * PI * gt_f g) in *. assert (W : 0 < w) by (unfold w; nra).
  destruct (Req_EM_T w 0); [lra|]. injection E as E.
  pose proof (Rceil_spec ((phi g + w * t) * 2 / PI)) as C. set (q := Rceil _) in *.
  set (e := (IZR q * PI / 2 - phi g) / w) in *. exists t, e. split; [reflexivity|].
  assert (Pe : w * e + phi g = IZR q * PI / 2) by (unfold e; field; lra).
  assert (Qe : (w * e + phi g) * 2 / PI = IZR q) by (rewrite Pe; field; lra).
  assert (Par : forall z : Z, exists j, z = (2 * j)%Z \/ z = (2 * j + 1)%Z).
  { intros z. exists (z / 2)%Z. pose proof (Z.div_mod z 2 ltac:(lia)). pose proof (Z.mod_pos_bound z 2 ltac:(lia)). lia. }
  split.
  - cbv zeta. split; [|split].
    + rewrite Pe. destruct (Par q) as (j & [-> | ->]).
      * left. apply sin_eq_0_1. exists j. rewrite mult_IZR. field.
      * right. apply cos_eq_0_1. exists j. rewrite plus_IZR, mult_IZR. field.
    + apply Rmult_le_reg_l with w; [exact W|]. apply Rplus_le_reg_r with (phi g).
      rewrite Pe. apply Rmult_le_reg_r with (2 / PI); [apply Rdiv_lt_0_compat; lra|].
      replace (IZR q * PI / 2 * (2 / PI)) with (IZR q) by (field; lra).
      replace ((w * t + phi g) * (2 / PI)) with ((phi g + w * t) * 2 / PI) by (field; lra). lra.
    + intros s Hts. assert (N : forall z, w * s + phi g <> IZR z * PI / 2).
      { intros z Ez. assert (w * t <= w * s) by nra. assert (w * s < w * e) by nra.
        assert (A : (phi g + w * t) * 2 / PI <= IZR z).
        { replace (IZR z) with ((w * s + phi g) * 2 / PI) by (rewrite Ez; field; lra).
          unfold Rdiv. apply Rmult_le_compat_r; [left; apply Rinv_0_lt_compat; lra|]. lra. }
        assert (B : IZR z < IZR q).
        { rewrite <- Qe. replace (IZR z) with ((w * s + phi g) * 2 / PI) by (rewrite Ez; field; lra).
          unfold Rdiv. apply Rmult_lt_compat_r; [apply Rinv_0_lt_compat; lra|]. lra. }
        assert (Z1 : (z < q)%Z) by (now apply lt_IZR). assert (Z2 : IZR z <= IZR q - 1).
        { rewrite <- minus_IZR. apply IZR_le. lia. }
        lra. }
      split; intros Z.
      * apply sin_eq_0_0 in Z. destruct Z as (j & Z). apply (N (2 * j)%Z). rewrite mult_IZR, Z. field.
      * apply cos_eq_0_0 in Z. destruct Z as (j & Z). apply (N (2 * j + 1)%Z). rewrite plus_IZR, mult_IZR, Z. field.
  - rewrite <- E. unfold Rfloor. rewrite minus_IZR. pose proof (archimed ((e + t_c g) * fs)) as [A1 A2].
    split.
    + apply Rmult_le_reg_r with fs; [exact Hs|]. unfold Rdiv. rewrite Rmult_assoc, Rinv_l, Rmult_1_r by lra. lra.
    + apply Rmult_lt_reg_r with fs; [exact Hs|]. unfold Rdiv. rewrite Rmult_assoc, Rinv_l, Rmult_1_r by lra. lra.
Qed.
Print Assumptions c81_ir_size.

(** It exists whenever the t60 does. *)
Theorem c81_ir_size_total : forall junk g fs k, 0 < gt_f g ->
  (forall e, ir_size junk g fs k = Err e <-> t60 junk g k = Err e).
Proof.
  intros junk g fs k Hf e. unfold ir_size. destruct (t60 junk g k) as [t|e']; cbn [bind]; [|split; congruence].
  destruct (Req_EM_T (2 * PI * gt_f g) 0) as [Z|_]; [|split; discriminate].
  pose proof PI_RGT_0. nra.
Qed.
Print Assumptions c81_ir_size_total.

Example c81_example : forall junk, let g := mkGt 1000 4 None None None false None in
  exists t n, t60 junk g t60_default = Ok t /\ 0 < t /\ Rabs (level g t - -60) <= 1 / 1000 /\
    ir_size junk g 44100 t60_default = Ok n.
Proof.
  intros junk g. assert (Hb : 0 < bandwidth g) by apply erb_pos. assert (Hn : (2 <= gt_n g)%nat) by (simpl; lia).
  destruct (c81_default junk g Hn ltac:(simpl; lra) Hb) as (t & E).
  assert (S : sensible t60_default) by (split; [cbn [k_floor t60_default]; lra|exact I]).
  destruct (c81_t60 junk g _ t Hn Hb S E) as (A & _ & C). specialize (C _ eq_refl).
  assert (G0 : group_delay g = 0) by (unfold group_delay, t_c; cbn [gt_t_c g]; ring). rewrite G0 in A.
  exists t. destruct (ir_size junk g 44100 t60_default) as [n|e] eqn:F.
  - exists n. repeat split; auto.
  - apply c81_ir_size_total in F; [congruence|cbn [gt_f g]; lra].
Qed.

(** ** C82 *)

(** Envelope and oscillator at any time. *)
Definition pulse (g : gammatone) (t : R) : R := if Rlt_dec (t + t_c g) 0 then 0 else decay g (t + t_c g).
Definition angle (g : gammatone) (t : R) : R := 2 * PI * gt_f g * t + phi g.
(** The scale parameter, 1 if there is none. *)
Definition gain (g : gammatone) : R := match gt_a g with None => 1 | Some a => a end.

Lemma pulse_env : forall g t, gt_env (gt_n g) (t_c g) (bandwidth g) t = pulse g t.
Proof.
  intros g t. unfold pulse, gt_env, decay. destruct (Rlt_dec (t + t_c g) 0), (Rle_lt_dec 0 (t + t_c g)); try lra.
  rewrite Rmult_1_r, Rmult_comm. do 2 f_equal. ring.
Qed.
Lemma wavefun_real_eq : forall junk g ts, wavefun_real junk g ts = Ok (map (fun t => pulse g t * cos (angle g t)) ts).
Proof.
  intros junk g ts. unfold wavefun_real.
  destruct (wavefun_fresh junk g (mkMem (fun _ => ts) 1) 0 None) as (r & m & E & C); [simpl; lia|discriminate|].
  rewrite E. f_equal. rewrite C. cbn [cells]. apply map_ext. intros t. fold (gt_env (gt_n g) (t_c g) (bandwidth g) t). rewrite pulse_env. reflexivity.
Qed.
Lemma wavefun_analytic_eq : forall junk g ts,
  wavefun_analytic junk g ts = Ok (map (fun t => (pulse g t * cos (angle g t), pulse g t * sin (angle g t))) ts).
Proof.
  intros junk g ts. unfold wavefun_analytic, envelope_of.
  rewrite (call_elementwise _ _ _ _ (gt_envelope_ok junk _ _ _)). cbn [bind]. f_equal.
  induction ts as [|t ts IH]; [reflexivity|]. cbn [map combine]. f_equal; [|exact IH].
  cbn [fst snd]. fold (gt_env (gt_n g) (t_c g) (bandwidth g) t). rewrite pulse_env. unfold cmul, cre, angle. cbn [fst snd]. f_equal; ring.
Qed.

(** Without normalization: scaled envelope times oscillator, at the times given. *)
Theorem c82_values : forall junk g ts fs k, gt_normalize g = false ->
  ir junk g (Some ts) fs k = Ok (map (fun t => gain g * (pulse g t * cos (angle g t))) ts).
Proof.
  intros junk g ts fs k N. unfold ir, ir_axis. cbn [bind]. rewrite wavefun_real_eq. cbn [bind]. unfold scale, gain. rewrite N.
  destruct ts as [|t ts]; [reflexivity|]. cbn [map bind]. destruct (gt_a g).
  - f_equal. cbn [map]. f_equal. rewrite map_map. reflexivity.
  - f_equal. cbn [map]. f_equal; [ring|]. apply map_ext. intros. ring.
Qed.
Print Assumptions c82_values.

(** The default times start at the leading time, one sample after another, as many
    as suggested; a sampling frequency is necessary. *)
Theorem c82_axis : forall junk g k,
  ir junk g None None k = Err ValueError /\
  forall fs n, ir_size junk g fs k = Ok n ->
    ir junk g None (Some fs) k = ir junk g (Some (map (fun i => INR i / fs - t_c g) (seq 0 (Z.to_nat n)))) None k.
Proof.
  intros junk g k. split; [reflexivity|]. intros fs n E. unfold ir, ir_axis. rewrite E. reflexivity.
Qed.
Print Assumptions c82_axis.

Lemma rsum_scale : forall a l, rsum (map (fun v => a * v * (a * v)) l) = a * a * rsum (map (fun v => v * v) l).
Proof. induction l as [|v l IH]; simpl; [ring|]. rewrite IH. ring. Qed.
Lemma energy_nonneg : forall l, 0 <= rsum (map (fun v : R => v * v) l).
Proof. induction l as [|v l IH]; simpl; [lra|]. nra. Qed.
Lemma energy_zero : forall l, rsum (map (fun v : R => v * v) l) = 0 <-> Forall (fun v => v = 0) l.
Proof.
  induction l as [|v l IH]; simpl; [split; auto|]. pose proof (energy_nonneg l). split.
  - intros E. assert (v * v = 0) by nra. constructor; [nra|]. apply IH. nra.
  - intros F. inversion F as [|? ? V F']; subst. apply IH in F'. rewrite F'. ring.
Qed.

(** With normalization: the same up to a positive factor, with a norm of one, then
    scaled; if all samples are zero the result is not finite. *)
Theorem c82_normalized : forall junk g ts fs k, gt_normalize g = true -> ts <> [] ->
  let raw := map (fun t => pulse g t * cos (angle g t)) ts in
  (Forall (fun v => v = 0) raw -> ir junk g (Some ts) fs k = Err NotFinite) /\
  (~ Forall (fun v => v = 0) raw -> exists s, 0 < s /\
     ir junk g (Some ts) fs k = Ok (map (fun v => gain g * (s * v)) raw) /\
     rsum (map (fun v => s * v * (s * v)) raw) = 1).
Proof.
  intros junk g ts fs k N Nt raw. unfold ir, ir_axis. cbn [bind]. rewrite wavefun_real_eq. cbn [bind]. fold raw.
  assert (Nr : raw <> []) by (unfold raw; destruct ts; [congruence|discriminate]).
  destruct raw as [|v0 raw0] eqn:Er; [congruence|]. rewrite <- Er in *. unfold scale. rewrite N.
  pose proof (energy_nonneg raw). pose proof (energy_zero raw) as Z. set (e := rsum _) in *. split; intros F.
  - apply Z in F. destruct (Req_EM_T e 0); [reflexivity|contradiction].
  - destruct (Req_EM_T e 0) as [E|E]; [exfalso; apply F, Z, E|]. cbn [bind].
    assert (P : 0 < sqrt e) by (apply sqrt_lt_R0; lra). exists (/ sqrt e). split; [now apply Rinv_0_lt_compat|]. split.
    + f_equal. apply map_ext. intros v. unfold gain. destruct (gt_a g); field; lra.
    + rewrite rsum_scale. fold e. rewrite <- (sqrt_sqrt e) at 3 by lra. field. lra.
Qed.
Print Assumptions c82_normalized.

(** So the norm is not the one that is documented (the sampling frequency). *)
Theorem c82_norm_refuted : exists g fs l, forall junk, gt_normalize g = true /\ gt_a g = None /\ fs = 44100 /\
  ir junk g None (Some fs) t60_default = Ok l /\ rsum (map (fun v => v * v) l) = 1.
Proof.
  set (g := mkGt 1000 4 (Some 1) (Some 0) (Some 0) true None).
  assert (Hb : 0 < bandwidth g) by (unfold bandwidth; cbn [gt_bandwidth g]; lra).
  assert (Hn : (2 <= gt_n g)%nat) by (simpl; lia). assert (Hf : 0 < gt_f g) by (cbn [gt_f g]; lra).
  set (j0 := fun _ _ : nat => 0).
  destruct (c81_default j0 g Hn ltac:(simpl; lra) Hb) as (t & Et).
  assert (Hsens : sensible t60_default) by (split; [cbn [k_floor t60_default]; lra|exact I]).
  destruct (c81_t60 j0 g _ t Hn Hb Hsens Et) as (Ht & _ & _).
  destruct (ir_size j0 g 44100 t60_default) as [n|x] eqn:En;
    [|apply c81_ir_size_total in En; [congruence|exact Hf]].
  destruct (c81_ir_size j0 g 44100 _ n Hf ltac:(lra) En) as (t' & e & Et' & (_ & Hte & _) & Hsz).
  assert (t' = t) by congruence. subst t'.
  pose proof PI_RGT_0 as HP. assert (HP4 := PI_4).
  assert (G : 1 / 10 < group_delay g).
  { unfold group_delay, raw_group_delay, t_c, bandwidth. cbn [gt_n gt_bandwidth gt_t_c g].
    replace ((INR 4 - 1) / (2 * PI * 1) - 0) with (3 / (2 * PI)) by (simpl; field; lra).
    apply Rmult_lt_reg_r with (2 * PI); [lra|]. replace (3 / (2 * PI) * (2 * PI)) with 3 by (field; lra). lra. }
  assert (Tc : t_c g = 0) by reflexivity. rewrite Tc in Hsz.
  assert (N2 : (2 <= n)%Z).
  { assert (1 < IZR n); [|apply lt_IZR in H; lia]. destruct Hsz as [_ H].
    apply (Rmult_lt_compat_r 44100) in H; [|lra]. unfold Rdiv in H. rewrite Rmult_assoc, Rinv_l in H by lra. lra. }
  set (ts := map (fun i => INR i / 44100 - t_c g) (seq 0 (Z.to_nat n))).
  assert (Nz : ~ Forall (fun v => v = 0) (map (fun t => pulse g t * cos (angle g t)) ts)).
  { intros F. rewrite Forall_map, Forall_forall in F. specialize (F (1 / 44100)).
    assert (In1 : In (1 / 44100) ts).
    { apply in_map_iff. exists 1%nat. split; [rewrite Tc; simpl; lra|apply in_seq; lia]. }
    specialize (F In1). cbv beta in F.
    assert (0 < pulse g (1 / 44100)).
    { unfold pulse. rewrite Tc. destruct (Rlt_dec _ 0); [lra|]. unfold decay. apply Rmult_lt_0_compat; [apply pow_lt; lra|apply exp_pos]. }
    assert (0 < cos (angle g (1 / 44100))).
    { apply cos_gt_0; unfold angle, phi; cbn [gt_f gt_phi g]; lra. }
    nra. }
  assert (Nts : ts <> []) by (unfold ts; destruct (Z.to_nat n) eqn:Z; [lia|discriminate]).
  assert (Size : forall junk, ir_size junk g 44100 t60_default = Ok n).
  { intros junk. rewrite <- En. unfold ir_size. rewrite !t60_eq. reflexivity. }
  destruct (c82_normalized j0 g ts None t60_default eq_refl Nts) as (_ & C). destruct (C Nz) as (s & Hs & E & U).
  exists g, 44100, (map (fun v => gain g * (s * v)) (map (fun t => pulse g t * cos (angle g t)) ts)). intros junk.
  split; [reflexivity|]. split; [reflexivity|]. split; [reflexivity|]. split.
  - rewrite (proj2 (c82_axis junk g t60_default) 44100 n (Size junk)). fold ts. rewrite <- E.
    unfold ir, ir_axis. cbn [bind]. now rewrite !wavefun_real_eq.
  - rewrite map_map. rewrite <- U. f_equal. apply map_ext. intros v. unfold gain. cbn [gt_a g]. ring.
Qed.
Print Assumptions c82_norm_refuted.

(** Analytic responses without normalization: the real part is the ordinary
    response and the modulus the envelope, scaled. *)
Theorem c82_analytic : forall junk g t fs k l, gt_normalize g = false ->
  ir_analytic junk g t fs k = Ok l ->
  ir junk g t fs k = Ok (map fst l) /\
  exists ts, ir_axis junk g t fs k = Ok ts /\
    map (fun v => sqrt (fst v * fst v + snd v * snd v)) l = map (fun t => Rabs (gain g) * pulse g t) ts.
Proof.
  intros junk g t fs k l N E. unfold ir_analytic in E. unfold ir. destruct (ir_axis junk g t fs k) as [ts|] eqn:Ea; [|discriminate].
  cbn [bind] in *. rewrite wavefun_analytic_eq in E. rewrite wavefun_real_eq. cbn [bind] in *. unfold scale in *. rewrite N in *.
  cbn [bind] in *.
  assert (El : l = map (fun t => (gain g * (pulse g t * cos (angle g t)), gain g * (pulse g t * sin (angle g t)))) ts).
  { unfold gain. destruct ts as [|t0 ts]; [injection E as <-; reflexivity|]. cbn [map] in E. injection E as <-.
    destruct (gt_a g) as [a|]; cbn [map]; f_equal; try rewrite map_map; try (apply map_ext; intros);
      unfold cmul, cre; cbn [fst snd]; f_equal; ring. }
  split.
  - rewrite El, map_map. unfold gain. destruct ts as [|t0 ts]; [reflexivity|]. cbn [map]. destruct (gt_a g) as [a|]; cbn [map fst].
    + rewrite map_map. reflexivity.
    + f_equal. f_equal; [ring|]. apply map_ext. intros. ring.
  - exists ts. split; [reflexivity|]. rewrite El, map_map. apply map_ext. intros s. cbn [fst snd].
    assert (0 <= pulse g s) by (rewrite <- pulse_env; apply gt_env_nonneg).
    pose proof (sin2_cos2 (angle g s)) as SC. unfold Rsqr in SC. set (p := pulse g s) in *. set (c := cos _) in *. set (z := sin _) in *.
    replace (gain g * (p * c) * (gain g * (p * c)) + gain g * (p * z) * (gain g * (p * z)))
      with ((Rabs (gain g) * p) * (Rabs (gain g) * p)).
    + rewrite sqrt_square; [reflexivity|]. apply Rmult_le_pos; [apply Rabs_pos|assumption].
    + assert (Rabs (gain g) * Rabs (gain g) = gain g * gain g) by (rewrite <- Rabs_mult; apply Rabs_right; nra).
      transitivity (Rabs (gain g) * Rabs (gain g) * (p * p)); [ring|]. rewrite H0. 
      transitivity (gain g * gain g * (p * p) * (z * z + c * c)); [rewrite SC; ring|ring].
Qed.
Print Assumptions c82_analytic.

(** With normalization the real part is another one: the norm is that of the
    complex response. *)
Theorem c82_analytic_normalized_refuted : exists g ts l l', forall junk k, gt_normalize g = true /\
  ir junk g (Some ts) None k = Ok l /\ ir_analytic junk g (Some ts) None k = Ok l' /\ hd 0 l = 1 /\ fst (hd (0, 0) l') < 1.
Proof.
  set (g := mkGt 1 1 (Some 1) (Some 0) (Some 0) true None). set (ts := [0; 1 / 4]).
  pose proof PI_RGT_0 as HP. set (q := exp (- (2 * PI * 1 * (1 / 4)))). assert (Q : 0 < q) by apply exp_pos.
  assert (P0 : pulse g 0 = 1).
  { unfold pulse, t_c. cbn [gt_t_c g]. rewrite Rplus_0_r. destruct (Rlt_dec 0 0); [lra|]. unfold decay. cbn [gt_n g Nat.sub pow].
    rewrite Rmult_0_r, Ropp_0, exp_0. ring. }
  assert (P1 : pulse g (1 / 4) = q).
  { unfold pulse, t_c. cbn [gt_t_c g]. rewrite Rplus_0_r. destruct (Rlt_dec (1 / 4) 0); [lra|]. unfold decay, q. cbn [gt_n g Nat.sub pow].
    rewrite Rmult_1_l. reflexivity. }
  assert (A0 : angle g 0 = 0) by (unfold angle, phi; cbn [gt_f gt_phi g]; ring).
  assert (A1 : angle g (1 / 4) = PI / 2) by (unfold angle, phi; cbn [gt_f gt_phi g]; field).
  exists g, ts, [1; 0], [(/ sqrt (1 + q * q), 0); (0, q / sqrt (1 + q * q))]. intros junk k.
  assert (S1 : 0 < sqrt (1 + q * q)) by (apply sqrt_lt_R0; nra).
  assert (S2 : 1 < sqrt (1 + q * q)) by (rewrite <- sqrt_1 at 1; apply sqrt_lt_1; nra).
  split; [reflexivity|]. split; [|split; [|split; [reflexivity|]]].
  - unfold ir, ir_axis. cbn [bind]. rewrite wavefun_real_eq. unfold ts. cbn [map bind]. rewrite P0, P1, A0, A1, cos_0, cos_PI2.
    unfold scale. cbn [gt_normalize gt_a g map].
    replace (rsum [1 * 1 * (1 * 1); q * 0 * (q * 0)]) with 1 by (simpl; ring).
    destruct (Req_EM_T 1 0); [lra|]. cbn [bind]. rewrite sqrt_1. f_equal. f_equal; [field|f_equal; field].
  - unfold ir_analytic, ir_axis. cbn [bind]. rewrite wavefun_analytic_eq. unfold ts. cbn [map bind]. rewrite P0, P1, A0, A1, cos_0, cos_PI2, sin_0, sin_PI2.
    unfold scale. cbn [gt_normalize gt_a g map fst snd].
    match goal with |- context [rsum ?l] => replace (rsum l) with (1 + q * q) by (simpl; ring) end.
    destruct (Req_EM_T (1 + q * q) 0); [nra|]. cbn [bind]. unfold cmul, cre. cbn [fst snd].
    f_equal. f_equal; [f_equal; field; lra|]. f_equal. f_equal; field; lra.
  - cbn [hd fst]. set (w := sqrt (1 + q * q)) in *. apply Rmult_lt_reg_l with w; [lra|]. rewrite Rinv_r; lra.
Qed.
Print Assumptions c82_analytic_normalized_refuted.

Example c82_example : forall junk k, let g := mkGt 1 1 (Some 1) (Some 0) (Some 0) false (Some 3) in
  ir junk g (Some [-1; 0; 1 / 2]) None k = Ok [0; 3; -3 * exp (- PI)] /\
  ir_analytic junk g (Some [-1; 0; 1 / 4]) None k = Ok [(0, 0); (3, 0); (0, 3 * exp (- (PI / 2)))].
Proof.
  intros junk k g.
  assert (P1 : pulse g (-1) = 0) by (unfold pulse, t_c; cbn [gt_t_c g]; destruct (Rlt_dec _ 0); [reflexivity|lra]).
  assert (P2 : forall t, 0 <= t -> pulse g t = exp (- (2 * PI * t))).
  { intros t Ht. unfold pulse, t_c. cbn [gt_t_c g]. destruct (Rlt_dec _ 0); [lra|]. unfold decay, bandwidth.
    cbn [gt_n gt_bandwidth g Nat.sub pow]. rewrite Rmult_1_l. f_equal. ring. }
  assert (A : forall t, angle g t = 2 * PI * t) by (intros; unfold angle, phi; cbn [gt_f gt_phi g]; ring).
  split.
  - rewrite c82_values by reflexivity. cbn [map]. rewrite P1, !P2, !A by lra. cbn [gain gt_a g].
    replace (2 * PI * (1 / 2)) with PI by field. rewrite !Rmult_0_r, Ropp_0, exp_0, cos_0, cos_PI.
    apply f_equal. repeat (apply f_equal2; [ring|]). reflexivity.
  - unfold ir_analytic, ir_axis. cbn [bind]. rewrite wavefun_analytic_eq. cbn [map bind]. unfold scale. cbn [gt_normalize gt_a g bind map].
    rewrite P1, !P2, !A by lra. replace (2 * PI * (1 / 4)) with (PI / 2) by field.
    rewrite !Rmult_0_r, Ropp_0, exp_0, cos_0, sin_0, cos_PI2, sin_PI2. unfold cmul, cre. cbn [fst snd].
    apply f_equal. repeat (apply f_equal2; [apply injective_projections; cbn [fst snd]; ring|]). reflexivity.
Qed.
