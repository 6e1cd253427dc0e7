(** Properties of the beat model: C42, C43, C44, C45, C60. *)
From Coquelicot Require Import Coquelicot.
From Coq Require Import List Bool ZArith Reals Lra Lia Classical.
Import ListNotations.
From Verif Require Import Base Py PyLemmas ListLemmas RLists Np_Model Dsp_Model Dsp_Proofs
  Sample_Model Beat_Model Beat_Proofs Beat_Trapz.
Local Open Scope R_scope.

(** ** C42 *)

(** Spec: value at a time of a parameter that is a number or a function. *)
Definition at_time (x : foc) (t : R) : R := match x with FConst r => r | FFun g => g t end.
Definition amp_value (a : amp) (t : R) : R := match a with AConst r => r | AFun g _ => g t end.
(** Real and imaginary part of the sum of the two complex partials. *)
Definition sum_re (b : beat) (t : R) : R :=
  amp_value (b_a0 b) t * cos (2 * PI * at_time (b_f0 b) t * t + at_time (b_p0 b) t) +
  amp_value (b_a1 b) t * cos (2 * PI * at_time (b_f1 b) t * t + at_time (b_p1 b) t).
Definition sum_im (b : beat) (t : R) : R :=
  amp_value (b_a0 b) t * sin (2 * PI * at_time (b_f0 b) t * t + at_time (b_p0 b) t) +
  amp_value (b_a1 b) t * sin (2 * PI * at_time (b_f1 b) t * t + at_time (b_p1 b) t).
(** No pair (number, function); functions have a derivative. *)
Definition well_formed (b : beat) : Prop :=
  beat_init b = Ok b /\
  (forall r g d, ~ (b_a0 b = AConst r /\ b_a1 b = AFun g d)) /\
  (forall r g, ~ (b_f0 b = FConst r /\ b_f1 b = FFun g)) /\
  (forall r g, ~ (b_p0 b = FConst r /\ b_p1 b = FFun g)).
(** Frequencies and phases are numbers, amplitudes have the derivative [dt] on
    [0, T] and the partials never cancel there. *)
Definition amp_deriv (a : amp) (t : R) : R :=
  match a with AFun _ (Some d) => d t | _ => 0 end.
Definition regular (b : beat) (T : R) : Prop :=
  well_formed b /\
  (exists f0 f1 p0 p1, b_f0 b = FConst f0 /\ b_f1 b = FConst f1 /\
                       b_p0 b = FConst p0 /\ b_p1 b = FConst p1) /\
  (forall t : R, 0 <= t <= T -> is_derive (amp_value (b_a0 b)) t (amp_deriv (b_a0 b) t)) /\
  (forall t : R, 0 <= t <= T -> is_derive (amp_value (b_a1 b)) t (amp_deriv (b_a1 b) t)) /\
  (forall t : R, 0 <= t <= T -> sum_re b t <> 0 \/ sum_im b t <> 0).

Lemma wf_fits : forall b, well_formed b -> beat_fits b = true.
Proof.
  intros b (_ & Ha & Hf & Hp). unfold beat_fits. rewrite !andb_true_iff. repeat split.
  - destruct (b_a0 b) as [r|g d], (b_a1 b) as [r'|g' d']; try reflexivity. exfalso. eapply Ha; eauto.
  - destruct (b_f0 b) as [r|g], (b_f1 b) as [r'|g']; try reflexivity. exfalso. eapply Hf; eauto.
  - destruct (b_p0 b) as [r|g], (b_p1 b) as [r'|g']; try reflexivity. exfalso. eapply Hp; eauto.
Qed.
Lemma amp_at_value : forall a, amp_at a = amp_value a.
Proof. intros [r|g d]; reflexivity. Qed.
Lemma foc_at_time : forall x, foc_at x = at_time x.
Proof. intros [r|g]; reflexivity. Qed.
Lemma dt_at_deriv : forall a, dt_at a = amp_deriv a.
Proof. intros [r|g [d|]]; reflexivity. Qed.

(** AM: for all amplitudes, frequencies and phases, numbers or functions of
    time, the modulus of the sum. *)
Theorem c42_am : forall b ts, well_formed b ->
  n_am b (Arr ts) = Ok (Arr (map (fun t => sqrt (sum_re b t ^ 2 + sum_im b t ^ 2)) ts)).
Proof.
  intros b ts Hw. rewrite (n_am_ok b ts (wf_fits b Hw)). f_equal. f_equal. apply map_ext. intro t.
  rewrite am_modulus. unfold Rsqr, re, im, ph0, ph1. rewrite !amp_at_value, !foc_at_time.
  fold (sum_re b t). fold (sum_im b t). f_equal. ring.
Qed.
Print Assumptions c42_am.

(** FM: the derivative of every differentiable phase of the sum. *)
Theorem c42_fm : forall b T ts, regular b T ->
  exists fm, n_fm b (Arr ts) = Ok (Arr fm) /\ List.length fm = List.length ts /\
    forall i, (i < List.length ts)%nat -> 0 <= nth i ts 0 <= T ->
    forall (phi : R -> R) (l : R), is_derive phi (nth i ts 0) l ->
      locally (nth i ts 0) (fun s =>
        sum_re b s = sqrt (sum_re b s ^ 2 + sum_im b s ^ 2) * cos (phi s) /\
        sum_im b s = sqrt (sum_re b s ^ 2 + sum_im b s ^ 2) * sin (phi s)) ->
      nth i fm 0 = l.
Proof.
  intros b T ts (Hw & (f0 & f1 & p0 & p1 & Ef0 & Ef1 & Ep0 & Ep1) & D0 & D1 & Hn).
  rewrite (n_fm_ok b ts (wf_fits b Hw) (proj1 Hw)). eexists. split; [reflexivity|].
  rewrite map_length. split; [reflexivity|]. intros i Hi Ht phi l Hl Hloc.
  rewrite (nth_map_lt _ _ _ 0 0) by auto. set (t := nth i ts 0) in *. clearbody t.
  rewrite !foc_at_time, !amp_at_value, !dt_at_deriv.
  assert (Er : forall s, re (amp_value (b_a0 b)) (amp_value (b_a1 b)) (fun _ => f0) (fun _ => f1) (fun _ => p0) (fun _ => p1) s = sum_re b s)
    by (intro s; unfold sum_re, at_time; now rewrite Ef0, Ef1, Ep0, Ep1).
  assert (Ei : forall s, im (amp_value (b_a0 b)) (amp_value (b_a1 b)) (fun _ => f0) (fun _ => f1) (fun _ => p0) (fun _ => p1) s = sum_im b s)
    by (intro s; unfold sum_im, at_time; now rewrite Ef0, Ef1, Ep0, Ep1).
  rewrite Ef0, Ef1, Ep0, Ep1.
  change (at_time (FConst f0)) with (fun _ : R => f0). change (at_time (FConst f1)) with (fun _ : R => f1).
  change (at_time (FConst p0)) with (fun _ : R => p0). change (at_time (FConst p1)) with (fun _ : R => p1).
  symmetry. apply fm_is_phase_derivative with (phi := phi); auto.
  - pose proof (al_modulus (amp_value (b_a0 b)) (amp_value (b_a1 b)) (fun _ => f0) (fun _ => f1) (fun _ => p0) (fun _ => p1) t) as Hm.
    rewrite Er, Ei in Hm. unfold Rsqr in Hm. destruct (Hn t Ht); nra.
  - apply filter_imp with (2 := Hloc). intros s [E1 E2]. rewrite Er, Ei, am_modulus, Er, Ei.
    unfold Rsqr. replace (sum_re b s * sum_re b s + sum_im b s * sum_im b s) with (sum_re b s ^ 2 + sum_im b s ^ 2) by ring.
    split; symmetry; assumption.
Qed.
Print Assumptions c42_fm.

(** Duality: a phase that starts at the model's initial phase and whose
    derivative is the FM reproduces the sum, together with the AM.
    [fm] and [p0] are the nodes of the graph. *)
Theorem c42_duality : forall b T, 0 <= T -> regular b T ->
  exists fm p0, (forall t, n_fm b (Arr [t]) = Ok (Arr [fm t])) /\
    (n_init_phase b (Arr [0]) = Ok (Num p0)) /\
    forall phi : R -> R, phi 0 = p0 -> (forall t : R, 0 <= t <= T -> is_derive phi t (fm t)) ->
      sqrt (sum_re b T ^ 2 + sum_im b T ^ 2) * cos (phi T) = sum_re b T.
Proof.
  intros b T HT (Hw & (f0 & f1 & p0 & p1 & Ef0 & Ef1 & Ep0 & Ep1) & D0 & D1 & Hn).
  exists (fm_f (amp_value (b_a0 b)) (amp_value (b_a1 b)) (amp_deriv (b_a0 b)) (amp_deriv (b_a1 b))
     (fun _ => f0) (fun _ => f1) (fun _ => p0) (fun _ => p1)),
    (ip_f (amp_value (b_a0 b)) (amp_value (b_a1 b)) (fun _ => p0) (fun _ => p1) 0).
  assert (Er : forall s, re (amp_value (b_a0 b)) (amp_value (b_a1 b)) (fun _ => f0) (fun _ => f1) (fun _ => p0) (fun _ => p1) s = sum_re b s)
    by (intro s; unfold sum_re, at_time; now rewrite Ef0, Ef1, Ep0, Ep1).
  assert (Ei : forall s, im (amp_value (b_a0 b)) (amp_value (b_a1 b)) (fun _ => f0) (fun _ => f1) (fun _ => p0) (fun _ => p1) s = sum_im b s)
    by (intro s; unfold sum_im, at_time; now rewrite Ef0, Ef1, Ep0, Ep1).
  split; [|split].
  - intro t. rewrite (n_fm_ok b [t] (wf_fits b Hw) (proj1 Hw)).
    rewrite !foc_at_time, !amp_at_value, !dt_at_deriv, Ef0, Ef1, Ep0, Ep1. reflexivity.
  - unfold n_init_phase, n_a_hat, n_a_oln, n_a0, n_a1, vsemisum, vsemidiff.
    assert (HA : fits (amp_foc (b_a0 b)) (amp_foc (b_a1 b)) = true).
    { pose proof (wf_fits b Hw) as HF. unfold beat_fits in HF. rewrite !andb_true_iff in HF. tauto. }
    rewrite !semi_at0 by exact HA. unfold n_p_hat, n_p_oln, n_p0, n_p1. rewrite Ep0, Ep1.
    cbn [float_or_call vsemidiff vsemisum vsemi vbin vmap bind].
    unfold vsemidiff, vsemisum. cbn [vsemi vbin vmap bind]. unfold ip_f, ao, ah.
    change (foc_at (amp_foc (b_a0 b))) with (amp_at (b_a0 b)). change (foc_at (amp_foc (b_a1 b))) with (amp_at (b_a1 b)).
    rewrite !amp_at_value. reflexivity.
  - intros phi Hi Hphi.
    destruct (duality (amp_value (b_a0 b)) (amp_value (b_a1 b)) (amp_deriv (b_a0 b)) (amp_deriv (b_a1 b))
      f0 f1 p0 p1 phi T HT D0 D1) as [E _]; auto.
    + intros t Ht.
      pose proof (al_modulus (amp_value (b_a0 b)) (amp_value (b_a1 b)) (fun _ => f0) (fun _ => f1) (fun _ => p0) (fun _ => p1) t) as Hm.
      rewrite Er, Ei in Hm. unfold Rsqr in Hm. destruct (Hn t Ht); nra.
    + rewrite am_modulus in E. unfold Rsqr in E. rewrite Er, Ei in E. etransitivity; [|exact E].
      f_equal. f_equal. ring.
Qed.
Print Assumptions c42_duality.

(** The signal that is computed, with the FM integrated by the trapezoidal
    rule on a grid from 0 with steps of at most [h]: the error is at most the
    AM times [M h^2 t / 12], [M] a bound of the second derivative of FM. *)
Theorem c42_signal_error : forall b T h M ts (phi fm1 fm2 : R -> R), regular b T -> 0 <= M ->
  grid h 0 ts -> Forall (fun t => t <= T) (0 :: ts) ->
  forall fm p0, (forall t, n_fm b (Arr [t]) = Ok (Arr [fm t])) ->
  n_init_phase b (Arr [0]) = Ok (Num p0) -> phi 0 = p0 ->
  (forall t : R, 0 <= t <= T -> is_derive phi t (fm t)) ->
  (forall t : R, 0 <= t <= T -> is_derive fm t (fm1 t)) ->
  (forall t : R, 0 <= t <= T -> is_derive fm1 t (fm2 t)) ->
  (forall t : R, 0 <= t <= T -> Rabs (fm2 t) <= M) ->
  exists x, n_x b (Arr (0 :: ts)) = Ok (Arr x) /\ List.length x = S (List.length ts) /\
    forall k, (k < List.length x)%nat ->
      let t := nth k (0 :: ts) 0 in
      Rabs (nth k x 0 - sum_re b t) <=
      sqrt (sum_re b t ^ 2 + sum_im b t ^ 2) * (M * h ^ 2 * t / 12).
Proof.
  intros b T h M ts phi fm1 fm2 Hr HM G Ft fm p0 Hfm Hp0 Hphi0 D0 D1 D2 Hb.
  assert (HT : 0 <= T) by (inversion Ft; auto).
  pose proof Hr as Hr'. destruct Hr' as (Hw & (f0 & f1 & q0 & q1 & Ef0 & Ef1 & Ep0 & Ep1) & _).
  rewrite (n_x_ok b (0 :: ts) (wf_fits b Hw) (proj1 Hw)) by discriminate.
  eexists. split; [reflexivity|].
  set (F := fm_f (amp_at (b_a0 b)) (amp_at (b_a1 b)) (dt_at (b_a0 b)) (dt_at (b_a1 b))
    (foc_at (b_f0 b)) (foc_at (b_f1 b)) (foc_at (b_p0 b)) (foc_at (b_p1 b))).
  assert (EF : forall t, F t = fm t).
  { intro t. pose proof (n_fm_ok b [t] (wf_fits b Hw) (proj1 Hw)) as E. rewrite Hfm in E.
    injection E as E. symmetry. exact E. }
  set (I := ip_f (amp_at (b_a0 b)) (amp_at (b_a1 b)) (foc_at (b_p0 b)) (foc_at (b_p1 b))).
  assert (EI : forall t, I t = p0).
  { intro t.
    destruct (n_ip_ok b [0] (wf_fits b Hw)) as (v & Ev & Rv).
    rewrite Hp0 in Ev. injection Ev as <-. simpl in Rv. specialize (Rv 0 (or_introl eq_refl)).
    rewrite <- Rv. unfold I, ip_f. rewrite Ep0, Ep1. reflexivity. }
  assert (L : List.length (cumtrapz (map F (0 :: ts)) (0 :: ts)) = S (List.length ts))
    by (rewrite cumtrapz_length; [reflexivity|now rewrite map_length|discriminate]).
  unfold pm_list. fold F I.
  assert (Lp : List.length (map2 Rplus (cumtrapz (map F (0 :: ts)) (0 :: ts)) (map I (0 :: ts))) = S (List.length ts)).
  { unfold map2. rewrite map_length, combine_length, map_length, L. simpl. lia. }
  set (pm := map2 Rplus (cumtrapz (map F (0 :: ts)) (0 :: ts)) (map I (0 :: ts))) in *.
  assert (Lx : List.length (map2 Rmult (map (am_f (amp_at (b_a0 b)) (amp_at (b_a1 b)) (foc_at (b_f0 b))
    (foc_at (b_f1 b)) (foc_at (b_p0 b)) (foc_at (b_p1 b))) (0 :: ts)) (map cos pm)) = S (List.length ts)).
  { unfold map2. rewrite map_length, combine_length, !map_length, Lp. simpl. lia. }
  split; [exact Lx|]. intros k Hk. cbv zeta. set (t := nth k (0 :: ts) 0). rewrite Lx in Hk.
  assert (Hk' : (k < List.length (0%R :: ts))%nat) by (simpl; lia).
  assert (Epm : nth k pm 0 = nth k (cumtrapz (map F (0 :: ts)) (0 :: ts)) 0 + p0).
  { unfold pm, map2. rewrite (nth_map_lt _ _ _ (0, 0) 0) by (rewrite combine_length, map_length, L; simpl; lia).
    rewrite (nth_combine _ _ 0 0) by (rewrite ?map_length, ?L; simpl; lia). cbn [fst snd].
    rewrite (nth_map_lt _ _ _ 0 0) by (simpl; lia). now rewrite EI. }
  assert (Ex : nth k (map2 Rmult (map (am_f (amp_at (b_a0 b)) (amp_at (b_a1 b)) (foc_at (b_f0 b))
    (foc_at (b_f1 b)) (foc_at (b_p0 b)) (foc_at (b_p1 b))) (0 :: ts)) (map cos pm)) 0
    = sqrt (sum_re b t ^ 2 + sum_im b t ^ 2) * cos (nth k pm 0)).
  { unfold map2. rewrite (nth_map_lt _ _ _ (0, 0) 0) by (rewrite combine_length, !map_length, Lp; simpl; lia).
    rewrite (nth_combine _ _ 0 0) by (rewrite ?map_length, ?Lp; simpl; lia). cbn [fst snd].
    rewrite (nth_map_lt _ _ _ 0 0) by (simpl; lia). rewrite (nth_map_lt _ _ _ 0 0) by lia.
    fold t. f_equal. rewrite am_modulus. unfold Rsqr, re, im, ph0, ph1. rewrite !amp_at_value, !foc_at_time.
    fold (sum_re b t). fold (sum_im b t). f_equal. ring. }
  rewrite Ex, Epm.
  assert (Err : 0 <= t /\ Rabs (nth k (cumtrapz (map F (0 :: ts)) (0 :: ts)) 0 - (phi t - phi 0)) <= M * h ^ 2 * t / 12).
  { rewrite (map_ext F fm EF). apply (cumtrapz_err phi fm fm1 fm2 T M h ts); auto. }
  destruct Err as [Ht Err].
  assert (HtT : t <= T) by (rewrite Forall_forall in Ft; apply Ft; unfold t; apply nth_In; exact Hk').
  assert (Hr2 : regular b t).
  { destruct Hr as (R1 & R2 & R3 & R4 & R5). split; [exact R1|]. split; [exact R2|].
    split; [|split]; intros; [apply R3|apply R4|apply R5]; lra. }
  destruct (c42_duality b t Ht Hr2) as (fm' & p0' & Hfm' & Hp0' & Hd).
  rewrite Hp0 in Hp0'. injection Hp0' as <-.
  assert (Ed : sqrt (sum_re b t ^ 2 + sum_im b t ^ 2) * cos (phi t) = sum_re b t).
  { apply Hd; auto. intros s Hs. specialize (Hfm' s). rewrite Hfm in Hfm'. injection Hfm' as <-. apply D0. lra. }
  set (m := sqrt (sum_re b t ^ 2 + sum_im b t ^ 2)) in *.
  assert (Hm : 0 <= m) by apply sqrt_pos. clearbody m. rewrite <- Ed.
  rewrite <- Rmult_minus_distr_l, Rabs_mult, (Rabs_right m) by lra.
  apply Rmult_le_compat_l; [exact Hm|]. eapply Rle_trans; [apply cos_lipschitz|].
  rewrite <- Hphi0.
  replace (nth k (cumtrapz (map F (0 :: ts)) (0 :: ts)) 0 + phi 0 - phi t)
    with (nth k (cumtrapz (map F (0 :: ts)) (0 :: ts)) 0 - (phi t - phi 0)) by ring. exact Err.
Qed.
Print Assumptions c42_signal_error.

(** The derivative given by [ExponentialDecay.dt] is the derivative of the
    function, and a modal beat is well formed. *)
Theorem c42_modal : forall p, well_formed (modal_beat p) /\
  forall t : R, is_derive (amp_value (b_a0 (modal_beat p))) t (amp_deriv (b_a0 (modal_beat p)) t) /\
            is_derive (amp_value (b_a1 (modal_beat p))) t (amp_deriv (b_a1 (modal_beat p)) t) /\
            amp_value (b_a0 (modal_beat p)) t = q_a0 p * exp (- 2 * t / q_d0 p) /\
            amp_value (b_a1 (modal_beat p)) t = q_a1 p * exp (- 2 * t / q_d1 p).
Proof.
  intro p. split.
  - split; [reflexivity|]. repeat split; intros; intros [H1 H2]; try discriminate H1; discriminate H2.
  - assert (D : forall a d t : R, is_derive (fun s : R => a * exp (exp_decay_k d * s)) t
                                    (a * exp (exp_decay_k d * t) * exp_decay_k d)).
    { intros a d t. auto_derive; [auto|ring]. }
    intro t. cbn [modal_beat b_a0 b_a1 amp_value amp_deriv]. unfold exp_decay_dt, exp_decay.
    split; [|split; [|split]].
    + apply D.
    + apply D.
    + f_equal. f_equal. unfold exp_decay_k, Rdiv. ring.
    + f_equal. f_equal. unfold exp_decay_k, Rdiv. ring.
Qed.
Print Assumptions c42_modal.

(** Not for a time axis that does not start at zero: the integral starts at the
    first time, the initial phase is the one at time zero. *)
Theorem c42_time_origin_refuted : exists b t0, well_formed b /\ 0 < t0 /\
  n_x b (Arr [t0]) = Ok (Arr [1]) /\ sum_re b t0 = 0.
Proof.
  set (b := mkBeat (AConst 1) (AConst 0) (FConst (1 / 4)) (FConst 0) (FConst 0) (FConst 0)).
  assert (Hw : well_formed b) by (split; [reflexivity|]; repeat split; intros; intros [H1 H2]; discriminate H2).
  exists b, 1. split; [exact Hw|]. split; [lra|]. split.
  - rewrite (n_x_ok b [1] (wf_fits b Hw) (proj1 Hw)) by discriminate.
    unfold pm_list, map2. cbn [map combine fst snd cumtrapz cumtrapz_from]. f_equal. f_equal. f_equal.
    unfold ip_f, am_f, al, ao, ah, b. cbn [b_a0 b_a1 b_f0 b_f1 b_p0 b_p1 amp_at amp_foc foc_at].
    replace ((0 - 0) / 2) with 0 by field. rewrite sin_0, cos_0. unfold atan2.
    destruct (Rlt_dec 0 ((1 + 0) / 2 * 1)) as [_|H]; [|exfalso; lra].
    replace ((1 - 0) / 2 * 0 / ((1 + 0) / 2 * 1)) with 0 by field. rewrite atan_0.
    replace (0 + ((0 + 0) / 2 + 0)) with 0 by field. rewrite cos_0.
    replace ((((1 + 0) / 2)² - ((1 - 0) / 2)²) * (cos (th (fun _ : R => 1 / 4) (fun _ : R => 0) (fun _ : R => 0) (fun _ : R => 0) 1))² + ((1 - 0) / 2)²)
      with ((1 / 2) * (1 / 2)) by (unfold Rsqr; field).
    rewrite sqrt_square by lra. lra.
  - unfold sum_re, b. cbn [b_a0 b_a1 b_f0 b_f1 b_p0 b_p1 amp_value at_time].
    replace (2 * PI * (1 / 4) * 1 + 0) with (PI / 2) by field. rewrite cos_PI2. ring.
Qed.
Print Assumptions c42_time_origin_refuted.

(** Not through zeros of the modulus: with the default parameters (equal
    amplitudes) the computed signal has the wrong sign after the first node of
    the beat, although no time of the axis is a node. *)
Theorem c42_node_refuted : exists b ts x t, well_formed b /\
  b = mkBeat (AConst 1) (AConst 1) (FConst (95 / 100)) (FConst (105 / 100)) (FConst 0) (FConst 0) /\
  n_x b (Arr ts) = Ok (Arr x) /\ nth 0 ts 1 = 0 /\ nth 1 ts 0 = t /\
  (forall s, In s ts -> sum_re b s <> 0 \/ sum_im b s <> 0) /\
  sum_re b t = - nth 1 x 0 /\ nth 1 x 0 = 2.
Proof.
  set (b := mkBeat (AConst 1) (AConst 1) (FConst (95 / 100)) (FConst (105 / 100)) (FConst 0) (FConst 0)).
  assert (Hw : well_formed b) by (split; [reflexivity|]; repeat split; intros; intros [H1 H2]; discriminate H2).
  assert (C10 : cos (2 * PI * 10) = 1).
  { replace (2 * PI * 10) with (0 + 2 * INR 10 * PI) by (simpl; ring). rewrite cos_period, cos_0. reflexivity. }
  assert (C19 : cos (19 * PI) = -1).
  { replace (19 * PI) with (PI + 2 * INR 9 * PI) by (simpl; ring). rewrite cos_period, cos_PI. reflexivity. }
  assert (C21 : cos (21 * PI) = -1).
  { replace (21 * PI) with (PI + 2 * INR 10 * PI) by (simpl; ring). rewrite cos_period, cos_PI. reflexivity. }
  assert (S10 : sum_re b 10 = -2).
  { unfold sum_re, b. cbn [b_a0 b_a1 b_f0 b_f1 b_p0 b_p1 amp_value at_time].
    replace (2 * PI * (95 / 100) * 10 + 0) with (19 * PI) by field.
    replace (2 * PI * (105 / 100) * 10 + 0) with (21 * PI) by field. rewrite C19, C21. ring. }
  assert (S0 : sum_re b 0 = 2).
  { unfold sum_re, b. cbn [b_a0 b_a1 b_f0 b_f1 b_p0 b_p1 amp_value at_time].
    rewrite !Rmult_0_r, Rplus_0_r, cos_0. ring. }
  exists b, [0; 10]. eexists. exists 10. split; [exact Hw|]. split; [reflexivity|].
  split; [apply (n_x_ok b [0; 10] (wf_fits b Hw) (proj1 Hw)); discriminate|].
  split; [reflexivity|]. split; [reflexivity|]. split.
  { intros s [<-|[<-|[]]]; left; lra. }
  match goal with |- _ = - ?e /\ _ => assert (E : e = 2); [|rewrite E; split; [lra|reflexivity]] end.
  unfold pm_list, map2. cbn [map combine fst snd cumtrapz cumtrapz_from nth].
  rewrite am_modulus. rewrite !amp_at_value, !foc_at_time.
  assert (Ea : forall t, Rsqr (re (amp_value (b_a0 b)) (amp_value (b_a1 b)) (at_time (b_f0 b)) (at_time (b_f1 b)) (at_time (b_p0 b)) (at_time (b_p1 b)) t)
     + Rsqr (im (amp_value (b_a0 b)) (amp_value (b_a1 b)) (at_time (b_f0 b)) (at_time (b_f1 b)) (at_time (b_p0 b)) (at_time (b_p1 b)) t)
     = sum_re b t ^ 2 + sum_im b t ^ 2).
  { intro t. unfold Rsqr. fold (sum_re b t). change (re (amp_value (b_a0 b)) (amp_value (b_a1 b)) (at_time (b_f0 b)) (at_time (b_f1 b)) (at_time (b_p0 b)) (at_time (b_p1 b)) t) with (sum_re b t).
    change (im (amp_value (b_a0 b)) (amp_value (b_a1 b)) (at_time (b_f0 b)) (at_time (b_f1 b)) (at_time (b_p0 b)) (at_time (b_p1 b)) t) with (sum_im b t). ring. }
  rewrite Ea, S10.
  assert (I10 : sum_im b 10 = 0).
  { unfold sum_im, b. cbn [b_a0 b_a1 b_f0 b_f1 b_p0 b_p1 amp_value at_time].
    replace (2 * PI * (95 / 100) * 10 + 0) with (PI + 2 * INR 9 * PI) by (simpl; field).
    replace (2 * PI * (105 / 100) * 10 + 0) with (PI + 2 * INR 10 * PI) by (simpl; field).
    rewrite !sin_period, sin_PI. ring. }
  rewrite I10. replace ((-2) ^ 2 + 0 ^ 2) with (2 * 2) by ring. rewrite sqrt_square by lra.
  assert (Fm : forall t, fm_f (amp_value (b_a0 b)) (amp_value (b_a1 b)) (dt_at (b_a0 b)) (dt_at (b_a1 b))
     (at_time (b_f0 b)) (at_time (b_f1 b)) (at_time (b_p0 b)) (at_time (b_p1 b)) t = 2 * PI).
  { intro t. unfold fm_f, g_f, ao, ah, b. cbn [b_a0 b_a1 b_f0 b_f1 b_p0 b_p1 amp_value at_time dt_at].
    replace ((1 - 1) / 2) with 0 by field. unfold Rdiv. ring_simplify. field. }
  rewrite !Fm.
  assert (Ip : forall t, ip_f (amp_value (b_a0 b)) (amp_value (b_a1 b)) (at_time (b_p0 b)) (at_time (b_p1 b)) t = 0).
  { intro t. unfold ip_f, ao, ah, b. cbn [b_a0 b_a1 b_p0 b_p1 amp_value at_time].
    replace ((0 - 0) / 2) with 0 by field. rewrite sin_0, cos_0. unfold atan2.
    destruct (Rlt_dec 0 ((1 + 1) / 2 * 1)) as [_|H]; [|exfalso; lra].
    replace ((1 - 1) / 2 * 0 / ((1 + 1) / 2 * 1)) with 0 by field. rewrite atan_0. field. }
  rewrite Ip. replace (0 + (10 - 0) * (2 * PI + 2 * PI) / 2 + 0) with (2 * PI * 10) by field.
  rewrite C10. ring.
Qed.
Print Assumptions c42_node_refuted.

(** A constant first amplitude and a time-varying second one cannot be
    evaluated on an array (the other way round works, see [c42_am]). *)
Theorem c42_constant_first_raises : forall c g d f0 f1 p0 p1 ts,
  n_am (mkBeat (AConst c) (AFun g d) f0 f1 p0 p1) (Arr ts) = Err ValueError.
Proof. reflexivity. Qed.
Print Assumptions c42_constant_first_raises.

(** A beat can be made exactly if each amplitude is a number or knows its
    derivative; a function without one raises AttributeError. *)
Theorem c42_derivatives : forall b,
  let known a := match a with AConst _ => True | AFun _ d => d <> None end in
  (known (b_a0 b) /\ known (b_a1 b) -> beat_init b = Ok b) /\
  (~ (known (b_a0 b) /\ known (b_a1 b)) -> beat_init b = Err AttributeError).
Proof.
  intros [a0 a1 f0 f1 p0 p1]. unfold beat_init. cbn [b_a0 b_a1].
  destruct a0 as [r0|g0 [d0|]]; destruct a1 as [r1|g1 [d1|]]; cbn; split; try reflexivity; intros H;
    try (exfalso; apply H; split; (exact I || discriminate)); destruct H as [H1 H2]; congruence.
Qed.
Print Assumptions c42_derivatives.

(** A beat of two decaying partials with different amplitudes. *)
Example c42_example :
  let b := modal_beat (mkParams 2 1 100 103 1 1 (PI / 4) 0) in
  regular b 1 /\ exists x, n_x b (Arr [0; 1 / 2]) = Ok (Arr x) /\ List.length x = 2%nat.
Proof.
  cbv zeta. set (p := mkParams 2 1 100 103 1 1 (PI / 4) 0). destruct (c42_modal p) as [Hw Hm].
  split.
  - split; [exact Hw|]. split; [exists 100, 103, (PI / 4), 0; repeat split|].
    split; [intros t _; apply Hm|]. split; [intros t _; apply Hm|].
    intros t _. apply NNPP. intro N. apply not_or_and in N. destruct N as [N1 N2].
    apply NNPP in N1. apply NNPP in N2.
    pose proof (c42_am (modal_beat p) [t] Hw) as A. cbn [map] in A. rewrite N1, N2 in A.
    rewrite (n_am_ok _ [t] (wf_fits _ Hw)) in A. cbn [map] in A. injection A as A.
    rewrite !Rmult_0_l, Rplus_0_l in A. rewrite sqrt_0 in A. unfold am_f in A.
    set (m := al _ _ _ _ _ _ t) in A.
    assert (Hp : 0 < m).
    { unfold m, al, ao, ah. cbn [modal_beat b_a0 b_a1 amp_at amp_foc foc_at p q_a0 q_a1 q_d0 q_d1]. unfold exp_decay.
      pose proof (exp_pos (exp_decay_k 1 * t)) as E. set (e := exp (exp_decay_k 1 * t)) in *.
      match goal with |- context [Rsqr (cos ?z)] => pose proof (Rle_0_sqr (cos z)) as C; set (q := Rsqr (cos z)) in * end.
      unfold Rsqr. nra. }
    pose proof (sqrt_lt_R0 m Hp). lra.
  - rewrite (n_x_ok _ _ (wf_fits _ Hw) (proj1 Hw)) by discriminate. eexists. split; reflexivity.
Qed.

(** The error bound can be met: one partial alone is reproduced exactly. *)
Example c42_error_example :
  let b := mkBeat (AConst 1) (AConst 0) (FConst 5) (FConst 5) (FConst 0) (FConst 0) in
  exists x, n_x b (Arr [0; 1; 2]) = Ok (Arr x) /\ nth 2 x 0 = sum_re b 2.
Proof.
  intro b.
  assert (Hw : well_formed b) by (split; [reflexivity|]; repeat split; intros; intros [H1 H2]; discriminate H2).
  assert (F : forall t, n_fm b (Arr [t]) = Ok (Arr [10 * PI])).
  { intro t. rewrite (n_fm_ok b [t] (wf_fits b Hw) (proj1 Hw)). f_equal. f_equal. cbn [map]. f_equal.
    unfold fm_f, g_f, ao, ah, b. cbn [b_a0 b_a1 b_f0 b_f1 b_p0 b_p1 amp_at amp_foc foc_at dt_at].
    unfold Rdiv. ring_simplify. field. }
  assert (Hr : regular b 2).
  { split; [exact Hw|]. split; [exists 5, 5, 0, 0; repeat split|].
    assert (D : forall c t : R, is_derive (fun _ : R => c) t 0) by (intros; auto_derive; auto).
    split; [intros t _; apply (D 1)|]. split; [intros t _; apply (D 0)|].
    intros t _. unfold sum_re, sum_im, b. cbn [b_a0 b_a1 b_f0 b_f1 b_p0 b_p1 amp_value at_time].
    pose proof (sin2_cos2 (2 * PI * 5 * t + 0)) as S. unfold Rsqr in S.
    destruct (Req_dec (cos (2 * PI * 5 * t + 0)) 0) as [Z|Z]; [right|left]; [|lra].
    intro Z'. rewrite Z in S. replace (sin (2 * PI * 5 * t + 0)) with 0 in S by lra. lra. }
  assert (Hi : n_init_phase b (Arr [0]) = Ok (Num 0)).
  { unfold b, n_init_phase, n_a_hat, n_a_oln, n_p_hat, n_p_oln, vsemisum, vsemidiff. cbn.
    replace ((0 - 0) / 2) with 0 by field. rewrite sin_0, cos_0. unfold atan2.
    destruct (Rlt_dec 0 ((1 + 0) / 2 * 1)) as [_|H]; [|exfalso; lra].
    replace ((1 - 0) / 2 * 0 / ((1 + 0) / 2 * 1)) with 0 by field. rewrite atan_0. f_equal. f_equal. field. }
  assert (D1 : forall t : R, is_derive (fun t : R => 10 * PI * t) t (10 * PI)) by (intro t; auto_derive; [auto|ring]).
  assert (D2 : forall c t : R, is_derive (fun _ : R => c) t 0) by (intros; auto_derive; auto).
  destruct (c42_signal_error b 2 1 0 [1; 2] (fun t => 10 * PI * t) (fun _ => 0) (fun _ => 0) Hr (Rle_refl 0)
    ltac:(repeat constructor; lra) ltac:(repeat constructor; lra) (fun _ => 10 * PI) 0 F Hi
    ltac:(cbv beta; ring) ltac:(intros; apply D1) ltac:(intros; apply D2) ltac:(intros; apply D2)
    ltac:(intros; cbv beta; rewrite Rabs_R0; apply Rle_refl)) as (x & X1 & X2 & X3).
  exists x. split; [exact X1|]. specialize (X3 2%nat ltac:(rewrite X2; simpl; lia)). cbn [nth] in X3.
  apply Rminus_diag_uniq. destruct (Req_dec (nth 2 x 0 - sum_re b 2) 0) as [Z|Z]; auto.
  apply Rabs_pos_lt in Z. lra.
Qed.

(** ** C43 *)

(** Exchange of the two partials as wholes. *)
Definition swapped (p : params) : params :=
  mkParams (q_a1 p) (q_a0 p) (q_f1 p) (q_f0 p) (q_d1 p) (q_d0 p) (q_p1 p) (q_p0 p).
(** Keys that are computed from the partials: exchanged with them. *)
Definition key_of_partials (key : params -> R * R) : Prop :=
  forall p, key (swapped p) = (snd (key p), fst (key p)).

Theorem c43_sorted : forall p key descending, key_of_partials key ->
  let r := sort_params p key descending in
  (r = p \/ r = swapped p) /\
  (if descending then snd (key r) <= fst (key r) else fst (key r) <= snd (key r)).
Proof.
  intros p key de Hk r. unfold r, sort_params. fold (swapped p).
  destruct (Rlt_dec (snd (key p)) (fst (key p))); destruct de; cbn [xorb]; split; auto;
    rewrite ?Hk; cbn [fst snd]; lra.
Qed.
Print Assumptions c43_sorted.

(** Sorting again changes nothing, if the keys differ or in ascending order. *)
Theorem c43_idempotent : forall p key descending, key_of_partials key ->
  fst (key p) <> snd (key p) \/ descending = false ->
  sort_params (sort_params p key descending) key descending = sort_params p key descending.
Proof.
  intros p key de Hk Hne. unfold sort_params at 2 3. fold (swapped p).
  destruct (Rlt_dec (snd (key p)) (fst (key p))) as [H|H]; destruct de; cbn [xorb];
    unfold sort_params; rewrite ?Hk; cbn [fst snd];
    match goal with |- context [Rlt_dec ?a ?b] => destruct (Rlt_dec a b) as [L|L] end;
    cbn [xorb]; try reflexivity; exfalso; destruct Hne as [Hne|Hne]; try discriminate; lra.
Qed.
Print Assumptions c43_idempotent.

(** With equal keys in descending order the partials are exchanged each time. *)
Theorem c43_ties_refuted : exists p key, key_of_partials key /\ fst (key p) = snd (key p) /\
  sort_params p key true <> p /\
  sort_params (sort_params p key true) key true <> sort_params p key true.
Proof.
  exists (mkParams 1 1 100 200 1 1 0 0), param_energies. split; [intro; reflexivity|]. split; [reflexivity|].
  unfold sort_params, param_energies, modal_energy. cbn [q_a0 q_a1 q_d0 q_d1 fst snd].
  destruct (Rlt_dec (1 * 1 * 1 / 4) (1 * 1 * 1 / 4)) as [H|H]; [exfalso; lra|]. cbn [xorb q_a0 q_a1 q_f0 q_f1 q_d0 q_d1 q_p0 q_p1].
  destruct (Rlt_dec (1 * 1 * 1 / 4) (1 * 1 * 1 / 4)) as [H'|H']; [exfalso; lra|]. cbn [xorb].
  split; intro E; injection E; lra.
Qed.
Print Assumptions c43_ties_refuted.

(** The default key: modal energy. *)
Theorem c43_energy : forall p, key_of_partials param_energies /\
  param_energies p = (q_a0 p * q_a0 p * q_d0 p / 4, q_a1 p * q_a1 p * q_d1 p / 4).
Proof. intro p. split; [intro; reflexivity|reflexivity]. Qed.
Print Assumptions c43_energy.

Example c43_example :
  sort_params (mkParams 3 1 100 200 2 1 5 6) param_energies false = mkParams 1 3 200 100 1 2 6 5.
Proof.
  unfold sort_params, param_energies, modal_energy. cbn [q_a0 q_a1 q_d0 q_d1 fst snd].
  destruct (Rlt_dec (1 * 1 * 1 / 4) (3 * 3 * 2 / 4)) as [_|H]; [reflexivity|exfalso; lra].
Qed.

(** ** C44 *)

(** The result is the optimiser's or the one with frequencies and phases
    exchanged, the one with the smaller sum of squares, the optimiser's if
    equal; every exception is the one of the plain regression. *)
Theorem c44_choice : forall init bounds least_squares residual,
  match beat_fit init bounds least_squares residual with
  | Err e => dual_fit init bounds least_squares residual true = Err e
  | Ok p =>
    let p' := mkParams (q_a0 p) (q_a1 p) (q_f1 p) (q_f0 p) (q_d0 p) (q_d1 p) (q_p1 p) (q_p0 p) in
    let ssr q := rsum (map (fun v => v * v) (residual q)) in
    exists r, dual_fit init bounds least_squares residual true = Ok r /\
      (r = p \/ r = p') /\ ssr r = Rmin (ssr p) (ssr p') /\ (ssr p = ssr p' -> r = p)
  end.
Proof.
  intros init bounds ls residual. unfold dual_fit.
  destruct (beat_fit init bounds ls residual) as [p|e]; cbn [bind]; [|reflexivity].
  eexists. split; [reflexivity|]. unfold disambiguate.
  set (s := fun q => rsum (map (fun v => v * v) (residual q))).
  set (p' := exchange_freqs p).
  change (mkParams (q_a0 p) (q_a1 p) (q_f1 p) (q_f0 p) (q_d0 p) (q_d1 p) (q_p1 p) (q_p0 p)) with p'.
  match goal with |- (?r = _ \/ _) /\ _ =>
    change ((r = p \/ r = p') /\ s r = Rmin (s p) (s p') /\ (s p = s p' -> r = p)) end.
  change (ssr residual p') with (s p'). change (ssr residual p) with (s p).
  destruct (Rlt_dec (s p') (s p)).
  - split; [auto|]. split; [rewrite Rmin_right; lra|]. lra.
  - split; [auto|]. split; [rewrite Rmin_left; lra|]. auto.
Qed.
Print Assumptions c44_choice.

(** The two hypotheses have the same AM, and their FM are mirror images with
    respect to the mean frequency: only the frequency residuals decide. *)
Theorem c44_hypotheses : forall p t,
  exists am fm fm', n_am (modal_beat p) (Arr [t]) = Ok (Arr [am]) /\
    n_am (modal_beat (exchange_freqs p)) (Arr [t]) = Ok (Arr [am]) /\
    n_fm (modal_beat p) (Arr [t]) = Ok (Arr [fm]) /\
    n_fm (modal_beat (exchange_freqs p)) (Arr [t]) = Ok (Arr [fm']) /\
    fm + fm' = 2 * (2 * PI * ((q_f0 p + q_f1 p) / 2)).
Proof.
  intros p t. destruct (c42_modal p) as [Hw _]. destruct (c42_modal (exchange_freqs p)) as [Hw' _].
  rewrite (n_am_ok _ _ (wf_fits _ Hw)), (n_am_ok _ _ (wf_fits _ Hw')).
  rewrite (n_fm_ok _ _ (wf_fits _ Hw) (proj1 Hw)), (n_fm_ok _ _ (wf_fits _ Hw') (proj1 Hw')).
  cbn [map]. eexists _, _, _. split; [reflexivity|].
  set (A0 := amp_at (b_a0 (modal_beat p))). set (A1 := amp_at (b_a1 (modal_beat p))).
  set (D0 := dt_at (b_a0 (modal_beat p))). set (D1 := dt_at (b_a1 (modal_beat p))).
  change (amp_at (b_a0 (modal_beat (exchange_freqs p)))) with A0.
  change (amp_at (b_a1 (modal_beat (exchange_freqs p)))) with A1.
  change (dt_at (b_a0 (modal_beat (exchange_freqs p)))) with D0.
  change (dt_at (b_a1 (modal_beat (exchange_freqs p)))) with D1.
  cbn [modal_beat exchange_freqs b_f0 b_f1 b_p0 b_p1 q_f0 q_f1 q_p0 q_p1].
  change (foc_at (FConst (q_f0 p))) with (fun _ : R => q_f0 p).
  change (foc_at (FConst (q_f1 p))) with (fun _ : R => q_f1 p).
  change (foc_at (FConst (q_p0 p))) with (fun _ : R => q_p0 p).
  change (foc_at (FConst (q_p1 p))) with (fun _ : R => q_p1 p).
  assert (Eth : th (fun _ => q_f1 p) (fun _ => q_f0 p) (fun _ => q_p1 p) (fun _ => q_p0 p) t
              = - th (fun _ => q_f0 p) (fun _ => q_f1 p) (fun _ => q_p0 p) (fun _ => q_p1 p) t)
    by (unfold th; field).
  assert (Eal : al A0 A1 (fun _ => q_f1 p) (fun _ => q_f0 p) (fun _ => q_p1 p) (fun _ => q_p0 p) t
              = al A0 A1 (fun _ => q_f0 p) (fun _ => q_f1 p) (fun _ => q_p0 p) (fun _ => q_p1 p) t)
    by (unfold al; now rewrite Eth, cos_neg).
  split; [unfold am_f; now rewrite Eal|]. split; [reflexivity|]. split; [reflexivity|].
  unfold fm_f, g_f. fold A0 A1 D0 D1. rewrite Eal, Eth.
  set (h := th (fun _ => q_f0 p) (fun _ => q_f1 p) (fun _ => q_p0 p) (fun _ => q_p1 p) t).
  replace (- h * 2) with (- (h * 2)) by ring. rewrite sin_neg. unfold Rdiv. ring.
Qed.
Print Assumptions c44_hypotheses.

(** So with the residuals of the class the hypotheses are compared by their
    frequency losses only, whatever the loss functions are. *)
Theorem c44_frequency_decides : forall amp_loss freq_loss freq_w freq_clip t a f p r r',
  dual_residual amp_loss freq_loss freq_w freq_clip t a f p = Ok r ->
  dual_residual amp_loss freq_loss freq_w freq_clip t a f (exchange_freqs p) = Ok r' ->
  exists common fl fl', r = common ++ map (Rmult freq_w) fl /\ r' = common ++ map (Rmult freq_w) fl'.
Proof.
  intros amp_loss freq_loss freq_w freq_clip t a f p r r' H H'. unfold dual_residual in *.
  destruct (c42_modal p) as [Hw _]. destruct (c42_modal (exchange_freqs p)) as [Hw' _].
  rewrite (n_am_ok _ _ (wf_fits _ Hw)), (n_fm_ok _ _ (wf_fits _ Hw) (proj1 Hw)) in H.
  rewrite (n_am_ok _ _ (wf_fits _ Hw')), (n_fm_ok _ _ (wf_fits _ Hw') (proj1 Hw')) in H'.
  cbn [bind] in H, H'. injection H as <-. injection H' as <-.
  eexists _, _, _. split; [reflexivity|]. f_equal. f_equal. apply map_ext. intro s.
  destruct (c44_hypotheses p s) as (am & fm & fm' & E1 & E2 & _).
  rewrite (n_am_ok _ _ (wf_fits _ Hw)) in E1. rewrite (n_am_ok _ _ (wf_fits _ Hw')) in E2.
  cbn [map] in E1, E2. injection E1 as E1. injection E2 as E2. etransitivity; [exact E2|symmetry; exact E1].
Qed.
Print Assumptions c44_frequency_decides.

Example c44_example : forall ls,
  (forall res x0 b, ls res x0 b = Ok (mkParams 1 2 100 90 1 1 0 1)) ->
  dual_fit (mkParams 1 1 1 1 1 1 1 1) (fun _ => Ok (mkParams 0 0 0 0 0 0 0 0, mkParams 2 2 2 2 2 2 2 2)) ls
    (fun q => [q_f0 q - 89]) true = Ok (mkParams 1 2 90 100 1 1 1 0).
Proof.
  intros ls H. unfold dual_fit, beat_fit. cbn [bind]. unfold feasible, params_list. cbn.
  unfold Rltb. destruct (Rlt_dec 0 1) as [_|N]; [|exfalso; lra]. destruct (Rlt_dec 1 2) as [_|N]; [|exfalso; lra].
  cbn. rewrite H. cbn. unfold disambiguate, ssr, exchange_freqs. cbn. unfold Rsqr.
  destruct (Rlt_dec ((90 - 89) * (90 - 89) + 0) ((100 - 89) * (100 - 89) + 0)) as [_|N]; [reflexivity|exfalso; lra].
Qed.

(** ** C45 *)

Definition constant (l : list R) : Prop := exists c, Forall (fun v => v = c) l.

Lemma amin_amax_const : forall l lo hi, l <> [] -> amin l = Ok lo -> amax l = Ok hi ->
  lo <= hi /\ (lo = hi <-> constant l).
Proof.
  intros l lo hi Hne E1 E2. destruct (amin_ok l Hne) as (lo' & L1 & L2 & L3).
  destruct (amax_ok l Hne) as (hi' & M1 & M2 & M3). rewrite E1 in L1. rewrite E2 in M1.
  injection L1 as <-. injection M1 as <-. split; [apply M3; auto|]. split.
  - intros <-. exists lo. apply Forall_forall. intros v Hv. specialize (L3 v Hv). specialize (M3 v Hv). lra.
  - intros (c & Hc). rewrite Forall_forall in Hc. rewrite (Hc lo L2), (Hc hi M2). reflexivity.
Qed.
Lemma db2a_inj : forall x y, db2a x = db2a y -> x = y.
Proof.
  intros x y H. unfold db2a, Rpower in H. apply exp_inv in H.
  assert (ln 10 <> 0) by (pose proof (ln_lt_2); intro Z; pose proof (ln_increasing 1 10 ltac:(lra) ltac:(lra)); rewrite ln_1 in *; lra).
  apply Rmult_eq_reg_r in H; auto. lra.
Qed.
Lemma const_db2a : forall l, constant (map db2a l) <-> constant l.
Proof.
  intro l. split.
  - intros (c & Hc). destruct l as [|v l]; [exists 0; constructor|]. exists v.
    apply Forall_forall. intros w Hw. rewrite Forall_forall in Hc. apply db2a_inj.
    rewrite (Hc (db2a w)) by (apply in_map; auto). symmetry. apply Hc. simpl. auto.
  - intros (c & Hc). exists (db2a c). apply Forall_map. eapply Forall_impl; [|exact Hc]. intros v ->. reflexivity.
Qed.

(** Each of the eight parameters is strictly between its bounds. *)
Definition strictly_inside (lo hi x : params) : Prop :=
  q_a0 lo < q_a0 x < q_a0 hi /\ q_a1 lo < q_a1 x < q_a1 hi /\
  q_f0 lo < q_f0 x < q_f0 hi /\ q_f1 lo < q_f1 x < q_f1 hi /\
  q_d0 lo < q_d0 x < q_d0 hi /\ q_d1 lo < q_d1 x < q_d1 hi /\
  q_p0 lo < q_p0 x < q_p0 hi /\ q_p1 lo < q_p1 x < q_p1 hi.

(** Whatever the starting point and the bounds are, the optimiser is called with
    them if every parameter is strictly inside, else the regression raises. *)
Theorem c45_strict : forall x0 bounds lo hi ls residual, bounds x0 = Ok (lo, hi) ->
  (strictly_inside lo hi x0 -> beat_fit x0 bounds ls residual = ls residual x0 (lo, hi)) /\
  (~ strictly_inside lo hi x0 -> beat_fit x0 bounds ls residual = Err ValueError).
Proof.
  intros x0 bounds lo hi ls residual E. unfold beat_fit. rewrite E. cbn [bind].
  assert (LT : forall x y, Rltb x y = true <-> x < y).
  { intros x y. unfold Rltb. destruct (Rlt_dec x y); split; intros H; auto; discriminate. }
  assert (FE : feasible (lo, hi) x0 = true <-> strictly_inside lo hi x0).
  { unfold feasible, params_list, strictly_inside. cbn [fst snd combine forallb].
    rewrite !andb_true_iff, !LT. tauto. }
  destruct (feasible (lo, hi) x0); split; intros H; try reflexivity.
  - exfalso. apply H, FE. reflexivity.
  - exfalso. apply FE in H. discriminate.
Qed.
Print Assumptions c45_strict.

(** The starting point is strictly inside the bounds exactly if the condition
    holds; then the optimiser is called with these bounds; in every other case,
    and for shorter tracks, the regression raises ValueError. *)
Theorem c45_feasible : forall t a f k q am_freq p_hat ls residual,
  a <> [] -> f <> [] -> k <> 0 ->
  let x0 := default_params_init k q am_freq p_hat f in
  let decay := - 40 * (ln (exp 1) / ln 10) / k in
  let ok := (2 <= zlen t)%Z /\ ~ constant f /\ / 2 ^ 52 < decay < 100 /\
            (~ constant a \/ Forall (fun v => db2a q / 2 < db2a v) a) in
  (ok -> exists lo hi, beat_fit x0 (default_bounds t a f) ls residual = ls residual x0 (lo, hi) /\
     strictly_inside lo hi x0) /\
  (~ ok -> beat_fit x0 (default_bounds t a f) ls residual = Err ValueError).
Proof.
  intros t a f k q am ph ls residual Ha Hf Hk x0 decay ok.
  unfold beat_fit, default_bounds.
  destruct (Z.leb_spec (zlen t) 1) as [Ht|Ht].
  { cbn [bind]. split; [intros (H & _); lia|reflexivity]. }
  assert (Ha' : map db2a a <> []) by (destruct a; simpl; congruence).
  destruct (amin_ok _ Ha') as (alo & EL & Lin & Lmin). destruct (amax_ok _ Ha') as (ahi & EH & Hin & Hmax).
  destruct (amin_ok _ Hf) as (flo & EFL & FLin & FLmin). destruct (amax_ok _ Hf) as (fhi & EFH & FHin & FHmax).
  rewrite EL, EH. cbn [bind].
  destruct (amin_amax_const _ _ _ Ha' EL EH) as [Ale Aeq]. destruct (amin_amax_const _ _ _ Hf EFL EFH) as [Fle Feq].
  rewrite const_db2a in Aeq.
  assert (Dpos : forall v, 0 < db2a v) by (intro v; apply exp_pos).
  assert (Apos : 0 < alo) by (apply in_map_iff in Lin; destruct Lin as (v & <- & _); auto).
  pose proof (Dpos q) as Qpos. pose proof PI_RGT_0 as PIp.
  assert (Ed : q_d0 x0 = decay) by reflexivity. assert (Ed' : q_d1 x0 = decay) by reflexivity.
  assert (E0 : q_a0 x0 = db2a q / 2) by reflexivity. assert (E1 : q_a1 x0 = db2a q / 2) by reflexivity.
  assert (F0 : q_f0 x0 = mean f + am) by reflexivity. assert (F1 : q_f1 x0 = mean f - am) by reflexivity.
  assert (P0 : q_p0 x0 = 0) by reflexivity.
  clearbody x0 decay. set (A := db2a q / 2) in *.
  (* the amplitude bounds *)
  assert (AB : exists amin_ amax_,
    (if Req_EM_T alo ahi then (0, if Req_EM_T 0 ahi then 1 else ahi)
     else (Rmax 0 (Rmin (Rmin alo (q_a0 x0)) (q_a1 x0) - (Rmax (Rmax ahi (q_a0 x0)) (q_a1 x0) - Rmin (Rmin alo (q_a0 x0)) (q_a1 x0))),
           Rmax (Rmax ahi (q_a0 x0)) (q_a1 x0) + (Rmax (Rmax ahi (q_a0 x0)) (q_a1 x0) - Rmin (Rmin alo (q_a0 x0)) (q_a1 x0)))) = (amin_, amax_) /\
    ((amin_ < A /\ A < amax_) <-> (~ constant a \/ Forall (fun v => A < db2a v) a))).
  { destruct (Req_EM_T alo ahi) as [Eq|Ne].
    - destruct (Req_EM_T 0 ahi) as [Z|_]; [exfalso; lra|]. exists 0, ahi. split; [reflexivity|]. split.
      + intros [_ H]. right. apply Forall_forall. intros v Hv.
        pose proof (Lmin (db2a v) (in_map _ _ _ Hv)). lra.
      + intros [H|H]; [exfalso; apply H, Aeq, Eq|]. split; [unfold A; lra|].
        apply in_map_iff in Hin. destruct Hin as (v & <- & Hv). rewrite Forall_forall in H. auto.
    - eexists _, _. split; [reflexivity|]. rewrite E0, E1.
      assert (Hlo : Rmin (Rmin alo A) A <= A) by apply Rmin_r.
      assert (Hlo2 : Rmin (Rmin alo A) A <= alo) by (eapply Rle_trans; [apply Rmin_l|apply Rmin_l]).
      assert (Hhi : A <= Rmax (Rmax ahi A) A) by apply Rmax_r.
      assert (Hhi2 : ahi <= Rmax (Rmax ahi A) A) by (eapply Rle_trans; [|apply Rmax_l]; apply Rmax_l).
      split.
      + intros _. left. intro C. apply Ne, Aeq, C.
      + intros _. split; [|lra]. apply Rmax_lub_lt; [unfold A; lra|lra]. }
  destruct AB as (amin_ & amax_ & EAB & HAB). rewrite EAB. rewrite EFL, EFH. cbn [bind].
  (* the frequency bounds *)
  set (df := Rmin (fhi - flo) 1). set (fmax := Rmax (Rmax (q_f0 x0) (q_f1 x0)) fhi + df).
  set (fmin := Rmin (Rmin (q_f0 x0) (q_f1 x0)) flo - df).
  assert (HF : (fmin < q_f0 x0 /\ q_f0 x0 < fmax /\ fmin < q_f1 x0 /\ q_f1 x0 < fmax) <-> ~ constant f).
  { assert (M1 : q_f0 x0 <= Rmax (Rmax (q_f0 x0) (q_f1 x0)) fhi) by (eapply Rle_trans; [|apply Rmax_l]; apply Rmax_l).
    assert (M2 : q_f1 x0 <= Rmax (Rmax (q_f0 x0) (q_f1 x0)) fhi) by (eapply Rle_trans; [|apply Rmax_l]; apply Rmax_r).
    assert (N1 : Rmin (Rmin (q_f0 x0) (q_f1 x0)) flo <= q_f0 x0) by (eapply Rle_trans; [apply Rmin_l|]; apply Rmin_l).
    assert (N2 : Rmin (Rmin (q_f0 x0) (q_f1 x0)) flo <= q_f1 x0) by (eapply Rle_trans; [apply Rmin_l|]; apply Rmin_r).
    split.
    - intros (_ & H2 & _ & H4) C.
      assert (Em : mean f = fhi).
      { destruct C as (c & Hc). rewrite Forall_forall in Hc. rewrite (Hc fhi FHin).
        assert (Es : rsum f = INR (List.length f) * c).
        { clear - Hc. induction f as [|v f IH]; [simpl; lra|]. change (rsum (v :: f)) with (v + rsum f).
          change (List.length (v :: f)) with (S (List.length f)).
          rewrite S_INR, IH by (intros; apply Hc; simpl; auto). rewrite (Hc v) by (simpl; auto). lra. }
        unfold mean. rewrite Es. field. apply not_0_INR. destruct f; simpl; congruence. }
      apply Feq in C. assert (Ed0 : df = 0) by (unfold df; rewrite C; replace (fhi - fhi) with 0 by ring; apply Rmin_left; lra).
      unfold fmax in H2, H4. rewrite Ed0 in H2, H4. rewrite F0, F1, Em in H2, H4.
      destruct (Rle_lt_dec am 0).
      + rewrite (Rmax_right (fhi + am) (fhi - am)) in H4 by lra. rewrite (Rmax_left (fhi - am) fhi) in H4 by lra. lra.
      + rewrite (Rmax_left (fhi + am) (fhi - am)) in H2 by lra. rewrite (Rmax_left (fhi + am) fhi) in H2 by lra. lra.
    - intro C. assert (0 < df).
      { unfold df. apply Rmin_glb_lt; [|lra]. destruct (Req_dec flo fhi) as [E|E]; [exfalso; apply C, Feq, E|lra]. }
      unfold fmax, fmin. lra. }
  assert (FE : feasible (mkParams amin_ amin_ fmin fmin eps eps (- PI) (q_p1 x0 - PI),
                         mkParams amax_ amax_ fmax fmax 100 100 PI (q_p1 x0 + PI)) x0 = true
    <-> Forall (fun c => fst (fst c) < snd c < snd (fst c))
       (combine (combine (params_list (mkParams amin_ amin_ fmin fmin eps eps (- PI) (q_p1 x0 - PI)))
                         (params_list (mkParams amax_ amax_ fmax fmax 100 100 PI (q_p1 x0 + PI)))) (params_list x0))).
  { unfold feasible. cbn [fst snd]. rewrite forallb_forall, Forall_forall. split; intros H c Hc; specialize (H c Hc).
    - unfold Rltb in H. destruct (Rlt_dec (fst (fst c)) (snd c)); destruct (Rlt_dec (snd c) (snd (fst c))); try discriminate. auto.
    - unfold Rltb. destruct (Rlt_dec (fst (fst c)) (snd c)); destruct (Rlt_dec (snd c) (snd (fst c))); try reflexivity; exfalso; lra. }
  assert (FA : Forall (fun c => fst (fst c) < snd c < snd (fst c))
       (combine (combine (params_list (mkParams amin_ amin_ fmin fmin eps eps (- PI) (q_p1 x0 - PI)))
                         (params_list (mkParams amax_ amax_ fmax fmax 100 100 PI (q_p1 x0 + PI)))) (params_list x0)) <-> ok).
  { unfold params_list. cbn [combine q_a0 q_a1 q_f0 q_f1 q_d0 q_d1 q_p0 q_p1]. rewrite E0, E1, Ed, Ed', P0.
    unfold ok. change (/ 2 ^ 52) with eps. split.
    - intro H. repeat match goal with H : Forall _ (_ :: _) |- _ => inversion_clear H end. cbn [fst snd] in *.
      split; [lia|]. split; [apply HF; lra|]. split; [lra|]. apply HAB. lra.
    - intros (_ & H2 & H3 & H4). apply HF in H2. apply HAB in H4.
      repeat constructor; cbn [fst snd]; lra. }
  destruct (feasible _ x0) eqn:Efe.
  - assert (O : ok) by (apply FA, FE; reflexivity). split; [|tauto].
    intros _. eexists _, _. split; [reflexivity|]. apply FA in O. unfold params_list in O.
    cbn [combine] in O.
    repeat match goal with H : Forall _ (_ :: _) |- _ => inversion_clear H end. cbn [fst snd] in *.
    unfold strictly_inside. tauto.
  - assert (O : ~ ok) by (intro O; apply FA, FE in O; congruence). split; [tauto|reflexivity].
Qed.
Print Assumptions c45_feasible.

(** In particular a track of constant frequency is always rejected. *)
Theorem c45_constant_frequency_raises : forall t a f k q am_freq p_hat ls residual,
  a <> [] -> f <> [] -> k <> 0 -> constant f ->
  beat_fit (default_params_init k q am_freq p_hat f) (default_bounds t a f) ls residual = Err ValueError.
Proof.
  intros t a f k q am ph ls residual Ha Hf Hk Hc.
  apply (proj2 (c45_feasible t a f k q am ph ls residual Ha Hf Hk)). tauto.
Qed.
Print Assumptions c45_constant_frequency_raises.

Lemma ln10_bounds : 2 < ln 10 < 9.
Proof.
  split.
  - rewrite <- (ln_exp 2). apply ln_increasing; [apply exp_pos|].
    replace 2 with (1 + 1) by ring. rewrite exp_plus. pose proof exp_le_3. pose proof (exp_pos 1). nra.
  - pose proof (exp_ineq1 9 ltac:(lra)). assert (10 < exp 9) by lra.
    enough (ln 10 < ln (exp 9)) by (rewrite ln_exp in *; lra). apply ln_increasing; lra.
Qed.

Example c45_example : forall ls residual, exists lo hi,
  let x0 := default_params_init (-20) 0 1 0 [100; 102] in
  beat_fit x0 (default_bounds [0; 1] [0; -20] [100; 102]) ls residual = ls residual x0 (lo, hi).
Proof.
  intros ls residual.
  destruct (c45_feasible [0; 1] [0; -20] [100; 102] (-20) 0 1 0 ls residual) as [H _]; try discriminate; try lra.
  destruct H as (lo & hi & E & _); [|exists lo, hi; exact E].
  split; [vm_compute; discriminate|]. split; [|split].
  - intros (c & Hc). inversion Hc as [|? ? H1 H2]; subst. inversion H2; subst. lra.
  - rewrite ln_exp. pose proof ln10_bounds as L.
    replace (-40 * (1 / ln 10) / -20) with (2 * / ln 10) by (field; lra).
    assert (/ 9 < / ln 10) by (apply Rinv_lt_contravar; nra).
    assert (/ ln 10 < / 2) by (apply Rinv_lt_contravar; nra).
    assert (/ 2 ^ 52 < / 9).
    { apply Rinv_lt_contravar; [|simpl; lra]. apply Rmult_lt_0_compat; [lra|apply pow_lt; lra]. }
    lra.
  - left. intros (c & Hc). inversion Hc as [|? ? H1 H2]; subst. inversion H2; subst. lra.
Qed.

(** ** C60 *)

(** Columns of the parameter matrix: two for a beat, with the parameters of
    each partial together, else the one of the plain model with phase zero. *)
Theorem c60_columns : forall th tracks cols, beatsdrop_columns th tracks = Ok cols ->
  exists groups, cols = concat groups /\
    Forall2 (fun tr g => exists p, fst tr = Ok p /\
       let '(f, d, a) := snd tr in
       let beats := th * / 2 ^ 52 < Rabs (q_f0 p - q_f1 p) /\ th * / 2 ^ 52 < Rabs (q_a0 p) /\
                    th * / 2 ^ 52 < Rabs (q_a1 p) in
       (beats -> g = [(q_f0 p, q_d0 p, q_a0 p, q_p0 p); (q_f1 p, q_d1 p, q_a1 p, q_p1 p)]) /\
       (~ beats -> g = [(f, d, a, 0)])) tracks groups.
Proof.
  intros th tracks cols H. unfold beatsdrop_columns in H.
  destruct (mapM _ tracks) as [l|] eqn:E; [|discriminate]. cbn [bind] in H. injection H as <-.
  exists l. split; [reflexivity|]. revert l E.
  induction tracks as [|[r [[f d] a]] tracks IH]; intros l E.
  - injection E as <-. constructor.
  - simpl in E. destruct r as [p|]; [|discriminate]. cbn [bind] in E.
    destruct (mapM _ tracks) as [l'|]; [|discriminate]. injection E as <-.
    constructor; [|apply IH; reflexivity]. exists p. split; [reflexivity|]. cbn [snd].
    unfold track_params, decide_beat. cbn [map forallb]. change (/ 2 ^ 52) with eps. unfold Rltb.
    destruct (Rlt_dec (th * eps) (Rabs (q_f0 p - q_f1 p))); destruct (Rlt_dec (th * eps) (Rabs (q_a0 p)));
      destruct (Rlt_dec (th * eps) (Rabs (q_a1 p))); cbn [andb];
      (split; intro B; [try reflexivity; exfalso; tauto|try reflexivity; exfalso; apply B; tauto]).
Qed.
Print Assumptions c60_columns.

(** One track whose beat regression raises makes the whole fit raise. *)
Theorem c60_error_propagates : forall th tracks,
  Exists (fun tr => exists e, fst tr = Err e) tracks ->
  exists e, beatsdrop_columns th tracks = Err e.
Proof.
  intros th tracks H. unfold beatsdrop_columns.
  enough (exists e, mapM (fun t : res params * (R * R * R) => do p <- fst t; Ok (track_params th p (snd t))) tracks = Err e) as (e & ->)
    by (exists e; reflexivity).
  induction tracks as [|tr tracks IH]; [inversion H|]. inversion H as [? ? (e & E)|? ? H']; subst.
  - exists e. simpl. rewrite E. reflexivity.
  - destruct (IH H') as (e & E). simpl. destruct (fst tr) as [p|e']; [|exists e'; reflexivity].
    cbn [bind]. rewrite E. exists e. reflexivity.
Qed.
Print Assumptions c60_error_propagates.

(** Synthesis from the two columns of a beat gives the sum of the partials. *)
Theorem c60_resynthesis : forall p t,
  sum4 (partial_at cos t) [q_f0 p; q_f1 p] [q_d0 p; q_d1 p] [q_a0 p; q_a1 p] [q_p0 p; q_p1 p]
  = sum_re (modal_beat p) t.
Proof.
  intros p t. unfold sum_re, partial_at. destruct (c42_modal p) as [_ M].
  destruct (M t) as (_ & _ & -> & ->). cbn [sum4 modal_beat b_f0 b_f1 b_p0 b_p1 at_time].
  replace (t * (-2 / q_d0 p)) with (-2 * t / q_d0 p) by (unfold Rdiv; ring).
  replace (t * (-2 / q_d1 p)) with (-2 * t / q_d1 p) by (unfold Rdiv; ring).
  replace (2 * PI * t * q_f0 p) with (2 * PI * q_f0 p * t) by ring.
  replace (2 * PI * t * q_f1 p) with (2 * PI * q_f1 p * t) by ring. ring.
Qed.
Print Assumptions c60_resynthesis.

Example c60_example :
  beatsdrop_columns 1 [(Ok (mkParams 1 2 3 4 5 6 7 8), (10, 11, 12)); (Ok (mkParams 1 0 3 4 5 6 7 8), (10, 11, 12))]
  = Ok [(3, 5, 1, 7); (4, 6, 2, 8); (10, 11, 12, 0)].
Proof.
  assert (He : 0 < 1 * eps < 1).
  { rewrite Rmult_1_l. unfold eps. split; [apply Rinv_0_lt_compat, pow_lt; lra|].
    rewrite <- Rinv_1. apply Rinv_lt_contravar; [|simpl; lra]. rewrite Rmult_1_l. apply pow_lt. lra. }
  assert (E1 : decide_beat 1 (mkParams 1 2 3 4 5 6 7 8) = true).
  { unfold decide_beat. cbn [map forallb q_a0 q_a1 q_f0 q_f1]. rewrite (Rabs_left (3 - 4)), (Rabs_right 1), (Rabs_right 2) by lra.
    unfold Rltb. repeat match goal with |- context [Rlt_dec ?a ?b] => destruct (Rlt_dec a b); [|exfalso; lra] end. reflexivity. }
  assert (E2 : decide_beat 1 (mkParams 1 0 3 4 5 6 7 8) = false).
  { unfold decide_beat. cbn [map forallb q_a0 q_a1 q_f0 q_f1]. rewrite Rabs_R0. unfold Rltb at 3.
    destruct (Rlt_dec (1 * eps) 0); [exfalso; lra|]. rewrite !andb_false_r. reflexivity. }
  unfold beatsdrop_columns, track_params. cbn [mapM fst snd bind]. rewrite E1, E2. reflexivity.
Qed.
