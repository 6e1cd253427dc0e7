(** Properties of the residuals of the beat regressions: C84, C85. *)
From Coquelicot Require Import Coquelicot.
From Coq Require Import String List Bool ZArith Reals Lra Lia Permutation Sorted.
Import ListNotations.
From Verif Require Import Base Py PyLemmas ListLemmas RLists Np_Model Np_Lemmas Dsp_Model Dsp_Proofs Sample_Model
  Psycho_Model Psycho_Proofs Bank_Model Bank_Proofs Beat_Model Beat_Proofs Beat_Props Gamma_Model Resid_Model
  Resid_Proofs Sample_Proofs.
Local Open Scope R_scope.

(** ** Spec *)

(** Sum of two decaying partials: real and imaginary part, modulus and
    instantaneous frequency in Hz (the derivative of the phase over 2 pi). *)
Definition beat_re (p : params) (t : R) : R :=
  q_a0 p * exp (- 2 * t / q_d0 p) * cos (2 * PI * q_f0 p * t + q_p0 p) +
  q_a1 p * exp (- 2 * t / q_d1 p) * cos (2 * PI * q_f1 p * t + q_p1 p).
Definition beat_im (p : params) (t : R) : R :=
  q_a0 p * exp (- 2 * t / q_d0 p) * sin (2 * PI * q_f0 p * t + q_p0 p) +
  q_a1 p * exp (- 2 * t / q_d1 p) * sin (2 * PI * q_f1 p * t + q_p1 p).
Definition beat_env (p : params) (t : R) : R := sqrt (beat_re p t ^ 2 + beat_im p t ^ 2).
Definition beat_freq (p : params) (t : R) : R :=
  (beat_re p t * Derive (beat_im p) t - beat_im p t * Derive (beat_re p) t)
  / (beat_re p t ^ 2 + beat_im p t ^ 2) / (2 * PI).
(** Amplitude of a level in decibels; the mel scale. *)
Definition amplitude (db : R) : R := Rpower 10 (db / 20).
Definition mel (f : R) : R := 2595 * (ln (1 + f / 700) / ln 10).

Lemma beat_re_sum : forall p t, sum_re (modal_beat p) t = beat_re p t.
Proof.
  intros p t. unfold sum_re, beat_re. destruct (c42_modal p) as [_ M]. destruct (M t) as (_ & _ & -> & ->).
  reflexivity.
Qed.
Lemma beat_im_sum : forall p t, sum_im (modal_beat p) t = beat_im p t.
Proof.
  intros p t. unfold sum_im, beat_im. destruct (c42_modal p) as [_ M]. destruct (M t) as (_ & _ & -> & ->).
  reflexivity.
Qed.
Lemma am_values : forall p ts, n_am (modal_beat p) (Arr ts) = Ok (Arr (map (beat_env p) ts)).
Proof.
  intros p ts. rewrite (c42_am _ ts (proj1 (c42_modal p))). do 2 f_equal. apply map_ext. intros t.
  unfold beat_env. now rewrite beat_re_sum, beat_im_sum.
Qed.

Lemma fm_formula : forall p ts, n_fm (modal_beat p) (Arr ts) =
  Ok (Arr (map (fm_f (exp_decay (q_a0 p) (q_d0 p)) (exp_decay (q_a1 p) (q_d1 p))
                     (exp_decay_dt (q_a0 p) (q_d0 p)) (exp_decay_dt (q_a1 p) (q_d1 p))
                     (fun _ => q_f0 p) (fun _ => q_f1 p) (fun _ => q_p0 p) (fun _ => q_p1 p)) ts)).
Proof.
  intros p ts. pose proof (proj1 (c42_modal p)) as W.
  rewrite (n_fm_ok (modal_beat p) ts (wf_fits _ W) (proj1 W)). reflexivity.
Qed.

Lemma fm_values : forall p ts, (forall t, In t ts -> beat_env p t <> 0) ->
  n_fm (modal_beat p) (Arr ts) = Ok (Arr (map (fun t => 2 * PI * beat_freq p t) ts)).
Proof.
  intros p ts H. rewrite fm_formula. do 2 f_equal. apply map_ext_in. intros t Ht. specialize (H t Ht).
  set (A0 := exp_decay (q_a0 p) (q_d0 p)). set (A1 := exp_decay (q_a1 p) (q_d1 p)).
  set (D0 := exp_decay_dt (q_a0 p) (q_d0 p)). set (D1 := exp_decay_dt (q_a1 p) (q_d1 p)).
  destruct (c42_modal p) as [_ M]. destruct (M t) as (H0 & H1 & _ & _).
  change (is_derive A0 t (D0 t)) in H0. change (is_derive A1 t (D1 t)) in H1.
  assert (ER : forall s, re A0 A1 (fun _ => q_f0 p) (fun _ => q_f1 p) (fun _ => q_p0 p) (fun _ => q_p1 p) s = beat_re p s)
    by (intros s; rewrite <- beat_re_sum; reflexivity).
  assert (EI : forall s, im A0 A1 (fun _ => q_f0 p) (fun _ => q_f1 p) (fun _ => q_p0 p) (fun _ => q_p1 p) s = beat_im p s)
    by (intros s; rewrite <- beat_im_sum; reflexivity).
  pose proof (X_derive A0 A1 D0 D1 (q_f0 p) (q_f1 p) (q_p0 p) (q_p1 p) t H0 H1) as HX.
  pose proof (Y_derive A0 A1 D0 D1 (q_f0 p) (q_f1 p) (q_p0 p) (q_p1 p) t H0 H1) as HY.
  apply (is_derive_ext _ (beat_re p)) in HX; [|exact ER]. apply (is_derive_ext _ (beat_im p)) in HY; [|exact EI].
  apply is_derive_unique in HX, HY.
  pose proof (al_modulus A0 A1 (fun _ => q_f0 p) (fun _ => q_f1 p) (fun _ => q_p0 p) (fun _ => q_p1 p) t) as AM.
  rewrite ER, EI in AM.
  assert (P : 0 < beat_re p t ^ 2 + beat_im p t ^ 2).
  { destruct (Rle_lt_dec (beat_re p t ^ 2 + beat_im p t ^ 2) 0) as [L|L]; [|exact L]. exfalso. apply H.
    unfold beat_env. apply sqrt_neg_0, L. }
  assert (PA : 0 < al A0 A1 (fun _ => q_f0 p) (fun _ => q_f1 p) (fun _ => q_p0 p) (fun _ => q_p1 p) t)
    by (unfold Rsqr in AM; lra).
  pose proof (fm_cross A0 A1 D0 D1 (q_f0 p) (q_f1 p) (q_p0 p) (q_p1 p) t PA) as C. cbv zeta in C.
  rewrite ER, EI in C. rewrite AM in C. unfold beat_freq. rewrite HX, HY, C.
  unfold Rsqr. field. split; [|apply PI_neq0]. simpl in P. lra.
Qed.

(** ** C84 *)

Lemma axis_size : forall fs m, 0 < fs -> 0 < m ->
  exists N, model_axis fs m = map (fun i => INR i / fs) (seq 0 (S N)) /\ INR N / fs < m <= INR (S N) / fs.
Proof.
  intros fs m Hf Hm. pose proof (Rceil_spec (m * fs)) as C.
  assert (P : 0 < m * fs) by (apply Rmult_lt_0_compat; auto).
  assert (Z1 : (1 <= Rceil (m * fs))%Z).
  { assert (0 < IZR (Rceil (m * fs))) as A by lra. apply lt_IZR in A. lia. }
  exists (Z.to_nat (Rceil (m * fs) - 1)). unfold model_axis.
  replace (Z.to_nat (Rceil (m * fs))) with (S (Z.to_nat (Rceil (m * fs) - 1))) by lia. split; [reflexivity|].
  rewrite S_INR, INR_IZR_INZ, Z2Nat.id, minus_IZR by lia.
  split.
  - apply (Rmult_lt_reg_r fs); [exact Hf|]. unfold Rdiv. rewrite Rmult_assoc, Rinv_l by lra. lra.
  - apply (Rmult_le_reg_r fs); [exact Hf|]. unfold Rdiv. rewrite Rmult_assoc, Rinv_l by lra. lra.
Qed.

Lemma interp_all : forall fs e N l, 0 < fs -> exists vs,
  mapM (interp (map (fun i => INR i / fs) (seq 0 (S N))) (map e (map (fun i => INR i / fs) (seq 0 (S N))))) l = Ok vs /\
  Forall2 (fun t v => (t <= 0 -> v = e 0) /\
  (INR N / fs <= t -> v = e (INR N / fs)) /\
  (forall j, (j < N)%nat -> INR j / fs <= t <= INR (S j) / fs ->
     v = e (INR j / fs) + (t * fs - INR j) * (e (INR (S j) / fs) - e (INR j / fs)))) l vs.
Proof.
  intros fs e N l Hf. induction l as [|t l (vs & E & F)]; [exists []; split; [reflexivity|constructor]|].
  destruct (interp_grid fs e N t Hf) as (v & Ev & Hv). exists (v :: vs). split; [|constructor; assumption].
  cbn [mapM]. rewrite Ev. cbn [bind]. rewrite E. reflexivity.
Qed.

Lemma positive_max : forall ts, (exists t, In t ts /\ 0 < t) ->
  exists m, amax ts = Ok m /\ In m ts /\ 0 < m /\ forall t, In t ts -> t <= m.
Proof.
  intros ts (t & It & Pt). destruct (amax_ok ts) as (m & E & I & M); [intros ->; destruct It|].
  exists m. repeat split; auto. specialize (M t It). lra.
Qed.

Lemma residual_run : forall fs t a p, 0 < fs -> (exists s, In s (time_list t) /\ 0 < s) ->
  exists m N vs, In m (time_list t) /\ (forall s, In s (time_list t) -> s <= m) /\
  INR N / fs < m <= INR (S N) / fs /\
  Forall2 (fun t v => (t <= 0 -> v = beat_env p 0) /\
  (INR N / fs <= t -> v = beat_env p (INR N / fs)) /\
  (forall j, (j < N)%nat -> INR j / fs <= t <= INR (S j) / fs ->
     v = beat_env p (INR j / fs) + (t * fs - INR j) * (beat_env p (INR (S j) / fs) - beat_env p (INR j / fs)))) (time_list t) vs /\
  beat_residual fs t a p = compare Rminus t (map db2a a) vs.
Proof.
  intros fs t a p Hf Hp. destruct (positive_max _ Hp) as (m & E & I & Pm & M).
  destruct (axis_size fs m Hf Pm) as (N & EN & HN).
  destruct (interp_all fs (beat_env p) N (time_list t) Hf) as (vs & Ev & Fv).
  exists m, N, vs. do 4 (split; [assumption|]). unfold beat_residual. rewrite E. cbn [bind]. cbv zeta. rewrite EN, am_values.
  cbn [bind]. rewrite Ev. reflexivity.
Qed.

Lemma Forall2_nth : forall A B (P : A -> B -> Prop) l l' d d' i, Forall2 P l l' -> (i < List.length l)%nat ->
  P (nth i l d) (nth i l' d').
Proof.
  intros A B P l l' d d' i H. revert i. induction H; intros i Hi; [simpl in Hi; lia|].
  destruct i; [exact H|]. apply IHForall2. simpl in Hi. lia.
Qed.
Lemma map2_minus_nth : forall l l' i, List.length l = List.length l' -> (i < List.length l)%nat ->
  nth i (map2 Rminus l l') 0 = nth i l 0 - nth i l' 0.
Proof.
  intros l l' i. unfold map2. revert l' i. induction l as [|a l IH]; intros [|b l'] i L Hi; simpl in *; try lia.
  destruct i; [reflexivity|]. apply IH; lia.
Qed.

(** For a track with a positive time: one value for each sample, the amplitude
    of the sample minus an interpolation of the envelope of the beat between
    the multiples of the sampling period, of which the last is before the
    latest time. *)
Theorem c84_residual : forall fs ts a p, 0 < fs -> List.length a = List.length ts ->
  (exists t, In t ts /\ 0 < t) ->
  exists r N, beat_residual fs (Flat ts) a p = Ok r /\ List.length r = List.length ts /\
    (exists t, In t ts /\ INR N / fs < t) /\ (forall t, In t ts -> t <= INR (S N) / fs) /\
    forall i, (i < List.length ts)%nat ->
      let t := nth i ts 0 in
      let est := amplitude (nth i a 0) - nth i r 0 in
      (t <= 0 -> est = beat_env p 0) /\
      (INR N / fs <= t -> est = beat_env p (INR N / fs)) /\
      (forall j, (j < N)%nat -> INR j / fs <= t <= INR (S j) / fs ->
         est = beat_env p (INR j / fs) +
               (t * fs - INR j) * (beat_env p (INR (S j) / fs) - beat_env p (INR j / fs))).
Proof.
  intros fs ts a p Hf La Hp. destruct (residual_run fs (Flat ts) a p Hf Hp) as (m & N & vs & I & M & HN & F & E).
  cbn [time_list] in *. pose proof (Forall2_length' _ _ _ _ _ F) as L. rewrite E. cbn [compare].
  rewrite map_length, La, L, Nat.eqb_refl. exists (map2 Rminus (map db2a a) vs), N. split; [reflexivity|].
  assert (LL : List.length (map2 Rminus (map db2a a) vs) = List.length vs)
    by (unfold map2; rewrite map_length, combine_length, map_length; lia).
  split; [exact LL|]. split; [exists m; split; [exact I|lra]|]. split; [intros t Ht; specialize (M t Ht); lra|].
  intros i Hi. cbv zeta.
  assert (EE : amplitude (nth i a 0) - nth i (map2 Rminus (map db2a a) vs) 0 = nth i vs 0).
  { rewrite map2_minus_nth by (rewrite map_length; lia). rewrite (nth_map_lt _ _ _ 0 0) by lia.
    unfold amplitude, db2a. ring. }
  rewrite EE. exact (Forall2_nth _ _ _ _ _ 0 0 i F ltac:(lia)).
Qed.
Print Assumptions c84_residual.

(** Samples at multiples of the sampling period, other than the latest ones, are
    compared with the envelope at their time. *)
Theorem c84_on_grid : forall fs ts a p i k, 0 < fs -> List.length a = List.length ts ->
  (i < List.length ts)%nat -> nth i ts 0 = INR k / fs -> (exists t, In t ts /\ nth i ts 0 < t) ->
  exists r, beat_residual fs (Flat ts) a p = Ok r /\
    nth i r 0 = amplitude (nth i a 0) - beat_env p (nth i ts 0).
Proof.
  intros fs ts a p i k Hf La Hi Ek (s & Is & Hs).
  assert (P0 : 0 <= INR k / fs) by (apply Rmult_le_pos; [apply pos_INR|apply Rlt_le, Rinv_0_lt_compat, Hf]).
  destruct (c84_residual fs ts a p Hf La) as (r & N & E & Lr & _ & M & H); [exists s; split; [exact Is|lra]|].
  exists r. split; [exact E|]. specialize (H i Hi). cbv zeta in H. destruct H as (_ & H2 & H3).
  assert (HkN : (k <= N)%nat).
  { specialize (M s Is). assert (INR k / fs < INR (S N) / fs) as A by lra.
    apply (Rmult_lt_compat_r fs) in A; [|exact Hf]. unfold Rdiv in A. rewrite !Rmult_assoc, Rinv_l, !Rmult_1_r in A by lra.
    apply INR_lt in A. lia. }
  destruct (Nat.eq_dec k N) as [->|Hne].
  - rewrite Ek in *. specialize (H2 ltac:(lra)). lra.
  - specialize (H3 k ltac:(lia)). rewrite Ek in *.
    assert (INR k / fs <= INR (S k) / fs).
    { apply Rmult_le_compat_r; [apply Rlt_le, Rinv_0_lt_compat, Hf|]. apply le_INR. lia. }
    specialize (H3 ltac:(lra)). replace (INR k / fs * fs - INR k) with 0 in H3 by (field; lra). lra.
Qed.
Print Assumptions c84_on_grid.

(** In general: up to the variation of the envelope within one sampling period. *)
Theorem c84_close : forall fs ts a p L, 0 < fs -> List.length a = List.length ts ->
  (exists t, In t ts /\ 0 < t) ->
  (forall s s', 0 <= s -> 0 <= s' -> Rabs (beat_env p s - beat_env p s') <= L * Rabs (s - s')) ->
  exists r, beat_residual fs (Flat ts) a p = Ok r /\
    forall i, (i < List.length ts)%nat -> 0 <= nth i ts 0 ->
      Rabs (nth i r 0 - (amplitude (nth i a 0) - beat_env p (nth i ts 0))) <= L / fs.
Proof.
  intros fs ts a p L Hf La Hp HL.
  destruct (c84_residual fs ts a p Hf La Hp) as (r & N & E & Lr & _ & M & H). exists r. split; [exact E|].
  intros i Hi P. specialize (H i Hi). cbv zeta in H. destruct H as (_ & H2 & H3). set (t := nth i ts 0) in *.
  assert (Mt : t <= INR (S N) / fs) by (apply M, nth_In, Hi).
  assert (PI' : forall j, 0 <= INR j / fs)
    by (intros j; apply Rmult_le_pos; [apply pos_INR|apply Rlt_le, Rinv_0_lt_compat, Hf]).
  assert (Sj : forall j, INR (S j) / fs = INR j / fs + / fs) by (intros j; rewrite S_INR; field; lra).
  assert (L0 : 0 <= L).
  { specialize (HL 0 1 ltac:(lra) ltac:(lra)). pose proof (Rabs_pos (beat_env p 0 - beat_env p 1)).
    rewrite (Rabs_left (0 - 1)) in HL by lra. lra. }
  assert (F0 : 0 < / fs) by (apply Rinv_0_lt_compat, Hf).
  destruct (Rle_lt_dec (INR N / fs) t) as [G|G].
  - specialize (H2 G). replace (nth i r 0 - (amplitude (nth i a 0) - beat_env p t)) with (beat_env p t - beat_env p (INR N / fs)) by lra.
    eapply Rle_trans; [apply HL; [exact P|apply PI']|]. rewrite Rabs_right by lra.
    unfold Rdiv. apply Rmult_le_compat_l; [exact L0|]. specialize (Sj N). unfold Rdiv in *. lra.
  - assert (exists j, (j < N)%nat /\ INR j / fs <= t <= INR (S j) / fs) as (j & Hj & Ht).
    { clear - G P Sj F0. induction N as [|N IH].
      - simpl in G. unfold Rdiv in G. rewrite Rmult_0_l in G. lra.
      - destruct (Rle_lt_dec (INR N / fs) t) as [G'|G'].
        + exists N. split; [lia|]. lra.
        + destruct (IH G') as (j & Hj & Ht). exists j. split; [lia|exact Ht]. }
    specialize (H3 j Hj Ht). set (g := t * fs - INR j) in *.
    assert (Eg : t - INR j / fs = g * / fs) by (unfold g; field; lra).
    assert (Hg : 0 <= g <= 1).
    { rewrite Sj in Ht. split; (apply (Rmult_le_reg_r (/ fs)); [exact F0|]); lra. }
    set (u := beat_env p (INR j / fs)) in *. set (v := beat_env p (INR (S j) / fs)) in *.
    replace (nth i r 0 - (amplitude (nth i a 0) - beat_env p t))
      with ((1 - g) * (beat_env p t - u) + g * (beat_env p t - v)) by lra.
    assert (B1 : Rabs (beat_env p t - u) <= L / fs).
    { eapply Rle_trans; [apply HL; [exact P|apply PI']|]. rewrite Rabs_right by lra.
      apply Rmult_le_compat_l; [exact L0|]. rewrite Sj in Ht. lra. }
    assert (B2 : Rabs (beat_env p t - v) <= L / fs).
    { eapply Rle_trans; [apply HL; [exact P|apply PI']|]. rewrite Rabs_left1 by lra.
      apply Rmult_le_compat_l; [exact L0|]. rewrite Sj in *. lra. }
    eapply Rle_trans; [apply Rabs_triang|]. rewrite !Rabs_mult, (Rabs_right (1 - g)), (Rabs_right g) by lra. nra.
Qed.
Print Assumptions c84_close.

(** One decaying partial, and levels. *)
Definition one_decay : params := mkParams 1 0 0 0 1 1 0 0.
Lemma one_decay_env : forall t, beat_env one_decay t = exp (- 2 * t).
Proof.
  intros t. unfold beat_env, beat_re, beat_im, one_decay. cbn [q_a0 q_a1 q_f0 q_f1 q_d0 q_d1 q_p0 q_p1].
  replace (2 * PI * 0 * t + 0) with 0 by ring. rewrite sin_0, cos_0.
  replace (- 2 * t / 1) with (- 2 * t) by field.
  match goal with |- sqrt ?x = _ => replace x with (exp (- 2 * t) * exp (- 2 * t)) by ring end.
  apply sqrt_square, Rlt_le, exp_pos.
Qed.
Definition level (v : R) : R := 20 * (ln v / ln 10).
Lemma amplitude_level : forall v, 0 < v -> amplitude (level v) = v.
Proof.
  intros v Hv. unfold amplitude, level, Rpower. replace (20 * (ln v / ln 10) / 20 * ln 10) with (ln v).
  - apply exp_ln, Hv.
  - field. pose proof ln10_pos. lra.
Qed.

(** Not at the latest time: it is compared with an earlier value of the
    envelope, so that the true parameters have a residual. *)
Theorem c84_latest_refuted : exists fs ts a p r, 0 < fs /\
  Forall2 (fun t d => amplitude d = beat_env p t) ts a /\
  Forall (fun t => exists k, t = INR k / fs) ts /\
  beat_residual fs (Flat ts) a p = Ok r /\ nth 0 r 0 = 0 /\ nth 1 r 0 <> 0.
Proof.
  set (p := one_decay). pose proof one_decay_env as Ep. pose proof amplitude_level as EA. fold p in Ep.
  set (a := [level (exp (- 2 * 0)); level (exp (- 2 * 1))]).
  exists 1, [0; 1], a, p.
  destruct (c84_residual 1 [0; 1] a p ltac:(lra) eq_refl) as (r & N & E & Lr & (t & It & Ht) & M & H).
  { exists 1. split; [simpl; auto|lra]. }
  exists r. split; [lra|]. split; [|split; [|split; [exact E|]]].
  - repeat constructor; rewrite Ep; apply EA, exp_pos.
  - constructor; [|constructor; [|constructor]].
    + exists 0%nat. simpl. field.
    + exists 1%nat. simpl. field.
  - assert (N = 0)%nat.
    { assert (INR N < 1) as A by (destruct It as [<-|[<-|[]]]; pose proof (pos_INR N); lra).
      change 1 with (INR 1) in A. apply INR_lt in A. lia. }
    subst N. destruct (H 0%nat ltac:(simpl; lia)) as (H0 & _). destruct (H 1%nat ltac:(simpl; lia)) as (_ & H1 & _).
    cbn [nth a] in H0, H1. specialize (H0 ltac:(lra)). simpl INR in H1. specialize (H1 ltac:(lra)).
    rewrite EA, Ep in H0, H1 by apply exp_pos. replace (- 2 * (0 / 1)) with 0 in H1 by field. rewrite exp_0 in H1.
    split; [lra|]. intros Z. rewrite Z in H1. assert (exp (- 2 * 1) < exp 0) by (apply exp_increasing; lra).
    rewrite exp_0 in *. lra.
Qed.
Print Assumptions c84_latest_refuted.

(** Tracks without positive times, and amplitudes and times of different number,
    raise ValueError. *)
Theorem c84_errors : forall fs ts a p, 0 < fs ->
  ((forall t, In t ts -> t <= 0) -> beat_residual fs (Flat ts) a p = Err ValueError) /\
  (List.length a <> List.length ts -> beat_residual fs (Flat ts) a p = Err ValueError).
Proof.
  intros fs ts a p Hf.
  assert (Hneg : (forall t, In t ts -> t <= 0) -> beat_residual fs (Flat ts) a p = Err ValueError).
  { intros H. unfold beat_residual. cbn [time_list]. destruct ts as [|t ts]; [reflexivity|].
    destruct (amax_ok (t :: ts)) as (m & E & I & _); [discriminate|]. rewrite E. cbn [bind]. cbv zeta.
    assert (model_axis fs m = []) as ->.
    { unfold model_axis. specialize (H m I). pose proof (Rceil_spec (m * fs)) as C.
      assert (IZR (Rceil (m * fs)) < 1) as A by nra. apply lt_IZR in A.
      replace (Z.to_nat (Rceil (m * fs))) with 0%nat by lia. reflexivity. }
    rewrite am_values. cbn [bind map mapM interp]. reflexivity. }
  split; [exact Hneg|]. intros L.
  assert (D : (exists t, In t ts /\ 0 < t) \/ forall t, In t ts -> t <= 0).
  { clear. induction ts as [|t ts [(s & Is & Ps)|IH]].
    - right. intros t [].
    - left. exists s. simpl. auto.
    - destruct (Rlt_dec 0 t) as [P|P]; [left; exists t; simpl; auto|].
      right. intros s [<-|Hs]; [lra|auto]. }
  destruct D as [D|D]; [|apply Hneg, D].
  destruct (residual_run fs (Flat ts) a p Hf D) as (m & N & vs & _ & _ & _ & F & E). cbn [time_list] in F.
  apply Forall2_length' in F. rewrite E. cbn [compare]. rewrite map_length.
  destruct (Nat.eqb_spec (List.length a) (List.length vs)); [congruence|reflexivity].
Qed.
Print Assumptions c84_errors.

(** The documentation asks for a column of times.  The residuals are then those
    of every sample at every time. *)
Theorem c84_column : forall fs ts a p, 0 < fs -> List.length a = List.length ts ->
  (exists t, In t ts /\ 0 < t) ->
  exists r r2, beat_residual fs (Flat ts) a p = Ok r /\ beat_residual fs (Column ts) a p = Ok r2 /\
    List.length r2 = (List.length ts * List.length ts)%nat /\
    forall i j, (i < List.length ts)%nat -> (j < List.length ts)%nat ->
      nth (i * List.length ts + j) r2 0 = amplitude (nth j a 0) - (amplitude (nth i a 0) - nth i r 0).
Proof.
  intros fs ts a p Hf La Hp. destruct (positive_max _ Hp) as (m & E & I & Pm & M).
  destruct (axis_size fs m Hf Pm) as (N & EN & HN).
  destruct (interp_all fs (beat_env p) N ts Hf) as (vs & Ev & Fv). apply Forall2_length' in Fv.
  exists (map2 Rminus (map db2a a) vs), (flat_map (fun e => map (fun d => d - e) (map db2a a)) vs).
  unfold beat_residual. cbn [time_list]. rewrite E. cbn [bind]. cbv zeta. rewrite EN, am_values. cbn [bind].
  rewrite Ev. cbn [bind compare]. rewrite map_length, La, Fv, Nat.eqb_refl. split; [reflexivity|]. split; [reflexivity|].
  assert (LF : forall l : list R, List.length (flat_map (fun e => map (fun d => d - e) (map db2a a)) l) = (List.length l * List.length a)%nat).
  { induction l as [|v l IH]; [reflexivity|]. cbn [flat_map List.length]. rewrite app_length, IH, !map_length. lia. }
  rewrite LF. split; [lia|]. intros i j Hi Hj.
  rewrite map2_minus_nth by (rewrite map_length; lia). rewrite (nth_map_lt _ _ _ 0 0) by lia.
  change (amplitude (nth i a 0)) with (db2a (nth i a 0)).
  replace (amplitude (nth j a 0) - (db2a (nth i a 0) - (db2a (nth i a 0) - nth i vs 0))) with (db2a (nth j a 0) - nth i vs 0)
    by (unfold amplitude, db2a; ring).
  rewrite <- Fv in *. clear Ev. assert (Hi' : (i < List.length vs)%nat) by lia. rewrite <- La in Hj |- *. clear - Hi' Hj LF.
  revert i Hi'. induction vs as [|v vs IH]; intros i Hi; [simpl in Hi; lia|]. cbn [flat_map]. destruct i as [|i].
  - rewrite app_nth1 by (rewrite !map_length; simpl; lia). cbn [Nat.mul Nat.add nth].
    rewrite map_map, (nth_map_lt _ _ _ 0 0) by exact Hj. reflexivity.
  - rewrite app_nth2 by (rewrite !map_length; simpl; lia). rewrite !map_length.
    replace (S i * List.length a + j - List.length a)%nat with (i * List.length a + j)%nat by (simpl; lia).
    cbn [nth]. apply IH. simpl in Hi. lia.
Qed.
Print Assumptions c84_column.

(** So the true parameters of two different samples have a residual. *)
Theorem c84_column_refuted : exists fs ts a p r, 0 < fs /\
  Forall2 (fun t d => amplitude d = beat_env p t) ts a /\
  beat_residual fs (Column ts) a p = Ok r /\ nth 0 r 0 = 0 /\ nth 1 r 0 <> 0.
Proof.
  set (p := one_decay). pose proof one_decay_env as Ep. pose proof amplitude_level as EA. fold p in Ep.
  set (a := [level (exp (- 2 * 0)); level (exp (- 2 * 1))]).
  destruct (c84_column 1 [0; 1] a p ltac:(lra) eq_refl) as (r & r2 & E & E2 & L2 & H).
  { exists 1. split; [simpl; auto|lra]. }
  exists 1, [0; 1], a, p, r2. split; [lra|]. split; [repeat constructor; rewrite Ep; apply EA, exp_pos|].
  split; [exact E2|].
  pose proof (H 0%nat 0%nat ltac:(simpl; lia) ltac:(simpl; lia)) as H00.
  pose proof (H 0%nat 1%nat ltac:(simpl; lia) ltac:(simpl; lia)) as H01.
  destruct (c84_on_grid 1 [0; 1] a p 0 0 ltac:(lra) eq_refl ltac:(simpl; lia)) as (r' & E' & G').
  { simpl. field. } { exists 1. split; [simpl; auto|simpl; lra]. }
  rewrite E in E'. injection E' as <-. cbn [nth a] in *. rewrite EA, Ep in G' by apply exp_pos.
  simpl in H00, H01. rewrite EA in H00 by apply exp_pos. rewrite !EA in H01 by apply exp_pos.
  assert (exp (- 2 * 1) < exp (- 2 * 0)) by (apply exp_increasing; lra).
  split; lra.
Qed.
Print Assumptions c84_column_refuted.

(** A partial with decay of one second meets the hypotheses of [c84_close]. *)
Example c84_example : exists r, beat_residual 4 (Flat [0; 1 / 8; 1]) [0; 0; 0] one_decay = Ok r /\
  forall i, (i < 3)%nat -> Rabs (nth i r 0 - (1 - exp (- 2 * nth i [0; 1 / 8; 1] 0))) <= 1 / 2.
Proof.
  assert (EXP : forall x y, 0 <= x -> x <= y -> 0 <= exp (- 2 * x) - exp (- 2 * y) <= 2 * (y - x)).
  { intros x y Hx Hy. assert (B : exp (- 2 * x) <= 1).
    { rewrite <- exp_0. destruct (Req_dec x 0) as [->|]; [rewrite Rmult_0_r; lra|]. apply Rlt_le, exp_increasing. lra. }
    assert (M : exp (- 2 * y) = exp (- 2 * x) * exp (- (2 * (y - x)))) by (rewrite <- exp_plus; f_equal; ring).
    assert (G : 1 - 2 * (y - x) <= exp (- (2 * (y - x)))).
    { destruct (Req_dec (- (2 * (y - x))) 0) as [E|E]; [rewrite E, exp_0; lra|].
      pose proof (exp_ineq1 _ E). lra. }
    assert (G1 : exp (- (2 * (y - x))) <= 1).
    { rewrite <- exp_0. destruct (Req_dec x y) as [->|]; [replace (- (2 * (y - y))) with 0 by ring; lra|].
      apply Rlt_le, exp_increasing. lra. }
    rewrite M. pose proof (exp_pos (- 2 * x)). nra. }
  destruct (c84_close 4 [0; 1 / 8; 1] [0; 0; 0] one_decay 2) as (r & E & H).
  - lra.
  - reflexivity.
  - exists 1. split; [simpl; auto|lra].
  - intros s s' Hs Hs'. rewrite !one_decay_env. destruct (Rle_lt_dec s s') as [L|L].
    + destruct (EXP s s' Hs L). rewrite Rabs_right, Rabs_left1 by lra. lra.
    + destruct (EXP s' s Hs' ltac:(lra)). rewrite Rabs_left1, Rabs_right by lra. lra.
  - exists r. split; [exact E|]. intros i Hi.
    assert (P : 0 <= nth i [0; 1 / 8; 1] 0) by (destruct i as [|[|[|i]]]; cbn [nth]; try lra; lia).
    specialize (H i Hi P). rewrite one_decay_env in H.
    replace (amplitude (nth i [0; 0; 0] 0)) with 1 in H; [lra|].
    assert (Z : nth i [0; 0; 0] 0 = 0) by (destruct i as [|[|[|i]]]; [reflexivity|reflexivity|reflexivity|lia]).
    rewrite Z. unfold amplitude. replace (0 / 20) with 0 by field. symmetry. apply Rpower_O. lra.
Qed.

(** ** C85 *)

(** Spec of the clipping: between the sorted values, at a fraction of the
    distance from the first to the last; then values that are further from the
    median than half the interquartile range times the factor are moved. *)
Definition is_quantile (l : list R) (q v : R) : Prop :=
  exists s j g, Permutation l s /\ StronglySorted Rle s /\ (j < List.length l)%nat /\ 0 <= g < 1 /\
    INR j + g = q * INR (List.length l - 1) /\
    v = (1 - g) * nth j s 0 + g * nth (Nat.min (S j) (List.length l - 1)) s 0.
Definition clipped_of (c : option R) (l : list R) (l' : list R) : Prop :=
  match c with
  | None => l' = l
  | Some c => exists q1 q2 q3, is_quantile l (1 / 4) q1 /\ is_quantile l (1 / 2) q2 /\ is_quantile l (3 / 4) q3 /\
      let m := c * (q3 - q1) / 2 in
      Forall2 (fun v v' => 0 <= m -> (Rabs (v - q2) <= m -> v' = v) /\ (m < v - q2 -> v' = q2 + m) /\ (m < q2 - v -> v' = q2 - m)) l l'
  end.

Lemma quantile_is : forall l q, l <> [] -> 0 <= q <= 1 -> exists v, quantile l q = Ok v /\ is_quantile l q v.
Proof.
  intros l q Hl Hq. destruct (quantile_spec l q Hl Hq) as (v & E & H). exists v. split; [exact E|].
  assert (Hn : (0 < List.length l)%nat) by (destruct l; [congruence|simpl; lia]).
  destruct (quantile_pos (List.length l) q Hn Hq) as (j & g & Hj & Hg & EE).
  exists (sort l), j, g. split; [apply sort_perm|]. split; [apply sort_sorted|]. do 3 (split; [assumption|]).
  rewrite (H j g Hj Hg EE). destruct (Nat.eqb_spec (S j) (List.length l)) as [L|L].
  - replace (Nat.min (S j) (List.length l - 1)) with j by lia. ring.
  - replace (Nat.min (S j) (List.length l - 1)) with (S j) by lia. ring.
Qed.

Lemma clip_is : forall c l, l <> [] -> exists l', clip_freqs c l = Ok l' /\ clipped_of c l l' /\ List.length l' = List.length l.
Proof.
  intros [c|] l Hl; [|exists l; split; [|split]; reflexivity].
  destruct (quantile_is l (1 / 4) Hl ltac:(lra)) as (q1 & E1 & Q1).
  destruct (quantile_is l (1 / 2) Hl ltac:(lra)) as (q2 & E2 & Q2).
  destruct (quantile_is l (3 / 4) Hl ltac:(lra)) as (q3 & E3 & Q3).
  cbn [clip_freqs]. rewrite E1, E2, E3. cbn [bind]. cbv zeta. eexists. split; [reflexivity|]. split; [|apply map_length].
  exists q1, q2, q3. do 3 (split; [assumption|]). cbv zeta. clear. set (m := c * (q3 - q1) / 2).
  induction l as [|v l IH]; constructor; [|exact IH]. intros Hm. unfold np_clip.
  split; [intros H; apply Rabs_le_between' in H|split; intros H]; unfold Rmin, Rmax; repeat destruct Rle_dec; lra.
Qed.

Lemma compare_flat : forall g ts d e, List.length d = List.length e -> compare g (Flat ts) d e = Ok (map2 g d e).
Proof. intros g ts d e H. cbn [compare]. now rewrite H, Nat.eqb_refl. Qed.
Lemma map2_length : forall (g : R -> R -> R) l l', List.length l = List.length l' -> List.length (map2 g l l') = List.length l.
Proof. intros g l l' H. unfold map2. rewrite map_length, combine_length. lia. Qed.
Lemma map2_nth : forall (g : R -> R -> R) l l' i, List.length l = List.length l' -> (i < List.length l)%nat ->
  nth i (map2 g l l') 0 = g (nth i l 0) (nth i l' 0).
Proof.
  intros g l l' i. unfold map2. revert l' i. induction l as [|a l IH]; intros [|b l'] i L Hi; simpl in *; try lia.
  destruct i; [reflexivity|]. apply IH; lia.
Qed.
Lemma call_mel : forall junk l, call junk hz2mel l = Ok (map mel l).
Proof. intros junk l. rewrite (call_elementwise _ _ _ _ hz2mel_ok). reflexivity. Qed.

(** For times at which the partials do not cancel: the amplitudes minus the
    envelope of the beat, then the weighted mel differences between the
    frequencies and the clipped instantaneous frequencies of the beat. *)
Theorem c85_residual : forall junk w c ts a f p, ts <> [] ->
  List.length a = List.length ts -> List.length f = List.length ts ->
  (forall t, In t ts -> beat_env p t <> 0) ->
  exists r est, dual_residual_fn junk (mkDual None None w c) (Flat ts) a f p = Ok r /\
    clipped_of c (map (fun t => Rabs (beat_freq p t)) ts) est /\
    List.length r = (2 * List.length ts)%nat /\
    forall i, (i < List.length ts)%nat ->
      nth i r 0 = amplitude (nth i a 0) - beat_env p (nth i ts 0) /\
      nth (List.length ts + i) r 0 = w * (mel (Rabs (nth i f 0)) - mel (nth i est 0)).
Proof.
  intros junk w c ts a f p Hts La Lf Hn. unfold dual_residual_fn. cbn [time_list]. cbv zeta.
  rewrite am_values, fm_values by exact Hn. cbn [bind du_amp_loss du_freq_loss du_freq_w du_freq_clip]. unfold amp_loss_of.
  rewrite compare_flat by (rewrite !map_length; exact La). cbn [bind]. rewrite !map_map.
  assert (EF : map (fun x => Rabs (2 * PI * beat_freq p x / (2 * PI))) ts = map (fun t => Rabs (beat_freq p t)) ts).
  { apply map_ext. intros t. f_equal. field. apply PI_neq0. }
  rewrite EF. destruct (clip_is c (map (fun t => Rabs (beat_freq p t)) ts)) as (est & Ec & Hc & Lc).
  { destruct ts; [congruence|discriminate]. }
  rewrite map_length in Lc. rewrite Ec. cbn [bind freq_loss_of]. rewrite !call_mel. cbn [bind].
  rewrite compare_flat by (rewrite !map_length; lia). cbn [bind].
  eexists. exists est. split; [reflexivity|]. split; [exact Hc|].
  assert (L1 : List.length (map2 Rminus (map db2a a) (map (beat_env p) ts)) = List.length ts)
    by (rewrite map2_length; rewrite !map_length; lia).
  assert (L2 : List.length (map2 Rminus (map mel (map Rabs f)) (map mel est)) = List.length ts)
    by (rewrite map2_length; rewrite !map_length; lia).
  rewrite app_length, map_length, L1, L2. split; [lia|]. intros i Hi. split.
  - rewrite app_nth1 by lia. rewrite map2_nth by (rewrite !map_length; lia).
    rewrite !(nth_map_lt _ _ _ 0 0) by lia. reflexivity.
  - rewrite app_nth2 by lia. rewrite L1. replace (List.length ts + i - List.length ts)%nat with i by lia.
    rewrite (nth_map_lt _ _ _ 0 0) by lia. rewrite map2_nth by (rewrite !map_length; lia).
    rewrite !(nth_map_lt _ _ _ 0 0) by (rewrite ?map_length; lia). reflexivity.
Qed.
Print Assumptions c85_residual.

(** With losses of the user (functions of pairs of samples) these compare the same
    amplitudes and, in hertz, the same frequencies. *)
Theorem c85_custom : forall junk g h w c ts a f p, ts <> [] ->
  List.length a = List.length ts -> List.length f = List.length ts ->
  (forall t, In t ts -> beat_env p t <> 0) ->
  exists r est, dual_residual_fn junk (mkDual (Some g) (Some h) w c) (Flat ts) a f p = Ok r /\
    clipped_of c (map (fun t => Rabs (beat_freq p t)) ts) est /\
    List.length r = (2 * List.length ts)%nat /\
    forall i, (i < List.length ts)%nat ->
      nth i r 0 = g (amplitude (nth i a 0)) (beat_env p (nth i ts 0)) /\
      nth (List.length ts + i) r 0 = w * h (Rabs (nth i f 0)) (nth i est 0).
Proof.
  intros junk g h w c ts a f p Hts La Lf Hn. unfold dual_residual_fn. cbn [time_list]. cbv zeta.
  rewrite am_values, fm_values by exact Hn. cbn [bind du_amp_loss du_freq_loss du_freq_w du_freq_clip]. unfold amp_loss_of.
  rewrite compare_flat by (rewrite !map_length; exact La). cbn [bind]. rewrite !map_map.
  assert (EF : map (fun x => Rabs (2 * PI * beat_freq p x / (2 * PI))) ts = map (fun t => Rabs (beat_freq p t)) ts).
  { apply map_ext. intros t. f_equal. field. apply PI_neq0. }
  rewrite EF. destruct (clip_is c (map (fun t => Rabs (beat_freq p t)) ts)) as (est & Ec & Hc & Lc).
  { destruct ts; [congruence|discriminate]. }
  rewrite map_length in Lc. rewrite Ec. cbn [bind freq_loss_of].
  rewrite compare_flat by (rewrite !map_length; lia). cbn [bind].
  eexists. exists est. split; [reflexivity|]. split; [exact Hc|].
  assert (L1 : List.length (map2 g (map db2a a) (map (beat_env p) ts)) = List.length ts)
    by (rewrite map2_length; rewrite !map_length; lia).
  assert (L2 : List.length (map2 h (map Rabs f) est) = List.length ts)
    by (rewrite map2_length; rewrite !map_length; lia).
  rewrite app_length, map_length, L1, L2. split; [lia|]. intros i Hi. split.
  - rewrite app_nth1 by lia. rewrite map2_nth by (rewrite !map_length; lia).
    rewrite !(nth_map_lt _ _ _ 0 0) by lia. reflexivity.
  - rewrite app_nth2 by lia. rewrite L1. replace (List.length ts + i - List.length ts)%nat with i by lia.
    rewrite (nth_map_lt _ _ _ 0 0) by lia. rewrite map2_nth by (rewrite !map_length; lia).
    rewrite !(nth_map_lt _ _ _ 0 0) by (rewrite ?map_length; lia). reflexivity.
Qed.
Print Assumptions c85_custom.

(** The same with losses and clipping that are functions of whole arrays. *)
Theorem c85_arrays : forall al fl w clip ts a f p, (forall t, In t ts -> beat_env p t <> 0) ->
  dual_residual al fl w clip ts a f p =
  Ok (al (map amplitude a) (map (beat_env p) ts)
      ++ map (Rmult w) (fl (map Rabs f) (clip (map (fun t => Rabs (beat_freq p t)) ts)))).
Proof.
  intros al fl w clip ts a f p Hn. unfold dual_residual. rewrite am_values, fm_values by exact Hn.
  cbn [bind]. cbv zeta. rewrite !map_map.
  assert (EF : map (fun x => Rabs (2 * PI * beat_freq p x / (2 * PI))) ts = map (fun t => Rabs (beat_freq p t)) ts).
  { apply map_ext. intros t. f_equal. field. apply PI_neq0. }
  rewrite EF. reflexivity.
Qed.
Print Assumptions c85_arrays.

(** Without clipping, a track that is the beat itself has no residual. *)
Theorem c85_exact : forall junk w ts p, ts <> [] -> (forall t, In t ts -> beat_env p t <> 0) ->
  forall a f, Forall2 (fun t d => amplitude d = beat_env p t) ts a -> Forall2 (fun t v => v = beat_freq p t) ts f ->
  exists r, dual_residual_fn junk (mkDual None None w None) (Flat ts) a f p = Ok r /\ Forall (fun v => v = 0) r.
Proof.
  intros junk w ts p Hts Hn a f Fa Ff. pose proof (Forall2_length' _ _ _ _ _ Fa) as La. pose proof (Forall2_length' _ _ _ _ _ Ff) as Lf.
  destruct (c85_residual junk w None ts a f p Hts ltac:(lia) ltac:(lia) Hn) as (r & est & E & C & L & H).
  exists r. split; [exact E|]. cbn [clipped_of] in C. subst est. apply Forall_forall. intros v Hv.
  apply (In_nth _ _ 0) in Hv. destruct Hv as (k & Hk & <-). destruct (Nat.ltb_spec k (List.length ts)) as [Hlt|Hge].
  - destruct (H k Hlt) as [-> _]. pose proof (Forall2_nth _ _ _ _ _ 0 0 k Fa Hlt) as X. cbv beta in X. lra.
  - destruct (H (k - List.length ts)%nat ltac:(lia)) as [_ X]. replace (List.length ts + (k - List.length ts))%nat with k in X by lia.
    rewrite X. rewrite (nth_map_lt _ _ _ 0 0) by lia. pose proof (Forall2_nth _ _ _ _ _ 0 0 (k - List.length ts)%nat Ff ltac:(lia)) as Y.
    cbv beta in Y. rewrite Y. ring.
Qed.
Print Assumptions c85_exact.

(** A decaying partial meets the hypotheses of [c85_exact]. *)
Example c85_example : forall junk, exists r,
  dual_residual_fn junk (mkDual None None 1 None) (Flat [0; 1 / 8; 1])
    (map (fun t => level (exp (- 2 * t))) [0; 1 / 8; 1]) (map (beat_freq one_decay) [0; 1 / 8; 1]) one_decay = Ok r /\
  Forall (fun v => v = 0) r.
Proof.
  intros junk. apply c85_exact.
  - discriminate.
  - intros t _. rewrite one_decay_env. pose proof (exp_pos (- 2 * t)). lra.
  - generalize [0; 1 / 8; 1]. induction l as [|t l IH]; constructor; [|exact IH]. rewrite one_decay_env.
    apply amplitude_level, exp_pos.
  - generalize [0; 1 / 8; 1]. induction l as [|t l IH]; constructor; [reflexivity|exact IH].
Qed.

(** Clipping moves frequencies towards the median, to a distance of at most [c]
    times half the interquartile range, and from [c = 2] on (the default is 2.5)
    never those between the quartiles. *)
Theorem c85_clip : forall c l, l <> [] -> 0 <= c ->
  exists l' q1 q2 q3, clip_freqs (Some c) l = Ok l' /\
    is_quantile l (1 / 4) q1 /\ is_quantile l (1 / 2) q2 /\ is_quantile l (3 / 4) q3 /\ q1 <= q2 <= q3 /\
    Forall2 (fun v v' => Rabs (v' - q2) <= c * (q3 - q1) / 2 /\
                         (v <= v' <= q2 \/ q2 <= v' <= v) /\
                         (Rabs (v - q2) <= c * (q3 - q1) / 2 -> v' = v) /\
                         (2 <= c -> q1 <= v <= q3 -> v' = v)) l l'.
Proof.
  intros c l Hl Hc.
  destruct (quantile_is l (1 / 4) Hl ltac:(lra)) as (q1 & E1 & Q1).
  destruct (quantile_is l (1 / 2) Hl ltac:(lra)) as (q2 & E2 & Q2).
  destruct (quantile_is l (3 / 4) Hl ltac:(lra)) as (q3 & E3 & Q3).
  pose proof (quantile_mono l (1 / 4) (1 / 2) q1 q2 Hl ltac:(lra) ltac:(lra) ltac:(lra) E1 E2) as M1.
  pose proof (quantile_mono l (1 / 2) (3 / 4) q2 q3 Hl ltac:(lra) ltac:(lra) ltac:(lra) E2 E3) as M2.
  exists (map (np_clip (q2 - c * (q3 - q1) / 2) (q2 + c * (q3 - q1) / 2)) l), q1, q2, q3.
  cbn [clip_freqs]. rewrite E1, E2, E3. cbn [bind]. cbv zeta. split; [reflexivity|]. do 3 (split; [assumption|]). split; [lra|].
  assert (M0 : 0 <= c * (q3 - q1) / 2) by nra.
  assert (C2 : 2 <= c -> q2 - c * (q3 - q1) / 2 <= q1 /\ q3 <= q2 + c * (q3 - q1) / 2) by (intros H; nra).
  clear - M0 M1 M2 C2. set (m := c * (q3 - q1) / 2) in *.
  induction l as [|v l IH]; constructor; [|exact IH]. unfold np_clip.
  split; [|split; [|split]].
  - apply Rabs_le_between'. unfold Rmin, Rmax; repeat destruct Rle_dec; lra.
  - unfold Rmin, Rmax; repeat destruct Rle_dec; lra.
  - intros H. apply Rabs_le_between' in H. unfold Rmin, Rmax; repeat destruct Rle_dec; lra.
  - intros H Hv. specialize (C2 H). unfold Rmin, Rmax; repeat destruct Rle_dec; lra.
Qed.
Print Assumptions c85_clip.

(** Neither residual tells the order of the partials, nor a phase that is common
    to both. *)
Lemma am_formula : forall p ts, n_am (modal_beat p) (Arr ts) =
  Ok (Arr (map (am_f (exp_decay (q_a0 p) (q_d0 p)) (exp_decay (q_a1 p) (q_d1 p))
                     (fun _ => q_f0 p) (fun _ => q_f1 p) (fun _ => q_p0 p) (fun _ => q_p1 p)) ts)).
Proof.
  intros p ts. pose proof (proj1 (c42_modal p)) as W. rewrite (n_am_ok (modal_beat p) ts (wf_fits _ W)). reflexivity.
Qed.
Theorem c85_ambiguous : forall junk r fs t a f p x,
  let swapped := mkParams (q_a1 p) (q_a0 p) (q_f1 p) (q_f0 p) (q_d1 p) (q_d0 p) (q_p1 p) (q_p0 p) in
  let turned := mkParams (q_a0 p) (q_a1 p) (q_f0 p) (q_f1 p) (q_d0 p) (q_d1 p) (q_p0 p + x) (q_p1 p + x) in
  dual_residual_fn junk r t a f swapped = dual_residual_fn junk r t a f p /\
  dual_residual_fn junk r t a f turned = dual_residual_fn junk r t a f p /\
  beat_residual fs t a swapped = beat_residual fs t a p /\
  beat_residual fs t a turned = beat_residual fs t a p.
Proof.
  intros junk r fs t a f p x swapped turned.
  assert (AS : forall ts, n_am (modal_beat swapped) (Arr ts) = n_am (modal_beat p) (Arr ts)).
  { intros ts. rewrite !am_formula. do 2 f_equal. apply map_ext. intros s. unfold am_f, swapped.
    cbn [q_a0 q_a1 q_f0 q_f1 q_d0 q_d1 q_p0 q_p1]. f_equal. f_equal. unfold al, ao, ah.
    replace (th (fun _ => q_f1 p) (fun _ => q_f0 p) (fun _ => q_p1 p) (fun _ => q_p0 p) s)
      with (- th (fun _ => q_f0 p) (fun _ => q_f1 p) (fun _ => q_p0 p) (fun _ => q_p1 p) s) by (unfold th; field).
    rewrite cos_neg. unfold Rsqr. field. }
  assert (AT : forall ts, n_am (modal_beat turned) (Arr ts) = n_am (modal_beat p) (Arr ts)).
  { intros ts. rewrite !am_formula. do 2 f_equal. apply map_ext. intros s. unfold am_f, turned.
    cbn [q_a0 q_a1 q_f0 q_f1 q_d0 q_d1 q_p0 q_p1]. f_equal. f_equal. unfold al.
    replace (th (fun _ => q_f0 p) (fun _ => q_f1 p) (fun _ => q_p0 p + x) (fun _ => q_p1 p + x) s)
      with (th (fun _ => q_f0 p) (fun _ => q_f1 p) (fun _ => q_p0 p) (fun _ => q_p1 p) s) by (unfold th; field). reflexivity. }
  assert (FS : forall ts, n_fm (modal_beat swapped) (Arr ts) = n_fm (modal_beat p) (Arr ts)).
  { intros ts. rewrite !fm_formula. do 2 f_equal. apply map_ext. intros s. unfold fm_f, g_f, swapped.
    cbn [q_a0 q_a1 q_f0 q_f1 q_d0 q_d1 q_p0 q_p1]. unfold al, ao, ah.
    replace (th (fun _ => q_f1 p) (fun _ => q_f0 p) (fun _ => q_p1 p) (fun _ => q_p0 p) s)
      with (- th (fun _ => q_f0 p) (fun _ => q_f1 p) (fun _ => q_p0 p) (fun _ => q_p1 p) s) by (unfold th; field).
    set (v := th (fun _ => q_f0 p) (fun _ => q_f1 p) (fun _ => q_p0 p) (fun _ => q_p1 p) s).
    rewrite cos_neg. replace (- v * 2) with (- (v * 2)) by ring. rewrite sin_neg.
    set (A := exp_decay (q_a0 p) (q_d0 p) s). set (B := exp_decay (q_a1 p) (q_d1 p) s).
    replace ((((B + A) / 2)² - ((B - A) / 2)²) * (cos v)² + ((B - A) / 2)²)
      with ((((A + B) / 2)² - ((A - B) / 2)²) * (cos v)² + ((A - B) / 2)²) by (unfold Rsqr; field).
    apply (f_equal2 Rplus); [apply (f_equal2 Rdiv); [field|reflexivity]|field]. }
  assert (FT : forall ts, n_fm (modal_beat turned) (Arr ts) = n_fm (modal_beat p) (Arr ts)).
  { intros ts. rewrite !fm_formula. do 2 f_equal. apply map_ext. intros s. unfold fm_f, g_f, al, turned.
    cbn [q_a0 q_a1 q_f0 q_f1 q_d0 q_d1 q_p0 q_p1].
    replace (th (fun _ => q_f0 p) (fun _ => q_f1 p) (fun _ => q_p0 p + x) (fun _ => q_p1 p + x) s)
      with (th (fun _ => q_f0 p) (fun _ => q_f1 p) (fun _ => q_p0 p) (fun _ => q_p1 p) s) by (unfold th; field). reflexivity. }
  unfold dual_residual_fn, beat_residual. rewrite AS, FS, AT, FT.
  split; [reflexivity|]. split; [reflexivity|].
  split; destruct (amax (time_list t)) as [m|]; [|reflexivity| |reflexivity]; cbn [bind]; cbv zeta; rewrite ?AS, ?AT; reflexivity.
Qed.
Print Assumptions c85_ambiguous.

(** With the default clipping even the beat itself has a residual: the
    instantaneous frequency leaves the clipped range where the partials nearly
    cancel. *)
Theorem c85_clip_refuted : forall junk, exists ts a f p r,
  ts <> [] /\ (forall t, In t ts -> beat_env p t <> 0) /\
  Forall2 (fun t d => amplitude d = beat_env p t) ts a /\ Forall2 (fun t v => v = beat_freq p t) ts f /\
  dual_residual_fn junk dual_default (Flat ts) a f p = Ok r /\ Exists (fun v => v <> 0) r.
Proof.
  intros junk. set (p := mkParams 3 1 101 99 1 1 0 0). set (ts := [0; 1 / 2; 1; 3 / 2; 7 / 4]).
  set (A := fun t => exp (- 2 * t)).
  assert (EA : forall t, 0 < A t) by (intros; apply exp_pos).
  assert (EL : forall t, beat_env p t = 2 * (A t * sqrt (3 * Rsqr (cos (2 * PI * t)) + 1))).
  { intros t. pose proof (am_values p [t]) as H. rewrite am_formula in H. cbn [map] in H. injection H as H. rewrite <- H.
    unfold am_f, al, ao, ah, p. cbn [q_a0 q_a1 q_f0 q_f1 q_d0 q_d1 q_p0 q_p1]. unfold exp_decay, exp_decay_k.
    replace (- 2 / 1 * t) with (- 2 * t) by field. fold (A t).
    replace (th (fun _ => 101) (fun _ => 99) (fun _ => 0) (fun _ => 0) t) with (2 * PI * t) by (unfold th; field).
    replace ((((3 * A t + 1 * A t) / 2)² - ((3 * A t - 1 * A t) / 2)²) * (cos (2 * PI * t))² + ((3 * A t - 1 * A t) / 2)²)
      with ((A t * A t) * (3 * (cos (2 * PI * t))² + 1)) by (unfold Rsqr; field).
    rewrite sqrt_mult.
    - rewrite sqrt_square by (apply Rlt_le, EA). ring.
    - pose proof (EA t). nra.
    - pose proof (Rle_0_sqr (cos (2 * PI * t))). lra. }
  assert (EN : forall t, beat_env p t <> 0).
  { intros t. rewrite EL. pose proof (EA t). pose proof (Rle_0_sqr (cos (2 * PI * t))).
    assert (0 < sqrt (3 * (cos (2 * PI * t))² + 1)) by (apply sqrt_lt_R0; lra). nra. }
  assert (EF : forall t, beat_freq p t = 100 + 2 / (3 * Rsqr (cos (2 * PI * t)) + 1)).
  { intros t. pose proof (fm_values p [t] ltac:(intros; apply EN)) as H. rewrite fm_formula in H. cbn [map] in H. injection H as H.
    apply (Rmult_eq_reg_l (2 * PI)); [|pose proof PI_neq0; nra]. rewrite <- H.
    unfold fm_f, g_f, al, ao, ah, p. cbn [q_a0 q_a1 q_f0 q_f1 q_d0 q_d1 q_p0 q_p1]. unfold exp_decay_dt, exp_decay, exp_decay_k.
    replace (- 2 / 1 * t) with (- 2 * t) by field. fold (A t).
    replace (th (fun _ => 101) (fun _ => 99) (fun _ => 0) (fun _ => 0) t) with (2 * PI * t) by (unfold th; field).
    pose proof (Rle_0_sqr (cos (2 * PI * t))) as C. pose proof (EA t) as Pt.
    replace ((((3 * A t + 1 * A t) / 2)² - ((3 * A t - 1 * A t) / 2)²) * (cos (2 * PI * t))² + ((3 * A t - 1 * A t) / 2)²)
      with ((A t * A t) * (3 * (cos (2 * PI * t))² + 1)) by (unfold Rsqr; field).
    field. split; [lra|]. apply Rgt_not_eq. nra. }
  assert (C1 : forall t, (exists k, 2 * PI * t = IZR k * PI) -> Rsqr (cos (2 * PI * t)) = 1).
  { intros t (k & ->). pose proof (sin_eq_0_1 (IZR k * PI) (ex_intro _ k eq_refl)) as S.
    pose proof (sin2_cos2 (IZR k * PI)) as Q. rewrite S in Q. unfold Rsqr in *. lra. }
  assert (F0 : beat_freq p 0 = 201 / 2) by (rewrite EF, C1; [field|exists 0%Z; ring]).
  assert (F1 : beat_freq p (1 / 2) = 201 / 2) by (rewrite EF, C1; [field|exists 1%Z; field]).
  assert (F2 : beat_freq p 1 = 201 / 2) by (rewrite EF, C1; [field|exists 2%Z; ring]).
  assert (F3 : beat_freq p (3 / 2) = 201 / 2) by (rewrite EF, C1; [field|exists 3%Z; field]).
  assert (F4 : beat_freq p (7 / 4) = 102).
  { rewrite EF. replace (2 * PI * (7 / 4)) with (PI / 2 + 2 * PI + PI) by field.
    rewrite neg_cos, <- (cos_period _ 1). simpl INR. replace (PI / 2 + 2 * PI + 2 * 1 * PI) with (PI / 2 + 2 * INR 2 * PI) by (simpl; ring).
    rewrite cos_period, cos_PI2. unfold Rsqr. field. }
  exists ts, (map (fun t => level (beat_env p t)) ts), (map (beat_freq p) ts), p.
  unfold dual_residual_fn. cbn [time_list]. cbv zeta. rewrite am_values, fm_values by (intros; apply EN).
  cbn [bind dual_default du_amp_loss du_freq_loss du_freq_w du_freq_clip]. unfold amp_loss_of.
  rewrite compare_flat by (rewrite !map_length; reflexivity). cbn [bind]. rewrite (map_map _ Rabs), (map_map _ (fun x => Rabs _)), (map_map _ Rabs).
  assert (EE : map (fun x => Rabs (2 * PI * beat_freq p x / (2 * PI))) ts = [201 / 2; 201 / 2; 201 / 2; 201 / 2; 102]).
  { transitivity (map (fun t => Rabs (beat_freq p t)) ts).
    - apply map_ext. intros t. f_equal. field. apply PI_neq0.
    - unfold ts. cbn [map]. rewrite F0, F1, F2, F3, F4, !Rabs_right by lra. reflexivity. }
  rewrite EE.
  set (l := [201 / 2; 201 / 2; 201 / 2; 201 / 2; 102]).
  assert (SL : sort l = l).
  { unfold l, sort. cbn [fold_right insert].
    repeat (destruct (Rle_dec _ _); [|exfalso; lra]; cbn [insert]). reflexivity. }
  assert (Q : forall q j, (j < 4)%nat -> INR j = q * 4 -> 0 <= q <= 1 -> quantile l q = Ok (201 / 2)).
  { intros q j Hj Eq Hq. destruct (quantile_spec l q ltac:(discriminate) Hq) as (v & E & H). rewrite E. f_equal.
    rewrite (H j 0); [|simpl; lia|lra|simpl List.length; simpl Nat.sub; rewrite Eq; simpl INR; ring].
    rewrite SL. replace (Nat.eqb (S j) (List.length l)) with false by (symmetry; apply Nat.eqb_neq; simpl; lia).
    destruct j as [|[|[|[|j]]]]; try lia; unfold l; cbn [nth]; ring. }
  cbn [clip_freqs]. rewrite (Q (1 / 4) 1%nat), (Q (1 / 2) 2%nat), (Q (3 / 4) 3%nat) by (try lia; try (simpl; lra); lra).
  cbn [bind]. cbv zeta. cbn [freq_loss_of]. rewrite !call_mel. cbn [bind].
  rewrite compare_flat by (rewrite !map_length; reflexivity). cbn [bind]. eexists.
  split; [discriminate|]. split; [intros; apply EN|]. split; [|split; [|split; [reflexivity|]]].
  - clear - EL EN. induction ts as [|t ts IH]; constructor; [|exact IH]. apply amplitude_level.
    specialize (EN t). assert (0 <= beat_env p t) by apply sqrt_pos. lra.
  - clear. induction ts as [|t ts IH]; constructor; [reflexivity|exact IH].
  - apply Exists_exists. exists (1 / 3800 * (mel 102 - mel (201 / 2))). split.
    + apply in_or_app. right. unfold ts, l, map2. cbn [map combine fst snd]. do 4 right. left. f_equal. f_equal.
      * rewrite F4, Rabs_right by lra. reflexivity.
      * f_equal. unfold np_clip. unfold Rmin, Rmax. repeat destruct Rle_dec; lra.
    + assert (mel (201 / 2) < mel 102); [|lra]. unfold mel. pose proof ln10_pos.
      assert (ln (1 + 201 / 2 / 700) < ln (1 + 102 / 700)) by (apply ln_increasing; lra).
      apply Rmult_lt_compat_l; [lra|]. apply Rmult_lt_compat_r; [apply Rinv_0_lt_compat; lra|assumption].
Qed.
Print Assumptions c85_clip_refuted.
