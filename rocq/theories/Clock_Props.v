(** C107: the time axis of a track and the hinge function in double precision. *)
From Coq Require Import String ZArith Reals Lra Lia Bool List Sorted.
From Flocq Require Import Core IEEE754.BinarySingleNaN.
Import ListNotations.
From Verif Require Import Base ListLemmas Double_Model Double_Float Peak_Model Peak_Round Peak_Accuracy
  Peak_Proofs Peak_Props Sample_Model Clock_Model Clock_Proofs.
Local Open Scope R_scope.

(** ** Times *)

(** The settings: a sampling rate between [2^-500] and [2^500]; hop size,
    window size, length of the signal and number of frames up to [2^40]. *)
Definition ordinary (c : fcfg) (nx start : Z) (mag : list f64_num) : Prop :=
  ordinary_rate (fc_fs c) /\ (1 <= fc_h c <= 2 ^ 40)%Z /\ (1 <= fc_wsize c <= 2 ^ 40)%Z /\
  (0 <= nx <= 2 ^ 40)%Z /\ (0 <= start)%Z /\ (start + Z.of_nat (List.length mag) <= 2 ^ 40)%Z.

(** The time of the frame [i] of a track, in seconds: the frame begins at
    [start + i] hops; if frames are not padded, half a window is added; if the
    signal was analysed backwards, time runs from its end. *)
Definition forward_time (c : fcfg) (start : Z) (i : nat) : R :=
  (INR i + IZR start) * IZR (fc_h c) / val (fc_fs c) +
  (if fc_padded c then 0 else IZR (fc_wsize c) / 2 / val (fc_fs c)).
Definition true_time (c : fcfg) (nx start : Z) (i : nat) : R :=
  if fc_rev c then IZR nx / val (fc_fs c) - forward_time c start i else forward_time c start i.
(** The greatest number that the time is computed from. *)
Definition reach (c : fcfg) (nx start : Z) (i : nat) : R :=
  forward_time c start i + (if fc_rev c then IZR nx / val (fc_fs c) else 0).

(** The time axis has one finite number for each frame whose magnitude is not
    NaN, in their order; it is the time of that frame, up to [2^-50] of the
    numbers it is computed from. *)
Theorem c107_times : forall c nx start mag, ordinary c nx start mag ->
  exists ts, f_time_axis c nx start mag = Ok ts /\
    Forall2 (fun i t => finite t /\
               Rabs (val t - true_time c nx start i) <= bpow radix2 (-50) * reach c nx start i)
      (filter (fun i => negb (@is_nan 53 1024 (nth i mag B754_nan))) (seq 0 (List.length mag))) ts.
Proof.
  intros [fs h w padded rev] nx start mag ([F B] & Hh & Hw & Hx & Hs & Hl).
  cbn [fc_fs fc_h fc_wsize] in *. rewrite f_time_axis_map by assumption. eexists. split; [reflexivity|].
  fold (kept mag).
  assert (K : Forall (fun i => (i < List.length mag)%nat) (kept mag)).
  { apply Forall_forall. intros i Hi. apply filter_In in Hi. destruct Hi as [Hi _].
    apply in_seq in Hi. unfold f64_num in *. lia. }
  induction K as [|i l Hi K IH]; cbn [map]; constructor; [|exact IH].
  destruct (int_val (Z.of_nat i)) as [Fi Vi]; [unfold f64_num in *; lia|].
  destruct (int_val start) as [Fs Vs]; [lia|].
  destruct (fadd_val _ _ Fi Fs) as [Fa Va].
  { rewrite Vi, Vs, <- plus_IZR, <- abs_IZR. apply Rle_trans with (bpow radix2 41).
    - apply IZR_le_bpow; unfold f64_num in *; lia.
    - apply bpow_le. lia. }
  assert (FI : fmt (IZR (Z.of_nat i + start))).
  { replace (IZR (Z.of_nat i + start)) with (IZR (Z.of_nat i + start) * bpow radix2 0) by (cbn [bpow]; ring).
    apply fmt_scaled; unfold f64_num in *; lia. }
  rewrite Vi, Vs, <- plus_IZR, rnd_id in Va by exact FI.
  destruct (time1_ok fs h w nx F B Hh Hw Hx padded rev _ (Z.of_nat i + start)%Z
              ltac:(unfold f64_num in *; lia) Fa Va) as [Ft Et].
  split; [exact Ft|]. unfold true_time, reach, forward_time. cbn [fc_fs fc_h fc_wsize fc_padded fc_rev].
  rewrite plus_IZR, <- INR_IZR_INZ in Et. exact Et.
Qed.
Print Assumptions c107_times.

(** Times are in strict order: no two samples of a track get the same time,
    whatever is rounded; they increase, or decrease if the signal was analysed
    backwards. *)
Theorem c107_times_ordered : forall c nx start mag ts, ordinary c nx start mag ->
  f_time_axis c nx start mag = Ok ts ->
  StronglySorted (fun s t => if fc_rev c then val t < val s else val s < val t) ts.
Proof.
  intros c nx start mag ts O E. destruct (c107_times c nx start mag O) as (ts' & E' & F2).
  rewrite E in E'. injection E' as <-.
  destruct O as ([F B] & Hh & Hw & Hx & Hs & Hl).
  pose proof (bpow_gt_0 radix2 (-500)) as P500.
  assert (FP : 0 < val (fc_fs c)) by lra.
  assert (IP : 0 < / val (fc_fs c)) by now apply Rinv_0_lt_compat.
  assert (H1 : 1 <= IZR (fc_h c)) by (apply IZR_le; lia).
  assert (W1 : 1 <= IZR (fc_wsize c)) by (apply IZR_le; lia).
  assert (W2 : IZR (fc_wsize c) <= bpow radix2 40) by (apply IZR_le_bpow; lia).
  assert (X1 : 0 <= IZR nx) by (apply IZR_le; lia).
  assert (X2 : IZR nx <= bpow radix2 40) by (apply IZR_le_bpow; lia).
  set (step := IZR (fc_h c) / val (fc_fs c)).
  assert (SP : 0 < step) by (apply Rmult_lt_0_compat; lra).
  assert (S1 : / val (fc_fs c) <= step).
  { unfold step, Rdiv. rewrite <- (Rmult_1_l (/ val (fc_fs c))) at 1. apply Rmult_le_compat_r; lra. }
  assert (R1 : forall i, (i < List.length mag)%nat ->
     bpow radix2 (-50) * reach c nx start i <= / 4 * step).
  { intros i Hi. apply Rle_trans with (bpow radix2 (-50) * (bpow radix2 42 * step)).
    - apply Rmult_le_compat_l; [apply bpow_ge_0|]. unfold reach, forward_time.
      replace (bpow radix2 42) with (4 * bpow radix2 40)
        by (replace 4 with (bpow radix2 2) by reflexivity; now rewrite <- bpow_plus).
      assert (K1 : (INR i + IZR start) * IZR (fc_h c) / val (fc_fs c) <= bpow radix2 40 * step).
      { replace ((INR i + IZR start) * IZR (fc_h c) / val (fc_fs c)) with ((INR i + IZR start) * step)
          by (unfold step, Rdiv; ring).
        apply Rmult_le_compat_r; [lra|]. rewrite INR_IZR_INZ, <- plus_IZR. apply IZR_le_bpow; [lia|].
        unfold f64_num in *. lia. }
      assert (K2 : (if fc_padded c then 0 else IZR (fc_wsize c) / 2 / val (fc_fs c)) <= bpow radix2 40 * step).
      { pose proof (bpow_gt_0 radix2 40). destruct (fc_padded c); [apply Rmult_le_pos; lra|].
        unfold Rdiv at 1. apply Rmult_le_compat; lra. }
      assert (K3 : (if fc_rev c then IZR nx / val (fc_fs c) else 0) <= bpow radix2 40 * step).
      { pose proof (bpow_gt_0 radix2 40). destruct (fc_rev c); [|apply Rmult_le_pos; lra].
        unfold Rdiv. apply Rmult_le_compat; lra. }
      assert (0 <= bpow radix2 40 * step) by (apply Rmult_le_pos; [apply bpow_ge_0|lra]). lra.
    - rewrite <- Rmult_assoc, <- bpow_plus. apply Rmult_le_compat_r; [lra|].
      change (/ 4) with (bpow radix2 (-2)). apply bpow_le. lia. }
  assert (TD : forall i j, (i < j)%nat -> step <= forward_time c start j - forward_time c start i).
  { intros i j Hij. unfold forward_time.
    replace ((INR j + IZR start) * IZR (fc_h c) / val (fc_fs c) +
       (if fc_padded c then 0 else IZR (fc_wsize c) / 2 / val (fc_fs c)) -
      ((INR i + IZR start) * IZR (fc_h c) / val (fc_fs c) +
       (if fc_padded c then 0 else IZR (fc_wsize c) / 2 / val (fc_fs c))))
      with ((INR j - INR i) * step) by (unfold step, Rdiv; ring).
    rewrite <- (Rmult_1_l step) at 1. apply Rmult_le_compat_r; [lra|].
    assert (INR i + 1 <= INR j) by (rewrite <- S_INR; apply le_INR; lia). lra. }
  set (l := filter (fun i => negb (@is_nan 53 1024 (nth i mag B754_nan))) (seq 0 (List.length mag))) in *.
  assert (LB : Forall (fun i => (i < List.length mag)%nat) l).
  { apply Forall_forall. intros i Hi. apply filter_In in Hi. destruct Hi as [Hi _].
    apply in_seq in Hi. unfold f64_num in *. lia. }
  assert (LS : StronglySorted Nat.lt l).
  { unfold l. generalize 0%nat. generalize (List.length mag). clear. intros n. induction n as [|n IH]; intros k.
    - constructor.
    - cbn [seq filter]. destruct (negb _); [|apply IH]. constructor; [apply IH|].
      apply Forall_forall. intros j Hj. apply filter_In in Hj. destruct Hj as [Hj _].
      apply in_seq in Hj. unfold Nat.lt. lia. }
  clearbody l. clear E. induction F2 as [|i t l ts [Ft Et] F2 IH]; constructor.
  - inversion LB; inversion LS; subst. apply IH; assumption.
  - inversion LB as [|? ? LB1 LB2]; inversion LS as [|? ? LS1 LS2]; subst.
    clear IH LB LS LS1. induction F2 as [|j s l ts [Fj Ej] F2 IH]; constructor.
    + inversion LB2; inversion LS2; subst.
      assert (Hij : (i < j)%nat) by assumption.
      pose proof (TD i j Hij) as D. pose proof (R1 i LB1) as Ri. pose proof (R1 j ltac:(assumption)) as Rj.
      apply Rabs_le_inv in Et. apply Rabs_le_inv in Ej. unfold true_time in Et, Ej.
      destruct (fc_rev c); lra.
    + inversion LB2; inversion LS2; subst. apply IH; assumption.
Qed.
Print Assumptions c107_times_ordered.

(** ** The hinge function *)

(** Rounding does not spoil the shape of a hinge: it falls if the slope is
    negative (rises if it is positive) up to the knee, and is constant from
    there on; with a slope that is not positive it is never above its
    intercept; it is [k * min(x, a) + q] up to [2^-51] of its terms (and the
    least positive double). *)
Theorem c107_hinge : forall a k q x y : f64_num,
  finite a -> finite k -> finite q -> finite x -> finite y ->
  Rabs (val k * Rmin (val x) (val a)) <= bpow radix2 1020 ->
  Rabs (val k * Rmin (val y) (val a)) <= bpow radix2 1020 -> Rabs (val q) <= bpow radix2 1020 ->
  (finite (f_hinge a k q x)) /\
  (val k <= 0 -> val x <= val y -> val (f_hinge a k q y) <= val (f_hinge a k q x)) /\
  (0 <= val k -> val x <= val y -> val (f_hinge a k q x) <= val (f_hinge a k q y)) /\
  (val a <= val x -> val a <= val y -> val (f_hinge a k q x) = val (f_hinge a k q y)) /\
  (val k <= 0 -> 0 <= val a -> 0 <= val x -> val (f_hinge a k q x) <= val q) /\
  Rabs (val (f_hinge a k q x) - (val k * Rmin (val x) (val a) + val q))
    <= bpow radix2 (-51) * (Rabs (val k * Rmin (val x) (val a)) + Rabs (val q)) + bpow radix2 (-1074).
Proof.
  intros a k q x y Fa Fk Fq Fx Fy Bx By Bq.
  destruct (f_hinge_val a k q x Fa Fk Fq Fx Bx Bq) as [F1 V1].
  destruct (f_hinge_val a k q y Fa Fk Fq Fy By Bq) as [F2 V2].
  split; [exact F1|]. rewrite V1, V2.
  assert (MM : val x <= val y -> Rmin (val x) (val a) <= Rmin (val y) (val a)).
  { intros H. apply Rle_min_compat_r. exact H. }
  repeat split.
  - intros K H. apply rnd_mono, Rplus_le_compat_l, rnd_mono. specialize (MM H).
    assert (- val k * Rmin (val x) (val a) <= - val k * Rmin (val y) (val a))
      by (apply Rmult_le_compat_l; lra). lra.
  - intros K H. apply rnd_mono, Rplus_le_compat_l, rnd_mono. specialize (MM H).
    apply Rmult_le_compat_l; lra.
  - intros Hx Hy. rewrite !Rmin_right by assumption. reflexivity.
  - intros K A X. apply rnd_le_fmt; [apply val_fmt|].
    assert (rnd (val k * Rmin (val x) (val a)) <= 0); [|lra].
    apply rnd_le_fmt; [apply generic_format_0|].
    assert (0 <= - val k * Rmin (val x) (val a)); [|lra].
    apply Rmult_le_pos; [lra|]. apply Rmin_glb; assumption.
  - set (p := val k * Rmin (val x) (val a)) in *. clearbody p.
    pose proof (rnd_near p) as N1.
    destruct (rnd_plus (val q) (rnd p) (val_fmt q) (rnd_fmt p)) as (e & Be & E). rewrite E.
    replace ((val q + rnd p) * (1 + e) - (p + val q)) with ((rnd p - p) + (val q + rnd p) * e) by ring.
    eapply Rle_trans; [apply Rabs_triang|]. rewrite Rabs_mult.
    pose proof uro_small as US. pose proof uro_pos as UP.
    assert (U : bpow radix2 (-52) = 2 * uro) by lra.
    assert (G : Rabs (val q + rnd p) <= Rabs (val q) + Rabs p + Rabs (rnd p - p)).
    { replace (val q + rnd p) with (val q + p + (rnd p - p)) by ring.
      eapply Rle_trans; [apply Rabs_triang|]. pose proof (Rabs_triang (val q) p). lra. }
    assert (G2 : Rabs (val q + rnd p) * Rabs e <= (Rabs (val q) + Rabs p + Rabs (rnd p - p)) * uro).
    { apply Rmult_le_compat; try apply Rabs_pos; assumption. }
    pose proof (Rabs_pos p). pose proof (Rabs_pos (val q)). pose proof eta_pos as EP.
    assert (U1 : bpow radix2 (-51) = 4 * uro).
    { change (-51)%Z with (1 + -52)%Z. rewrite bpow_plus. change (bpow radix2 1) with 2. lra. }
    rewrite U1. clear U U1. generalize dependent (uro). intros u. intros.
    assert (D : Rabs (rnd p - p) * u <= Rabs (rnd p - p) * / 1024)
      by (apply Rmult_le_compat_l; [apply Rabs_pos|lra]).
    assert (0 <= u * Rabs p) by (apply Rmult_le_pos; lra).
    assert (0 <= u * Rabs (val q)) by (apply Rmult_le_pos; lra). lra.
Qed.
Print Assumptions c107_hinge.

(** ** Cases *)

(** 44100 Hz, hops of 441 samples, windows of 1024: a track that starts in the
    third frame and has a gap. *)
Definition ex_cfg (padded rev : bool) : fcfg := mkFCfg (f64_of 44100 0) 441 1024 padded rev.
Definition ex_mag : list f64_num := [f64_of (-10) 0; B754_nan; f64_of (-12) 0; f64_of (-14) 0].

Lemma ex_rate : ordinary_rate (f64_of 44100 0).
Proof. apply c106_example_hypotheses. Qed.

Example c107_ordinary_example : forall padded rev, ordinary (ex_cfg padded rev) 44100 3 ex_mag.
Proof.
  intros padded rev. split; [exact ex_rate|]. unfold ex_cfg, ex_mag.
  cbn [fc_h fc_wsize List.length Z.of_nat Pos.of_succ_nat Pos.succ]. lia.
Qed.

(** 0.03, 0.05 and 0.06 seconds (the nearest doubles of them), 0.97, 0.95 and
    0.94 seconds if the signal was analysed backwards. *)
Example c107_times_example :
  ok_with (map B2SF) (f_time_axis (ex_cfg true false) 44100 3 ex_mag)
    (map B2SF [f64_of 1080863910568919 (-55); f64_of 3602879701896397 (-56); f64_of 1080863910568919 (-54)]) /\
  ok_with (map B2SF) (f_time_axis (ex_cfg true true) 44100 3 ex_mag)
    (map B2SF [f64_of 4368491638549381 (-52); f64_of 4278419646001971 (-52); f64_of 2116691824864133 (-51)]).
Proof. split; vm_compute; reflexivity. Qed.

(** -6 dB at 0 s, -20 dB per second until 1.5 s. *)
Example c107_hinge_example :
  let a := f64_of 3 (-1) in let k := f64_of (-20) 0 in let q := f64_of (-6) 0 in
  map (fun x => B2SF (f_hinge a k q x)) [f64_of 0 0; f64_of 1 0; f64_of 3 (-1); f64_of 2 0] =
  map B2SF [f64_of (-6) 0; f64_of (-26) 0; f64_of (-36) 0; f64_of (-36) 0].
Proof. vm_compute. reflexivity. Qed.

(** Without bounds on the sizes the order can be lost: with a window of [2^60]
    samples two frames get the same time. *)
Theorem c107_order_refuted : exists c nx start mag ts,
  ordinary_rate (fc_fs c) /\ (1 <= fc_h c <= 2 ^ 40)%Z /\ (0 <= start)%Z /\
  f_time_axis c nx start mag = Ok ts /\
  exists s t, nth_error ts 0 = Some s /\ nth_error ts 1 = Some t /\ val s = val t.
Proof.
  pose (c := mkFCfg (f64_of 1 0) 1 (2 ^ 60) false false).
  pose (mag := [f64_of 0 0; f64_of 0 0]).
  assert (C : ok_with (map B2SF) (f_time_axis c 0 0 mag) [B2SF (f64_of 1 59); B2SF (f64_of 1 59)])
    by (vm_compute; reflexivity).
  unfold ok_with in C. destruct (f_time_axis c 0 0 mag) as [ts|] eqn:E; [|destruct C].
  exists c, 0%Z, 0%Z, mag, ts. split.
  { destruct (f64_of_val 1 0) as [F V]; try lia. split; [exact F|].
    change (fc_fs c) with (f64_of 1 0). rewrite V. change (1 * bpow radix2 0) with (1 * 1). rewrite Rmult_1_l.
    change 1 with (bpow radix2 0). split; apply bpow_le; lia. }
  split; [cbn; lia|]. split; [lia|]. split; [exact E|].
  destruct ts as [|s [|t ts]]; try discriminate C. exists s, t. split; [reflexivity|]. split; [reflexivity|].
  injection C as C1 C2 _. apply same_val. now rewrite C1, C2.
Qed.
Print Assumptions c107_order_refuted.
