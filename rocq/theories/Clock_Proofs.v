(** Rounding errors of the time axis and of the hinge function (C107). *)
From Coq Require Import String ZArith Reals Lra Lia Bool List Sorted.
From Flocq Require Import Core IEEE754.BinarySingleNaN.
Import ListNotations.
From Verif Require Import Base ListLemmas Double_Model Double_Float Peak_Model Peak_Round Peak_Proofs
  Sample_Model Clock_Model.
Local Open Scope R_scope.

(** ** Quotients *)

Lemma f64_div_ok : forall x y : f64_num, val y <> 0 -> f64_div x y = Ok (fdiv x y).
Proof. intros x [s|s| |s m e b] N; cbn in N; try contradiction; try reflexivity; exfalso; apply N; reflexivity. Qed.

Lemma fdiv_rel : forall (x y : f64_num), finite x -> 0 < val y ->
  val x = 0 \/ bpow radix2 (-1000) <= val x / val y <= bpow radix2 1000 ->
  exists e, Rabs e <= uro /\ finite (fdiv x y) /\ val (fdiv x y) = val x / val y * (1 + e).
Proof.
  intros x y Fx Py H.
  assert (B : 0 <= val x / val y <= bpow radix2 1000).
  { destruct H as [->|H]; [unfold Rdiv; rewrite Rmult_0_l; split; [lra|apply bpow_ge_0]|].
    pose proof (bpow_gt_0 radix2 (-1000)). lra. }
  destruct (fdiv_val x y Fx ltac:(lra)) as [F V].
  { rewrite Rabs_pos_eq by lra. eapply Rle_trans; [apply B|]. apply bpow_le. lia. }
  destruct (rnd_rel (val x / val y)) as (e & Be & E).
  { destruct H as [->|H]; [left; unfold Rdiv; ring|right]. rewrite Rabs_pos_eq by lra.
    eapply Rle_trans; [|apply H]. apply bpow_le. lia. }
  exists e. split; [exact Be|]. split; [exact F|]. now rewrite V.
Qed.

Lemma fadd_rel : forall (x y : f64_num), finite x -> finite y ->
  Rabs (val x + val y) <= bpow radix2 1023 ->
  exists e, Rabs e <= uro /\ finite (fadd x y) /\ val (fadd x y) = (val x + val y) * (1 + e).
Proof.
  intros x y Fx Fy B. destruct (fadd_val x y Fx Fy B) as [F V].
  destruct (rnd_plus (val x) (val y) (val_fmt x) (val_fmt y)) as (e & Be & E).
  exists e. split; [exact Be|]. split; [exact F|]. now rewrite V.
Qed.

Lemma fsub_rel : forall (x y : f64_num), finite x -> finite y ->
  Rabs (val x - val y) <= bpow radix2 1023 ->
  exists e, Rabs e <= uro /\ finite (fsub x y) /\ val (fsub x y) = (val x - val y) * (1 + e).
Proof.
  intros x y Fx Fy B. destruct (fsub_val x y Fx Fy B) as [F V].
  destruct (rnd_minus (val x) (val y) (val_fmt x) (val_fmt y)) as (e & Be & E).
  exists e. split; [exact Be|]. split; [exact F|]. now rewrite V.
Qed.

(** An integer up to [2^53]. *)
Lemma int_val : forall m, (Z.abs m <= 2 ^ 53)%Z -> finite (f64_of m 0) /\ val (f64_of m 0) = IZR m.
Proof.
  intros m H. destruct (f64_of_val m 0 H ltac:(lia)) as [F V]. split; [exact F|].
  rewrite V. cbn [bpow]. ring.
Qed.

Lemma IZR_le_bpow : forall m k, (0 <= k)%Z -> (m <= 2 ^ k)%Z -> IZR m <= bpow radix2 k.
Proof.
  intros m k Hk H. rewrite <- IZR_Zpower by exact Hk. apply IZR_le. exact H.
Qed.

(** ** Rounded quotients of rounded quotients *)

Lemma quot_rel : forall e1 e2, Rabs e1 <= uro -> Rabs e2 <= uro ->
  Rabs ((1 + e2) / (1 + e1) - 1) <= 3 * uro.
Proof.
  intros e1 e2 H1 H2. pose proof uro_small as US. pose proof uro_pos as UP.
  apply Rabs_le_inv in H1. apply Rabs_le_inv in H2.
  replace ((1 + e2) / (1 + e1) - 1) with ((e2 - e1) / (1 + e1)) by (field; lra).
  assert (I : 0 < / (1 + e1)) by (apply Rinv_0_lt_compat; lra).
  assert (I2 : / (1 + e1) <= 3 / 2).
  { apply Rmult_le_reg_l with (1 + e1); [lra|]. rewrite Rinv_r by lra. lra. }
  unfold Rdiv. rewrite Rabs_mult, (Rabs_pos_eq (/ (1 + e1))) by lra.
  apply Rle_trans with ((2 * uro) * (3 / 2)); [|lra].
  apply Rmult_le_compat; try lra; [apply Rabs_pos|]. apply Rabs_le. lra.
Qed.

(** ** Times *)

Section Times.
  Variables (fs : f64_num) (h w nx : Z).
  Hypotheses (Ffs : finite fs) (Bfs : bpow radix2 (-500) <= val fs <= bpow radix2 500).
  Hypotheses (Hh : (1 <= h <= 2 ^ 40)%Z) (Hw : (1 <= w <= 2 ^ 40)%Z) (Hx : (0 <= nx <= 2 ^ 40)%Z).
  Local Notation f := (val fs).

  Lemma f_pos : 0 < f.
  Proof. pose proof (bpow_gt_0 radix2 (-500)). lra. Qed.

  Lemma f_inv : bpow radix2 (-500) <= / f <= bpow radix2 500.
  Proof.
    pose proof f_pos. pose proof (bpow_gt_0 radix2 (-500)). pose proof (bpow_gt_0 radix2 500).
    replace (-500)%Z with (Z.opp 500) by reflexivity. replace 500%Z with (Z.opp (-500)) at 2 by reflexivity.
    rewrite (bpow_opp radix2 500), (bpow_opp radix2 (-500)). split; apply Rinv_le; lra.
  Qed.

  (** A quotient of an integer and the sampling rate. *)
  Lemma by_fs : forall x : f64_num, finite x -> val x = 0 \/ / 2 <= val x <= bpow radix2 41 ->
    exists e, Rabs e <= uro /\ finite (fdiv x fs) /\ val (fdiv x fs) = val x / f * (1 + e).
  Proof.
    intros x Fx H. apply fdiv_rel; auto; [apply f_pos|]. destruct H as [H|H]; [now left|right].
    pose proof f_inv as [I1 I2]. pose proof (bpow_gt_0 radix2 (-500)) as P. split.
    - apply Rle_trans with (bpow radix2 (-1) * bpow radix2 (-500)).
      + rewrite <- bpow_plus. apply bpow_le. lia.
      + unfold Rdiv. change (bpow radix2 (-1)) with (/ 2). apply Rmult_le_compat; lra.
    - apply Rle_trans with (bpow radix2 41 * bpow radix2 500).
      + unfold Rdiv. apply Rmult_le_compat; lra.
      + rewrite <- bpow_plus. apply bpow_le. lia.
  Qed.

  Definition rate : f64_num := fdiv fs (f64_of h 0).

  Lemma rate_ok : exists e, Rabs e <= uro /\ f64_div fs (f64_of h 0) = Ok rate /\ finite rate /\
    val rate = f / IZR h * (1 + e) /\ 0 < val rate.
  Proof.
    destruct (int_val h) as [Fh Vh]; [lia|].
    assert (H1 : 1 <= IZR h) by (apply IZR_le; lia).
    assert (H2 : IZR h <= bpow radix2 40) by (apply IZR_le_bpow; lia).
    pose proof f_pos as FP. pose proof (bpow_gt_0 radix2 (-500)) as P.
    assert (I1 : / IZR h <= 1) by (rewrite <- Rinv_1; apply Rinv_le; lra).
    assert (I2 : bpow radix2 (-40) <= / IZR h).
    { replace (-40)%Z with (Z.opp 40) by reflexivity. rewrite (bpow_opp radix2 40). apply Rinv_le; lra. }
    destruct (fdiv_rel fs (f64_of h 0) Ffs) as (e & Be & Fq & Vq).
    { rewrite Vh. lra. }
    { right. rewrite Vh. split.
      - apply Rle_trans with (bpow radix2 (-500) * bpow radix2 (-40)).
        + rewrite <- bpow_plus. apply bpow_le. lia.
        + unfold Rdiv. apply Rmult_le_compat; try lra. apply bpow_ge_0.
      - apply Rle_trans with (bpow radix2 500 * 1).
        + unfold Rdiv. apply Rmult_le_compat; try lra. left. apply Rinv_0_lt_compat. lra.
        + rewrite Rmult_1_r. apply bpow_le. lia. }
    exists e. split; [exact Be|]. rewrite Vh in Vq. split; [apply f64_div_ok; rewrite Vh; lra|].
    split; [exact Fq|]. split; [exact Vq|]. unfold rate. rewrite Vq.
    pose proof uro_small as US. apply Rabs_le_inv in Be.
    apply Rmult_lt_0_compat; [|lra]. apply Rmult_lt_0_compat; [lra|]. apply Rinv_0_lt_compat. lra.
  Qed.

  (** A frame's time, before the centre of the window is added. *)
  Lemma frame_time : forall (x : f64_num) m, (0 <= m <= 2 ^ 41)%Z -> finite x -> val x = IZR m ->
    exists e, Rabs e <= 3 * uro /\
    finite (fdiv x rate) /\ val (fdiv x rate) = IZR m * IZR h / f * (1 + e).
  Proof.
    intros x m Hm Fm Vm. destruct rate_ok as (e1 & B1 & _ & Fr & Vr & Pr).
    pose proof f_pos as FP. pose proof f_inv as [I1 I2]. pose proof uro_small as US.
    assert (H1 : 1 <= IZR h) by (apply IZR_le; lia).
    assert (H2 : IZR h <= bpow radix2 40) by (apply IZR_le_bpow; lia).
    assert (M0 : 0 <= IZR m) by (apply IZR_le; lia).
    assert (M2 : IZR m <= bpow radix2 41) by (apply IZR_le_bpow; lia).
    pose proof (bpow_gt_0 radix2 (-500)) as P. pose proof (Rabs_le_inv _ _ B1) as B1'.
    assert (Q : IZR m / val rate = IZR m * IZR h / f * / (1 + e1)).
    { rewrite Vr. field. repeat split; lra. }
    assert (IE : / 2 <= / (1 + e1) <= 2).
    { split; apply Rmult_le_reg_l with (1 + e1); try lra; rewrite Rinv_r by lra; lra. }
    destruct (fdiv_rel x rate Fm Pr) as (e2 & B2 & Fq & Vq).
    { rewrite Vm. destruct (Z.eq_dec m 0) as [->|NZ]; [now left|right].
      assert (M1 : 1 <= IZR m) by (apply IZR_le; lia). rewrite Q. unfold Rdiv. split.
      - apply Rle_trans with (1 * 1 * bpow radix2 (-500) * bpow radix2 (-1)).
        + rewrite !Rmult_1_l, <- bpow_plus. apply bpow_le. lia.
        + change (bpow radix2 (-1)) with (/ 2). apply Rmult_le_compat; try lra.
          apply Rmult_le_compat; try lra. apply Rmult_le_compat; lra.
      - apply Rle_trans with (bpow radix2 41 * bpow radix2 40 * bpow radix2 500 * bpow radix2 1).
        + change (bpow radix2 1) with 2. apply Rmult_le_compat; try lra.
          * apply Rmult_le_pos; [apply Rmult_le_pos; lra|lra].
          * apply Rmult_le_compat; try lra; [apply Rmult_le_pos; lra|].
            apply Rmult_le_compat; lra.
        + rewrite <- !bpow_plus. apply bpow_le. lia. }
    exists ((1 + e2) / (1 + e1) - 1). split; [now apply quot_rel|]. split; [exact Fq|].
    rewrite Vq, Vm, Q. field. split; lra.
  Qed.

  Lemma centre_ok : exists e, Rabs e <= uro /\
    f64_div (fmul (f64_of 1 (-1)) (f64_of w 0)) fs = Ok (fdiv (fmul (f64_of 1 (-1)) (f64_of w 0)) fs) /\
    finite (fdiv (fmul (f64_of 1 (-1)) (f64_of w 0)) fs) /\
    val (fdiv (fmul (f64_of 1 (-1)) (f64_of w 0)) fs) = IZR w / 2 / f * (1 + e).
  Proof.
    destruct (int_val w) as [Fw Vw]; [lia|].
    destruct (f64_of_val 1 (-1) ltac:(lia) ltac:(lia)) as [F1 V1].
    rewrite Rmult_1_l in V1. change (bpow radix2 (-1)) with (/ 2) in V1.
    assert (W1 : 1 <= IZR w) by (apply IZR_le; lia).
    assert (W2 : IZR w <= bpow radix2 40) by (apply IZR_le_bpow; lia).
    assert (B41 : bpow radix2 41 = 2 * bpow radix2 40).
    { change 41%Z with (1 + 40)%Z. rewrite bpow_plus. reflexivity. }
    destruct (fmul_val (f64_of 1 (-1)) (f64_of w 0) F1 Fw) as [Fm Vm].
    { rewrite V1, Vw, Rabs_pos_eq by lra. apply Rle_trans with (bpow radix2 40); [lra|].
      apply bpow_le. lia. }
    rewrite V1, Vw in Vm. rewrite rnd_id in Vm.
    2:{ replace (/ 2 * IZR w) with (IZR w * bpow radix2 (-1)) by (change (bpow radix2 (-1)) with (/ 2); ring).
        apply fmt_scaled; lia. }
    destruct (by_fs _ Fm) as (e & Be & Fq & Vq).
    { right. rewrite Vm. lra. }
    exists e. split; [exact Be|]. split; [apply f64_div_ok; pose proof f_pos; lra|].
    split; [exact Fq|]. rewrite Vq, Vm. unfold Rdiv. ring.
  Qed.

  Lemma total_ok : exists e, Rabs e <= uro /\
    f64_div (f64_of nx 0) fs = Ok (fdiv (f64_of nx 0) fs) /\
    finite (fdiv (f64_of nx 0) fs) /\ val (fdiv (f64_of nx 0) fs) = IZR nx / f * (1 + e).
  Proof.
    destruct (int_val nx) as [Fn Vn]; [lia|].
    destruct (by_fs _ Fn) as (e & Be & Fq & Vq).
    { rewrite Vn. destruct (Z.eq_dec nx 0) as [->|NZ]; [now left|right].
      assert (1 <= IZR nx) by (apply IZR_le; lia).
      assert (IZR nx <= bpow radix2 41) by (apply IZR_le_bpow; lia). lra. }
    exists e. split; [exact Be|]. split; [apply f64_div_ok; pose proof f_pos; lra|].
    split; [exact Fq|]. now rewrite Vq, Vn.
  Qed.

  (** All together: one sample of the time axis. *)
  Definition f_time1 (padded rev : bool) (x : f64_num) : f64_num :=
    let t := fdiv x rate in
    let t := if padded then t else fadd t (fdiv (fmul (f64_of 1 (-1)) (f64_of w 0)) fs) in
    if rev then fsub (fdiv (f64_of nx 0) fs) t else t.

  Lemma small_bound : forall x, 0 <= x <= bpow radix2 700 -> Rabs x <= bpow radix2 1023.
  Proof.
    intros x H. rewrite Rabs_pos_eq by lra. eapply Rle_trans; [apply H|]. apply bpow_le. lia.
  Qed.

  Lemma time1_ok : forall (padded rev : bool) (x : f64_num) m, (0 <= m <= 2 ^ 41)%Z -> finite x -> val x = IZR m ->
    let T := IZR m * IZR h / f + (if padded then 0 else IZR w / 2 / f) in
    finite (f_time1 padded rev x) /\
    Rabs (val (f_time1 padded rev x) - (if rev then IZR nx / f - T else T))
      <= bpow radix2 (-50) * (T + if rev then IZR nx / f else 0).
  Proof.
    intros padded rev x m Hm Fx Vx T.
    destruct (frame_time x m Hm Fx Vx) as (e1 & B1 & F1 & V1).
    destruct centre_ok as (e2 & B2 & _ & F2 & V2). destruct total_ok as (e3 & B3 & _ & F3 & V3).
    pose proof f_pos as FP. pose proof f_inv as [I1 I2]. pose proof uro_small as US. pose proof uro_pos as UP.
    assert (H1 : 1 <= IZR h) by (apply IZR_le; lia).
    assert (H2 : IZR h <= bpow radix2 40) by (apply IZR_le_bpow; lia).
    assert (M0 : 0 <= IZR m) by (apply IZR_le; lia).
    assert (M2 : IZR m <= bpow radix2 41) by (apply IZR_le_bpow; lia).
    assert (W1 : 1 <= IZR w) by (apply IZR_le; lia).
    assert (W2 : IZR w <= bpow radix2 40) by (apply IZR_le_bpow; lia).
    assert (X1 : 0 <= IZR nx) by (apply IZR_le; lia).
    assert (X2 : IZR nx <= bpow radix2 40) by (apply IZR_le_bpow; lia).
    pose proof (bpow_gt_0 radix2 (-500)) as P500.
    assert (B690 : 16 * bpow radix2 600 <= bpow radix2 700).
    { replace 16 with (bpow radix2 4) by reflexivity. rewrite <- bpow_plus. apply bpow_le. lia. }
    set (A := IZR m * IZR h / f) in *.
    assert (A1 : 0 <= A <= bpow radix2 600).
    { unfold A, Rdiv. split; [apply Rmult_le_pos; [apply Rmult_le_pos; lra|lra]|].
      apply Rle_trans with (bpow radix2 41 * bpow radix2 40 * bpow radix2 500).
      - apply Rmult_le_compat; try lra; [apply Rmult_le_pos; lra|]. apply Rmult_le_compat; lra.
      - rewrite <- !bpow_plus. apply bpow_le. lia. }
    set (O := IZR w / 2 / f) in *.
    assert (O1 : 0 <= O <= bpow radix2 600).
    { unfold O, Rdiv. split; [apply Rmult_le_pos; lra|].
      apply Rle_trans with (bpow radix2 40 * bpow radix2 500).
      - apply Rmult_le_compat; lra.
      - rewrite <- !bpow_plus. apply bpow_le. lia. }
    set (X := IZR nx / f) in *.
    assert (XX : 0 <= X <= bpow radix2 600).
    { unfold X, Rdiv. split; [apply Rmult_le_pos; lra|].
      apply Rle_trans with (bpow radix2 40 * bpow radix2 500).
      - apply Rmult_le_compat; lra.
      - rewrite <- !bpow_plus. apply bpow_le. lia. }
    assert (U50 : bpow radix2 (-50) = 8 * uro).
    { rewrite uro_val. replace 8 with (bpow radix2 3) by reflexivity. now rewrite <- bpow_plus. }
    rewrite U50. clearbody A O X.
    unfold f_time1. cbv zeta.
    set (t1 := fdiv x rate) in *. set (o := fdiv (fmul (f64_of 1 (-1)) (f64_of w 0)) fs) in *.
    set (z := fdiv (f64_of nx 0) fs) in *. clearbody t1 o z.
    remember uro as u eqn:EU.
    pose proof (Rabs_le_inv _ _ B1) as C1. pose proof (Rabs_le_inv _ _ B2) as C2. pose proof (Rabs_le_inv _ _ B3) as C3.
    (* the time before it is reversed *)
    assert (K : exists t2, t2 = (if padded then t1 else fadd t1 o) /\ finite t2 /\
                  Rabs (val t2 - T) <= 5 * u * T /\ 0 <= T <= 2 * bpow radix2 600).
    { destruct padded.
      - exists t1. split; [reflexivity|]. split; [exact F1|]. unfold T. rewrite Rplus_0_r, V1.
        split; [|lra]. replace (A * (1 + e1) - A) with (A * e1) by ring.
        rewrite Rabs_mult, Rabs_pos_eq by lra. rewrite (Rmult_comm (5 * u)).
        apply Rmult_le_compat_l; lra.
      - exists (fadd t1 o). split; [reflexivity|].
        assert (N1 : 0 <= val t1 <= 2 * bpow radix2 600).
        { rewrite V1. split; [apply Rmult_le_pos; lra|]. rewrite Rmult_comm. apply Rmult_le_compat; lra. }
        assert (N2 : 0 <= val o <= 2 * bpow radix2 600).
        { rewrite V2. split; [apply Rmult_le_pos; lra|]. rewrite Rmult_comm. apply Rmult_le_compat; lra. }
        destruct (fadd_rel t1 o F1 F2) as (e4 & B4 & Fs & Vs); [apply small_bound; lra|]. rewrite <- EU in B4.
        split; [exact Fs|]. split; [|unfold T; lra].
        rewrite Vs, V1, V2. unfold T. pose proof (Rabs_le_inv _ _ B4) as C4.
        assert (G1 : Rabs ((1 + e1) * (1 + e4) - 1) <= 5 * u).
        { replace ((1 + e1) * (1 + e4) - 1) with (e1 * (1 + e4) + e4) by ring.
          eapply Rle_trans; [apply Rabs_triang|]. rewrite Rabs_mult, (Rabs_pos_eq (1 + e4)) by lra.
          assert (Rabs e1 * (1 + e4) <= 3 * u * (4 / 3)) by (apply Rmult_le_compat; try lra; apply Rabs_pos).
          lra. }
        assert (G2 : Rabs ((1 + e2) * (1 + e4) - 1) <= 5 * u).
        { replace ((1 + e2) * (1 + e4) - 1) with (e2 * (1 + e4) + e4) by ring.
          eapply Rle_trans; [apply Rabs_triang|]. rewrite Rabs_mult, (Rabs_pos_eq (1 + e4)) by lra.
          assert (Rabs e2 * (1 + e4) <= u * (4 / 3)) by (apply Rmult_le_compat; try lra; apply Rabs_pos).
          lra. }
        replace ((A * (1 + e1) + O * (1 + e2)) * (1 + e4) - (A + O))
          with (A * ((1 + e1) * (1 + e4) - 1) + O * ((1 + e2) * (1 + e4) - 1)) by ring.
        eapply Rle_trans; [apply Rabs_triang|]. rewrite !Rabs_mult, (Rabs_pos_eq A), (Rabs_pos_eq O) by lra.
        assert (A * Rabs ((1 + e1) * (1 + e4) - 1) <= A * (5 * u)) by (apply Rmult_le_compat_l; lra).
        assert (O * Rabs ((1 + e2) * (1 + e4) - 1) <= O * (5 * u)) by (apply Rmult_le_compat_l; lra).
        lra. }
    destruct K as (t2 & E2 & Ft2 & D2 & TB). rewrite <- E2. clearbody T. clear E2.
    destruct rev.
    - pose proof (Rabs_le_inv _ _ D2) as D2'.
      assert (UT : 5 * u * T <= T) by (rewrite <- (Rmult_1_l T) at 2; apply Rmult_le_compat_r; lra).
      assert (ZB : 0 <= val z <= 2 * X).
      { rewrite V3. split; [apply Rmult_le_pos; lra|]. rewrite Rmult_comm. apply Rmult_le_compat_r; lra. }
      destruct (fsub_rel z t2 F3 Ft2) as (e5 & B5 & Fs & Vs).
      { apply Rabs_le. assert (bpow radix2 700 <= bpow radix2 1023) by (apply bpow_le; lia). lra. }
      rewrite <- EU in B5. split; [exact Fs|]. rewrite Vs.
      replace ((val z - val t2) * (1 + e5) - (X - T)) with
        ((val z - X) + (T - val t2) + (val z - val t2) * e5) by ring.
      assert (Z1 : Rabs (val z - X) <= u * X).
      { rewrite V3. replace (X * (1 + e3) - X) with (X * e3) by ring.
        rewrite Rabs_mult, Rabs_pos_eq by lra. rewrite Rmult_comm. apply Rmult_le_compat_r; lra. }
      assert (Z2 : Rabs (T - val t2) <= 5 * u * T) by (rewrite Rabs_minus_sym; exact D2).
      assert (Z3 : Rabs ((val z - val t2) * e5) <= (2 * X + 2 * T) * u).
      { rewrite Rabs_mult. apply Rmult_le_compat; try apply Rabs_pos; [apply Rabs_le; lra|exact B5]. }
      assert (0 <= u * X) by (apply Rmult_le_pos; lra). assert (0 <= u * T) by (apply Rmult_le_pos; lra).
      eapply Rle_trans; [apply Rabs_triang|]. eapply Rle_trans; [apply Rplus_le_compat_r; apply Rabs_triang|].
      lra.
    - split; [exact Ft2|]. rewrite Rplus_0_r. eapply Rle_trans; [exact D2|].
      apply Rmult_le_compat_r; lra.
  Qed.
End Times.

(** ** The time axis, as one map over the indices that are kept *)

Definition kept (mag : list f64_num) : list nat :=
  filter (fun i => negb (@is_nan 53 1024 (nth i mag B754_nan))) (seq 0 (List.length mag)).

Lemma mask_kept : forall X (g : nat -> X) mag,
  mask (f_notnans mag) (map g (seq 0 (List.length mag))) = map g (kept mag).
Proof.
  intros X g mag. unfold kept, mask, f_notnans.
  assert (G : forall mag pre, map snd (filter fst (combine (map (fun v => negb (@is_nan 53 1024 v)) mag)
                (map g (seq (List.length pre) (List.length mag)))))
            = map g (filter (fun i => negb (@is_nan 53 1024 (nth i (pre ++ mag) B754_nan)))
                       (seq (List.length pre) (List.length mag)))).
  { clear mag. induction mag as [|a mag IH]; intros pre; [reflexivity|].
    cbn [List.length seq map combine filter fst].
    rewrite app_nth2, Nat.sub_diag by lia. cbn [nth].
    specialize (IH (pre ++ [a])). rewrite app_length in IH. cbn [List.length] in IH.
    rewrite Nat.add_1_r in IH. rewrite <- app_assoc in IH. cbn [app] in IH.
    destruct (negb (is_nan a)); cbn [map snd]; [f_equal|]; exact IH. }
  apply (G mag []).
Qed.

Lemma f_time_axis_map : forall fs h w padded rev nx start mag,
  finite fs -> bpow radix2 (-500) <= val fs <= bpow radix2 500 ->
  (1 <= h <= 2 ^ 40)%Z -> (1 <= w <= 2 ^ 40)%Z -> (0 <= nx <= 2 ^ 40)%Z ->
  f_time_axis (mkFCfg fs h w padded rev) nx start mag =
  Ok (map (fun i => f_time1 fs h w nx padded rev (fadd (f64_of (Z.of_nat i) 0) (f64_of start 0))) (kept mag)).
Proof.
  intros fs h w padded rev nx start mag F B Hh Hw Hx. unfold f_time_axis. cbn [fc_fs fc_h fc_wsize fc_padded fc_rev].
  rewrite mask_kept.
  destruct (rate_ok fs h F B Hh) as (_ & _ & E1 & _). rewrite E1. cbn [bind].
  destruct (centre_ok fs w B Hw) as (_ & _ & E2 & _).
  destruct (total_ok fs nx B Hx) as (_ & _ & E3 & _).
  destruct padded.
  - cbn [bind]. destruct rev; [rewrite E3; cbn [bind]|]; rewrite !map_map; reflexivity.
  - rewrite E2. cbn [bind]. destruct rev; [rewrite E3; cbn [bind]|]; rewrite !map_map; reflexivity.
Qed.

(** ** The hinge function *)

Lemma f_minimum_val : forall x y : f64_num, finite x -> finite y ->
  finite (f_minimum x y) /\ val (f_minimum x y) = Rmin (val x) (val y).
Proof.
  intros x y Fx Fy. unfold f_minimum.
  assert (N : @is_nan 53 1024 x = false) by (destruct x; try reflexivity; discriminate Fx).
  rewrite N. cbn [orb]. rewrite Bleb_correct by auto.
  case Rle_bool_spec; intros H.
  - split; [exact Fx|]. rewrite Rmin_left; auto.
  - split; [exact Fy|]. rewrite Rmin_right; auto. left. exact H.
Qed.

Lemma f_hinge_val : forall a k q x : f64_num, finite a -> finite k -> finite q -> finite x ->
  Rabs (val k * Rmin (val x) (val a)) <= bpow radix2 1020 -> Rabs (val q) <= bpow radix2 1020 ->
  finite (f_hinge a k q x) /\
  val (f_hinge a k q x) = rnd (val q + rnd (val k * Rmin (val x) (val a))).
Proof.
  intros a k q x Fa Fk Fq Fx Bk Bq. destruct (f_minimum_val x a Fx Fa) as [Fm Vm].
  assert (B20 : bpow radix2 1023 = 8 * bpow radix2 1020).
  { change 1023%Z with (3 + 1020)%Z. rewrite bpow_plus. reflexivity. }
  pose proof (bpow_gt_0 radix2 1020) as P.
  destruct (fmul_val k (f_minimum x a) Fk Fm) as [Fp Vp]; [rewrite Vm; lra|]. rewrite Vm in Vp.
  assert (BR : Rabs (rnd (val k * Rmin (val x) (val a))) <= bpow radix2 1020)
    by (apply rnd_abs_le; auto; apply fmt_bpow; lia).
  destruct (fadd_val q (fmul k (f_minimum x a)) Fq Fp) as [Fs Vs].
  { rewrite Vp. eapply Rle_trans; [apply Rabs_triang|]. lra. }
  rewrite Vp in Vs. auto.
Qed.
