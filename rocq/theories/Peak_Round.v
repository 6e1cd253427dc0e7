(** Rounding errors of the parabola through three neighbouring values of which
    the middle one is the greatest (C106): everything here is about real numbers
    and the function [rnd] that rounds them to the nearest double. *)
From Coq Require Import ZArith Reals Lra Lia.
From Flocq Require Import Core Relative Plus_error Mult_error Sterbenz IEEE754.BinarySingleNaN.
From Verif Require Import Double_Model Double_Float.
Local Open Scope R_scope.

Notation fexp64 := (FLT_exp (-1074) 53).
(** The real numbers that are doubles, if exponents had no upper bound. *)
Notation fmt x := (generic_format radix2 fexp64 x).
(** Half the distance of 1 and the next double. *)
Notation uro := (/ 2 * bpow radix2 (-52)).

#[export] Instance valid64 : Valid_exp fexp64 := @FLT_exp_valid (-1074) 53 prec_pos.
#[export] Instance mono64 : Monotone_exp fexp64 := @FLT_exp_monotone (-1074) 53.

Lemma uro_val : uro = bpow radix2 (-53).
Proof. change (-53)%Z with (-1 + -52)%Z. rewrite bpow_plus. f_equal. Qed.
Lemma uro_pos : 0 < uro.
Proof. pose proof (bpow_gt_0 radix2 (-52)). lra. Qed.
Lemma uro_small : uro <= / 1024.
Proof.
  assert (bpow radix2 (-52) <= bpow radix2 (-9)) by (apply bpow_le; lia).
  cbn in H |- *. lra.
Qed.

Lemma rnd_mono : forall x y, x <= y -> rnd x <= rnd y.
Proof. intros. unfold rnd. apply round_le; auto with typeclass_instances. Qed.
Lemma rnd_id : forall x, fmt x -> rnd x = x.
Proof. intros. unfold rnd. apply round_generic; auto with typeclass_instances. Qed.
Lemma rnd_fmt : forall x, fmt (rnd x).
Proof. intros. unfold rnd. apply generic_format_round; auto with typeclass_instances. Qed.
Lemma rnd_0 : rnd 0 = 0.
Proof. apply rnd_id, generic_format_0. Qed.
Lemma rnd_opp : forall x, rnd (- x) = - rnd x.
Proof. intros. unfold rnd. apply round_NE_opp. Qed.
Lemma rnd_abs : forall x, Rabs (rnd x) = rnd (Rabs x).
Proof.
  intros x. unfold Rabs at 2. destruct (Rcase_abs x).
  - rewrite rnd_opp. apply Rabs_left1. rewrite <- rnd_0. apply rnd_mono. lra.
  - apply Rabs_pos_eq. rewrite <- rnd_0. apply rnd_mono. lra.
Qed.
Lemma fmt_bpow : forall e, (-1074 <= e)%Z -> fmt (bpow radix2 e).
Proof. intros. apply generic_format_bpow. unfold FLT_exp. lia. Qed.
Lemma rnd_le_fmt : forall x y, fmt y -> x <= y -> rnd x <= y.
Proof. intros x y F L. rewrite <- (rnd_id y F). now apply rnd_mono. Qed.
Lemma rnd_ge_fmt : forall x y, fmt y -> y <= x -> y <= rnd x.
Proof. intros x y F L. rewrite <- (rnd_id y F). now apply rnd_mono. Qed.
Lemma rnd_abs_le : forall x y, fmt y -> Rabs x <= y -> Rabs (rnd x) <= y.
Proof. intros x y F L. rewrite rnd_abs. now apply rnd_le_fmt. Qed.

(** Integers times powers of two, if they are not too long. *)
Lemma fmt_scaled : forall m e, (Z.abs m <= 2 ^ 53)%Z -> (-1074 <= e)%Z ->
  fmt (IZR m * bpow radix2 e).
Proof.
  intros m e Hm He. destruct (Z.eq_dec (Z.abs m) (2 ^ 53)) as [E|NE].
  - assert (m = (if Z.ltb m 0 then -1 else 1) * 2 ^ 53)%Z as -> by
      (destruct (Z.ltb_spec m 0); lia).
    rewrite mult_IZR. change (IZR (2 ^ 53)) with (bpow radix2 53).
    rewrite Rmult_assoc, <- bpow_plus. destruct (Z.ltb m 0).
    + replace (-1 * bpow radix2 (53 + e)) with (- bpow radix2 (53 + e)) by ring.
      apply generic_format_opp, fmt_bpow. lia.
    + rewrite Rmult_1_l. apply fmt_bpow. lia.
  - apply generic_format_FLT. exists (Float radix2 m e); cbn [Fnum Fexp]; auto.
    change (radix_val radix2 ^ 53)%Z with (2 ^ 53)%Z. lia.
Qed.

Lemma fmt_double : forall x, fmt x -> fmt (2 * x).
Proof.
  intros x F. apply FLT_format_generic in F; [|exact prec_pos].
  destruct F as [[m e] H1 H2 H3]. cbn [Fnum Fexp] in *. subst x.
  replace (2 * F2R (Float radix2 m e)) with (IZR m * bpow radix2 (e + 1)).
  - apply fmt_scaled; [|lia]. change (radix_val radix2 ^ 53)%Z with (2 ^ 53)%Z in H2. lia.
  - unfold F2R. cbn [Fnum Fexp]. rewrite bpow_plus. change (bpow radix2 1) with 2. ring.
Qed.

Lemma fmt_half : forall x, fmt x -> x = 0 \/ bpow radix2 (-1021) <= Rabs x -> fmt (x / 2).
Proof.
  intros x F [->|B].
  - replace (0 / 2) with 0 by field. apply generic_format_0.
  - replace (x / 2) with (x * bpow radix2 (-1)) by (cbn; field).
    apply mult_bpow_exact_FLT; auto.
    assert (-1021 < mag radix2 x)%Z by (apply mag_gt_bpow; exact B). lia.
Qed.

(** Adding and subtracting doubles has a relative error, even if the result is
    tiny. *)
Lemma rnd_plus : forall x y, fmt x -> fmt y -> exists e, Rabs e <= uro /\
  rnd (x + y) = (x + y) * (1 + e).
Proof.
  intros x y Fx Fy.
  destruct (FLT_plus_error_N_ex radix2 (-1074) 53 (prec_gt_0_ := prec_pos)
              (fun z => negb (Z.even z)) x y Fx Fy) as (e & B & E).
  exists e. split; [|exact E]. eapply Rle_trans; [exact B|].
  assert (U : 0 < u_ro radix2 53).
  { unfold u_ro. apply Rmult_lt_0_compat; [lra|apply bpow_gt_0]. }
  assert (H : u_ro radix2 53 / (1 + u_ro radix2 53) <= u_ro radix2 53).
  { apply Rmult_le_reg_r with (1 + u_ro radix2 53); [lra|].
    unfold Rdiv. rewrite Rmult_assoc, Rinv_l by lra. nra. }
  exact H.
Qed.
Lemma rnd_minus : forall x y, fmt x -> fmt y -> exists e, Rabs e <= uro /\
  rnd (x - y) = (x - y) * (1 + e).
Proof. intros x y Fx Fy. apply rnd_plus; auto. now apply generic_format_opp. Qed.

(** The error of any rounding. *)
Lemma rnd_error : forall x, Rabs (rnd x - x) <= / 2 * ulp radix2 fexp64 x.
Proof. intros. unfold rnd. apply error_le_half_ulp. exact valid64. Qed.

(** Relative error, above the subnormal numbers. *)
Lemma rnd_rel : forall x, x = 0 \/ bpow radix2 (-1022) <= Rabs x -> exists e, Rabs e <= uro /\
  rnd x = x * (1 + e).
Proof.
  intros x [->|B].
  - exists 0. rewrite Rabs_R0, rnd_0. split; [pose proof uro_pos; lra|ring].
  - destruct (relative_error_N_FLT_ex radix2 (-1074) 53 prec_pos (fun z => negb (Z.even z)) x B)
      as (e & Be & E).
    exists e. split; [|exact E]. exact Be.
Qed.

(** All doubles are multiples of the least one. *)
Notation eta := (bpow radix2 (-1074)).
Lemma eta_pos : 0 < eta. Proof. apply bpow_gt_0. Qed.
Lemma fmt_multiple : forall x, fmt x -> exists k, x = IZR k * eta.
Proof.
  intros x F. apply (FLT_format_generic radix2) in F; [|exact prec_pos].
  destruct F as [[m e] H1 H2 H3]. cbn [Fnum Fexp] in *.
  exists (m * 2 ^ (e + 1074))%Z. rewrite H1. unfold F2R. cbn [Fnum Fexp].
  rewrite mult_IZR. change 2%Z with (radix_val radix2). rewrite IZR_Zpower by lia.
  rewrite Rmult_assoc, <- bpow_plus. do 2 f_equal. lia.
Qed.

(** ** The denominator *)

Section Parabola.
  Variables l c r : R.
  Hypotheses (Fl : fmt l) (Fc : fmt c) (Fr : fmt r).
  Hypotheses (Hl : l < c) (Hr : r < c).

  Definition par_s : R := rnd (l - 2 * c).
  Definition par_den : R := rnd (par_s + r).
  Definition par_d : R := rnd (l - r).
  Local Notation s := par_s.
  Local Notation den := par_den.
  Local Notation d := par_d.

  Lemma s_le : s <= - c.
  Proof.
    unfold par_s. apply rnd_le_fmt; [now apply generic_format_opp|]. lra.
  Qed.

  Lemma den_le : den <= rnd (r - c).
  Proof. unfold par_den. apply rnd_mono. pose proof s_le. lra. Qed.

  Lemma sub_neg : rnd (r - c) < 0.
  Proof.
    destruct (rnd_minus r c Fr Fc) as (e & B & ->).
    pose proof uro_small. apply Rabs_le_inv in B. nra.
  Qed.

  (** The denominator does not vanish. *)
  Lemma den_neg : den < 0.
  Proof. pose proof den_le. pose proof sub_neg. lra. Qed.

  (** How far apart different doubles are: the sum of [c] and the distance of
      [c] and [l] is rounded by less than twice the distance of [c] and [r]. *)
  Lemma gap_c : 0 <= l -> Rabs (rnd (2 * c - l) - (2 * c - l)) < 2 * (c - r).
  Proof.
    intros L. assert (C : 0 < c) by lra. set (k := (mag radix2 c - 1)%Z).
    assert (K : bpow radix2 k <= c).
    { unfold k. pose proof (bpow_mag_le radix2 c ltac:(lra)) as H.
      rewrite Rabs_pos_eq in H by lra. exact H. }
    assert (M2 : mag radix2 (2 * c) = (k + 2)%Z :> Z).
    { replace (2 * c) with (c * bpow radix2 1) by (change (bpow radix2 1) with 2; ring).
      rewrite mag_mult_bpow by lra. unfold k. lia. }
    set (w := bpow radix2 (fexp64 k)).
    assert (W : 0 < w) by apply bpow_gt_0.
    assert (U4 : ulp radix2 fexp64 (2 * c) <= 4 * w).
    { rewrite ulp_neq_0 by lra. unfold cexp, w. rewrite M2.
      change 4 with (bpow radix2 2). rewrite <- bpow_plus. apply bpow_le. unfold FLT_exp. lia. }
    assert (UY : ulp radix2 fexp64 (2 * c - l) <= ulp radix2 fexp64 (2 * c)).
    { apply ulp_le; auto with typeclass_instances. rewrite !Rabs_pos_eq by lra. lra. }
    pose proof (rnd_error (2 * c - l)) as RE.
    assert (FK : fmt (bpow radix2 k)).
    { apply fmt_bpow. unfold k.
      destruct (Z_lt_le_dec (mag radix2 c - 1) (-1074)) as [Q|Q]; [|exact Q]. exfalso.
      assert (H1 : bpow radix2 (-1074) <= c).
      { apply (FLT_format_generic radix2) in Fc; [|exact prec_pos].
        destruct Fc as [[m e] H1 H2 H3]. cbn [Fnum Fexp] in *. subst c.
        unfold F2R in *. cbn [Fnum Fexp] in *.
        assert (0 < m)%Z.
        { apply lt_IZR. apply Rmult_lt_reg_r with (bpow radix2 e); [apply bpow_gt_0|]. lra. }
        assert (1 <= IZR m) by (apply IZR_le; lia).
        apply Rle_trans with (bpow radix2 e); [apply bpow_le; lia|].
        pose proof (bpow_gt_0 radix2 e). nra. }
      assert (H2 : (-1074 < mag radix2 c)%Z).
      { apply mag_gt_bpow. rewrite Rabs_pos_eq by lra. exact H1. }
      lia. }
    destruct (Rlt_or_le r (bpow radix2 k)) as [L1|L1].
    - assert (H : r <= pred radix2 fexp64 (bpow radix2 k)).
      { apply pred_ge_gt; auto with typeclass_instances. }
      rewrite pred_bpow in H. fold w in H.
      destruct (Rle_lt_or_eq_dec _ _ K) as [K'|K']; [lra|].
      destruct (Rle_lt_or_eq_dec _ _ L) as [L'|L'].
      + assert (ulp radix2 fexp64 (2 * c - l) <= 2 * w); [|lra].
        rewrite ulp_neq_0 by lra. unfold cexp, w.
        assert (mag radix2 (2 * c - l) <= k + 1)%Z.
        { apply mag_le_bpow; [lra|]. rewrite Rabs_pos_eq by lra.
          rewrite bpow_plus. change (bpow radix2 1) with 2. rewrite K'. lra. }
        apply Rle_trans with (bpow radix2 1 * bpow radix2 (fexp64 k)); [|apply Rle_refl].
        rewrite <- bpow_plus. apply bpow_le. unfold FLT_exp. lia.
      + rewrite <- L'. replace (2 * c - 0) with (2 * c) by ring.
        rewrite rnd_id by (now apply fmt_double). rewrite Rminus_diag_eq by reflexivity.
        rewrite Rabs_R0. lra.
    - assert (R0 : 0 < r) by (pose proof (bpow_gt_0 radix2 k); lra).
      assert (H : succ radix2 fexp64 r <= c) by (apply succ_le_lt; auto with typeclass_instances).
      rewrite succ_eq_pos in H by lra.
      rewrite ulp_neq_0 in H by lra. unfold cexp in H.
      assert (M : (k < mag radix2 r)%Z) by (apply mag_gt_bpow; rewrite Rabs_pos_eq by lra; exact L1).
      set (v := bpow radix2 (fexp64 (k + 1))).
      assert (V : 0 < v) by apply bpow_gt_0.
      assert (B : v <= bpow radix2 (fexp64 (mag radix2 r))).
      { apply bpow_le. unfold FLT_exp. lia. }
      assert (U2 : ulp radix2 fexp64 (2 * c) <= 2 * v).
      { rewrite ulp_neq_0 by lra. unfold cexp, v. rewrite M2.
        apply Rle_trans with (bpow radix2 1 * bpow radix2 (fexp64 (k + 1))); [|apply Rle_refl].
        rewrite <- bpow_plus. apply bpow_le. unfold FLT_exp. lia. }
      lra.
  Qed.

  (** The rounded denominator before its last rounding, compared with the
      distance of the outer values. *)
  Lemma den_exact_ge : l < r -> (r - l + eta) * (1 - 2 * uro) <= - (s + r).
  Proof.
    intros LR. pose proof uro_pos as U0. pose proof uro_small as U1.
    pose proof eta_pos as N0.
    assert (E : - s = rnd (2 * c - l)).
    { unfold par_s. rewrite <- rnd_opp. f_equal. ring. }
    assert (CR : r + eta <= c).
    { destruct (fmt_multiple c Fc) as [kc Ec]. destruct (fmt_multiple r Fr) as [kr Er].
      rewrite Ec, Er in Hr |- *.
      assert (kr < kc)%Z by (apply lt_IZR; apply Rmult_lt_reg_r with eta; auto).
      assert (IZR (kr + 1) <= IZR kc) by (apply IZR_le; lia). rewrite plus_IZR in H0. nra. }
    replace (- (s + r)) with (- s - r) by ring. rewrite E.
    destruct (Rle_or_lt c 0) as [C|C].
    - destruct (Rle_or_lt 0 (2 * c - l)) as [Y|Y].
      + destruct (rnd_minus (2 * c) l (fmt_double c Fc) Fl) as (e & B & Er).
        rewrite Er. apply Rabs_le_inv in B. nra.
      + assert (X : fmt (2 * c - l)).
        { replace (2 * c - l) with (- l - - (2 * c)) by ring.
          apply sterbenz; auto with typeclass_instances.
          - now apply generic_format_opp.
          - apply generic_format_opp. now apply fmt_double.
          - split; lra. }
        rewrite (rnd_id _ X). nra.
    - destruct (Rle_or_lt 0 l) as [L|L].
      + pose proof (gap_c L) as G. apply Rabs_lt_inv in G.
        assert (r - l + eta <= rnd (2 * c - l) - r); [|nra].
        assert (Q : r - l < rnd (2 * c - l) - r) by lra.
        destruct (fmt_multiple l Fl) as [kl El]. destruct (fmt_multiple r Fr) as [kr Er].
        destruct (fmt_multiple _ (rnd_fmt (2 * c - l))) as [ks Es].
        rewrite Es, El, Er in Q |- *.
        assert (QZ : (kr - kl < ks - kr)%Z).
        { apply lt_IZR. rewrite !minus_IZR. apply Rmult_lt_reg_r with eta; auto. lra. }
        assert (IZR (kr - kl + 1) <= IZR (ks - kr)) by (apply IZR_le; lia).
        rewrite plus_IZR, !minus_IZR in H. nra.
      + destruct (rnd_minus (2 * c) l (fmt_double c Fc) Fl) as (e & B & Er).
        rewrite Er. apply Rabs_le_inv in B. nra.
  Qed.

  (** The distance of the outer values is hardly more than the denominator. *)
  Lemma d_den : Rabs d <= Rabs den * (1 + 6 * uro).
  Proof.
    pose proof uro_pos as U0. pose proof uro_small as U1. pose proof den_neg as DN.
    rewrite (Rabs_left den) by lra.
    destruct (Rle_or_lt r l) as [LR|LR].
    - assert (Rabs d <= - den); [|nra].
      unfold par_d. rewrite Rabs_pos_eq by (apply rnd_ge_fmt; [apply generic_format_0|lra]).
      pose proof den_le as H. replace (r - c) with (- (c - r)) in H by ring.
      rewrite rnd_opp in H. assert (rnd (l - r) <= rnd (c - r)) by (apply rnd_mono; lra). lra.
    - pose proof (den_exact_ge LR) as G. pose proof eta_pos as N0.
      destruct (rnd_plus par_s r (rnd_fmt _) Fr) as (e1 & B1 & E1).
      destruct (rnd_minus l r Fl Fr) as (e2 & B2 & E2).
      apply Rabs_le_inv in B1. apply Rabs_le_inv in B2.
      unfold par_d. rewrite E2. unfold par_den. rewrite E1.
      rewrite Rabs_mult, (Rabs_left (l - r)), (Rabs_pos_eq (1 + e2)) by lra.
      set (u := uro) in *. set (B := r - l) in *. set (A := - (par_s + r)) in *.
      assert (PB : 0 < B) by (unfold B; lra).
      assert (PA : 0 < A) by nra.
      replace (- ((par_s + r) * (1 + e1)) * (1 + 6 * u)) with (A * (1 + e1) * (1 + 6 * u))
        by (unfold A; ring).
      replace (- (l - r) * (1 + e2)) with (B * (1 + e2)) by (unfold B; ring).
      apply Rle_trans with (B * (1 + u)); [nra|].
      apply Rle_trans with (B * (1 - 2 * u) * (1 - u) * (1 + 6 * u)).
      + assert (1 + u <= (1 - 2 * u) * (1 - u) * (1 + 6 * u)); [|nra].
        assert (0 <= u * u) by nra.
        replace ((1 - 2 * u) * (1 - u) * (1 + 6 * u)) with
          (1 + 3 * u - 16 * (u * u) + 12 * (u * u) * u) by ring.
        assert (u * u <= u * / 1024) by nra. nra.
      + apply Rmult_le_compat_r; [lra|].
        apply Rle_trans with (A * (1 - u)); [nra|]. nra.
  Qed.

  (** ** The offset *)

  Definition par_off : R := rnd (rnd (d / 2) / den).
  Local Notation off := par_off.

  (** The same with room for one least double, if nothing is rounded. *)
  Lemma d_den_tiny : Rabs (l - r) < bpow radix2 (-1021) ->
    Rabs d + eta <= Rabs den * (1 + 6 * uro).
  Proof.
    intros T. pose proof uro_pos as U0. pose proof uro_small as U1. pose proof den_neg as DN.
    pose proof eta_pos as N0. rewrite (Rabs_left den) by lra.
    destruct (fmt_multiple l Fl) as [kl El]. destruct (fmt_multiple r Fr) as [kr Er].
    assert (LR : l - r = IZR (kl - kr) * eta) by (rewrite El, Er, minus_IZR; ring).
    assert (E53 : bpow radix2 (-1021) = IZR (2 ^ 53) * eta).
    { change (IZR (2 ^ 53)) with (bpow radix2 53). rewrite <- bpow_plus. reflexivity. }
    assert (KB : (Z.abs (kl - kr) < 2 ^ 53)%Z).
    { apply lt_IZR. apply Rmult_lt_reg_r with eta; auto. rewrite <- E53, abs_IZR.
      rewrite LR, Rabs_mult, (Rabs_pos_eq eta) in T by lra. exact T. }
    assert (FD : fmt (l - r)) by (rewrite LR; apply fmt_scaled; lia).
    unfold par_d. rewrite (rnd_id _ FD).
    destruct (Rle_or_lt r l) as [Q|Q].
    - rewrite Rabs_pos_eq by lra.
      assert (l - r + eta <= - den); [|nra].
      pose proof den_le as H. replace (r - c) with (- (c - r)) in H by ring. rewrite rnd_opp in H.
      assert (CL : l + eta <= c).
      { destruct (fmt_multiple c Fc) as [kc Ec]. rewrite Ec, El in Hl |- *.
        assert (kl < kc)%Z by (apply lt_IZR; apply Rmult_lt_reg_r with eta; auto).
        assert (IZR (kl + 1) <= IZR kc) by (apply IZR_le; lia). rewrite plus_IZR in H1. nra. }
      assert (l - r + eta <= rnd (c - r)); [|lra].
      apply rnd_ge_fmt; [|lra]. rewrite LR.
      replace (IZR (kl - kr) * eta + eta) with (IZR (kl - kr + 1) * eta) by (rewrite plus_IZR; ring).
      apply fmt_scaled; lia.
    - pose proof (den_exact_ge Q) as G.
      destruct (rnd_plus par_s r (rnd_fmt _) Fr) as (e1 & B1 & E1). apply Rabs_le_inv in B1.
      unfold par_den. rewrite E1. rewrite Rabs_left by lra.
      set (u := uro) in *. set (B := r - l + eta) in *. set (A := - (par_s + r)) in *.
      assert (PB : 0 < B) by (unfold B; lra).
      assert (PA : 0 < A) by nra.
      replace (- ((par_s + r) * (1 + e1)) * (1 + 6 * u)) with (A * (1 + e1) * (1 + 6 * u))
        by (unfold A; ring).
      replace (- (l - r) + eta) with B by (unfold B; ring).
      apply Rle_trans with (B * (1 + u)); [nra|].
      apply Rle_trans with (B * (1 - 2 * u) * (1 - u) * (1 + 6 * u)).
      + assert (1 + u <= (1 - 2 * u) * (1 - u) * (1 + 6 * u)); [|nra].
        assert (0 <= u * u) by nra.
        replace ((1 - 2 * u) * (1 - u) * (1 + 6 * u)) with
          (1 + 3 * u - 16 * (u * u) + 12 * (u * u) * u) by ring.
        assert (u * u <= u * / 1024) by nra. nra.
      + apply Rmult_le_compat_r; [lra|].
        apply Rle_trans with (A * (1 - u)); [nra|]. nra.
  Qed.

  (** Half of the distance, compared with the denominator. *)
  Lemma half_den : Rabs (rnd (d / 2)) <= / 2 * (Rabs den * (1 + 6 * uro)).
  Proof.
    destruct (Rle_or_lt (bpow radix2 (-1021)) (Rabs (l - r))) as [B|B].
    - rewrite rnd_id.
      + unfold Rdiv. rewrite Rabs_mult, (Rabs_pos_eq (/ 2)) by lra. pose proof d_den. lra.
      + apply fmt_half; [apply rnd_fmt|]. right. unfold par_d. rewrite rnd_abs.
        apply rnd_ge_fmt; [apply fmt_bpow; lia|exact B].
    - pose proof (d_den_tiny B) as T. pose proof eta_pos as N0.
      pose proof (rnd_error (d / 2)) as RE.
      assert (U : ulp radix2 fexp64 (d / 2) <= eta).
      { destruct (Req_dec d 0) as [Z|NZ].
        - rewrite Z. replace (0 / 2) with 0 by field. rewrite ulp_FLT_0; [lra|exact prec_pos].
        - rewrite ulp_neq_0 by lra. unfold cexp. apply bpow_le.
          assert (mag radix2 (d / 2) <= -1021)%Z.
          { apply mag_le_bpow; [lra|].
            assert (Rabs d <= bpow radix2 (-1021)).
            { unfold par_d. apply rnd_abs_le; [apply fmt_bpow; lia|lra]. }
            unfold Rdiv. rewrite Rabs_mult, (Rabs_pos_eq (/ 2)) by lra.
            pose proof (bpow_gt_0 radix2 (-1021)). lra. }
          unfold FLT_exp. lia. }
      assert (Rabs (rnd (d / 2)) <= Rabs (d / 2) + / 2 * eta).
      { replace (rnd (d / 2)) with (d / 2 + (rnd (d / 2) - d / 2)) by ring.
        eapply Rle_trans; [apply Rabs_triang|]. lra. }
      unfold Rdiv in *. rewrite Rabs_mult, (Rabs_pos_eq (/ 2)) in H by lra. lra.
  Qed.

  (** Nothing tiny. *)
  Definition not_tiny : Prop := l = r \/ bpow radix2 (-1021) <= Rabs (l - r).

  Lemma d_not_tiny : not_tiny -> d = 0 \/ bpow radix2 (-1021) <= Rabs d.
  Proof.
    intros [E|E].
    - left. unfold par_d. rewrite E, Rminus_diag_eq by reflexivity. apply rnd_0.
    - right. unfold par_d. rewrite rnd_abs. apply rnd_ge_fmt; [apply fmt_bpow; lia|exact E].
  Qed.

  Lemma half_d : not_tiny -> rnd (d / 2) = d / 2.
  Proof.
    intros NT. apply rnd_id. apply fmt_half; [apply rnd_fmt|]. now apply d_not_tiny.
  Qed.

  Lemma off_tight : Rabs off <= / 2 + 3 * bpow radix2 (-53).
  Proof.
    pose proof den_neg as DN. pose proof half_den as HD.
    unfold par_off. apply rnd_abs_le.
    - replace (/ 2 + 3 * bpow radix2 (-53)) with (IZR (2 ^ 52 + 3) * bpow radix2 (-53)).
      + apply fmt_scaled; lia.
      + rewrite plus_IZR, Rmult_plus_distr_r. f_equal.
        change (IZR (2 ^ 52)) with (bpow radix2 52). rewrite <- bpow_plus. reflexivity.
    - unfold Rdiv at 1. rewrite Rabs_mult, Rabs_inv.
      assert (P : 0 < Rabs den) by (apply Rabs_pos_lt; lra).
      apply Rmult_le_reg_r with (Rabs den); auto.
      rewrite Rmult_assoc, Rinv_l, Rmult_1_r by lra.
      rewrite <- uro_val. lra.
  Qed.

  Lemma off_wide : Rabs off <= 3 / 4.
  Proof.
    pose proof off_tight as O. rewrite <- uro_val in O. pose proof uro_small. lra.
  Qed.

  Lemma off_sign : (l <= r -> 0 <= off) /\ (r <= l -> off <= 0).
  Proof.
    pose proof den_neg as DN. assert (I : / den < 0) by (apply Rinv_lt_0_compat; exact DN).
    split; intros H; unfold par_off.
    - apply rnd_ge_fmt; [apply generic_format_0|].
      assert (rnd (d / 2) <= 0); [|unfold Rdiv; nra].
      apply rnd_le_fmt; [apply generic_format_0|].
      assert (d <= 0); [|lra]. apply rnd_le_fmt; [apply generic_format_0|lra].
    - apply rnd_le_fmt; [apply generic_format_0|].
      assert (0 <= rnd (d / 2)); [|unfold Rdiv; nra].
      apply rnd_ge_fmt; [apply generic_format_0|].
      assert (0 <= d); [|lra]. apply rnd_ge_fmt; [apply generic_format_0|lra].
  Qed.

  Lemma off_even : l = r -> d = 0 /\ off = 0.
  Proof.
    intros E. assert (D : d = 0).
    { unfold par_d. rewrite E, Rminus_diag_eq by reflexivity. apply rnd_0. }
    split; auto. unfold par_off. rewrite D. replace (0 / 2) with 0 by field. rewrite rnd_0.
    unfold Rdiv. rewrite Rmult_0_l. apply rnd_0.
  Qed.

  (** ** The location *)

  Lemma loc_tight : forall i, (1 <= i <= 2 ^ 50)%Z ->
    Rabs (rnd (IZR i + off) - IZR i) <= / 2 + bpow radix2 (-51).
  Proof.
    intros i Hi. pose proof off_tight as O. apply Rabs_le_inv in O.
    set (h := bpow radix2 (-53)) in *.
    assert (H0 : 0 < h) by apply bpow_gt_0.
    assert (E51 : bpow radix2 (-51) = 4 * h).
    { unfold h. change (-51)%Z with (2 + -53)%Z. rewrite bpow_plus. reflexivity. }
    assert (E50 : bpow radix2 (-50) = 8 * h).
    { unfold h. change (-50)%Z with (3 + -53)%Z. rewrite bpow_plus. reflexivity. }
    assert (FH : forall k, (1 <= k <= 2 ^ 52)%Z -> fmt (IZR k / 2)).
    { intros k Hk. replace (IZR k / 2) with (IZR k * bpow radix2 (-1)) by (cbn; field).
      apply fmt_scaled; lia. }
    assert (FS : forall k s, (0 <= k < 8)%Z -> (Z.abs s <= 1)%Z -> fmt (IZR k / 2 + IZR s * (4 * h))).
    { intros k s0 Hk Hs.
      replace (IZR k / 2 + IZR s0 * (4 * h)) with (IZR (k * 2 ^ 50 + s0) * bpow radix2 (-51)).
      - apply fmt_scaled; [|lia]. change (2 ^ 53)%Z with (8 * 2 ^ 50)%Z. nia.
      - rewrite plus_IZR, mult_IZR, Rmult_plus_distr_r, E51. f_equal.
        rewrite Rmult_assoc, <- E51. change (IZR (2 ^ 50)) with (bpow radix2 50).
        rewrite <- bpow_plus. reflexivity. }
    rewrite E51. apply Rabs_le. split.
    - assert (rnd (IZR i + off) >= IZR (2 * i - 1) / 2 + IZR (-1) * (4 * h)); [|rewrite minus_IZR, mult_IZR in *; lra].
      apply Rle_ge.
      destruct (Z_lt_le_dec i 5) as [S|S].
      + apply rnd_ge_fmt; [apply FS; lia|]. rewrite minus_IZR, mult_IZR. lra.
      + apply Rle_trans with (IZR (2 * i - 1) / 2); [lra|].
        assert (FX : fmt (IZR (2 * i - 1) / 2)) by (apply FH; lia).
        assert (G : 4 <= IZR (2 * i - 1) / 2).
        { assert (9 <= IZR (2 * i - 1)) by (apply IZR_le; lia). lra. }
        unfold rnd. apply round_N_ge_midp; auto with typeclass_instances.
        assert (PU : pred radix2 fexp64 (IZR (2 * i - 1) / 2) <= IZR (2 * i - 1) / 2 - 8 * h).
        { assert (G' : 4 < IZR (2 * i - 1) / 2).
          { assert (9 <= IZR (2 * i - 1)) by (apply IZR_le; lia). lra. }
          assert (P4 : 4 <= pred radix2 fexp64 (IZR (2 * i - 1) / 2)).
          { apply pred_ge_gt; auto with typeclass_instances.
            change 4 with (bpow radix2 2). apply fmt_bpow. lia. }
          assert (PF : fmt (pred radix2 fexp64 (IZR (2 * i - 1) / 2)))
            by (apply generic_format_pred; auto with typeclass_instances).
          assert (X0 : 0 < IZR (2 * i - 1) / 2) by lra.
          pose proof (pred_plus_ulp radix2 fexp64 _ X0 FX) as PP.
          assert (UL : 8 * h <= ulp radix2 fexp64 (pred radix2 fexp64 (IZR (2 * i - 1) / 2))).
          { clear PP PF. revert P4. generalize (pred radix2 fexp64 (IZR (2 * i - 1) / 2)).
            intros y P4. rewrite ulp_neq_0 by lra. rewrite <- E50. apply bpow_le.
            unfold cexp, FLT_exp. assert (2 < mag radix2 y)%Z.
            { apply mag_gt_bpow. rewrite Rabs_pos_eq by lra. exact P4. }
            lia. }
          lra. }
        rewrite minus_IZR, mult_IZR in *. lra.
    - assert (rnd (IZR i + off) <= IZR (2 * i + 1) / 2 + IZR 1 * (4 * h)); [|rewrite plus_IZR, mult_IZR in *; lra].
      destruct (Z_lt_le_dec i 3) as [S|S].
      + apply rnd_le_fmt; [apply FS; lia|]. rewrite plus_IZR, mult_IZR. lra.
      + destruct (Z.eq_dec i 3) as [->|N3].
        { apply rnd_le_fmt; [apply FS; lia|]. rewrite plus_IZR, mult_IZR. lra. }
        apply Rle_trans with (IZR (2 * i + 1) / 2); [|lra].
        assert (FX : fmt (IZR (2 * i + 1) / 2)) by (apply FH; lia).
        assert (G : 4 <= IZR (2 * i + 1) / 2).
        { assert (9 <= IZR (2 * i + 1)) by (apply IZR_le; lia). lra. }
        unfold rnd. apply round_N_le_midp; auto with typeclass_instances.
        rewrite succ_eq_pos by lra.
        assert (UL : 8 * h <= ulp radix2 fexp64 (IZR (2 * i + 1) / 2)).
        { rewrite ulp_neq_0 by lra. rewrite <- E50. apply bpow_le. unfold cexp, FLT_exp.
          assert (2 < mag radix2 (IZR (2 * i + 1) / 2))%Z.
          { apply mag_gt_bpow. rewrite Rabs_pos_eq by lra. exact G. }
          lia. }
        rewrite plus_IZR, mult_IZR in *. lra.
  Qed.

  (** ** The magnitude *)

  Definition par_p : R := rnd (rnd (d / 4) * off).

  Lemma p_neg : par_p <= 0.
  Proof.
    unfold par_p. apply rnd_le_fmt; [apply generic_format_0|].
    destruct off_sign as [S1 S2]. destruct (Rle_or_lt l r) as [L|L].
    - specialize (S1 L). assert (rnd (d / 4) <= 0); [|nra].
      apply rnd_le_fmt; [apply generic_format_0|].
      assert (d <= 0); [|lra]. apply rnd_le_fmt; [apply generic_format_0|lra].
    - specialize (S2 (Rlt_le _ _ L)). assert (0 <= rnd (d / 4)); [|nra].
      apply rnd_ge_fmt; [apply generic_format_0|].
      assert (0 <= d); [|lra]. apply rnd_ge_fmt; [apply generic_format_0|lra].
  Qed.

  Lemma mag_ge : c <= rnd (c - par_p).
  Proof. apply rnd_ge_fmt; auto. pose proof p_neg. lra. Qed.
End Parabola.
