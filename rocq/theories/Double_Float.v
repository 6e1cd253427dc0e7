(** Facts about binary64 numbers. *)
From Coq Require Import ZArith Reals Lra Lia Bool List Permutation.
From Flocq Require Import Core IEEE754.BinarySingleNaN Relative Plus_error.
Import ListNotations.
From Verif Require Import Base Double_Model Double_Spec.
Local Open Scope R_scope.

(** Rounding a real number to the nearest double (without overflow). *)
Definition rnd (x : R) : R := round radix2 (FLT_exp (-1074) 53) ZnearestE x.

Notation val := (@B2R 53 1024).
Notation finite x := (is_finite (prec:=53) (emax:=1024) x = true).
Notation notnan x := (is_nan (prec:=53) (emax:=1024) x = false).
Notation blt := (@Bltb 53 1024).
Notation bsub := (@Bminus 53 1024 prec_pos prec_emax mode_NE).
Notation badd := (@Bplus 53 1024 prec_pos prec_emax mode_NE).
Notation bmul := (@Bmult 53 1024 prec_pos prec_emax mode_NE).
Notation bdiv := (@Bdiv 53 1024 prec_pos prec_emax mode_NE).
Notation babs := (@Babs 53 1024).

(** Comparison of doubles that are not NaN. *)
Definition xlt (x y : f64_num) : Prop :=
  match x, y with
  | B754_infinity true, B754_infinity true => False
  | B754_infinity true, _ => True
  | B754_infinity false, _ => False
  | _, B754_infinity b => b = false
  | _, _ => val x < val y
  end.

Lemma blt_iff : forall x y : f64_num, notnan x -> notnan y -> (blt x y = true <-> xlt x y).
Proof.
  intros x y Nx Ny.
  assert (F : finite x -> finite y -> (blt x y = true <-> val x < val y)).
  { intros Fx Fy. rewrite (Bltb_correct 53 1024 x y Fx Fy).
    destruct (Rlt_bool_spec (val x) (val y)); split; intros; auto; try discriminate; lra. }
  destruct x as [sx|[|]| |sx mx ex Hx], y as [sy|[|]| |sy my ey Hy];
    try discriminate Nx; try discriminate Ny;
    try (apply F; reflexivity); cbn; intuition congruence.
Qed.

Lemma f64_comparable : @comparable f64 (fun x => notnan x).
Proof.
  constructor; cbn [lt f64].
  - intros x Nx. destruct (blt x x) eqn:E; auto. apply blt_iff in E; auto.
    destruct x as [|[|]| |]; cbn [xlt] in E; try tauto; try (exfalso; lra); lra.
  - intros x y z Nx Ny Nz H1 H2. apply blt_iff in H1; auto. apply blt_iff in H2; auto.
    apply blt_iff; auto.
    destruct x as [sx|[|]| |sx mx ex Hx], y as [sy|[|]| |sy my ey Hy], z as [sz|[|]| |sz mz ez Hz];
      cbn [xlt] in *; try tauto; try discriminate; lra.
  - intros x y z Nx Ny Nz H1 H2.
    destruct (blt x z) eqn:E; auto. exfalso. apply blt_iff in E; auto.
    assert (N1 : ~ xlt x y). { intro Q. apply blt_iff in Q; auto. congruence. }
    assert (N2 : ~ xlt y z). { intro Q. apply blt_iff in Q; auto. congruence. }
    destruct x as [sx|[|]| |sx mx ex Hx], y as [sy|[|]| |sy my ey Hy], z as [sz|[|]| |sz mz ez Hz];
      cbn [xlt] in *; try tauto; try discriminate; lra.
Qed.

Lemma SF_notnan : forall x : f64_num, is_nan_SF (B2SF x) = false -> notnan x.
Proof. now intros [| | |]. Qed.

Lemma finite_notnan : forall x : f64_num, finite x -> notnan x.
Proof. now intros [| | |]. Qed.

Lemma bsub_notnan : forall x y : f64_num, finite x -> finite y -> notnan (bsub x y).
Proof.
  intros x y Fx Fy. pose proof (Bminus_correct 53 1024 prec_pos prec_emax mode_NE x y Fx Fy) as H.
  destruct (Rlt_bool _ _).
  - apply finite_notnan. tauto.
  - apply SF_notnan. rewrite (proj1 H). apply is_nan_binary_overflow.
Qed.

Lemma babs_notnan : forall x : f64_num, notnan x -> notnan (babs x).
Proof. now intros [| | |]. Qed.

Lemma bmul_notnan : forall x y : f64_num, finite x -> finite y -> notnan (bmul x y).
Proof.
  intros x y Fx Fy. pose proof (Bmult_correct 53 1024 prec_pos prec_emax mode_NE x y) as H.
  destruct (Rlt_bool _ _).
  - apply finite_notnan. destruct H as (_ & H & _). rewrite H. now apply andb_true_iff.
  - apply SF_notnan. rewrite H. apply is_nan_binary_overflow.
Qed.

Lemma badd_notnan : forall x y : f64_num, finite x -> notnan y -> notnan (badd x y).
Proof.
  intros x y Fx Ny. destruct y as [sy|sy| |sy my ey Hy] eqn:Ey; try discriminate Ny.
  2: { destruct x as [| | |]; try discriminate Fx; destruct sy; reflexivity. }
  all: rewrite <- Ey in *; assert (Fy : finite y) by (subst; reflexivity);
    pose proof (Bplus_correct 53 1024 prec_pos prec_emax mode_NE x y Fx Fy) as H;
    destruct (Rlt_bool _ _); [apply finite_notnan; tauto|];
    apply SF_notnan; rewrite (proj1 H); apply is_nan_binary_overflow.
Qed.

(** ** Ceiling *)

Lemma f64_ceil_spec : forall x : f64_num, finite x -> f64_ceil x = Ok (Zceil (val x)).
Proof.
  intros [s|s| |s m e H] F; try discriminate F.
  - cbn. f_equal. symmetry. apply Zceil_IZR.
  - unfold f64_ceil. f_equal. unfold B2R, F2R. cbn [Fnum Fexp].
    set (z := if s then Zneg m else Zpos m).
    replace (cond_Zopp s (Zpos m)) with z by (now destruct s).
    destruct (Z.leb_spec 0 e) as [L|L].
    + symmetry. replace (IZR z * bpow radix2 e) with (IZR (z * 2 ^ e)); [apply Zceil_IZR|].
      rewrite mult_IZR. f_equal. rewrite <- IZR_Zpower by auto. reflexivity.
    + unfold Zceil. f_equal.
      replace (- (IZR z * bpow radix2 e)) with (IZR (- z) / IZR (2 ^ (- e))).
      * symmetry. apply Zfloor_div. apply Z.pow_nonzero; lia.
      * rewrite opp_IZR. replace e with (- (- e))%Z at 2 by lia.
        rewrite bpow_opp. unfold Rdiv.
        replace (IZR (2 ^ - e)) with (bpow radix2 (- e)); [ring|].
        rewrite <- IZR_Zpower by lia. reflexivity.
Qed.

Lemma bdiv_val : forall x y : f64_num, finite x -> val y <> 0 ->
  Rabs (rnd (val x / val y)) < bpow radix2 1024 ->
  finite (bdiv x y) /\ val (bdiv x y) = rnd (val x / val y).
Proof.
  intros x y Fx Ny B. pose proof (Bdiv_correct 53 1024 prec_pos prec_emax mode_NE x y Ny) as H.
  unfold rnd in B. rewrite Rlt_bool_true in H by exact B. destruct H as (H1 & H2 & _).
  rewrite H2. auto.
Qed.

Lemma bmul_val : forall x y : f64_num, finite x -> finite y ->
  Rabs (rnd (val x * val y)) < bpow radix2 1024 ->
  finite (bmul x y) /\ val (bmul x y) = rnd (val x * val y).
Proof.
  intros x y Fx Fy B. pose proof (Bmult_correct 53 1024 prec_pos prec_emax mode_NE x y) as H.
  unfold rnd in B. rewrite Rlt_bool_true in H by exact B. destruct H as (H1 & H2 & _).
  rewrite H2, Fx, Fy. auto.
Qed.

(** ** Distances *)

Lemma rnd_sub : forall x y : f64_num, exists eps, Rabs eps <= / 2 * bpow radix2 (-52) /\
  rnd (val x - val y) = (val x - val y) * (1 + eps).
Proof.
  intros x y.
  destruct (FLT_plus_error_N_ex radix2 (-1074) 53 (prec_gt_0_ := prec_pos) (fun z => negb (Z.even z)) (val x) (- val y))
    as (eps & B & E).
  - apply (generic_format_B2R 53 1024).
  - apply generic_format_opp. apply (generic_format_B2R 53 1024).
  - exists eps. split.
    + eapply Rle_trans; [exact B|].
      assert (U : 0 < u_ro radix2 53).
      { unfold u_ro. apply Rmult_lt_0_compat; [lra|apply bpow_gt_0]. }
      assert (H : u_ro radix2 53 / (1 + u_ro radix2 53) <= u_ro radix2 53).
      { apply Rmult_le_reg_r with (1 + u_ro radix2 53); [lra|].
        unfold Rdiv. rewrite Rmult_assoc, Rinv_l by lra. nra. }
      exact H.
    + exact E.
Qed.

(** If the rounded distance of [y] from [f] is not below the rounded distance
    of [x], which is finite, the exact distances compare up to a factor very
    close to one. *)
Lemma gap_order : forall x y f : f64_num, finite x -> finite y -> finite f ->
  finite (babs (bsub x f)) -> blt (babs (bsub y f)) (babs (bsub x f)) = false ->
  (1 - / 2 * bpow radix2 (-52)) * Rabs (val x - val f)
  <= (1 + / 2 * bpow radix2 (-52)) * Rabs (val y - val f).
Proof.
  intros x y f Fx Fy Ff FG L.
  assert (FG' : finite (bsub x f)) by (rewrite <- is_finite_Babs; exact FG).
  assert (Vx : val (bsub x f) = rnd (val x - val f) /\
               Rabs (rnd (val x - val f)) < bpow radix2 1024).
  { pose proof (Bminus_correct 53 1024 prec_pos prec_emax mode_NE x f Fx Ff) as H.
    revert H; case Rlt_bool_spec; intros H0 H.
    - split; [tauto|exact H0].
    - exfalso. destruct H as [H _]. destruct (bsub x f) as [| | |]; cbn in H, FG'; discriminate. }
  destruct Vx as [Vx Bx].
  set (u := / 2 * bpow radix2 (-52)).
  assert (U0 : 0 < u) by (unfold u; pose proof (bpow_gt_0 radix2 (-52)); lra).
  assert (U1 : u <= / 2).
  { unfold u. assert (bpow radix2 (-52) <= bpow radix2 0) by (apply bpow_le; lia). cbn in H |- *. lra. }
  destruct (rnd_sub x f) as (e1 & B1 & E1). destruct (rnd_sub y f) as (e2 & B2 & E2).
  fold u in B1, B2.
  assert (K : Rabs (rnd (val x - val f)) <= Rabs (rnd (val y - val f))).
  { pose proof (Bminus_correct 53 1024 prec_pos prec_emax mode_NE y f Fy Ff) as H.
    revert H; case Rlt_bool_spec; intros H0 H.
    - destruct H as (Vy & Fyf & _).
      rewrite Bltb_correct in L; [|now rewrite is_finite_Babs|exact FG].
      rewrite !B2R_Babs, Vx, Vy in L.
      destruct (Rlt_bool_spec (Rabs (round radix2 (SpecFloat.fexp 53 1024) (round_mode mode_NE) (val y - val f)))
        (Rabs (rnd (val x - val f)))) as [Q|Q]; [discriminate L|exact Q].
    - unfold rnd at 2. apply Rlt_le. eapply Rlt_le_trans; [exact Bx|exact H0]. }
  rewrite E1, E2, !Rabs_mult in K.
  assert (A1 : 1 - u <= Rabs (1 + e1)).
  { apply Rabs_def2b in B1 || apply Rabs_le_inv in B1. rewrite Rabs_pos_eq by lra. lra. }
  assert (A2 : Rabs (1 + e2) <= 1 + u).
  { apply Rabs_le_inv in B2. rewrite Rabs_pos_eq by lra. lra. }
  pose proof (Rabs_pos (val x - val f)). pose proof (Rabs_pos (val y - val f)). nra.
Qed.

(** Nothing is below NaN and NaN is below nothing. *)
Lemma blt_nan_r : forall x y : f64_num, is_nan y = true -> blt x y = false.
Proof. intros [| | |] [| | |] H; try discriminate H; reflexivity. Qed.
Lemma blt_nan_l : forall x y : f64_num, is_nan x = true -> blt x y = false.
Proof. intros [| | |] [| | |] H; try discriminate H; reflexivity. Qed.
Lemma gap_nan : forall x y : f64_num, is_nan x = true -> is_nan (babs (bsub x y)) = true.
Proof. intros [| | |] [| | |] H; try discriminate H; reflexivity. Qed.
