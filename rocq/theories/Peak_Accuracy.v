(** How far the computed vertex is from that of the parabola (C106). *)
From Coq Require Import ZArith Reals Lra Lia.
From Flocq Require Import Core Relative.
From Verif Require Import Double_Model Double_Float Peak_Round.
Local Open Scope R_scope.

Lemma rnd_near : forall x, Rabs (rnd x - x) <= uro * Rabs x + / 2 * bpow radix2 (-1074).
Proof.
  intros x.
  destruct (error_N_FLT radix2 (-1074) 53 prec_pos (fun z => negb (Z.even z)) x)
    as (e & h & B1 & B2 & _ & E).
  unfold rnd. rewrite E. replace (x * (1 + e) + h - x) with (x * e + h) by ring.
  eapply Rle_trans; [apply Rabs_triang|]. rewrite Rabs_mult.
  pose proof (Rabs_pos x).
  assert (Rabs e <= uro) by exact B1.
  nra.
Qed.

(** The vertex of the parabola through three points at -1, 0 and 1. *)
Definition vertex_x (l c r : R) : R := (l - r) / (2 * (l - 2 * c + r)).
Definition vertex_y (l c r : R) : R := c - (l - r) * (l - r) / (8 * (l - 2 * c + r)).

(** It is the vertex: there is one parabola through the points, and this is
    where it is greatest. *)
Lemma vertex_spec : forall l c r a b, a - b + c = l -> a + b + c = r -> l < c -> r < c ->
  vertex_y l c r = a * (vertex_x l c r * vertex_x l c r) + b * vertex_x l c r + c /\
  forall x, a * (x * x) + b * x + c <= vertex_y l c r.
Proof.
  intros l c r a b E1 E2 L R. subst l r. unfold vertex_x, vertex_y.
  assert (A : a < 0) by lra.
  replace (a - b + c - (a + b + c)) with (- 2 * b) by ring.
  replace (a - b + c - 2 * c + (a + b + c)) with (2 * a) by ring.
  split; [field; lra|].
  intros x. replace (c - -2 * b * (-2 * b) / (8 * (2 * a))) with (c - b * b / (4 * a)) by (field; lra).
  apply Rminus_le.
  replace (a * (x * x) + b * x + c - (c - b * b / (4 * a)))
    with (a * ((x + b / (2 * a)) * (x + b / (2 * a)))) by (field; lra).
  pose proof (Rle_0_sqr (x + b / (2 * a))) as S. unfold Rsqr in S. nra.
Qed.

Section Accuracy.
  Variables l c r : R.
  Hypotheses (Fl : fmt l) (Fc : fmt c) (Fr : fmt r).
  Hypotheses (Hl : l < c) (Hr : r < c).
  Hypothesis NT : not_tiny l r.
  (** The peak is not flat. *)
  Hypothesis Sharp : bpow radix2 (-20) * (2 * Rabs c + Rabs l) <= 2 * c - l - r.

  Let A := 2 * c - l - r.
  Let D := l - r.
  Let X := D / (2 * - A).

  Lemma X_vertex : X = vertex_x l c r.
  Proof. unfold X, vertex_x, D, A. do 2 f_equal. ring. Qed.

  Lemma A_pos : 0 < A. Proof. unfold A. lra. Qed.
  Lemma D_le : Rabs D <= A.
  Proof. unfold D, A. apply Rabs_le. lra. Qed.
  Lemma X_half : Rabs X <= / 2.
  Proof.
    pose proof A_pos. pose proof D_le. unfold X, Rdiv.
    rewrite Rabs_mult, Rabs_inv, Rabs_mult, Rabs_Ropp, (Rabs_pos_eq 2), (Rabs_pos_eq A) by lra.
    apply Rmult_le_reg_r with (2 * A); [lra|].
    rewrite Rmult_assoc, Rinv_l by lra. lra.
  Qed.

  Lemma u_e20 : uro * / bpow radix2 (-20) = bpow radix2 (-33).
  Proof. rewrite uro_val, <- bpow_opp, <- bpow_plus. reflexivity. Qed.

  (** The quotient before its last rounding, relative to the exact one. *)
  Lemma quotient_near : exists t, Rabs t <= 2 * bpow radix2 (-33) - 8 * uro /\
    par_d l r / 2 / par_den l c r = X * (1 + t).
  Proof.
    pose proof A_pos as PA. pose proof uro_pos as U0.
    set (e33 := bpow radix2 (-33)).
    assert (E33 : e33 = 1048576 * uro).
    { unfold e33. rewrite <- u_e20. rewrite <- bpow_opp. cbn. lra. }
    assert (US : uro <= / 4294967296).
    { assert (bpow radix2 (-52) <= bpow radix2 (-31)) by (apply bpow_le; lia). cbn in H |- *. lra. }
    destruct (rnd_minus l (2 * c) Fl (fmt_double c Fc)) as (e1 & B1 & E1).
    destruct (rnd_plus (par_s l c) r (rnd_fmt _) Fr) as (e2 & B2 & E2).
    destruct (rnd_minus l r Fl Fr) as (e3 & B3 & E3).
    set (th := - (l - 2 * c) * e1 / A).
    assert (TH : Rabs th <= e33).
    { unfold th, Rdiv. rewrite !Rabs_mult, Rabs_inv, (Rabs_pos_eq A) by lra. rewrite Rabs_Ropp.
      apply Rmult_le_reg_r with A; auto. rewrite Rmult_assoc, Rinv_l, Rmult_1_r by lra.
      assert (Rabs (l - 2 * c) <= 2 * Rabs c + Rabs l).
      { unfold Rminus. eapply Rle_trans; [apply Rabs_triang|].
        rewrite Rabs_Ropp, Rabs_mult, (Rabs_pos_eq 2) by lra. lra. }
      fold A in Sharp.
      assert (S : 2 * Rabs c + Rabs l <= A * / bpow radix2 (-20)).
      { apply Rmult_le_reg_l with (bpow radix2 (-20)); [apply bpow_gt_0|].
        replace (bpow radix2 (-20) * (A * / bpow radix2 (-20))) with A; auto.
        field. pose proof (bpow_gt_0 radix2 (-20)). lra. }
      unfold e33. rewrite <- u_e20. pose proof (Rabs_pos e1). pose proof (Rabs_pos (l - 2 * c)).
      apply Rle_trans with (A * / bpow radix2 (-20) * uro); [|right; ring].
      apply Rmult_le_compat; auto. lra. }
    assert (Es : par_s l c + r = - A * (1 + th)).
    { unfold par_s. rewrite E1. unfold th, A. field. unfold A in PA. lra. }
    exists ((1 + e3) / ((1 + th) * (1 + e2)) - 1).
    apply Rabs_le_inv in TH. apply Rabs_le_inv in B2. apply Rabs_le_inv in B3.
    assert (P1 : 0 < (1 + th) * (1 + e2)) by (apply Rmult_lt_0_compat; lra).
    split.
    - set (K := 2 * e33 - 8 * uro).
      assert (K0 : K = 2097144 * uro) by (unfold K; rewrite E33; ring).
      apply Rabs_le. split.
      + apply Rplus_le_reg_r with 1. ring_simplify.
        apply Rmult_le_reg_r with ((1 + th) * (1 + e2)); auto.
        unfold Rdiv. rewrite Rmult_assoc, Rinv_l, Rmult_1_r by lra.
        apply Rle_trans with ((- K + 1) * ((1 + e33) * (1 + uro))).
        * apply Rmult_le_compat_l; [rewrite K0; lra|]. apply Rmult_le_compat; lra.
        * rewrite K0, E33. nra.
      + apply Rplus_le_reg_r with 1. ring_simplify.
        apply Rmult_le_reg_r with ((1 + th) * (1 + e2)); auto.
        unfold Rdiv. rewrite Rmult_assoc, Rinv_l, Rmult_1_r by lra.
        apply Rle_trans with ((K + 1) * ((1 - e33) * (1 - uro))).
        * rewrite K0, E33. nra.
        * apply Rmult_le_compat_l; [rewrite K0; lra|]. apply Rmult_le_compat; lra.
    - unfold par_d, par_den. rewrite E3, E2, Es. unfold X. fold D.
      field. repeat split; lra.
  Qed.

  Lemma off_near : Rabs (par_off l c r - X) <= bpow radix2 (-32).
  Proof.
    unfold par_off. rewrite half_d by assumption.
    destruct quotient_near as (t & Bt & ->).
    pose proof X_half as XH. pose proof (Rabs_pos X) as X0. pose proof uro_pos as U0.
    assert (E32 : bpow radix2 (-32) = 2 * bpow radix2 (-33)).
    { change (-32)%Z with (1 + -33)%Z. rewrite bpow_plus. reflexivity. }
    set (e33 := bpow radix2 (-33)) in *.
    assert (E33 : e33 = 1048576 * uro).
    { unfold e33. rewrite <- u_e20. rewrite <- bpow_opp. cbn. lra. }
    assert (W : bpow radix2 (-1074) <= uro).
    { rewrite uro_val. apply bpow_le. lia. }
    pose proof (rnd_near (X * (1 + t))) as N.
    replace (rnd (X * (1 + t)) - X) with ((rnd (X * (1 + t)) - X * (1 + t)) + X * t) by ring.
    eapply Rle_trans; [apply Rabs_triang|].
    assert (H1 : Rabs (X * t) <= e33).
    { rewrite Rabs_mult. pose proof (Rabs_pos t).
      apply Rle_trans with (/ 2 * (2 * e33 - 8 * uro)); [apply Rmult_le_compat; lra|lra]. }
    assert (H2 : Rabs (X * (1 + t)) <= 1).
    { replace (X * (1 + t)) with (X + X * t) by ring.
      eapply Rle_trans; [apply Rabs_triang|].
      assert (e33 <= / 2); [|lra].
      assert (e33 <= bpow radix2 (-1)) by (apply bpow_le; lia). cbn in H |- *. lra. }
    pose proof (Rabs_pos (X * (1 + t))). nra.
  Qed.

  Let V := vertex_y l c r.

  Lemma V_X : V = c - D / 4 * X.
  Proof. unfold V, vertex_y, X, D. pose proof A_pos. unfold A in *. field. lra. Qed.

  Lemma mag_near : l <> r ->
    Rabs (rnd (c - par_p l c r) - V) <= bpow radix2 (-32) * Rabs (l - r) + bpow radix2 (-52) * Rabs c.
  Proof.
    intros NE.
    assert (TD : bpow radix2 (-1021) <= Rabs D) by (destruct NT as [E|E]; [contradiction|exact E]).
    fold D. set (a := Rabs D) in *.
    assert (A0 : 0 < a) by (pose proof (bpow_gt_0 radix2 (-1021)); lra).
    set (w := / 2 * bpow radix2 (-1074)).
    assert (W : w <= a * uro * / 2).
    { rewrite uro_val. unfold w.
      apply Rle_trans with (bpow radix2 (-1021) * bpow radix2 (-53) * / 2).
      - rewrite <- bpow_plus. change (-1021 + -53)%Z with (-1074)%Z. lra.
      - pose proof (bpow_gt_0 radix2 (-53)). nra. }
    pose proof uro_pos as U0.
    assert (US : uro <= / 4294967296).
    { assert (bpow radix2 (-52) <= bpow radix2 (-31)) by (apply bpow_le; lia). cbn in H |- *. lra. }
    assert (E32 : bpow radix2 (-32) = 2097152 * uro).
    { rewrite uro_val. change (-32)%Z with (21 + -53)%Z. rewrite bpow_plus. reflexivity. }
    assert (E52 : bpow radix2 (-52) = 2 * uro) by (field).
    rewrite E52, E32.
    pose proof off_near as ON. rewrite E32 in ON. pose proof X_half as XH.
    set (off := par_off l c r) in *.
    set (u := uro) in *.
    (* the difference and its quarter *)
    destruct (rnd_minus l r Fl Fr) as (e3 & B3 & E3). fold u in B3. fold D in E3.
    set (g := rnd (par_d l r / 4)).
    assert (G : Rabs (g - D / 4) <= a * (2 * u)).
    { pose proof (rnd_near (par_d l r / 4)) as N. fold g in N. fold w in N. fold u in N.
      assert (Ed : par_d l r / 4 = D / 4 + D / 4 * e3).
      { unfold par_d. fold D. rewrite E3. field. }
      assert (Q : Rabs (D / 4 * e3) <= a * / 4 * u).
      { unfold Rdiv. rewrite !Rabs_mult, (Rabs_pos_eq (/ 4)) by lra. fold a.
        apply Rmult_le_compat_l; [lra|exact B3]. }
      assert (Q2 : Rabs (par_d l r / 4) <= a * / 4 * (1 + u)).
      { rewrite Ed. eapply Rle_trans; [apply Rabs_triang|].
        assert (Rabs (D / 4) = a * / 4).
        { unfold Rdiv. rewrite Rabs_mult, (Rabs_pos_eq (/ 4)) by lra. reflexivity. }
        lra. }
      replace (g - D / 4) with ((g - par_d l r / 4) + D / 4 * e3) by (rewrite Ed; ring).
      eapply Rle_trans; [apply Rabs_triang|].
      assert (u * Rabs (par_d l r / 4) <= u * (a * / 4 * (1 + u))) by (apply Rmult_le_compat_l; lra).
      assert (a * u * u <= a * u * / 8) by (apply Rmult_le_compat_l; [apply Rmult_le_pos; lra|lra]).
      assert (0 < a * u) by nra. lra. }
    (* the product *)
    assert (GA : Rabs g <= a * / 3).
    { replace g with ((g - D / 4) + D / 4) by ring. eapply Rle_trans; [apply Rabs_triang|].
      assert (Rabs (D / 4) = a * / 4).
      { unfold Rdiv. rewrite Rabs_mult, (Rabs_pos_eq (/ 4)) by lra. reflexivity. }
      assert (a * (2 * u) <= a * (2 * / 4294967296)) by (apply Rmult_le_compat_l; lra). lra. }
    assert (P : Rabs (g * off - D / 4 * X) <= a * (700000 * u)).
    { replace (g * off - D / 4 * X) with (g * (off - X) + (g - D / 4) * X) by ring.
      eapply Rle_trans; [apply Rabs_triang|]. rewrite !Rabs_mult.
      pose proof (Rabs_pos (off - X)). pose proof (Rabs_pos g).
      pose proof (Rabs_pos X). pose proof (Rabs_pos (g - D / 4)).
      assert (Rabs g * Rabs (off - X) <= a * / 3 * (2097152 * u))
        by (apply Rmult_le_compat; auto; lra).
      assert (Rabs (g - D / 4) * Rabs X <= a * (2 * u) * / 2) by (apply Rmult_le_compat; auto; lra).
      assert (0 < a * u) by nra. lra. }
    assert (OA : Rabs off <= 1).
    { replace off with ((off - X) + X) by ring. eapply Rle_trans; [apply Rabs_triang|].
      assert (2097152 * u <= / 4) by lra. lra. }
    assert (PP : Rabs (par_p l c r - D / 4 * X) <= a * (700001 * u)).
    { pose proof (rnd_near (g * off)) as N. fold u in N. fold w in N.
      change (rnd (g * off)) with (par_p l c r) in N.
      replace (par_p l c r - D / 4 * X) with
        ((par_p l c r - g * off) + (g * off - D / 4 * X)) by ring.
      eapply Rle_trans; [apply Rabs_triang|].
      assert (Rabs (g * off) <= a * / 3).
      { rewrite Rabs_mult. pose proof (Rabs_pos g). pose proof (Rabs_pos off).
        apply Rle_trans with (a * / 3 * 1); [apply Rmult_le_compat; auto|lra]. }
      assert (u * Rabs (g * off) <= u * (a * / 3)) by (apply Rmult_le_compat_l; lra).
      assert (0 < a * u) by nra. lra. }
    assert (PB : Rabs (par_p l c r) <= a).
    { replace (par_p l c r) with ((par_p l c r - D / 4 * X) + D / 4 * X) by ring.
      eapply Rle_trans; [apply Rabs_triang|].
      assert (Rabs (D / 4 * X) <= a * / 4 * / 2).
      { unfold Rdiv. rewrite !Rabs_mult, (Rabs_pos_eq (/ 4)) by lra. fold a.
        apply Rmult_le_compat_l; lra. }
      assert (a * (700001 * u) <= a * / 2) by (apply Rmult_le_compat_l; lra). lra. }
    pose proof (rnd_near (c - par_p l c r)) as N. fold u in N. fold w in N.
    rewrite V_X.
    replace (rnd (c - par_p l c r) - (c - D / 4 * X)) with
      ((rnd (c - par_p l c r) - (c - par_p l c r)) - (par_p l c r - D / 4 * X)) by ring.
    unfold Rminus at 1. eapply Rle_trans; [apply Rabs_triang|]. rewrite Rabs_Ropp.
    assert (Rabs (c - par_p l c r) <= Rabs c + a).
    { unfold Rminus. eapply Rle_trans; [apply Rabs_triang|]. rewrite Rabs_Ropp. lra. }
    assert (u * Rabs (c - par_p l c r) <= u * (Rabs c + a)) by (apply Rmult_le_compat_l; lra).
    pose proof (Rabs_pos c). assert (0 < u * a) by nra. assert (0 <= u * Rabs c) by nra. lra.
  Qed.
End Accuracy.
