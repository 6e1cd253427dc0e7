(** C108: bisection in double precision. *)
From Coq Require Import String ZArith Reals Lra Lia Bool List.
From Flocq Require Import Core IEEE754.BinarySingleNaN.
From Verif Require Import Base Double_Model Double_Float Peak_Model Peak_Round Peak_Proofs Peak_Props
  Bisect_Model.
Local Open Scope R_scope.

(** ** Signs *)

(** [x <= 0] and [0 <= x] as python compares: false for NaN. *)
Definition not_above (x : f64_num) : Prop := @Bleb 53 1024 x f_zero = true.
Definition not_below (x : f64_num) : Prop := @Bleb 53 1024 f_zero x = true.

Lemma signs_product : forall x y, not_above x -> not_below y ->
  fgt (fmul x y) f_zero = false /\ fgt (fmul y x) f_zero = false.
Proof.
  assert (G : forall x y : f64_num, finite x -> finite y -> val x * val y <= 0 ->
     @Bsign 53 1024 x = true /\ @Bsign 53 1024 y = false \/ @Bsign 53 1024 x = false /\ @Bsign 53 1024 y = true
     \/ val x * val y = 0 ->
     fgt (fmul x y) f_zero = false).
  { intros x y Fx Fy N SG. unfold fgt, fmul.
    pose proof (Bmult_correct 53 1024 prec_pos prec_emax mode_NE x y) as H.
    destruct (Rlt_bool_spec (Rabs (round radix2 (SpecFloat.fexp 53 1024) (round_mode mode_NE) (val x * val y)))
                (bpow radix2 1024)) as [L|L].
    - destruct H as (V & Fm & _). 
      rewrite Fx, Fy in Fm. cbn [andb] in Fm.
      rewrite Bltb_correct by (auto). apply Rlt_bool_false. rewrite V. cbn [B2R f_zero].
      apply (rnd_le_fmt (val x * val y) 0); [apply generic_format_0|exact N].
    - (* an overflow of a negative product *)
      destruct SG as [[S1 S2]|[[S1 S2]|Z]].
      + rewrite S1, S2 in H. cbn [xorb] in H. unfold binary_overflow in H. cbn in H.
        destruct (Bmult mode_NE x y) as [s|s| |s m e b]; cbn in H; try discriminate H.
        injection H as ->. reflexivity.
      + rewrite S1, S2 in H. cbn [xorb] in H. unfold binary_overflow in H. cbn in H.
        destruct (Bmult mode_NE x y) as [s|s| |s m e b]; cbn in H; try discriminate H.
        injection H as ->. reflexivity.
      + exfalso. rewrite Z in L. rewrite round_0, Rabs_R0 in L by auto with typeclass_instances.
        pose proof (bpow_gt_0 radix2 1024). lra. }
  intros x y Hx Hy. unfold not_above, not_below in *.
  destruct x as [sx|sx| |sx mx ex bx]; try discriminate Hx;
  destruct y as [sy|sy| |sy my ey by_]; try discriminate Hy.
  all: try (destruct sx; try discriminate Hx).
  all: try (destruct sy; try discriminate Hy).
  all: try (split; reflexivity).
  assert (NX : val (B754_finite true mx ex bx) < 0).
  { apply F2R_lt_0. reflexivity. }
  assert (PY : 0 < val (B754_finite false my ey by_)).
  { apply F2R_gt_0. reflexivity. }
  assert (N : val (B754_finite true mx ex bx) * val (B754_finite false my ey by_) <= 0).
  { assert (0 <= - val (B754_finite true mx ex bx) * val (B754_finite false my ey by_))
      by (apply Rmult_le_pos; lra). lra. }
  split; apply G; try reflexivity; try assumption.
  - left. split; reflexivity.
  - rewrite Rmult_comm. exact N.
  - right. left. split; reflexivity.
Qed.

(** ** Midpoints *)

Lemma mid_ok : forall lo hi : f64_num, finite lo -> finite hi ->
  Rabs (val lo) <= bpow radix2 1022 -> Rabs (val hi) <= bpow radix2 1022 ->
  finite (f_mid lo hi) /\
  Rmin (val lo) (val hi) <= val (f_mid lo hi) <= Rmax (val lo) (val hi) /\
  Rabs (val (f_mid lo hi) - (val lo + val hi) / 2)
    <= bpow radix2 (-53) * Rmax (Rabs (val lo)) (Rabs (val hi)) + / 2 * bpow radix2 (-1074).
Proof.
  intros lo hi Fl Fh Bl Bh. unfold f_mid.
  assert (B23 : bpow radix2 1023 = 2 * bpow radix2 1022).
  { change 1023%Z with (1 + 1022)%Z. rewrite bpow_plus. reflexivity. }
  assert (SB : Rabs (val lo + val hi) <= bpow radix2 1023).
  { eapply Rle_trans; [apply Rabs_triang|]. lra. }
  destruct (fadd_val lo hi Fl Fh SB) as [Fs Vs].
  destruct (f64_of_val 2 0 ltac:(lia) ltac:(lia)) as [F2 V2].
  change (2 * bpow radix2 0) with (2 * 1) in V2. rewrite Rmult_1_r in V2.
  assert (RB : Rabs (rnd (val lo + val hi)) <= bpow radix2 1023) by (apply rnd_abs_le; auto; apply fmt_bpow; lia).
  destruct (fdiv_val (fadd lo hi) (f64_of 2 0) Fs) as [Fq Vq].
  { rewrite V2. lra. }
  { rewrite Vs, V2. unfold Rdiv. rewrite Rabs_mult, (Rabs_pos_eq (/ 2)) by lra.
    pose proof (bpow_gt_0 radix2 1022). lra. }
  rewrite Vs, V2 in Vq. split; [exact Fq|]. rewrite Vq. split.
  - pose proof (val_fmt lo) as Ml. pose proof (val_fmt hi) as Mh.
    assert (K : forall x y, fmt x -> fmt y -> x <= y -> x <= rnd (rnd (x + y) / 2) <= y).
    { intros x y Fx Fy L. split.
      - apply rnd_ge_fmt; auto. assert (2 * x <= rnd (x + y)); [|lra].
        apply rnd_ge_fmt; [now apply fmt_double|lra].
      - apply rnd_le_fmt; auto. assert (rnd (x + y) <= 2 * y); [|lra].
        apply rnd_le_fmt; [now apply fmt_double|lra]. }
    destruct (Rle_or_lt (val lo) (val hi)) as [L|L].
    + rewrite Rmin_left, Rmax_right by assumption. now apply K.
    + rewrite Rmin_right, Rmax_left by lra. rewrite Rplus_comm. apply K; auto. lra.
  - set (x := val lo + val hi) in *.
    destruct (rnd_plus (val lo) (val hi) (val_fmt lo) (val_fmt hi)) as (e & Be & E). fold x in E.
    assert (XM : Rabs x <= 2 * Rmax (Rabs (val lo)) (Rabs (val hi))).
    { unfold x. eapply Rle_trans; [apply Rabs_triang|].
      pose proof (Rmax_l (Rabs (val lo)) (Rabs (val hi))). pose proof (Rmax_r (Rabs (val lo)) (Rabs (val hi))). lra. }
    assert (D1 : Rabs (rnd x / 2 - x / 2) <= bpow radix2 (-53) * Rmax (Rabs (val lo)) (Rabs (val hi))).
    { rewrite E. replace (x * (1 + e) / 2 - x / 2) with (x / 2 * e) by field.
      rewrite Rabs_mult. rewrite <- uro_val, (Rmult_comm uro). apply Rmult_le_compat; try apply Rabs_pos; auto.
      unfold Rdiv. rewrite Rabs_mult, (Rabs_pos_eq (/ 2)) by lra. lra. }
    assert (D2 : Rabs (rnd (rnd x / 2) - rnd x / 2) <= / 2 * bpow radix2 (-1074)).
    { pose proof (bpow_gt_0 radix2 (-1074)) as EP.
      destruct (Rle_or_lt (bpow radix2 (-1021)) (Rabs (rnd x))) as [L|L].
      - rewrite (rnd_id (rnd x / 2)).
        + replace (rnd x / 2 - rnd x / 2) with 0 by ring. rewrite Rabs_R0. lra.
        + apply fmt_half; [apply rnd_fmt|right; exact L].
      - eapply Rle_trans; [apply rnd_error|]. apply Rmult_le_compat_l; [lra|].
        apply Req_le. apply ulp_FLT_small; [exact prec_pos|].
        unfold Rdiv. rewrite Rabs_mult, (Rabs_pos_eq (/ 2)) by lra.
        apply Rlt_le_trans with (bpow radix2 (-1021) * / 2); [lra|].
        apply Rle_trans with (bpow radix2 (-1021)); [pose proof (bpow_gt_0 radix2 (-1021)); lra|].
        apply bpow_le. lia. }
    replace (rnd (rnd x / 2) - x / 2) with ((rnd x / 2 - x / 2) + (rnd (rnd x / 2) - rnd x / 2)) by ring.
    eapply Rle_trans; [apply Rabs_triang|]. lra.
Qed.

(** ** The loop *)

(** What is claimed of the result [a]: finite, between the two points; and
    either the function is neither above nor below zero there (zero, or NaN), or
    [a] lies between two points at which the function is not above and not
    below zero, whose distance is [width] at most. *)
Definition crossing (func : f64_num -> f64_num) (lo hi a : f64_num) (width : R) : Prop :=
  finite a /\ Rmin (val lo) (val hi) <= val a <= Rmax (val lo) (val hi) /\
  (fgt f_zero (func a) = false /\ fgt (func a) f_zero = false \/
   exists l r, finite l /\ finite r /\ not_above (func l) /\ not_below (func r) /\
     Rmin (val lo) (val hi) <= val l <= Rmax (val lo) (val hi) /\
     Rmin (val lo) (val hi) <= val r <= Rmax (val lo) (val hi) /\
     Rmin (val l) (val r) <= val a <= Rmax (val l) (val r) /\ Rabs (val l - val r) <= width).

Lemma gt_not_above : forall x, fgt f_zero x = true -> not_above x.
Proof.
  intros x H. unfold fgt, not_above in *. destruct x as [s|s| |s m e b]; try destruct s; try discriminate H; reflexivity.
Qed.
Lemma gt_not_below : forall x, fgt x f_zero = true -> not_below x.
Proof.
  intros x H. unfold fgt, not_below in *. destruct x as [s|s| |s m e b]; try destruct s; try discriminate H; reflexivity.
Qed.

Lemma minmax : forall x y z t, Rmin x y <= z <= Rmax x y -> Rmin x y <= t <= Rmax x y ->
  Rmin x y <= Rmin z t /\ Rmax z t <= Rmax x y.
Proof. intros x y z t A B. split; [apply Rmin_glb; lra|apply Rmax_lub; lra]. Qed.

Lemma mid_width : forall x y m d, Rmin x y <= m <= Rmax x y -> Rabs (m - (x + y) / 2) <= d ->
  Rabs (m - y) <= Rabs (x - y) / 2 + d /\ Rabs (x - m) <= Rabs (x - y) / 2 + d.
Proof.
  intros x y m d _ D. apply Rabs_le_inv in D.
  assert (H : Rabs (x - y) / 2 = Rabs ((x - y) / 2)).
  { unfold Rdiv. rewrite Rabs_mult, (Rabs_pos_eq (/ 2)) by lra. reflexivity. }
  rewrite H. pose proof (Rle_abs ((x - y) / 2)). pose proof (Rle_abs (- ((x - y) / 2))) as N.
  rewrite Rabs_Ropp in N. split; apply Rabs_le; lra.
Qed.

Lemma abs_between : forall x y z m, Rmin x y <= z <= Rmax x y -> Rabs x <= m -> Rabs y <= m -> Rabs z <= m.
Proof.
  intros x y z m H Hx Hy. apply Rabs_le_inv in Hx. apply Rabs_le_inv in Hy. apply Rabs_le.
  assert (- m <= Rmin x y) by (apply Rmin_glb; lra). assert (Rmax x y <= m) by (apply Rmax_lub; lra). lra.
Qed.

Lemma crossing_in : forall func lo hi lo' hi' a w w',
  Rmin (val lo) (val hi) <= val lo' <= Rmax (val lo) (val hi) ->
  Rmin (val lo) (val hi) <= val hi' <= Rmax (val lo) (val hi) -> w <= w' ->
  crossing func lo' hi' a w -> crossing func lo hi a w'.
Proof.
  intros func lo hi lo' hi' a w w' H1 H2 W (F & B & H). destruct (minmax _ _ _ _ H1 H2) as [A1 A2].
  split; [exact F|]. split; [lra|]. destruct H as [H|(l & r & Fl & Fr & NA & NB & Bl & Br & Ba & Wd)].
  - left. exact H.
  - right. exists l, r. repeat (split; [solve [assumption | lra]|]). lra.
Qed.

Lemma loop_ok : forall func n (lo hi : f64_num) M, finite lo -> finite hi ->
  Rabs (val lo) <= M -> Rabs (val hi) <= M -> M <= bpow radix2 1022 ->
  not_above (func lo) -> not_below (func hi) ->
  crossing func lo hi (f_bisect_loop func n lo hi (f_mid lo hi))
    (Rabs (val lo - val hi) / 2 ^ n +
     (2 - 2 / 2 ^ n) * (bpow radix2 (-53) * M + / 2 * bpow radix2 (-1074))).
Proof.
  intros func n. induction n as [|n IH]; intros lo hi M Fl Fh Bl Bh BM NA NB;
    destruct (mid_ok lo hi Fl Fh ltac:(lra) ltac:(lra)) as (Fm & Bm & Em);
    pose proof (Rmin_l (val lo) (val hi)) as P1; pose proof (Rmin_r (val lo) (val hi)) as P2;
    pose proof (Rmax_l (val lo) (val hi)) as P3; pose proof (Rmax_r (val lo) (val hi)) as P4.
  - cbn [f_bisect_loop].
    split; [exact Fm|]. split; [exact Bm|]. right. exists lo, hi.
    repeat (split; [solve [assumption | lra]|]). cbn [pow].
    replace (2 - 2 / 1) with 0 by field. unfold Rdiv. rewrite Rinv_1. lra.
  - cbn [f_bisect_loop]. set (m := f_mid lo hi) in *.
    assert (Mm : Rabs (val m) <= M) by (eapply abs_between; [exact Bm|assumption|assumption]).
    assert (MX : Rmax (Rabs (val lo)) (Rabs (val hi)) <= M) by (apply Rmax_lub; assumption).
    set (d := bpow radix2 (-53) * M + / 2 * bpow radix2 (-1074)) in *.
    assert (Em' : Rabs (val m - (val lo + val hi) / 2) <= d).
    { eapply Rle_trans; [exact Em|]. unfold d. apply Rplus_le_compat_r.
      apply Rmult_le_compat_l; [apply bpow_ge_0|exact MX]. }
    destruct (mid_width _ _ _ _ Bm Em') as [W1 W2].
    assert (P0 : 0 < 2 ^ n) by (apply pow_lt; lra).
    assert (SP : forall w, w <= Rabs (val lo - val hi) / 2 + d ->
       w / 2 ^ n + (2 - 2 / 2 ^ n) * d <= Rabs (val lo - val hi) / 2 ^ (S n) + (2 - 2 / 2 ^ S n) * d).
    { intros w Hw. apply Rle_trans with ((Rabs (val lo - val hi) / 2 + d) / 2 ^ n + (2 - 2 / 2 ^ n) * d).
      - apply Rplus_le_compat_r. apply Rmult_le_compat_r; [left; now apply Rinv_0_lt_compat|exact Hw].
      - apply Req_le. cbn [pow]. field. lra. }
    cbv zeta. destruct (fgt f_zero (func m)) eqn:G1; [|destruct (fgt (func m) f_zero) eqn:G2].
    + eapply (crossing_in func lo hi m hi); [exact Bm|lra| |apply (IH m hi M); auto using gt_not_above].
      apply SP. exact W1.
    + eapply (crossing_in func lo hi lo m); [lra|exact Bm| |apply (IH lo m M); auto using gt_not_below].
      apply SP. exact W2.
    + split; [exact Fm|]. split; [exact Bm|]. left. auto.
Qed.

(** ** Bisection *)

(** If the function is not above zero at one of the points and not below zero
    at the other one, bisection does not raise; the result is finite and
    between the two points; the function is neither above nor below zero there
    (zero, or NaN), or there are two points around the result, between which
    the sign changes; they are no farther apart than the interval divided by
    [2^steps], plus [2^-52] times the greater of the two points (and the least
    positive double): more steps cannot hurt. *)
Theorem c108_crossing : forall func (lo hi : f64_num) steps, finite lo -> finite hi ->
  Rabs (val lo) <= bpow radix2 1022 -> Rabs (val hi) <= bpow radix2 1022 ->
  (not_above (func lo) /\ not_below (func hi)) \/ (not_below (func lo) /\ not_above (func hi)) ->
  exists a, f_bisect func lo hi steps = Ok a /\
    crossing func lo hi a (Rabs (val hi - val lo) / 2 ^ steps +
       bpow radix2 (-52) * Rmax (Rabs (val lo)) (Rabs (val hi)) + bpow radix2 (-1074)).
Proof.
  intros func lo hi steps Fl Fh Bl Bh SG. unfold f_bisect.
  assert (NR : fgt (fmul (func lo) (func hi)) f_zero = false).
  { destruct SG as [[A B]|[A B]]; [apply (signs_product _ _ A B)|apply (signs_product _ _ B A)]. }
  cbv zeta. rewrite NR.
  assert (SW : exists l h, (if fgt (func lo) (func hi) then (hi, lo) else (lo, hi)) = (l, h) /\
     not_above (func l) /\ not_below (func h) /\ ((l = lo /\ h = hi) \/ (l = hi /\ h = lo))).
  { destruct (fgt (func lo) (func hi)) eqn:G.
    - exists hi, lo. split; [reflexivity|].
      destruct SG as [[A B]|[A B]]; [exfalso|repeat split; auto].
      unfold fgt, not_above, not_below in *.
      destruct (func lo) as [s|s| |s m e b]; destruct (func hi) as [s'|s'| |s' m' e' b'];
        try destruct s; try destruct s'; try discriminate; cbn in *; discriminate.
    - exists lo, hi. split; [reflexivity|].
      destruct SG as [[A B]|[A B]]; [repeat split; auto|].
      assert (not_above (func lo) /\ not_below (func hi)) as [A' B'].
      { unfold fgt, not_above, not_below in *.
        destruct (func lo) as [s|s| |s m e b]; destruct (func hi) as [s'|s'| |s' m' e' b'];
        try destruct s; try destruct s'; try discriminate; cbn in *; auto; discriminate. }
      repeat split; auto. }
  destruct SW as (l & h & E & NA & NB & LH). rewrite E. eexists. split; [reflexivity|].
  set (M := Rmax (Rabs (val lo)) (Rabs (val hi))).
  assert (ML : Rabs (val l) <= M /\ Rabs (val h) <= M).
  { unfold M. destruct LH as [[-> ->]|[-> ->]]; split; try apply Rmax_l; try apply Rmax_r. }
  assert (MB : M <= bpow radix2 1022) by (apply Rmax_lub; assumption).
  assert (FF : finite l /\ finite h) by (destruct LH as [[-> ->]|[-> ->]]; auto).
  pose proof (loop_ok func steps l h M (proj1 FF) (proj2 FF) (proj1 ML) (proj2 ML) MB NA NB) as C.
  pose proof (Rmin_l (val lo) (val hi)) as P1; pose proof (Rmin_r (val lo) (val hi)) as P2;
  pose proof (Rmax_l (val lo) (val hi)) as P3; pose proof (Rmax_r (val lo) (val hi)) as P4.
  eapply (crossing_in func lo hi l h); [| | |exact C].
  - destruct LH as [[-> ->]|[-> ->]]; lra.
  - destruct LH as [[-> ->]|[-> ->]]; lra.
  - assert (HW : Rabs (val l - val h) = Rabs (val hi - val lo)).
    { destruct LH as [[-> ->]|[-> ->]]; [apply Rabs_minus_sym|reflexivity]. }
    rewrite HW. assert (P0 : 0 < 2 / 2 ^ steps) by (apply Rdiv_lt_0_compat; [lra|apply pow_lt; lra]).
    assert (B53 : bpow radix2 (-52) = 2 * bpow radix2 (-53)).
    { change (-52)%Z with (1 + -53)%Z. rewrite bpow_plus. reflexivity. }
    pose proof (bpow_gt_0 radix2 (-53)) as Q1. pose proof (bpow_gt_0 radix2 (-1074)) as Q2.
    assert (M0 : 0 <= M) by (pose proof (Rabs_pos (val l)); lra).
    assert (Q3 : 0 <= bpow radix2 (-53) * M) by (apply Rmult_le_pos; lra).
    assert (D0 : 0 <= bpow radix2 (-53) * M + / 2 * bpow radix2 (-1074)) by lra.
    assert ((2 - 2 / 2 ^ steps) * (bpow radix2 (-53) * M + / 2 * bpow radix2 (-1074))
            <= 2 * (bpow radix2 (-53) * M + / 2 * bpow radix2 (-1074)))
      by (apply Rmult_le_compat_r; lra).
    rewrite B53. lra.
Qed.
Print Assumptions c108_crossing.

(** It raises [ValueError] exactly if the product of the two values, as
    rounded, is above zero; so it does whenever both values are finite, have
    the same sign and a product above [2^-1074]. *)
Theorem c108_raises : forall func (lo hi : f64_num) steps, finite (func lo) -> finite (func hi) ->
  bpow radix2 (-1074) <= val (func lo) * val (func hi) -> f_bisect func lo hi steps = Err ValueError.
Proof.
  intros func lo hi steps F1 F2 B. unfold f_bisect. cbv zeta.
  assert (G : fgt (fmul (func lo) (func hi)) f_zero = true); [|now rewrite G].
  pose proof (bpow_gt_0 radix2 (-1074)) as P.
  set (x := func lo) in *. set (y := func hi) in *. clearbody x y.
  unfold fgt, fmul.
  pose proof (Bmult_correct 53 1024 prec_pos prec_emax mode_NE x y) as H.
  destruct (Rlt_bool_spec (Rabs (round radix2 (SpecFloat.fexp 53 1024) (round_mode mode_NE) (val x * val y)))
                (bpow radix2 1024)) as [L|L].
  - destruct H as (V & Fm & _). unfold f64_num in *. rewrite F1, F2 in Fm. cbn [andb] in Fm.
    rewrite Bltb_correct by auto. apply Rlt_bool_true. rewrite V. cbn [B2R f_zero].
    apply Rlt_le_trans with (bpow radix2 (-1074)); [exact P|].
    apply (rnd_ge_fmt (val x * val y)); [apply fmt_bpow; lia|exact B].
  - assert (SS : xorb (@Bsign 53 1024 x) (@Bsign 53 1024 y) = false).
    { destruct x as [s|s| |s m e b]; destruct y as [s'|s'| |s' m' e' b']; cbn in F1, F2, B; try discriminate;
        try (exfalso; cbn in B; lra).
      assert (SG : forall (t : bool) p q, 0 < F2R (Float radix2 (cond_Zopp t (Zpos p)) q) <-> t = false).
      { intros t p q. destruct t; cbn [cond_Zopp]; split; intros; try discriminate; auto.
        - exfalso. assert (F2R (Float radix2 (- Z.pos p) q) < 0) by (apply F2R_lt_0; reflexivity). lra.
        - apply F2R_gt_0. reflexivity. }
      assert (SN : forall (t : bool) p q, F2R (Float radix2 (cond_Zopp t (Zpos p)) q) < 0 <-> t = true).
      { intros t p q. destruct t; cbn [cond_Zopp]; split; intros; try discriminate; auto.
        - apply F2R_lt_0. reflexivity.
        - exfalso. assert (0 < F2R (Float radix2 (Z.pos p) q)) by (apply F2R_gt_0; reflexivity). lra. }
      cbn [Bsign]. destruct s, s'; try reflexivity; exfalso.
      - assert (N := proj2 (SN true m e) eq_refl). assert (Q := proj2 (SG false m' e') eq_refl).
        assert (0 <= - F2R (Float radix2 (cond_Zopp true (Zpos m)) e) * F2R (Float radix2 (cond_Zopp false (Zpos m')) e'))
          by (apply Rmult_le_pos; lra). lra.
      - assert (N := proj2 (SN true m' e') eq_refl). assert (Q := proj2 (SG false m e) eq_refl).
        assert (0 <= F2R (Float radix2 (cond_Zopp false (Zpos m)) e) * - F2R (Float radix2 (cond_Zopp true (Zpos m')) e'))
          by (apply Rmult_le_pos; lra). lra. }
    rewrite SS in H. unfold binary_overflow in H. cbn in H.
    destruct (Bmult mode_NE x y) as [s|s| |s m e b]; cbn in H; try discriminate H.
    injection H as ->. reflexivity.
Qed.
Print Assumptions c108_raises.

(** ** Cases *)

(** The square root of two, with 16 and with 100 steps (then in the last digit;
    the bracket of [c108_crossing] cannot be smaller than rounding). *)
Definition ex_square (x : f64_num) : f64_num := fsub (fmul x x) (f64_of 2 0).
Definition ok_is (r : res f64_num) (x : f64_num) : Prop :=
  match r with Ok y => B2SF y = B2SF x | Err _ => False end.

Example c108_example :
  ok_is (f_bisect ex_square (f64_of 0 0) (f64_of 2 0) 16) (f64_of 92681 (-16)) /\
  ok_is (f_bisect ex_square (f64_of 2 0) (f64_of 0 0) 16) (f64_of 92681 (-16)) /\
  ok_is (f_bisect ex_square (f64_of 0 0) (f64_of 2 0) 100) (f64_of 1592262918131443 (-50)) /\
  not_above (ex_square (f64_of 0 0)) /\ not_below (ex_square (f64_of 2 0)) /\
  f_bisect ex_square (f64_of 2 0) (f64_of 3 0) 16 = Err ValueError.
Proof. repeat split; vm_compute; reflexivity. Qed.

(** The same sign at both points is not always noticed: the product of two
    numbers can be too small for a double.  Here the function is [2^-600]
    everywhere; a "zero" is returned and no error is raised. *)
Theorem c108_underflow_refuted : exists func lo hi steps a,
  (forall x, 0 < val (func x)) /\ finite lo /\ finite hi /\ f_bisect func lo hi steps = Ok a.
Proof.
  exists (fun _ => f64_of 1 (-600)), (f64_of 0 0), (f64_of 1 0), 16%nat.
  assert (C : match f_bisect (fun _ => f64_of 1 (-600)) (f64_of 0 0) (f64_of 1 0) 16 with
              | Ok _ => true | Err _ => false end = true) by (vm_compute; reflexivity).
  destruct (f_bisect _ _ _ _) as [a|] eqn:E in C |- *; [|discriminate C]. exists a.
  split; [|split; [|split; [|reflexivity]]].
  - intros _. destruct (f64_of_val 1 (-600)) as [F V]; try lia. rewrite V, Rmult_1_l. apply bpow_gt_0.
  - apply f64_of_val; lia.
  - apply f64_of_val; lia.
Qed.
Print Assumptions c108_underflow_refuted.

(** Without the bounds on the points the sum of them can be infinite, and so is
    the "zero": here the function is [x - 1.25 * 2^1023], between [2^1023] and
    [1.5 * 2^1023]. *)
Theorem c108_overflow_refuted : exists func lo hi steps a, finite lo /\ finite hi /\
  not_above (func lo) /\ not_below (func hi) /\ f_bisect func lo hi steps = Ok a /\ ~ finite a.
Proof.
  pose (g := fun x => fsub x (f64_of 5 1021)).
  exists g, (f64_of 1 1023), (f64_of 3 1022), 16%nat.
  assert (C : match f_bisect g (f64_of 1 1023) (f64_of 3 1022) 16 with
              | Ok a => @is_finite 53 1024 a = false | Err _ => False end) by (vm_compute; reflexivity).
  destruct (f_bisect _ _ _ _) as [a|] eqn:E in C |- *; [|destruct C]. exists a.
  split; [vm_compute; reflexivity|]. split; [vm_compute; reflexivity|].
  split; [vm_compute; reflexivity|]. split; [vm_compute; reflexivity|]. split; [reflexivity|].
  change (@is_finite 53 1024 a <> true). rewrite C. discriminate.
Qed.
Print Assumptions c108_overflow_refuted.
