(** Peaks of spectra in double precision (C106). *)
From Coq Require Import String ZArith Reals Lra Lia Bool List Sorted Permutation.
From Flocq Require Import Core IEEE754.BinarySingleNaN.
Import ListNotations.
From Verif Require Import Base Py PyLemmas ListLemmas Tracker_Model Double_Model Double_Spec
  Double_Step Double_Run Double_Proofs Double_Float Double_Props
  Peak_Model Peak_Round Peak_Accuracy Peak_Proofs.
Local Open Scope R_scope.

(** ** Detection *)

(** In arrays of any doubles, NaN and infinities included, exactly the inner
    entries are detected that are above both neighbours, and above the threshold
    if there is one; comparisons with NaN are false. *)
Theorem c106_detected : forall x t i,
  In i (f_peak_detect x t) <->
  (1 <= i)%Z /\ (i + 1 < zlen x)%Z /\
  fgt (f_at x i) (f_at x (i - 1)) = true /\ fgt (f_at x i) (f_at x (i + 1)) = true /\
  match t with None => True | Some t => fgt (f_at x i) t = true end.
Proof. exact f_peak_iff. Qed.
Print Assumptions c106_detected.

(** They come in increasing order, never two of them next to each other. *)
Theorem c106_detected_apart : forall x t,
  StronglySorted (fun i j => (i + 2 <= j)%Z) (f_peak_detect x t).
Proof.
  intros x t.
  assert (G : forall l, (forall i, In i l -> In i (f_peak_detect x t)) -> StronglySorted Z.lt l ->
              StronglySorted (fun i j => (i + 2 <= j)%Z) l).
  { induction l as [|a l IH]; intros I S; constructor.
    - apply IH; [intros; apply I; now right|]. now inversion S.
    - inversion S as [|? ? S1 S2]; subst. rewrite Forall_forall in *. intros j Hj.
      apply f_peak_gap with (x := x) (t := t); [apply I; now left|apply I; now right|now apply S2]. }
  apply G; auto. apply f_peak_sorted.
Qed.
Print Assumptions c106_detected_apart.

(** ** Interpolation *)

(** What is claimed of the triple of location, magnitude and phase that is
    returned for the peak at index [i]. *)
Record peak_ok (mx px : list f64_num) (i : Z) (p : f64_num * f64_num * f64_num) : Prop := {
  (* finite numbers *)
  pk_finite : finite (fst (fst p)) /\ finite (snd (fst p)) /\ finite (snd p);
  (* at most half a bin away, but for four units in the last place of 1/2 *)
  pk_near : Rabs (val (fst (fst p)) - IZR i) <= / 2 + bpow radix2 (-51);
  (* towards the greater neighbour *)
  pk_side : (val (f_at mx (i + 1)) <= val (f_at mx (i - 1)) -> val (fst (fst p)) <= IZR i) /\
            (val (f_at mx (i - 1)) <= val (f_at mx (i + 1)) -> IZR i <= val (fst (fst p)));
  (* not below the bin *)
  pk_above : val (f_at mx i) <= val (snd (fst p));
  (* exactly the bin, if its neighbours are equal *)
  pk_even : val (f_at mx (i - 1)) = val (f_at mx (i + 1)) ->
            val (fst (fst p)) = IZR i /\ val (snd (fst p)) = val (f_at mx i);
  (* phase: on the line between the two bins around the location *)
  pk_phase : let k := Zfloor (val (fst (fst p))) in
     Rabs (val (snd p) - line (val (f_at px k)) (val (f_at px (k + 1))) (val (fst (fst p)) - IZR k))
     <= bpow radix2 (-50) * (Rabs (val (f_at px k)) + Rabs (val (f_at px (k + 1)))) + bpow radix2 (-1074)
}.

Lemma mapM_Forall2 : forall A B (f : A -> res B) (P : A -> B -> Prop) l,
  (forall a, In a l -> exists b, f a = Ok b /\ P a b) -> exists bs, mapM f l = Ok bs /\ Forall2 P l bs.
Proof.
  induction l as [|a l IH]; intros H; cbn [mapM].
  - exists []. split; [reflexivity|constructor].
  - destruct (H a) as (b & E & Pb); [now left|]. rewrite E. cbn [bind].
    destruct IH as (bs & Es & Pbs); [intros; apply H; now right|]. rewrite Es. cbn [bind].
    exists (b :: bs). split; [reflexivity|now constructor].
Qed.

Lemma moderate_at : forall l i, Forall moderate l -> (0 <= i < zlen l)%Z -> moderate (f_at l i).
Proof.
  intros l i H Hi. unfold f_at. rewrite Forall_forall in H. apply H. apply nth_In.
  unfold zlen in Hi. lia.
Qed.

Lemma refined : forall mx t i, Forall moderate mx -> (zlen mx <= 2 ^ 40)%Z ->
  In i (f_peak_detect mx t) ->
  (1 <= i)%Z /\ (i + 1 < zlen mx)%Z /\
  val (f_at mx (i - 1)) < val (f_at mx i) /\ val (f_at mx (i + 1)) < val (f_at mx i) /\
  exists loc mag, f_refine1 mx i = Ok (loc, mag) /\ finite loc /\ finite mag /\
    val loc = rnd (IZR i + par_off (val (f_at mx (i - 1))) (val (f_at mx i)) (val (f_at mx (i + 1)))) /\
    val mag = rnd (val (f_at mx i)
                   - par_p (val (f_at mx (i - 1))) (val (f_at mx i)) (val (f_at mx (i + 1)))).
Proof.
  intros mx t i M N Hin. apply f_peak_iff in Hin. destruct Hin as (H1 & H2 & HL & HR & _).
  assert (ML : moderate (f_at mx (i - 1))) by (apply moderate_at; auto; lia).
  assert (MC : moderate (f_at mx i)) by (apply moderate_at; auto; lia).
  assert (MR : moderate (f_at mx (i + 1))) by (apply moderate_at; auto; lia).
  apply fgt_iff in HL; [|apply MC|apply ML]. apply fgt_iff in HR; [|apply MC|apply MR].
  split; [exact H1|]. split; [exact H2|]. split; [exact HL|]. split; [exact HR|].
  apply refine1_val; auto. lia.
Qed.

(** For all spectra of numbers up to [2^1020] in absolute value, with up to
    [2^40] bins, every detected peak is interpolated without division by zero,
    NaN or overflow, as [peak_ok] says. *)
Theorem c106_interpolated : forall mx px t,
  Forall moderate mx -> Forall moderate px ->
  List.length px = List.length mx -> (0 < zlen mx <= 2 ^ 40)%Z ->
  exists ps, f_peak_detect_interp mx px t = Ok ps /\
             Forall2 (peak_ok mx px) (f_peak_detect mx t) ps.
Proof.
  intros mx px t MM MP LP N. unfold f_peak_detect_interp.
  destruct (mapM_Forall2 _ _ (f_refine1 mx)
     (fun i q => exists p, (do ph <- f_interp (fst q) px; Ok (q, ph)) = Ok p /\ peak_ok mx px i p)
     (f_peak_detect mx t)) as (qs & E & F).
  - intros i Hin.
    destruct (refined mx t i MM (proj2 N) Hin) as (H1 & H2 & HL & HR & loc & mag & E & FL & FM & VL & VM).
    exists (loc, mag). split; [exact E|].
    set (l := val (f_at mx (i - 1))) in *. set (c := val (f_at mx i)) in *.
    set (r := val (f_at mx (i + 1))) in *.
    assert (Fl : fmt l) by apply val_fmt. assert (Fc : fmt c) by apply val_fmt.
    assert (Fr : fmt r) by apply val_fmt.
    assert (NR : Rabs (val loc - IZR i) <= / 2 + bpow radix2 (-51)).
    { rewrite VL. apply loc_tight; auto. lia. }
    assert (B51 : bpow radix2 (-51) <= / 4).
    { change (/ 4) with (bpow radix2 (-2)). apply bpow_le. lia. }
    assert (NR' := NR). apply Rabs_le_inv in NR'.
    assert (I1 : 1 <= IZR i) by now apply IZR_le.
    assert (I2 : IZR i + 2 <= INR (List.length px)).
    { rewrite INR_IZR_INZ, <- plus_IZR. apply IZR_le. rewrite LP. unfold zlen in *. lia. }
    destruct (interp_val loc px FL MP) as (ph & EP & FP & VP0 & VP).
    + unfold zlen in *. rewrite LP. lia.
    + unfold zlen in *. rewrite LP. lia.
    + rewrite minus_INR by (unfold zlen in *; rewrite LP; lia). cbn [INR]. lra.
    + exists (loc, mag, ph). cbn [fst]. rewrite EP. cbn [bind]. split; [reflexivity|].
      assert (KF : (0 <= Zfloor (val loc))%Z) by (apply Zfloor_lub; lra).
      assert (FI : fmt (IZR i)).
      { replace (IZR i) with (IZR i * bpow radix2 0) by (cbn; ring). apply fmt_scaled; lia. }
      destruct (off_sign l c r Fc Fr HL HR) as [S1 S2].
      constructor; cbn [fst snd].
      * auto.
      * exact NR.
      * fold l r. split; intros Q; rewrite VL.
        -- apply rnd_le_fmt; auto. specialize (S2 Q). lra.
        -- apply rnd_ge_fmt; auto. specialize (S1 Q). lra.
      * fold c. rewrite VM. apply mag_ge; auto.
      * fold l c r. intros EV. destruct (off_even l c r EV) as [D0 O0].
        rewrite VL, VM. unfold par_p. rewrite O0, Rmult_0_r, rnd_0, Rplus_0_r, Rminus_0_r.
        split; apply rnd_id; auto.
      * cbv zeta. set (k := Zfloor (val loc)) in *.
        assert (KU : IZR k <= val loc) by apply Zfloor_lb.
        assert (K2 : (Z.to_nat k + 1 < List.length px)%nat).
        { apply INR_lt. rewrite plus_INR, !INR_IZR_INZ, Z2Nat.id by auto.
          rewrite INR_IZR_INZ in I2. cbn [Z.of_nat Pos.of_succ_nat IZR]. change (IPR 1) with 1. lra. }
        specialize (VP _ _ K2 eq_refl eq_refl).
        replace (INR (Z.to_nat k)) with (IZR k) in VP by (rewrite INR_IZR_INZ, Z2Nat.id; auto).
        replace (f_at px k) with (nth (Z.to_nat k) px B754_nan) by reflexivity.
        replace (f_at px (k + 1)) with (nth (Z.to_nat k + 1) px B754_nan)
          by (unfold f_at; f_equal; lia).
        exact VP.
  - rewrite E. cbn [bind]. destruct px as [|p0 px']; [unfold zlen in N; rewrite <- LP in N; cbn in N; lia|].
    clear E. induction F as [|i q is qs' (p & E & OK) F IH]; cbn [mapM].
    + exists []. split; [reflexivity|constructor].
    + rewrite E. cbn [bind]. destruct IH as (ps & E2 & F2). rewrite E2. cbn [bind].
      exists (p :: ps). split; [reflexivity|now constructor].
Qed.
Print Assumptions c106_interpolated.

(** Interpolated magnitudes are above the threshold, too. *)
Theorem c106_above_threshold : forall mx px t ps,
  Forall moderate mx -> Forall moderate px -> finite t ->
  List.length px = List.length mx -> (0 < zlen mx <= 2 ^ 40)%Z ->
  f_peak_detect_interp mx px (Some t) = Ok ps ->
  Forall (fun p => val t < val (snd (fst p))) ps.
Proof.
  intros mx px t ps MM MP Ft LP N E.
  destruct (c106_interpolated mx px (Some t) MM MP LP N) as (ps' & E' & F).
  rewrite E in E'. injection E' as <-.
  assert (A : forall i, In i (f_peak_detect mx (Some t)) -> val t < val (f_at mx i)).
  { intros i Hi. apply f_peak_iff in Hi. destruct Hi as (H1 & H2 & _ & _ & T).
    apply fgt_iff in T; auto. apply moderate_at; auto. lia. }
  clear E. induction F as [|i p is ps' OK F IH]; constructor.
  - apply Rlt_le_trans with (val (f_at mx i)); [apply A; now left|apply OK].
  - apply IH. intros j Hj. apply A. now right.
Qed.
Print Assumptions c106_above_threshold.

(** How accurate the vertex is, if the peak is not flat: the second difference
    is at least [2^-20] times the magnitudes.  (And the difference of the
    neighbours is not within [2^-1021] of zero, unless it is zero.) *)
Theorem c106_accurate : forall mx t i,
  Forall moderate mx -> (zlen mx <= 2 ^ 40)%Z -> In i (f_peak_detect mx t) ->
  let l := val (f_at mx (i - 1)) in let c := val (f_at mx i) in let r := val (f_at mx (i + 1)) in
  l = r \/ bpow radix2 (-1021) <= Rabs (l - r) ->
  bpow radix2 (-20) * (2 * Rabs c + Rabs l) <= 2 * c - l - r ->
  exists loc mag, f_refine1 mx i = Ok (loc, mag) /\
    Rabs (val loc - (IZR i + vertex_x l c r)) <= bpow radix2 (-32) + bpow radix2 (-52) * IZR i /\
    Rabs (val mag - vertex_y l c r) <= bpow radix2 (-32) * Rabs (l - r) + bpow radix2 (-52) * Rabs c.
Proof.
  intros mx t i MM N Hin l c r NT SH.
  destruct (refined mx t i MM N Hin) as (H1 & H2 & HL & HR & loc & mag & E & FL & FM & VL & VM).
  fold l c r in HL, HR, VL, VM.
  assert (Fl : fmt l) by apply val_fmt. assert (Fc : fmt c) by apply val_fmt.
  assert (Fr : fmt r) by apply val_fmt.
  exists loc, mag. split; [exact E|]. split.
  - pose proof (off_near l c r Fl Fc Fr HL HR NT SH) as ON. rewrite X_vertex in ON.
    pose proof (off_wide l c r Fl Fc Fr HL HR) as OW. apply Rabs_le_inv in OW.
    rewrite VL. pose proof (rnd_near (IZR i + par_off l c r)) as RN.
    replace (rnd (IZR i + par_off l c r) - (IZR i + vertex_x l c r)) with
      ((rnd (IZR i + par_off l c r) - (IZR i + par_off l c r)) + (par_off l c r - vertex_x l c r)) by ring.
    eapply Rle_trans; [apply Rabs_triang|].
    assert (I1 : 1 <= IZR i) by now apply IZR_le.
    assert (W : bpow radix2 (-1074) <= / 8 * bpow radix2 (-52)).
    { change (/ 8) with (bpow radix2 (-3)). rewrite <- bpow_plus. apply bpow_le. lia. }
    rewrite (Rabs_pos_eq (IZR i + par_off l c r)) in RN by lra.
    assert (P : 0 < bpow radix2 (-52)) by apply bpow_gt_0.
    nra.
  - rewrite VM. destruct (Req_dec l r) as [EV|NE].
    + destruct (off_even l c r EV) as [_ O0]. unfold par_p. rewrite O0, Rmult_0_r, rnd_0, Rminus_0_r.
      rewrite rnd_id by auto. unfold vertex_y. rewrite EV.
      replace (c - (c - (r - r) * (r - r) / (8 * (r - 2 * c + r)))) with 0.
      * rewrite Rabs_R0. replace (r - r) with 0 by ring. rewrite Rabs_R0, Rmult_0_r.
        pose proof (Rabs_pos c). pose proof (bpow_gt_0 radix2 (-52)). nra.
      * field. intro Q. lra.
    + apply mag_near; auto.
Qed.
Print Assumptions c106_accurate.

(** [vertex_x] and [vertex_y] are what they are called: the one parabola
    through the three values is nowhere above [vertex_y], which it reaches at
    [vertex_x]. *)
Theorem c106_vertex : forall l c r a b,
  a - b + c = l -> a + b + c = r -> l < c -> r < c ->
  vertex_y l c r = a * (vertex_x l c r * vertex_x l c r) + b * vertex_x l c r + c /\
  forall x, a * (x * x) + b * x + c <= vertex_y l c r.
Proof. exact vertex_spec. Qed.
Print Assumptions c106_vertex.

(** ** Frequencies *)

Lemma freq_val : forall loc fs n, finite loc -> finite fs ->
  / 4 <= val loc <= bpow radix2 41 ->
  bpow radix2 (-500) <= val fs <= bpow radix2 500 -> (1 <= n <= 2 ^ 41)%Z ->
  exists e1 e2, Rabs e1 <= uro /\ Rabs e2 <= uro /\
    finite (fdiv (fmul loc fs) (f64_of n 0)) /\
    val (fdiv (fmul loc fs) (f64_of n 0)) = val loc * val fs * (1 + e1) / IZR n * (1 + e2).
Proof.
  intros loc fs n Fl Ff Bl Bf Hn.
  assert (N1 : 1 <= IZR n) by now apply IZR_le.
  assert (N2 : IZR n <= bpow radix2 41).
  { change (bpow radix2 41) with (IZR (2 ^ 41)). apply IZR_le. lia. }
  pose proof (bpow_gt_0 radix2 (-500)) as P500.
  assert (L1 : bpow radix2 (-502) <= val loc * val fs).
  { change (-502)%Z with (-2 + -500)%Z. rewrite bpow_plus. change (bpow radix2 (-2)) with (/ 4).
    apply Rmult_le_compat; lra. }
  assert (U1 : val loc * val fs <= bpow radix2 541).
  { change 541%Z with (41 + 500)%Z. rewrite bpow_plus. apply Rmult_le_compat; lra. }
  pose proof (bpow_gt_0 radix2 (-502)) as P502.
  destruct (fmul_val loc fs Fl Ff) as [Fm Vm].
  { rewrite Rabs_pos_eq by lra. eapply Rle_trans; [exact U1|]. apply bpow_le. lia. }
  destruct (rnd_rel (val loc * val fs)) as (e1 & B1 & E1).
  { right. rewrite Rabs_pos_eq by lra. eapply Rle_trans; [|exact L1]. apply bpow_le. lia. }
  assert (LR : bpow radix2 (-502) <= rnd (val loc * val fs)) by (apply rnd_ge_fmt; [apply fmt_bpow; lia|auto]).
  assert (UR : rnd (val loc * val fs) <= bpow radix2 541) by (apply rnd_le_fmt; [apply fmt_bpow; lia|auto]).
  destruct (f64_of_val n 0) as [Fn Vn]; try lia. rewrite Rmult_1_r in Vn.
  assert (I1 : 0 < / IZR n) by (apply Rinv_0_lt_compat; lra).
  assert (I2 : / IZR n <= 1) by (rewrite <- Rinv_1; apply Rinv_le; lra).
  assert (I3 : bpow radix2 (-41) <= / IZR n).
  { replace (-41)%Z with (Z.opp 41) by reflexivity. rewrite (bpow_opp radix2 41). apply Rinv_le; lra. }
  assert (LQ : bpow radix2 (-543) <= rnd (val loc * val fs) / IZR n).
  { change (-543)%Z with (-502 + -41)%Z. rewrite bpow_plus. unfold Rdiv.
    apply Rmult_le_compat; try lra; apply bpow_ge_0. }
  assert (UQ : rnd (val loc * val fs) / IZR n <= bpow radix2 541).
  { unfold Rdiv. apply Rle_trans with (bpow radix2 541 * 1); [|lra].
    apply Rmult_le_compat; lra. }
  pose proof (bpow_gt_0 radix2 (-543)) as P543.
  destruct (fdiv_val (fmul loc fs) (f64_of n 0) Fm) as [Fq Vq].
  { rewrite Vn. lra. }
  { rewrite Vm, Vn. rewrite Rabs_pos_eq by lra. eapply Rle_trans; [exact UQ|]. apply bpow_le. lia. }
  rewrite Vm, Vn in Vq.
  destruct (rnd_rel (rnd (val loc * val fs) / IZR n)) as (e2 & B2 & E2).
  { right. rewrite Rabs_pos_eq by lra. eapply Rle_trans; [|exact LQ]. apply bpow_le. lia. }
  exists e1, e2. split; [exact B1|]. split; [exact B2|]. split; [exact Fq|].
  rewrite Vq, E2, E1. reflexivity.
Qed.

(** A sampling rate within the powers of two from -500 to 500, and the size of
    a transform with up to [2^40] bins. *)
Definition ordinary_rate (fs : f64_num) : Prop :=
  finite fs /\ bpow radix2 (-500) <= val fs <= bpow radix2 500.

(** What the tracker is called with: finite frequencies, strictly increasing,
    all of them strictly between 0 and half of the sampling rate; finite
    magnitudes and phases; as many peaks as are detected. *)
Theorem c106_frequencies : forall fs n mx px t,
  ordinary_rate fs -> (2 <= n <= 2 ^ 40)%Z -> zlen mx = (n / 2 + 1)%Z ->
  Forall moderate mx -> Forall moderate px -> List.length px = List.length mx ->
  exists fr, f_frame fs n mx px t = Ok fr /\
    List.length fr = List.length (f_peak_detect mx t) /\
    Forall (fun p : dpeak f64 => finite (dp_f p) /\ finite (dp_m p) /\ finite (dp_p p) /\
              0 < val (dp_f p) < val fs / 2) fr /\
    StronglySorted (fun p q : dpeak f64 => val (dp_f p) < val (dp_f q)) fr.
Proof.
  intros fs n mx px t [Ff Bf] Hn Lm MM MP LP.
  assert (HN : (n / 2 <= n)%Z /\ (2 * (n / 2) <= n)%Z /\ (1 <= n / 2)%Z).
  { pose proof (Z.mul_div_le n 2 ltac:(lia)). split; [lia|]. split; [lia|].
    apply Z.div_le_lower_bound; lia. }
  destruct (c106_interpolated mx px t MM MP LP) as (ps & E & F); [lia|].
  unfold f_frame. rewrite E. cbn [bind]. eexists. split; [reflexivity|].
  assert (R1 : forall i, In i (f_peak_detect mx t) -> (1 <= i <= n / 2 - 1)%Z).
  { intros i Hi. apply f_peak_iff in Hi. lia. }
  pose proof (c106_detected_apart mx t) as AP.
  set (is := f_peak_detect mx t) in *. clearbody is. clear E LP MM MP Lm.
  pose proof uro_pos as U0. pose proof uro_small as U1.
  assert (US : uro * bpow radix2 41 <= / 64).
  { rewrite uro_val, <- bpow_plus. change (/ 64) with (bpow radix2 (-6)). apply bpow_le. lia. }
  assert (B51 : bpow radix2 (-51) <= / 4).
  { change (/ 4) with (bpow radix2 (-2)). apply bpow_le. lia. }
  pose proof (bpow_gt_0 radix2 (-500)) as P500.
  assert (N1 : 2 <= IZR n) by now apply IZR_le.
  assert (N2 : IZR n <= bpow radix2 41).
  { change (bpow radix2 41) with (IZR (2 ^ 41)). apply IZR_le. lia. }
  assert (LOC : forall i p, In i is -> peak_ok mx px i p ->
            IZR i - 3 / 4 <= val (fst (fst p)) <= IZR i + 3 / 4 /\
            / 4 <= val (fst (fst p)) /\ val (fst (fst p)) <= IZR n / 2 - / 4).
  { intros i p Hi OK. destruct (R1 i Hi) as [A B]. pose proof (pk_near _ _ _ _ OK) as N.
    apply Rabs_le_inv in N. assert (1 <= IZR i) by now apply IZR_le.
    assert (2 * IZR i + 2 <= IZR n).
    { rewrite <- mult_IZR, <- plus_IZR. apply IZR_le. lia. }
    repeat split; lra. }
  split; [rewrite map_length; symmetry; eapply Forall2_length'; exact F|].
  split.
  - clear AP. induction F as [|i p is' ps' OK F IH]; constructor.
    + cbn [dp_f dp_m dp_p]. destruct (pk_finite _ _ _ _ OK) as (F1 & F2 & F3).
      destruct (LOC i p (or_introl eq_refl) OK) as (_ & L1 & L2).
      destruct (freq_val (fst (fst p)) fs n F1 Ff) as (e1 & e2 & B1 & B2 & Fq & Vq); auto; [lra|lia|].
      assert (FV : 0 < val (fdiv (fmul (fst (fst p)) fs) (f64_of n 0)) < val fs / 2);
        [|exact (conj Fq (conj F2 (conj F3 FV)))].
      split.
      * rewrite Vq. apply Rabs_le_inv in B1. apply Rabs_le_inv in B2.
        unfold Rdiv. apply Rmult_lt_0_compat; [|lra].
        apply Rmult_lt_0_compat; [|apply Rinv_0_lt_compat; lra].
        apply Rmult_lt_0_compat; [|lra]. apply Rmult_lt_0_compat; lra.
      * rewrite Vq. apply Rabs_le_inv in B1. apply Rabs_le_inv in B2.
        set (L := val (fst (fst p))) in *. set (f := val fs) in *.
        assert (K : L * (1 + e1) * (1 + e2) < IZR n / 2).
        { apply Rle_lt_trans with ((IZR n / 2 - / 4) * ((1 + uro) * (1 + uro))).
          - rewrite Rmult_assoc. apply Rmult_le_compat; try lra.
            + apply Rmult_le_pos; lra.
            + apply Rmult_le_compat; lra.
          - assert (uro * IZR n <= / 64).
            { eapply Rle_trans; [|exact US]. apply Rmult_le_compat_l; lra. }
            assert (uro * uro * IZR n <= / 1024 * / 64).
            { rewrite Rmult_assoc. apply Rmult_le_compat; try lra. apply Rmult_le_pos; lra. }
            assert (0 < uro * uro) by (apply Rmult_lt_0_compat; lra). lra. }
        replace (L * f * (1 + e1) / IZR n * (1 + e2)) with (f / IZR n * (L * (1 + e1) * (1 + e2)))
          by (field; lra).
        replace (f / 2) with (f / IZR n * (IZR n / 2)) by (field; lra).
        apply Rmult_lt_compat_l; auto. apply Rmult_lt_0_compat; [lra|apply Rinv_0_lt_compat; lra].
    + apply IH; auto; intros; [apply R1; now right|apply LOC; auto; now right].
  - induction F as [|i p is' ps' OK F IH]; [constructor|].
    inversion AP as [|? ? AP1 AP2]; subst. cbn [map]. constructor.
    { apply IH; auto; intros; [apply R1; now right|apply LOC; auto; now right]. }
    destruct (pk_finite _ _ _ _ OK) as (F1 & F2 & F3).
    destruct (LOC i p (or_introl eq_refl) OK) as (L0 & L1 & L2).
    destruct (freq_val (fst (fst p)) fs n F1 Ff) as (e1 & e2 & B1 & B2 & _ & Vq); auto; [lra|lia|].
    apply Forall_forall. intros q Hq. apply in_map_iff in Hq. destruct Hq as (p' & <- & Hp).
    cbn [dp_f].
    assert (exists j, In j is' /\ peak_ok mx px j p') as (j & Hj & OK').
    { clear - F Hp. induction F; [destruct Hp|]. destruct Hp as [<-|Hp].
      - exists x. split; [now left|auto].
      - destruct (IHF Hp) as (j & A & B). exists j. split; [now right|auto]. }
    destruct (pk_finite _ _ _ _ OK') as (G1 & _).
    destruct (LOC j p' (or_intror Hj) OK') as (K0 & K1 & K2).
    assert (BL' : / 4 <= val (fst (fst p')) <= bpow radix2 41).
    { split; [exact K1|]. eapply Rle_trans; [exact K2|]. lra. }
    destruct (freq_val (fst (fst p')) fs n G1 Ff BL' Bf) as (d1 & d2 & D1 & D2 & _ & Wq); [lia|].
    assert (LT : val (fdiv (fmul (fst (fst p)) fs) (f64_of n 0)) <
                 val (fdiv (fmul (fst (fst p')) fs) (f64_of n 0))); [|exact LT].
    rewrite Vq, Wq. rewrite Forall_forall in AP2. pose proof (AP2 j Hj) as GAP. cbv beta in GAP.
    assert (GR : IZR i + 2 <= IZR j) by (rewrite <- plus_IZR; now apply IZR_le).
    assert (KJ : IZR j - 3 / 4 <= val (fst (fst p'))) by exact (proj1 K0).
    assert (KN : val (fst (fst p')) <= IZR n / 2 - / 4) by exact K2.
    set (L := val (fst (fst p))) in *. set (L' := val (fst (fst p'))) in *. set (f := val fs) in *.
    apply Rabs_le_inv in B1. apply Rabs_le_inv in B2. apply Rabs_le_inv in D1. apply Rabs_le_inv in D2.
    assert (K : L * (1 + e1) * (1 + e2) < L' * (1 + d1) * (1 + d2)).
    { apply Rle_lt_trans with ((L' - / 2) * ((1 + uro) * (1 + uro))).
      - rewrite Rmult_assoc. apply Rmult_le_compat; try lra.
        + apply Rmult_le_pos; lra.
        + apply Rmult_le_compat; lra.
      - apply Rlt_le_trans with (L' * ((1 - uro) * (1 - uro))).
        + assert (uro * L' <= / 64).
          { eapply Rle_trans; [|exact US]. apply Rmult_le_compat_l; lra. }
          assert (0 < uro * uro) by (apply Rmult_lt_0_compat; lra). lra.
        + rewrite Rmult_assoc. apply Rmult_le_compat_l; [lra|]. apply Rmult_le_compat; lra. }
    replace (L * f * (1 + e1) / IZR n * (1 + e2)) with (f / IZR n * (L * (1 + e1) * (1 + e2)))
      by (field; lra).
    replace (L' * f * (1 + d1) / IZR n * (1 + d2)) with (f / IZR n * (L' * (1 + d1) * (1 + d2)))
      by (field; lra).
    apply Rmult_lt_compat_l; auto. apply Rmult_lt_0_compat; [lra|apply Rinv_0_lt_compat; lra].
Qed.
Print Assumptions c106_frequencies.

(** Each peak of the frame is one of the interpolated peaks: its magnitude and
    phase, and as frequency [location * fs / n], up to a relative error of
    [2^-51]. *)
Theorem c106_frequency_values : forall fs n mx px t,
  ordinary_rate fs -> (2 <= n <= 2 ^ 40)%Z -> zlen mx = (n / 2 + 1)%Z ->
  Forall moderate mx -> Forall moderate px -> List.length px = List.length mx ->
  exists ps fr, f_peak_detect_interp mx px t = Ok ps /\ f_frame fs n mx px t = Ok fr /\
    Forall2 (fun p (q : dpeak f64) =>
      dp_m q = snd (fst p) /\ dp_p q = snd p /\
      Rabs (val (dp_f q) - val (fst (fst p)) * val fs / IZR n)
        <= bpow radix2 (-51) * (val (fst (fst p)) * val fs / IZR n)) ps fr.
Proof.
  intros fs n mx px t [Ff Bf] Hn Lm MM MP LP.
  assert (HN : (n / 2 <= n)%Z /\ (2 * (n / 2) <= n)%Z /\ (1 <= n / 2)%Z).
  { pose proof (Z.mul_div_le n 2 ltac:(lia)). split; [lia|]. split; [lia|].
    apply Z.div_le_lower_bound; lia. }
  destruct (c106_interpolated mx px t MM MP LP) as (ps & E & F); [lia|].
  unfold f_frame. rewrite E. cbn [bind]. exists ps. eexists. split; [reflexivity|]. split; [reflexivity|].
  assert (R1 : forall i, In i (f_peak_detect mx t) -> (1 <= i <= n / 2 - 1)%Z).
  { intros i Hi. apply f_peak_iff in Hi. lia. }
  set (is := f_peak_detect mx t) in *. clearbody is. clear E LP MM MP Lm.
  assert (B51 : bpow radix2 (-51) <= / 4).
  { change (/ 4) with (bpow radix2 (-2)). apply bpow_le. lia. }
  pose proof (bpow_gt_0 radix2 (-500)) as P500.
  assert (N1 : 2 <= IZR n) by now apply IZR_le.
  assert (N2 : IZR n <= bpow radix2 41).
  { change (bpow radix2 41) with (IZR (2 ^ 41)). apply IZR_le. lia. }
  induction F as [|i p is' ps' OK F IH]; cbn [map]; constructor.
  - destruct (pk_finite _ _ _ _ OK) as (F1 & F2 & F3).
    destruct (R1 i (or_introl eq_refl)) as [A B]. pose proof (pk_near _ _ _ _ OK) as N.
    apply Rabs_le_inv in N. assert (1 <= IZR i) by now apply IZR_le.
    assert (2 * IZR i + 2 <= IZR n).
    { rewrite <- mult_IZR, <- plus_IZR. apply IZR_le. lia. }
    destruct (freq_val (fst (fst p)) fs n F1 Ff) as (e1 & e2 & B1 & B2 & Fq & Vq); auto; [lra|lia|].
    split; [reflexivity|]. split; [reflexivity|].
    set (L := val (fst (fst p))) in *.
    assert (V : Rabs (val (fdiv (fmul (fst (fst p)) fs) (f64_of n 0)) - L * val fs / IZR n)
                <= bpow radix2 (-51) * (L * val fs / IZR n)); [|exact V].
    rewrite Vq. fold L.
    assert (Q0 : 0 < L * val fs / IZR n).
    { apply Rmult_lt_0_compat; [apply Rmult_lt_0_compat; lra|apply Rinv_0_lt_compat; lra]. }
    replace (L * val fs * (1 + e1) / IZR n * (1 + e2) - L * val fs / IZR n)
      with (L * val fs / IZR n * (e1 + e2 + e1 * e2)) by (field; lra).
    rewrite Rabs_mult, Rabs_pos_eq by lra. rewrite Rmult_comm. apply Rmult_le_compat_r; [lra|].
    pose proof uro_small as U1. pose proof uro_pos as U0.
    assert (U : bpow radix2 (-51) = 4 * uro).
    { change (-51)%Z with (1 + -52)%Z. rewrite bpow_plus. change (bpow radix2 1) with 2. lra. }
    rewrite U. eapply Rle_trans; [apply Rabs_triang|]. rewrite Rabs_mult.
    assert (Rabs e1 * Rabs e2 <= uro * 1) by (apply Rmult_le_compat; try apply Rabs_pos; lra).
    pose proof (Rabs_triang e1 e2). lra.
  - apply IH. intros j Hj. apply R1. now right.
Qed.
Print Assumptions c106_frequency_values.

(** ** Together with the tracker *)

(** From spectra to tracks, all in double precision: whatever the spectra are
    (numbers up to [2^1020]), no track of the sine tracker contains a NaN or an
    infinity, and all frequencies are strictly between 0 and half of the
    sampling rate.  [ords] are the orders in which the peaks are visited. *)
Theorem c106_tracks : forall c fs n t spectra frames ords st,
  ordinary_rate fs -> (2 <= n <= 2 ^ 40)%Z ->
  Forall (fun s => zlen (fst s) = (n / 2 + 1)%Z /\ List.length (snd s) = List.length (fst s) /\
                   Forall moderate (fst s) /\ Forall moderate (snd s)) spectra ->
  mapM (fun s => f_frame fs n (fst s) (snd s) t) spectra = Ok frames ->
  List.length ords = List.length frames -> d_hist_ok (combine frames ords) ->
  d_run c (d_sine_deact c) (combine frames ords) = Ok st ->
  Forall (fun tr : dtrack f64 =>
    Forall (fun x => finite x /\ 0 < val x < val fs / 2) (dt_freq tr) /\
    Forall (fun x => finite x) (dt_mag tr) /\ Forall (fun x => finite x) (dt_ph tr))
    (d_saved st ++ d_active st).
Proof.
  intros c fs n t spectra frames ords st RF HN SP FR LO HO RUN.
  assert (G : forall fr p, In fr frames -> In p fr ->
     finite (dp_f (A:=f64) p) /\ finite (dp_m (A:=f64) p) /\ finite (dp_p (A:=f64) p) /\
     0 < val (dp_f (A:=f64) p) < val fs / 2).
  { clear LO HO RUN. revert frames FR. induction SP as [|s spectra (L1 & L2 & M1 & M2) SP IH];
      intros frames FR fr p Hfr Hp; cbn [mapM] in FR.
    - injection FR as <-. destruct Hfr.
    - destruct (c106_frequencies fs n (fst s) (snd s) t RF HN L1 M1 M2 L2) as (fr0 & E & _ & F & _).
      rewrite E in FR. cbn [bind] in FR.
      destruct (mapM (fun s0 => f_frame fs n (fst s0) (snd s0) t) spectra) as [frs|]; [|discriminate].
      cbn [bind] in FR. injection FR as <-. destruct Hfr as [<-|Hfr].
      + rewrite Forall_forall in F. exact (F p Hp).
      + exact (IH frs eq_refl fr p Hfr Hp). }
  destruct (c105_sine_samples_are_peaks f64 c _ st HO RUN) as (labs & F2 & SM & _).
  assert (H : forall tr, In tr (d_saved st ++ d_active st) ->
     exists lab, d_labels_ok (combine frames ords) tr lab /\ Forall (fun l => l <> None) lab).
  { clear - F2 SM. induction F2 as [|tr lab trs labs OK F2 IH]; intros u Hu; [destruct Hu|].
    inversion SM; subst. destruct Hu as [<-|Hu]; [exists lab; auto|auto]. }
  apply Forall_forall. intros tr Htr. destruct (H tr Htr) as (lab & (A1 & A2 & A3 & A4) & NN).
  assert (PE : forall k, (k < List.length lab)%nat -> exists q : dpeak f64,
     (exists fr, In fr frames /\ In q fr) /\ nth_error (dt_freq tr) k = Some (dp_f q) /\
     nth_error (dt_mag tr) k = Some (dp_m q) /\ nth_error (dt_ph tr) k = Some (dp_p q)).
  { intros k Hk. specialize (A4 k Hk). rewrite Forall_forall in NN.
    pose proof (NN (nth k lab None) (nth_In _ _ Hk)) as NK.
    destruct (nth k lab None) as [p|]; [|contradiction].
    destruct A4 as (q & (fr & ord & P1 & P2) & P3). exists q. split; [|exact P3].
    exists fr. split; [|eapply nth_error_In; exact P2].
    apply nth_error_In in P1. eapply in_combine_l. exact P1. }
  assert (NTH : forall X (l : list X) x, In x l -> exists k, nth_error l k = Some x /\ (k < List.length l)%nat).
  { intros X l x Hx. apply In_nth_error in Hx. destruct Hx as [k Hk]. exists k. split; auto.
    apply nth_error_Some. congruence. }
  repeat split; apply Forall_forall; intros x Hx; destruct (NTH _ _ _ Hx) as (k & Ek & Hk).
  - assert (Hk' : (k < List.length lab)%nat) by (rewrite <- A1; exact Hk). clear Hk; rename Hk' into Hk. destruct (PE k Hk) as (q & (fr & Q1 & Q2) & P1 & P2 & P3).
    assert (Ex := eq_trans (eq_sym P1) Ek). injection Ex as <-. destruct (G fr q Q1 Q2) as (G1 & G2 & G3 & G4). auto.
  - assert (Hk' : (k < List.length lab)%nat) by (rewrite <- A2; exact Hk). clear Hk; rename Hk' into Hk. destruct (PE k Hk) as (q & (fr & Q1 & Q2) & P1 & P2 & P3).
    assert (Ex := eq_trans (eq_sym P2) Ek). injection Ex as <-. destruct (G fr q Q1 Q2) as (G1 & G2 & G3 & G4). auto.
  - assert (Hk' : (k < List.length lab)%nat) by (rewrite <- A3; exact Hk). clear Hk; rename Hk' into Hk. destruct (PE k Hk) as (q & (fr & Q1 & Q2) & P1 & P2 & P3).
    assert (Ex := eq_trans (eq_sym P3) Ek). injection Ex as <-. destruct (G fr q Q1 Q2) as (G1 & G2 & G3 & G4). auto.
Qed.
Print Assumptions c106_tracks.

(** ** Cases *)

Lemma same_val : forall x y : f64_num, B2SF x = B2SF y -> val x = val y.
Proof.
  intros x y H. change (B2R (prec:=53) (emax:=1024) x = B2R (prec:=53) (emax:=1024) y).
  rewrite <- !SF2R_B2SF. now rewrite H.
Qed.

Lemma moderate_of : forall m e, (Z.abs m <= 2 ^ 53)%Z -> (-1074 <= e <= 900)%Z -> moderate (f64_of m e).
Proof.
  intros m e Hm He. destruct (f64_of_val m e Hm He) as [F V]. split; [exact F|].
  rewrite V, Rabs_mult, (Rabs_pos_eq (bpow radix2 e)) by apply bpow_ge_0.
  apply Rle_trans with (bpow radix2 53 * bpow radix2 900).
  - apply Rmult_le_compat; try apply bpow_ge_0; [apply Rabs_pos| |apply bpow_le; lia].
    rewrite <- abs_IZR. change (bpow radix2 53) with (IZR (2 ^ 53)). now apply IZR_le.
  - rewrite <- bpow_plus. apply bpow_le. lia.
Qed.

(** Magnitudes of -100, -60, -20, -30 and -100 dB: a transform of size 8. *)
Definition ex_mx : list f64_num :=
  [f64_of (-100) 0; f64_of (-60) 0; f64_of (-20) 0; f64_of (-30) 0; f64_of (-100) 0].
Definition ex_px : list f64_num :=
  [f64_of 0 0; f64_of 1 0; f64_of 2 0; f64_of 3 0; f64_of 4 0].

Lemma ex_moderate : Forall moderate ex_mx /\ Forall moderate ex_px.
Proof. split; repeat (apply Forall_cons; [apply moderate_of; lia|]); apply Forall_nil. Qed.

(** The numbers in a result, comparable by computation. *)
Definition sf3 (p : f64_num * f64_num * f64_num) : SpecFloat.spec_float * SpecFloat.spec_float * SpecFloat.spec_float :=
  (B2SF (fst (fst p)), B2SF (snd (fst p)), B2SF (snd p)).
Definition ok_with {X Y} (g : X -> Y) (r : res X) (y : Y) : Prop :=
  match r with Ok x => g x = y | Err _ => False end.

(** The peak at bin 2 is found at 2.3 (the nearest double), with -17.75 dB and
    2.3 rad; for 44100 Hz that is 12678.749999999998 Hz (2.3 * 44100 / 8 in
    double precision). *)
Example c106_example :
  f_peak_detect ex_mx (Some (f64_of (-90) 0)) = [2%Z] /\
  ok_with (map sf3) (f_peak_detect_interp ex_mx ex_px (Some (f64_of (-90) 0)))
    [sf3 (f64_of 5179139571476070 (-51), f64_of (-71) (-2), f64_of 5179139571476070 (-51))] /\
  ok_with (map (fun p => B2SF (dp_f (A:=f64) p)))
    (f_frame (f64_of 44100 0) 8 ex_mx ex_px (Some (f64_of (-90) 0))) [B2SF (f64_of 6970216525332479 (-39))].
Proof. split; [|split]; vm_compute; reflexivity. Qed.

(** All hypotheses of the theorems above hold for it. *)
Example c106_example_hypotheses :
  Forall moderate ex_mx /\ Forall moderate ex_px /\ List.length ex_px = List.length ex_mx /\
  (zlen ex_mx <= 2 ^ 40)%Z /\ ordinary_rate (f64_of 44100 0) /\ zlen ex_mx = (8 / 2 + 1)%Z /\
  (let l := val (f_at ex_mx 1) in let c := val (f_at ex_mx 2) in let r := val (f_at ex_mx 3) in
   bpow radix2 (-1021) <= Rabs (l - r) /\
   bpow radix2 (-20) * (2 * Rabs c + Rabs l) <= 2 * c - l - r).
Proof.
  split; [apply ex_moderate|]. split; [apply ex_moderate|]. split; [reflexivity|].
  split; [unfold zlen; cbn [List.length ex_mx]; lia|]. split; [|split; [reflexivity|]].
  - destruct (f64_of_val 44100 0) as [F V]; try lia. split; [exact F|]. rewrite V.
    change (bpow radix2 0) with 1. split.
    + apply Rle_trans with (bpow radix2 0); [apply bpow_le; lia|]. change (bpow radix2 0) with 1. lra.
    + apply Rle_trans with (bpow radix2 16); [change (bpow radix2 16) with 65536; lra|]. apply bpow_le. lia.
  - change (f_at ex_mx 1) with (f64_of (-60) 0). change (f_at ex_mx 2) with (f64_of (-20) 0).
    change (f_at ex_mx 3) with (f64_of (-30) 0). cbv zeta.
    rewrite (proj2 (f64_of_val (-60) 0 ltac:(lia) ltac:(lia))).
    rewrite (proj2 (f64_of_val (-20) 0 ltac:(lia) ltac:(lia))).
    rewrite (proj2 (f64_of_val (-30) 0 ltac:(lia) ltac:(lia))).
    change (bpow radix2 0) with 1.
    rewrite (Rabs_left (-60 * 1 - -30 * 1)), (Rabs_left (-20 * 1)), (Rabs_left (-60 * 1)) by lra. split.
    + apply Rle_trans with (bpow radix2 0); [apply bpow_le; lia|]. change (bpow radix2 0) with 1. lra.
    + apply Rle_trans with (bpow radix2 (-2) * (2 * - (-20 * 1) + - (-60 * 1))).
      * apply Rmult_le_compat_r; [lra|]. apply bpow_le. lia.
      * change (bpow radix2 (-2)) with (/ 4). lra.
Qed.

(** Without the second difference being large enough the claim of
    [c106_accurate] is false: with neighbours one and two units in the last
    place below 2 the vertex is reported a quarter of a bin to the left,
    instead of a sixth. *)
Theorem c106_flat_refuted : exists mx loc mag,
  Forall moderate mx /\ In 1%Z (f_peak_detect mx None) /\ f_refine1 mx 1 = Ok (loc, mag) /\
  val loc - (1 + vertex_x (val (f_at mx 0)) (val (f_at mx 1)) (val (f_at mx 2))) = - / 12.
Proof.
  pose (mx := [f64_of (2 ^ 53 - 1) (-52); f64_of 2 0; f64_of (2 ^ 53 - 2) (-52)]).
  assert (C : match f_refine1 mx 1 with Ok (loc, _) => B2SF loc = B2SF (f64_of 3 (-2)) | Err _ => False end)
    by (vm_compute; reflexivity).
  assert (D : f_peak_detect mx None = [1%Z]) by (vm_compute; reflexivity).
  destruct (f_refine1 mx 1) as [[loc mag]|] eqn:E; [|destruct C].
  exists mx, loc, mag. split; [repeat (apply Forall_cons; [apply moderate_of; lia|]); apply Forall_nil|].
  split; [rewrite D; now left|]. split; [exact E|].
  rewrite (same_val _ _ C). change (f_at mx 0) with (f64_of (2 ^ 53 - 1) (-52)).
  change (f_at mx 1) with (f64_of 2 0). change (f_at mx 2) with (f64_of (2 ^ 53 - 2) (-52)).
  rewrite (proj2 (f64_of_val (2 ^ 53 - 1) (-52) ltac:(lia) ltac:(lia))).
  rewrite (proj2 (f64_of_val (2 ^ 53 - 2) (-52) ltac:(lia) ltac:(lia))).
  rewrite (proj2 (f64_of_val 3 (-2) ltac:(lia) ltac:(lia))).
  rewrite (proj2 (f64_of_val 2 0 ltac:(lia) ltac:(lia))).
  change (bpow radix2 0) with 1. change (bpow radix2 (-2)) with (/ 4).
  assert (B : bpow radix2 (-52) = / 4503599627370496) by reflexivity. rewrite B.
  change (2 ^ 53 - 1)%Z with 9007199254740991%Z. change (2 ^ 53 - 2)%Z with 9007199254740990%Z.
  unfold vertex_x. field.
Qed.
Print Assumptions c106_flat_refuted.

(** Nor is the location a number if a neighbour is [-inf], as the logarithm of
    a zero would be.  (The transforms replace zeros by the machine epsilon
    before taking the logarithm, see Dft_Model.v.) *)
Theorem c106_infinite_refuted : exists mx loc mag,
  In 1%Z (f_peak_detect mx None) /\ f_refine1 mx 1 = Ok (loc, mag) /\
  B2SF loc = SpecFloat.S754_nan /\ B2SF mag = SpecFloat.S754_nan.
Proof.
  pose (mx := [B754_infinity true : f64_num; f64_of 0 0; f64_of (-1) 0]).
  assert (C : match f_refine1 mx 1 with Ok (loc, mag) => B2SF loc = SpecFloat.S754_nan /\ B2SF mag = SpecFloat.S754_nan
              | Err _ => False end) by (vm_compute; split; reflexivity).
  assert (D : f_peak_detect mx None = [1%Z]) by (vm_compute; reflexivity).
  destruct (f_refine1 mx 1) as [[loc mag]|] eqn:E; [|destruct C].
  exists mx, loc, mag. split; [rewrite D; now left|]. split; [exact E|exact C].
Qed.
Print Assumptions c106_infinite_refuted.

(** Two frames of the example: one track, at 12678.749999999998 Hz twice. *)
Example c106_tracks_example :
  let t := Some (f64_of (-90) 0) in
  match mapM (fun s => f_frame (f64_of 44100 0) 8 (fst s) (snd s) t) [(ex_mx, ex_px); (ex_mx, ex_px)] with
  | Ok frames =>
      match d_run (ex_dcfg (dec 2 2)) (d_sine_deact (ex_dcfg (dec 2 2))) (combine frames [[0%nat]; [0%nat]]) with
      | Ok st => map (fun tr => map B2SF (dt_freq (A:=f64) tr)) (d_active st) =
                 [[B2SF (f64_of 6970216525332479 (-39)); B2SF (f64_of 6970216525332479 (-39))]]
      | Err _ => False
      end
  | Err _ => False
  end.
Proof. vm_compute. reflexivity. Qed.
