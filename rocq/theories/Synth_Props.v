(** C110: what [additive_synth] computes in double precision. *)
From Coq Require Import String ZArith Reals Lra Lia Bool List Permutation.
From Flocq Require Import Core IEEE754.BinarySingleNaN.
Import ListNotations.
From Verif Require Import Base ListLemmas RLists Double_Model Double_Float Peak_Model Peak_Round Peak_Accuracy
  Peak_Proofs Clock_Proofs Ripple_Model Ripple_Proofs Ripple_Audio Ripple_Pi Ripple_Props Sample_Model
  Synth_Model Synth_Proofs.
Local Open Scope R_scope.

(** numpy's exponential is an exponential (of numbers that are not positive). *)
Definition accurate_exp (T : trig) : Prop :=
  forall x : f64_num, finite x -> val x <= 0 -> Rabs (val (t_exp T x) - exp (val x)) <= bpow radix2 (-50).

(** Sizes: frequencies up to [F], phases up to [P], decays from [D], times from zero
    to [U]. *)
Definition phase_of (m : mode_) : R := match m_p m with None => 0 | Some p => val p end.
Definition fits (F P D : R) (m : mode_) : Prop :=
  (finite (m_f m) /\ Rabs (val (m_f m)) <= F) /\ (finite (m_d m) /\ D <= val (m_d m) <= bpow radix2 200) /\
  finite (m_a m) /\ match m_p m with None => True | Some p => finite p /\ Rabs (val p) <= P end.
Definition on_time (U : R) (t : f64_num) : Prop := finite t /\ 0 <= val t <= U.
Definition total (ms : list mode_) : R := rsum (map (fun m => Rabs (val (m_a m))) ms).

(** A mode at a time, without rounding. *)
Definition exactly (t : R) (m : mode_) : R :=
  val (m_a m) * exp (-2 * t / val (m_d m)) * cos (2 * PI * val (m_f m) * t + phase_of m).

(** Weights of a scalar product of which the second factors are amplitudes. *)
Lemma rsum_cons : forall x l, rsum (x :: l) = x + rsum l.
Proof. reflexivity. Qed.

Section One.
Variable T : trig.
Hypothesis G : good_trig T.
Variables F P D U : R.
Hypothesis RF : moderate F.
Hypothesis RP : moderate P.
Hypothesis RD : moderate D.
Hypothesis RU : moderate U.
Variable t : f64_num.
Hypothesis Ht : on_time U t.
Notation factors := (fun m => s_factors T t (m_f m) (m_d m) (m_a m) (m_p m)).

Lemma factor_ok : forall m, fits F P D m ->
  exists w : f64_num, s_factors T t (m_f m) (m_d m) (m_a m) (m_p m) = (w, m_a m) /\ finite w /\ Rabs (val w) <= 1 /\
    (accurate T -> accurate_exp T ->
     Rabs (val w - exp (-2 * val t / val (m_d m)) * cos (2 * PI * val (m_f m) * val t + phase_of m))
       <= bpow radix2 (-46) * (1 + F * U + P + U / D)).
Proof.
  intros m ((Ff & Bf) & (Fd & Bd) & Fa & Hp). destruct Ht as (Ft & Bt). eexists. split; [reflexivity|].
  pose proof (rng_pos _ _ _ RF) as PF. pose proof (rng_pos _ _ _ RU) as PU. pose proof (rng_pos _ _ _ RP) as PP.
  pose proof (rng_pos _ _ _ RD) as PD. pose proof uro_pos as UP. pose proof uro_tiny as UT. pose proof eta_pos as EP.
  destruct (dec_ok t (m_d m) U D RU RD Ft Fd Bt Bd) as (F1 & N1 & D1).
  destruct (arg_ok t (m_f m) (m_p m) F U P RF RU RP Ft Ff) as (F2 & D2).
  { destruct (m_p m); [apply Hp|exact I]. }
  { apply Rabs_le. lra. }
  { exact Bf. }
  { destruct (m_p m); [apply Hp|exact I]. }
  destruct (gt_exp T G _ F1 N1) as (Fe & Be). destruct (gt_cos T G _ F2) as (Fc & _ & Bc).
  set (e := t_exp T (s_dec t (m_d m))) in *. set (c := t_cos T (s_arg t (m_f m) (m_p m))) in *.
  assert (BE : Rabs (val e) <= 1) by (apply Rabs_le; lra).
  assert (BEC : Rabs (val e * val c) <= 1).
  { rewrite Rabs_mult, <- (Rmult_1_l 1). apply Rmult_le_compat; auto using Rabs_pos. }
  destruct (fmul_val e c Fe Fc) as [Fw Vw].
  { eapply Rle_trans; [exact BEC|]. change 1 with (bpow radix2 0). apply bpow_le. lia. }
  split; [exact Fw|]. rewrite Vw. split.
  { apply rnd_abs_le; [|exact BEC]. change 1 with (bpow radix2 0). apply fmt_bpow. lia. }
  intros AC AE. specialize (AC _ F2). specialize (AE _ F1 N1). fold e in AE. fold c in AC.
  assert (E50 : bpow radix2 (-50) = 8 * uro).
  { rewrite uro_val. change 8 with (bpow radix2 3). rewrite <- bpow_plus. reflexivity. }
  assert (E46 : bpow radix2 (-46) = 128 * uro).
  { rewrite uro_val. change 128 with (bpow radix2 7). rewrite <- bpow_plus. reflexivity. }
  rewrite E50 in AC, AE. rewrite E46.
  assert (Pd : 0 < val (m_d m)) by lra.
  assert (ND : val t * (-2 / val (m_d m)) <= 0).
  { assert (0 < / val (m_d m)) by (apply Rinv_0_lt_compat, Pd). unfold Rdiv. nra. }
  assert (DE : Rabs (val e - exp (-2 * val t / val (m_d m))) <= 8 * uro + 9 * uro * (U / D)).
  { replace (-2 * val t / val (m_d m)) with (val t * (-2 / val (m_d m))) by (unfold Rdiv; ring).
    replace (val e - exp (val t * (-2 / val (m_d m)))) with
      ((val e - exp (val (s_dec t (m_d m)))) + (exp (val (s_dec t (m_d m))) - exp (val t * (-2 / val (m_d m))))) by ring.
    eapply Rle_trans; [apply Rabs_triang|]. apply Rplus_le_compat; [exact AE|].
    eapply Rle_trans; [apply exp_lip; assumption|exact D1]. }
  assert (DC : Rabs (val c - cos (2 * PI * val (m_f m) * val t + phase_of m)) <= 8 * uro + 64 * uro * (F * U + P)).
  { replace (2 * PI * val (m_f m) * val t + phase_of m)
      with (2 * PI * val t * val (m_f m) + match m_p m with None => 0 | Some p => val p end) by (unfold phase_of; ring).
    set (th := 2 * PI * val t * val (m_f m) + match m_p m with None => 0 | Some p => val p end) in *.
    replace (val c - cos th) with ((val c - cos (val (s_arg t (m_f m) (m_p m)))) + (cos (val (s_arg t (m_f m) (m_p m))) - cos th)) by ring.
    eapply Rle_trans; [apply Rabs_triang|]. apply Rplus_le_compat; [exact AC|].
    eapply Rle_trans; [apply cos_lip|exact D2]. }
  set (E := exp (-2 * val t / val (m_d m))) in *. set (C := cos (2 * PI * val (m_f m) * val t + phase_of m)) in *.
  assert (BC : Rabs C <= 1) by (unfold C; pose proof (COS_bound (2 * PI * val (m_f m) * val t + phase_of m)); apply Rabs_le; lra).
  pose proof (rnd_near (val e * val c)) as RN.
  replace (rnd (val e * val c) - E * C) with ((rnd (val e * val c) - val e * val c) + (val e * (val c - C) + (val e - E) * C)) by ring.
  eapply Rle_trans; [apply Rabs_triang|]. eapply Rle_trans; [apply Rplus_le_compat_l, Rabs_triang|]. rewrite (Rabs_mult (val e) (val c - C)), (Rabs_mult (val e - E)).
  assert (X1 : Rabs (val e) * Rabs (val c - C) <= 1 * (8 * uro + 64 * uro * (F * U + P))) by (apply Rmult_le_compat; auto using Rabs_pos).
  assert (X2 : Rabs (val e - E) * Rabs C <= (8 * uro + 9 * uro * (U / D)) * 1) by (apply Rmult_le_compat; auto using Rabs_pos).
  assert (X3 : uro * Rabs (val e * val c) <= uro * 1) by (apply Rmult_le_compat_l; lra).
  assert (X4 : eta <= uro * 1) by (change 1 with (bpow radix2 0); apply eta_small; lia).
  assert (Y1 : 0 < uro * (F * U)) by (apply Rmult_lt_0_compat; [lra|]; apply Rmult_lt_0_compat; lra).
  assert (Y2 : 0 < uro * P) by (apply Rmult_lt_0_compat; lra).
  assert (Y3 : 0 < uro * (U / D)) by (apply Rmult_lt_0_compat; [lra|]; apply Rdiv_lt_0_compat; lra).
  replace (128 * uro * (1 + F * U + P + U / D)) with (128 * uro + 128 * (uro * (F * U)) + 128 * (uro * P) + 128 * (uro * (U / D))) by ring.
  replace (64 * uro * (F * U + P)) with (64 * (uro * (F * U)) + 64 * (uro * P)) in X1 by ring.
  replace (9 * uro * (U / D)) with (9 * (uro * (U / D))) in X2 by ring. lra.
Qed.

Lemma factors_ok : forall ms, Forall (fits F P D) ms ->
  all_finite (map factors ms) /\ size_of (map factors ms) <= total ms /\ Rabs (sum_of (map factors ms)) <= total ms /\
  (accurate T -> accurate_exp T ->
   Rabs (sum_of (map factors ms) - rsum (map (exactly (val t)) ms)) <= bpow radix2 (-46) * (1 + F * U + P + U / D) * total ms).
Proof.
  intros ms H. assert (S : all_finite (map factors ms) /\ size_of (map factors ms) <= total ms /\
    (accurate T -> accurate_exp T ->
     Rabs (sum_of (map factors ms) - rsum (map (exactly (val t)) ms)) <= bpow radix2 (-46) * (1 + F * U + P + U / D) * total ms)).
  { induction H as [|m ms Hm _ (IF & IS & IE)].
    - split; [constructor|]. split; [cbn; lra|]. intros _ _. cbn. rewrite Rminus_diag_eq, Rabs_R0 by reflexivity. lra.
    - destruct (factor_ok m Hm) as (w & E & Fw & Bw & Dw). cbn [map]. unfold total. cbn [map]. rewrite !rsum_cons. fold (total ms).
      rewrite E. destruct Hm as (_ & _ & Fa & _).
      assert (M : Rabs (val w * val (m_a m)) <= Rabs (val (m_a m))).
      { rewrite Rabs_mult. pose proof (Rmult_le_compat_r _ _ _ (Rabs_pos (val (m_a m))) Bw). lra. }
      split; [constructor; [split; assumption|exact IF]|]. split; [exact (Rplus_le_compat _ _ _ _ M IS)|].
      intros AC AE. specialize (IE AC AE). specialize (Dw AC AE).
      change (sum_of ((w, m_a m) :: map factors ms)) with (val w * val (m_a m) + sum_of (map factors ms)).
      set (S1 := sum_of (map factors ms)) in *. set (S2 := rsum (map (exactly (val t)) ms)) in *.
      unfold exactly at 1.
      set (E1 := exp (-2 * val t / val (m_d m))) in *. set (C1 := cos (2 * PI * val (m_f m) * val t + phase_of m)) in *.
      replace (val w * val (m_a m) + S1 - (val (m_a m) * E1 * C1 + S2))
        with ((val w - E1 * C1) * val (m_a m) + (S1 - S2)) by ring.
      eapply Rle_trans; [apply Rabs_triang|]. rewrite Rmult_plus_distr_l. apply Rplus_le_compat; [|exact IE].
      rewrite Rabs_mult. apply Rmult_le_compat_r; [apply Rabs_pos|exact Dw]. }
  destruct S as (S1 & S2 & S3). split; [exact S1|]. split; [exact S2|]. split; [|exact S3].
  eapply Rle_trans; [apply sum_size|exact S2].
Qed.
End One.

Lemma audio_point : forall T x ms ys (Q : f64_num -> f64_num -> Prop), s_audio T x ms ys ->
  (forall t y, In t x -> dot (map (fun m => s_factors T t (m_f m) (m_d m) (m_a m) (m_p m)) ms) y -> Q t y) ->
  Forall2 Q x ys.
Proof.
  intros T x ms ys Q H. induction H as [|t y x ys D _ IH]; intros HQ; constructor.
  - apply HQ; [left; reflexivity|exact D].
  - apply IH. intros t' y' I. apply HQ. right. exact I.
Qed.

(** C110. In whatever order the partials are added, with fused operations or without,
    every sample is a number, at most the sum of the moduli of the amplitudes but
    for [2^-51] times the number of partials. *)
Theorem c110_bounded : forall T F P D U ms x ys, good_trig T -> moderate F -> moderate P -> moderate D -> moderate U ->
  Forall (fits F P D) ms -> (Z.of_nat (List.length ms) <= 2 ^ 50)%Z -> total ms <= bpow radix2 1000 ->
  Forall (on_time U) x -> s_audio T x ms ys ->
  Forall2 (fun t (y : f64_num) => finite y /\
    Rabs (val y) <= (1 + bpow radix2 (-51) * INR (List.length ms)) * total ms + INR (List.length ms) * bpow radix2 (-1073)) x ys.
Proof.
  intros T F P D U ms x ys G RF RP RD RU HM HL HT HX HA. apply (audio_point _ _ _ _ _ HA). intros t y It Dy.
  rewrite Forall_forall in HX. specialize (HX t It).
  destruct (factors_ok T G F P D U RF RP RD RU t HX ms HM) as (F1 & S1 & S2 & _).
  set (L := map (fun m => s_factors T t (m_f m) (m_d m) (m_a m) (m_p m)) ms) in *.
  assert (LL : List.length L = List.length ms) by apply map_length.
  destruct (dot_bound L y Dy F1) as [Fy By]; [lra|lia|]. split; [exact Fy|]. rewrite LL in By.
  replace (val y) with ((val y - sum_of L) + sum_of L) by ring. eapply Rle_trans; [apply Rabs_triang|].
  assert (E : bpow radix2 (-1073) = 2 * eta) by (change (-1073)%Z with (-1074 + 1)%Z; apply bpow_S).
  rewrite E. pose proof (pos_INR (List.length ms)). pose proof (bpow_gt_0 radix2 (-51)).
  assert (bpow radix2 (-51) * INR (List.length ms) * size_of L <= bpow radix2 (-51) * INR (List.length ms) * total ms).
  { apply Rmult_le_compat_l; [apply Rmult_le_pos; lra|exact S1]. }
  lra.
Qed.
Print Assumptions c110_bounded.

(** C110. If the cosine and the exponential are within [2^-50] of the real ones, every
    sample is [sum a exp(-2 t / d) cos(2 pi f t + p)], up to [2^-51] for every partial and
    [2^-46] times the sizes of the arguments, of the sum of the moduli of the
    amplitudes. *)
Theorem c110_accuracy : forall T F P D U ms x ys, good_trig T -> accurate T -> accurate_exp T ->
  moderate F -> moderate P -> moderate D -> moderate U ->
  Forall (fits F P D) ms -> (Z.of_nat (List.length ms) <= 2 ^ 50)%Z -> total ms <= bpow radix2 1000 ->
  Forall (on_time U) x -> s_audio T x ms ys ->
  Forall2 (fun t (y : f64_num) => finite y /\
    Rabs (val y - rsum (map (fun m => val (m_a m) * exp (-2 * val t / val (m_d m)) *
                                      cos (2 * PI * val (m_f m) * val t + phase_of m)) ms))
      <= (bpow radix2 (-51) * INR (List.length ms) + bpow radix2 (-46) * (1 + F * U + P + U / D)) * total ms
         + INR (List.length ms) * bpow radix2 (-1073)) x ys.
Proof.
  intros T F P D U ms x ys G AC AE RF RP RD RU HM HL HT HX HA. apply (audio_point _ _ _ _ _ HA). intros t y It Dy.
  rewrite Forall_forall in HX. specialize (HX t It).
  destruct (factors_ok T G F P D U RF RP RD RU t HX ms HM) as (F1 & S1 & _ & S3). specialize (S3 AC AE).
  set (L := map (fun m => s_factors T t (m_f m) (m_d m) (m_a m) (m_p m)) ms) in *.
  assert (LL : List.length L = List.length ms) by apply map_length.
  destruct (dot_bound L y Dy F1) as [Fy By]; [lra|lia|]. split; [exact Fy|]. rewrite LL in By.
  change (map (fun m => val (m_a m) * exp (-2 * val t / val (m_d m)) * cos (2 * PI * val (m_f m) * val t + phase_of m)) ms)
    with (map (exactly (val t)) ms).
  set (R0 := rsum (map (exactly (val t)) ms)) in *.
  replace (val y - R0) with ((val y - sum_of L) + (sum_of L - R0)) by ring. eapply Rle_trans; [apply Rabs_triang|].
  assert (E : bpow radix2 (-1073) = 2 * eta) by (change (-1073)%Z with (-1074 + 1)%Z; apply bpow_S).
  rewrite E. pose proof (pos_INR (List.length ms)). pose proof (bpow_gt_0 radix2 (-51)).
  assert (bpow radix2 (-51) * INR (List.length ms) * size_of L <= bpow radix2 (-51) * INR (List.length ms) * total ms).
  { apply Rmult_le_compat_l; [apply Rmult_le_pos; lra|exact S1]. }
  lra.
Qed.
Print Assumptions c110_accuracy.

(** ** The arguments, and the exact model *)

Definition reals (l : list f64_num) : list R := map (fun v : f64_num => val v) l.
Definition phases_of (p : option (list f64_num)) : phases := match p with None => PNone | Some l => PArr (reals l) end.

(** C110. Lists of different sizes raise ValueError, as in the exact model; otherwise there is one
    mode for each frequency and the exact model gives the sums of [c110_accuracy]. *)
Theorem c110_modes : forall freqs decays amps ps draw x,
  match s_modes freqs decays amps ps with
  | Err e => e = ValueError /\
      additive_synth cos draw (reals x) (reals freqs) (reals decays) (reals amps) (phases_of ps) = Err ValueError
  | Ok ms => map m_f ms = freqs /\ map m_d ms = decays /\ map m_a ms = amps /\
      match ps with None => Forall (fun m => m_p m = None) ms | Some l => map m_p ms = map Some l end /\
      additive_synth cos draw (reals x) (reals freqs) (reals decays) (reals amps) (phases_of ps)
      = Ok (map (fun t => rsum (map (fun m => val (m_a m) * exp (-2 * t / val (m_d m)) *
                                      cos (2 * PI * val (m_f m) * t + phase_of m)) ms)) (reals x))
  end.
Proof.
  intros freqs decays amps ps draw x.
  assert (H : match s_modes freqs decays amps ps with
    | Err e => e = ValueError /\ ~ (List.length decays = List.length freqs /\ List.length amps = List.length freqs /\
                  match ps with None => True | Some l => List.length l = List.length freqs end)
    | Ok ms => map m_f ms = freqs /\ map m_d ms = decays /\ map m_a ms = amps /\
      match ps with None => Forall (fun m => m_p m = None) ms | Some l => map m_p ms = map Some l end /\
      forall t, sum4 (partial_at cos t) (reals freqs) (reals decays) (reals amps)
                  (match ps with None => map (fun _ => 0) (reals freqs) | Some l => reals l end)
                = rsum (map (exactly t) ms)
    end).
  { revert decays amps ps. induction freqs as [|f fs IH]; intros [|d ds] [|a as_] [[|p ps]|]; cbn [s_modes];
      try (split; [reflexivity|]; cbn [List.length]; lia).
    - repeat split; reflexivity.
    - repeat split; constructor.
    - specialize (IH ds as_ (Some ps)). destruct (s_modes fs ds as_ (Some ps)) as [ms|e]; cbn [bind].
      + destruct IH as (I1 & I2 & I3 & I4 & I5). cbn [map m_f m_d m_a m_p].
        rewrite I1, I2, I3, I4. repeat split. intros t. cbn [reals map sum4]. rewrite rsum_cons.
        specialize (I5 t). unfold reals in I5. rewrite I5. f_equal. unfold partial_at, exactly, phase_of.
        cbn [m_f m_d m_a m_p]. replace (t * (-2 / val d)) with (-2 * t / val d) by (unfold Rdiv; ring).
        replace (2 * PI * t * val f + val p) with (2 * PI * val f * t + val p) by ring. ring.
      + destruct IH as [-> IH]. split; [reflexivity|]. cbn [List.length]. lia.
    - specialize (IH ds as_ None). destruct (s_modes fs ds as_ None) as [ms|e]; cbn [bind].
      + destruct IH as (I1 & I2 & I3 & I4 & I5). cbn [map m_f m_d m_a m_p].
        rewrite I1, I2, I3. repeat split; [constructor; [reflexivity|exact I4]|]. intros t. cbn [reals map sum4]. rewrite rsum_cons.
        specialize (I5 t). unfold reals in I5. rewrite I5. f_equal. unfold partial_at, exactly, phase_of.
        cbn [m_f m_d m_a m_p]. replace (t * (-2 / val d)) with (-2 * t / val d) by (unfold Rdiv; ring).
        replace (2 * PI * t * val f + 0) with (2 * PI * val f * t + 0) by ring. ring.
      + destruct IH as [-> IH]. split; [reflexivity|]. cbn [List.length]. lia. }
  assert (LN : forall l, List.length (reals l) = List.length l) by (intro l; apply map_length).
  destruct (s_modes freqs decays amps ps) as [ms|e].
  - destruct H as (I1 & I2 & I3 & I4 & I5). repeat (split; [assumption|]).
    assert (L1 : List.length decays = List.length ms) by (rewrite <- I2; apply map_length).
    assert (L2 : List.length freqs = List.length ms) by (rewrite <- I1; apply map_length).
    assert (L3 : List.length amps = List.length ms) by (rewrite <- I3; apply map_length).
    unfold additive_synth. destruct ps as [l|]; cbn [phases_of bind].
    + assert (L4 : List.length l = List.length ms) by (rewrite <- (map_length Some l), <- I4; apply map_length).
      rewrite !LN, L1, L2, L3, L4, !Nat.eqb_refl. cbn [andb]. f_equal. apply map_ext. intros t. apply I5.
    + rewrite map_length, !LN, L1, L2, L3, !Nat.eqb_refl. cbn [andb]. f_equal. apply map_ext. intros t. apply I5.
  - destruct H as [-> N]. split; [reflexivity|]. unfold additive_synth. destruct ps as [l|]; cbn [phases_of bind].
    + rewrite !LN. destruct (Nat.eqb_spec (List.length decays) (List.length freqs)); [|reflexivity].
      destruct (Nat.eqb_spec (List.length amps) (List.length freqs)); [|reflexivity].
      destruct (Nat.eqb_spec (List.length l) (List.length freqs)); [|reflexivity]. tauto.
    + rewrite map_length, !LN, Nat.eqb_refl. destruct (Nat.eqb_spec (List.length decays) (List.length freqs)); [|reflexivity].
      destruct (Nat.eqb_spec (List.length amps) (List.length freqs)); [|reflexivity]. tauto.
Qed.
Print Assumptions c110_modes.

(** ** A decay of zero *)

Lemma dot_nan : forall l x, dot l x -> (exists p, In p l /\ fst p = B754_nan) -> x = B754_nan.
Proof.
  assert (FN : forall b x : f64_num, ffma B754_nan b x = B754_nan) by (intros [s|s| |s m e h] [s'|s'| |s' m' e' h']; reflexivity).
  assert (FN' : forall a b : f64_num, ffma a b B754_nan = B754_nan).
  { intros [s|s| |s m e h] [s'|s'| |s' m' e' h']; try reflexivity. }
  assert (AN : forall x : f64_num, fadd x B754_nan = B754_nan) by (intros [s|s| |s m e h]; reflexivity).
  intros l x D. induction D as [|a b|l r x y _ _ _ IHl _ IHr|a b l x _ IH|l x _ _ IH|l r x P _ IH]; intros (p & I & E).
  - destruct I.
  - destruct I as [<-|[]]. cbn in E. subst a. apply nan_mul_l.
  - apply in_app_or in I. destruct I as [I|I].
    + rewrite IHl by eauto. apply nan_add_l.
    + rewrite IHr by eauto. apply AN.
  - destruct I as [<-|I].
    + cbn in E. subst a. apply FN.
    + rewrite IH by eauto. apply FN'.
  - rewrite IH by eauto. apply AN.
  - apply IH. exists p. split; [|exact E]. eapply Permutation_in; [apply Permutation_sym, P|exact I].
Qed.

(** C110. If the decay of any partial is zero, the sample at time zero is NaN, whatever the
    library does with the cosine and in whatever order it adds. *)
Theorem c110_zero_decay : forall T ms x ys m, t_exp T B754_nan = B754_nan -> In m ms ->
  finite (m_d m) -> val (m_d m) = 0 -> s_audio T x ms ys ->
  Forall2 (fun t (y : f64_num) => finite t -> val t = 0 -> y = B754_nan) x ys.
Proof.
  intros T ms x ys m TN Im Fd Vd HA. apply (audio_point _ _ _ _ _ HA). intros t y _ Dy Ft Vt.
  eapply dot_nan; [exact Dy|]. exists (s_factors T t (m_f m) (m_d m) (m_a m) (m_p m)). split.
  - apply in_map_iff. exists m. auto.
  - unfold s_factors. cbn [fst].
    assert (N : s_dec t (m_d m) = B754_nan).
    { unfold s_dec. destruct (m_d m) as [s|s| |s k e h]; try discriminate Fd.
      - destruct t as [s'|s'| |s' k' e' h']; try discriminate Ft.
        + destruct s, s'; reflexivity.
        + exfalso. cbn in Vt. apply eq_0_F2R in Vt. destruct s'; discriminate Vt.
      - exfalso. cbn in Vd. apply eq_0_F2R in Vd. destruct s; discriminate Vd. }
    rewrite N, TN. apply nan_mul_l.
Qed.
Print Assumptions c110_zero_decay.

(** ** Examples *)

(** Functions with all these properties exist. *)
Definition full_trig : trig := mkTrig (t_cos real_trig) (t_sin real_trig) (t_atan2 real_trig)
  (fun x => if is_nan x then B754_nan else if Rle_dec (val x) (-400) then f64_of 0 0 else to_double (exp (val x))).

Example c110_trig_example : good_trig full_trig /\ accurate full_trig /\ accurate_exp full_trig /\
  t_exp full_trig B754_nan = B754_nan.
Proof.
  destruct c109_trig_example as [G A]. destruct G as [G1 G2 G3 G4 G5 G6 G7].
  destruct (int_val 0 ltac:(lia)) as [F0 V0].
  assert (NN : forall x : f64_num, finite x -> is_nan x = false) by (intros [s|s| |s m e h]; reflexivity || discriminate).
  assert (E1 : forall r, r <= 0 -> Rabs (exp r) <= 1).
  { intros r H. rewrite Rabs_pos_eq by (left; apply exp_pos). rewrite <- exp_0. destruct H as [H| ->]; [left; apply exp_increasing, H|right; reflexivity]. }
  split; [|split; [|split]].
  - constructor; try assumption.
    + intros x F H. cbn [t_exp full_trig]. rewrite (NN x F). destruct (Rle_dec _ _) as [L|L]; [rewrite V0; split; [exact F0|lra]|].
      destruct (to_double_ok _ (E1 _ H)) as (A1 & (A2 & A3) & _). split; [exact A1|]. split; [|apply Rabs_le_inv in A3; lra].
      unfold to_double. set (m := ZnearestE (exp (val x) * bpow radix2 52)).
      assert (M : (0 <= m)%Z).
      { unfold m. rewrite <- (Zrnd_IZR ZnearestE 0). apply Zrnd_le; [apply valid_rnd_N|].
        apply Rmult_le_pos; [left; apply exp_pos|apply bpow_ge_0]. }
      assert (MB : (m <= 2 ^ 52)%Z).
      { unfold m. rewrite <- (Zrnd_IZR ZnearestE (2 ^ 52)). apply Zrnd_le; [apply valid_rnd_N|].
        change (IZR (2 ^ 52)) with (bpow radix2 52). pose proof (bpow_gt_0 radix2 52). pose proof (E1 _ H) as B.
        rewrite Rabs_pos_eq in B by (left; apply exp_pos). nra. }
      assert (N : (0 <= nonzero m <= 2 ^ 52)%Z) by (unfold nonzero; destruct (Z.eqb_spec m 0); lia).
      destruct (f64_of_val (nonzero m) (-52) ltac:(lia) ltac:(lia)) as [_ V]. rewrite V.
      apply Rmult_le_pos; [apply IZR_le; lia|apply bpow_ge_0].
    + intros x F H. cbn [t_exp full_trig]. rewrite (NN x F). destruct (Rle_dec _ _); [|contradiction]. rewrite V0. apply bpow_ge_0.
  - exact A.
  - intros x F H. cbn [t_exp full_trig]. rewrite (NN x F). destruct (Rle_dec _ _) as [L|L]; [|apply to_double_ok, E1, H].
    rewrite V0, Rminus_0_l, Rabs_Ropp, Rabs_pos_eq by (left; apply exp_pos).
    apply Rle_trans with (exp (- 50)).
    { destruct (Rle_lt_or_eq_dec (val x) (-50) ltac:(lra)) as [K|K]; [left; apply exp_increasing, K|lra]. }
    assert (K : forall n, exp (- INR n) <= bpow radix2 (- Z.of_nat n)).
    { induction n as [|n IH]; [cbn [INR]; rewrite Ropp_0, exp_0; cbn; lra|].
      replace (- INR (S n)) with (- INR n + - (1)) by (rewrite S_INR; ring). rewrite exp_plus.
      replace (- Z.of_nat (S n))%Z with (- Z.of_nat n + -1)%Z by lia. rewrite bpow_plus.
      apply Rmult_le_compat; try (left; apply exp_pos); [exact IH|]. rewrite exp_Ropp.
      change (bpow radix2 (-1)) with (/ 2). apply Rinv_le_contravar; [lra|]. pose proof (exp_ineq1 1 ltac:(lra)). lra. }
    specialize (K 50%nat). rewrite INR_IZR_INZ in K. exact K.
  - reflexivity.
Qed.

(** Two partials, of amplitudes 3 and 1, at times 0 and 1: the second is added first or last,
    with one rounding or two. *)
Definition ex_modes : list mode_ :=
  [mkMode (f64_of 440 0) (f64_of 1 (-1)) (f64_of 3 0) None; mkMode (f64_of 1000 0) (f64_of 1 0) (f64_of 1 0) (Some (f64_of 1 (-1)))].
Example c110_example : exists ys, s_audio flat_trig [f64_of 0 0; f64_of 1 0] ex_modes ys /\
  map B2SF ys = [B2SF (f64_of 2 0); B2SF (f64_of 2 0)].
Proof.
  eexists. split.
  - constructor; [|constructor; [|constructor]].
    + apply dot_perm with (rev (map (fun m => s_factors flat_trig (f64_of 0 0) (m_f m) (m_d m) (m_a m) (m_p m)) ex_modes)).
      * apply Permutation_sym, Permutation_rev.
      * apply dot_fma, dot_fma, dot_nil.
    + apply (dot_add [_] [_]); try discriminate; apply dot_one.
  - vm_compute. reflexivity.
Qed.
Example c110_modes_example :
  (exists ms, s_modes [f64_of 440 0; f64_of 1000 0] [f64_of 1 0; f64_of 1 0] [f64_of 3 0; f64_of 1 0] None = Ok ms /\ List.length ms = 2%nat) /\
  s_modes [f64_of 440 0; f64_of 1000 0] [f64_of 1 0] [f64_of 3 0; f64_of 1 0] None = Err ValueError.
Proof. split; [eexists; split|]; reflexivity. Qed.

(** They satisfy the hypotheses of [c110_accuracy]. *)
Example c110_fits_example : Forall (fits (bpow radix2 10) 1 (/ 2)) ex_modes /\ total ex_modes <= bpow radix2 1000 /\
  Forall (on_time 1) [f64_of 0 0; f64_of 1 0] /\ moderate (bpow radix2 10) /\ moderate 1 /\ moderate (/ 2).
Proof.
  destruct (int_val 0 ltac:(lia)) as [F0 V0]. destruct (int_val 1 ltac:(lia)) as [F1 V1]. destruct (int_val 3 ltac:(lia)) as [F3 V3].
  destruct (int_val 440 ltac:(lia)) as [F4 V4]. destruct (int_val 1000 ltac:(lia)) as [Fm Vm].
  destruct (f64_of_val 1 (-1) ltac:(lia) ltac:(lia)) as [Fh Vh]. assert (Vh' : val (f64_of 1 (-1)) = / 2) by (rewrite Vh, Rmult_1_l; reflexivity).
  assert (L1 : 1 <= bpow radix2 200) by (change 1 with (bpow radix2 0); apply bpow_le; lia).
  assert (L2 : bpow radix2 (-200) <= / 2) by (change (/ 2) with (bpow radix2 (-1)); apply bpow_le; lia).
  assert (L10 : bpow radix2 10 = 1024) by reflexivity.
  assert (L3 : 4 <= bpow radix2 1000) by (change 4 with (bpow radix2 2); apply bpow_le; lia).
  split; [|split; [|split; [|split; [|split]]]].
  - apply Forall_cons; [|apply Forall_cons; [|apply Forall_nil]]; unfold fits; cbn [m_f m_d m_a m_p];
      rewrite ?V4, ?Vm, ?V1, ?Vh', ?L10; repeat apply conj; try assumption; try exact I; rewrite ?Rabs_pos_eq by lra; lra.
  - unfold total. cbn [map ex_modes m_a]. rewrite !rsum_cons, V3, V1, !Rabs_pos_eq by lra. change (rsum []) with 0. lra.
  - apply Forall_cons; [|apply Forall_cons; [|apply Forall_nil]]; unfold on_time; rewrite ?V0, ?V1; repeat apply conj; try assumption; lra.
  - split; apply bpow_le; lia.
  - split; lra.
  - split; lra.
Qed.
Example c110_zero_decay_example : exists y, s_audio flat_trig [f64_of 0 0] [mkMode (f64_of 440 0) (f64_of 0 0) (f64_of 3 0) None] [y].
Proof. eexists. constructor; [apply dot_one|constructor]. Qed.
