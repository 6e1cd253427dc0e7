(** C118: what [BeatsGenerator] computes in double precision. *)
From Coq Require Import String ZArith Reals Lra Lia Bool Permutation List.
From Flocq Require Import Core IEEE754.BinarySingleNaN.
Import ListNotations.
From Verif Require Import Base Py PyLemmas ListLemmas RLists Np_Model Np_Lemmas Double_Model Double_Float Peak_Model Peak_Round Peak_Accuracy
  Peak_Proofs Clock_Model Clock_Proofs Level_Model Level_Proofs Level_Props Rise_Model Rise_Props Draw_Model.
Local Open Scope R_scope.

Local Notation z := (f64_of 0 0).
Local Ltac feq := apply (B2SF_inj 53 1024); vm_compute; reflexivity.
Lemma sign_val : forall b : bool, fsub (fmul (f64_of 2 0) (if b then f64_of 1 0 else f64_of 0 0)) (f64_of 1 0) = f64_of (if b then 1 else -1) 0.
Proof. intros []; feq. Qed.
Lemma u51 : bpow radix2 (-51) = 4 * uro. Proof. rewrite uro_val. change 4 with (bpow radix2 2). rewrite <- bpow_plus. reflexivity. Qed.
Lemma u50 : bpow radix2 (-50) = 8 * uro. Proof. rewrite uro_val. change 8 with (bpow radix2 3). rewrite <- bpow_plus. reflexivity. Qed.

(** A number drawn from [0,1], moved to [left,right]: its modulus is never below [left], exceeds [right] by [2^-51] of it at most, and is right
    up to that; it is [left] if 0 was drawn.  Its sign is positive exactly if the other number drawn is at most [positive]. *)
Theorem c118_side : forall x u lo hi positive : f64_num, finite x -> 0 <= val x <= 1 -> finite lo -> finite hi -> 0 <= val lo <= val hi -> val hi <= bpow radix2 1000 ->
  finite (d_side x u lo hi positive) /\
  val lo <= Rabs (val (d_side x u lo hi positive)) <= val hi * (1 + bpow radix2 (-51)) /\
  val (d_side x u lo hi positive) = (if d_ge positive u then 1 else -1) * Rabs (val (d_side x u lo hi positive)) /\
  Rabs (Rabs (val (d_side x u lo hi positive)) - (val lo + val x * (val hi - val lo))) <= bpow radix2 (-51) * val hi + bpow radix2 (-1074) /\
  (val x = 0 -> Rabs (val (d_side x u lo hi positive)) = val lo).
Proof.
  intros x u lo hi positive Fx Hx Fl Fh Hl Hh. unfold d_side. cbv zeta. rewrite sign_val.
  pose proof uro_pos as U. pose proof uro_small as US. assert (B23 : 4 * bpow radix2 1000 <= bpow radix2 1023) by (change 4 with (bpow radix2 2); rewrite <- bpow_plus; apply bpow_le; lia).
  pose proof (bpow_gt_0 radix2 1000) as B0. assert (EE : eta <= bpow radix2 1000) by (apply bpow_le; lia). pose proof eta_pos as EP.
  destruct (fsub_rel hi lo Fh Fl) as (e1 & He1 & Fw & Vw); [apply Rabs_le; split; lra|]. set (w := fsub hi lo) in *. apply Rabs_le_inv in He1.
  set (D := val hi - val lo) in *. assert (PD : 0 <= D) by (unfold D; lra).
  assert (D1 : D * e1 <= D * uro) by (apply Rmult_le_compat_l; lra). assert (D2 : D * - uro <= D * e1) by (apply Rmult_le_compat_l; lra).
  assert (D3 : D * uro <= D * / 1024) by (apply Rmult_le_compat_l; lra).
  assert (DH : D * uro <= val hi * uro) by (apply Rmult_le_compat_r; unfold D; lra).
  assert (H3 : val hi * uro <= val hi * / 1024) by (apply Rmult_le_compat_l; lra).
  assert (W0 : 0 <= val w <= D + D * uro) by (rewrite Vw; lra).
  assert (XW : 0 <= val x * val w <= val w).
  { split; [apply Rmult_le_pos; lra|]. rewrite <- (Rmult_1_l (val w)) at 2. apply Rmult_le_compat_r; lra. }
  destruct (fmul_val x w Fx Fw) as [Fp Vp]; [rewrite Rabs_pos_eq by lra; unfold D in *; lra|]. set (p := fmul x w) in *.
  assert (P0 : 0 <= val p) by (rewrite Vp; apply rnd_ge_fmt; [apply generic_format_0|lra]).
  assert (P1 : val p <= val w) by (rewrite Vp; apply rnd_le_fmt; [apply val_fmt|lra]).
  pose proof (rnd_near (val x * val w)) as PN. rewrite <- Vp in PN. rewrite (Rabs_pos_eq (val x * val w)) in PN by lra.
  destruct (fadd_val p lo Fp Fl) as [Fy Vy]; [rewrite Rabs_pos_eq by lra; unfold D in *; lra|]. destruct (fadd_rel p lo Fp Fl) as (e2 & He2 & _ & Ry); [rewrite Rabs_pos_eq by lra; unfold D in *; lra|].
  set (y := fadd p lo) in *. apply Rabs_le_inv in He2.
  assert (Y0 : val lo <= val y) by (rewrite Vy; apply rnd_ge_fmt; [apply val_fmt|lra]).
  assert (T : val p + val lo <= val hi + val hi * uro) by (unfold D in *; lra).
  assert (Q1 : (val p + val lo) * e2 <= (val p + val lo) * uro) by (apply Rmult_le_compat_l; lra). assert (Q2 : (val p + val lo) * - uro <= (val p + val lo) * e2) by (apply Rmult_le_compat_l; lra).
  assert (Q3 : (val p + val lo) * uro <= (val hi + val hi * uro) * uro) by (apply Rmult_le_compat_r; lra).
  assert (Q4 : val hi * uro * uro <= val hi * uro * / 1024) by (apply Rmult_le_compat_l; [apply Rmult_le_pos; lra|lra]).
  assert (Y1 : val y <= val hi * (1 + bpow radix2 (-51))) by (rewrite u51, Ry; lra).
  assert (YB : val y <= bpow radix2 1023) by (rewrite u51 in Y1; lra).
  destruct (int_val (if d_ge positive u then 1 else -1) ltac:(destruct (d_ge positive u); lia)) as [Fs Vs].
  set (s := f64_of (if d_ge positive u then 1 else -1) 0) in *.
  assert (Vs' : val s = if d_ge positive u then 1 else -1) by (rewrite Vs; destruct (d_ge positive u); reflexivity). clear Vs.
  destruct (fmul_val y s Fy Fs) as [Fr Vr]; [rewrite Vs'; destruct (d_ge positive u); apply Rabs_le; split; lra|].
  assert (VR : val (fmul y s) = (if d_ge positive u then 1 else -1) * val y).
  { rewrite Vr, Vs'. destruct (d_ge positive u); [rewrite Rmult_1_r, rnd_id by apply val_fmt; ring|]. replace (val y * -1) with (- val y) by ring. rewrite rnd_opp, rnd_id by apply val_fmt. ring. }
  assert (AB : Rabs (val (fmul y s)) = val y).
  { rewrite VR. destruct (d_ge positive u); [rewrite Rmult_1_l; apply Rabs_pos_eq; lra|]. replace (-1 * val y) with (- val y) by ring. rewrite Rabs_Ropp. apply Rabs_pos_eq. lra. }
  rewrite AB. split; [exact Fr|]. split; [split; assumption|]. split; [exact VR|]. split.
  - rewrite u51. apply Rabs_le_inv in PN. assert (UW : uro * (val x * val w) <= uro * (D + D * uro)) by (apply Rmult_le_compat_l; lra).
    assert (UD : uro * (D * uro) <= uro * (D * / 1024)) by (apply Rmult_le_compat_l; lra).
    assert (XD : Rabs (val x * (D * e1)) <= D * uro).
    { rewrite Rabs_mult, (Rabs_pos_eq (val x)) by lra. rewrite <- (Rmult_1_l (D * uro)). apply Rmult_le_compat; [lra|apply Rabs_pos|lra|]. apply Rabs_le. lra. }
    apply Rabs_le_inv in XD. assert (EW : val x * val w = val x * D + val x * (D * e1)) by (rewrite Vw; ring).
    assert (TH : (val p + val lo) * uro <= 2 * (val hi * uro)) by lra. 
    assert (PT : Rabs ((val p + val lo) * e2) <= val hi * uro + val hi * uro * / 1024) by (apply Rabs_le; lra). apply Rabs_le_inv in PT.
    assert (HH : 0 <= val hi * uro) by (apply Rmult_le_pos; lra).
    assert (DD : uro * (D + D * uro) <= val hi * uro + val hi * uro * / 1024) by lra.
    change (bpow radix2 (-1074)) with eta in *. rewrite Ry. apply Rabs_le. split; lra.
  - intros X0. rewrite Vy. assert (P00 : val p = 0) by (rewrite Vp, X0, Rmult_0_l; apply rnd_0). rewrite P00, Rplus_0_l. apply rnd_id, val_fmt.
Qed.

(** The difference of frequencies has a modulus in [[beat_min, beat_max]], up to [2^-50]. *)
Theorem c118_beat : forall x u bmin bmax : f64_num, finite x -> 0 <= val x <= 1 -> finite bmin -> finite bmax ->
  bpow radix2 (-100) <= val bmin <= val bmax -> val bmax <= bpow radix2 100 ->
  exists y, d_beat x u bmin bmax = Ok y /\ finite y /\ val bmin * (1 - bpow radix2 (-50)) <= Rabs (val y) <= val bmax * (1 + bpow radix2 (-50)).
Proof.
  intros x u bmin bmax Fx Hx F1 F2 H1 H2. pose proof (bpow_gt_0 radix2 (-100)) as B0. pose proof uro_pos as U. pose proof uro_small as US.
  destruct (int_val 1 ltac:(lia)) as [Fo Vo]. set (one := f64_of 1 0) in *.
  assert (INV : forall b : f64_num, finite b -> bpow radix2 (-100) <= val b <= bpow radix2 100 -> bpow radix2 (-100) <= / val b <= bpow radix2 100).
  { intros b Fb Hb. change (bpow radix2 (-100)) with (bpow radix2 (- (100))). rewrite bpow_opp. split; [apply Rinv_le; lra|].
    replace (bpow radix2 100) with (/ bpow radix2 (-100)); [apply Rinv_le; lra|]. rewrite <- bpow_opp. reflexivity. }
  assert (DIV : forall b : f64_num, finite b -> bpow radix2 (-100) <= val b <= bpow radix2 100 ->
    exists e, Rabs e <= uro /\ f64_div one b = Ok (fdiv one b) /\ finite (fdiv one b) /\ val (fdiv one b) = rnd (/ val b) /\ val (fdiv one b) = / val b * (1 + e)).
  { intros b Fb Hb. pose proof (INV b Fb Hb) as IB. destruct (fdiv_val one b Fo) as [F V]; [lra| |].
    { rewrite Vo. unfold Rdiv. rewrite Rmult_1_l, Rabs_pos_eq by lra. eapply Rle_trans; [apply IB|apply bpow_le; lia]. }
    rewrite Vo in V. unfold Rdiv in V. rewrite Rmult_1_l in V. destruct (rnd_rel (/ val b)) as (e & He & Ee).
    { right. rewrite Rabs_pos_eq by lra. eapply Rle_trans; [|apply IB]. apply bpow_le. lia. }
    exists e. split; [exact He|]. split; [apply f64_div_ok; lra|]. split; [exact F|]. split; [exact V|]. now rewrite V. }
  destruct (DIV bmax F2 ltac:(lra)) as (e1 & He1 & O1 & Fl & Vl & El). destruct (DIV bmin F1 ltac:(lra)) as (e2 & He2 & O2 & Fh & Vh & Eh).
  unfold d_beat. fold one. rewrite O1. cbn [bind]. rewrite O2. cbn [bind]. set (lo := fdiv one bmax) in *. set (hi := fdiv one bmin) in *.
  pose proof (INV bmax F2 ltac:(lra)) as I2. pose proof (INV bmin F1 ltac:(lra)) as I1. apply Rabs_le_inv in He1, He2.
  assert (LH : val lo <= val hi) by (rewrite Vl, Vh; apply rnd_mono, Rinv_le; lra).
  assert (B102 : 2 * bpow radix2 100 = bpow radix2 101) by (change 2 with (bpow radix2 1); rewrite <- bpow_plus; reflexivity).
  assert (L0 : / val bmax * (1 - uro) <= val lo) by (rewrite El; apply Rmult_le_compat_l; lra).
  assert (H0 : val hi <= / val bmin * (1 + uro)) by (rewrite Eh; apply Rmult_le_compat_l; lra).
  assert (H0' : val hi <= bpow radix2 101).
  { eapply Rle_trans; [exact H0|]. rewrite <- B102, Rmult_comm. apply Rmult_le_compat; lra. }
  assert (LP : bpow radix2 (-101) <= val lo).
  { eapply Rle_trans; [|exact L0]. change (-101)%Z with (-100 + -1)%Z. rewrite bpow_plus. apply Rmult_le_compat; try lra; try apply bpow_ge_0. change (bpow radix2 (-1)) with (/ 2). lra. }
  pose proof (bpow_gt_0 radix2 (-101)) as B1.
  destruct (c118_side x u lo hi (f64_of 1 (-1)) Fx Hx Fl Fh ltac:(lra)) as (Fs & [S1 S2] & _ & _ & _); [eapply Rle_trans; [exact H0'|apply bpow_le; lia]|].
  set (s := d_side x u lo hi (f64_of 1 (-1))) in *. rewrite u51 in S2. rewrite u50.
  assert (N : val s <> 0) by (intros E; rewrite E, Rabs_R0 in S1; lra).
  assert (S3 : Rabs (val s) <= bpow radix2 102).
  { eapply Rle_trans; [exact S2|]. change 102%Z with (101 + 1)%Z. rewrite bpow_plus. change (bpow radix2 1) with 2. apply Rmult_le_compat; lra. }
  assert (SI : bpow radix2 (-102) <= / Rabs (val s) <= bpow radix2 101).
  { change (bpow radix2 (-102)) with (bpow radix2 (- (102))). rewrite bpow_opp. split; [apply Rinv_le; lra|].
    replace (bpow radix2 101) with (/ bpow radix2 (-101)); [apply Rinv_le; lra|]. rewrite <- bpow_opp. reflexivity. }
  assert (RI : Rabs (/ val s) = / Rabs (val s)) by (apply Rabs_Rinv; exact N).
  destruct (fdiv_val one s Fo N) as [F V].
  { rewrite Vo. unfold Rdiv. rewrite Rmult_1_l, RI. eapply Rle_trans; [apply SI|apply bpow_le; lia]. }
  rewrite Vo in V. unfold Rdiv in V. rewrite Rmult_1_l in V. destruct (rnd_rel (/ val s)) as (e & He & Ee).
  { right. rewrite RI. eapply Rle_trans; [|apply SI]. apply bpow_le. lia. }
  exists (fdiv one s). split; [apply f64_div_ok; exact N|]. split; [exact F|]. rewrite V, Ee, Rabs_mult, RI. apply Rabs_le_inv in He. rewrite (Rabs_pos_eq (1 + e)) by lra.
  assert (PS : 0 < Rabs (val s)) by lra. set (a := Rabs (val s)) in *. assert (PI : 0 < / a) by (apply Rinv_0_lt_compat; exact PS).
  split.
  - (* bmin (1 - 8u) <= (1/a)(1+e), a <= 1/bmin (1+u)(1+4u) *)
    assert (A1 : a * val bmin <= (1 + uro) * (1 + 4 * uro)).
    { apply Rle_trans with (/ val bmin * (1 + uro) * (1 + 4 * uro) * val bmin); [apply Rmult_le_compat_r; [lra|]|right; field; lra]. eapply Rle_trans; [exact S2|]. apply Rmult_le_compat_r; lra. }
    apply Rmult_le_reg_l with a; [exact PS|]. replace (a * (/ a * (1 + e))) with (1 + e) by (field; lra). replace (a * (val bmin * (1 - 8 * uro))) with (a * val bmin * (1 - 8 * uro)) by ring.
    apply Rle_trans with ((1 + uro) * (1 + 4 * uro) * (1 - 8 * uro)); [apply Rmult_le_compat_r; lra|].
    assert (0 <= uro * uro <= uro * / 1024) by (split; [apply Rmult_le_pos; lra|apply Rmult_le_compat_l; lra]). assert (0 <= uro * uro * uro) by (apply Rmult_le_pos; lra). nra.
  - assert (A1 : 1 - uro <= a * val bmax).
    { apply Rle_trans with (/ val bmax * (1 - uro) * val bmax); [right; field; lra|]. apply Rmult_le_compat_r; lra. }
    apply Rmult_le_reg_l with a; [exact PS|]. replace (a * (/ a * (1 + e))) with (1 + e) by (field; lra). replace (a * (val bmax * (1 + 8 * uro))) with (a * val bmax * (1 + 8 * uro)) by ring.
    apply Rle_trans with ((1 - uro) * (1 + 8 * uro)); [|apply Rmult_le_compat_r; lra].
    assert (0 <= uro * uro <= uro * / 1024) by (split; [apply Rmult_le_pos; lra|apply Rmult_le_compat_l; lra]). nra.
Qed.
(** With the default limits, 1.8 and 18 Hz, it is less than 1.8 if 1 is drawn. *)
Definition f18 : f64_num := f64_of 8106479329266893 (-52).
Theorem c118_beat_refuted : exists x u y, finite x /\ 0 <= val x <= 1 /\ d_beat x u f18 (f64_of 18 0) = Ok y /\ Rabs (val y) < val f18.
Proof.
  exists (f64_of 1 0), (f64_of 0 0), (f64_of (8106479329266893 - 1) (-52)).
  split; [reflexivity|]. split; [|split].
  - unfold val. cbn. unfold F2R. cbn. lra.
  - assert (R : forall (r : res f64_num) (y : f64_num), match r with Ok v => Some (@B2SF 53 1024 v) | Err _ => None end = Some (@B2SF 53 1024 y) -> r = Ok y).
    { intros [v|] y E; [|discriminate E]. injection E as E. assert (Q : v = y) by (apply (B2SF_inj 53 1024); exact E). now rewrite Q. }
    apply R. vm_compute. reflexivity.
  - unfold val. cbn. unfold F2R. cbn. rewrite Rabs_pos_eq by lra. lra.
Qed.

(** Decays: an error exactly if the mean is below the minimum; otherwise none is below the minimum, and each is the nearest double to the number drawn plus it. *)
Theorem c118_decays : forall draw (decay decay_min : f64_num), finite decay -> finite decay_min -> 0 < val decay <= bpow radix2 1000 -> Rabs (val decay_min) <= bpow radix2 1000 ->
  (forall s : f64_num, finite s -> 0 <= val s -> List.length (draw s) = 3%nat /\ Forall (fun v : f64_num => finite v /\ 0 <= val v <= bpow radix2 1000) (draw s)) ->
  (val decay < val decay_min /\ d_decays draw decay decay_min = Err ValueError) \/
  (val decay_min <= val decay /\ exists d, d_decays draw decay decay_min = Ok d /\ List.length d = 3%nat /\
    Forall2 (fun v w : f64_num => finite w /\ val w = rnd (val v + val decay_min) /\ val decay_min <= val w) (draw (fsub decay decay_min)) d).
Proof.
  intros draw decay dm F1 F2 B1 B2 HD. apply Rabs_le_inv in B2. unfold d_decays. cbv zeta. pose proof uro_small as US.
  assert (B23 : 4 * bpow radix2 1000 <= bpow radix2 1023) by (change 4 with (bpow radix2 2); rewrite <- bpow_plus; apply bpow_le; lia). pose proof (bpow_gt_0 radix2 1000).
  assert (BB : Rabs (val decay - val dm) <= bpow radix2 1023) by (apply Rabs_le; lra).
  destruct (fsub_rel decay dm F1 F2 BB) as (e & He & Fs & Vs). apply Rabs_le_inv in He.
  assert (SG : d_negative (fsub decay dm) = true <-> val decay < val dm).
  { destruct (Rlt_le_dec (val decay) (val dm)) as [L|L].
    - assert (NV : val (fsub decay dm) < 0).
      { rewrite Vs. assert (0 < (val dm - val decay) * (1 + e)) by (apply Rmult_lt_0_compat; lra). lra. }
      split; [intros _; exact L|intros _]. destruct (fsub decay dm) as [c|c| |c m0 e0 E0]; try discriminate Fs; [change (val (B754_zero c : f64_num)) with 0 in NV; lra|].
      destruct c; [reflexivity|]. exfalso. assert (0 < val (B754_finite false m0 e0 E0 : f64_num)); [|lra]. unfold val. cbn [B2R]. apply F2R_gt_0. cbn. lia.
    - split; [|lra]. intros E. exfalso. assert (NV : 0 <= val (fsub decay dm)) by (rewrite Vs; apply Rmult_le_pos; lra).
      pose proof (Bminus_correct 53 1024 prec_pos prec_emax mode_NE decay dm F1 F2) as C. change (@Bminus 53 1024 prec_pos prec_emax mode_NE decay dm) with (fsub decay dm) in C.
      rewrite Rlt_bool_true in C.
      2: { change (Rabs (rnd (val decay - val dm)) < bpow radix2 1024). apply Rle_lt_trans with (bpow radix2 1023); [|apply bpow_lt; lia]. apply rnd_abs_le; [|exact BB]. apply generic_format_bpow. unfold fexp64, FLT_exp, SpecFloat.fexp, SpecFloat.emin. lia. }
      destruct C as (_ & _ & C). unfold d_negative in E. apply andb_true_iff in E. destruct E as [_ E]. rewrite E in C.
      change (B2R decay) with (val decay) in C. change (B2R dm) with (val dm) in C.
      destruct (Rcompare_spec (val decay - val dm) 0) as [G|G|G]; [lra| |discriminate C].
      destruct decay as [c|c| |c m0 e0 E0]; try discriminate F1; [change (val (B754_zero c : f64_num)) with 0 in B1; lra|]. destruct c; [|discriminate C].
      assert (val (B754_finite true m0 e0 E0 : f64_num) < 0); [|lra]. unfold val. cbn [B2R]. apply F2R_lt_0. cbn. lia. }
  destruct (d_negative (fsub decay dm)) eqn:EN.
  - left. split; [apply SG; reflexivity|reflexivity].
  - right. assert (LE : val dm <= val decay) by (apply Rnot_lt_le; intros G; apply SG in G; discriminate G). split; [exact LE|].
    assert (P : 0 <= val (fsub decay dm)) by (rewrite Vs; apply Rmult_le_pos; lra). destruct (HD _ Fs P) as [L D].
    exists (map (fun v => fadd v dm) (draw (fsub decay dm))). split; [reflexivity|]. split; [now rewrite map_length|].
    apply Forall2_map_r. intros v Hv. rewrite Forall_forall in D. destruct (D v Hv) as [Fv Bv].
    destruct (fadd_val v dm Fv F2) as [Fw Vw]; [apply Rabs_le; lra|]. split; [exact Fw|]. split; [exact Vw|]. rewrite Vw. apply rnd_ge_fmt; [apply val_fmt|lra].
Qed.

(** Amplitudes: however numpy adds them, their sum is the amplitude asked for up to [2^-48] of it, and none is negative; with [onlybeat] the last is exactly 0. *)
Theorem c118_amps : forall S onlybeat (sine : f64_num) (a : list f64_num), summer S -> finite sine -> bpow radix2 (-200) <= val sine <= 1 -> List.length a = 3%nat ->
  Forall (fun v : f64_num => finite v /\ bpow radix2 (-300) <= val v <= 1) a ->
  let r := d_amps S onlybeat sine a in
  List.length r = 3%nat /\ Forall (fun v : f64_num => finite v /\ 0 <= val v <= val sine * (1 + bpow radix2 (-48))) r /\
  Rabs (val (nth 0 r z) + val (nth 1 r z) + val (nth 2 r z) - val sine) <= bpow radix2 (-48) * val sine /\
  (onlybeat = true -> val (nth 2 r z) = 0).
Proof.
  intros S onlybeat sine a HS Fs Hs L H r. pose proof uro_pos as U. pose proof uro_small as US.
  destruct a as [|a0 [|a1 [|a2 [|]]]]; try discriminate L. clear L. inversion H as [|? ? [F0 B0] H0]; subst. inversion H0 as [|? ? [F1 B1] H1]; subst. inversion H1 as [|? ? [F2 B2] _]; subst. clear H H0 H1.
  pose proof (bpow_gt_0 radix2 (-300)) as P3. pose proof (bpow_gt_0 radix2 (-200)) as P2.
  set (a2' := if onlybeat then z else a2). destruct (int_val 0 ltac:(lia)) as [Fz Vz]. change (f64_of 0 0) with z in *.
  assert (A2 : finite a2' /\ 0 <= val a2' <= 1 /\ (val a2' = 0 \/ bpow radix2 (-300) <= val a2')) by (unfold a2'; destruct onlybeat; rewrite ?Vz; repeat split; auto; lra).
  assert (Er : r = map (fun v => fmul v (fdiv sine (S [a0; a1; a2']))) [a0; a1; a2']) by (unfold r, d_amps, a2'; destruct onlybeat; reflexivity).
  assert (O : onlybeat = true -> val a2' = 0) by (intros ->; exact Vz).
  clearbody a2'. destruct A2 as (F2' & B2' & C2').
  assert (FA : Forall (fun v : f64_num => finite v) [a0; a1; a2']) by (repeat constructor; assumption).
  assert (SZ : asize [a0; a1; a2'] = val a0 + val a1 + val a2') by (cbn; rewrite !Rabs_pos_eq by lra; ring).
  assert (SM : asum [a0; a1; a2'] = val a0 + val a1 + val a2') by (cbn; ring). set (T := val a0 + val a1 + val a2') in *.
  assert (T3 : T <= bpow radix2 1000) by (apply Rle_trans with (bpow radix2 2); [change (bpow radix2 2) with 4; unfold T; lra|apply bpow_le; lia]).
  destruct (adds_ok _ _ (HS [a0; a1; a2'] ltac:(discriminate)) FA ltac:(lra) ltac:(cbn; lia)) as [FS BS]. rewrite SM, SZ in BS. cbn [List.length Nat.sub] in BS.
  set (s := S [a0; a1; a2']) in *. assert (T0 : 2 * bpow radix2 (-300) <= T) by (unfold T; lra).
  assert (G : ((1 + uro) ^ 2 - 1) * T <= 3 * uro * T).
  { apply Rmult_le_compat_r; [lra|]. assert (uro * uro <= uro * / 1024) by (apply Rmult_le_compat_l; lra). simpl. lra. }
  assert (UT : uro * T <= / 1024 * T) by (apply Rmult_le_compat_r; lra). assert (UT0 : 0 <= uro * T) by (apply Rmult_le_pos; lra).
  assert (BS' : T - 3 * uro * T <= val s <= T + 3 * uro * T) by (apply Rabs_le_inv in BS; lra). clear BS G.
  assert (PS : 0 < val s) by lra. assert (S4 : val s <= 4) by (unfold T in *; lra). assert (S3 : bpow radix2 (-300) <= val s) by lra.
  assert (SI : / 4 <= / val s <= bpow radix2 300).
  { split; [apply Rinv_le; lra|]. replace (bpow radix2 300) with (/ bpow radix2 (-300)); [apply Rinv_le; lra|]. rewrite <- bpow_opp. reflexivity. }
  assert (QB : bpow radix2 (-202) <= val sine / val s <= bpow radix2 300).
  { unfold Rdiv. split; [change (-202)%Z with (-200 + -2)%Z; rewrite bpow_plus; change (bpow radix2 (-2)) with (/ 4); apply Rmult_le_compat; lra|].
    rewrite <- (Rmult_1_l (bpow radix2 300)). apply Rmult_le_compat; lra. }
  destruct (fdiv_rel sine s Fs PS) as (e & He & Fq & Vq).
  { right. split; [eapply Rle_trans; [|apply QB]; apply bpow_le; lia|eapply Rle_trans; [apply QB|apply bpow_le; lia]]. }
  set (q := fdiv sine s) in *. apply Rabs_le_inv in He. pose proof (bpow_gt_0 radix2 (-202)) as P202.
  assert (Q2 : bpow radix2 (-203) <= val q <= bpow radix2 301).
  { rewrite Vq. split; [change (-203)%Z with (-202 + -1)%Z|change 301%Z with (300 + 1)%Z]; rewrite bpow_plus; [change (bpow radix2 (-1)) with (/ 2)|change (bpow radix2 1) with 2]; apply Rmult_le_compat; lra. }
  pose proof (bpow_gt_0 radix2 (-203)) as P203.
  assert (PR : forall v : f64_num, finite v -> 0 <= val v <= 1 -> val v = 0 \/ bpow radix2 (-300) <= val v ->
    exists e', Rabs e' <= uro /\ finite (fmul v q) /\ val (fmul v q) = val v * val q * (1 + e')).
  { intros v Fv Bv Cv. assert (VB : 0 <= val v * val q <= bpow radix2 301).
    { split; [apply Rmult_le_pos; lra|]. rewrite <- (Rmult_1_l (bpow radix2 301)). apply Rmult_le_compat; lra. }
    destruct (fmul_val v q Fv Fq) as [Fm Vm]; [rewrite Rabs_pos_eq by lra; eapply Rle_trans; [apply VB|apply bpow_le; lia]|].
    destruct (rnd_rel (val v * val q)) as (e' & He' & Ee').
    { destruct Cv as [Cv|Cv]; [left; rewrite Cv; ring|right]. rewrite Rabs_pos_eq by lra. apply Rle_trans with (bpow radix2 (-300) * bpow radix2 (-203)); [rewrite <- bpow_plus; apply bpow_le; lia|]. apply Rmult_le_compat; lra. }
    exists e'. split; [exact He'|]. split; [exact Fm|]. now rewrite Vm. }
  (* T q is sine up to a few uro *)
  assert (PQ : 0 < val sine) by lra.
  assert (TQ : val sine * (1 - 6 * uro) <= T * val q <= val sine * (1 + 6 * uro)).
  { rewrite Vq. assert (K1 : T <= val s * (1 + 4 * uro)).
    { assert (uro * (3 * uro * T) <= uro * (/ 1024 * T * 3)) by (apply Rmult_le_compat_l; lra). nra. }
    assert (K2 : val s * (1 - 4 * uro) <= T).
    { apply Rle_trans with ((T + 3 * uro * T) * (1 - 4 * uro)); [apply Rmult_le_compat_r; lra|]. assert (0 <= uro * (uro * T)) by (apply Rmult_le_pos; lra). lra. }
    assert (ST : T * (val sine / val s * (1 + e)) = val sine * (T / val s * (1 + e))) by (field; lra). rewrite ST.
    assert (K3 : 1 - 4 * uro <= T / val s <= 1 + 4 * uro).
    { unfold Rdiv. split; apply Rmult_le_reg_r with (val s); try exact PS; rewrite Rmult_assoc, Rinv_l by lra; lra. }
    assert (UU : uro * uro <= uro * / 1024) by (apply Rmult_le_compat_l; lra).
    split; apply Rmult_le_compat_l; try lra.
    - apply Rle_trans with ((1 - 4 * uro) * (1 - uro)); [|apply Rmult_le_compat; lra]. assert (0 <= uro * uro) by (apply Rmult_le_pos; lra). lra.
    - apply Rle_trans with ((1 + 4 * uro) * (1 + uro)); [apply Rmult_le_compat; lra|]. lra. }
  destruct (PR a0 F0 ltac:(lra) ltac:(right; lra)) as (e0 & He0 & Fr0 & V0). destruct (PR a1 F1 ltac:(lra) ltac:(right; lra)) as (e1 & He1 & Fr1 & V1). destruct (PR a2' F2' B2' C2') as (e2 & He2 & Fr2 & V2).
  rewrite Er. cbn [map nth]. assert (E48 : bpow radix2 (-48) = 32 * uro) by (rewrite uro_val; change 32 with (bpow radix2 5); rewrite <- bpow_plus; reflexivity). rewrite E48.
  apply Rabs_le_inv in He0, He1, He2.
  assert (M0 : 0 <= val a0 * val q) by (apply Rmult_le_pos; lra). assert (M1 : 0 <= val a1 * val q) by (apply Rmult_le_pos; lra). assert (M2 : 0 <= val a2' * val q) by (apply Rmult_le_pos; lra).
  assert (MT : val a0 * val q + val a1 * val q + val a2' * val q = T * val q) by (unfold T; ring).
  set (m0 := val a0 * val q) in *. set (m1 := val a1 * val q) in *. set (m2 := val a2' * val q) in *.
  assert (SU : val sine * uro <= val sine * / 1024) by (apply Rmult_le_compat_l; lra). assert (SU0 : 0 <= val sine * uro) by (apply Rmult_le_pos; lra).
  assert (MU : forall m e', 0 <= m -> - uro <= e' <= uro -> - (m * uro) <= m * e' <= m * uro /\ m * uro <= m * / 1024).
  { intros m e' Pm He'. assert (m * e' <= m * uro) by (apply Rmult_le_compat_l; lra). assert (m * - uro <= m * e') by (apply Rmult_le_compat_l; lra). assert (m * uro <= m * / 1024) by (apply Rmult_le_compat_l; lra). split; lra. }
  destruct (MU m0 e0 M0 He0) as [X0 Y0]. destruct (MU m1 e1 M1 He1) as [X1 Y1]. destruct (MU m2 e2 M2 He2) as [X2 Y2].
  assert (TU : T * val q * uro <= 2 * (val sine * uro)).
  { apply Rle_trans with (val sine * (1 + 6 * uro) * uro); [apply Rmult_le_compat_r; lra|]. assert (val sine * uro * uro <= val sine * uro * / 1024) by (apply Rmult_le_compat_l; lra). lra. }
  assert (SPL : m0 * uro + m1 * uro + m2 * uro = T * val q * uro) by (rewrite <- MT; ring).
  assert (N0 : 0 <= m0 * uro) by (apply Rmult_le_pos; lra). assert (N1 : 0 <= m1 * uro) by (apply Rmult_le_pos; lra). assert (N2 : 0 <= m2 * uro) by (apply Rmult_le_pos; lra).
  split; [reflexivity|]. split; [|split].
  - repeat apply Forall_cons; try apply Forall_nil; (split; [assumption|]); rewrite ?V0, ?V1, ?V2; split; lra.
  - rewrite V0, V1, V2. apply Rabs_le. split; lra.
  - intros Eo. rewrite V2. unfold m2. rewrite (O Eo). ring.
Qed.

(** The number of samples: the floor of the product, or the next integer if the product is below it by [2^-53] of itself at most. *)
Lemma RF : forall rd x, round radix2 (FIX_exp 0) rd x = IZR (rd x).
Proof. intros rd x. unfold round, scaled_mantissa, cexp, FIX_exp, F2R. cbn. now rewrite !Rmult_1_r. Qed.
Theorem c118_samples : forall dur fs : f64_num, finite dur -> finite fs -> 0 <= val dur * val fs <= bpow radix2 52 ->
  exists n, d_samples dur fs = Ok n /\ (n = Zfloor (val dur * val fs) \/
    n = (Zfloor (val dur * val fs) + 1)%Z /\ IZR n - val dur * val fs <= bpow radix2 (-53) * (val dur * val fs) + bpow radix2 (-1074)).
Proof.
  intros dur fs Fd Ff H. set (p := val dur * val fs) in *. destruct (fmul_val dur fs Fd Ff) as [Fp Vp]; [fold p; rewrite Rabs_pos_eq by lra; eapply Rle_trans; [apply H|apply bpow_le; lia]|]. fold p in Vp.
  exists (@Btrunc 53 1024 (fmul dur fs)). split; [unfold d_samples; destruct (fmul dur fs); try discriminate Fp; reflexivity|].
  pose proof (Zfloor_lb p) as Z1. pose proof (Zfloor_ub p) as Z2. set (k := Zfloor p) in *.
  assert (K0 : (0 <= k)%Z) by (apply (Zfloor_lub 0 p); lra). assert (K1 : (k <= 2 ^ 52)%Z) by (apply le_IZR; eapply Rle_trans; [exact Z1|]; apply H).
  assert (Fmt : forall m, (Z.abs m <= 2 ^ 53)%Z -> fmt (IZR m)) by (intros m Hm; destruct (int_val m Hm) as [_ V]; rewrite <- V; apply val_fmt).
  assert (L : IZR k <= val (fmul dur fs)) by (rewrite Vp; apply rnd_ge_fmt; [apply Fmt; lia|exact Z1]).
  assert (U : val (fmul dur fs) <= IZR (k + 1)) by (rewrite Vp; apply rnd_le_fmt; [apply Fmt; lia|rewrite plus_IZR; lra]).
  assert (E : @Btrunc 53 1024 (fmul dur fs) = Zfloor (val (fmul dur fs))).
  { apply eq_IZR. rewrite Btrunc_correct by exact prec_emax. rewrite RF. f_equal. apply Ztrunc_floor. eapply Rle_trans; [|exact L]. apply IZR_le. exact K0. }
  rewrite E. destruct (Rle_lt_or_eq_dec _ _ U) as [G|G].
  - left. apply Zfloor_imp. split; assumption.
  - right. rewrite G, Zfloor_IZR. split; [reflexivity|]. rewrite Vp in G. rewrite <- G. pose proof (rnd_near p) as RN. rewrite (Rabs_pos_eq p) in RN by lra. rewrite <- uro_val.
    apply Rabs_le_inv in RN. pose proof (bpow_gt_0 radix2 (-1074)). lra.
Qed.
(** The duration of [k] samples, [k / fs], gives [k] samples or one less. *)
Theorem c118_duration : forall k f, (1 <= k <= 2 ^ 40)%Z -> (1 <= f <= 2 ^ 40)%Z ->
  d_samples (fdiv (f64_of k 0) (f64_of f 0)) (f64_of f 0) = Ok k \/ d_samples (fdiv (f64_of k 0) (f64_of f 0)) (f64_of f 0) = Ok (k - 1)%Z.
Proof.
  intros k f Hk Hf. destruct (int_val k ltac:(lia)) as [Fk Vk]. destruct (int_val f ltac:(lia)) as [Ff Vf]. pose proof uro_pos as U. pose proof uro_small as US.
  assert (K1 : 1 <= IZR k) by (apply IZR_le; lia). assert (K2 : IZR k <= bpow radix2 40) by (apply IZR_le_bpow; lia). assert (F1 : 1 <= IZR f) by (apply IZR_le; lia). assert (F2 : IZR f <= bpow radix2 40) by (apply IZR_le_bpow; lia).
  assert (FI : bpow radix2 (-40) <= / IZR f <= 1).
  { change (bpow radix2 (-40)) with (/ bpow radix2 40). split; [apply Rinv_le; lra|]. rewrite <- Rinv_1. apply Rinv_le; lra. }
  pose proof (bpow_gt_0 radix2 (-40)) as P40.
  destruct (fdiv_rel (f64_of k 0) (f64_of f 0) Fk) as (e & He & Fq & Vq).
  { rewrite Vf. lra. }
  { right. rewrite Vk, Vf. unfold Rdiv. split.
    - apply Rle_trans with (1 * bpow radix2 (-40)); [rewrite Rmult_1_l; apply bpow_le; lia|apply Rmult_le_compat; lra].
    - apply Rle_trans with (bpow radix2 40 * 1); [apply Rmult_le_compat; lra|]. rewrite Rmult_1_r. apply bpow_le. lia. }
  rewrite Vk, Vf in Vq. set (d := fdiv (f64_of k 0) (f64_of f 0)) in *. apply Rabs_le_inv in He.
  assert (VP : val d * val (f64_of f 0) = IZR k * (1 + e)) by (rewrite Vq, Vf; field; lra).
  assert (KU : IZR k * uro <= bpow radix2 (-13)).
  { rewrite uro_val. change (-13)%Z with (40 + -53)%Z. rewrite bpow_plus. apply Rmult_le_compat_r; [apply bpow_ge_0|exact K2]. }
  assert (B13 : bpow radix2 (-13) <= / 1024) by (change (/ 1024) with (bpow radix2 (-10)); apply bpow_le; lia).
  assert (E1 : IZR k * e <= IZR k * uro) by (apply Rmult_le_compat_l; lra). assert (E2 : IZR k * - uro <= IZR k * e) by (apply Rmult_le_compat_l; lra).
  assert (PB : 0 <= val d * val (f64_of f 0) <= bpow radix2 52).
  { rewrite VP. split; [lra|]. apply Rle_trans with (2 * bpow radix2 40); [lra|]. change 2 with (bpow radix2 1). rewrite <- bpow_plus. apply bpow_le. lia. }
  destruct (c118_samples d (f64_of f 0) Fq Ff PB) as (n & En & Hn). rewrite En. rewrite VP in Hn.
  assert (FL : Zfloor (IZR k * (1 + e)) = k \/ Zfloor (IZR k * (1 + e)) = (k - 1)%Z).
  { destruct (Rle_lt_dec (IZR k) (IZR k * (1 + e))) as [G|G]; [left|right]; apply Zfloor_imp; [rewrite plus_IZR|rewrite Z.sub_add, minus_IZR]; split; lra. }
  destruct Hn as [Hn|[Hn Cn]]; [subst n; destruct FL as [-> | ->]; auto|]. destruct FL as [E|E]; rewrite E in Hn.
  - exfalso. rewrite Hn, plus_IZR in Cn. rewrite <- uro_val in Cn. assert (bpow radix2 (-1074) <= / 1024) by (change (/ 1024) with (bpow radix2 (-10)); apply bpow_le; lia).
    assert (uro * (IZR k * (1 + e)) <= uro * (IZR k * 2)) by (apply Rmult_le_compat_l; [lra|]; apply Rmult_le_compat_l; lra). lra.
  - left. f_equal. lia.
Qed.
(** One less already for 15 samples at 44.1 kHz. *)
Theorem c118_duration_refuted : exists k, d_samples (fdiv (f64_of k 0) (f64_of 44100 0)) (f64_of 44100 0) = Ok (k - 1)%Z.
Proof. exists 15%Z. vm_compute. reflexivity. Qed.

Lemma half_ok : finite (f64_of 1 (-1)) /\ val (f64_of 1 (-1)) = / 2.
Proof. split; [reflexivity|]. unfold val. cbn. unfold F2R. cbn. lra. Qed.
(** Half way between 1.5 and 4, on either side. *)
Example ex_side : d_side (f64_of 1 (-1)) (f64_of 1 (-2)) (f64_of 3 (-1)) (f64_of 4 0) (f64_of 1 (-1)) = f64_of 11 (-2) /\
  d_side (f64_of 1 (-1)) (f64_of 3 (-2)) (f64_of 3 (-1)) (f64_of 4 0) (f64_of 1 (-1)) = f64_of (-11) (-2).
Proof. split; feq. Qed.
Example ex_decays : d_decays (fun s => [s; f64_of 0 0; f64_of 1 0]) (f64_of 1 0) (f64_of 1 (-1)) = Ok [f64_of 1 0; f64_of 1 (-1); f64_of 3 (-1)] /\
  d_decays (fun s => [s; s; s]) (f64_of 1 (-1)) (f64_of 1 0) = Err ValueError.
Proof. split; [apply res_eq; vm_compute; reflexivity|reflexivity]. Qed.
Example ex_amps : let r := d_amps left_sum true (f64_of 3 (-2)) [f64_of 1 0; f64_of 1 (-1); f64_of 1 0] in Ok r = Ok [f64_of 1 (-1); f64_of 1 (-2); f64_of 0 0].
Proof. apply res_eq. vm_compute. reflexivity. Qed.
(** Without a duration, three times the decay: 132300 samples. *)
(** The duration: the one asked for, or else the nearest double to three times the decay. *)
Theorem c118_default : forall decay : f64_num, finite decay -> Rabs (val decay) <= bpow radix2 1000 ->
  finite (d_dur None decay) /\ val (d_dur None decay) = rnd (3 * val decay) /\ forall d, d_dur (Some d) decay = d.
Proof.
  intros decay F B. destruct (int_val 3 ltac:(lia)) as [F3 V3]. unfold d_dur. destruct (fmul_val decay (f64_of 3 0) F F3) as [Fm Vm].
  - rewrite V3, Rabs_mult, (Rabs_pos_eq 3) by lra. apply Rle_trans with (bpow radix2 1000 * bpow radix2 2); [change (bpow radix2 2) with 4; pose proof (Rabs_pos (val decay)); lra|rewrite <- bpow_plus; apply bpow_le; lia].
  - split; [exact Fm|]. split; [rewrite Vm, V3, Rmult_comm; reflexivity|reflexivity].
Qed.
Example ex_samples : d_samples (d_dur None (f64_of 1 0)) (f64_of 44100 0) = Ok 132300%Z /\ d_samples (d_dur (Some (f64_of 1 (-1))) (f64_of 1 0)) (f64_of 44100 0) = Ok 22050%Z /\
  d_samples (B754_infinity false) (f64_of 44100 0) = Err OverflowError.
Proof. vm_compute. auto. Qed.
Print Assumptions c118_side. Print Assumptions c118_beat. Print Assumptions c118_beat_refuted. Print Assumptions c118_decays. Print Assumptions c118_amps.
Print Assumptions c118_samples. Print Assumptions c118_duration. Print Assumptions c118_duration_refuted. Print Assumptions c118_default.
