(** Properties of the analysis of sounds whose partials are at the frequencies of
    bins: C103.  The functions are those of [Dft_Model.v] (sample/sms/dsp.py lines
    15-41) and [Pipe_Model.v] (sample/sms/dsp.py lines 44-109, sample/sms/sm.py,
    sample/sms/mm.py); the vocabulary is at the beginning of [Tone_Proofs.v]. *)
From Coquelicot Require Import Coquelicot.
From Coq Require Import String List Bool ZArith Reals Lra Lia Permutation Sorted.
Import ListNotations.
From Verif Require Import Base Py PyLemmas ListLemmas RLists Stft_Model Dft_Model Tracker_Model
  Dsp_Model Sample_Model Sample_Spec Sample_Proofs Bank_Model Beat_Model Pipe_Model Pipe_Spec Pipe_Proofs Corr_Proofs Tone_Proofs Bank_Proofs.
Local Open Scope R_scope.

(** ** C103 *)

(** Windows that are sums of cosines (boxcar, hann, hamming, blackman, nuttall,
    blackmanharris and flattop of scipy.signal.get_window) have no spectrum beyond as
    many bins as they have cosines: with coefficients [a] the spectrum at bin [m] is
    |a_m| / (2 a_0) of that at 0. *)
Theorem c103_windows : forall a n, (1 <= List.length a)%nat -> (2 * (List.length a - 1) < n)%nat -> (3 <= n)%nat ->
  0 < nth 0 a 0 -> Rabs (nth 1 a 0) < 2 * nth 0 a 0 ->
  (forall k, (1 <= k)%nat -> Rabs (nth (S k) a 0) <= Rabs (nth k a 0)) ->
  tapers (Z.of_nat (List.length a) - 1) (cosine_window a n) /\
  forall m, (1 <= m < Z.of_nat (List.length a))%Z -> lobe (cosine_window a n) m = Rabs (nth (Z.to_nat m) a 0) / (2 * nth 0 a 0).
Proof.
  intros a n A1 A2 A3 P0 P1 PD.
  assert (V := fun m => cw_values a n A1 A2 m P0). cbv zeta in V.
  assert (NP : 0 < INR n) by (apply lt_0_INR; lia).
  assert (S0 : rsum (cosine_window a n) <> 0) by (rewrite (cw_sum a n A1 A2); nra).
  assert (IN : 0 < / (2 * nth 0 a 0)) by (apply Rinv_0_lt_compat; lra).
  assert (VV : forall m, (1 <= m < Z.of_nat (List.length a))%Z ->
     lobe (cosine_window a n) m = Rabs (nth (Z.to_nat m) a 0) / (2 * nth 0 a 0)).
  { intros m Hm. rewrite V by lia. destruct (Z.leb_spec m (Z.of_nat (List.length a - 1))); [reflexivity|lia]. }
  split; [|exact VV]. 
  assert (L1 : lobe (cosine_window a n) 1 < 1).
  { destruct (Nat.eq_dec (List.length a) 1) as [E|E].
    - rewrite V by lia. destruct (Z.leb_spec 1 (Z.of_nat (List.length a - 1))); [lia|lra].
    - rewrite VV by lia. change (Z.to_nat 1) with 1%nat. apply Rmult_lt_reg_r with (2 * nth 0 a 0); [lra|]. field_simplify; lra. }
  split; [lia|]. split; [exact S0|]. split; [|split; [|exact L1]].
  - intros m Hm. rewrite (cw_zlen a n) in Hm. rewrite V by lia. destruct (Z.leb_spec m (Z.of_nat (List.length a - 1))); [lia|reflexivity].
  - intros m Hm. destruct (Z.eq_dec m 0) as [->|NZ].
    + rewrite lobe_0 by exact S0. cbn [Z.add]. lra.
    + rewrite !VV by lia. replace (Z.to_nat (m + 1)) with (S (Z.to_nat m)) by lia. unfold Rdiv.
      apply Rmult_le_compat_r; [lra|]. apply PD. lia.
Qed.
Print Assumptions c103_windows.

(** In every frame the peaks are the sinusoids, no more and no less, at exactly
    their frequencies and half their amplitudes; the bin of a sinusoid has the phase
    that the sinusoid has at the middle of the frame. *)
Theorem c103_frame : forall b w qs len h i fs t phase,
  (2 <= zlen w)%Z -> tapers b w -> apart b (zlen w) qs -> (i * h + List.length w <= len)%nat ->
  (forall q, In q qs -> float_eps < tn_amp q / 2 /\ above t (a2db (tn_amp q / 2))) ->
  let x := frame_of (List.length w) h i (sound (zlen w) qs len) in
  (exists mx, dft_mag x (normalized_window w) (zlen w) = Ok mx /\
     rpeaks fs (zlen w) t phase mx =
       Ok (map (fun q => mkRPeak (IZR (tn_bin q) * fs / IZR (zlen w)) (a2db (tn_amp q / 2)) (phase (IZR (tn_bin q)))) qs)) /\
  forall q, In q qs ->
    let mid := 2 * PI * IZR (tn_bin q) * IZR (Z.of_nat (i * h) + zlen w / 2) / IZR (zlen w) + tn_phase q in
    bin_re w x (zlen w) (tn_bin q) = tn_amp q / 2 * cos mid /\ bin_im w x (zlen w) (tn_bin q) = tn_amp q / 2 * sin mid.
Proof.
  intros b w qs len h i fs t phase H2 T A HI HQ x.
  assert (TF : tone_frame w x (mid_phase (zlen w) (i * h)) qs).
  { apply sound_frame; [unfold zlen in H2; lia|exact HI]. }
  split.
  - apply (frame_peaks b w x (mid_phase (zlen w) (i * h)) qs T A TF H2); [intros q I; apply HQ; exact I| |intros q I; apply HQ; exact I].
    apply frame_length.
  - intros q I mid. destruct (proj2 A q I) as (H1 & Hb & H3 & _ & _).
    assert (B0 : (0 <= b)%Z) by apply T.
    destruct (bin_near b w x (mid_phase (zlen w) (i * h)) (tn_bin q) qs q T A TF ltac:(lia) I) as [-> ->].
    { unfold near. lia. }
    rewrite Z.sub_diag. destruct (centre_values w) as [-> ->]; [apply T|]. fold mid.
    change (mid_phase (zlen w) (i * h) q) with mid. split; ring.
Qed.
Print Assumptions c103_frame.

(** What [SAMPLE] reads of the settings. *)
Definition settings_of (o : rmodel) : acfg :=
  mkACfg (g_fs (rt_cfg (rm_tracker o))) (IZR (Zpos (g_h (rt_cfg (rm_tracker o))))) (IZR (zlen (rm_w o))) (rm_padded o)
         (rt_reverse (rm_tracker o)).

(** The whole analysis of [len] samples of sinusoids that neither start nor end: one
    track for each sinusoid that the tracker keeps (all of them with a plain tracker;
    with a modal tracker those in the band and above the threshold, forwards or in
    reverse), over all frames, of exactly the frequency of the sinusoid; what the
    regression gets are exactly its frequency and its amplitude in dB, in all
    frames. *)
Theorem c103_tracks : forall phase argsort o b qs len,
  let c := rt_cfg (rm_tracker o) in
  let x := sound (rm_n o) qs len in
  let m := frame_count (List.length (rm_w o)) (Pos.to_nat (g_h c)) x in
  let hz q := IZR (tn_bin q) * g_fs c / IZR (rm_n o) in
  rm_padded o = false -> (2 <= zlen (rm_w o))%Z -> rm_n o = zlen (rm_w o) -> (List.length (rm_w o) <= len)%nat ->
  tapers b (rm_w o) -> apart b (rm_n o) qs ->
  (forall fr, Permutation (argsort fr) (seq 0 (List.length fr))) ->
  (forall q, In q qs -> float_eps < tn_amp q / 2 /\ above (rm_t o) (a2db (tn_amp q / 2))) ->
  (forall p q, In p qs -> In q qs -> tn_bin p <> tn_bin q -> rdf c (hz p) <= Rabs (hz q - hz p)) ->
  (forall q, In q qs -> 0 < rdf c (hz q)) -> (Z.of_nat (List.length qs) <= g_max c)%Z ->
  (rmin_sine_len c <= Z.of_nat m)%Z ->
  match rm_tracker o with
  | RModal tr => match g_strip tr with Some st => (0 <= Rceil (st * rframe_rate c))%Z | None => True end
  | RSine _ => True end ->
  exists qs' ts, rtracks phase argsort o x = Ok ts /\
    StronglySorted (fun p q => (tn_bin p < tn_bin q)%Z) qs' /\
    (forall q, In q qs' <-> In q qs /\ kept (rm_tracker o) (hz q) (a2db (tn_amp q / 2))) /\
    Forall2 (fun q t =>
      r_start t = 0%Z /\ r_freq t = repeat (Some (hz q)) m /\
      exists times, preprocess_track (settings_of o) (IZR (zlen x)) t =
        (times, repeat (Some (hz q)) m, repeat (Some (a2db (tn_amp q))) m) /\ List.length times = m) qs' ts.
Proof.
  intros phase argsort o b qs len c x m hz HP H2 HN HL HT HA HO HQ HD HTo HM HLen HST.
  destruct (tone_tracks phase argsort o b qs len HP H2 HN HL HT HA HO HQ HD HTo HM HLen HST) as (qs' & ts & E & S & I & F).
  exists qs', ts. split; [exact E|]. split; [exact S|]. split; [exact I|]. fold c x m in F.
  assert (M2 : (2 <= m)%nat) by (unfold rmin_sine_len in HLen; fold m in HLen; lia).
  assert (IA : forall q, In q qs' -> 0 < tn_amp q).
  { intros q Iq. apply I in Iq. apply (proj2 HA q). tauto. }
  clear - F M2 IA. induction F as [|q t l l' HF F IH]; constructor.
  2:{ apply IH. intros p Ip. apply IA. now right. }
  destruct HF as (E0 & EF & EM). split; [exact E0|]. split; [exact EF|].
  assert (HAq := IA q (or_introl eq_refl)).
  assert (NN : map notnan (r_mag t) = repeat true m) by (rewrite EM; apply repeat_map).
  assert (MR : forall (A : Type) (v : list A), List.length v = m -> mask (repeat true m) v = v).
  { clear. intros A. induction m as [|m IH]; intros [|a v] H; cbn in *; try discriminate; auto. unfold mask in *. cbn. f_equal.
    apply IH. lia. }
  assert (FR : forall v, filter_field (repeat true m) (repeat v m) = repeat v m).
  { intros v. unfold filter_field. destruct (_ =? 1)%nat; [reflexivity|]. apply MR. apply repeat_length. }
  assert (LV : a2db (tn_amp q / 2) + double_db = a2db (tn_amp q)).
  { unfold a2db, double_db, log10. replace (tn_amp q) with (tn_amp q / 2 * 2) at 2 by field. rewrite ln_mult by lra.
    field. pose proof ln10_pos. lra. }
  unfold preprocess_track. rewrite NN, EF, EM, !FR, !repeat_map. cbn [option_map].
  rewrite repeat_length, MR by (now rewrite map_length, seq_length). eexists. split.
  - unfold half_db. rewrite LV. reflexivity.
  - destruct (a_padded _), (a_rev _); now rewrite ?map_length, seq_length.
Qed.
Print Assumptions c103_tracks.

(** ** Example *)

(** A hann window of 16 samples and two sinusoids of 3 and 6 Hz at 16 samples per
    second; two trackers, the second one in reverse and for frequencies from 4 Hz
    on. *)
Definition ex_hann : list R := cosine_window [1 / 2; 1 / 2] 16.
Definition ex_tones : list tone := [mkTone 3 1 (1 / 3); mkTone 6 (1 / 2) 2].
Definition ex_rate : rcfg := mkRCfg 16 4%positive 5 0 1 0.
Definition ex_fwd : rmodel := mkRModel ex_hann 16 None false (RSine ex_rate).
Definition ex_bwd : rmodel := mkRModel ex_hann 16 (Some (-50)) false
  (RModal (mkRMCfg ex_rate (Some 4) None (-40) true "average" None)).

Lemma ex_tapers : tapers 1 ex_hann.
Proof.
  destruct (c103_windows [1 / 2; 1 / 2] 16) as [T _]; try (cbn; lia).
  - cbn [nth]. lra.
  - cbn [nth]. rewrite Rabs_right; lra.
  - intros k Hk. destruct k as [|k]; [lia|]. cbn [nth]. destruct k; cbn [nth]; rewrite Rabs_R0; apply Rabs_pos.
  - exact T.
Qed.
Lemma ex_zlen : zlen ex_hann = 16%Z.
Proof. unfold ex_hann. exact (cw_zlen [1 / 2; 1 / 2] 16). Qed.
Lemma ex_apart : apart 1 16 ex_tones.
Proof.
  split.
  - repeat constructor; cbn; lia.
  - intros q [<-|[<-|[]]]; cbn [tn_bin tn_amp]; repeat split; try lia; try lra; change (16 / 2)%Z with 8%Z; lia.
Qed.
Lemma ex_db : -50 < a2db (1 / 2 / 2) /\ -40 <= a2db (1 / 2 / 2) /\ a2db (1 / 2 / 2) < a2db (1 / 2).
Proof.
  assert (L : - 40 = a2db (/ 100)).
  { unfold a2db, log10. replace (/ 100) with (/ (10 * 10)) by lra. rewrite ln_Rinv, ln_mult by lra. field. pose proof ln10_pos. lra. }
  assert (a2db (/ 100) < a2db (1 / 2 / 2)) by (apply a2db_lt; lra).
  assert (a2db (1 / 2 / 2) < a2db (1 / 2)) by (apply a2db_lt; lra). lra.
Qed.
Lemma ex_eps : float_eps < 1 / 2 / 2.
Proof.
  unfold float_eps. replace (1 / 2 / 2) with (/ (2 ^ 2)) by lra. apply Rinv_lt_contravar.
  - apply Rmult_lt_0_compat; apply pow_lt; lra.
  - apply Rlt_pow; [lra|lia].
Qed.
Lemma ex_count : forall x : list R, List.length x = 32%nat -> frame_count (List.length ex_hann) 4 x = 5%nat.
Proof.
  intros x L. assert (LH : List.length ex_hann = 16%nat) by exact (cw_length [1 / 2; 1 / 2] 16).
  unfold frame_count. rewrite L, LH. reflexivity.
Qed.
Lemma ex_min : rmin_sine_len ex_rate = 2%Z.
Proof.
  unfold rmin_sine_len, ex_rate, rframe_rate. cbn [g_dur g_fs g_h]. rewrite Rmult_0_l.
  pose proof (Rceil_spec 0) as [A B]. assert (-1 < Rceil 0)%Z by (apply lt_IZR; lra). assert (Rceil 0 < 1)%Z by (apply lt_IZR; lra). lia.
Qed.

Example c103_example : forall phase argsort,
  (forall fr, Permutation (argsort fr) (seq 0 (List.length fr))) ->
  (exists t u, rtracks phase argsort ex_fwd (sound 16 ex_tones 32) = Ok [t; u] /\
     r_freq t = repeat (Some 3) 5 /\ r_mag t = repeat (Some (a2db (1 / 2))) 5 /\
     r_freq u = repeat (Some 6) 5 /\ r_mag u = repeat (Some (a2db (1 / 4))) 5) /\
  exists u, rtracks phase argsort ex_bwd (sound 16 ex_tones 32) = Ok [u] /\
     r_freq u = repeat (Some 6) 5 /\ r_mag u = repeat (Some (a2db (1 / 4))) 5.
Proof.
  intros phase argsort HO.
  assert (H16 : IZR 16 = 16) by reflexivity.
  assert (FC : frame_count (List.length ex_hann) 4 (sound 16 ex_tones 32) = 5%nat) by (apply ex_count; apply sound_length).
  assert (Z3 : IZR 3 * 16 / 16 = 3) by field. assert (Z6 : IZR 6 * 16 / 16 = 6) by field.
  assert (LH : List.length ex_hann = 16%nat) by exact (cw_length [1 / 2; 1 / 2] 16).
  destruct ex_db as (D1 & D2 & D3).
  assert (Q4 : 1 / 2 / 2 = 1 / 4) by field.
  assert (DF : forall f, rdf ex_rate f = 1) by (intros f; unfold rdf, ex_rate; cbn [g_off g_slope]; ring).
  assert (SEP : forall p q, In p ex_tones -> In q ex_tones -> tn_bin p <> tn_bin q ->
     1 <= Rabs (IZR (tn_bin q) * 16 / 16 - IZR (tn_bin p) * 16 / 16)).
  { intros p q [<-|[<-|[]]] [<-|[<-|[]]] NE; cbn [tn_bin] in *; try congruence; rewrite Z3, Z6.
    - rewrite Rabs_right; lra.
    - rewrite Rabs_left; lra. }
  split.
  - destruct (tone_tracks phase argsort ex_fwd 1 ex_tones 32) as (qs' & ts & E & S & I & F); auto.
    + cbn [rm_w ex_fwd]. rewrite ex_zlen. lia.
    + cbn [rm_w ex_fwd]. rewrite LH. lia.
    + exact ex_tapers.
    + exact ex_apart.
    + intros q Iq. split; [|exact Logic.I]. pose proof ex_eps. destruct Iq as [<-|[<-|[]]]; cbn [tn_amp]; lra.
    + intros p q Ip Iq NE. cbn [rm_tracker ex_fwd rt_cfg]. rewrite DF. now apply SEP.
    + intros q Iq. cbn [rm_tracker ex_fwd rt_cfg]. rewrite DF. lra.
    + cbn. lia.
    + cbn [rm_tracker ex_fwd rt_cfg rm_w rm_n]. rewrite ex_min. change (Pos.to_nat (g_h ex_rate)) with 4%nat. rewrite FC. lia.
    + exact Logic.I.
    + cbn [rm_tracker ex_fwd rt_cfg rm_w rm_n] in E, F. change (Pos.to_nat (g_h ex_rate)) with 4%nat in F. rewrite FC in F.
      assert (EQ : qs' = ex_tones).
      { assert (I' : forall q, In q qs' <-> In q ex_tones) by (intros q; rewrite I; cbn [kept rm_tracker ex_fwd]; tauto).
        clear - S I'. unfold ex_tones in *. set (p := mkTone 3 1 (1 / 3)) in *. set (q := mkTone 6 (1 / 2) 2) in *.
        destruct qs' as [|a l]; [destruct (proj2 (I' p)); now left|].
        inversion S as [|? ? S' FA]; subst. rewrite Forall_forall in FA.
        assert (LT : (tn_bin p < tn_bin q)%Z) by (unfold p, q; cbn; lia).
        assert (a = p).
        { destruct (proj1 (I' a) (or_introl eq_refl)) as [<-|[<-|[]]]; auto.
          destruct (proj2 (I' p) (or_introl eq_refl)) as [EP|Ip]; [congruence|]. specialize (FA p Ip). lia. }
        subst a. f_equal. destruct l as [|a l].
        { destruct (proj2 (I' q)) as [EP|[]]; [right; now left|]. exfalso. rewrite EP in LT. lia. }
        inversion S' as [|? ? S'' FB]; subst. rewrite Forall_forall in FB.
        assert (N : forall u, In u (a :: l) -> u = q).
        { intros u Hu. destruct (proj1 (I' u) (or_intror Hu)) as [<-|[<-|[]]]; auto. specialize (FA p Hu). lia. }
        assert (a = q) by (apply N; now left). subst a. f_equal. destruct l as [|u l]; [reflexivity|].
        assert (u = q) by (apply N; right; now left). subst u. specialize (FB q (or_introl eq_refl)). lia. }
      subst qs'. inversion F as [|? t ? l Ht F']; subst. inversion F' as [|? u ? l' Hu F'']; subst. inversion F''; subst.
      exists t, u. split; [exact E|]. destruct Ht as (_ & T1 & T2), Hu as (_ & U1 & U2).
      unfold tone_hz, half_db in *. cbn [tn_bin tn_amp rm_tracker ex_fwd rt_cfg g_fs ex_rate rm_n] in *.
      rewrite Z3 in T1. rewrite Z6 in U1. rewrite Q4 in U2. auto.
  - destruct (tone_tracks phase argsort ex_bwd 1 ex_tones 32) as (qs' & ts & E & S & I & F); auto.
    + cbn [rm_w ex_bwd]. rewrite ex_zlen. lia.
    + cbn [rm_w ex_bwd]. rewrite LH. lia.
    + exact ex_tapers.
    + exact ex_apart.
    + intros q Iq. pose proof ex_eps. unfold half_db, above. cbn [rm_t ex_bwd]. destruct Iq as [<-|[<-|[]]]; cbn [tn_amp]; lra.
    + intros p q Ip Iq NE. cbn [rm_tracker ex_bwd rt_cfg g_base]. rewrite DF. now apply SEP.
    + intros q Iq. cbn [rm_tracker ex_bwd rt_cfg g_base]. rewrite DF. lra.
    + cbn. lia.
    + cbn [rm_tracker ex_bwd rt_cfg rm_w rm_n g_base]. rewrite ex_min. change (Pos.to_nat (g_h ex_rate)) with 4%nat. rewrite FC. lia.
    + exact Logic.I.
    + cbn [rm_tracker ex_bwd rt_cfg rm_w rm_n g_base] in E, F. change (Pos.to_nat (g_h ex_rate)) with 4%nat in F. rewrite FC in F.
      assert (EQ : qs' = [mkTone 6 (1 / 2) 2]).
      { assert (I' : forall q, In q qs' <-> q = mkTone 6 (1 / 2) 2).
        { intros q. rewrite I. unfold kept, tone_hz, half_db.
          cbn [rm_tracker ex_bwd g_fmin g_fmax g_thr rt_cfg g_base g_fs ex_rate rm_n]. split.
          - intros [[<-|[<-|[]]] (K1 & _)]; [|reflexivity]. cbn [tn_bin] in K1. rewrite Z3 in K1. lra.
          - intros ->. cbn [tn_bin tn_amp]. rewrite Z6. split; [right; now left|]. repeat split; lra. }
        clear - S I'. destruct qs' as [|a l]; [destruct (proj2 (I' (mkTone 6 (1 / 2) 2)) eq_refl)|].
        rewrite (proj1 (I' a) (or_introl eq_refl)) in *. f_equal. destruct l as [|u l]; [reflexivity|].
        inversion S as [|? ? S' FA]; subst. rewrite Forall_forall in FA. specialize (FA u (or_introl eq_refl)).
        rewrite (proj1 (I' u) (or_intror (or_introl eq_refl))) in FA. cbn in FA. lia. }
      subst qs'. inversion F as [|? u ? l Hu F']; subst. inversion F'; subst.
      exists u. split; [exact E|]. destruct Hu as (_ & U1 & U2).
      unfold tone_hz, half_db in *. cbn [tn_bin tn_amp rm_tracker ex_bwd rt_cfg g_fs ex_rate rm_n g_base] in *.
      rewrite Z6 in U1. rewrite Q4 in U2. auto.
Qed.
