(** The trackers in double precision (C105).

    C01, C02, C04, C05 and C07 are proved for exact numbers.  Here they are
    proved again for trackers whose arithmetic is arbitrary, so that rounding,
    overflow and NaN cannot break them; and what can be said about nearness and
    durations in double precision is said about binary64 ([f64]). *)
From Coq Require Import String ZArith Reals Lra Lia Bool List Permutation.
From Flocq Require Import Core IEEE754.BinarySingleNaN.
Import ListNotations.
From Verif Require Import Base ListLemmas Tracker_Model Tracker_Spec Tracker_Run Double_Model
  Double_Spec Double_Step Double_Run Double_Proofs Double_Float.
Local Open Scope nat_scope.

(** ** Any arithmetic *)

(** At most [max_n_sines] tracks are active, whatever the numbers are. *)
Theorem c105_active_bounded : forall (A : arith) (c : dcfg A) deact hist st,
  d_hist_ok hist -> d_run c deact hist = Ok st ->
  (Z.of_nat (List.length (d_active st)) <= Z.max 0 (dc_max c))%Z.
Proof. intros A. exact d_active_bounded. Qed.
Print Assumptions c105_active_bounded.

(** Every sample of every saved or active track of the sine tracker is a peak
    of its frame, copied and never computed, and no peak is used twice. *)
Theorem c105_sine_samples_are_peaks : forall (A : arith) (c : dcfg A) hist st,
  d_hist_ok hist -> d_run c (d_sine_deact c) hist = Ok st ->
  exists labs,
    Forall2 (@d_labels_ok A hist) (d_saved st ++ d_active st) labs /\
    Forall (Forall (fun l => l <> None)) labs /\
    NoDup (flat_map d_used (combine (d_saved st ++ d_active st) labs)).
Proof. intros A. exact d_peaks_sine. Qed.
Print Assumptions c105_sine_samples_are_peaks.

(** The same for the modal tracker, whatever averages and regression lines
    it is given; [None] marks the NaN samples that merging puts in. *)
Theorem c105_modal_samples_are_peaks : forall (A : arith) (m : dmcfg A) hist st,
  d_hist_ok hist -> d_run (dm_base m) (d_modal_deact m) hist = Ok st ->
  exists labs,
    Forall2 (@d_labels_ok A hist) (d_saved st ++ d_active st) labs /\
    NoDup (flat_map d_used (combine (d_saved st ++ d_active st) labs)).
Proof. intros A. exact d_peaks_modal. Qed.
Print Assumptions c105_modal_samples_are_peaks.

(** Active tracks have no holes and extend to the last frame. *)
Theorem c105_active_contiguous : forall (A : arith) (c : dcfg A) deact hist st,
  d_hist_ok hist -> d_run c deact hist = Ok st ->
  d_nframe st = List.length hist /\
  Forall (fun t => dt_freq t <> [] /\
                   List.length (dt_mag t) = List.length (dt_freq t) /\
                   List.length (dt_ph t) = List.length (dt_freq t) /\
                   (dt_start t + List.length (dt_freq t))%nat = List.length hist)
         (d_active st).
Proof.
  intros A c deact hist st V H. destruct (d_active_contiguous c deact hist st V H) as [E F].
  split; auto. eapply Forall_impl; [|exact F]. intros t [(H1 & H2 & H3) H4]. auto.
Qed.
Print Assumptions c105_active_contiguous.

(** Accepted tracks are conserved by merging: what is saved consists of the
    accepted tracks among all that ended (the log of a tracker that keeps
    everything), each exactly once, in time order, with NaN between them. *)
Theorem c105_merge_conserves : forall (A : arith) (m : dmcfg A) hist st lg,
  d_hist_ok hist ->
  d_run (dm_base m) (d_modal_deact m) hist = Ok st ->
  d_run (dm_base m) d_log_deact hist = Ok lg ->
  exists kept dropped groups,
    Permutation (d_saved lg) (kept ++ dropped) /\
    Forall (fun t => d_modal_ok m t = Ok true) kept /\
    Forall (fun t => d_modal_ok m t = Ok false) dropped /\
    Forall2 (@d_made_of A) (d_saved st) groups /\
    Permutation (concat groups) kept /\
    d_active st = d_active lg.
Proof. intros A. exact d_modal_groups. Qed.
Print Assumptions c105_merge_conserves.

(** ** Durations in double precision *)

Local Open Scope R_scope.

(** The sine tracker in double precision reports, in order, exactly the
    tracks of at least two frames whose number of frames is not below
    [min_sine_dur * (fs / h)], each of the two operations rounded to the
    nearest double; it never raises, unless one of them overflows. *)
Theorem c105_reported_iff_long : forall (c : dcfg f64) hist, d_hist_ok hist ->
  finite (dc_fs c) -> finite (dc_h c) -> val (dc_h c) <> 0 -> finite (dc_dur c) ->
  let r := rnd (val (dc_fs c) / val (dc_h c)) in
  let n := rnd (val (dc_dur c) * r) in
  Rabs r < bpow radix2 1024 -> Rabs n < bpow radix2 1024 ->
  exists st lg keep,
    d_run c (d_sine_deact c) hist = Ok st /\ d_run c d_log_deact hist = Ok lg /\
    d_active st = d_active lg /\
    (forall t, keep t = true <->
       (2 <= List.length (dt_freq t))%nat /\ n <= INR (List.length (dt_freq t))) /\
    d_saved st = filter keep (d_saved lg) /\
    d_all_tracks (d_sine_ok c) st = Ok (filter keep (d_saved lg ++ d_active lg)).
Proof.
  intros c hist V Ffs Fh Nh Fd r n Br Bn.
  destruct (bdiv_val _ _ Ffs Nh Br) as [Fq Eq].
  assert (Bn' : Rabs (rnd (val (dc_dur c) * val (bdiv (dc_fs c) (dc_h c)))) < bpow radix2 1024).
  { rewrite Eq. exact Bn. }
  destruct (bmul_val _ _ Fd Fq Bn') as [Fm Em]. rewrite Eq in Em. fold r in Em. fold n in Em.
  assert (EN : d_min_sine_len c = Ok (Z.max 2 (Zceil n))).
  { unfold d_min_sine_len, d_frame_rate. cbn [div f64].
    assert (ED : f64_div (dc_fs c) (dc_h c) = Ok (bdiv (dc_fs c) (dc_h c))).
    { unfold f64_div. destruct (dc_h c) as [s| | |]; auto. exfalso. apply Nh. reflexivity. }
    rewrite ED. cbn [bind ceil mul f64]. rewrite f64_ceil_spec by exact Fm.
    cbn [bind]. rewrite Em. reflexivity. }
  destruct (d_sine_reported c _ hist V EN) as (st & lg & H1 & H2 & H3 & H4 & H5).
  exists st, lg, (d_long (Z.max 2 (Zceil n))). repeat (split; auto).
  - unfold d_long in H. apply Z.leb_le in H. lia.
  - unfold d_long in H. apply Z.leb_le in H.
    rewrite INR_IZR_INZ. eapply Rle_trans; [apply Zceil_ub|]. apply IZR_le. lia.
  - intros [L1 L2]. unfold d_long. apply Z.leb_le. apply Z.max_lub; [lia|].
    apply Zceil_glb. now rewrite <- INR_IZR_INZ.
Qed.
Print Assumptions c105_reported_iff_long.

(** ** Nearness in double precision *)

(** All frequencies of a frame are finite numbers. *)
Definition finite_frame (fr : dframe f64) : Prop :=
  Forall (fun p : dpeak f64 => finite (dp_f p)) fr.

(** Where the frequencies of active tracks come from. *)
Lemma active_from : forall (A : arith) (c : dcfg A) deact hist st t f, d_hist_ok hist ->
  d_run c deact hist = Ok st -> In t (d_active st) -> In f (dt_freq t) ->
  exists fr ord p, In (fr, ord) hist /\ In p fr /\ dp_f p = f.
Proof.
  intros A c deact hist st t f V H Ht Hf.
  destruct (d_run_inv_exists c hist V) as (E & B & I).
  rewrite (dri_run _ _ _ _ I) in H. destruct (foldM deact [] (map fst E)); [|discriminate].
  cbn [bind] in H. injection H as <-. cbn [d_active] in Ht.
  apply in_map_iff in Ht. destruct Ht as ([t' lab] & Et & Hin). cbn [fst] in Et. subst t'.
  pose proof (dri_A _ _ _ _ I) as IA. rewrite Forall_forall in IA.
  destruct (IA _ Hin) as (L1 & _ & _ & _ & L5).
  apply In_nth_error in Hf. destruct Hf as [k Hk].
  assert (exists p, nth_error lab k = Some p) as [p Hp].
  { destruct (nth_error lab k) eqn:X; eauto. apply nth_error_None in X.
    assert (k < List.length (dt_freq t))%nat by (apply nth_error_Some; congruence). lia. }
  destruct (L5 k p Hp) as (q & (fr & ord & P1 & P2) & P3 & _).
  exists fr, ord, q. split; [eapply nth_error_In; eauto|].
  split; [eapply nth_error_In; eauto|]. congruence.
Qed.

Lemma active_finite : forall (c : dcfg f64) deact hist st i, d_hist_ok hist ->
  Forall (fun fo => finite_frame (fst fo)) hist ->
  d_run c deact hist = Ok st -> (i < List.length (d_active st))%nat ->
  finite (last (dt_freq (nth i (d_active st) d_notrack)) (nan f64)).
Proof.
  intros c deact hist st i V FH H Hi.
  set (t := nth i (d_active st) d_notrack).
  assert (Ht : In t (d_active st)) by (apply nth_In; auto).
  destruct (c105_active_contiguous _ _ _ _ _ V H) as [_ C]. rewrite Forall_forall in C.
  destruct (C t Ht) as (NE & _).
  destruct (active_from _ _ _ _ _ t (last (dt_freq t) (nan f64)) V H Ht) as (fr & ord & p & P1 & P2 & P3).
  { apply Tracker_Modal.last_In. exact NE. }
  rewrite Forall_forall in FH. specialize (FH _ P1). cbn [fst] in FH.
  unfold finite_frame in FH. rewrite Forall_forall in FH. rewrite <- P3. apply FH. exact P2.
Qed.

(** As long as the analysed frequencies are finite numbers, each frame is
    matched by loudness to the nearest free tracks, as distances compare in
    double precision ([d_greedy]), and what happens to the tracks follows from
    the matching. *)
Theorem c105_greedy_matching : forall (c : dcfg f64) deact hist st fr ord st',
  d_hist_ok hist -> Forall (fun fo => finite_frame (fst fo)) hist -> finite_frame fr ->
  finite (dc_off c) -> finite (dc_slope c) ->
  Permutation ord (seq 0 (List.length fr)) -> d_sorted fr ord ->
  d_run c deact hist = Ok st -> d_step c deact st (fr, ord) = Ok st' ->
  exists M, d_matching c (d_active st) fr M /\ d_greedy c (d_active st) fr M /\
    foldM deact (d_saved st) (rev (d_dying (d_active st) M)) = Ok (d_saved st') /\
    d_active st' = d_surviving (d_active st) fr M ++
      d_born c (d_nframe st) fr M (List.length (d_surviving (d_active st) fr M)).
Proof.
  intros c deact hist st fr ord st' V FH Ff Fo Fs HP HS HR H.
  destruct (d_step_spec c (d_active st) fr ord HP) as (M & G1 & G2 & E).
  exists M. split; [exact G1|]. split.
  - apply G2; [|exact HS]. exists (fun x : num f64 => notnan x).
    unfold finite_frame in Ff. rewrite Forall_forall in Ff.
    split; [exact f64_comparable|]. split.
    + intros i p Hi Hp. unfold d_gap. cbn [absv sub f64]. apply babs_notnan, bsub_notnan.
      * exact (active_finite c deact hist st i V FH HR Hi).
      * apply Ff. apply nth_In. exact Hp.
    + intros p Hp. unfold d_df. cbn [add mul f64]. apply badd_notnan; [exact Fo|].
      apply bmul_notnan; [exact Fs|]. apply Ff. apply nth_In. exact Hp.
  - destruct st as [sv act n]. cbn [d_saved d_active d_nframe] in *. rewrite E in H.
    destruct (foldM deact sv (rev (d_dying act M))); cbn [bind] in H; [|discriminate].
    injection H as <-. auto.
Qed.
Print Assumptions c105_greedy_matching.

(** Rounding of the distances hardly matters: a peak that continues track [i]
    is never farther from it, up to a factor of [(1 + 2^-53) / (1 - 2^-53)], than
    from any track that ends in this frame. *)
Theorem c105_nearest_up_to_rounding : forall (c : dcfg f64) deact hist st fr ord st',
  d_hist_ok hist -> Forall (fun fo => finite_frame (fst fo)) hist -> finite_frame fr ->
  finite (dc_off c) -> finite (dc_slope c) ->
  Permutation ord (seq 0 (List.length fr)) -> d_sorted fr ord ->
  d_run c deact hist = Ok st -> d_step c deact st (fr, ord) = Ok st' ->
  exists M,
    d_active st' = d_surviving (d_active st) fr M ++
      d_born c (d_nframe st) fr M (List.length (d_surviving (d_active st) fr M)) /\
    forall i p j, In (i, p) M -> (j < List.length (d_active st))%nat ->
      partner M j = None ->
      (1 - / 2 * bpow radix2 (-52)) *
        Rabs (val (last (dt_freq (nth i (d_active st) d_notrack)) (nan f64))
              - val (dp_f (nth p fr d_nopeak)))
      <= (1 + / 2 * bpow radix2 (-52)) *
        Rabs (val (last (dt_freq (nth j (d_active st) d_notrack)) (nan f64))
              - val (dp_f (nth p fr d_nopeak))).
Proof.
  intros c deact hist st fr ord st' V FH Ff Fo Fs HP HS HR H.
  destruct (c105_greedy_matching c deact hist st fr ord st' V FH Ff Fo Fs HP HS HR H)
    as (M & G1 & G2 & _ & E).
  exists M. split; [exact E|]. intros i p j Hin Hj Hnone.
  destruct (dm_range _ _ _ _ G1 i p Hin) as [Hi Hp].
  assert (Fi := active_finite c deact hist st i V FH HR Hi).
  assert (Fj := active_finite c deact hist st j V FH HR Hj).
  assert (Fp : finite (dp_f (nth p fr d_nopeak))).
  { unfold finite_frame in Ff. rewrite Forall_forall in Ff. apply Ff. apply nth_In. exact Hp. }
  apply gap_order; auto.
  - pose proof (dm_threshold _ _ _ _ G1 i p Hin) as T. unfold d_gap in T.
    cbn [lt absv sub f64] in T.
    pose proof (babs_notnan _ (bsub_notnan _ _ Fi Fp)) as NN.
    destruct (bsub (last (dt_freq (nth i (d_active st) d_notrack)) (nan f64))
                (dp_f (nth p fr d_nopeak))) as [s|s| |s m e Hb]; try reflexivity; try discriminate NN.
    exfalso. cbn [Babs] in T. revert T. generalize (d_df c (dp_f (nth p fr d_nopeak))).
    cbn [num f64]. intros x T. destruct x as [|[|]| |]; discriminate T.
  - destruct (blt _ _) eqn:B; auto. exfalso.
    destruct (dg_nearest _ _ _ _ G2 i p j Hin Hj (or_introl B)) as (q & Hq & _).
    apply (Tracker_Step.partner_none M j) in Hnone. apply Hnone.
    eapply Tracker_Step.in_fst; eauto.
Qed.
Print Assumptions c105_nearest_up_to_rounding.

(** ** NaN *)

(** If the frequency of the newest sample of the first active track is NaN,
    the next frame continues no track at all, however near its peaks are to
    the others: every active track ends. *)
Lemma poisoned_loop : forall (c : dcfg f64) fr t ts n ord,
  is_nan (last (dt_freq t) (nan f64)) = true ->
  forall fp, d_match_loop c fr ord (t :: ts) (true :: repeat true n) fp
             = (t :: ts, true :: repeat true n, fp).
Proof.
  intros c fr t ts n ord HN. induction ord as [|p ord IH]; intro fp; cbn [d_match_loop]; auto.
  cbn [existsb orb negb].
  set (key := fun i => d_gap (nth i (t :: ts) d_notrack) (nth p fr d_nopeak)).
  assert (K : is_nan (key 0%nat : f64_num) = true) by (apply gap_nan; exact HN).
  cbn [seq List.length filter nth].
  assert (MK : forall l, min_key (lt f64) (0%nat :: l) key = Some (0%nat, key 0%nat)).
  { intro l. unfold min_key. cbn [fold_left]. induction l as [|a l IHl]; cbn [fold_left]; auto.
    change (lt f64 (key a) (key 0%nat)) with (blt (key a) (key 0%nat)).
    rewrite (blt_nan_r (key a) (key 0%nat) K). exact IHl. }
  rewrite MK.
  change (lt f64 (key 0%nat)) with (blt (key 0%nat)).
  rewrite (blt_nan_l _ _ K). apply IH.
Qed.

Lemma filter_all : forall X (f : X -> bool) l, (forall x, In x l -> f x = true) ->
  filter f l = l.
Proof.
  induction l as [|a l IH]; intro H; cbn [filter]; auto.
  rewrite (H a (or_introl eq_refl)). f_equal. apply IH. intros x Hx. apply H. now right.
Qed.

Theorem c105_nan_ends_all_tracks : forall (c : dcfg f64) deact sv t ts n fr ord st',
  is_nan (last (dt_freq t) (nan f64)) = true ->
  d_step c deact (mkDState sv (t :: ts) n) (fr, ord) = Ok st' ->
  foldM deact sv (rev (t :: ts)) = Ok (d_saved st') /\
  Forall (fun u => dt_start u = n /\ List.length (dt_freq u) = 1%nat) (d_active st').
Proof.
  intros c deact sv t ts n fr ord st' HN H. unfold d_step in H.
  cbn [d_active d_saved d_nframe] in H. cbn [List.length repeat] in H.
  rewrite (poisoned_loop c fr t ts (List.length ts) ord HN) in H.
  rewrite d_deact_loop_spec in H.
  assert (F1 : filter (fun i => nth i (true :: repeat true (List.length ts)) false)
                 (seq 0 (List.length (t :: ts))) = seq 0 (List.length (t :: ts))).
  { apply filter_all. intros i Hi. apply in_seq in Hi.
    destruct i; auto. cbn [nth]. apply nth_repeat_lt. cbn [List.length] in Hi. lia. }
  assert (F2 : filter (fun i => negb (nth i (true :: repeat true (List.length ts)) false))
                 (seq 0 (List.length (t :: ts))) = []).
  { match goal with |- ?w = [] => destruct w as [|x l] eqn:E; auto end. exfalso.
    assert (Hx : In x (x :: l)) by now left. rewrite <- E in Hx. apply filter_In in Hx.
    destruct Hx as [Hi Hx]. apply in_seq in Hi. destruct x; [discriminate|]. cbn [nth] in Hx.
    rewrite nth_repeat_lt in Hx by (cbn [List.length] in Hi; lia). discriminate. }
  rewrite F1, F2 in H. rewrite map_nth_seq in H.
  destruct (foldM deact sv (rev (t :: ts))) as [sv'|]; cbn [bind map] in H; [|discriminate].
  injection H as <-. cbn [d_saved d_active]. split; auto.
  rewrite d_activate_loop_spec. cbn [app]. apply Forall_forall. intros u Hu.
  apply in_map_iff in Hu. destruct Hu as (q & <- & _). auto.
Qed.
Print Assumptions c105_nan_ends_all_tracks.

(** ** Examples *)

(** Doubles from integers and decimal fractions: the nearest double to
    [m / 10^k]. *)
Definition fz (m : Z) : f64_num :=
  binary_normalize 53 1024 prec_pos prec_emax mode_NE m 0 false.
Definition dec (m k : Z) : f64_num := bdiv (fz m) (fz (10 ^ k)).
Definition fnan : f64_num := nan f64.

(** A tracker with the default thresholds, [fs = 44100] and [h = 441]: one
    hundred frames per second. *)
Definition ex_dcfg (dur : f64_num) : dcfg f64 :=
  mkDCfg (A:=f64) (fz 44100) (fz 441) 100 dur (fz 20) (dec 1 2).
Definition pk (f m : Z) : dpeak f64 := mkDPeak (A:=f64) (fz f) (fz m) (fz 0).
Definition pk_nan (m : Z) : dpeak f64 := mkDPeak (A:=f64) fnan (fz m) (fz 0).
Definition in_order (fr : dframe f64) : dframe f64 * list nat :=
  (fr, seq 0 (List.length fr)).

(** Comparable form of the frequencies of tracks. *)
Definition freqs (l : list (dtrack f64)) : list (list SpecFloat.spec_float) :=
  map (fun t : dtrack f64 => map (@B2SF 53 1024) (dt_freq t)) l.

(** Two tracks are matched to two peaks, and one track ends and is saved. *)
Example c105_run_example :
  match d_run (ex_dcfg (dec 2 2)) (d_sine_deact (ex_dcfg (dec 2 2)))
          (map in_order [[pk 100 (-10); pk 200 (-20)]; [pk 201 (-9); pk 99 (-12)];
                         [pk 203 (-9)]]) with
  | Ok st => freqs (d_saved st) = freqs [mkDTrack (A:=f64) 0 [fz 100; fz 99] [] []] /\
             freqs (d_active st) = freqs [mkDTrack (A:=f64) 0 [fz 200; fz 201; fz 203] [] []]
  | Err _ => False
  end.
Proof. vm_compute. split; reflexivity. Qed.

(** One NaN in a frame: in the next one a steady partial at 200 Hz is cut in
    two, because the track that starts with NaN is the first one. *)
Example c105_nan_example :
  match d_run (ex_dcfg (dec 2 2)) (d_sine_deact (ex_dcfg (dec 2 2)))
          (map in_order [[pk_nan (-10); pk 200 (-20)]; [pk 200 (-20)]; [pk 200 (-20)]]) with
  | Ok st => map dt_start (d_active st) = [1%nat] /\ List.length (d_saved st) = 0%nat
  | Err _ => False
  end.
Proof. vm_compute. split; reflexivity. Qed.

(** The hypotheses of the theorems hold for such histories. *)
Example c105_hypotheses_example :
  let h := map in_order [[pk 100 (-10); pk 200 (-20)]; [pk 201 (-9); pk 99 (-12)]] in
  let c := ex_dcfg (dec 2 2) in
  d_hist_ok h /\ Forall (fun fo => finite_frame (fst fo)) h /\
  Forall (fun fo => d_sorted (fst fo) (snd fo)) h /\
  (finite (dc_off c)) /\ (finite (dc_slope c)).
Proof.
  cbv zeta. split; [|split; [|split]].
  - unfold d_hist_ok. rewrite Forall_forall. intros fo H. apply in_map_iff in H.
    destruct H as (fr & <- & _). apply Permutation_refl.
  - repeat constructor.
  - repeat constructor.
  - split; reflexivity.
Qed.

(** With [min_sine_dur = 0.07] and one hundred frames per second a track of
    exactly seven frames, i.e. of seven hundredths of a second, is too short:
    eight are required. *)
Theorem c105_decimal_duration_refuted : exists (c : dcfg f64),
  val (dc_dur c) = rnd (7 / 100) /\ val (dc_fs c) = 44100 /\ val (dc_h c) = 441 /\
  44100 / 441 * (7 / 100) = 7 /\ d_min_sine_len c = Ok 8%Z.
Proof.
  exists (ex_dcfg (dec 7 2)). split; [|split; [|split; [|split]]].
  - cbn [dc_dur ex_dcfg]. unfold dec.
    assert (V7 : val (fz 7) = 7) by (vm_compute; lra).
    assert (V100 : val (fz (10 ^ 2)) = 100) by (vm_compute; lra).
    destruct (bdiv_val (fz 7) (fz (10 ^ 2))) as [_ E].
    + reflexivity.
    + rewrite V100. lra.
    + rewrite V7, V100. unfold rnd.
      assert (VE : Valid_exp (FLT_exp (-1074) 53)) by (apply (@FLT_exp_valid (-1074) 53 prec_pos)).
      apply Rle_lt_trans with 1.
      * apply Rabs_le. assert (G1 : generic_format radix2 (FLT_exp (-1074) 53) 1).
        { change 1 with (bpow radix2 0). apply generic_format_bpow. cbn. lia. }
        split.
        -- apply Rle_trans with 0; [lra|].
           apply round_ge_generic; [exact _|exact _|apply generic_format_0|lra].
        -- apply round_le_generic; [exact _|exact _|exact G1|lra].
      * change 1 with (bpow radix2 0). apply bpow_lt. lia.
    + rewrite E, V7, V100. reflexivity.
  - vm_compute. lra.
  - vm_compute. lra.
  - lra.
  - vm_compute. reflexivity.
Qed.
Print Assumptions c105_decimal_duration_refuted.
