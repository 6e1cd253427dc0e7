(** Properties of the whole analysis: C90 - C92. *)
From Coquelicot Require Import Coquelicot.
From Coq Require Import String List Bool ZArith Reals Lra Lia Permutation Sorted.
Import ListNotations.
From Verif Require Import Base Py PyLemmas ListLemmas RLists Stft_Model Dft_Model Dft_Proofs Tracker_Model
  Tracker_Proofs Dsp_Model Sample_Model Sample_Spec Sample_Proofs Sample_Props Bank_Model Bank_Proofs Beat_Model
  Hinge_Props Pipe_Model Pipe_Spec Pipe_Proofs.
Local Open Scope R_scope.

(** ** Spec *)

(** Hop size; the samples in the order in which they are analysed; frame [i]; the
    number of frames; the levels (dB) of frame [i]. *)
Definition hop (o : rmodel) : nat := Pos.to_nat (g_h (rt_cfg (rm_tracker o))).
Definition rate (o : rmodel) : R := g_fs (rt_cfg (rm_tracker o)).
Definition analysed (o : rmodel) (x : list R) : list R := if rt_reverse (rm_tracker o) then rev x else x.
Definition frame (o : rmodel) (x : list R) (i : nat) : list R := frame_of (List.length (rm_w o)) (hop o) i (analysed o x).
Definition frames (o : rmodel) (x : list R) : nat := frame_count (List.length (rm_w o)) (hop o) (analysed o x).
Definition levels (o : rmodel) (x : list R) (i : nat) : Z -> R := level (rm_w o) (frame o x i) (rm_n o).
(** Frequency (Hz) of a location on the axis of the bins. *)
Definition bin_freq (o : rmodel) (loc : R) : R := loc * rate o / IZR (rm_n o).
(** Time of the middle of the frame that is analysed first. *)
Definition first_time (o : rmodel) (x : list R) : R :=
  let half := INR (List.length (rm_w o)) / (2 * rate o) in
  if rt_reverse (rm_tracker o) then INR (List.length x) / rate o - half else half.

(** Frames fit in transform and signal; no bin of a frame is below [float_eps],
    the floor of the decibels; without padding. *)
Definition well_posed (o : rmodel) (x : list R) : Prop :=
  rm_padded o = false /\ (2 <= zlen (rm_w o) <= rm_n o)%Z /\ (List.length (rm_w o) <= List.length x)%nat /\ 0 < rate o /\
  forall i k, (i < frames o x)%nat -> (0 <= k <= rm_n o / 2)%Z -> float_eps <= magnitude (rm_w o) (frame o x i) (rm_n o) k.
(** Different peaks are not closer than the tolerance of the tracker. *)
Definition resolved (o : rmodel) (x : list R) : Prop :=
  forall k k' loc loc' m m', k <> k' ->
  local_peak (levels o x 0) (rm_n o) k -> vertex (levels o x 0) k loc m ->
  local_peak (levels o x 0) (rm_n o) k' -> vertex (levels o x 0) k' loc' m' ->
  rdf (rt_cfg (rm_tracker o)) (bin_freq o loc) <= Rabs (bin_freq o loc' - bin_freq o loc).
(** The merge strategy is one of the two. *)
Definition known_strategy (t : rtracker) : Prop :=
  match t with RSine _ => True | RModal m => g_strategy m = "single"%string \/ g_strategy m = "average"%string end.

(** Regression lines of two points or more are least squares lines, the reduction of
    equal frequencies (mean, median ...) is that frequency; sorting permutes. *)
Definition fits_lines (linreg : list R -> list R -> R * R) : Prop :=
  forall t y, List.length y = List.length t -> (exists u v, In u t /\ In v t /\ u <> v) ->
  least_squares_line t y (fst (linreg t y)) (snd (linreg t y)).
Definition reduces (freq_reduce : list R -> R) : Prop := forall f n, freq_reduce (repeat f (S n)) = f.
Definition sorts (argsort : list rpeak -> list nat) : Prop :=
  forall fr, Permutation (argsort fr) (seq 0 (List.length fr)).

(** Matrix of modes: frequencies, decays, amplitudes. *)
Definition matrix_of (ms : list (R * R * R)) : list (list fl) :=
  [map (fun p => Fin (fst (fst p))) ms; map (fun p => Fin (snd (fst p))) ms; map (fun p => Fin (snd p)) ms].
(** A mode of decay [d] at the vertex of peak [k]: its envelope has twice the
    magnitude of the peak in the middle of the first analysed frame. *)
Definition mode_of_peak (o : rmodel) (x : list R) (d : R) (k : Z) (p : R * R * R) : Prop :=
  exists loc m a, vertex (levels o x 0) k loc m /\ p = (bin_freq o loc, d, a) /\
    a * exp (-2 * first_time o x / d) = 2 * Rpower 10 (m / 20).

(** ** One track *)

Lemma fit_line : forall linreg optimise freq_reduce (fs h wl nx : R) (rv : bool) F M c k t,
  fits_lines linreg -> minimises optimise -> reduces freq_reduce -> 0 < fs -> 0 < h -> 0 < c < 1 ->
  let s := hop_db (if rv then / c else c) in
  saved_on F M s k t ->
  let d := -2 * h / (fs * ln c) in
  let t0 := if rv then nx / fs - wl / (2 * fs) else wl / (2 * fs) in
  exists a,
    (let '(ts, freq, mag) := preprocess_track (mkACfg fs h wl false rv) nx t in
     sfit_track linreg optimise freq_reduce ts freq mag) = Ok [(Fin (F k), Fin d, Fin a)] /\
    a * exp (-2 * t0 / d) = 2 * Rpower 10 (M k / 20).
Proof.
  intros linreg optimise freq_reduce fs h wl nx rv F M c k t HL HO HR Hfs Hh Hc s (U0 & U1 & U2 & U3 & U4 & U5) d t0.
  set (cf := mkACfg fs h wl false rv).
  assert (L10 := ln10_pos).
  assert (LC : ln c < 0) by (rewrite <- ln_1; apply ln_increasing; lra).
  assert (AL : aligned t).
  { split; [|split; [exact U1|exact U3]]. destruct (U2 2%nat ltac:(lia)) as (v & Hv).
    assert (2 < List.length (r_mag t))%nat by (apply nth_error_Some; unfold has_value in Hv; congruence). lia. }
  destruct (preprocess_ok cf nx t AL) as (idx & fr & ms & E & _ & II & FF & FM).
  rewrite E. unfold sfit_track. rewrite !present_Some.
  set (T := fun i => frame_time cf nx (r_start t + Z.of_nat i)) in *.
  set (K := 20 * (ln c / ln 10) * (fs / h)). set (q := M k + 20 * (ln 2 / ln 10) - K * t0).
  assert (ES : s = (if rv then -1 else 1) * (20 * (ln c / ln 10))).
  { unfold s, hop_db. destruct rv; [rewrite ln_Rinv by lra|]; field; lra. }
  assert (EM : ms = map (fun v => K * v + q) (map T idx)).
  { rewrite map_map. clear - FM U5 ES Hfs Hh L10. induction FM as [|i m idx ms H FM IH]; [reflexivity|]. cbn [map].
    f_equal; [|exact IH]. apply U5 in H. cbn in H.
    replace m with (m - 20 * (ln 2 / ln 10) + 20 * (ln 2 / ln 10)) by ring. rewrite H, ES.
    unfold q, T, frame_time, K, t0, cf. cbn [a_h a_fs a_padded a_wsize a_rev]. destruct rv; field; lra. }
  assert (EF : fr = repeat (F k) (List.length idx)).
  { clear - FF U4. induction FF as [|i f idx fr H FF IH]; [reflexivity|]. cbn [List.length repeat].
    rewrite (U4 _ _ H), IH. reflexivity. }
  assert (I0 : In 0%nat idx) by (apply II; apply U2; lia).
  assert (I1 : In 1%nat idx) by (apply II; apply U2; lia).
  assert (I2 : In 2%nat idx) by (apply II; apply U2; lia).
  assert (HQ : 0 < h / fs) by (apply Rdiv_lt_0_compat; lra).
  assert (HT : forall i, T (S i) = T i + (if rv then -1 else 1) * (h / fs)).
  { intros i. unfold T, frame_time, cf. cbn [a_h a_fs a_padded a_wsize a_rev]. rewrite Nat2Z.inj_succ.
    replace (r_start t + Z.succ (Z.of_nat i))%Z with (r_start t + Z.of_nat i + 1)%Z by lia. rewrite (plus_IZR _ 1).
    destruct rv; field; lra. }
  pose proof (HT 0%nat) as H01. pose proof (HT 1%nat) as H12.
  assert (HK : K < 0).
  { unfold K. assert (0 < fs / h) by (apply Rdiv_lt_0_compat; lra).
    assert (ln c / ln 10 < 0).
    { replace (ln c / ln 10) with (- ((- ln c) / ln 10)) by (field; lra).
      assert (0 < - ln c / ln 10) by (apply Rdiv_lt_0_compat; lra). lra. }
    nra. }
  assert (HLS : least_squares_line (map T idx) ms (fst (linreg (map T idx) ms)) (snd (linreg (map T idx) ms))).
  { apply HL; [rewrite EM, !map_length; reflexivity|]. exists (T 0%nat), (T 1%nat).
    repeat split; [now apply in_map|now apply in_map|]. destruct rv; lra. }
  rewrite EM in HLS.
  assert (HG : exists a0, hinge_fit optimise (map T idx) ms (fst (linreg (map T idx) ms)) (snd (linreg (map T idx) ms)) = Ok (a0, K, q)).
  { rewrite EM. destruct rv.
    - apply (c88_line optimise _ K q _ _ (T 2%nat) (T 1%nat) (T 0%nat)); try (apply in_map; assumption); auto; lra.
    - apply (c88_line optimise _ K q _ _ (T 0%nat) (T 1%nat) (T 2%nat)); try (apply in_map; assumption); auto; lra. }
  destruct HG as (a0 & HG). destruct (linreg (map T idx) ms) as [kl ql]. cbn [fst snd] in HG.
  rewrite HG. cbn [bind]. destruct (Req_EM_T K 0) as [E0|_]; [lra|].
  exists (track_amp q).
  assert (ED : track_decay K = d).
  { unfold track_decay, d2k_const, log10, d, K. rewrite ln_exp. field. repeat split; lra. }
  assert (ER : freq_reduce fr = F k).
  { rewrite EF. destruct idx as [|i0 idx']; [destruct I0|]. cbn [List.length]. apply HR. }
  rewrite ED, ER. split; [reflexivity|].
  unfold track_amp, db2a, q, Rpower. rewrite <- exp_plus.
  transitivity (exp (ln 2 + M k / 20 * ln 10)); [|rewrite exp_plus, exp_ln by lra; reflexivity]. f_equal.
  unfold d, K. field. repeat split; lra.
Qed.

(** ** Hypotheses in terms of the model *)

Lemma strategies : forall t, known_strategy t -> strategy_known t.
Proof.
  intros [c|m] H; [exact I|]. cbn in H |- *. unfold rfreq_diff_function. destruct H as [-> | ->]; cbn; eauto.
Qed.
Lemma resolved_peaks : forall o x, resolved o x ->
  let lev := levels o x 0 in let F k := vloc lev k * g_fs (rt_cfg (rm_tracker o)) / IZR (rm_n o) in
  forall k k', local_peak lev (rm_n o) k -> local_peak lev (rm_n o) k' -> k <> k' ->
  rdf (rt_cfg (rm_tracker o)) (F k) <= Rabs (F k' - F k).
Proof.
  intros o x H lev F k k' Hk Hk' N.
  apply (H k k' (vloc lev k) (vloc lev k') (vlev lev k) (vlev lev k') N); auto; apply (vertex_iff lev (rm_n o)); auto.
Qed.
Lemma analysed_scaled : forall o x c, 0 < c -> scaled_by_hop (hop o) c x ->
  scaled_by_hop (hop o) (if rt_reverse (rm_tracker o) then / c else c) (analysed o x).
Proof.
  intros o x c Hc H. unfold analysed. destruct (rt_reverse _); [|exact H]. apply scaled_rev; [lra|exact H].
Qed.
Lemma hop_IZR : forall o, IZR (Zpos (g_h (rt_cfg (rm_tracker o)))) = INR (hop o).
Proof. intros o. unfold hop. rewrite INR_IZR_INZ, positive_nat_Z. reflexivity. Qed.
Lemma hop_pos : forall o, 0 < INR (hop o).
Proof. intros o. rewrite <- hop_IZR. apply IZR_lt. lia. Qed.
Lemma zlen_IZR : forall (A : Type) (l : list A), IZR (zlen l) = INR (List.length l).
Proof. intros A l. unfold zlen. now rewrite INR_IZR_INZ. Qed.

(** Tracks that follow lines give modes. *)
Lemma fit_lines : forall linreg optimise freq_reduce o x c F M,
  fits_lines linreg -> minimises optimise -> reduces freq_reduce -> 0 < rate o -> 0 < c < 1 -> rm_padded o = false ->
  let s := hop_db (if rt_reverse (rm_tracker o) then / c else c) in
  let d := -2 * INR (hop o) / (rate o * ln c) in
  forall ks ts, Forall2 (saved_on F M s) ks ts ->
  exists ms, 
    (do results <- mapM (fun t =>
      let '(ts, freq, mag) :=
        preprocess_track (mkACfg (rate o) (IZR (Zpos (g_h (rt_cfg (rm_tracker o))))) (IZR (zlen (rm_w o))) (rm_padded o)
                                 (rt_reverse (rm_tracker o))) (IZR (zlen x)) t in
      sfit_track linreg optimise freq_reduce ts freq mag) ts;
     Ok (param_matrix results)) = Ok (matrix_of ms) /\
    Forall2 (fun k p => exists a, p = (F k, d, a) /\ a * exp (-2 * first_time o x / d) = 2 * Rpower 10 (M k / 20)) ks ms.
Proof.
  intros linreg optimise freq_reduce o x c F M HL HO HR Hfs Hc HP s d ks ts H.
  rewrite HP, hop_IZR, !zlen_IZR.
  assert (G : exists ms : list (R * R * R),
    mapM (fun t =>
      let '(ts, freq, mag) :=
        preprocess_track (mkACfg (rate o) (INR (hop o)) (INR (List.length (rm_w o))) false (rt_reverse (rm_tracker o)))
          (INR (List.length x)) t in
      sfit_track linreg optimise freq_reduce ts freq mag) ts =
    Ok (map (fun p => [(Fin (fst (fst p)), Fin (snd (fst p)), Fin (snd p))]) ms) /\
    Forall2 (fun k p => exists a, p = (F k, d, a) /\ a * exp (-2 * first_time o x / d) = 2 * Rpower 10 (M k / 20)) ks ms).
  { induction H as [|k t ks ts Hk H (ms & E & FM)]; [exists []; split; [reflexivity|constructor]|].
    destruct (fit_line linreg optimise freq_reduce (rate o) (INR (hop o)) (INR (List.length (rm_w o))) (INR (List.length x))
      (rt_reverse (rm_tracker o)) F M c k t HL HO HR Hfs (hop_pos o) Hc Hk) as (a & Ea & Ha).
    exists ((F k, d, a) :: ms). split.
    - cbn [mapM map]. rewrite Ea. cbn [bind]. rewrite E. reflexivity.
    - constructor; auto. exists a. split; [reflexivity|]. exact Ha. }
  destruct G as (ms & E & FM). exists ms. split; [|exact FM]. rewrite E. cbn [bind]. f_equal.
  rewrite matrix_ok. clear. unfold matrix_of, transpose3.
  assert (EC : filter finite3 (concat (map (fun p : R * R * R => [(Fin (fst (fst p)), Fin (snd (fst p)), Fin (snd p))]) ms)) =
               map (fun p => (Fin (fst (fst p)), Fin (snd (fst p)), Fin (snd p))) ms).
  { induction ms as [|p ms IH]; [reflexivity|]. cbn. now rewrite IH. }
  rewrite EC, !map_map. reflexivity.
Qed.

(** ** C90 *)

(** If all samples decay by the same factor [c] every hop, all modes have the decay
    of that factor, are at spectral peaks and have the right amplitude. *)
Theorem c90_decays : forall linreg optimise freq_reduce phase argsort o x c,
  fits_lines linreg -> minimises optimise -> reduces freq_reduce -> sorts argsort ->
  well_posed o x -> resolved o x -> known_strategy (rm_tracker o) -> (3 <= rmin_sine_len (rt_cfg (rm_tracker o)))%Z ->
  0 < c < 1 -> scaled_by_hop (hop o) c x ->
  exists ms, sample_fit linreg optimise freq_reduce phase argsort o x = Ok (matrix_of ms) /\
    forall p, In p ms -> exists k, local_peak (levels o x 0) (rm_n o) k /\
      mode_of_peak o x (-2 * INR (hop o) / (rate o * ln c)) k p.
Proof.
  intros linreg optimise freq_reduce phase argsort o x c HL HO HR HA (W1 & W2 & W3 & W4 & W5) HS HK H3 Hc HX.
  set (g := if rt_reverse (rm_tracker o) then / c else c).
  assert (Hg : 0 < g) by (unfold g; destruct (rt_reverse _); [apply Rinv_0_lt_compat|]; lra).
  destruct (tracks_ok phase argsort o x g W1 ltac:(lia) ltac:(lia) W3 Hg (analysed_scaled o x c ltac:(lra) HX) W5)
    as (ts & E & FT).
  - intros fr pi Hp. apply (Permutation_in _ (HA fr)) in Hp. apply in_seq in Hp. lia.
  - apply (resolved_peaks o x HS).
  - now apply strategies.
  - exact H3.
  - set (lev := levels o x 0). set (F := fun k => vloc lev k * rate o / IZR (rm_n o)).
    assert (EK : exists ks, Forall (local_peak lev (rm_n o)) ks /\ Forall2 (saved_on F (vlev lev) (hop_db g)) ks ts).
    { clear - FT. induction FT as [|t ts (k & Pk & Hk) FT (ks & P & H)]; [exists []; split; constructor|].
      exists (k :: ks). split; constructor; auto. }
    destruct EK as (ks & PK & FK).
    destruct (fit_lines linreg optimise freq_reduce o x c F (vlev lev) HL HO HR W4 Hc W1 ks ts FK) as (ms & EM & FM).
    exists ms. split.
    + unfold sample_fit. rewrite E. cbn [bind]. exact EM.
    + intros p Hp. clear - FM PK Hp. induction FM as [|k q ks ms (a & Ep & Ha) FM IH]; [destruct Hp|].
      inversion PK as [|? ? Pk PK']; subst. destruct Hp as [<-|Hp]; [|auto].
      exists k. split; [exact Pk|]. exists (vloc lev k), (vlev lev k), a. split; [|split; [reflexivity|exact Ha]].
      apply (vertex_iff lev (rm_n o)); auto.
Qed.
Print Assumptions c90_decays.

(** Sounds that decay by the same factor every hop: a periodic wave, with a period
    that divides the hop, under an exponential envelope of decay [d]. *)
Definition decaying_wave (fs d : R) (wave : nat -> R) (n : nat) : list R :=
  map (fun i => wave i * exp (-2 * (INR i / fs) / d)) (seq 0 n).
Lemma wave_scaled : forall fs d wave h n, 0 < fs -> 0 < d -> (forall i, wave (i + h)%nat = wave i) ->
  scaled_by_hop h (exp (-2 * INR h / (fs * d))) (decaying_wave fs d wave n).
Proof.
  intros fs d wave h n Hf Hd HW i Hi. unfold decaying_wave in *. rewrite map_length, seq_length in Hi.
  rewrite !(nth_map_lt _ _ _ 0%nat) by (rewrite seq_length; lia). rewrite !seq_nth by lia. cbn [Nat.add].
  rewrite HW, plus_INR. replace (-2 * ((INR i + INR h) / fs) / d) with (-2 * INR h / (fs * d) + -2 * (INR i / fs) / d).
  - rewrite exp_plus. ring.
  - field. lra.
Qed.
Theorem c90_wave : forall linreg optimise freq_reduce phase argsort o d wave n,
  let x := decaying_wave (rate o) d wave n in
  fits_lines linreg -> minimises optimise -> reduces freq_reduce -> sorts argsort ->
  well_posed o x -> resolved o x -> known_strategy (rm_tracker o) -> (3 <= rmin_sine_len (rt_cfg (rm_tracker o)))%Z ->
  0 < d -> (forall i, wave (i + hop o)%nat = wave i) ->
  exists ms, sample_fit linreg optimise freq_reduce phase argsort o x = Ok (matrix_of ms) /\
    forall p, In p ms -> exists k, local_peak (levels o x 0) (rm_n o) k /\ mode_of_peak o x d k p.
Proof.
  intros linreg optimise freq_reduce phase argsort o d wave n x HL HO HR HA HW HS HK H3 Hd HP.
  assert (Hf : 0 < rate o) by apply HW. assert (Hh := hop_pos o).
  set (c := exp (-2 * INR (hop o) / (rate o * d))).
  assert (NG : -2 * INR (hop o) / (rate o * d) < 0).
  { replace (-2 * INR (hop o) / (rate o * d)) with (- (2 * INR (hop o) / (rate o * d))) by (field; lra).
    assert (0 < 2 * INR (hop o) / (rate o * d)); [|lra]. apply Rdiv_lt_0_compat; [lra|]. now apply Rmult_lt_0_compat. }
  assert (Hc : 0 < c < 1).
  { split; [apply exp_pos|]. unfold c. rewrite <- exp_0. now apply exp_increasing. }
  destruct (c90_decays linreg optimise freq_reduce phase argsort o x c HL HO HR HA HW HS HK H3 Hc) as (ms & E & H).
  - now apply wave_scaled.
  - exists ms. split; [exact E|]. replace d with (-2 * INR (hop o) / (rate o * ln c)); [exact H|].
    unfold c. rewrite ln_exp. field. lra.
Qed.
Print Assumptions c90_wave.

(** In particular sums of partials whose frequencies are multiples of [fs / h]. *)
Definition partials_wave (fs : R) (ps : list (R * R * R)) (i : nat) : R :=
  rsum (map (fun p => let '(a, f, phi) := p in a * cos (2 * PI * f * (INR i / fs) + phi)) ps).
Theorem c90_partials : forall fs h ps, 0 < fs -> (1 <= h)%nat ->
  (forall a f phi, In (a, f, phi) ps -> exists q : Z, f = IZR q * fs / INR h) ->
  forall i, partials_wave fs ps (i + h) = partials_wave fs ps i.
Proof.
  intros fs h ps Hf Hh H i. unfold partials_wave. apply rsum_map_ext. intros [[a f] phi] Hp.
  destruct (H a f phi Hp) as [q ->]. f_equal.
  assert (0 < INR h) by (apply lt_0_INR; lia).
  rewrite plus_INR.
  replace (2 * PI * (IZR q * fs / INR h) * ((INR i + INR h) / fs) + phi)
    with (2 * PI * (IZR q * fs / INR h) * (INR i / fs) + phi + 2 * IZR q * PI) by (field; lra).
  apply Dft_Proofs.cos_shift.
Qed.
Print Assumptions c90_partials.

(** Peaks are resolved if the tolerance of the tracker is one bin or less up to
    half the sampling frequency. *)
Theorem c90_tolerance : forall o x, (0 < rm_n o)%Z -> 0 < rate o ->
  let c := rt_cfg (rm_tracker o) in
  0 <= g_slope c -> g_off c + g_slope c * (rate o / 2) <= rate o / IZR (rm_n o) -> resolved o x.
Proof.
  intros o x Hn Hf c HS HT k k' loc loc' m m' N Hk Vk Hk' Vk'.
  set (lev := levels o x 0) in *. set (n := rm_n o) in *.
  apply (vertex_iff lev n) in Vk; auto. apply (vertex_iff lev n) in Vk'; auto. destruct Vk as [-> _], Vk' as [-> _].
  assert (VB : forall j, local_peak lev n j -> Rabs (vloc lev j - IZR j) < / 2).
  { intros j (_ & _ & A & B). unfold vloc.
    set (l := lev (j - 1)%Z) in *. set (ce := lev j) in *. set (r := lev (j + 1)%Z) in *.
    replace (IZR j + / 2 * (l - r) / (l - 2 * ce + r) - IZR j) with (/ 2 * ((r - l) / (2 * ce - l - r))) by (field; lra).
    rewrite Rabs_mult, (Rabs_pos_eq (/ 2)) by lra.
    assert (Rabs ((r - l) / (2 * ce - l - r)) < 1); [|lra].
    unfold Rdiv. rewrite Rabs_mult, Rabs_inv, (Rabs_pos_eq (2 * ce - l - r)) by lra.
    apply (Rmult_lt_reg_r (2 * ce - l - r)); [lra|]. rewrite Rmult_assoc, Rinv_l, Rmult_1_r, Rmult_1_l by lra.
    apply Rabs_def1; lra. }
  pose proof (VB k Hk) as Bk. pose proof (VB k' Hk') as Bk'.
  assert (GAP : (k + 2 <= k' \/ k' + 2 <= k)%Z).
  { destruct Hk as (_ & _ & A & B), Hk' as (_ & _ & A' & B').
    assert (k' <> k + 1)%Z.
    { intros ->. replace (k + 1 - 1)%Z with k in A' by lia. lra. }
    assert (k' <> k - 1)%Z.
    { intros ->. replace (k - 1 + 1)%Z with k in B' by lia. lra. }
    lia. }
  assert (Hn' : 0 < IZR n) by (apply IZR_lt; exact Hn).
  assert (Hb : 0 < rate o / IZR n) by (now apply Rdiv_lt_0_compat).
  apply Rabs_def2 in Bk. apply Rabs_def2 in Bk'.
  assert (UP : vloc lev k <= IZR n / 2).
  { destruct Hk as (_ & K2 & _). assert (Z2 : (2 * (k + 1) <= n)%Z) by (pose proof (Z.mul_div_le n 2); lia).
    apply IZR_le in Z2. rewrite mult_IZR, plus_IZR in Z2. lra. }
  assert (TF : rdf c (bin_freq o (vloc lev k)) <= rate o / IZR n).
  { eapply Rle_trans; [|exact HT]. unfold rdf. apply Rplus_le_compat_l. apply Rmult_le_compat_l; [exact HS|].
    unfold bin_freq. fold n. replace (vloc lev k * rate o / IZR n) with (rate o * (vloc lev k / IZR n)) by (field; lra).
    apply Rmult_le_compat_l; [lra|]. apply (Rmult_le_reg_r (IZR n)); [lra|].
    unfold Rdiv. rewrite Rmult_assoc, Rinv_l by lra. lra. }
  eapply Rle_trans; [exact TF|]. unfold bin_freq. fold n.
  replace (vloc lev k' * rate o / IZR n - vloc lev k * rate o / IZR n)
    with ((vloc lev k' - vloc lev k) * (rate o / IZR n)) by (field; lra).
  rewrite Rabs_mult, (Rabs_pos_eq (rate o / IZR n)) by lra.
  assert (1 <= Rabs (vloc lev k' - vloc lev k)); [|nra].
  destruct GAP as [G|G]; apply IZR_le in G; rewrite plus_IZR in G.
  - rewrite Rabs_pos_eq; lra.
  - rewrite Rabs_left1; lra.
Qed.
Print Assumptions c90_tolerance.

(** The formulas of simple linear regression (as in [rmodal_ok]) and the mean do
    what is asked of the regression and of the reduction. *)
Theorem c90_regression : fits_lines (fun t y => (rols_coef t y, rols_intercept t y)) /\ reduces rmean.
Proof.
  split.
  - intros t y HL (u & v & Iu & Iv & N) k' q'. cbn [fst snd].
    set (P := combine t y). set (sx := rsum (map fst P)). set (sy := rsum (map snd P)).
    set (sxy := rsum (map (fun p => fst p * snd p) P)). set (sxx := rsum (map (fun p => fst p * fst p) P)).
    set (syy := rsum (map (fun p => snd p * snd p) P)). set (n := INR (List.length P)).
    assert (ET : map fst P = t).
    { unfold P. clear - HL. revert y HL. induction t as [|a t IH]; intros [|b y] HL; try discriminate; [reflexivity|].
      cbn. f_equal. apply IH. cbn in HL. lia. }
    assert (EY : map snd P = y).
    { unfold P. clear - HL. revert y HL. induction t as [|a t IH]; intros [|b y] HL; try discriminate; [reflexivity|].
      cbn. f_equal. apply IH. cbn in HL. lia. }
    assert (LE : forall k q, line_error t y k q = k * k * sxx + q * q * n + syy + 2 * k * q * sx - 2 * k * sxy - 2 * q * sy).
    { intros k q. unfold line_error, ssq. fold P. unfold sx, sy, sxy, sxx, syy, n. clear. induction P as [|[a b] P IH].
      - cbn. ring.
      - cbn [map fst snd]. change (List.length ((a, b) :: P)) with (S (List.length P)). rewrite S_INR.
        repeat change (rsum (?u :: ?v)) with (u + rsum v). rewrite IH. ring. }
    assert (EN : n = INR (List.length t)) by (unfold n; rewrite <- ET, map_length; reflexivity).
    assert (EN' : n = INR (List.length y)) by (unfold n; rewrite <- EY, map_length; reflexivity).
    assert (Hn : 0 < n).
    { rewrite EN. apply lt_0_INR. destruct t; [destruct Iu|cbn; lia]. }
    assert (MX : rmean t = sx / n) by (unfold rmean, sx; now rewrite ET, EN).
    assert (MY : rmean y = sy / n) by (unfold rmean, sy; now rewrite EY, EN').
    assert (DX : rsum (map (fun x => (x - rmean t) * (x - rmean t)) t) = sxx - sx * sx / n).
    { rewrite MX. set (mu := sx / n). replace (sx * sx / n) with (2 * mu * sx - n * (mu * mu)) by (unfold mu; field; lra).
      rewrite <- ET at 1. unfold sxx, sx, n. clearbody mu. clear. induction P as [|[a b] P IH].
      - cbn. ring.
      - cbn [map fst snd]. change (List.length ((a, b) :: P)) with (S (List.length P)). rewrite S_INR.
        repeat change (rsum (?u :: ?v)) with (u + rsum v). rewrite IH. ring. }
    assert (DXY : rsum (map (fun xy => (fst xy - rmean t) * (snd xy - rmean y)) (combine t y)) = sxy - sx * sy / n).
    { rewrite MX, MY. fold P. set (mu := sx / n). set (nu := sy / n).
      replace (sx * sy / n) with (mu * sy + nu * sx - n * (mu * nu)) by (unfold mu, nu; field; lra).
      unfold sxy, sx, sy, n. clearbody mu nu. clear. induction P as [|[a b] P IH].
      - cbn. ring.
      - cbn [map fst snd]. change (List.length ((a, b) :: P)) with (S (List.length P)). rewrite S_INR.
        repeat change (rsum (?u :: ?v)) with (u + rsum v). rewrite IH. ring. }
    assert (DP : 0 < sxx - sx * sx / n).
    { rewrite <- DX. set (mu := rmean t).
      assert (NN : forall l, 0 <= rsum (map (fun x => (x - mu) * (x - mu)) l)).
      { induction l as [|w l IH]; [cbn; lra|]. cbn [map]. change (rsum (?u :: ?v)) with (u + rsum v).
        pose proof (Rle_0_sqr (w - mu)) as Q. unfold Rsqr in Q. lra. }
      assert (PP : forall z l, In z l -> z <> mu -> 0 < rsum (map (fun x => (x - mu) * (x - mu)) l)).
      { intros z l. induction l as [|w l IH]; intros Iz Nz; [destruct Iz|]. cbn [map].
        change (rsum (?u :: ?v)) with (u + rsum v). pose proof (NN l). destruct Iz as [->|Iz].
        - assert (z - mu <> 0) by lra. assert (0 < (z - mu) * (z - mu)) by nra. lra.
        - specialize (IH Iz Nz). pose proof (Rle_0_sqr (w - mu)) as Q. unfold Rsqr in Q. lra. }
      destruct (Req_dec u mu) as [E|N']; [apply (PP v); auto; congruence|apply (PP u); auto]. }
    unfold rols_intercept, rols_coef. rewrite DX, DXY, MX, MY, !LE.
    set (D := sxx - sx * sx / n) in *. set (k := (sxy - sx * sy / n) / D). set (q := sy / n - k * (sx / n)).
    assert (EX : sxx = D + sx * sx / n) by (unfold D; ring).
    assert (EXY : sxy = k * D + sx * sy / n) by (unfold k; field; lra).
    assert (ESY : sy = (q + k * (sx / n)) * n) by (unfold q; field; lra).
    match goal with |- ?a <= ?b => assert (E : b - a = (n * (q' - q) + (k' - k) * sx) ^ 2 / n + (k' - k) ^ 2 * D) end.
    { rewrite EXY, EX. rewrite ESY. field. lra. }
    assert (0 <= (n * (q' - q) + (k' - k) * sx) ^ 2 / n).
    { apply Rmult_le_pos; [apply pow2_ge_0|]. apply Rlt_le. now apply Rinv_0_lt_compat. }
    assert (0 <= (k' - k) ^ 2 * D) by (apply Rmult_le_pos; [apply pow2_ge_0|lra]). lra.
  - intros f n. unfold rmean. rewrite repeat_length.
    assert (G : forall m, rsum (repeat f m) = INR m * f).
    { induction m as [|m IH]; [cbn; ring|]. cbn [repeat]. change (rsum (?u :: ?v)) with (u + rsum v). rewrite S_INR, IH. ring. }
    rewrite G. field. apply not_0_INR. lia.
Qed.
Print Assumptions c90_regression.

(** ** C91 *)

(** The frame that is first in time. *)
Definition earliest (o : rmodel) (x : list R) : nat := if rt_reverse (rm_tracker o) then frames o x - 1 else 0.
(** A peak that passes the frequency bounds and the threshold of a modal tracker. *)
Definition admitted (o : rmodel) (x : list R) (k : Z) : Prop :=
  match rm_tracker o with
  | RSine _ => True
  | RModal tr => forall loc m, vertex (levels o x (earliest o x)) k loc m ->
      (match g_fmin tr with Some b => b <= bin_freq o loc | None => True end) /\
      (match g_fmax tr with Some b => bin_freq o loc <= b | None => True end) /\ g_thr tr <= m
  end.

(** If moreover no peak falls below the threshold of detection, there are not too
    many of them and there are enough frames, the modes are exactly the peaks, by
    increasing frequency, that pass the bounds. *)
Theorem c91_modes : forall linreg optimise freq_reduce phase argsort o x c ks,
  fits_lines linreg -> minimises optimise -> reduces freq_reduce -> sorts argsort ->
  well_posed o x -> resolved o x ->
  0 < c < 1 -> scaled_by_hop (hop o) c x ->
  StronglySorted Z.lt ks -> (forall k, In k ks <-> local_peak (levels o x 0) (rm_n o) k) ->
  (forall i k t, (i < frames o x)%nat -> In k ks -> rm_t o = Some t -> t < levels o x i k) ->
  (forall k loc m, In k ks -> vertex (levels o x 0) k loc m -> 0 < rdf (rt_cfg (rm_tracker o)) (bin_freq o loc)) ->
  (Z.of_nat (List.length ks) <= g_max (rt_cfg (rm_tracker o)))%Z ->
  (rmin_sine_len (rt_cfg (rm_tracker o)) <= Z.of_nat (frames o x))%Z -> (3 <= frames o x)%nat ->
  (forall tr st, rm_tracker o = RModal tr -> g_strip tr = Some st -> 0 <= st) ->
  exists ks' ms, sample_fit linreg optimise freq_reduce phase argsort o x = Ok (matrix_of ms) /\
    StronglySorted Z.lt ks' /\ (forall k, In k ks' <-> In k ks /\ admitted o x k) /\
    Forall2 (mode_of_peak o x (-2 * INR (hop o) / (rate o * ln c))) ks' ms.
Proof.
  intros linreg optimise freq_reduce phase argsort o x c ks HL HO HR HA (W1 & W2 & W3 & W4 & W5) HS Hc HX SK IK HT HD HM HN H3 HST.
  set (g := if rt_reverse (rm_tracker o) then / c else c).
  assert (Hg : 0 < g) by (unfold g; destruct (rt_reverse _); [apply Rinv_0_lt_compat|]; lra).
  assert (LC : ln c < 0) by (rewrite <- ln_1; apply ln_increasing; lra).
  assert (L10 := ln10_pos).
  assert (HG : if rt_reverse (rm_tracker o) then 0 < hop_db g else hop_db g < 0).
  { assert (Q : 0 < (- ln c) / ln 10) by (apply Rdiv_lt_0_compat; lra).
    replace (- ln c / ln 10) with (- (ln c / ln 10)) in Q by (field; lra).
    unfold g, hop_db. destruct (rt_reverse _); [rewrite ln_Rinv by lra|].
    - replace (- ln c / ln 10) with (- (ln c / ln 10)) by (field; lra). lra.
    - lra. }
  set (lev := levels o x 0) in *. set (F := fun k => vloc lev k * rate o / IZR (rm_n o)).
  assert (AS := analysed_scaled o x c ltac:(lra) HX). fold g in AS.
  assert (SH : forall i k, (i < frames o x)%nat -> (0 <= k <= rm_n o / 2)%Z -> levels o x i k = lev k + INR i * hop_db g).
  { intros i k Hi Hk. unfold levels, lev, frame. apply levels_shift; auto.
    - unfold hop. lia.
    - eapply Rlt_le_trans; [apply float_eps_pos|]. apply (W5 0%nat k); [lia|exact Hk]. }
  assert (VX : forall k, local_peak lev (rm_n o) k -> vertex lev k (vloc lev k) (vlev lev k)).
  { intros k Hk. apply (vertex_iff lev (rm_n o)); auto. }
  destruct (tracks_steady phase argsort o x g ks W1 ltac:(lia) ltac:(lia) W3 Hg AS HG W5 HA SK IK) as (ks' & ts & E & SK' & IK' & FT).
  - intros i k Hi Hk. unfold above. destruct (rm_t o) as [t|] eqn:Et; [|exact I].
    pose proof (HT i k t Hi Hk eq_refl) as Q. destruct (proj1 (IK k) Hk) as (? & ? & _). rewrite SH in Q by (auto; lia). exact Q.
  - intros k k' Hk Hk' N. apply (resolved_peaks o x HS); auto; now apply IK.
  - intros k Hk. apply (HD k (vloc lev k) (vlev lev k) Hk). apply VX. now apply IK.
  - exact HM.
  - exact HN.
  - exact H3.
  - destruct (rm_tracker o) as [c0|tr] eqn:ET; [exact I|]. destruct (g_strip tr) as [st|] eqn:EST; [|exact I].
    pose proof (HST tr st eq_refl EST) as Hst. cbn [rt_cfg].
    assert (0 <= st * rframe_rate (g_base tr)).
    { apply Rmult_le_pos; [exact Hst|]. unfold rframe_rate. apply Rlt_le. apply Rdiv_lt_0_compat.
      - unfold rate in W4. rewrite ET in W4. exact W4.
      - apply IZR_lt. lia. }
    pose proof (Rceil_spec (st * rframe_rate (g_base tr))) as RC.
    assert (-1 < IZR (Rceil (st * rframe_rate (g_base tr)))) by lra.
    assert (-1 < Rceil (st * rframe_rate (g_base tr)))%Z by (apply lt_IZR; assumption). lia.
  - destruct (fit_lines linreg optimise freq_reduce o x c F (vlev lev) HL HO HR W4 Hc W1 ks' ts FT) as (ms & EM & FM).
    exists ks', ms. split; [unfold sample_fit; rewrite E; cbn [bind]; exact EM|].
    split; [exact SK'|]. split.
    + intros k. rewrite (IK' k), (IK k). 
      assert (EQ : local_peak lev (rm_n o) k ->
        (keeps (rm_tracker o) (frames o x) (F k) (vlev lev k) (hop_db g) <-> admitted o x k)).
      { intros Hk. unfold keeps, admitted. destruct (rm_tracker o) as [c0|tr] eqn:ET; [tauto|].
        assert (VE : forall loc m, vertex (levels o x (earliest o x)) k loc m <->
          loc = vloc lev k /\ m = (if g_rev tr then vlev lev k + INR (frames o x - 1) * hop_db g else vlev lev k)).
        { intros loc m.
          assert (SHk : forall j, (k - 1 <= j <= k + 1)%Z -> levels o x (earliest o x) j = lev j + INR (earliest o x) * hop_db g).
          { intros j Hj. destruct Hk as (? & ? & _). apply SH; [|lia]. unfold earliest. rewrite ET. cbn [rt_reverse]. destruct (g_rev tr); lia. }
          assert (PE : local_peak (levels o x (earliest o x)) (rm_n o) k).
          { destruct Hk as (K1 & K2 & A & B). repeat split; auto; rewrite !SHk by lia; lra. }
          rewrite (vertex_iff _ (rm_n o) k loc m PE), (vloc_shift _ _ _ _ SHk), (vlev_shift _ _ _ _ SHk).
          unfold earliest. rewrite ET. cbn [rt_reverse]. destruct (g_rev tr); [tauto|].
          replace (vlev lev k + INR 0 * hop_db g) with (vlev lev k) by (cbn; ring). tauto. }
        split.
        - intros HQ loc m V. apply VE in V. destruct V as [-> ->]. exact HQ.
        - intros HQ. exact (HQ _ _ (proj2 (VE _ _) (conj eq_refl eq_refl))). }
      split; intros [A B]; (split; [exact A|]); apply (EQ A); exact B.
    + assert (PK : Forall (local_peak lev (rm_n o)) ks').
      { apply Forall_forall. intros k Hk. now apply IK' in Hk. }
      clear - FM PK VX. induction FM as [|k q ks ms (a & Ep & Ha) FM IH]; [constructor|].
      inversion PK as [|? ? Pk PK']; subst. constructor; [|auto].
      exists (vloc lev k), (vlev lev k), a. split; [now apply VX|]. split; [reflexivity|exact Ha].
Qed.
Print Assumptions c91_modes.

(** ** Concrete case: four bins, one peak, halved every four samples *)

Definition ones : list R := [1; 1; 1; 1].
Lemma quad_bins : forall a b c d,
  bin_re ones [a; b; c; d] 4 0 = (a + b + c + d) / 4 /\ bin_im ones [a; b; c; d] 4 0 = 0 /\
  bin_re ones [a; b; c; d] 4 1 = (c - a) / 4 /\ bin_im ones [a; b; c; d] 4 1 = (b - d) / 4 /\
  bin_re ones [a; b; c; d] 4 2 = (a - b + c - d) / 4 /\ bin_im ones [a; b; c; d] 4 2 = 0.
Proof.
  intros a b c d. unfold bin_re, bin_im. cbn [List.length ones seq map nth].
  change (zlen ones / 2)%Z with 2%Z. cbn [Z.of_nat Z.sub Z.add Z.opp Pos.add Z.pos_sub Pos.of_succ_nat Pos.succ Pos.pred_double Z.double Z.pred_double Z.succ_double].
  assert (SO : rsum ones = 4) by (cbn; ring). rewrite SO.
  change (rsum [?u; ?v; ?w; ?z]) with (u + (v + (w + (z + 0)))).
  assert (E0 : forall z, 2 * PI * IZR 0 * z / IZR 4 = 0) by (intros; lra).
  rewrite !E0, cos_0, sin_0.
  assert (A1 : 2 * PI * IZR 1 * IZR (-2) / IZR 4 = - PI) by lra.
  assert (A2 : 2 * PI * IZR 1 * IZR (-1) / IZR 4 = - (PI / 2)) by lra.
  assert (A3 : 2 * PI * IZR 1 * IZR 0 / IZR 4 = 0) by lra.
  assert (A4 : 2 * PI * IZR 1 * IZR 1 / IZR 4 = PI / 2) by lra.
  assert (B1 : 2 * PI * IZR 2 * IZR (-2) / IZR 4 = - (2 * PI)) by lra.
  assert (B2 : 2 * PI * IZR 2 * IZR (-1) / IZR 4 = - PI) by lra.
  assert (B3 : 2 * PI * IZR 2 * IZR 0 / IZR 4 = 0) by lra.
  assert (B4 : 2 * PI * IZR 2 * IZR 1 / IZR 4 = PI) by lra.
  rewrite A1, A2, A3, A4, B1, B2, B3, B4, !cos_neg, !sin_neg, cos_0, sin_0, cos_PI, sin_PI, cos_PI2, sin_PI2, cos_2PI, sin_2PI.
  repeat split; field.
Qed.

Definition ex_x : list R := [3; 0; -1; 0; 3 / 2; 0; -1 / 2; 0; 3 / 4; 0; -1 / 4; 0].
Definition ex_cfg : rcfg := mkRCfg 4 4%positive 1 3 (1 / 2) 0.
Definition ex_plain : rmodel := mkRModel ones 4 None false (RSine ex_cfg).
Definition ex_modal : rmodel := mkRModel ones 4 (Some (-100)) false
  (RModal (mkRMCfg ex_cfg (Some (1 / 2)) (Some (3 / 2)) (-20) true "average" (Some 0))).

Lemma ex_scaled : scaled_by_hop 4 (1 / 2) ex_x.
Proof.
  intros i Hi. change (List.length ex_x) with 12%nat in Hi.
  do 8 (destruct i as [|i]; [unfold ex_x; cbn [nth Nat.add]; lra|]). lia.
Qed.
Lemma ex_magnitude : forall o, o = ex_plain \/ o = ex_modal -> forall i k, (i < 3)%nat -> (0 <= k <= 2)%Z ->
  magnitude ones (frame o ex_x i) 4 k =
  (if rt_reverse (rm_tracker o) then 2 ^ i / 4 else (1 / 2) ^ i) * (if Z.eqb k 1 then 1 else / 2).
Proof.
  intros o Ho i k Hi Hk.
  set (g := if rt_reverse (rm_tracker o) then / (1 / 2) else 1 / 2).
  assert (Hg : 0 < g) by (unfold g; destruct Ho as [-> | ->]; cbn [rm_tracker ex_plain ex_modal rt_reverse g_rev]; lra).
  assert (EF : frame o ex_x i = map (Rmult (g ^ i)) (frame o ex_x 0)).
  { unfold frame. apply frames_scaled; [apply analysed_scaled; [lra|]|unfold hop; lia|].
    - destruct Ho as [-> | ->]; exact ex_scaled.
    - destruct Ho as [-> | ->]; exact Hi. }
  rewrite EF, magnitude_scaled by (apply pow_le; lra).
  assert (SQ : forall u v w : R, 0 <= w -> u ^ 2 + v ^ 2 = w * w -> sqrt (u ^ 2 + v ^ 2) = w).
  { intros u v w Hw E. rewrite E. now apply sqrt_square. }
  assert (K : (k = 0 \/ k = 1 \/ k = 2)%Z) by lia.
  destruct Ho as [-> | ->]; unfold g; cbn [rm_tracker ex_plain ex_modal rt_reverse g_rev].
  - change (frame ex_plain ex_x 0) with [3; 0; -1; 0]. destruct (quad_bins 3 0 (-1) 0) as (Q1 & Q2 & Q3 & Q4 & Q5 & Q6).
    unfold magnitude. destruct K as [-> | [-> | ->]]; cbn [Z.eqb Pos.eqb]; rewrite ?Q1, ?Q2, ?Q3, ?Q4, ?Q5, ?Q6.
    + rewrite (SQ _ _ (/ 2)) by lra. reflexivity.
    + rewrite (SQ _ _ 1) by lra. reflexivity.
    + rewrite (SQ _ _ (/ 2)) by lra. reflexivity.
  - change (frame ex_modal ex_x 0) with [0; -1 / 4; 0; 3 / 4].
    destruct (quad_bins 0 (-1 / 4) 0 (3 / 4)) as (Q1 & Q2 & Q3 & Q4 & Q5 & Q6).
    replace (/ (1 / 2)) with 2 by field.
    unfold magnitude. destruct K as [-> | [-> | ->]]; cbn [Z.eqb Pos.eqb]; rewrite ?Q1, ?Q2, ?Q3, ?Q4, ?Q5, ?Q6.
    + rewrite (SQ _ _ (/ 8)) by lra. field.
    + rewrite (SQ _ _ (/ 4)) by lra. field.
    + rewrite (SQ _ _ (/ 8)) by lra. field.
Qed.
Lemma ex_well_posed : forall o, o = ex_plain \/ o = ex_modal -> well_posed o ex_x.
Proof.
  intros o Ho.
  assert (FE : float_eps <= / 16).
  { unfold float_eps. apply Rinv_le_contravar; [lra|]. replace 16 with (2 ^ 4) by ring. apply Rle_pow; [lra|lia]. }
  assert (M : forall i k, (i < 3)%nat -> (0 <= k <= 2)%Z -> float_eps <= magnitude ones (frame o ex_x i) 4 k).
  { intros i k Hi Hk. rewrite ex_magnitude by auto.
    assert (/ 8 <= (if rt_reverse (rm_tracker o) then 2 ^ i / 4 else (1 / 2) ^ i) * / 2).
    { destruct Ho as [-> | ->]; cbn [rm_tracker ex_plain ex_modal rt_reverse g_rev];
        destruct i as [|[|[|i]]]; try lia; cbn [pow]; lra. }
    destruct (Z.eqb k 1); lra. }
  destruct Ho as [-> | ->]; (split; [reflexivity|]; split; [vm_compute; split; discriminate|]; split; [cbn; lia|]; split; [cbn; lra|exact M]).
Qed.
Lemma ex_level : forall o, o = ex_plain \/ o = ex_modal -> forall i, (i < 3)%nat ->
  levels o ex_x i 0%Z = levels o ex_x i 2%Z /\ levels o ex_x i 0%Z < levels o ex_x i 1%Z /\
  levels o ex_x i 1%Z = 20 * (ln (if rt_reverse (rm_tracker o) then 2 ^ i / 4 else (1 / 2) ^ i) / ln 10).
Proof.
  intros o Ho i Hi. assert (L10 := ln10_pos).
  assert (E : forall k, (0 <= k <= 2)%Z -> levels o ex_x i k = 20 * (ln (
     (if rt_reverse (rm_tracker o) then 2 ^ i / 4 else (1 / 2) ^ i) * (if Z.eqb k 1 then 1 else / 2)) / ln 10)).
  { intros k Hk. unfold levels, level. rewrite <- (ex_magnitude o Ho i k Hi Hk). destruct Ho as [-> | ->]; reflexivity. }
  assert (P : 0 < (if rt_reverse (rm_tracker o) then 2 ^ i / 4 else (1 / 2) ^ i)).
  { destruct (rt_reverse _); [apply Rdiv_lt_0_compat; [apply pow_lt|]|apply pow_lt]; lra. }
  rewrite !E by lia. cbn [Z.eqb Pos.eqb]. rewrite Rmult_1_r. split; [reflexivity|]. split; [|reflexivity].
  apply Rmult_lt_compat_l; [lra|]. apply Rmult_lt_compat_r; [apply Rinv_0_lt_compat; lra|]. apply ln_increasing; lra.
Qed.
Lemma ex_peaks : forall o, o = ex_plain \/ o = ex_modal -> forall i k, (i < 3)%nat ->
  (local_peak (levels o ex_x i) 4 k <-> k = 1%Z) /\
  forall loc m, vertex (levels o ex_x i) 1 loc m -> loc = 1 /\ m = levels o ex_x i 1%Z.
Proof.
  intros o Ho i k Hi. destruct (ex_level o Ho i Hi) as (E & L & _).
  assert (P1 : local_peak (levels o ex_x i) 4 1).
  { repeat split; try (vm_compute; discriminate); cbn [Z.sub Z.add Z.opp Z.pos_sub Pos.add]; [exact L|]. rewrite <- E. exact L. }
  split.
  - split; [|intros ->; exact P1]. intros (A & B & _). change (4 / 2)%Z with 2%Z in B. lia.
  - intros loc m V. apply (vertex_iff _ 4) in V; [|exact P1]. destruct V as [-> ->]. unfold vloc, vlev.
    change (1 - 1)%Z with 0%Z. change (1 + 1)%Z with 2%Z. rewrite E. split; field; rewrite <- E; lra.
Qed.

(** Both trackers: one mode of 1 Hz, decay 2 / ln 2 and amplitude 2 * sqrt 2. *)
Lemma ex_run : forall o, o = ex_plain \/ o = ex_modal ->
  forall linreg optimise freq_reduce phase argsort,
  fits_lines linreg -> minimises optimise -> reduces freq_reduce -> sorts argsort ->
  sample_fit linreg optimise freq_reduce phase argsort o ex_x = Ok [[Fin 1]; [Fin (2 / ln 2)]; [Fin (2 * sqrt 2)]].
Proof.
  intros o Ho linreg optimise freq_reduce phase argsort HL HO HR HA.
  assert (L2 : 0 < ln 2) by (rewrite <- ln_1; apply ln_increasing; lra). assert (L10 := ln10_pos).
  assert (N : rm_n o = 4%Z) by (destruct Ho as [-> | ->]; reflexivity).
  assert (RT : rate o = 4) by (destruct Ho as [-> | ->]; reflexivity).
  assert (HP : hop o = 4%nat) by (destruct Ho as [-> | ->]; reflexivity).
  assert (FR : frames o ex_x = 3%nat) by (destruct Ho as [-> | ->]; reflexivity).
  assert (CF : rt_cfg (rm_tracker o) = ex_cfg) by (destruct Ho as [-> | ->]; reflexivity).
  assert (RS : resolved o ex_x).
  { apply c90_tolerance; rewrite ?N, ?RT, ?CF; cbn [g_slope g_off ex_cfg]; lra || lia. }
  assert (ML : (rmin_sine_len ex_cfg <= 3)%Z).
  { unfold rmin_sine_len, rframe_rate. cbn [g_dur g_fs g_h ex_cfg].
    assert (Rceil (3 * (4 / 4)) = 3)%Z.
    { pose proof (Rceil_spec (3 * (4 / 4))) as [A B]. replace (3 * (4 / 4)) with 3 in * by field.
      assert (2 < Rceil 3)%Z by (apply lt_IZR; lra). assert (Rceil 3 < 4)%Z by (apply lt_IZR; lra). lia. }
    lia. }
  destruct (c91_modes linreg optimise freq_reduce phase argsort o ex_x (1 / 2) [1%Z] HL HO HR HA (ex_well_posed o Ho) RS)
    as (ks' & ms & E & SK & IK & FM).
  - lra.
  - rewrite HP. exact ex_scaled.
  - repeat constructor.
  - intros k. rewrite N. cbn [In]. rewrite (proj1 (ex_peaks o Ho 0%nat k ltac:(lia))). split; [intros [<-|[]]; reflexivity|auto].
  - intros i k t Hi [<-|[]] Ht. rewrite FR in Hi. destruct Ho as [-> | ->]; [discriminate Ht|]. injection Ht as <-.
    destruct (ex_level ex_modal (or_intror eq_refl) i Hi) as (_ & _ & ->). cbn [rm_tracker ex_modal rt_reverse g_rev].
    assert (Q : ln (/ 10) < ln (2 ^ i / 4)).
    { apply ln_increasing; [lra|]. destruct i as [|[|[|i]]]; try lia; cbn [pow]; lra. }
    rewrite ln_Rinv in Q by lra.
    assert (- 1 < ln (2 ^ i / 4) / ln 10); [|lra].
    apply (Rmult_lt_reg_r (ln 10)); [lra|]. unfold Rdiv at 1. rewrite Rmult_assoc, Rinv_l by lra. lra.
  - intros k loc m _ _. rewrite CF. unfold rdf. cbn [g_off g_slope ex_cfg]. lra.
  - rewrite CF. cbn. lia.
  - rewrite CF, FR. exact ML.
  - rewrite FR. lia.
  - intros tr st HT Hs. destruct Ho as [-> | ->]; [discriminate HT|]. injection HT as <-. injection Hs as <-. lra.
  - assert (AD : admitted o ex_x 1).
    { unfold admitted. destruct Ho as [-> | ->]; [exact I|]. cbn [rm_tracker ex_modal g_fmin g_fmax g_thr].
      intros loc m V. change (earliest ex_modal ex_x) with 2%nat in V.
      destruct (proj2 (ex_peaks ex_modal (or_intror eq_refl) 2%nat 1%Z ltac:(lia)) loc m V) as [-> ->].
      destruct (ex_level ex_modal (or_intror eq_refl) 2%nat ltac:(lia)) as (_ & _ & ->).
      cbn [rm_tracker ex_modal rt_reverse g_rev]. replace (2 ^ 2 / 4) with 1 by field. rewrite ln_1.
      unfold bin_freq, rate. cbn [rm_tracker ex_modal rt_cfg g_base g_fs ex_cfg rm_n].
      repeat split; lra. }
    assert (EK : ks' = [1%Z]).
    { apply sorted_same; auto; [repeat constructor|]. intros k. rewrite IK. cbn [In]. split; [tauto|].
      intros [<-|[]]. auto. }
    subst ks'. inversion FM as [|? p ? ms' (loc & m & a & V & -> & Ha) FM']; subst. inversion FM'; subst.
    destruct (proj2 (ex_peaks o Ho 0%nat 1%Z ltac:(lia)) loc m V) as [-> ->].
    rewrite E. unfold matrix_of. cbn [map fst snd].
    assert (LH : ln (1 / 2) = - ln 2) by (replace (1 / 2) with (/ 2) by field; apply ln_Rinv; lra).
    rewrite HP, RT, LH in Ha |- *.
    assert (ED : -2 * INR 4 / (4 * - ln 2) = 2 / ln 2) by (cbn [INR]; field; lra).
    rewrite ED in Ha |- *.
    assert (EB : bin_freq o 1 = 1) by (unfold bin_freq; rewrite RT, N; field).
    rewrite EB. do 3 f_equal. do 3 f_equal.
    destruct (ex_level o Ho 0%nat ltac:(lia)) as (_ & _ & EL). rewrite EL in Ha.
    assert (S2 : sqrt 2 = exp (ln 2 / 2)).
    { rewrite <- Rpower_sqrt by lra. unfold Rpower. f_equal. field. }
    rewrite S2.
    assert (RP : forall u, 0 < u -> Rpower 10 (20 * (ln u / ln 10) / 20) = u).
    { intros u Hu. unfold Rpower. replace (20 * (ln u / ln 10) / 20 * ln 10) with (ln u) by (field; lra). now apply exp_ln. }
    destruct Ho as [-> | ->]; cbn [rm_tracker ex_plain ex_modal rt_reverse g_rev pow] in Ha; rewrite RP in Ha by lra.
    + change (first_time ex_plain ex_x) with (INR 4 / (2 * 4)) in Ha.
      replace (-2 * (INR 4 / (2 * 4)) / (2 / ln 2)) with (- (ln 2 / 2)) in Ha by (cbn [INR]; field; lra).
      rewrite exp_Ropp in Ha. pose proof (exp_pos (ln 2 / 2)).
      apply (Rmult_eq_reg_r (/ exp (ln 2 / 2))); [|apply Rinv_neq_0_compat; lra].
      rewrite Ha. field. lra.
    + change (first_time ex_modal ex_x) with (INR 12 / 4 - INR 4 / (2 * 4)) in Ha.
      replace (-2 * (INR 12 / 4 - INR 4 / (2 * 4)) / (2 / ln 2)) with (- (ln 2 + ln 2 + ln 2 / 2)) in Ha by (cbn [INR]; field; lra).
      rewrite exp_Ropp, !exp_plus, exp_ln in Ha by lra. pose proof (exp_pos (ln 2 / 2)).
      apply (Rmult_eq_reg_r (/ (2 * 2 * exp (ln 2 / 2)))); [|apply Rinv_neq_0_compat; nra].
      rewrite Ha. field. lra.
Qed.
Example c91_example : forall linreg optimise freq_reduce phase argsort,
  fits_lines linreg -> minimises optimise -> reduces freq_reduce -> sorts argsort ->
  sample_fit linreg optimise freq_reduce phase argsort ex_plain ex_x = Ok [[Fin 1]; [Fin (2 / ln 2)]; [Fin (2 * sqrt 2)]] /\
  sample_fit linreg optimise freq_reduce phase argsort ex_modal ex_x = Ok [[Fin 1]; [Fin (2 / ln 2)]; [Fin (2 * sqrt 2)]].
Proof. intros. split; apply ex_run; auto. Qed.
