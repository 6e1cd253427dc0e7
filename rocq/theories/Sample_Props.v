(** Properties of sample/sample.py: C18 to C24. *)
From Coquelicot Require Import Coquelicot.
From Coq Require Import String List Bool ZArith Reals Permutation Sorted Lra Lia.
Import ListNotations.
From Verif Require Import Base Py PyLemmas RLists Sample_Model Sample_Spec Sample_Proofs
  Sample_Energy.
Local Open Scope R_scope.
Local Open Scope string_scope.

(** ** C18 *)

(** The regressor gets the values of exactly the frames in which the track has
    a value, in order; entry [j] of times, frequencies and magnitudes belongs
    to the same frame; magnitudes are raised by 20*log10(2) dB. *)
Theorem c18_alignment : forall c nx t, aligned t ->
  exists idx fs ms,
    preprocess_track c nx t =
      (map (fun i => frame_time c nx (r_start t + Z.of_nat i)) idx,
       map Some fs, map Some ms) /\
    StronglySorted lt idx /\
    (forall i, In i idx <-> exists v, has_value (r_mag t) i v) /\
    Forall2 (fun i f => has_value (r_freq t) i f) idx fs /\
    Forall2 (fun i m => has_value (r_mag t) i (m - 20 * (ln 2 / ln 10))) idx ms.
Proof. exact preprocess_ok. Qed.
Print Assumptions c18_alignment.

(** Times are strictly increasing, strictly decreasing in reverse mode. *)
Theorem c18_monotone : forall c nx t ts fs ms, aligned t -> 0 < a_fs c -> 0 < a_h c ->
  preprocess_track c nx t = (ts, fs, ms) ->
  StronglySorted (fun u v => if a_rev c then v < u else u < v) ts.
Proof.
  intros c nx t ts fs ms Al Hf Hh E.
  destruct (preprocess_ok c nx t Al) as (idx & fs' & ms' & E' & S & _).
  rewrite E in E'. inversion E'; subst. clear E E'. induction S; simpl; constructor; auto.
  apply Forall_map. eapply Forall_impl; [|exact H]. intros j Hj.
  destruct (frame_time_monotone c nx (r_start t + Z.of_nat a) (r_start t + Z.of_nat j) Hf Hh)
    as [A B]; [lia|]. destruct (a_rev c); auto.
Qed.
Print Assumptions c18_monotone.

(** Entries [n] frames apart are [n*h/fs] seconds apart. *)
Theorem c18_spacing : forall c nx t, aligned t ->
  exists idx,
    (forall i, In i idx <-> exists v, has_value (r_mag t) i v) /\
    StronglySorted lt idx /\
    forall ts fs ms, preprocess_track c nx t = (ts, fs, ms) ->
      List.length ts = List.length idx /\
      forall j j', (j < List.length idx)%nat -> (j' < List.length idx)%nat ->
        nth j' ts 0 - nth j ts 0 =
        (if a_rev c then -1 else 1) * (INR (nth j' idx 0%nat) - INR (nth j idx 0%nat))
        * (a_h c / a_fs c).
Proof.
  intros c nx t Al.
  destruct (preprocess_ok c nx t Al) as (idx & fs' & ms' & E' & S & I & _).
  exists idx. split; [exact I|]. split; [exact S|]. intros ts fs ms E.
  rewrite E in E'. inversion E'; subst. split; [apply map_length|].
  intros j j' Hj Hj'. rewrite !(nth_map_lt _ _ _ 0%nat) by auto.
  unfold frame_time. rewrite !plus_IZR, <- !INR_IZR_INZ. unfold Rdiv.
  destruct (a_rev c), (a_padded c); ring.
Qed.
Print Assumptions c18_spacing.

(** Exact error of the time axis.  The zero-phase spectrum of frame [g] refers
    to sample [g*h + w//2] of the analysed signal ([g*h - w%2] when padded, see
    C14); in reverse mode sample [s] of the analysed signal is sample
    [nx-1-s] of the recording.  The assigned time is late by: nothing for
    forward analysis with even windows; half a sample (one sample if padded) for
    odd windows; one sample in reverse mode with even windows. *)
Theorem c18_time_offset : forall fs nx (h w : Z) (padded reverse : bool) t ts fq ms,
  fs <> 0 -> aligned t ->
  preprocess_track (mkACfg fs (IZR h) (IZR w) padded reverse) nx t = (ts, fq, ms) ->
  let centre g := (if padded then g * h - w mod 2 else g * h + w / 2)%Z in
  let true_time g := (if reverse then nx - 1 - IZR (centre g) else IZR (centre g)) / fs in
  let late := match padded, reverse with
              | false, false => IZR (w mod 2) / 2
              | true, false => IZR (w mod 2)
              | false, true => 1 - IZR (w mod 2) / 2
              | true, true => 1 - IZR (w mod 2)
              end in
  exists idx, StronglySorted lt idx /\
    (forall i, In i idx <-> exists v, has_value (r_mag t) i v) /\
    ts = map (fun i => true_time (r_start t + Z.of_nat i)%Z + late / fs) idx.
Proof.
  intros fs nx h w padded reverse t ts fq ms Hf Al E centre true_time late.
  destruct (preprocess_ok (mkACfg fs (IZR h) (IZR w) padded reverse) nx t Al) as (idx & fs' & ms' & E' & S & I & _).
  rewrite E in E'. inversion E'; subst. exists idx. split; [exact S|]. split; [exact I|].
  apply map_ext. intro i.
  pose proof (time_offset fs nx h w (r_start t + Z.of_nat i) padded reverse Hf) as T.
  cbv zeta in T. fold late in T. unfold true_time, centre. lra.
Qed.
Print Assumptions c18_time_offset.

(** In reverse mode the time axis is not that of the recording: with the
    defaults of a 1024-sample window, every frame is one sample late. *)
Theorem c18_reverse_time_refuted : exists fs nx (h w : Z) t ts fq ms,
  aligned t /\ fs <> 0 /\
  preprocess_track (mkACfg fs (IZR h) (IZR w) false true) nx t = (ts, fq, ms) /\
  nth 0 ts 0 <> (nx - 1 - IZR (r_start t * h + w / 2)) / fs.
Proof.
  exists 44100, 44100, 512%Z, 1024%Z,
    (mkRTrack 3 [Some 100; Some 100] [Some 0; Some 0] [Some 0; Some 0]).
  do 3 eexists. split; [|split; [lra|split; [reflexivity|]]].
  - split; [simpl; lia|]. split; [reflexivity|].
    intros [|[|i]]; unfold has_value; simpl; split; intros (v & H);
      try discriminate; eauto; destruct i; discriminate.
  - simpl. lra.
Qed.
Print Assumptions c18_reverse_time_refuted.

Definition ex_track : rtrack :=
  mkRTrack 2 [Some 100; None; Some 101] [Some (-20); None; Some (-23)]
           [Some 0; None; Some 0].
Example c18_example : aligned ex_track /\
  preprocess_track (mkACfg 1000 100 200 false false) 5000 ex_track =
  ([2 * 100 / 1000 + 200 / 2000; 4 * 100 / 1000 + 200 / 2000],
   [Some 100; Some 101],
   [Some (-20 + 20 * (ln 2 / ln 10)); Some (-23 + 20 * (ln 2 / ln 10))]).
Proof.
  split.
  - split; [simpl; lia|]. split; [reflexivity|].
    intros [|[|[|i]]]; unfold has_value; simpl; split; intros (v & H);
      try discriminate; eauto; destruct i; discriminate.
  - unfold preprocess_track, mask, ex_track. simpl.
    apply f_equal2; [apply f_equal2|]; [|reflexivity|reflexivity].
    apply f_equal2; [field|]. apply f_equal2; [field|reflexivity].
Qed.

(** ** C19 *)

(** The dB envelope of a decaying partial is a line, and whatever line agrees
    with it gives back exactly its decay and amplitude. *)
Theorem c19_recovery : forall a d, 0 < a -> 0 < d ->
  exists k q,
    (forall t, 20 * (ln (a * exp (-2 * t / d)) / ln 10) = k * t + q) /\
    forall k' q',
      (forall t, 20 * (ln (a * exp (-2 * t / d)) / ln 10) = k' * t + q') ->
      track_decay k' = d /\ track_amp q' = a.
Proof.
  intros a d Ha Hd.
  assert (E : forall t, 20 * (ln (a * exp (-2 * t / d)) / ln 10) = a2db (envelope a d t)).
  { intro t. unfold a2db, log10, envelope. rewrite (Rmult_comm a).
    replace (-2 * t / d) with (t * (-2 / d)) by (field; lra). reflexivity. }
  destruct (recovery a d Ha ltac:(lra)) as (k & q & H & _ & _).
  exists k, q. split.
  - intro t. now rewrite E.
  - intros k' q' H'. apply recovery_unique; auto; [lra|]. intro t. now rewrite <- E.
Qed.
Print Assumptions c19_recovery.

(** Every non-constant line is played back: the resynthesised envelope in dB is
    the line, and decreasing lines have a positive decay. *)
Theorem c19_resynthesis : forall k q, k < 0 ->
  0 < track_decay k /\
  forall t, 20 * (ln (track_amp q * exp (-2 * t / track_decay k)) / ln 10) = k * t + q.
Proof.
  intros k q Hk. split; [now apply decay_positive|]. intro t.
  destruct (resynthesis k q t ltac:(lra)) as [_ H]. rewrite <- H.
  unfold a2db, log10, envelope. rewrite (Rmult_comm (track_amp q)).
  pose proof (decay_positive k Hk).
  replace (-2 * t / track_decay k) with (t * (-2 / track_decay k)) by (field; lra).
  reflexivity.
Qed.
Print Assumptions c19_resynthesis.

(** The constant added to the magnitudes doubles the amplitude: the spectrum of
    a real cosine of amplitude [a] has a peak of [a/2]. *)
Theorem c19_doubling : forall k q d a, 0 < a ->
  (k = 0 -> False) ->
  (forall t, 20 * (ln (a / 2 * exp (-2 * t / d)) / ln 10) + double_db = k * t + q) ->
  d <> 0 -> track_decay k = d /\ track_amp q = a.
Proof.
  intros k q d a Ha Hk H Hd. apply recovery_unique; auto. intro t. rewrite <- H.
  pose proof ln10_pos.
  replace (a / 2 * exp (-2 * t / d)) with (envelope a d t / 2).
  - change (20 * (ln (envelope a d t / 2) / ln 10)) with (a2db (envelope a d t / 2)).
    assert (P : 0 < envelope a d t) by (apply Rmult_lt_0_compat; [apply exp_pos|auto]).
    rewrite double_amp by lra. f_equal. lra.
  - unfold envelope. replace (t * (-2 / d)) with (-2 * t / d) by (field; auto). field.
Qed.
Print Assumptions c19_doubling.

Example c19_example : exists k q, k < 0 /\
  (forall t, 20 * (ln (1 / 2 * exp (-2 * t / (1 / 4))) / ln 10) = k * t + q) /\
  track_decay k = 1 / 4 /\ track_amp q = 1 / 2.
Proof.
  destruct (c19_recovery (1 / 2) (1 / 4) ltac:(lra) ltac:(lra)) as (k & q & H & U).
  destruct (U k q H) as [D A]. exists k, q. repeat split; auto.
  pose proof (H 1) as H1. pose proof (H 0) as H0.
  rewrite !ln_mult, !ln_exp in H1, H0 by (try apply exp_pos; lra).
  pose proof ln10_pos.
  assert (20 * ((ln (1 / 2) + -2 * 1 / (1 / 4)) / ln 10) - 20 * ((ln (1 / 2) + -2 * 0 / (1 / 4)) / ln 10) = -160 / ln 10).
  { field. lra. }
  assert (K : k = -160 / ln 10) by lra. rewrite K.
  apply Ropp_lt_cancel. rewrite Ropp_0. replace (- (-160 / ln 10)) with (160 / ln 10) by (field; lra).
  apply Rdiv_lt_0_compat; lra.
Qed.

(** ** C20 *)

(** [modal_energy a d] is the integral over all [t >= 0] of the squared
    envelope; up to time [T] the part [1 - exp(-4T/d)] of it is reached. *)
Theorem c20_energy : forall a d, 0 < d ->
  is_lim (fun T => RInt (fun t => (a * exp (-2 * t / d)) ^ 2) 0 T) p_infty
         (modal_energy a d).
Proof. exact energy_total. Qed.
Print Assumptions c20_energy.

Theorem c20_energy_until : forall a d T, 0 < d ->
  is_RInt (fun t => (a * exp (-2 * t / d)) ^ 2) 0 T
          (modal_energy a d * (1 - exp (-4 * T / d))).
Proof. exact energy_until. Qed.
Print Assumptions c20_energy_until.

Theorem c20_order : forall a d a' d', 0 < d -> 0 <= a -> a <= a' -> d <= d' ->
  0 <= modal_energy a d <= modal_energy a' d'.
Proof. intros. split; [now apply energy_nonneg|now apply energy_order]. Qed.
Print Assumptions c20_order.

Example c20_example : modal_energy 3 (1 / 2) = 9 / 8.
Proof. unfold modal_energy. field. Qed.

(** ** C21 *)

(** The columns of the matrix are, in track order, exactly the entirely finite
    parameter tuples; there are always three rows. *)
Theorem c21_columns : forall results,
  exists good : list (R * R * R),
    (** the rows, read together, are [good] *)
    param_matrix results =
      [map (fun p => Fin (fst (fst p))) good; map (fun p => Fin (snd (fst p))) good;
       map (fun p => Fin (snd p)) good] /\
    (** [good] is what remains when the tuples that are not finite are
        dropped *)
    exists keep : fl * fl * fl -> bool,
      (forall p, keep p = true <-> all_finite p) /\
      map (fun p => (Fin (fst (fst p)), Fin (snd (fst p)), Fin (snd p))) good =
      filter keep (concat results).
Proof.
  intros results. rewrite matrix_ok. generalize (concat results). intros ps.
  assert (G : exists good : list (R * R * R),
    map (fun p => (Fin (fst (fst p)), Fin (snd (fst p)), Fin (snd p))) good = filter finite3 ps).
  { induction ps as [|p ps (good & IH)]; [exists []; reflexivity|].
    simpl. destruct (finite3 p) eqn:F; [|eauto].
    apply finite3_iff in F. destruct F as (f & d & a & ->).
    exists ((f, d, a) :: good). simpl. now rewrite IH. }
  destruct G as (good & G). exists good. split.
  - rewrite <- G. unfold transpose3. now rewrite !map_map.
  - exists finite3. split; [exact finite3_iff|exact G].
Qed.
Print Assumptions c21_columns.

Theorem c21_no_tracks : forall results, Forall (fun r => r = []) results ->
  param_matrix results = [[]; []; []].
Proof.
  intros results H. rewrite matrix_ok.
  assert (E : concat results = []).
  { induction H; auto. subst. auto. }
  now rewrite E.
Qed.
Print Assumptions c21_no_tracks.

Example c21_example :
  param_matrix [[(Fin 100, Fin 1, Fin 2)]; [(Fin 200, PInf, Fin 2)]; [];
                [(Fin 300, Fin 3, Fin 4); (Fin 301, Fin 3, NaN)]] =
  [[Fin 100; Fin 300]; [Fin 1; Fin 3]; [Fin 2; Fin 4]].
Proof. reflexivity. Qed.

(** ** C22 *)

Theorem c22_argsort : forall argsort m order reverse, is_argsort argsort ->
  same_size m -> known_order order ->
  exists ord, mode_argsort argsort m order reverse = Ok ord /\
    Permutation ord (seq 0 (List.length (m_freqs m))) /\
    StronglySorted (fun i j => if reverse : bool
                               then feature_of m order j <= feature_of m order i
                               else feature_of m order i <= feature_of m order j) ord.
Proof. exact argsort_modes. Qed.
Print Assumptions c22_argsort.

(** [predict] plays [min k N] different modes, and none of the modes that are
    left out has a larger feature than one that is played. *)
Theorem c22_predict_strongest : forall argsort osc draw mx m x k order ps,
  is_argsort argsort -> same_size m -> known_order order ->
  List.length ps = List.length (m_freqs m) -> (0 <= k)%Z ->
  exists idx,
    predict argsort osc draw mx m x (Some k) order true (Some (PArr ps)) =
      Ok (map (superposition osc (pick idx (m_freqs m)) (pick idx (m_decays m))
                             (pick idx (m_amps m)) (pick idx ps)) x) /\
    NoDup idx /\
    (forall i, In i idx -> (i < List.length (m_freqs m))%nat) /\
    Z.of_nat (List.length idx) = Z.min k (Z.of_nat (List.length (m_freqs m))) /\
    (forall i j, In i idx -> (j < List.length (m_freqs m))%nat -> ~ In j idx ->
       feature_of m order j <= feature_of m order i).
Proof.
  intros argsort osc draw mx m x k order ps HA HS HK Lp Hk.
  destruct (predict_top argsort osc draw mx m x (Some k) order true (Some (PArr ps)) HA HS HK)
    as (idx & _ & E & ND & IN & L & T).
  exists idx. repeat split; auto.
  rewrite L. unfold n_played, slice_bound, zlen. destruct (Z.ltb_spec k 0); lia.
Qed.
Print Assumptions c22_predict_strongest.

(** A negative [n_modes = -k] leaves out the [k] weakest modes (python
    slicing); [max_n_modes] is used when [n_modes] is not given. *)
Theorem c22_predict_count : forall argsort osc draw mx m x nm order reverse,
  is_argsort argsort -> same_size m -> known_order order ->
  let n := Z.of_nat (List.length (m_freqs m)) in
  let k := match nm, mx with Some k, _ => k | None, Some k => k | None, None => n end in
  exists idx,
    predict argsort osc draw mx m x nm order reverse None =
      Ok (map (superposition osc (pick idx (m_freqs m)) (pick idx (m_decays m))
                             (pick idx (m_amps m)) (map (fun _ => 0) idx)) x) /\
    NoDup idx /\
    (forall i, In i idx -> (i < List.length (m_freqs m))%nat) /\
    Z.of_nat (List.length idx) = (if (k <? 0)%Z then Z.max 0 (n + k) else Z.min k n) /\
    (forall i j, In i idx -> (j < List.length (m_freqs m))%nat -> ~ In j idx ->
       if reverse : bool then feature_of m order j <= feature_of m order i
       else feature_of m order i <= feature_of m order j).
Proof.
  intros argsort osc draw mx m x nm order reverse HA HS HK n k.
  destruct (predict_top argsort osc draw mx m x nm order reverse None HA HS HK)
    as (idx & E & _ & ND & IN & L & T).
  exists idx. repeat split; auto.
  - rewrite (E _ eq_refl eq_refl). f_equal. f_equal. f_equal. unfold pick.
    apply map_ext_in. intros i Hi. now rewrite (nth_map_lt _ _ _ 0) by auto.
  - rewrite L. unfold n_played, slice_bound, k, n, zlen.
    destruct nm, mx; match goal with |- context [(?a <? 0)%Z] => destruct (Z.ltb_spec a 0) end; lia.
Qed.
Print Assumptions c22_predict_count.

(** When all modes are played, order, direction and sorting algorithm do not
    matter: the result is the superposition of all modes. *)
Theorem c22_all_modes : forall argsort osc draw mx m x k order reverse ps,
  is_argsort argsort -> same_size m -> known_order order ->
  List.length ps = List.length (m_freqs m) ->
  (Z.of_nat (List.length (m_freqs m)) <= k)%Z ->
  predict argsort osc draw mx m x (Some k) order reverse (Some (PArr ps)) =
  Ok (map (superposition osc (m_freqs m) (m_decays m) (m_amps m) ps) x).
Proof.
  intros. apply predict_all; auto. unfold n_played, slice_bound, zlen.
  destruct (Z.ltb_spec k 0); lia.
Qed.
Print Assumptions c22_all_modes.

(** [phases=None], though accepted by [additive_synth], is not accepted by
    [predict]. *)
Theorem c22_predict_none_refuted : exists argsort osc draw m x,
  is_argsort argsort /\ same_size m /\
  additive_synth osc draw x (m_freqs m) (m_decays m) (m_amps m) PNone <> Err TypeError /\
  predict argsort osc draw None m x None "energies" true (Some PNone) = Err TypeError.
Proof.
  destruct exists_argsort as (argsort & HA).
  exists argsort, cos, (fun n => repeat 0 n), (mkModes [100] [1] [1]), [0; 1].
  split; [exact HA|]. split; [split; reflexivity|]. split; [discriminate|].
  reflexivity.
Qed.
Print Assumptions c22_predict_none_refuted.

Definition ex_modes : modes := mkModes [100; 200; 300] [1; 1; 2] [3; 1; 2].
Example c22_example : same_size ex_modes /\ known_order "energies" /\
  feature_of ex_modes "energies" 1 < feature_of ex_modes "energies" 2
    < feature_of ex_modes "energies" 0 /\
  exists argsort, is_argsort argsort /\
    forall x, exists idx,
      predict argsort cos (fun n => repeat 0 n) None ex_modes x (Some 1%Z) "energies" true None =
        Ok (map (superposition cos (pick idx [100; 200; 300]) (pick idx [1; 1; 2])
                               (pick idx [3; 1; 2]) (map (fun _ => 0) idx)) x) /\ idx = [0%nat].
Proof.
  assert (F : feature_of ex_modes "energies" 1 < feature_of ex_modes "energies" 2
    < feature_of ex_modes "energies" 0).
  { unfold feature_of, ex_modes. simpl. lra. }
  split; [split; reflexivity|]. split; [now left|]. split; [exact F|].
  destruct exists_argsort as (argsort & HA). exists argsort. split; [exact HA|]. intro x.
  destruct (c22_predict_count argsort cos (fun n => repeat 0 n) None ex_modes x (Some 1%Z)
              "energies" true HA (conj eq_refl eq_refl) (or_introl eq_refl))
    as (idx & E & ND & IN & L & T).
  exists idx. split; [exact E|].
  change (Z.of_nat (List.length idx) = 1%Z) in L.
  destruct idx as [|i [|j idx]]; try discriminate; [|simpl in L; lia].
  assert (i < 3)%nat by (apply IN; simpl; auto).
  destruct (Nat.eq_dec i 0) as [->|N]; [reflexivity|].
  assert (Q : feature_of ex_modes "energies" 0 <= feature_of ex_modes "energies" i).
  { apply (T i 0%nat); [now left|simpl; lia|]. intros [H'|[]]. congruence. }
  destruct i as [|[|[|i]]]; try lia; lra.
Qed.

(** ** C23 *)

(** The output at time [t] is the sum over the modes of
    [a*exp(-2t/d)*osc(2*pi*f*t+phi)]; [osc] is the cosine, or for analytic
    output cosine and sine (real and imaginary part). *)
Theorem c23_superposition : forall osc draw x fs ds as_ ps,
  List.length ds = List.length fs -> List.length as_ = List.length fs ->
  List.length ps = List.length fs ->
  additive_synth osc draw x fs ds as_ (PArr ps) =
  Ok (map (superposition osc fs ds as_ ps) x).
Proof. exact synth_ok. Qed.
Print Assumptions c23_superposition.

(** Default phases are zero, "random" phases are those drawn, any other string
    is a ValueError. *)
Theorem c23_phases : forall osc draw x fs ds as_ s,
  List.length ds = List.length fs -> List.length as_ = List.length fs ->
  List.length (draw (List.length fs)) = List.length fs ->
  additive_synth osc draw x fs ds as_ PNone =
    Ok (map (superposition osc fs ds as_ (repeat 0 (List.length fs))) x) /\
  additive_synth osc draw x fs ds as_ (PStr "random") =
    Ok (map (superposition osc fs ds as_ (draw (List.length fs))) x) /\
  (s <> "random" -> additive_synth osc draw x fs ds as_ (PStr s) = Err ValueError).
Proof.
  intros osc draw x fs ds as_ s L1 L2 L3. split; [|split].
  - rewrite synth_none.
    assert (E : map (fun _ => 0) fs = repeat 0 (List.length fs)).
    { clear. induction fs; simpl; congruence. }
    rewrite E. apply synth_ok; auto. apply repeat_length.
  - rewrite synth_random. now apply synth_ok.
  - intro H. now apply synth_bad_string.
Qed.
Print Assumptions c23_phases.

Theorem c23_concatenation : forall osc draw x fs ds as_ ps fs' ds' as' ps' y y',
  additive_synth osc draw x fs ds as_ (PArr ps) = Ok y ->
  additive_synth osc draw x fs' ds' as' (PArr ps') = Ok y' ->
  additive_synth osc draw x (fs ++ fs') (ds ++ ds') (as_ ++ as') (PArr (ps ++ ps')) =
  Ok (map (fun p => fst p + snd p) (combine y y')).
Proof.
  intros osc draw x fs ds as_ ps fs' ds' as' ps' y y' H H'.
  apply synth_inv in H. apply synth_inv in H'.
  destruct H as (L1 & L2 & L3 & ->), H' as (L1' & L2' & L3' & ->).
  rewrite synth_ok by (rewrite !app_length; congruence). f_equal.
  induction x as [|t x IH]; [reflexivity|]. simpl. f_equal; [|exact IH].
  now apply super_app.
Qed.
Print Assumptions c23_concatenation.

(** Reordering the modes does not change the sound. *)
Theorem c23_permutation : forall osc draw x fs ds as_ ps idx y,
  additive_synth osc draw x fs ds as_ (PArr ps) = Ok y ->
  Permutation idx (seq 0 (List.length fs)) ->
  additive_synth osc draw x (pick idx fs) (pick idx ds) (pick idx as_) (PArr (pick idx ps))
  = Ok y.
Proof.
  intros osc draw x fs ds as_ ps idx y H P. apply synth_inv in H.
  destruct H as (L1 & L2 & L3 & ->).
  rewrite synth_ok by (unfold pick; rewrite !map_length; auto). f_equal.
  apply map_ext. intro t. now apply super_perm.
Qed.
Print Assumptions c23_permutation.

Theorem c23_homogeneous : forall osc draw x fs ds as_ ps y c,
  additive_synth osc draw x fs ds as_ (PArr ps) = Ok y ->
  additive_synth osc draw x fs ds (map (Rmult c) as_) (PArr ps) = Ok (map (Rmult c) y).
Proof.
  intros osc draw x fs ds as_ ps y c H. apply synth_inv in H.
  destruct H as (L1 & L2 & L3 & ->).
  rewrite synth_ok by (rewrite ?map_length; auto). f_equal. rewrite map_map.
  apply map_ext. intro t. unfold superposition. rewrite <- rsum_map_scale.
  apply rsum_map_ext. intros i Hi. apply in_seq in Hi.
  rewrite (nth_map_lt _ _ _ 0) by lia. ring.
Qed.
Print Assumptions c23_homogeneous.

(** For [t >= 0] and positive decays the output is within the sum of the
    amplitudes. *)
Theorem c23_bound : forall draw x fs ds as_ ps y,
  additive_synth cos draw x fs ds as_ (PArr ps) = Ok y ->
  Forall (fun t => 0 <= t) x -> Forall (fun d => 0 < d) ds ->
  Forall (fun v => Rabs v <= rsum (map Rabs as_)) y.
Proof.
  intros draw x fs ds as_ ps y H HT HD. apply synth_inv in H.
  destruct H as (L1 & L2 & L3 & ->). apply Forall_map.
  eapply Forall_impl; [|exact HT]. intros t Ht. simpl.
  replace (rsum (map Rabs as_)) with
    (rsum (map (fun i => Rabs (nth i as_ 0)) (seq 0 (List.length fs)))).
  - apply super_bound; auto. apply cos_bound.
  - rewrite <- L2. transitivity (rsum (map Rabs (pick (seq 0 (List.length as_)) as_))).
    + unfold pick. now rewrite map_map.
    + now rewrite pick_seq.
Qed.
Print Assumptions c23_bound.

(** At time zero with zero phases all amplitudes add up. *)
Theorem c23_onset : forall draw fs ds as_,
  List.length ds = List.length fs -> List.length as_ = List.length fs ->
  additive_synth cos draw [0] fs ds as_ PNone = Ok [rsum as_].
Proof.
  intros draw fs ds as_ L1 L2. rewrite synth_none.
  rewrite synth_ok by (rewrite ?map_length; auto). simpl. f_equal. f_equal.
  transitivity (rsum (pick (seq 0 (List.length as_)) as_)); [|now rewrite pick_seq].
  unfold pick, superposition. rewrite L2.
  apply rsum_map_ext. intros i Hi. apply in_seq in Hi.
  rewrite (nth_map_lt _ _ _ 0) by lia.
  replace (-2 * 0 / nth i ds 0) with 0 by (unfold Rdiv; ring).
  replace (2 * PI * nth i fs 0 * 0 + 0) with 0 by ring. rewrite exp_0, cos_0. ring.
Qed.
Print Assumptions c23_onset.

Example c23_example :
  additive_synth cos (fun n => repeat 0 n) [0; 1] [1; 2] [2; 1] [3; 4] PNone =
  Ok [7; 3 * exp (-1) + 4 * exp (-2)].
Proof.
  unfold additive_synth, partial_at. simpl. f_equal.
  apply f_equal2; [|apply f_equal2; [|reflexivity]].
  - replace (0 * (-2 / 2)) with 0 by ring. replace (0 * (-2 / 1)) with 0 by ring.
    rewrite exp_0. replace (2 * PI * 0 * 1 + 0) with 0 by ring.
    replace (2 * PI * 0 * 2 + 0) with 0 by ring. rewrite cos_0. ring.
  - replace (1 * (-2 / 2)) with (-1) by field. replace (1 * (-2 / 1)) with (-2) by field.
    replace (2 * PI * 1 * 1 + 0) with (0 + 2 * INR 1 * PI) by (simpl; ring).
    replace (2 * PI * 1 * 2 + 0) with (0 + 2 * INR 2 * PI) by (simpl; ring).
    rewrite !cos_period, cos_0. ring.
Qed.

(** ** C24 *)

Theorem c24_export : forall argsort mx m order reverse, is_argsort argsort ->
  same_size m -> known_order order -> m_freqs m <> [] ->
  exists ord, Permutation ord (seq 0 (List.length (m_freqs m))) /\
    StronglySorted (fun i j => if reverse : bool
                               then feature_of m order j <= feature_of m order i
                               else feature_of m order i <= feature_of m order j) ord /\
    exists s, sdt_params argsort mx m order reverse = Ok s /\
      s_nmodes s = zlen (m_freqs m) /\
      s_active s = match mx with None => zlen (m_freqs m)
                   | Some k => Z.min k (zlen (m_freqs m)) end /\
      s_freqs s = pick ord (m_freqs m) /\
      s_decays s = pick ord (m_decays m) /\
      s_gains s = pick ord (m_amps m) /\
      List.length (s_weights s) = List.length (m_freqs m) /\
      (forall w, In w (s_weights s) -> w = 1 / IZR (zlen (m_freqs m))) /\
      rsum (s_weights s) = 1.
Proof. exact sdt_ok. Qed.
Print Assumptions c24_export.

(** Without modes there is nothing to export. *)
Theorem c24_no_modes : forall argsort mx m order reverse, is_argsort argsort ->
  same_size m -> known_order order -> m_freqs m = [] ->
  sdt_params argsort mx m order reverse = Err ZeroDivisionError.
Proof. exact sdt_empty. Qed.
Print Assumptions c24_no_modes.

Example c24_example : exists argsort, is_argsort argsort /\ exists s,
  sdt_params argsort (Some 2%Z) ex_modes "freqs" false = Ok s /\
  s_nmodes s = 3%Z /\ s_active s = 2%Z /\ rsum (s_weights s) = 1.
Proof.
  destruct exists_argsort as (argsort & HA). exists argsort. split; [exact HA|].
  destruct (c24_export argsort (Some 2%Z) ex_modes "freqs" false HA (conj eq_refl eq_refl))
    as (ord & _ & _ & s & E & N & A & _ & _ & _ & _ & _ & W).
  - right. now left.
  - discriminate.
  - exists s. repeat split; auto.
Qed.
