(** Properties of the sine tracker and of the modal tracker (C01-C10, C12,
    C57).  Vocabulary in [Tracker_Spec], code model in [Tracker_Model]. *)
From Coq Require Import String List Arith ZArith QArith Lia Bool Permutation.
Import ListNotations.
From Verif Require Import Base Tracker_Model Tracker_Spec Tracker_Proofs.

(** Evaluates the conjuncts of a closed goal one after the other. *)
Ltac by_vm :=
  match goal with
  | |- _ /\ _ => split; [vm_compute; reflexivity | by_vm]
  | _ => vm_compute; reflexivity
  end.

(** A small recording used in the examples: a partial around 100 Hz that
    pauses for one frame, a quieter one around 200 Hz, a click. *)
Definition ex_frames : list frame :=
  [ [mkPeak 100 (-10) 0; mkPeak 200 (-20) 1];
    [mkPeak 200 (-21) 1; mkPeak 101 (-12) 2];
    [mkPeak 500 (-50) 0];
    [mkPeak 101 (-15) 0];
    [mkPeak 102 (-16) 1];
    [] ]%Q.
Definition ex_hist := map with_order ex_frames.
Definition ex_cfg : cfg := mkCfg 1 1 2 1 20 (1 # 100).
Definition ex_mcfg : mcfg :=
  mkMCfg ex_cfg (Some 20%Q) (Some 16000%Q) (-90) false "average" None.

(** Every list of frames is a valid history for some order. *)
Example ex_hist_valid : valid_hist ex_hist.
Proof. exact (with_order_valid ex_frames). Qed.

(** *** C01 *)

(** After any history, with any deactivation policy (in particular with the
    sine tracker's and the modal tracker's), at most [max_n_sines] tracks are
    active. *)
Theorem c01_active_bounded : forall c deact hist st, valid_hist hist ->
  run c deact hist = Ok st ->
  (Z.of_nat (List.length (active st)) <= Z.max 0 (c_max c))%Z.
Proof. exact active_bounded. Qed.
Print Assumptions c01_active_bounded.

(** No free peak is refused a track while there is room: after a frame either
    every unmatched peak has started a track or the tracker is full. *)
Theorem c01_no_refusal : forall c deact st fr ord st', sorts_desc fr ord ->
  step c deact st (fr, ord) = Ok st' ->
  exists M news, greedy_matching c (active st) fr M /\
    active st' = surviving (active st) fr M ++ news /\
    (List.length news = List.length (free_peaks fr M) \/
     (c_max c <= Z.of_nat (List.length (active st')))%Z).
Proof. exact no_refusal. Qed.
Print Assumptions c01_no_refusal.

(** The bound is reached: two tracks are active after the first frame. *)
Example c01_example : exists st,
  run ex_cfg (sine_deact ex_cfg) (firstn 1 ex_hist) = Ok st /\
  List.length (active st) = 2%nat.
Proof. eexists. split; [vm_compute; reflexivity|reflexivity]. Qed.

(** *** C02 *)

(** Sine tracker: there is an assignment of peak numbers to all samples of all
    saved and active tracks such that every sample has the frequency,
    magnitude and phase of that peak of its frame, there are no gaps, and no
    (frame, peak) pair occurs twice. *)
Theorem c02_sine_samples_are_peaks : forall c hist st, valid_hist hist ->
  run c (sine_deact c) hist = Ok st ->
  exists labs,
    Forall2 (labels_ok hist) (saved st ++ map numpy_track (active st)) labs /\
    Forall (Forall (fun l => l <> None)) labs /\
    NoDup (flat_map used (combine (saved st ++ map numpy_track (active st)) labs)).
Proof. exact peaks_sine. Qed.
Print Assumptions c02_sine_samples_are_peaks.

(** Modal tracker: the same, where [None] labels mark exactly the NaN
    samples of merged tracks. *)
Theorem c02_modal_samples_are_peaks : forall m hist st, valid_hist hist ->
  run (m_base m) (modal_deact m) hist = Ok st ->
  exists labs,
    Forall2 (labels_ok hist) (saved st ++ map numpy_track (active st)) labs /\
    NoDup (flat_map used (combine (saved st ++ map numpy_track (active st)) labs)).
Proof. exact peaks_modal. Qed.
Print Assumptions c02_modal_samples_are_peaks.

Example c02_example : exists st,
  run ex_cfg (modal_deact ex_mcfg) ex_hist = Ok st /\
  map s_freq (saved st) =
    [ [Some 200; Some 200];
      [Some 100; Some 101; None; Some 101; Some 102] ]%Q.
Proof. eexists. split; [vm_compute; reflexivity|reflexivity]. Qed.

(** *** C03 *)

(** One frame is a loudness-prioritised nearest match within the threshold
    ([greedy_matching]); the tracks after the frame are the continued ones,
    each with its peak appended, followed by the new ones; the others are
    handed to deactivation in decreasing index order. *)
Theorem c03_greedy_matching : forall c deact st fr ord st', sorts_desc fr ord ->
  step c deact st (fr, ord) = Ok st' ->
  exists M, greedy_matching c (active st) fr M /\
    foldM deact (saved st) (rev (dying (active st) M)) = Ok (saved st') /\
    active st' = surviving (active st) fr M ++
      born c (nframe st) fr M (List.length (surviving (active st) fr M)) /\
    nframe st' = S (nframe st).
Proof. exact step_described. Qed.
Print Assumptions c03_greedy_matching.

(** The specification pins the matching down: when no two peaks of the frame
    are equally loud there is only one. *)
Theorem c03_matching_unique : forall c ts fr M M',
  (forall p q, (p < List.length fr)%nat -> (q < List.length fr)%nat -> p <> q ->
     ~ pk_m (nth p fr no_peak) == pk_m (nth q fr no_peak))%Q ->
  greedy_matching c ts fr M -> greedy_matching c ts fr M' ->
  forall i p, In (i, p) M <-> In (i, p) M'.
Proof. exact greedy_unique. Qed.
Print Assumptions c03_matching_unique.

(** The louder of two peaks takes the nearest track although the quieter one
    is nearer to it, and the quieter one is left free. *)
Example c03_example : exists st,
  run ex_cfg (sine_deact ex_cfg)
      (map with_order [ [mkPeak 100 (-10) 0];
                        [mkPeak 100 (-30) 5; mkPeak 103 (-20) 6] ]%Q) = Ok st /\
  map t_freq (active st) = [ [100; 103]; [100] ]%Q.
Proof. eexists. split; [vm_compute; reflexivity|reflexivity]. Qed.

(** *** C04 *)

(** The tracks reported by the sine tracker are exactly, in order, the ones
    among all tracks ever started (the log of a tracker that keeps every track)
    that last at least two frames and [min_sine_dur] seconds. *)
Theorem c04_reported_iff_long : forall c hist, valid_hist hist ->
  exists st lg keep,
    run c (sine_deact c) hist = Ok st /\ run c log_deact hist = Ok lg /\
    active st = active lg /\
    (forall t, keep t = true <-> long_enough c t) /\
    saved st = filter keep (saved lg) /\
    all_tracks (sine_ok c) st =
      filter keep (saved lg ++ map numpy_track (active lg)).
Proof. exact sine_reported. Qed.
Print Assumptions c04_reported_iff_long.

(** Saved tracks are never changed or removed by later frames. *)
Theorem c04_saved_forever : forall c h1 h2 st1 st2, valid_hist (h1 ++ h2) ->
  run c (sine_deact c) h1 = Ok st1 -> run c (sine_deact c) (h1 ++ h2) = Ok st2 ->
  exists l, saved st2 = saved st1 ++ l.
Proof. exact sine_monotone. Qed.
Print Assumptions c04_saved_forever.

Example c04_example : exists st lg,
  run ex_cfg (sine_deact ex_cfg) ex_hist = Ok st /\
  run ex_cfg log_deact ex_hist = Ok lg /\
  List.length (saved st) = 3%nat /\ List.length (saved lg) = 4%nat.
Proof. eexists _, _. by_vm. Qed.

(** *** C05 *)

(** Active tracks are not empty, have three equally long lists and extend to
    the last processed frame. *)
Theorem c05_active_contiguous : forall c deact hist st, valid_hist hist ->
  run c deact hist = Ok st ->
  nframe st = List.length hist /\
  Forall (fun t => t_freq t <> [] /\
                   List.length (t_mag t) = List.length (t_freq t) /\
                   List.length (t_ph t) = List.length (t_freq t) /\
                   (t_start t + List.length (t_freq t))%nat = List.length hist)
         (active st).
Proof. exact active_contiguous. Qed.
Print Assumptions c05_active_contiguous.

Example c05_example : exists st,
  run ex_cfg (modal_deact ex_mcfg) (firstn 5 ex_hist) = Ok st /\
  map t_start (active st) = [3%nat] /\ map t_freq (active st) = [[101; 102]]%Q.
Proof. eexists. by_vm. Qed.

(** *** C06 *)

(** The acceptance test computed by the modal tracker is equivalent to the
    criteria stated with any least-squares line. *)
Theorem c06_acceptance : forall m t, wf_track t ->
  (modal_ok m t = true <-> meets_criteria m t).
Proof. exact Tracker_Modal.modal_ok_iff. Qed.
Print Assumptions c06_acceptance.

Example c06_example :
  meets_criteria ex_mcfg (mkTrack 0 [100; 101] [-10; -12] [0; 2])%Q /\
  ~ meets_criteria ex_mcfg (mkTrack 0 [100; 101] [-12; -10] [0; 2])%Q.
Proof.
  split.
  - refine (proj1 (c06_acceptance ex_mcfg _ _) _).
    + split; [discriminate|split; reflexivity].
    + vm_compute. reflexivity.
  - intro H. refine (_ (proj2 (c06_acceptance ex_mcfg _ _) H)).
    + vm_compute. discriminate.
    + split; [discriminate|split; reflexivity].
Qed.

(** *** C06 and C07 over histories *)

(** Let [ended] be all tracks that ended (the log of a tracker that keeps
    everything).  They split into [kept], which meet the criteria, and
    [dropped], which do not.  Every saved track is made of time-ordered
    segments with NaN exactly in the gaps, and all segments of all saved tracks
    together are exactly the kept tracks. *)
Theorem c07_merge_conserves : forall m hist st lg, valid_hist hist ->
  run (m_base m) (modal_deact m) hist = Ok st ->
  run (m_base m) log_deact hist = Ok lg ->
  exists ended kept dropped groups,
    saved lg = map numpy_track ended /\
    Forall wf_track ended /\
    Permutation ended (kept ++ dropped) /\
    Forall (meets_criteria m) kept /\
    Forall (fun t => ~ meets_criteria m t) dropped /\
    Forall2 made_of (saved st) groups /\
    Permutation (concat groups) kept.
Proof. exact modal_groups. Qed.
Print Assumptions c07_merge_conserves.

(** With a supported strategy the modal tracker never raises. *)
Theorem c07_never_raises : forall m hist, valid_hist hist ->
  (m_strategy m = "single"%string \/ m_strategy m = "average"%string) ->
  exists st, run (m_base m) (modal_deact m) hist = Ok st.
Proof. exact modal_total. Qed.
Print Assumptions c07_never_raises.

(** Three kept segments, two saved tracks, one of them merged. *)
Example c07_example : exists st lg,
  run ex_cfg (modal_deact ex_mcfg) ex_hist = Ok st /\
  run ex_cfg log_deact ex_hist = Ok lg /\
  List.length (saved st) = 2%nat /\ List.length (saved lg) = 4%nat.
Proof. eexists _, _. by_vm. Qed.

(** *** C08 *)

(** An accepted track [t] that ends is appended to the nearest saved track
    that ended earlier (the first one of several at the same distance) if that
    is below the threshold at the first frequency of [t], and becomes a new
    saved track if no earlier track is below it.  All other saved tracks
    stay where they are. *)
Theorem c08_merge_rule : forall m sv t (single : bool),
  wf_track t -> saved_wf sv -> meets_criteria m t ->
  m_strategy m = strategy_name single ->
  exists sv', modal_deact m sv t = Ok sv' /\
  ((exists i u ss, earlier sv t i /\ nth_error sv i = Some u /\ made_of u ss /\
      Forall wf_track ss /\
      (strategy_dist single u t
         < c_off (m_base m) + c_slope (m_base m) * hd 0 (t_freq t))%Q /\
      (forall j, earlier sv t j ->
         (strategy_dist single u t <= strategy_dist single (nth j sv no_strack) t)%Q) /\
      (forall j, earlier sv t j -> (j < i)%nat ->
         (strategy_dist single u t < strategy_dist single (nth j sv no_strack) t)%Q) /\
      exists before after u',
        sv = before ++ u :: after /\ List.length before = i /\
        sv' = before ++ u' :: after /\ made_of u' (ss ++ [t]))
   \/ ((forall j, earlier sv t j ->
         (c_off (m_base m) + c_slope (m_base m) * hd 0 (t_freq t)
            <= strategy_dist single (nth j sv no_strack) t)%Q) /\
       sv' = sv ++ [numpy_track t])).
Proof. exact modal_deact_spec. Qed.
Print Assumptions c08_merge_rule.

(** The hypothesis [saved_wf] holds in every reachable state. *)
Theorem c08_reachable_states : forall m hist st, valid_hist hist ->
  run (m_base m) (modal_deact m) hist = Ok st -> saved_wf (saved st).
Proof. exact saved_wf_reachable. Qed.
Print Assumptions c08_reachable_states.

Example c08_example :
  modal_deact ex_mcfg
    [numpy_track (mkTrack 0 [140; 140] [-1; -2] [0; 0]);
     numpy_track (mkTrack 0 [100; 100] [-1; -2] [0; 0])]%Q
    (mkTrack 4 [105; 105] [-3; -4] [0; 0])%Q =
  Ok [numpy_track (mkTrack 0 [140; 140] [-1; -2] [0; 0])%Q;
      mkSTrack 0 [Some 100; Some 100; None; None; Some 105; Some 105]
               [Some (-1); Some (-2); None; None; Some (-3); Some (-4)]
               [Some 0; Some 0; None; None; Some 0; Some 0] ]%Q.
Proof. vm_compute. reflexivity. Qed.

(** *** C09 *)

(** With [strip_t = s] the reported tracks are, in order, the reportable ones
    whose onset frame [o] (in playback time) satisfies [o - 1 < s * fs / h],
    i.e. [o <= ceil(s * fs / h)]; with [strip_t = None] all of them. *)
Theorem c09_strip : forall m st,
  match m_strip m with
  | None => modal_all_tracks m st = all_tracks (modal_ok m) st
  | Some s => exists keep,
      modal_all_tracks m st = filter keep (all_tracks (modal_ok m) st) /\
      forall t, keep t = true <->
        (inject_Z (onset m st t) - 1
           < s * (c_fs (m_base m) / inject_Z (Zpos (c_h (m_base m)))))%Q
  end.
Proof. exact strip_spec. Qed.
Print Assumptions c09_strip.

Definition ex_strip (rev_ : bool) (s : Q) : mcfg :=
  mkMCfg ex_cfg None None (-90) rev_ "single" (Some s).
Definition ex_late : list frame :=
  [ []; [mkPeak 300 (-10) 0]; [mkPeak 300 (-12) 0]; []; []; [mkPeak 700 (-10) 0];
    [mkPeak 700 (-11) 0]; [] ]%Q.
Example c09_example : exists st,
  run ex_cfg (modal_deact (ex_strip false 1)) (map with_order ex_late) = Ok st /\
  List.length (all_tracks (modal_ok (ex_strip false 1)) st) = 2%nat /\
  map s_start (modal_all_tracks (ex_strip false 1) st) = [1%nat].
Proof. eexists. by_vm. Qed.

(** *** C10 *)

(** With an unsupported strategy: KeyError exactly when some track that ended
    meets the criteria, otherwise the run succeeds and nothing is saved. *)
Theorem c10_unknown_strategy : forall m hist lg, valid_hist hist ->
  m_strategy m <> "single"%string -> m_strategy m <> "average"%string ->
  run (m_base m) log_deact hist = Ok lg ->
  exists ended, saved lg = map numpy_track ended /\ Forall wf_track ended /\
  ((Exists (meets_criteria m) ended /\
    run (m_base m) (modal_deact m) hist = Err KeyError) \/
   (Forall (fun t => ~ meets_criteria m t) ended /\
    exists st, run (m_base m) (modal_deact m) hist = Ok st /\ saved st = [] /\
               active st = active lg)).
Proof. exact unknown_strategy. Qed.
Print Assumptions c10_unknown_strategy.

Definition ex_bad : mcfg :=
  mkMCfg ex_cfg None None (-90) false "averege" None.
(** The typo is noticed on one recording and silently accepted on another, whose
    only track is still reported. *)
Example c10_example :
  run ex_cfg (modal_deact ex_bad) ex_hist = Err KeyError /\
  exists st, run ex_cfg (modal_deact ex_bad) (firstn 2 ex_hist) = Ok st /\
             List.length (modal_all_tracks ex_bad st) = 2%nat.
Proof.
  split; [vm_compute; reflexivity|].
  eexists. by_vm.
Qed.

(** *** C12 *)

(** [min_key] returns the first minimiser and the minimum. *)
Theorem c12_min_key : forall A (it : list A) (key : A -> Q),
  match min_key Qltb it key with
  | None => it = []
  | Some (i, x) =>
    exists l1 l2, it = l1 ++ i :: l2 /\ x = key i /\
      (forall j, In j l1 -> (x < key j)%Q) /\ (forall j, In j it -> (x <= key j)%Q)
  end.
Proof. exact min_key_first_min. Qed.
Print Assumptions c12_min_key.

(** A NaN key in first position is never replaced. *)
Theorem c12_min_key_nan : forall A (a : A) it (key : A -> option Q),
  key a = None -> min_key nan_ltb (a :: it) key = Some (a, None).
Proof. exact min_key_nan_first. Qed.
Print Assumptions c12_min_key_nan.

Example c12_example :
  min_key Qltb [3; 1; 2; 1; 5]%Q (fun x => x * x)%Q = Some (1, 1)%Q.
Proof. vm_compute. reflexivity. Qed.

(** *** C57 *)

(** Appending a silent frame does not change what the sine tracker reports,
    except for the order of the tracks. *)
Theorem c57_sine_silence : forall c hist st st', valid_hist hist ->
  run c (sine_deact c) hist = Ok st ->
  run c (sine_deact c) (hist ++ [([], [])]) = Ok st' ->
  Permutation (all_tracks (sine_ok c) st') (all_tracks (sine_ok c) st).
Proof. exact sine_silence. Qed.
Print Assumptions c57_sine_silence.

Example c57_example : exists st,
  run ex_cfg (sine_deact ex_cfg) (firstn 5 ex_hist) = Ok st /\
  List.length (all_tracks (sine_ok ex_cfg) st) = 3%nat.
Proof. eexists. by_vm. Qed.

(** For the modal tracker this is false: a track that is still active when
    the recording ends is reported unmerged, one silent frame more and it is
    merged. *)
Theorem c57_modal_silence_refuted : exists m hist st st', valid_hist hist /\
  run (m_base m) (modal_deact m) hist = Ok st /\
  run (m_base m) (modal_deact m) (hist ++ [([], [])]) = Ok st' /\
  List.length (modal_all_tracks m st) = 3%nat /\
  List.length (modal_all_tracks m st') = 2%nat.
Proof.
  exists ex_mcfg, (map with_order (firstn 5 ex_frames)).
  eexists _, _. split; [apply with_order_valid|].
  by_vm.
Qed.
Print Assumptions c57_modal_silence_refuted.
