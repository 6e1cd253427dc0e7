(** Model of the whole analysis over the real numbers: from the samples of a
    recording to the modes.  It puts together the framing and the spectrum of
    [Stft_Model.v] and [Dft_Model.v], the peaks of sample/sms/dsp.py, the trackers
    of sample/sms/sm.py and sample/sms/mm.py, and [SAMPLE.fit] of
    sample/sample.py with the hinge regression of [Bank_Model.v].

    The functions on peaks and tracks are those of [Stft_Model.v] and
    [Tracker_Model.v] with real numbers in place of rational ones ([Pipe_Agree.v]
    proves that they agree on rational numbers).  Not modelled here: rounding,
    the storage of intermediate results (C27: it does not change the data), phase
    spectra (an arbitrary function), contexts and processes (C25: same results). *)
From Coq Require Import String List Bool ZArith Reals.
Import ListNotations.
From Verif Require Import Base Py RLists Stft_Model Dft_Model Tracker_Model Dsp_Model Sample_Model Bank_Model Beat_Model.
Local Open Scope R_scope.

(** ** Peaks, sample/sms/dsp.py *)

(** [peak_detect], lines 44-60. *)
Definition rpeak_detect (x : list R) (t : option R) : list Z :=
  let c := slice (Some 1%Z) (Some (-1)%Z) x in
  let gt_next := map (fun p => Rltb (snd p) (fst p)) (combine c (slice (Some 2%Z) None x)) in
  let gt_prev := map (fun p => Rltb (snd p) (fst p)) (combine c (slice None (Some (-2)%Z) x)) in
  let conds := map (fun p => fst p && snd p) (combine gt_next gt_prev) in
  let conds :=
    match t with
    | None => conds
    | Some t => map (fun p => fst p && snd p) (combine conds (map (fun v => Rltb t v) c))
    end in
  map (fun i => (Z.of_nat i + 1)%Z) (filter (fun i => nth i conds false) (seq 0 (List.length conds))).

(** One peak: frequency, magnitude (dB), phase. *)
Record rpeak : Type := mkRPeak { rp_f : R; rp_m : R; rp_p : R }.
Definition no_rpeak : rpeak := mkRPeak 0 0 0.

(** [peak_refine], lines 63-90, for one location: location and magnitude. *)
Definition rrefine1 (mx : list R) (ploc : Z) : res (R * R) :=
  do mx_l <- getitem mx (ploc - 1);
  do mx_c <- getitem mx ploc;
  do mx_r <- getitem mx (ploc + 1);
  let dmx := mx_l - mx_r in
  let ploc_d := / 2 * dmx / (mx_l - 2 * mx_c + mx_r) in
  Ok (IZR ploc + ploc_d, mx_c - / 4 * dmx * ploc_d).
(** [peak_detect_interp], lines 93-109, and the frequencies in Hz of
    sample/sms/sm.py line 327.  [phase] is the interpolated phase at a location. *)
Definition rpeaks (fs : R) (n : Z) (t : option R) (phase : R -> R) (mx : list R) : res (list rpeak) :=
  do ps <- mapM (rrefine1 mx) (rpeak_detect mx t);
  Ok (map (fun p => mkRPeak (fst p * fs / IZR n) (snd p) (phase (fst p))) ps).

(** ** Trackers, sample/sms/sm.py and sample/sms/mm.py *)

(** An active track, sample/sms/sm.py lines 189-194.  Saved ones are [rtrack]. *)
Record ltrack : Type := mkLTrack { l_start : nat; l_freq : list R; l_mag : list R; l_ph : list R }.
Definition no_ltrack : ltrack := mkLTrack 0 [] [] [].
Definition no_rtrack : rtrack := mkRTrack 0 [] [] [].

(** [SineTracker.numpy_track], lines 113-122. *)
Definition rnumpy_track (t : ltrack) : rtrack :=
  mkRTrack (Z.of_nat (l_start t)) (map Some (l_freq t)) (map Some (l_mag t)) (map Some (l_ph t)).

(** Parameters of [SineTracker], lines 54-68, and of [ModalTracker],
    sample/sms/mm.py lines 70-94. *)
Record rcfg : Type := mkRCfg { g_fs : R; g_h : positive; g_max : Z; g_dur : R; g_off : R; g_slope : R }.
Record rmcfg : Type := mkRMCfg
  { g_base : rcfg; g_fmin : option R; g_fmax : option R; g_thr : R; g_rev : bool;
    g_strategy : string; g_strip : option R }.

(** [frame_rate], [min_sine_len], [df], sample/sms/sm.py lines 70-111. *)
Definition rframe_rate (c : rcfg) : R := g_fs c / IZR (Zpos (g_h c)).
Definition rmin_sine_len (c : rcfg) : Z := Z.max 2 (Rceil (g_dur c * rframe_rate c)).
Definition rdf (c : rcfg) (f : R) : R := g_off c + g_slope c * f.

(** [SineTracker.track_ok], lines 124-132. *)
Definition rsine_ok (c : rcfg) (t : ltrack) : bool :=
  Z.leb (rmin_sine_len c) (Z.of_nat (List.length (l_freq t))).

(** State and [reset], lines 75-83. *)
Record rstate : Type := mkRState { rsaved : list rtrack; ractive : list ltrack; rnframe : nat }.
Definition rreset : rstate := mkRState [] [] 0.

Definition rlast_freq (t : ltrack) : R := last (l_freq t) 0.
(** Lines 174-176 and 189-194. *)
Definition rpush (t : ltrack) (p : rpeak) : ltrack :=
  mkLTrack (l_start t) (l_freq t ++ [rp_f p]) (l_mag t ++ [rp_m p]) (l_ph t ++ [rp_p p]).
Definition rnewborn (n : nat) (p : rpeak) : ltrack := mkLTrack n [rp_f p] [rp_m p] [rp_p p].

(** "Try to continue active tracks", lines 163-178. *)
Fixpoint rmatch_loop (c : rcfg) (fr : list rpeak) (order : list nat) (ts : list ltrack) (ft fp : list bool)
  : list ltrack * list bool * list bool :=
  match order with
  | [] => (ts, ft, fp)
  | pi :: rest =>
    if negb (existsb (fun b => b) ft) then (ts, ft, fp)
    else
      let p := nth pi fr no_rpeak in
      match min_key Rltb (filter (fun i => nth i ft false) (seq 0 (List.length ts)))
              (fun i => Rabs (rlast_freq (nth i ts no_ltrack) - rp_f p)) with
      | None => rmatch_loop c fr rest ts ft fp
      | Some (ti, d) =>
        if Rltb d (rdf c (rp_f p)) then
          rmatch_loop c fr rest (upd ti (rpush (nth ti ts no_ltrack) p) ts) (upd ti false ft) (upd pi false fp)
        else rmatch_loop c fr rest ts ft fp
      end
  end.

(** [deactivate] after the pop. *)
Definition rdeactivator : Type := list rtrack -> ltrack -> res (list rtrack).
(** [SineTracker.deactivate], lines 134-146. *)
Definition rsine_deact (c : rcfg) : rdeactivator :=
  fun sv t => Ok (if rsine_ok c t then sv ++ [rnumpy_track t] else sv).

(** "Deactivate non-continued tracks", lines 180-183. *)
Definition rdeact_loop (deact : rdeactivator) (ft : list bool) (sv : list rtrack) (ts : list ltrack)
  : res (list rtrack * list ltrack) :=
  foldM
    (fun st ti =>
       match deact (fst st) (nth ti (snd st) no_ltrack) with
       | Ok sv' => Ok (sv', remove_nth ti (snd st))
       | Err e => Err e
       end)
    (sv, ts)
    (filter (fun i => nth i ft false) (rev (seq 0 (List.length ts)))).

(** "Activate new tracks for free peaks", lines 185-194. *)
Fixpoint ractivate_loop (c : rcfg) (n : nat) (fr : list rpeak) (ps : list nat) (ts : list ltrack) : list ltrack :=
  match ps with
  | [] => ts
  | pi :: rest =>
    if Z.leb (g_max c) (Z.of_nat (List.length ts)) then ts
    else ractivate_loop c n fr rest (ts ++ [rnewborn n (nth pi fr no_rpeak)])
  end.

(** [SineTracker.__call__], lines 148-197; [order] is [np.argsort(-pmag)]. *)
Definition rstep (c : rcfg) (deact : rdeactivator) (st : rstate) (fo : list rpeak * list nat) : res rstate :=
  let '(fr, order) := fo in
  let '(ts, ft, fp) :=
    rmatch_loop c fr order (ractive st)
      (repeat true (List.length (ractive st))) (repeat true (List.length fr)) in
  do (sv, ts1) <- rdeact_loop deact ft (rsaved st) ts;
  Ok (mkRState sv
        (ractivate_loop c (rnframe st) fr (filter (fun i => nth i fp false) (seq 0 (List.length fr))) ts1)
        (S (rnframe st))).

(** [SineTracker.all_tracks_], lines 95-101. *)
Definition rall_tracks (ok : ltrack -> bool) (st : rstate) : list rtrack :=
  rsaved st ++ map rnumpy_track (filter ok (ractive st)).

(** [np.mean] of a non-empty list, slope and intercept of a [LinearRegression]
    as used at sample/sms/mm.py lines 117-126. *)
Definition rmean (l : list R) : R := rsum l / INR (List.length l).
Definition rols_coef (xs ys : list R) : R :=
  let mx := rmean xs in
  let my := rmean ys in
  rsum (map (fun xy => (fst xy - mx) * (snd xy - my)) (combine xs ys)) / rsum (map (fun x => (x - mx) * (x - mx)) xs).
Definition rols_intercept (xs ys : list R) : R := rmean ys - rols_coef xs ys * rmean xs.
Definition rlm_x (rev_ : bool) (n : nat) : list R :=
  let a := map INR (seq 0 n) in
  if rev_ then rev a else a.

(** [ModalTracker.track_ok], sample/sms/mm.py lines 102-129. *)
Definition rmodal_ok (m : rmcfg) (t : ltrack) : bool :=
  if negb (rsine_ok (g_base m) t) then false
  else
    let mf := rmean (l_freq t) in
    if match g_fmin m with Some b => Rltb mf b | None => false end then false
    else if match g_fmax m with Some b => Rltb b mf | None => false end then false
    else
      let xs := rlm_x (g_rev m) (List.length (l_mag t)) in
      if Rltb 0 (rols_coef xs (l_mag t)) then false
      else if Rltb (rols_intercept xs (l_mag t)) (g_thr m) then false
      else true.

(** Values that may be NaN. *)
Definition rnan_absdiff (x y : option R) : option R :=
  match x, y with Some a, Some b => Some (Rabs (a - b)) | _, _ => None end.
Definition rnan_ltb (x y : option R) : bool :=
  match x, y with Some a, Some b => Rltb a b | _, _ => false end.
Definition rnanmean (l : list (option R)) : option R :=
  match present l with [] => None | v => Some (rmean v) end.

(** [_track_diff_avg], [_track_diff_single], [freq_diff_function],
    sample/sms/mm.py lines 18-40 and 131-144. *)
Definition rdiff_avg (t u : rtrack) : option R := rnan_absdiff (rnanmean (r_freq t)) (rnanmean (r_freq u)).
Definition rdiff_single (t u : rtrack) : option R := rnan_absdiff (last (r_freq t) None) (hd None (r_freq u)).
Definition rfreq_diff_function (m : rmcfg) : res (rtrack -> rtrack -> option R) :=
  if String.eqb (g_strategy m) "single" then Ok rdiff_single
  else if String.eqb (g_strategy m) "average" then Ok rdiff_avg
  else Err KeyError.

(** The merged track, lines 163-166. *)
Definition rglue1 (u t : rtrack) : rtrack :=
  let pad := repeat None (Z.to_nat (r_start t - r_start u - zlen (r_mag u))) in
  mkRTrack (r_start u) (r_freq u ++ pad ++ r_freq t) (r_mag u ++ pad ++ r_mag t) (r_ph u ++ pad ++ r_ph t).

(** [ModalTracker.deactivate], lines 146-171, after the pop. *)
Definition rmodal_deact (m : rmcfg) : rdeactivator :=
  fun sv t0 =>
    let t := rnumpy_track t0 in
    if rmodal_ok m t0 then
      match rfreq_diff_function m with
      | Err e => Err e
      | Ok diff =>
        match min_key rnan_ltb
                (filter (fun i => let u := nth i sv no_rtrack in Z.ltb (r_start u + zlen (r_mag u)) (r_start t))
                   (seq 0 (List.length sv)))
                (fun i => diff (nth i sv no_rtrack) t) with
        | Some (i, d) =>
          if rnan_ltb d (Some (rdf (g_base m) (hd 0 (l_freq t0)))) then
            Ok (upd i (rglue1 (nth i sv no_rtrack) t) sv)
          else Ok (sv ++ [t])
        | None => Ok (sv ++ [t])
        end
      end
    else Ok sv.

(** [strip_n] and [ModalTracker.all_tracks_], lines 96-100 and 173-187. *)
Definition rmodal_all_tracks (m : rmcfg) (st : rstate) : list rtrack :=
  let tracks := rall_tracks (rmodal_ok m) st in
  match g_strip m with
  | None => tracks
  | Some s =>
    let n := Rceil (s * rframe_rate (g_base m)) in
    filter (fun t =>
              let o := r_start t in
              let o := if g_rev m then (Z.of_nat (rnframe st) - (o + zlen (r_mag t)))%Z else o in
              Z.leb o n) tracks
  end.

(** ** SinusoidalModel.fit, sample/sms/sm.py lines 298-382 *)

(** The tracker of the model: plain or modal. *)
Inductive rtracker : Type := RSine (c : rcfg) | RModal (m : rmcfg).
Definition rt_cfg (t : rtracker) : rcfg := match t with RSine c => c | RModal m => g_base m end.
Definition rt_reverse (t : rtracker) : bool := match t with RSine _ => false | RModal m => g_rev m end.
Definition rt_deact (t : rtracker) : rdeactivator := match t with RSine c => rsine_deact c | RModal m => rmodal_deact m end.
Definition rt_all (t : rtracker) (st : rstate) : list rtrack :=
  match t with RSine c => rall_tracks (rsine_ok c) st | RModal m => rmodal_all_tracks m st end.
Record rmodel : Type := mkRModel
  { rm_w : list R; rm_n : Z; rm_t : option R; rm_padded : bool; rm_tracker : rtracker }.

(** [pad_input], lines 343-358, and [time_frames], lines 360-369.  Cells of the
    frames are never outside of the array (C13); if they were they would be 0
    here. *)
Definition rpad_input (padded : bool) (wsize : Z) (x : list R) : res (list R) :=
  if negb padded then Ok x
  else
    let a := ((wsize + 1) / 2)%Z in
    let b := (wsize / 2)%Z in
    set_slice (Some a) (Some (a + zlen x)%Z) x (repeat 0 (Z.to_nat (zlen x + a + b))).
Definition cell_value (o : option R) : R := match o with Some v => v | None => 0 end.
Definition rtime_frames (padded : bool) (wsize h : Z) (x : list R) : res (list (list R)) :=
  do y <- rpad_input padded wsize x;
  do fr <- overlapping_windows y wsize (Some h);
  Ok (map (map cell_value) fr).

(** One round of the loop of lines 322-330.  [phase x] gives the phases of the
    spectrum of the frame [x]; [argsort] is [np.argsort(-pmag)]. *)
Definition rframe_step (phase : list R -> R -> R) (argsort : list rpeak -> list nat) (o : rmodel)
    (st : rstate) (x : list R) : res rstate :=
  let c := rt_cfg (rm_tracker o) in
  do mx <- dft_mag x (normalized_window (rm_w o)) (rm_n o);
  do fr <- rpeaks (g_fs c) (rm_n o) (rm_t o) (phase x) mx;
  rstep c (rt_deact (rm_tracker o)) st (fr, argsort fr).
(** [fit], lines 298-331, and [tracks_], lines 333-336. *)
Definition rtracks (phase : list R -> R -> R) (argsort : list rpeak -> list nat) (o : rmodel) (x : list R)
  : res (list rtrack) :=
  let x := if rt_reverse (rm_tracker o) then rev x else x in
  do frames <- rtime_frames (rm_padded o) (zlen (rm_w o)) (Zpos (g_h (rt_cfg (rm_tracker o)))) x;
  do st <- foldM (rframe_step phase argsort o) rreset frames;
  Ok (rt_all (rm_tracker o) st).

(** ** SAMPLE.fit, sample/sample.py lines 107-200 *)

(** [_fit_track], lines 130-150, with the hinge regression of sample/hinge.py
    (lines 210-234): [linreg] is the linear regression, [optimise] the least
    squares method, [freq_reduce] the reduction of the frequencies.  A slope of
    zero gives an infinite decay. *)
Definition sfit_track (linreg : list R -> list R -> R * R)
    (optimise : (coeffs -> list R) -> coeffs -> coeffs * coeffs -> coeffs)
    (freq_reduce : list R -> R) (t : list R) (freq mag : list (option R)) : res (list (fl * fl * fl)) :=
  let y := present mag in
  let '(kl, ql) := linreg t y in
  do akq <- hinge_fit optimise t y kl ql;
  let '(_, k, q) := akq in
  Ok [(Fin (freq_reduce (present freq)), if Req_EM_T k 0 then NInf else Fin (track_decay k), Fin (track_amp q))].

(** [fit], lines 161-195: the matrix of the parameters. *)
Definition sample_fit (linreg : list R -> list R -> R * R)
    (optimise : (coeffs -> list R) -> coeffs -> coeffs * coeffs -> coeffs)
    (freq_reduce : list R -> R) (phase : list R -> R -> R) (argsort : list rpeak -> list nat)
    (o : rmodel) (x : list R) : res (list (list fl)) :=
  let c := rt_cfg (rm_tracker o) in
  do tracks <- rtracks phase argsort o x;
  do results <- mapM (fun t =>
      let '(ts, freq, mag) :=
        preprocess_track (mkACfg (g_fs c) (IZR (Zpos (g_h c))) (IZR (zlen (rm_w o))) (rm_padded o)
                                 (rt_reverse (rm_tracker o))) (IZR (zlen x)) t in
      sfit_track linreg optimise freq_reduce ts freq mag) tracks;
  Ok (param_matrix results).
