(** Model of the sine tracker (sample/sms/sm.py) and of the modal tracker
    (sample/sms/mm.py).

    Numbers are exact rationals: the values the code handles are IEEE doubles,
    which are rationals, but the model does not round the results of the few
    arithmetic operations involved (differences, means, regression).  NaN
    appears only in the gaps of merged tracks and is [None]. *)
From Coq Require Import List ZArith QArith Qround Qabs Lia Bool String.
Import ListNotations.
From Verif Require Import Base.
Local Open Scope Q_scope.

(** ** sample/sms/sm.py *)

(** [min_key], sample/sms/sm.py lines 20-36.  [lt] is python's [<] on keys.
    The pair [(None, None)] is [None]. *)
Definition min_key {A K : Type} (lt : K -> K -> bool) (it : list A)
    (key : A -> K) : option (A * K) :=
  fold_left
    (fun acc i =>
       let x := key i in
       match acc with
       | None => Some (i, x)
       | Some (_, x_) => if lt x x_ then Some (i, x) else acc
       end)
    it None.

(** One spectral peak: frequency (Hz), magnitude (dB), phase; the three
    arguments [pfreq], [pmag], [pph] of [SineTracker.__call__]
    (sample/sms/sm.py lines 148-157) as one list of triples, i.e. assuming
    the three arrays have the same length. *)
Record peak : Type := mkPeak { pk_f : Q; pk_m : Q; pk_p : Q }.
Definition frame : Type := list peak.
Definition no_peak : peak := mkPeak 0 0 0.

(** An active track: the dictionary built at sample/sms/sm.py lines 189-194. *)
Record track : Type := mkTrack
  { t_start : nat; t_freq : list Q; t_mag : list Q; t_ph : list Q }.
Definition no_track : track := mkTrack 0 [] [] [].

(** A saved track: the same dictionary after [numpy_track]
    (sample/sms/sm.py lines 113-122); merging may put NaN ([None]) in it. *)
Record strack : Type := mkSTrack
  { s_start : nat; s_freq : list (option Q); s_mag : list (option Q);
    s_ph : list (option Q) }.
Definition no_strack : strack := mkSTrack 0 [] [] [].

(** [SineTracker.numpy_track], sample/sms/sm.py lines 113-122. *)
Definition numpy_track (t : track) : strack :=
  mkSTrack (t_start t) (map Some (t_freq t)) (map Some (t_mag t))
           (map Some (t_ph t)).

(** Constructor parameters of [SineTracker], sample/sms/sm.py lines 54-68.
    Simplification: [h] is a positive integer (a zero hop raises
    ZeroDivisionError at line 73). *)
Record cfg : Type := mkCfg
  { c_fs : Q; c_h : positive; c_max : Z; c_dur : Q; c_off : Q; c_slope : Q }.

(** [frame_rate], sample/sms/sm.py lines 70-73. *)
Definition frame_rate (c : cfg) : Q := c_fs c / inject_Z (Zpos (c_h c)).

(** [min_sine_len], sample/sms/sm.py lines 90-93. *)
Definition min_sine_len (c : cfg) : Z :=
  Z.max 2 (Qceiling (c_dur c * frame_rate c)).

(** [df], sample/sms/sm.py lines 103-111. *)
Definition df (c : cfg) (f : Q) : Q := c_off c + c_slope c * f.

(** [SineTracker.track_ok], sample/sms/sm.py lines 124-132. *)
Definition sine_ok (c : cfg) (t : track) : bool :=
  Z.leb (min_sine_len c) (Z.of_nat (List.length (t_freq t))).

(** Tracker state: [tracks_], [_active_tracks], [_frame]
    (sample/sms/sm.py lines 75-83). *)
Record state : Type := mkState
  { saved : list strack; active : list track; nframe : nat }.

(** [reset], sample/sms/sm.py lines 75-83: the state after it. *)
Definition reset : state := mkState [] [] 0.

(** [t["freq"][-1]]; an active track is never empty. *)
Definition last_freq (t : track) : Q := last (t_freq t) 0.

(** Appending a peak to a track, sample/sms/sm.py lines 174-176. *)
Definition push (t : track) (p : peak) : track :=
  mkTrack (t_start t) (t_freq t ++ [pk_f p]) (t_mag t ++ [pk_m p])
          (t_ph t ++ [pk_p p]).

(** A track just started, sample/sms/sm.py lines 189-194. *)
Definition newborn (n : nat) (p : peak) : track :=
  mkTrack n [pk_f p] [pk_m p] [pk_p p].

(** The loop "Try to continue active tracks", sample/sms/sm.py lines 163-178.
    [order] is [peak_order] (line 158); [ft], [fp] are the boolean arrays
    [free_track], [free_peak]. *)
Fixpoint match_loop (c : cfg) (fr : frame) (order : list nat)
    (ts : list track) (ft fp : list bool)
    : list track * list bool * list bool :=
  match order with
  | [] => (ts, ft, fp)
  | pi :: rest =>
    if negb (existsb (fun b => b) ft) then (ts, ft, fp)      (* break *)
    else
      let p := nth pi fr no_peak in
      match min_key Qltb
              (filter (fun i => nth i ft false) (seq 0 (List.length ts)))
              (fun i => Qabs (last_freq (nth i ts no_track) - pk_f p)) with
      | None => match_loop c fr rest ts ft fp
      | Some (ti, d) =>
        if Qltb d (df c (pk_f p)) then
          match_loop c fr rest (upd ti (push (nth ti ts no_track) p) ts)
                     (upd ti false ft) (upd pi false fp)
        else match_loop c fr rest ts ft fp
      end
  end.

(** What [deactivate] does with the popped track: it gives the new [tracks_]
    or raises.  The two trackers differ only in this function. *)
Definition deactivator : Type := list strack -> track -> res (list strack).

(** [SineTracker.deactivate], sample/sms/sm.py lines 134-146, after the pop. *)
Definition sine_deact (c : cfg) : deactivator :=
  fun sv t => Ok (if sine_ok c t then sv ++ [numpy_track t] else sv).

(** The loop "Deactivate non-continued tracks", sample/sms/sm.py
    lines 180-183: indices in decreasing order, each one popped. *)
Definition deact_loop (deact : deactivator) (ft : list bool)
    (sv : list strack) (ts : list track) : res (list strack * list track) :=
  foldM
    (fun st ti =>
       match deact (fst st) (nth ti (snd st) no_track) with
       | Ok sv' => Ok (sv', remove_nth ti (snd st))
       | Err e => Err e
       end)
    (sv, ts)
    (filter (fun i => nth i ft false) (rev (seq 0 (List.length ts)))).

(** The loop "Activate new tracks for free peaks", sample/sms/sm.py
    lines 185-194, over the indices of the free peaks. *)
Fixpoint activate_loop (c : cfg) (n : nat) (fr : frame) (ps : list nat)
    (ts : list track) : list track :=
  match ps with
  | [] => ts
  | pi :: rest =>
    if Z.leb (c_max c) (Z.of_nat (List.length ts)) then ts     (* break *)
    else activate_loop c n fr rest (ts ++ [newborn n (nth pi fr no_peak)])
  end.

(** [SineTracker.__call__], sample/sms/sm.py lines 148-197.  [order] is the
    value of [np.argsort(-pmag)] (line 158). *)
Definition step (c : cfg) (deact : deactivator) (st : state)
    (fo : frame * list nat) : res state :=
  let '(fr, order) := fo in
  let '(ts, ft, fp) :=
    match_loop c fr order (active st)
      (repeat true (List.length (active st))) (repeat true (List.length fr)) in
  do (sv, ts1) <- deact_loop deact ft (saved st) ts;
  Ok (mkState sv
        (activate_loop c (nframe st) fr
           (filter (fun i => nth i fp false) (seq 0 (List.length fr))) ts1)
        (S (nframe st))).

(** The calls of the tracker made by [SinusoidalModel.fit], sample/sms/sm.py
    lines 318-330: [reset] and then one call per frame. *)
Definition run (c : cfg) (deact : deactivator) (hist : list (frame * list nat))
  : res state := foldM (step c deact) reset hist.

(** A stable implementation of [np.argsort(-pmag)] (sample/sms/sm.py line
    158), used for concrete examples only: the theorems hold for every order
    that sorts the magnitudes. *)
Fixpoint ins_desc (key : nat -> Q) (i : nat) (l : list nat) : list nat :=
  match l with
  | [] => [i]
  | j :: l' => if Qle_bool (key j) (key i) then i :: j :: l'
               else j :: ins_desc key i l'
  end.
Definition argsort_desc (fr : frame) : list nat :=
  fold_right (ins_desc (fun i => pk_m (nth i fr no_peak))) []
             (seq 0 (List.length fr)).
Definition with_order (fr : frame) : frame * list nat := (fr, argsort_desc fr).

(** [SineTracker.all_tracks_], sample/sms/sm.py lines 95-101.  [ok] is
    [track_ok]. *)
Definition all_tracks (ok : track -> bool) (st : state) : list strack :=
  saved st ++ map numpy_track (filter ok (active st)).

(** ** sample/sms/mm.py *)

(** Parameters of [ModalTracker], sample/sms/mm.py lines 70-94. *)
Record mcfg : Type := mkMCfg
  { m_base : cfg; m_fmin : option Q; m_fmax : option Q; m_thr : Q;
    m_rev : bool; m_strategy : string; m_strip : option Q }.

Definition Qsum (l : list Q) : Q := fold_right Qplus 0 l.
Definition Qlen {A} (l : list A) : Q := inject_Z (Z.of_nat (List.length l)).

(** [np.mean] of a non-empty list. *)
Definition Qmean (l : list Q) : Q := Qsum l / Qlen l.

(** Slope and intercept of [LinearRegression().fit(x, y)], as used at
    sample/sms/mm.py lines 117-126: the closed form of simple linear
    regression.  That it is the least-squares line is proved. *)
Definition ols_coef (xs ys : list Q) : Q :=
  let mx := Qmean xs in
  let my := Qmean ys in
  Qsum (map (fun xy => (fst xy - mx) * (snd xy - my)) (combine xs ys))
  / Qsum (map (fun x => (x - mx) * (x - mx)) xs).
Definition ols_intercept (xs ys : list Q) : Q :=
  Qmean ys - ols_coef xs ys * Qmean xs.

(** [np.arange(n)], flipped in reverse mode: sample/sms/mm.py
    lines 117-119. *)
Definition lm_x (rev_ : bool) (n : nat) : list Q :=
  let a := map (fun i => inject_Z (Z.of_nat i)) (seq 0 n) in
  if rev_ then rev a else a.

(** [ModalTracker.track_ok], sample/sms/mm.py lines 102-129. *)
Definition modal_ok (m : mcfg) (t : track) : bool :=
  if negb (sine_ok (m_base m) t) then false
  else
    let mf := Qmean (t_freq t) in
    if match m_fmin m with Some b => Qltb mf b | None => false end then false
    else if match m_fmax m with Some b => Qltb b mf | None => false end
    then false
    else
      let xs := lm_x (m_rev m) (List.length (t_mag t)) in
      if Qltb 0 (ols_coef xs (t_mag t)) then false
      else if Qltb (ols_intercept xs (t_mag t)) (m_thr m) then false
      else true.

(** Values that may be NaN: arithmetic and comparison. *)
Definition nan_absdiff (x y : option Q) : option Q :=
  match x, y with Some a, Some b => Some (Qabs (a - b)) | _, _ => None end.
Definition nan_ltb (x y : option Q) : bool :=
  match x, y with Some a, Some b => Qltb a b | _, _ => false end.

Definition present {A} (l : list (option A)) : list A :=
  flat_map (fun o => match o with Some a => [a] | None => [] end) l.

(** [np.nanmean]: NaN when there is nothing to average. *)
Definition nanmean (l : list (option Q)) : option Q :=
  match present l with [] => None | v => Some (Qmean v) end.

(** [_track_diff_avg], sample/sms/mm.py lines 18-27. *)
Definition diff_avg (t u : strack) : option Q :=
  nan_absdiff (nanmean (s_freq t)) (nanmean (s_freq u)).

(** [_track_diff_single], sample/sms/mm.py lines 30-40. *)
Definition diff_single (t u : strack) : option Q :=
  nan_absdiff (last (s_freq t) None) (hd None (s_freq u)).

(** [freq_diff_function], sample/sms/mm.py lines 131-144. *)
Definition freq_diff_function (m : mcfg)
  : res (strack -> strack -> option Q) :=
  if String.eqb (m_strategy m) "single" then Ok diff_single
  else if String.eqb (m_strategy m) "average" then Ok diff_avg
  else Err KeyError.

(** The merged track, sample/sms/mm.py lines 163-166. *)
Definition glue1 (u t : strack) : strack :=
  let pad := repeat None (s_start t - s_start u - List.length (s_mag u))%nat in
  mkSTrack (s_start u) (s_freq u ++ pad ++ s_freq t)
           (s_mag u ++ pad ++ s_mag t) (s_ph u ++ pad ++ s_ph t).

(** [ModalTracker.deactivate], sample/sms/mm.py lines 146-171, after the pop.
    The saved dictionaries are referred to by their index in [tracks_]
    (python refers to them by identity and updates the found one in place). *)
Definition modal_deact (m : mcfg) : deactivator :=
  fun sv t0 =>
    let t := numpy_track t0 in
    if modal_ok m t0 then
      match freq_diff_function m with
      | Err e => Err e
      | Ok diff =>
        match min_key nan_ltb
                (filter
                   (fun i => let u := nth i sv no_strack in
                      Nat.ltb (s_start u + List.length (s_mag u)) (s_start t))
                   (seq 0 (List.length sv)))
                (fun i => diff (nth i sv no_strack) t) with
        | Some (i, d) =>
          if nan_ltb d (Some (df (m_base m) (hd 0 (t_freq t0)))) then
            Ok (upd i (glue1 (nth i sv no_strack) t) sv)
          else Ok (sv ++ [t])
        | None => Ok (sv ++ [t])
        end
      end
    else Ok sv.

(** [strip_n], sample/sms/mm.py lines 96-100. *)
Definition strip_n (m : mcfg) : option Z :=
  match m_strip m with
  | None => None
  | Some s => Some (Qceiling (s * frame_rate (m_base m)))
  end.

(** [ModalTracker.all_tracks_], sample/sms/mm.py lines 173-187. *)
Definition modal_all_tracks (m : mcfg) (st : state) : list strack :=
  let tracks := all_tracks (modal_ok m) st in
  match strip_n m with
  | None => tracks
  | Some n =>
    filter
      (fun t =>
         let o := Z.of_nat (s_start t) in
         let o := if m_rev m
                  then (Z.of_nat (nframe st)
                        - (o + Z.of_nat (List.length (s_mag t))))%Z
                  else o in
         Z.leb o n)
      tracks
  end.
