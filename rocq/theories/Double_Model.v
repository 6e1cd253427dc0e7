(** The trackers of sample/sms/sm.py and sample/sms/mm.py once more, this
    time with the arithmetic left open: [arith] says what numbers are, how two
    of them compare and what the operations return.  [f64] is IEEE 754
    binary64 with round-to-nearest-even, infinities and NaN, which is what
    python and numpy compute with; so nothing is idealised in the comparisons,
    distances and thresholds of the trackers.

    Left open even for [f64]: the order in which [np.mean] and [np.nanmean] add
    and the algorithm behind [LinearRegression]; they are parameters of the
    modal tracker, and the theorems hold for all of them. *)
From Coq Require Import ZArith List Bool String.
From Flocq Require Import Core IEEE754.BinarySingleNaN.
Import ListNotations.
From Verif Require Import Base Tracker_Model.
Local Open Scope nat_scope.

(** ** Arithmetic *)

(** What the trackers use of python's and numpy's numbers: [<] (line 33 and
    173 of sample/sms/sm.py), [+], [-], [*] (lines 111 and 170), python's [/]
    (line 73, may raise), [np.abs] (line 170), [math.ceil] (line 93, may
    raise), [np.nan] (sample/sms/mm.py line 166), the number 0 (line 124). *)
Record arith : Type := mkArith {
  num : Type;
  lt : num -> num -> bool;
  add : num -> num -> num;
  sub : num -> num -> num;
  mul : num -> num -> num;
  div : num -> num -> res num;
  absv : num -> num;
  ceil : num -> res Z;
  nan : num;
  zero : num }.

(** binary64: 53 bits of precision, exponents below 1024. *)
Definition f64_num : Type := binary_float 53 1024.
Definition prec_pos : Prec_gt_0 53 := eq_refl.
Definition prec_emax : Prec_lt_emax 53 1024 := eq_refl.

(** [math.ceil] of a double, sample/sms/sm.py line 93: an integer of any size;
    ValueError for NaN, OverflowError for an infinity. *)
Definition f64_ceil (x : f64_num) : res Z :=
  match x with
  | B754_nan => Err ValueError
  | B754_infinity _ => Err OverflowError
  | B754_zero _ => Ok 0%Z
  | B754_finite s m e _ =>
    let z := if s then Zneg m else Zpos m in
    Ok (if Z.leb 0 e then (z * 2 ^ e)%Z else (- ((- z) / 2 ^ (- e)))%Z)
  end.

(** [/] of python floats, sample/sms/sm.py line 73: dividing by zero raises.
    (For integers [fs] and [h] below [2^53] python's [/] rounds the exact
    quotient, which is the same.) *)
Definition f64_div (x y : f64_num) : res f64_num :=
  match y with
  | B754_zero _ => Err ZeroDivisionError
  | _ => Ok (@Bdiv 53 1024 prec_pos prec_emax mode_NE x y)
  end.

Definition f64 : arith := mkArith f64_num
  (@Bltb 53 1024)
  (@Bplus 53 1024 prec_pos prec_emax mode_NE)
  (@Bminus 53 1024 prec_pos prec_emax mode_NE)
  (@Bmult 53 1024 prec_pos prec_emax mode_NE)
  f64_div (@Babs 53 1024) f64_ceil (@B754_nan 53 1024) (B754_zero false).

(** ** sample/sms/sm.py *)

Section Tracker.
Variable A : arith.

(** One peak: the same entry of [pfreq], [pmag] and [pph] (sample/sms/sm.py
    lines 148-157). *)
Record dpeak : Type := mkDPeak { dp_f : num A; dp_m : num A; dp_p : num A }.
Definition dframe : Type := list dpeak.
Definition d_nopeak : dpeak := mkDPeak (nan A) (nan A) (nan A).

(** A track: the dictionary of sample/sms/sm.py lines 189-194.
    [numpy_track] (lines 113-122) changes the lists to arrays and nothing
    else, so active and saved tracks have the same type. *)
Record dtrack : Type := mkDTrack
  { dt_start : nat; dt_freq : list (num A); dt_mag : list (num A);
    dt_ph : list (num A) }.
Definition d_notrack : dtrack := mkDTrack 0 [] [] [].

(** Parameters of [SineTracker], sample/sms/sm.py lines 54-68. *)
Record dcfg : Type := mkDCfg
  { dc_fs : num A; dc_h : num A; dc_max : Z; dc_dur : num A;
    dc_off : num A; dc_slope : num A }.

(** [frame_rate], sample/sms/sm.py lines 70-73. *)
Definition d_frame_rate (c : dcfg) : res (num A) := div A (dc_fs c) (dc_h c).

(** [min_sine_len], sample/sms/sm.py lines 90-93. *)
Definition d_min_sine_len (c : dcfg) : res Z :=
  do r <- d_frame_rate c;
  do n <- ceil A (mul A (dc_dur c) r);
  Ok (Z.max 2 n).

(** [df], sample/sms/sm.py lines 103-111. *)
Definition d_df (c : dcfg) (f : num A) : num A :=
  add A (dc_off c) (mul A (dc_slope c) f).

(** [SineTracker.track_ok], sample/sms/sm.py lines 124-132. *)
Definition d_sine_ok (c : dcfg) (t : dtrack) : res bool :=
  do n <- d_min_sine_len c;
  Ok (Z.leb n (Z.of_nat (List.length (dt_freq t)))).

(** [tracks_], [_active_tracks], [_frame]: sample/sms/sm.py lines 75-83. *)
Record dstate : Type := mkDState
  { d_saved : list dtrack; d_active : list dtrack; d_nframe : nat }.

(** [reset], sample/sms/sm.py lines 75-83. *)
Definition d_reset : dstate := mkDState [] [] 0.

(** Key of [min_key] for active track [t] and peak [p], sample/sms/sm.py
    line 170. *)
Definition d_gap (t : dtrack) (p : dpeak) : num A :=
  absv A (sub A (last (dt_freq t) (nan A)) (dp_f p)).

(** Appending a peak, sample/sms/sm.py lines 174-176. *)
Definition d_push (t : dtrack) (p : dpeak) : dtrack :=
  mkDTrack (dt_start t) (dt_freq t ++ [dp_f p]) (dt_mag t ++ [dp_m p])
           (dt_ph t ++ [dp_p p]).

(** A new track, sample/sms/sm.py lines 189-194. *)
Definition d_newborn (n : nat) (p : dpeak) : dtrack :=
  mkDTrack n [dp_f p] [dp_m p] [dp_p p].

(** "Try to continue active tracks", sample/sms/sm.py lines 163-178. *)
Fixpoint d_match_loop (c : dcfg) (fr : dframe) (order : list nat)
    (ts : list dtrack) (ft fp : list bool)
    : list dtrack * list bool * list bool :=
  match order with
  | [] => (ts, ft, fp)
  | pi :: rest =>
    if negb (existsb (fun b => b) ft) then (ts, ft, fp)      (* break *)
    else
      let p := nth pi fr d_nopeak in
      match min_key (lt A)
              (filter (fun i => nth i ft false) (seq 0 (List.length ts)))
              (fun i => d_gap (nth i ts d_notrack) p) with
      | None => d_match_loop c fr rest ts ft fp
      | Some (ti, d) =>
        if lt A d (d_df c (dp_f p)) then
          d_match_loop c fr rest (upd ti (d_push (nth ti ts d_notrack) p) ts)
                       (upd ti false ft) (upd pi false fp)
        else d_match_loop c fr rest ts ft fp
      end
  end.

(** What [deactivate] does with the popped track. *)
Definition d_deactivator : Type := list dtrack -> dtrack -> res (list dtrack).

(** [SineTracker.deactivate], sample/sms/sm.py lines 134-146, after the
    pop. *)
Definition d_sine_deact (c : dcfg) : d_deactivator :=
  fun sv t => do b <- d_sine_ok c t; Ok (if b then sv ++ [t] else sv).

(** "Deactivate non-continued tracks", sample/sms/sm.py lines 180-183. *)
Definition d_deact_loop (deact : d_deactivator) (ft : list bool)
    (sv : list dtrack) (ts : list dtrack) : res (list dtrack * list dtrack) :=
  foldM
    (fun st ti =>
       match deact (fst st) (nth ti (snd st) d_notrack) with
       | Ok sv' => Ok (sv', remove_nth ti (snd st))
       | Err e => Err e
       end)
    (sv, ts)
    (filter (fun i => nth i ft false) (rev (seq 0 (List.length ts)))).

(** "Activate new tracks for free peaks", sample/sms/sm.py lines 185-194. *)
Fixpoint d_activate_loop (c : dcfg) (n : nat) (fr : dframe) (ps : list nat)
    (ts : list dtrack) : list dtrack :=
  match ps with
  | [] => ts
  | pi :: rest =>
    if Z.leb (dc_max c) (Z.of_nat (List.length ts)) then ts     (* break *)
    else d_activate_loop c n fr rest
           (ts ++ [d_newborn n (nth pi fr d_nopeak)])
  end.

(** [SineTracker.__call__], sample/sms/sm.py lines 148-197.  [order] is the
    value of [np.argsort(-pmag)] (line 158). *)
Definition d_step (c : dcfg) (deact : d_deactivator) (st : dstate)
    (fo : dframe * list nat) : res dstate :=
  let '(fr, order) := fo in
  let '(ts, ft, fp) :=
    d_match_loop c fr order (d_active st)
      (repeat true (List.length (d_active st)))
      (repeat true (List.length fr)) in
  do (sv, ts1) <- d_deact_loop deact ft (d_saved st) ts;
  Ok (mkDState sv
        (d_activate_loop c (d_nframe st) fr
           (filter (fun i => nth i fp false) (seq 0 (List.length fr))) ts1)
        (S (d_nframe st))).

(** The calls of [SinusoidalModel.fit], sample/sms/sm.py lines 318-330. *)
Definition d_run (c : dcfg) (deact : d_deactivator)
    (hist : list (dframe * list nat)) : res dstate :=
  foldM (d_step c deact) d_reset hist.

(** [filter(self.track_ok, ...)] of sample/sms/sm.py lines 95-101, where
    [track_ok] may raise. *)
Fixpoint d_filterM (ok : dtrack -> res bool) (l : list dtrack)
  : res (list dtrack) :=
  match l with
  | [] => Ok []
  | t :: l' =>
    do b <- ok t;
    do r <- d_filterM ok l';
    Ok (if b then t :: r else r)
  end.

(** [SineTracker.all_tracks_], sample/sms/sm.py lines 95-101 (exhausted). *)
Definition d_all_tracks (ok : dtrack -> res bool) (st : dstate)
  : res (list dtrack) :=
  do r <- d_filterM ok (d_active st);
  Ok (d_saved st ++ r).

(** ** sample/sms/mm.py *)

(** Parameters of [ModalTracker], sample/sms/mm.py lines 69-94, and the
    three library routines it calls: [np.mean] (line 113), [np.nanmean] (line
    27) and the slope and intercept found by [LinearRegression] for magnitudes
    in reversed or normal order (lines 119-126). *)
Record dmcfg : Type := mkDMCfg
  { dm_base : dcfg; dm_fmin : option (num A); dm_fmax : option (num A);
    dm_thr : num A; dm_rev : bool; dm_strategy : string;
    dm_mean : list (num A) -> num A;
    dm_nanmean : list (num A) -> num A;
    dm_fit : bool -> list (num A) -> num A * num A }.

(** [ModalTracker.track_ok], sample/sms/mm.py lines 102-129. *)
Definition d_modal_ok (m : dmcfg) (t : dtrack) : res bool :=
  do b <- d_sine_ok (dm_base m) t;
  Ok (if negb b then false
      else
        let mf := dm_mean m (dt_freq t) in
        if match dm_fmin m with Some b => lt A mf b | None => false end
        then false
        else if match dm_fmax m with Some b => lt A b mf | None => false end
        then false
        else
          let (coef, intercept) := dm_fit m (dm_rev m) (dt_mag t) in
          if lt A (zero A) coef then false
          else if lt A intercept (dm_thr m) then false
          else true).

(** [_track_diff_avg], sample/sms/mm.py lines 18-27. *)
Definition d_diff_avg (m : dmcfg) (t u : dtrack) : num A :=
  absv A (sub A (dm_nanmean m (dt_freq t)) (dm_nanmean m (dt_freq u))).

(** [_track_diff_single], sample/sms/mm.py lines 30-40. *)
Definition d_diff_single (t u : dtrack) : num A :=
  absv A (sub A (last (dt_freq t) (nan A)) (hd (nan A) (dt_freq u))).

(** [freq_diff_function], sample/sms/mm.py lines 131-144. *)
Definition d_diff_function (m : dmcfg) : res (dtrack -> dtrack -> num A) :=
  if String.eqb (dm_strategy m) "single" then Ok d_diff_single
  else if String.eqb (dm_strategy m) "average" then Ok (d_diff_avg m)
  else Err KeyError.

(** The merged track, sample/sms/mm.py lines 165-168. *)
Definition d_glue (u t : dtrack) : dtrack :=
  let pad := repeat (nan A)
               (dt_start t - dt_start u - List.length (dt_mag u))%nat in
  mkDTrack (dt_start u) (dt_freq u ++ pad ++ dt_freq t)
           (dt_mag u ++ pad ++ dt_mag t) (dt_ph u ++ pad ++ dt_ph t).

(** [ModalTracker.deactivate], sample/sms/mm.py lines 146-171, after the
    pop. *)
Definition d_modal_deact (m : dmcfg) : d_deactivator :=
  fun sv t =>
    do b <- d_modal_ok m t;
    if b then
      do diff <- d_diff_function m;
      match min_key (lt A)
              (filter
                 (fun i => let u := nth i sv d_notrack in
                    Nat.ltb (dt_start u + List.length (dt_mag u)) (dt_start t))
                 (seq 0 (List.length sv)))
              (fun i => diff (nth i sv d_notrack) t) with
      | Some (i, d) =>
        if lt A d (d_df (dm_base m) (hd (nan A) (dt_freq t))) then
          Ok (upd i (d_glue (nth i sv d_notrack) t) sv)
        else Ok (sv ++ [t])
      | None => Ok (sv ++ [t])
      end
    else Ok sv.
End Tracker.

Arguments dp_f {A}. Arguments dp_m {A}. Arguments dp_p {A}.
Arguments mkDPeak {A}. Arguments d_nopeak {A}.
Arguments dt_start {A}. Arguments dt_freq {A}. Arguments dt_mag {A}.
Arguments dt_ph {A}. Arguments mkDTrack {A}. Arguments d_notrack {A}.
Arguments mkDCfg {A}. Arguments dc_fs {A}. Arguments dc_h {A}.
Arguments dc_max {A}. Arguments dc_dur {A}. Arguments dc_off {A}.
Arguments dc_slope {A}. Arguments d_frame_rate {A}.
Arguments d_min_sine_len {A}. Arguments d_df {A}. Arguments d_sine_ok {A}.
Arguments mkDState {A}. Arguments d_saved {A}. Arguments d_active {A}.
Arguments d_nframe {A}. Arguments d_reset {A}. Arguments d_gap {A}.
Arguments d_push {A}. Arguments d_newborn {A}. Arguments d_match_loop {A}.
Arguments d_sine_deact {A}. Arguments d_deact_loop {A}.
Arguments d_activate_loop {A}. Arguments d_step {A}. Arguments d_run {A}.
Arguments d_filterM {A}. Arguments d_all_tracks {A}. Arguments mkDMCfg {A}.
Arguments dm_base {A}. Arguments dm_fmin {A}. Arguments dm_fmax {A}.
Arguments dm_thr {A}. Arguments dm_rev {A}. Arguments dm_strategy {A}.
Arguments dm_mean {A}. Arguments dm_nanmean {A}. Arguments dm_fit {A}.
Arguments d_modal_ok {A}. Arguments d_diff_avg {A}. Arguments d_diff_single {A}.
Arguments d_diff_function {A}. Arguments d_glue {A}. Arguments d_modal_deact {A}.
