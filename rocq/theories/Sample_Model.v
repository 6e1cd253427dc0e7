(** Model of sample/sample.py: track preprocessing, parameter estimation,
    parameter matrix, mode ordering, SDT export and additive synthesis.
    Numbers are real numbers (no rounding); NaN is [None] in tracks and a
    constructor of [fl] in the parameter matrix. *)
From Coq Require Import String List Bool ZArith Reals.
Import ListNotations.
From Verif Require Import Base Py RLists.
Local Open Scope R_scope.

(** [np.log10]. *)
Definition log10 (x : R) : R := ln x / ln 10.

(** [DOUBLE_DB], sample/utils/dsp.py line 493 (20*log10(2)). *)
Definition double_db : R := 20 * log10 2.

(** [db2a], sample/utils/dsp.py lines 62-73, and [a2db.floorless], lines
    100-111. *)
Definition db2a (d : R) : R := Rpower 10 (d / 20).
Definition a2db (a : R) : R := 20 * log10 a.

(** ** Preprocessing *)

(** A track as stored by the tracker: start frame and, for every frame,
    frequency, magnitude and phase, NaN ([None]) in gaps. *)
Record rtrack : Type := mkRTrack
  { r_start : Z; r_freq : list (option R); r_mag : list (option R);
    r_ph : list (option R) }.

(** What [SAMPLE._preprocess_track] reads of the sinusoidal model. *)
Record acfg : Type := mkACfg
  { a_fs : R; a_h : R; a_wsize : R; a_padded : bool; a_rev : bool }.

(** [v[mask]] for a boolean array. *)
Definition mask {A} (m : list bool) (v : list A) : list A :=
  map snd (filter fst (combine m v)).

Definition notnan (o : option R) : bool :=
  match o with Some _ => true | None => false end.

(** [v if np.ndim(np.squeeze(v)) != 1 else v[notnans]], sample/sample.py lines
    117-120: arrays of one element are not filtered. *)
Definition filter_field (m : list bool) (v : list (option R)) : list (option R) :=
  if Nat.eqb (List.length v) 1 then v else mask m v.

(** [SAMPLE._preprocess_track], sample/sample.py lines 107-126: time axis,
    frequencies and magnitudes (the phases are filtered in the same way but
    not used any more).  [nx] is [np.size(x)]. *)
Definition preprocess_track (c : acfg) (nx : R) (t : rtrack)
  : list R * list (option R) * list (option R) :=
  let notnans := map notnan (r_mag t) in
  let time_axis := mask notnans (map INR (seq 0 (List.length (r_mag t)))) in
  let time_axis := map (fun v => v + IZR (r_start t)) time_axis in
  let time_axis := map (fun v => v / (a_fs c / a_h c)) time_axis in
  let time_axis := if a_padded c then time_axis
                   else map (fun v => v + / 2 * a_wsize c / a_fs c) time_axis in
  let freq := filter_field notnans (r_freq t) in
  let mag := filter_field notnans (r_mag t) in
  let time_axis := if a_rev c then map (fun v => nx / a_fs c - v) time_axis
                   else time_axis in
  let mag := map (option_map (fun v => v + double_db)) mag in
  (time_axis, freq, mag).

(** ** Parameters of one track *)

(** [_D2K_CONST], sample/sample.py line 128. *)
Definition d2k_const : R := - 40 * log10 (exp 1).

(** [SAMPLE._fit_track], sample/sample.py lines 130-150: decay and amplitude
    from the slope [k] and the intercept [q] of the regressor. *)
Definition track_decay (k : R) : R := d2k_const / k.
Definition track_amp (q : R) : R := db2a q.

(** Amplitude envelope used for synthesis, sample/sample.py lines 375-378. *)
Definition envelope (a d t : R) : R := exp (t * (-2 / d)) * a.

(** [modal_energy], sample/sample.py lines 19-36. *)
Definition modal_energy (a d : R) : R := a * a * d / 4.

(** ** Parameter matrix *)

(** Floating point values of the matrix. *)
Inductive fl : Type := Fin (r : R) | NaN | PInf | NInf.
Definition isfinite (v : fl) : bool := match v with Fin _ => true | _ => false end.

(** Column [j] and number of columns of a matrix given by its rows. *)
Definition column (m : list (list fl)) (j : nat) : list fl :=
  map (fun row => nth j row NaN) m.
Definition ncols (m : list (list fl)) : nat := List.length (hd [] m).

(** [np.array(params).T] for a list of triples: three rows. *)
Definition transpose3 (ps : list (fl * fl * fl)) : list (list fl) :=
  [map (fun p => fst (fst p)) ps; map (fun p => snd (fst p)) ps; map snd ps].

(** Rest of [SAMPLE.fit], sample/sample.py lines 181-195, and
    [_valid_params_], lines 197-200.  [results] is, for each track, the
    sequence of tuples returned by [_fit_track]. *)
Definition param_matrix (results : list (list (fl * fl * fl))) : list (list fl) :=
  let params := concat results in
  let m := match params with
           | [] => [[]; []; []]                  (* np.empty((3, 0)) *)
           | _ => transpose3 params
           end in
  let valid := map (fun j => forallb isfinite (column m j)) (seq 0 (ncols m)) in
  map (mask valid) m.

(** ** Modes *)

(** The fitted parameters [freqs_], [decays_], [amps_] (rows of the matrix),
    sample/sample.py lines 202-232. *)
Record modes : Type := mkModes
  { m_freqs : list R; m_decays : list R; m_amps : list R }.

(** [energies_], sample/sample.py lines 229-232. *)
Definition energies (m : modes) : list R :=
  map (fun p => modal_energy (fst p) (snd p)) (combine (m_amps m) (m_decays m)).

(** [getattr(self, f"{order}_")] for the documented orders; other names are
    an AttributeError (attributes that happen to exist under other names are
    not modelled). *)
Definition feature (m : modes) (order : string) : res (list R) :=
  if String.eqb order "energies" then Ok (energies m)
  else if String.eqb order "freqs" then Ok (m_freqs m)
  else if String.eqb order "amps" then Ok (m_amps m)
  else if String.eqb order "decays" then Ok (m_decays m)
  else Err AttributeError.

(** [mode_argsort_], sample/sample.py lines 234-252.  [argsort] is
    [np.argsort], an arbitrary function here. *)
Definition mode_argsort (argsort : list R -> list nat) (m : modes)
    (order : string) (reverse : bool) : res (list nat) :=
  do keys <- feature m order;
  let asort := argsort keys in
  Ok (if reverse then rev asort else asort).

(** [v[idx]] for a list of indices in range. *)
Definition take {A} (d : A) (idx : list nat) (v : list A) : list A :=
  map (fun i => nth i v d) idx.

(** [sdt_params_], sample/sample.py lines 254-280. *)
Record sdt : Type := mkSdt
  { s_nmodes : Z; s_active : Z; s_freqs : list R; s_decays : list R;
    s_weights : list R; s_gains : list R }.
Definition sdt_params (argsort : list R -> list nat) (max_n_modes : option Z)
    (m : modes) (order : string) (reverse : bool) : res sdt :=
  let n := zlen (m_freqs m) in
  do m_ord <- mode_argsort argsort m order reverse;
  let act := match max_n_modes with None => n | Some k => Z.min k n end in
  if (n =? 0)%Z then Err ZeroDivisionError            (* 1 / n_modes *)
  else Ok (mkSdt n act (take 0 m_ord (m_freqs m)) (take 0 m_ord (m_decays m))
                 (repeat (1 / IZR n) (Z.to_nat n)) (take 0 m_ord (m_amps m))).

(** ** Synthesis *)

(** The argument [phases]: None, a string, an array. *)
Inductive phases : Type := PNone | PStr (s : string) | PArr (l : list R).

(** One mode at one time, sample/sample.py lines 361-378. *)
Definition partial_at (osc : R -> R) (t f d a p : R) : R :=
  exp (t * (-2 / d)) * osc (2 * PI * t * f + p) * a.

Fixpoint sum4 (g : R -> R -> R -> R -> R) (fs ds as_ ps : list R) : R :=
  match fs, ds, as_, ps with
  | f :: fs', d :: ds', a :: as', p :: ps' => g f d a p + sum4 g fs' ds' as' ps'
  | _, _, _, _ => 0
  end.

(** [additive_synth], sample/sample.py lines 338-378, with the oscillator
    [osc] ([cos]; real and imaginary part of [expi] when [analytic]).
    [draw n] is the outcome of the random phase generator
    (lines 316-335).  Lists of different sizes are a ValueError (numpy also
    accepts lists of size one, which is not modelled). *)
Definition additive_synth (osc : R -> R) (draw : nat -> list R)
    (x freqs decays amps : list R) (ph : phases) : res (list R) :=
  do ps <- match ph with
           | PNone => Ok (map (fun _ => 0) freqs)
           | PStr s => if String.eqb s "random"
                       then Ok (draw (List.length freqs)) else Err ValueError
           | PArr l => Ok l
           end;
  let n := List.length freqs in
  if Nat.eqb (List.length decays) n && Nat.eqb (List.length amps) n
     && Nat.eqb (List.length ps) n
  then Ok (map (fun t => sum4 (partial_at osc t) freqs decays amps ps) x)
  else Err ValueError.

(** [SAMPLE.predict], sample/sample.py lines 282-313.  [ph = None] means that
    no [phases] argument is given.  [phases[m_ord]] raises TypeError for
    [None] and IndexError when the array is too short. *)
Definition predict (argsort : list R -> list nat) (osc : R -> R)
    (draw : nat -> list R) (max_n_modes : option Z) (m : modes) (x : list R)
    (n_modes : option Z) (order : string) (reverse : bool)
    (ph : option phases) : res (list R) :=
  let k := match n_modes with
           | Some k => k
           | None => match max_n_modes with
                     | None => zlen (m_freqs m)
                     | Some k => k
                     end
           end in
  do all <- mode_argsort argsort m order reverse;
  let m_ord := slice None (Some k) all in
  do ph' <- match ph with
            | None => Ok PNone
            | Some (PStr s) => Ok (PStr s)
            | Some PNone => Err TypeError
            | Some (PArr l) =>
              if forallb (fun i => Nat.ltb i (List.length l)) m_ord
              then Ok (PArr (take 0 m_ord l)) else Err IndexError
            end;
  additive_synth osc draw x (take 0 m_ord (m_freqs m))
    (take 0 m_ord (m_decays m)) (take 0 m_ord (m_amps m)) ph'.
