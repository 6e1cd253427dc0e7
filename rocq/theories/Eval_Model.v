(** Model of sample/evaluation/metrics.py and sample/evaluation/random.py.
    Numbers are real numbers (no rounding). *)
From Coq Require Import String List Bool ZArith Reals.
Import ListNotations.
From Verif Require Import Base Py Dict RLists Utils_Model Sample_Model.
Local Open Scope R_scope.

(** [int(x)]. *)
Definition Rtrunc (x : R) : Z := if Rle_lt_dec 0 x then Int_part x else (- Int_part (- x))%Z.

(** ** Distances *)

(** An array of floats with two axes (an array with one axis is one row). *)
Record arr : Type := mkArr { a_rows : nat; a_cols : nat; a_at : nat -> nat -> R }.
Definition indices (x : arr) : list (nat * nat) := list_prod (seq 0 (a_rows x)) (seq 0 (a_cols x)).

(** Index into an axis of size [n] of an operand that is broadcast. *)
Definition bcast (n i : nat) : nat := if Nat.eqb n 1 then 0%nat else i.
(** An axis of size [m] of the output can take one of size [n] of an operand. *)
Definition fits (m n : nat) : bool := Nat.eqb n m || Nat.eqb n 1.

(** [np.power(v, p)] for [v >= 0] and [p > 0]. *)
Definition power (v p : R) : R := if Req_EM_T v 0 then 0 else Rpower v p.

(** [lp_distance], sample/evaluation/metrics.py lines 13-32, for arrays of
    floats.  The output array has the shape of [x]: [y] may be broadcast to
    it, but not the other way around.  [1 / p] is a ZeroDivisionError for
    [p = 0]; negative exponents are not modelled (OtherError 3). *)
Definition lp_distance (x y : arr) (p : R) : res R :=
  if fits (a_rows x) (a_rows y) && fits (a_cols x) (a_cols y) then
    let tmp := map (fun ij => a_at x (fst ij) (snd ij)
                              - a_at y (bcast (a_rows y) (fst ij)) (bcast (a_cols y) (snd ij))) (indices x) in
    let tmp := map Rabs tmp in
    if Req_EM_T p 1 then Ok (rsum tmp)
    else if Req_EM_T p 0 then Err ZeroDivisionError
    else if Rlt_dec p 0 then Err (OtherError 3)
    else Ok (power (rsum (map (fun v => power v p) tmp)) (1 / p))
  else Err ValueError.

(** The same for arrays of unsigned integers of [bits] bits with [p = 1]: the
    difference is taken modulo [2 ^ bits]; the sum is taken with 64 bits, whose
    overflow is not modelled. *)
Definition lp_distance_unsigned (bits : Z) (x y : list Z) : res Z :=
  if Nat.eqb (List.length x) (List.length y)
  then Ok (fold_right Z.add 0%Z (map (fun p => ((fst p - snd p) mod 2 ^ bits)%Z) (combine x y)))
  else Err ValueError.

(** Parameters of [lin_log_spectral_loss], lines 35-44. *)
Record lparams : Type := mkLparams
  { l_n : Z; l_olap : R; l_w : option (list R); l_wtype : string; l_wsize : option Z;
    l_alpha : option R; l_norm_p : R; l_floor_db : R }.
Definition l_default : lparams := mkLparams 2048 (75 / 100) None "hamming" None None 1 (- 60).

(** [lin_log_spectral_loss], lines 35-88.  [get_window] is
    [scipy.signal.get_window]; [stft w n noverlap x] is the array of the moduli
    of [scipy.signal.stft] (with the other keyword arguments).  Since
    [a2db] is given [floor_db=True] the magnitude is limited from below by the
    linear value of the floor. *)
Definition level (floor_db v : R) : R := a2db (Rmax v (db2a floor_db)).
Definition amap (f : R -> R) (x : arr) : arr := mkArr (a_rows x) (a_cols x) (fun i j => f (a_at x i j)).
Definition lin_log_spectral_loss (get_window : string -> Z -> res (list R))
    (stft : list R -> Z -> Z -> list R -> res arr) (l : lparams) (x y : list R) : res R :=
  do w <- match l_w l with
          | Some w => Ok w
          | None => get_window (l_wtype l) (match l_wsize l with None => l_n l | Some s => s end)
          end;
  let alpha := match l_alpha l with None => 1 / Rmax 1 (- l_floor_db l) | Some a => a end in
  let noverlap := Rtrunc (l_olap l * INR (List.length w)) in
  do x_stft <- stft w (l_n l) noverlap x;
  do y_stft <- stft w (l_n l) noverlap y;
  do loss <- lp_distance x_stft y_stft (l_norm_p l);
  let x_stft := amap (level (l_floor_db l)) x_stft in
  let y_stft := amap (level (l_floor_db l)) y_stft in
  do log_loss <- lp_distance x_stft y_stft (l_norm_p l);
  Ok (loss + alpha * log_loss).

(** [MultiScaleSpectralLoss.__call__], lines 106-129.  A base loss takes its
    keyword arguments (positional ones are fixed).  Keyword arguments of the
    call replace those of the scales ([functools.partial]). *)
Definition base_loss : Type := dict val -> outcome R.
(** [sum] of a generator of calls. *)
Fixpoint sum_calls (acc : R) (rs : list (unit -> outcome R)) : outcome R :=
  match rs with
  | [] => Ret acc
  | r :: rs' => match r tt with Ret v => sum_calls (acc + v) rs' | Raise e m => Raise e m end
  end.
(** A pool runs the jobs in the order [order] and keeps their outcomes. *)
Definition pool_run {A} (jobs : list (unit -> A)) (order : list nat) : list (option A) :=
  fold_left (fun t i => match nth_error jobs i with Some j => upd i (Some (j tt)) t | None => t end)
            order (repeat None (List.length jobs)).
(** [r.get()]: waiting for a job that never runs is OtherError 4. *)
Definition pool_get (r : option (outcome R)) : unit -> outcome R :=
  fun _ => match r with Some o => o | None => Raise (OtherError 4) "timeout" end.
Definition multiscale (loss : base_loss) (stfts : list (dict val)) (order : list nat)
    (pool : bool) (njobs : option Z) (kwargs : dict val) : outcome R :=
  let funcs := map (fun kw (_ : unit) => loss (dupdate kw kwargs)) stfts in
  let parallel := sum_calls 0 (map pool_get (pool_run funcs order)) in
  if pool then parallel
  else match njobs with
       | None => sum_calls 0 funcs
       | Some n => if (n <? 1)%Z then Raise ValueError "Number of processes must be at least 1" else parallel
       end.

(** [CochleagramLoss.__call__], lines 234-244, with the method [cochleagram]
    (lines 210-222). *)
Definition cochleagram_loss (cochleagram : list R -> res arr) (p : R) (x y : list R) : res R :=
  do a <- cochleagram x;
  do b <- cochleagram y;
  lp_distance a b p.

(** ** Random generation *)

(** A numpy generator: its state and the draws that are used. *)
Record rng (G : Type) : Type := mkRng
  { r_beta : R -> R -> G -> R * G; r_uniform : R -> R -> G -> R * G;
    r_exponential : R -> G -> R * G; r_normal : R -> G -> R * G }.
Arguments r_beta {G} _ _ _ _. Arguments r_uniform {G} _ _ _ _.
Arguments r_exponential {G} _ _ _. Arguments r_normal {G} _ _ _.

(** A sampling function: changes the state of the generator and may raise. *)
Definition sampler (G A : Type) : Type := G -> res (A * G).
Definition s_ret {G A} (a : A) : sampler G A := fun g => Ok (a, g).
Definition s_bind {G A B} (m : sampler G A) (k : A -> sampler G B) : sampler G B :=
  fun g => match m g with Ok (a, g) => k a g | Err e => Err e end.
Definition s_err {G A} (e : exn) : sampler G A := fun _ => Err e.
Definition draw {G A} (f : G -> A * G) : sampler G A := fun g => Ok (f g).
Notation "x <~ m ; k" := (s_bind m (fun x => k)) (at level 61, m at next level, right associativity).
Fixpoint s_repeat {G A} (n : nat) (m : sampler G A) : sampler G (list A) :=
  match n with
  | O => s_ret []
  | S n => x <~ m ; l <~ s_repeat n m ; s_ret (x :: l)
  end.

(** [_repeated_samples], sample/evaluation/random.py lines 11-28: the result of
    a function called with [size=None] or with [size=n]. *)
Inductive sampled (A : Type) : Type := One (a : A) | Many (l : list A).
Arguments One {A} a. Arguments Many {A} l.
Definition repeated_samples {G A} (m : sampler G A) (size : option Z) : sampler G (sampled A) :=
  x <~ s_repeat (Z.to_nat (match size with None => 1 | Some n => n end)%Z) m ;
  match size, x with
  | None, a :: _ => s_ret (One a)
  | None, [] => s_err IndexError
  | Some _, l => s_ret (Many l)
  end.

(** [BeatsGenerator], lines 66-106. *)
Record beats : Type := mkBeats
  { f_min : R; f_max : R; f_a : R; f_b : R; amp_min : R; decay_min : R; decay : R; onlybeat : bool;
    beat_min : R; beat_max : R; beat_a : R; beat_b : R;
    delta_min : R; delta_max : R; delta_a : R; delta_b : R; snr : R }.
Definition default_beats : beats :=
  mkBeats 200 2000 2 2 (- 10) (1 / 2) 1 false (18 / 10) 18 2 2 (15 / 10) 4 2 4 45.

Section Beats.
Context {G : Type}.
Variable r : rng G.

(** [snr_amp], [noise_amp], [sine_amp], lines 103-116. *)
Definition snr_amp (c : beats) : R := db2a (snr c).
Definition noise_amp (c : beats) : R := 1 / (1 + snr_amp c).
Definition sine_amp (c : beats) : R := snr_amp c / (1 + snr_amp c).

(** [beta_twosides] for one sample, lines 118-145. *)
Definition beta_twosides (a b left right positive : R) : sampler G R :=
  x <~ draw (r_beta r a b) ;
  u <~ draw (r_uniform r 0 1) ;
  let x := x * (right - left) in
  let x := x + left in
  s_ret (x * (2 * (if Rle_lt_dec u positive then 1 else 0) - 1)).

(** [psycho.hz2bark] and [psycho.bark2hz] (default variants) of one number,
    sample/psycho.py lines 67-85 and 106-124. *)
Definition bark (f : R) : R := 2681 / 100 * f / (1960 + f) - 53 / 100.
Definition hz (b : R) : R := (53 / 100 + b) / (2628 / 100 - b) * 1960.

(** [1 / x] of python floats. *)
Definition inv_f (x : R) : sampler G R := if Req_EM_T x 0 then s_err ZeroDivisionError else s_ret (1 / x).
Definition min3 (x y z : R) : R := Rmin (Rmin x y) z.
Definition max3 (x y z : R) : R := Rmax (Rmax x y) z.

(** Interval of the first frequency in Bark, lines 163-172. *)
Definition b_left (c : beats) (beat_hz delta_bark : R) : R :=
  bark (f_min c) - min3 (bark (f_min c) - bark (f_min c - beat_hz)) delta_bark 0.
Definition b_right (c : beats) (beat_hz delta_bark : R) : R :=
  bark (f_max c) - max3 (bark (f_max c) - bark (f_max c - beat_hz)) delta_bark 0.

(** [freqs] for one sample, lines 147-174. *)
Definition freqs1 (c : beats) : sampler G (list R) :=
  left <~ inv_f (beat_max c) ;
  right <~ inv_f (beat_min c) ;
  x <~ beta_twosides (beat_a c) (beat_b c) left right (1 / 2) ;
  beat_hz <~ inv_f x ;
  delta_bark <~ beta_twosides (delta_a c) (delta_b c) (delta_min c) (delta_max c) (1 / 2) ;
  b <~ beta_twosides (f_a c) (f_b c) (b_left c beat_hz delta_bark) (b_right c beat_hz delta_bark) 1 ;
  s_ret [hz b + 0; hz b + beat_hz; hz (b + delta_bark) + 0].

(** [decays] for one sample, lines 176-187; a negative scale is a ValueError. *)
Definition decays1 (c : beats) : sampler G (list R) :=
  if Rlt_dec (decay c - decay_min c) 0 then s_err ValueError
  else d <~ s_repeat 3 (draw (r_exponential r (decay c - decay_min c))) ;
       s_ret (map (fun v => v + decay_min c) d).

(** [amps] for one sample, lines 189-204. *)
Definition amps1 (c : beats) : sampler G (list R) :=
  a <~ s_repeat 3 (draw (r_uniform r (amp_min c) 0)) ;
  let a := map db2a a in
  let a := if onlybeat c then upd 2 0 a else a in
  s_ret (map (fun v => v * (sine_amp c / rsum a)) a).

(** [noise] for one sample, lines 206-213. *)
Definition noise1 (c : beats) (nsamples : Z) : sampler G (list R) :=
  if (nsamples <? 0)%Z then s_err ValueError
  else s_repeat (Z.to_nat nsamples) (draw (r_normal r (noise_amp c))).

(** [audio] for one sample, lines 215-240: the audio, and frequencies, decays,
    amplitudes and phases.  [fs] is not zero. *)
Definition audio1 (c : beats) (dur : option R) (fs : R)
  : sampler G (list R * R * (list R * list R * list R * list R)) :=
  let dur := match dur with None => decay c * 3 | Some d => d end in
  fr <~ repeated_samples (freqs1 c) None ;
  dc <~ repeated_samples (decays1 c) None ;
  am <~ repeated_samples (amps1 c) None ;
  ph <~ s_repeat 3 (draw (r_uniform r 0 (2 * PI))) ;
  let n := Rtrunc (dur * fs) in
  match fr, dc, am with
  | One fr, One dc, One am =>
    match additive_synth cos (fun _ => []) (map (fun i => INR i / fs) (seq 0 (Z.to_nat n))) fr dc am (PArr ph) with
    | Err e => s_err e
    | Ok x =>
      z <~ noise1 c n ;
      s_ret (map (fun p => fst p + snd p) (combine x z), fs, (fr, dc, am, ph))
    end
  | _, _, _ => s_err TypeError
  end.
End Beats.
