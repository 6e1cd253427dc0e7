(** Model of the trend removal and of the correlograms of sample/utils/dsp.py
    and of the initial parameters of the beat regression that are computed from
    them (sample/beatsdrop/regression.py).  Numbers are real numbers. *)
From Coq Require Import List Bool ZArith Reals Floats.SpecFloat.
Import ListNotations.
From Verif Require Import Base Py RLists Sample_Model Dsp_Model Dft_Model Bank_Model Beat_Model.
Local Open Scope R_scope.

(** ** Trend removal *)

(** An array after [np.squeeze] (line 231): without axes, or with one. *)
Inductive squeezed : Type := Scalar (v : R) | Vector (l : list R).
Definition squeeze (l : list R) : squeezed :=
  match l with [v] => Scalar v | _ => Vector l end.

(** [detrend], sample/utils/dsp.py lines 206-231.  [ndim] is the number of axes
    of [y], whose samples are [y]; [model x y] are slope and intercept of the
    fitted line (a linear regressor), which may raise. *)
Definition detrend (model : list R -> list R -> res (R * R)) (ndim : Z) (y : list R) (x : option (list R))
  : res squeezed :=
  if negb (ndim =? 1)%Z then Err ValueError
  else
    let x := match x with None => map INR (seq 0 (List.length y)) | Some x => x end in
    do kq <- model x y;
    if Nat.eqb (List.length x) (List.length y)
    then Ok (squeeze (map (fun p => snd p - (fst kq * fst p + snd kq)) (combine x y)))
    else Err ValueError.

(** ** Frequencies and bins *)

(** [a / b] of python numbers (lines 244 and 264). *)
Definition py_div (a b : R) : res R := if Req_EM_T b 0 then Err ZeroDivisionError else Ok (a / b).

(** [f2bin], lines 234-246.  [np.ceil] with the product as [out] raises
    TypeError if the product is a number and not an array. *)
Definition f2bin (f : squeezed) (nfft : Z) (fs : R) : res (list Z) :=
  do r <- py_div (IZR nfft) fs;
  match f with
  | Scalar _ => Err TypeError
  | Vector l => Ok (map (fun v => Rceil (v * r)) l)
  end.

(** [bin2f], lines 249-264, of an array. *)
Definition bin2f (b : list R) (nfft : Z) (fs : R) : res (list R) :=
  do r <- py_div fs (IZR nfft);
  Ok (map (fun v => v * r) b).

(** The same for one element in binary64 (quotient and product rounded to
    nearest even) and a whole number [b]; [None] for infinity and NaN. *)
Definition b64_of_Z (z : Z) : spec_float :=
  binary_normalize 53 1024 z 0 false.
Definition b64_ceil (x : spec_float) : option Z :=
  match x with
  | S754_zero _ => Some 0%Z
  | S754_finite s m e =>
    let z := (if s then Zneg m else Zpos m) in
    Some (if (0 <=? e)%Z then (z * 2 ^ e)%Z else (- ((- z) / 2 ^ (- e)))%Z)
  | _ => None
  end.
Definition b64_f2bin (f : spec_float) (nfft : Z) (fs : spec_float) : option Z :=
  b64_ceil (SFmul 53 1024 f (SFdiv 53 1024 (b64_of_Z nfft) fs)).
Definition b64_bin2f (b nfft : Z) (fs : spec_float) : spec_float :=
  SFmul 53 1024 (b64_of_Z b) (SFdiv 53 1024 fs (b64_of_Z nfft)).

(** ** Lomb-Scargle periodogram *)

(** [lombscargle_as_fft], lines 267-310.  [lomb t x freqs] is
    [scipy.signal.lombscargle]: one value for each angular frequency; it may
    raise.  The mean of no samples (NaN with a warning in numpy) is 0 here. *)
Definition lombscargle_as_fft (lomb : list R -> list R -> list R -> res (list R)) (t x : list R)
    (nfft : Z) (fs : R) (hpf lpf : option R) : res (list R * list R) :=
  let n := (nfft / 2 + 1)%Z in
  if (n <? 0)%Z then Err ValueError
  else
    let ls := repeat 0 (Z.to_nat n) in
    do w <- bin2f (map INR (seq 0 (Z.to_nat n))) nfft fs;
    let w := map (fun v => 2 * PI * v) w in
    do ij <- f2bin (Vector [match hpf with None => 0 | Some f => f end;
                            match lpf with None => fs | Some f => f end]) nfft fs;
    let i := nth 0 ij 0%Z in
    let j := nth 1 ij 0%Z in
    let i_ := Z.max i 1 in
    let j := Z.min j n in
    do v <- lomb t x (slice (Some i_) (Some j) w);
    do ls <- set_slice (Some i_) (Some j) v ls;
    do ls <- (if (i <? 1)%Z then
                match ls with
                | [] => Err IndexError
                | _ => Ok (upd 0 (Rsqr (mean x)) ls)
                end
              else Ok ls);
    Ok (ls, map (fun v => v / (2 * PI)) w).

(** ** Autocorrelograms *)

(** [np.fft.irfft(a, n=m)] of a real spectrum: the first [m // 2 + 1] bins
    (missing ones are zero), of which those strictly between zero and the
    Nyquist frequency count twice. *)
Definition irfft_weight (m k : nat) : R :=
  if Nat.eqb k 0 then 1 else if Nat.eqb (2 * k) m then 1 else 2.
Definition irfft (a : list R) (m : Z) : res (list R) :=
  if (m <? 1)%Z then Err ValueError
  else
    let m := Z.to_nat m in
    Ok (map (fun p => rsum (map (fun k => irfft_weight m k * nth k a 0 * cos (angle (Z.of_nat m) (Z.of_nat k) (Z.of_nat p)))
                                (seq 0 (m / 2 + 1))) / INR m) (seq 0 m)).
(** [np.fft.ifft(a, n=m)] of a real spectrum: real and imaginary part. *)
Definition ifft (a : list R) (m : Z) : res (list (R * R)) :=
  if (m <? 1)%Z then Err ValueError
  else
    let m := Z.to_nat m in
    let part := fun (f : R -> R) p =>
      rsum (map (fun k => nth k a 0 * f (angle (Z.of_nat m) (Z.of_nat k) (Z.of_nat p))) (seq 0 m)) / INR m in
    Ok (map (fun p => (part cos p, part sin p)) (seq 0 m)).

(** [fft2autocorrelogram], lines 313-341.  A spectrum is a list of complex
    numbers (power spectra have no imaginary part); a real output has imaginary
    part 0. *)
Definition fft2autocorrelogram (a : list (R * R)) (real : bool) (n nfft : option Z) (power : bool)
  : res (list (R * R)) :=
  let n := match n with
           | None => if real then (2 * (zlen a - 1))%Z else zlen a
           | Some n => n
           end in
  let nfft := match nfft with None => n | Some m => m end in
  let a := map (fun c => if power then fst c else fst c * fst c + snd c * snd c) a in
  do r <- (if real then do r <- irfft a nfft; Ok (map (fun v => (v, 0)) r) else ifft a nfft);
  Ok (slice None (Some n) r).

(** [lombscargle_autocorrelogram], lines 344-369.  [nfft] is a python number: if
    it is computed from [t] it is a numpy number, and where this model raises
    ZeroDivisionError (it is zero) the code raises ValueError in [irfft]. *)
Definition lombscargle_autocorrelogram (lomb : list R -> list R -> list R -> res (list R)) (t x : list R)
    (n nfft : option Z) (fs : R) (hpf lpf : option R) : res (list R) :=
  do n <- (match n with
           | None => do m <- amax t; Ok (Rceil (m * fs))
           | Some n => Ok n
           end);
  let nfft := match nfft with None => (2 * n)%Z | Some m => m end in
  do lw <- lombscargle_as_fft lomb t x nfft fs hpf lpf;
  do r <- fft2autocorrelogram (map (fun v => (v, 0)) (fst lw)) true (Some n) (Some nfft) true;
  Ok (map fst r).

(** ** Initial parameters of the beat regression *)

(** [peak_detect_interp(corr)] (sample/sms/dsp.py lines 44-109 without phases
    and threshold): the refined locations. *)
Definition peak_locations (x : list R) : list nat :=
  filter (fun i => Rltb (nth (i + 1) x 0) (nth i x 0) && Rltb (nth (i - 1) x 0) (nth i x 0))
         (seq 1 (List.length x - 2)).
Definition refine_location (x : list R) (i : nat) : R :=
  let l := nth (i - 1) x 0 in
  let c := nth i x 0 in
  let r := nth (i + 1) x 0 in
  INR i + 1 / 2 * (l - r) / (l - 2 * c + r).

(** [BeatRegression._default_params_init], sample/beatsdrop/regression.py lines
    167-210, with the fitted line [k], [q] of the linear regressor, on times and
    levels with one axis.  [phase a t am_freq] is the estimate of lines 205-208.
    A detrended track of one sample has no axes: [signal.lombscargle] raises
    ValueError for it (as for a track without samples). *)
Definition am_frequency (corr : list R) (fs : R) : R :=
  match map (refine_location corr) (peak_locations corr) with
  | [] => 0
  | p :: _ => fs / (2 * p)
  end.
Definition params_init (lomb : list R -> list R -> list R -> res (list R)) (model : list R -> list R -> res (R * R))
    (phase : list R -> list R -> R -> R) (fs : R) (lpf : option R) (t a f : list R) : res params :=
  do a_dt <- detrend model 1 a (Some t);
  match a_dt with
  | Scalar _ => Err ValueError
  | Vector a_dt =>
    do corr <- lombscargle_autocorrelogram lomb t (map db2a a_dt) None None fs None lpf;
    do kq <- model t a;
    let am_freq := am_frequency corr fs in
    Ok (default_params_init (fst kq) (snd kq) am_freq (phase a t am_freq) f)
  end.
