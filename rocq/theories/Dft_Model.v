(** Model over the real numbers of the spectrum computed for one frame:
    sample/sms/dsp.py and sample/sms/sm.py. *)
From Coq Require Import List ZArith Reals.
Import ListNotations.
From Verif Require Import Base Py Stft_Model RLists.
Local Open Scope R_scope.

(** [x * w] of [dft], sample/sms/dsp.py line 29, for a frame and a window of
    the same size (the frames of [time_frames] have the window's size). *)
Definition windowed (x w : list R) : list R :=
  map (fun p => fst p * snd p) (combine x w).

(** Bin [k] of [fft.rfft(x_z)], sample/sms/dsp.py line 34: real and imaginary
    part of the sum of [x_p * exp(-2*pi*i*k*p/n)].  The FFT algorithm is not
    modelled, only the sum it computes. *)
Definition angle (n k p : Z) : R := 2 * PI * IZR k * IZR p / IZR n.
Definition rfft_re (buf : list R) (k : Z) : R :=
  rsum (map (fun p => nth p buf 0 * cos (angle (zlen buf) k (Z.of_nat p)))
            (seq 0 (List.length buf))).
Definition rfft_im (buf : list R) (k : Z) : R :=
  - rsum (map (fun p => nth p buf 0 * sin (angle (zlen buf) k (Z.of_nat p)))
              (seq 0 (List.length buf))).

(** [np.abs(x_fft)], sample/sms/dsp.py line 35. *)
Definition bin_abs (re im : R) : R := sqrt (re * re + im * im).

(** [np.finfo(float).eps] = 2^-52, and the floored magnitude in dB,
    sample/sms/dsp.py lines 36-37 with [a2db.floorless],
    sample/utils/dsp.py lines 100-111. *)
Definition float_eps : R := / (2 ^ 52).
Definition bin_db (re im : R) : R :=
  20 * (ln (Rmax (bin_abs re im) float_eps) / ln 10).

(** [SinusoidalModel._normalized_window], sample/sms/sm.py lines 338-341. *)
Definition normalized_window (w : list R) : list R :=
  map (fun v => v / rsum w) w.

(** Magnitude spectrum of a frame, sample/sms/dsp.py lines 27-37. *)
Definition dft_mag (x w : list R) (n : Z) : res (list R) :=
  do buf <- dft_buffer 0 (windowed x w) n;
  Ok (map (fun k => bin_db (rfft_re buf k) (rfft_im buf k)) (zrange (n / 2 + 1))).
