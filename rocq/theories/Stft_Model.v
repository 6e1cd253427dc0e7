(** Model of the framing of the signal and of spectral peak picking:
    sample/utils/dsp.py (windows), sample/sms/sm.py (padding, framing) and
    sample/sms/dsp.py (zero-phase buffer, peaks).  Sample values are exact
    rationals; rounding is not modelled. *)
From Coq Require Import List ZArith QArith Qround Bool.
Import ListNotations.
From Verif Require Import Base Py.
Local Open Scope Z_scope.

(** [n_windows], sample/utils/dsp.py lines 372-384.  Python's [//] on integers
    is [Z.div]; division by zero raises. *)
Definition n_windows (input_size wsize : Z) (hop : option Z) : res Z :=
  let hop := match hop with None => wsize | Some h => h end in
  if hop =? 0 then Err ZeroDivisionError
  else Ok (1 + (input_size - wsize) / hop).

(** A memory cell of a strided view: [Some v] inside the array, [None] is
    memory outside of it ([as_strided] does not check). *)
Definition cell {A} (a : list A) (i : Z) : option A :=
  if i <? 0 then None else nth_error a (Z.to_nat i).

(** [0, 1, ..., n-1] as integers. *)
Definition zrange (n : Z) : list Z := map Z.of_nat (seq 0 (Z.to_nat n)).

(** [overlapping_windows], sample/utils/dsp.py lines 387-433, for a one
    dimensional array: row [i], column [j] is the cell at [i*hop+j].  Numpy
    rejects negative dimensions with ValueError. *)
Definition overlapping_windows {A} (a : list A) (wsize : Z) (hop : option Z)
  : res (list (list (option A))) :=
  let h := match hop with None => wsize | Some h => h end in
  do n <- n_windows (zlen a) wsize (Some h);
  if (n <? 0) || (wsize <? 0) then Err ValueError
  else Ok (map (fun i => map (fun j => cell a (i * h + j)) (zrange wsize))
               (zrange n)).

(** [SinusoidalModel.pad_input], sample/sms/sm.py lines 343-358.  [wsize] is
    [self.w.size].  The result is the array and the initial padding. *)
Definition pad_input (padded : bool) (wsize : Z) (x : list Q)
  : res (list Q * Z) :=
  if negb padded then Ok (x, 0)
  else
    let a := (wsize + 1) / 2 in
    let b := wsize / 2 in
    let y := repeat 0%Q (Z.to_nat (zlen x + a + b)) in
    do y <- set_slice (Some a) (Some (a + zlen x)) x y;
    Ok (y, a).

(** [SinusoidalModel.time_frames], sample/sms/sm.py lines 360-369. *)
Definition time_frames (padded : bool) (wsize h : Z) (x : list Q)
  : res (list (list (option Q))) :=
  do ya <- pad_input padded wsize x;
  overlapping_windows (fst ya) wsize (Some h).

(** The FFT buffer of [dft], sample/sms/dsp.py lines 27-32, from the windowed
    frame [xw = x * w] (its size is [w.size] when frame and window have the
    same size, which is the case for the frames of [time_frames]). *)
Definition dft_buffer {A} (zero : A) (xw : list A) (n : Z) : res (list A) :=
  let m := zlen xw in
  let hw := m / 2 in
  let x_z := repeat zero (Z.to_nat n) in
  do x_z <- set_slice None (Some (m - hw)) (slice (Some hw) None xw) x_z;
  set_slice (Some (- hw)) None (slice None (Some hw) xw) x_z.

(** [peak_detect], sample/sms/dsp.py lines 44-60.  The slices are zipped,
    which is what numpy does as they have the same length (proved). *)
Definition peak_detect (x : list Q) (t : option Q) : list Z :=
  let c := slice (Some 1) (Some (-1)) x in
  let gt_next := map (fun p => Qltb (snd p) (fst p))
                     (combine c (slice (Some 2) None x)) in
  let gt_prev := map (fun p => Qltb (snd p) (fst p))
                     (combine c (slice None (Some (-2)) x)) in
  let conds := map (fun p => fst p && snd p) (combine gt_next gt_prev) in
  let conds :=
    match t with
    | None => conds
    | Some t => map (fun p => fst p && snd p)
                    (combine conds (map (fun v => Qltb t v) c))
    end in
  (* np.flatnonzero(...) + 1 *)
  map (fun i => Z.of_nat i + 1)
      (filter (fun i => nth i conds false) (seq 0 (List.length conds))).

(** [np.interp(x, np.arange(0, n), px)] as used at sample/sms/dsp.py lines
    88-89: constant outside, linear between neighbouring samples. *)
Definition interp_arange (x : Q) (px : list Q) : Q :=
  let n := zlen px in
  if Qle_bool x 0 then nth 0 px 0%Q
  else if Qle_bool (inject_Z (n - 1)) x then nth (Z.to_nat (n - 1)) px 0%Q
  else
    let i := Qfloor x in
    let l := nth (Z.to_nat i) px 0%Q in
    let r := nth (Z.to_nat (i + 1)) px 0%Q in
    (l + (r - l) * (x - inject_Z i))%Q.

(** [peak_refine], sample/sms/dsp.py lines 63-90, for one peak location.
    Division by zero does not raise in numpy; that the denominator is never
    zero for detected peaks is proved. *)
Definition refine1 (mx px : list Q) (ploc : Z) : res (Q * Q * Q) :=
  do mx_l <- getitem mx (ploc - 1);
  do mx_c <- getitem mx ploc;
  do mx_r <- getitem mx (ploc + 1);
  let dmx := (mx_l - mx_r)%Q in
  let ploc_d := ((1 # 2) * dmx / (mx_l - 2 * mx_c + mx_r))%Q in
  let ploc_i := (inject_Z ploc + ploc_d)%Q in
  let pmag_i := (mx_c - (1 # 4) * dmx * ploc_d)%Q in
  Ok (ploc_i, pmag_i, interp_arange ploc_i px).
Definition peak_refine (mx px : list Q) (plocs : list Z)
  : res (list (Q * Q * Q)) := mapM (refine1 mx px) plocs.

(** [peak_detect_interp], sample/sms/dsp.py lines 93-109. *)
Definition peak_detect_interp (mx px : list Q) (t : option Q)
  : res (list (Q * Q * Q)) := peak_refine mx px (peak_detect mx t).

(** [pfreq = ploc * self.fs / self.n], sample/sms/sm.py line 327. *)
Definition bin_to_hz (fs : Q) (n : Z) (ploc : Q) : Q :=
  (ploc * fs / inject_Z n)%Q.
