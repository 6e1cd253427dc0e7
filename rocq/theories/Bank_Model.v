(** Model of the filterbank construction of sample/psycho.py and of the hinge
    regression, sample/hinge.py.  Numbers are real numbers; rounding and
    non-finite values are not modelled. *)
From Coq Require Import List Bool ZArith Reals.
Import ListNotations.
From Verif Require Import Base Py RLists Np_Model Dsp_Model Sample_Model.
Local Open Scope R_scope.

(** [np.ceil(x).astype(int)]. *)
Definition Rceil (x : R) : Z := (1 - up (- x))%Z.

(** A frequency transformation on arrays (see [Np_Model.call]; a number is an
    array of one element). *)
Definition transform : Type := list R -> res (list R).

(** ** Gammatone filterbank *)

(** [GammatoneFilterbank.__init__], sample/psycho.py lines 721-739, without
    [filters] and [freqs]: the centre frequencies.  [np.arange] of a negative
    number is empty. *)
Definition gammatone_freqs (fwd inv : transform) (n_filters : option Z) (flim : list R)
  : res (list R) :=
  do f0 <- getitem flim 0;
  do f1 <- getitem flim (-1);
  do flim_t <- fwd [f0; f1];
  do hi <- getitem flim_t (-1);
  do lo <- getitem flim_t 0;
  let n := match n_filters with
           | Some n => n
           | None => Rceil (2 * (hi - lo) - 1)
           end in
  inv (map (fun i => (INR i + 1 / 2) * (hi - lo) / (IZR n + 1) + lo) (seq 0 (Z.to_nat n))).

(** ** Triangular filterbank *)

(** [np.linspace(a, b, num)]. *)
Definition linspace (a b : R) (num : Z) : res (list R) :=
  if (num <? 0)%Z then Err ValueError
  else Ok (map (fun i => a + INR i * ((b - a) / IZR (num - 1))) (seq 0 (Z.to_nat num))).

(** [np.interp(x, [l, c, r], [0, 1, 0])] at one point, as numpy's
    [arr_interp] computes it for three points: outside the first and last point
    the end values, else linear search of the interval. *)
Definition interp3 (l c r x : R) : R :=
  if Rlt_dec r x then 0
  else if Rlt_dec x l then 0
  else if Rlt_dec x c then
    (if Req_EM_T l x then 0 else (1 - 0) / (c - l) * (x - l) + 0)
  else if Rlt_dec x r then
    (if Req_EM_T c x then 1 else (0 - 1) / (r - c) * (x - c) + 1)
  else 0.

(** [mel_triangular_filterbank], lines 1008-1089: the rows of the matrix and
    the centre frequencies. *)
Definition mel_triangular_filterbank (freqs : list R) (n_filters : option Z)
    (bandwidth : option (R -> R)) (flim : option (list R)) (fwd inv : transform)
  : res (list (list R) * list R) :=
  do flim <- match flim with
             | Some l => Ok l
             | None => do f0 <- getitem freqs 0; do f1 <- getitem freqs (-1); Ok [f0; f1]
             end;
  let f := match bandwidth with None => true | Some _ => false end in
  do nf <- match n_filters with
           | None => Ok ((if f then zlen flim - 2 else zlen flim)%Z, flim)
           | Some n =>
             do f0 <- getitem flim 0;
             do f1 <- getitem flim (-1);
             do t0 <- fwd [f0]; do a <- getitem t0 0;
             do t1 <- fwd [f1]; do b <- getitem t1 0;
             do pts <- linspace a b (n + 2);
             do fl <- inv pts;
             Ok (n, if f then fl else slice (Some 1%Z) (Some (-1)%Z) fl)
           end;
  let '(n, flim) := nf in
  if (n <=? 0)%Z then Err ValueError
  else
    let '(fl, fc, fr) :=
      match bandwidth with
      | None => (slice None (Some (-2)%Z) flim, slice (Some 1%Z) (Some (-1)%Z) flim,
                 slice (Some 2%Z) None flim)
      | Some bw => let b := map bw flim in
                   (map2 Rminus flim b, flim, map2 Rplus flim b)
      end in
    do filts <- mapM (fun i => do l <- getitem fl (Z.of_nat i);
                               do c <- getitem fc (Z.of_nat i);
                               do r <- getitem fr (Z.of_nat i);
                               Ok (map (interp3 l c r) freqs))
                     (seq 0 (Z.to_nat n));
    Ok (filts, fc).

(** ** Mel spectrogram *)

(** [np.power] for non-negative numbers and a positive exponent. *)
Definition npower (x p : R) : R := if Req_EM_T x 0 then 0 else Rpower x p.

(** [filterbank @ stft]: a filter applied to a column of the spectrogram;
    ValueError if the sizes do not agree. *)
Definition filter_column (bank : list (list R)) (col : list R) : res (list R) :=
  mapM (fun row => if Nat.eqb (List.length row) (List.length col)
                   then Ok (dot row col) else Err ValueError) bank.

(** [stft2mel] with a filterbank and [power] not [None], lines 1116-1127, on the
    columns (time-steps) of the spectrogram, complex numbers as pairs. *)
Definition cmod (z : R * R) : R := sqrt (fst z * fst z + snd z * snd z).
Definition stft2mel (bank : list (list R)) (power : R) (cols : list (list (R * R)))
  : res (list (list R)) :=
  mapM (fun col =>
    let m := map cmod col in
    if Req_EM_T power 1 then filter_column bank m
    else do y <- filter_column bank (map (fun v => npower v power) m);
         Ok (map (fun v => npower v (1 / power)) y)) cols.
(** With [power=None] the complex columns are filtered: real and imaginary
    parts separately. *)
Definition stft2mel_complex (bank : list (list R)) (cols : list (list (R * R)))
  : res (list (list (R * R))) :=
  mapM (fun col => do re <- filter_column bank (map fst col);
                   do im <- filter_column bank (map snd col);
                   Ok (combine re im)) cols.

(** ** Hinge regression, sample/hinge.py *)

(** [hinge_function], lines 14-34, with [out]. *)
Definition hinge_function (a k q : R) (x out : nat) : M nat :=
  un (fun v => Rmin v a) x out ;;;
  un (fun v => k * v) out out ;;;
  un (fun v => q + v) out out.

(** [_default_coeffs_init], lines 107-125: a, k, q. *)
Definition coeffs : Type := (R * R * R)%type.
Definition hinge_coeffs_init (x y : list R) (k q : R) : res coeffs :=
  do lo <- amin x; do hi <- amax x; Ok ((lo + hi) / 2, k, q).

(** [_default_bounds], lines 127-165.  [x] has one column. *)
Definition hinge_bounds (x y : list R) (k q : R) : res (coeffs * coeffs) :=
  if (zlen x <=? 1)%Z then Err ValueError
  else
    do lo <- amin x;
    do hi <- amax x;
    let '(a_min, a_max) := if Req_EM_T lo hi then (lo - 1, hi + 1) else (lo, hi) in
    do d <- amax (map (fun v => Rabs (v - q)) y);
    let dq := if Req_EM_T d 0 then 1 else d in
    let '(k_min, k_max) :=
      if Req_EM_T k 0 then (-1, 1)
      else (if Rlt_dec k 0 then 8 * k else k, if Rlt_dec k 0 then k else 8 * k) in
    Ok ((a_min, k_min, q - dq), (a_max, k_max, q + dq)).

(** The checks made by [scipy.optimize.least_squares]: ValueError unless each
    lower bound is below the upper bound and the start is within the bounds. *)
Definition coeffs_list (c : coeffs) : list R := let '(a, k, q) := c in [a; k; q].
Definition ls_check (x0 : coeffs) (b : coeffs * coeffs) : bool :=
  forallb (fun v => if Rlt_dec (fst v) (snd v) then true else false)
    (combine (coeffs_list (fst b)) (coeffs_list (snd b))) &&
  forallb (fun v => Rleb (fst (fst v)) (snd v) && Rleb (snd v) (snd (fst v)))
    (combine (combine (coeffs_list (fst b)) (coeffs_list (snd b))) (coeffs_list x0)).

(** [fit], lines 210-234, after the linear regression gave [k] and [q];
    [optimise residual x0 bounds] is the numerical method (any function). *)
Definition hinge_fit (optimise : (coeffs -> list R) -> coeffs -> coeffs * coeffs -> coeffs)
    (x y : list R) (k q : R) : res coeffs :=
  do x0 <- hinge_coeffs_init x y k q;
  do b <- hinge_bounds x y k q;
  if ls_check x0 b then
    Ok (optimise (fun p => let '(a, k, q) := p in
                           map2 Rminus (map (fun v => k * Rmin v a + q) x) y) x0 b)
  else Err ValueError.
