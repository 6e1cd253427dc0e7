(** Peaks of spectra in double precision: sample/sms/dsp.py lines 44-109 and
    line 327 of sample/sms/sm.py, operation by operation as numpy computes them
    with IEEE 754 binary64 (round to nearest, ties to even).

    Magnitudes and phases are arrays of doubles; they may contain infinities
    and NaN.  Not modelled: warnings of numpy for divisions by zero and invalid
    operations, which have a value (an infinity or NaN). *)
From Coq Require Import String List Bool ZArith.
From Flocq Require Import Core IEEE754.BinarySingleNaN.
Import ListNotations.
From Verif Require Import Base Py Double_Model.
Local Open Scope Z_scope.

(** The double nearest to [m * 2^e]: how numpy converts integers (the indices
    of sample/sms/dsp.py lines 85 and 89, [n] and an integer [fs] of
    sample/sms/sm.py line 327, the literal 2 of line 84), and the
    literals [.5] and [.25] of sample/sms/dsp.py lines 84 and 86. *)
Definition f64_of (m e : Z) : f64_num :=
  binary_normalize 53 1024 prec_pos prec_emax mode_NE m e false.

(** [+], [-], [*] and [/] of numpy arrays of doubles: they never raise. *)
Definition fadd (x y : f64_num) : f64_num := @Bplus 53 1024 prec_pos prec_emax mode_NE x y.
Definition fsub (x y : f64_num) : f64_num := @Bminus 53 1024 prec_pos prec_emax mode_NE x y.
Definition fmul (x y : f64_num) : f64_num := @Bmult 53 1024 prec_pos prec_emax mode_NE x y.
Definition fdiv (x y : f64_num) : f64_num := @Bdiv 53 1024 prec_pos prec_emax mode_NE x y.
(** [np.greater], sample/sms/dsp.py lines 54-58. *)
Definition fgt (x y : f64_num) : bool := @Bltb 53 1024 y x.

(** [peak_detect], sample/sms/dsp.py lines 44-60.  The slices are zipped; they
    have the same length. *)
Definition f_peak_detect (x : list f64_num) (t : option f64_num) : list Z :=
  let c := slice (Some 1) (Some (-1)) x in
  let gt_next := map (fun p => fgt (fst p) (snd p)) (combine c (slice (Some 2) None x)) in
  let gt_prev := map (fun p => fgt (fst p) (snd p)) (combine c (slice None (Some (-2)) x)) in
  let conds := map (fun p => fst p && snd p) (combine gt_next gt_prev) in
  let conds :=
    match t with
    | None => conds
    | Some t => map (fun p => fst p && snd p) (combine conds (map (fun v => fgt v t) c))
    end in
  (* np.flatnonzero(...) + 1 *)
  map (fun i => Z.of_nat i + 1) (filter (fun i => nth i conds false) (seq 0 (List.length conds))).

(** [peak_refine], sample/sms/dsp.py lines 63-86, for one location: location
    and magnitude of the vertex. *)
Definition f_refine1 (mx : list f64_num) (ploc : Z) : res (f64_num * f64_num) :=
  do mx_l <- getitem mx (ploc - 1);
  do mx_c <- getitem mx ploc;
  do mx_r <- getitem mx (ploc + 1);
  let dmx := fsub mx_l mx_r in
  let ploc_d := fdiv (fmul (f64_of 1 (-1)) dmx)
                     (fadd (fsub mx_l (fmul (f64_of 2 0) mx_c)) mx_r) in
  let ploc_i := fadd (f64_of ploc 0) ploc_d in
  let pmag_i := fsub mx_c (fmul (fmul (f64_of 1 (-2)) dmx) ploc_d) in
  Ok (ploc_i, pmag_i).

(** [np.interp(x, np.arange(0, px.size), px)] for one [x], sample/sms/dsp.py
    lines 88-89, after numpy's C function [arr_interp]: NaN is returned as it
    is; outside, the first and the last value; at a sample, its value; between
    two samples, the line through the left one, or the line through the right
    one if this is NaN, or the common value of both if that is NaN, too.
    No samples raise ValueError. *)
Definition f_interp (x : f64_num) (px : list f64_num) : res f64_num :=
  match px with
  | [] => Err ValueError
  | p0 :: _ =>
    let n := List.length px in
    let xp j := f64_of (Z.of_nat j) 0 in
    let fp j := nth j px p0 in
    Ok (if is_nan x then x
        else if fgt x (xp (n - 1)%nat) then fp (n - 1)%nat
        else if fgt (xp 0%nat) x then p0
        else
          (* the last sample that is not right of [x] *)
          let j := (List.length (filter (fun j => negb (fgt (xp j) x)) (seq 0 n)) - 1)%nat in
          if Nat.eqb j (n - 1) then fp j
          else if @Beqb 53 1024 (xp j) x then fp j
          else
            let slope := fdiv (fsub (fp (j + 1)%nat) (fp j)) (fsub (xp (j + 1)%nat) (xp j)) in
            let y := fadd (fmul slope (fsub x (xp j))) (fp j) in
            if is_nan y then
              let y' := fadd (fmul slope (fsub x (xp (j + 1)%nat))) (fp (j + 1)%nat) in
              if is_nan y' && @Beqb 53 1024 (fp j) (fp (j + 1)%nat) then fp j else y'
            else y)
  end.

(** [peak_detect_interp], sample/sms/dsp.py lines 63-109, with phases: one
    triple (location, magnitude, phase) for each peak. *)
Definition f_peak_detect_interp (mx px : list f64_num) (t : option f64_num)
  : res (list (f64_num * f64_num * f64_num)) :=
  do ps <- mapM (f_refine1 mx) (f_peak_detect mx t);
  match px with
  | [] => Err ValueError
  | _ => mapM (fun p => do ph <- f_interp (fst p) px; Ok (p, ph)) ps
  end.

(** [pfreq = ploc * self.fs / self.n], sample/sms/sm.py line 327: what the
    tracker is called with at line 328. *)
Definition f_frame (fs : f64_num) (n : Z) (mx px : list f64_num) (t : option f64_num)
  : res (dframe f64) :=
  do ps <- f_peak_detect_interp mx px t;
  Ok (map (fun p => mkDPeak (A:=f64) (fdiv (fmul (fst (fst p)) fs) (f64_of n 0))
                                     (snd (fst p)) (snd p)) ps).
