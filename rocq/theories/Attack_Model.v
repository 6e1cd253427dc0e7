(** [local_maxima], [_onset_selection_m] and [onset_selection] (sample/utils/dsp.py lines 540-639) in double precision, as numpy computes
    them with IEEE 754 binary64. *)
From Coq Require Import String Bool ZArith Reals List.
From Flocq Require Import Core IEEE754.BinarySingleNaN.
Import ListNotations.
From Verif Require Import Base Py Np_Model Double_Model Peak_Model Stft_Model Dsp_Model Level_Model Rise_Model Kernel_Model.
Local Open Scope Z_scope.

(** [local_maxima], lines 540-570; [out] are the contents of [out] before. *)
Definition a_local_maxima (x : list f64_num) (w : Z) (key : option (list f64_num)) (logical_and : bool) (out : list bool) : res (list bool) :=
  let key := match key with None => x | Some k => slice None (Some (zlen x)) k end in
  do rows <- overlapping_windows key (2 * w + 1) (Some 1);
  do wins <- mapM (mapM k_cell) rows;
  do maxima <- mapM f_max wins;
  let xs := slice (Some w) (Some (- w)) x in
  let out_mid := slice (Some w) (Some (- w)) out in
  do mid <- (if logical_and then
               do mx <- ufunc2 d_ge xs maxima (List.length maxima);
               ufunc2 andb mx out_mid (List.length out_mid)
             else ufunc2 d_ge xs maxima (List.length out_mid));
  do out <- set_slice (Some w) (Some (- w)) mid out;
  do out <- set_slice None (Some w) [false] out;
  set_slice (Some (- w)) None [false] out.

(** [_onset_selection_m], lines 587-600; numpy's sum is an argument, see [Level_Model.v]. *)
Definition a_onset_m (S : list f64_num -> f64_num) (x : list f64_num) (w m : Z) (delta : f64_num) (out : list f64_num) : res (list f64_num) :=
  do rows <- overlapping_windows x ((m + 1) * w + 1) (Some 1);
  do wins <- mapM (mapM k_cell) rows;
  do out <- set_slice None (Some (m * w)) [f64_of 0 0] out;
  do out <- set_slice (Some (- w)) None [f64_of 0 0] out;
  (* reductions need an [out] of exactly the size of the result *)
  if Nat.eqb (List.length wins) (List.length (slice (Some (m * w)) (Some (- w)) out)) then
    do out <- set_slice (Some (m * w)) (Some (- w)) (map (l_mean S) wins) out;
    Ok (map (fun v => fadd v delta) out)
  else Err ValueError.

(** [onset_selection], lines 603-639.  [junk] is the uninitialised memory of [ons]. *)
Definition a_onset_selection (S : list f64_num -> f64_num) (junk : nat -> bool) (x : list f64_num) (w m : Z) (alpha delta : f64_num) : res (list bool) :=
  let x_n := l_rms S x in
  let n := List.length x_n in
  let ons := map junk (seq 0 n) in
  let tmp := d_onset_g alpha x_n in
  do c <- ufunc2 d_ge (slice (Some 1) None x_n) (slice None (Some (-1)) tmp) (List.length (slice (Some 1) None ons));
  do ons <- set_slice (Some 1) None c ons;
  do tmp <- a_onset_m S x_n w m delta tmp;
  do c <- ufunc2 d_ge x_n tmp n;
  do ons <- ufunc2 andb ons c n;
  a_local_maxima x w None true ons.
