(** [strided_convolution] and [strided_convolution_complex_kernel] (sample/utils/dsp.py lines 436-490) in double precision, as numpy computes
    them with IEEE 754 binary64. *)
From Coq Require Import String List Bool ZArith.
From Flocq Require Import Core IEEE754.BinarySingleNaN.
Import ListNotations.
From Verif Require Import Base Py Double_Model Peak_Model Stft_Model Synth_Model.
Local Open Scope Z_scope.

(** The value of a memory cell of a strided view; memory outside the array is an error of the model (proved not to occur). *)
Definition k_cell (c : option f64_num) : res f64_num := match c with Some v => Ok v | None => Err (OtherError 0) end.
(** The factors of each scalar product of [np.matmul(a, b)], lines 454-456: a window of the signal and the kernel in reverse. *)
Definition k_factors (x kernel : list f64_num) (stride : Z) : res (list (list (f64_num * f64_num))) :=
  do rows <- overlapping_windows x (zlen kernel) (Some stride);
  do a <- mapM (mapM k_cell) rows;
  Ok (map (fun row => combine row (rev kernel)) a).
(** [strided_convolution], lines 436-456, with [out=None]: [k_conv x kernel stride y] if [y] can be the result.  The order in which BLAS adds
    is left open, see [Synth_Model.dot]. *)
Definition k_conv (x kernel : list f64_num) (stride : Z) (y : res (list f64_num)) : Prop :=
  match k_factors x kernel stride with
  | Ok l => exists ys, y = Ok ys /\ Forall2 dot l ys
  | Err e => y = Err e
  end.
(** [strided_convolution_complex_kernel], lines 459-490, with [out=None]: real and imaginary parts of the kernel one after the other. *)
Definition k_complex (x : list f64_num) (kernel : list (f64_num * f64_num)) (stride : Z) (y : res (list (f64_num * f64_num))) : Prop :=
  exists re im, k_conv x (map fst kernel) stride re /\ k_conv x (map snd kernel) stride im /\ y = (do re <- re; do im <- im; Ok (combine re im)).
