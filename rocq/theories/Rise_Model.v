(** The filter of [onset_selection], sample/utils/dsp.py lines 572-584, in double precision as numpy computes it with IEEE 754 binary64. *)
From Coq Require Import String List Bool ZArith.
From Flocq Require Import Core IEEE754.BinarySingleNaN.
Import ListNotations.
From Verif Require Import Base Double_Model Peak_Model.
Local Open Scope Z_scope.

(** Python's [max] of two numbers (line 583): the second one only if it is greater than the first. *)
Definition py_max (a b : f64_num) : f64_num := if fgt b a then b else a.
(** [_onset_selection_g], the loop of lines 581-583 with the current [g]; [alpha_] is of line 580. *)
Fixpoint d_onset_loop (alpha alpha_ g : f64_num) (x : list f64_num) : list f64_num :=
  match x with
  | [] => []
  | f :: x' => let g := py_max f (fadd (fmul alpha g) (fmul alpha_ f)) in g :: d_onset_loop alpha alpha_ g x'
  end.
(** [_onset_selection_g], lines 573-584; the input has one dimension, and [out] is another array. *)
Definition d_onset_g (alpha : f64_num) (x : list f64_num) : list f64_num := d_onset_loop alpha (fsub (f64_of 1 0) alpha) (f64_of 0 0) x.
(** [np.greater_equal] of two numbers, and what line 632 writes into [ons[1:]]. *)
Definition d_ge (a b : f64_num) : bool := fgt a b || Beqb a b.
Definition d_rising (alpha : f64_num) (x : list f64_num) : list bool :=
  map (fun p => d_ge (fst p) (snd p)) (combine (tl x) (d_onset_g alpha x)).
