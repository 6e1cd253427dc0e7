(** Normalization of arrays, [normalize] of sample/utils/dsp.py lines 12-59, in double precision as
    numpy computes it with IEEE 754 binary64.  Arrays are lists (of any shape, flattened: means, minima and maxima are of
    all elements); [out] is a new array. *)
From Coq Require Import String List Bool ZArith Permutation.
From Flocq Require Import Core IEEE754.BinarySingleNaN.
Import ListNotations.
From Verif Require Import Base Double_Model Peak_Model Clock_Model.
Local Open Scope Z_scope.

(** [np.abs], line 27, and [np.sqrt], which [np.std] of line 43 ends with. *)
Definition f_abs (x : f64_num) : f64_num := @Babs 53 1024 x.
Definition f_sqrt (x : f64_num) : f64_num := @Bsqrt 53 1024 prec_pos prec_emax mode_NE x.
(** [np.max] and [np.min], lines 27, 58 and 59: NaN if there is a NaN, ValueError if there are no elements.  numpy may compare in
    another order, which can only change the sign of a zero. *)
Definition f_maximum (x y : f64_num) : f64_num :=
  if @is_nan 53 1024 x || @Bleb 53 1024 y x then x else y.
Definition f_max (x : list f64_num) : res f64_num :=
  match x with [] => Err ValueError | v :: x => Ok (fold_left f_maximum x v) end.
Definition f_min (x : list f64_num) : res f64_num :=
  match x with [] => Err ValueError | v :: x => Ok (fold_left f_minimum x v) end.

(** [normalize] with mode "peak", line 27. *)
Definition l_peak (x : list f64_num) : res (list f64_num) :=
  do m <- f_max (map f_abs x);
  Ok (map (fun v => fdiv v m) x).

(** [_normalize_range], lines 58-59. *)
Definition l_range (x : list f64_num) : res (list f64_num) :=
  do m <- f_min x;
  let d := map (fun v => fsub v m) x in
  do n <- f_max d;
  Ok (map (fun v => fdiv v n) d).

(** [adds l s]: [s] is one of the possible sums of [l]; numpy adds pairwise, in
    an order that depends on its version and on the machine, possibly starting from a zero. *)
Inductive adds : list f64_num -> f64_num -> Prop :=
| adds_one : forall x, adds [x] x
| adds_add : forall l r x y, adds l x -> adds r y -> adds (l ++ r) (fadd x y)
| adds_zero : forall b l x, adds l x -> adds l (fadd (B754_zero b) x)
| adds_perm : forall l r x, Permutation l r -> adds l x -> adds r x.

(** [np.mean] and [np.std], lines 42-43, with numpy's sum as an argument: the sum by the number of elements;
    the square root of the mean of the squares of the differences from the mean. *)
Definition l_mean (S : list f64_num -> f64_num) (x : list f64_num) : f64_num :=
  fdiv (S x) (f64_of (Z.of_nat (List.length x)) 0).
Definition l_diff (S : list f64_num -> f64_num) (x : list f64_num) : list f64_num :=
  map (fun v => fsub v (l_mean S x)) x.
Definition l_std (S : list f64_num -> f64_num) (x : list f64_num) : f64_num :=
  f_sqrt (l_mean S (map (fun v => fmul v v) (l_diff S x))).
(** [std or 1], line 43: both zeros are false, and NaN is true. *)
Definition f_or1 (x : f64_num) : f64_num := match x with B754_zero _ => f64_of 1 0 | _ => x end.
(** [_normalize_rms], lines 42-43.  (If [out] is [x] itself, [np.std] sees the differences; not modelled.) *)
Definition l_rms (S : list f64_num -> f64_num) (x : list f64_num) : list f64_num :=
  map (fun d => fdiv d (f_or1 (l_std S x))) (l_diff S x).
