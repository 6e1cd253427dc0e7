(** [dychotomic_zero_crossing] (sample/utils/dsp.py lines 153-185) in double
    precision, operation by operation as python computes them with IEEE 754
    binary64. *)
From Coq Require Import String List Bool ZArith.
From Flocq Require Import Core IEEE754.BinarySingleNaN.
From Verif Require Import Base Double_Model Peak_Model.

(** The number 0 of lines 169, 177 and 179 of sample/utils/dsp.py, as a double. *)
Definition f_zero : f64_num := B754_zero false.

(** [(lo + hi) / 2], sample/utils/dsp.py lines 174 and 183.  The divisor is not
    zero, so python's division does not raise. *)
Definition f_mid (lo hi : f64_num) : f64_num := fdiv (fadd lo hi) (f64_of 2 0).

(** The loop of sample/utils/dsp.py lines 175-184, with [n] steps to go. *)
Fixpoint f_bisect_loop (func : f64_num -> f64_num) (n : nat) (lo hi a : f64_num) : f64_num :=
  match n with
  | O => a
  | S n =>
    let f_a := func a in
    if fgt f_zero f_a then f_bisect_loop func n a hi (f_mid a hi)
    else if fgt f_a f_zero then f_bisect_loop func n lo a (f_mid lo a)
    else a
  end.

(** [dychotomic_zero_crossing], sample/utils/dsp.py lines 153-185.  [func] is any
    function from doubles to doubles; simplified: it does not raise and returns
    the same value each time.  The text of the error is left out. *)
Definition f_bisect (func : f64_num -> f64_num) (lo hi : f64_num) (steps : nat) : res f64_num :=
  let f_lo := func lo in
  let f_hi := func hi in
  if fgt (fmul f_lo f_hi) f_zero then Err ValueError
  else
    let '(lo, hi) := if fgt f_lo f_hi then (hi, lo) else (lo, hi) in
    Ok (f_bisect_loop func steps lo hi (f_mid lo hi)).
