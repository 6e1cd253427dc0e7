(** [lp_distance] with the default exponent 1 (sample/evaluation/metrics.py lines 13-33) in double precision, as numpy computes it with IEEE 754 binary64. *)
From Coq Require Import Bool ZArith List.
From Flocq Require Import Core IEEE754.BinarySingleNaN.
Import ListNotations.
From Verif Require Import Base Py Double_Model Peak_Model Level_Model.

(** [y] as [np.subtract] broadcasts it to the shape of [out], which is the one of [x], line 25: vectors of one element are repeated; ValueError if the
    lengths differ otherwise, also if it is [x] that has one element. *)
Definition q_fit (n : nat) (y : list f64_num) : res (list f64_num) :=
  if Nat.eqb (List.length y) n then Ok y
  else match y with
       | [v] => Ok (repeat v n)
       | _ => Err ValueError
       end.
(** [np.subtract] and [np.abs], lines 24-26. *)
Definition q_moduli (x y : list f64_num) : list f64_num := map (fun p => f_abs (fsub (fst p) (snd p))) (combine x y).
(** [np.sum], line 29: numpy's sum of some elements is an argument; the one of none is 0. *)
Definition q_sum (S : list f64_num -> f64_num) (l : list f64_num) : f64_num :=
  match l with [] => f64_of 0 0 | _ => S l end.
(** [lp_distance] of vectors of doubles with [p=1], lines 13-33; other exponents and arrays of integers (where the differences would be truncated) are not
    modelled in double precision. *)
Definition q_l1 (S : list f64_num -> f64_num) (x y : list f64_num) : res f64_num :=
  do y <- q_fit (List.length x) y;
  Ok (q_sum S (q_moduli x y)).
