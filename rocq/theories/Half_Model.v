(** [_semisum] and [_semidiff] of [Numpy2Paragraph] (sample/utils/__init__.py lines 257-292) in double precision, as numpy computes them with IEEE 754
    binary64, for one number. *)
From Coq Require Import ZArith.
From Flocq Require Import Core IEEE754.BinarySingleNaN.
From Verif Require Import Base Double_Model Peak_Model.
Local Open Scope Z_scope.

(** [_semisum], lines 257-273; arrays are taken element by element. *)
Definition e_semisum (x y : f64_num) : f64_num :=
  let out := fadd x y in
  fdiv out (f64_of 2 0).
(** [_semidiff], lines 275-291; arrays are taken element by element. *)
Definition e_semidiff (x y : f64_num) : f64_num :=
  let out := fsub x y in
  fdiv out (f64_of 2 0).
