(** Deciding if a track is a beat, [AlmostNotABeatDecisor] of sample/beatsdrop/decision.py lines
    106-151, in double precision as numpy computes it with IEEE 754 binary64. *)
From Coq Require Import String List Bool ZArith.
From Flocq Require Import Core IEEE754.BinarySingleNaN.
Import ListNotations.
From Verif Require Import Base Double_Model Peak_Model Level_Model.
Local Open Scope Z_scope.

(** [np.finfo(float).eps], line 128. *)
Definition f_eps : f64_num := f64_of 1 (-52).
(** [_th], lines 126-128. *)
Definition h_th (th : f64_num) : f64_num := fmul th f_eps.
(** [_not_amost_zero], lines 130-131, of one value. *)
Definition h_not_zero (th v : f64_num) : bool := fgt v (h_th th).
(** [decide_beat], lines 133-151; the parameters of the regression are [a0], [a1], [f0], [f1] and four that are not used.  The storage of
    intermediate results is modelled in [Beat_Model.v]. *)
Definition h_decide (th a0 a1 f0 f1 : f64_num) : bool :=
  forallb (h_not_zero th) (map f_abs [fsub f0 f1; a0; a1]).
