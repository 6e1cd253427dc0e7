(** The arithmetic of [BeatsGenerator] (sample/evaluation/random.py) in double precision: random numbers, and decibels converted to
    amplitudes, are arguments. *)
From Coq Require Import String Bool ZArith List.
From Flocq Require Import Core IEEE754.BinarySingleNaN.
Import ListNotations.
From Verif Require Import Base Py ListLemmas Np_Model Double_Model Peak_Model Level_Model Rise_Model.
Local Open Scope Z_scope.

(** [beta_twosides], lines 141-145, from the numbers [x] (beta) and [u] (uniform) that are drawn. *)
Definition d_side (x u left right positive : f64_num) : f64_num :=
  let x := fmul x (fsub right left) in
  let x := fadd x left in
  fmul x (fsub (fmul (f64_of 2 0) (if d_ge positive u then f64_of 1 0 else f64_of 0 0)) (f64_of 1 0)).
(** The difference of the two frequencies that beat, lines 156-159. *)
Definition d_beat (x u beat_min beat_max : f64_num) : res f64_num :=
  do lo <- f64_div (f64_of 1 0) beat_max;
  do hi <- f64_div (f64_of 1 0) beat_min;
  f64_div (f64_of 1 0) (d_side x u lo hi (f64_of 1 (-1))).

(** numpy's check of a scale: no sign bit, unless NaN. *)
Definition d_negative (x : f64_num) : bool := negb (@is_nan 53 1024 x) && @Bsign 53 1024 x.
(** [decays], lines 185-187; [draw s] are the three numbers drawn with the scale [s]. *)
Definition d_decays (draw : f64_num -> list f64_num) (decay decay_min : f64_num) : res (list f64_num) :=
  let scale := fsub decay decay_min in
  if d_negative scale then Err ValueError
  else Ok (map (fun v => fadd v decay_min) (draw scale)).

(** [amps], lines 201-204, from the amplitudes [a] of line 200 and [sine_amp]; numpy's sum is an argument. *)
Definition d_amps (S : list f64_num -> f64_num) (onlybeat : bool) (sine_amp : f64_num) (a : list f64_num) : list f64_num :=
  let a := if onlybeat then upd (List.length a - 1) (f64_of 0 0) a else a in
  map (fun v => fmul v (fdiv sine_amp (S a))) a.

(** The duration of [audio] and its number of samples, lines 227-228 and 233; also the first and last sample of a
    crop (scripts/beatsdrop/example.py lines 155-156 and 173-174). *)
Definition d_dur (dur : option f64_num) (decay : f64_num) : f64_num :=
  match dur with None => fmul decay (f64_of 3 0) | Some d => d end.
Definition d_samples (dur fs : f64_num) : res Z :=
  match fmul dur fs with
  | B754_nan => Err ValueError
  | B754_infinity _ => Err OverflowError
  | p => Ok (@Btrunc 53 1024 p)
  end.
