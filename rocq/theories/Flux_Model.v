(** [spectral_flux_from_tf] and [onset_detection] (sample/utils/dsp.py lines 521-537 and 642-679) in double precision, as numpy computes
    them with IEEE 754 binary64. *)
From Coq Require Import String Bool ZArith List.
From Flocq Require Import Core IEEE754.BinarySingleNaN.
Import ListNotations.
From Verif Require Import Base Py Np_Model Double_Model Peak_Model Level_Model Attack_Model.
Local Open Scope Z_scope.

(** [np.diff] of a row, line 535. *)
Fixpoint u_diff (l : list f64_num) : list f64_num :=
  match l with
  | a :: ((b :: _) as l') => fsub b a :: u_diff l'
  | _ => []
  end.
(** [np.maximum(delta, 0)] of a row, line 536. *)
Definition u_delta (row : list f64_num) : list f64_num := map (fun d => f_maximum d (f64_of 0 0)) (u_diff row).
(** [spectral_flux_from_tf], lines 521-537, from the moduli [a] of line 534 (rows of the same length, one for each frequency).  numpy's sum is an argument;
    that the result is stored in the first row does not change it, as numpy copies arrays that overlap. *)
Definition u_flux (S : list f64_num -> f64_num) (a : list (list f64_num)) : res (list f64_num) :=
  match map u_delta a with
  | [] => Err IndexError
  | row :: rows => Ok (map (fun t => S (map (fun r => nth t r (f64_of 0 0)) (row :: rows))) (seq 0 (List.length row)))
  end.

(** The sample at the onset [i] of [fsize], lines 674-678: the product of integers, the quotient of doubles, [np.floor] and [astype(int)].
    Products of [2^63] or more, which wrap around, are not modelled. *)
Definition u_index (i size fsize : Z) : Z :=
  @Btrunc 53 1024 (@Bnearbyint 53 1024 prec_emax mode_DN (fdiv (f64_of (i * size) 0) (f64_of fsize 0))).
(** [onset_detection], lines 673-679, from the onsets of line 672. *)
Definition u_mark (ons_subs : list bool) (size : Z) : res (list bool) :=
  let fsize := zlen ons_subs in
  let idx := filter (fun i => nth i ons_subs false) (seq 0 (List.length ons_subs)) in
  let idx := map (fun i => u_index (Z.of_nat i) size fsize) idx in
  foldM (fun ons i => if (0 <=? i) && (i <? zlen ons) then Ok (upd (Z.to_nat i) true ons) else Err IndexError) (repeat false (Z.to_nat size)) idx.
(** [onset_detection], lines 671-679, with spectral flux, of a signal with [size] samples from the moduli [a] of its time-frequency matrix. *)
Definition u_detection (S : list f64_num -> f64_num) (junk : nat -> bool) (a : list (list f64_num)) (size w m : Z) (alpha delta : f64_num) : res (list bool) :=
  do f <- u_flux S a;
  do ons_subs <- a_onset_selection S junk f w m alpha delta;
  u_mark ons_subs size.
