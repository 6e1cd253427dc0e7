(** Model of sample/psycho.py (scales, A-weighting, gammatone filters) and of
    the level conversions of sample/utils/dsp.py, statement by statement on
    arrays in memory. *)
From Coq Require Import String List ZArith Reals.
Import ListNotations.
From Verif Require Import Base Np_Model Sample_Model.
Local Open Scope R_scope.

Section Junk.
Variable junk : nat -> nat -> R.

(** ** Bark *)

(** [_hz2bark_zwicker], sample/psycho.py lines 42-64. *)
Definition hz2bark_zwicker (f out : nat) : M nat :=
  tmp <-- empty_like junk out ;;
  un (fun x => 76 / 100000 * x) f tmp ;;;
  un atan tmp tmp ;;;
  un (fun x => 13 * x) tmp tmp ;;;
  un (fun x => x / 7500) f out ;;;
  un (fun x => x * x) out out ;;;
  un atan out out ;;;
  un (fun x => 35 / 10 * x) out out ;;;
  bin Rplus tmp out out.

(** [_hz2bark_traunmuller], lines 67-85. *)
Definition hz2bark_traunmuller (f out : nat) : M nat :=
  tmp <-- empty_like junk out ;;
  un (fun x => 1960 + x) f tmp ;;;
  un (fun x => 2681 / 100 * x) f out ;;;
  bin Rdiv out tmp out ;;;
  un (fun x => x - 53 / 100) out out.

(** [_hz2bark_wang], lines 88-103. *)
Definition hz2bark_wang (f out : nat) : M nat :=
  un (fun x => x / 600) f out ;;;
  un arcsinh out out ;;;
  un (fun x => 6 * x) out out.

(** [_bark2hz_traunmuller], lines 106-124. *)
Definition bark2hz_traunmuller (b out : nat) : M nat :=
  tmp <-- empty_like junk out ;;
  un (fun x => 53 / 100 + x) b tmp ;;;
  un (fun x => 2628 / 100 - x) b out ;;;
  bin Rdiv tmp out out ;;;
  un (fun x => x * 1960) out out.

(** [_bark2hz_wang], lines 127-142. *)
Definition bark2hz_wang (b out : nat) : M nat :=
  un (fun x => x / 6) b out ;;;
  un sinh out out ;;;
  un (fun x => 600 * x) out out.

(** ** Mel *)

(** [hz2mel], lines 145-161. *)
Definition hz2mel (f out : nat) : M nat :=
  un (fun x => x / 700) f out ;;;
  un (fun x => 1 + x) out out ;;;
  un log10 out out ;;;
  un (fun x => 2595 * x) out out.

(** [mel2hz], lines 164-180. *)
Definition mel2hz (mm out : nat) : M nat :=
  un (fun x => x / 2595) mm out ;;;
  un (Rpower 10) out out ;;;
  un (fun x => x - 1) out out ;;;
  un (fun x => x * 700) out out.

(** [np.log2]. *)
Definition log2 (x : R) : R := ln x / ln 2.

(** [_hz2mel_fant], lines 183-199. *)
Definition hz2mel_fant (f out : nat) : M nat :=
  un (fun x => x / 1000) f out ;;;
  un (fun x => 1 + x) out out ;;;
  un log2 out out ;;;
  un (fun x => 1000 * x) out out.

(** [_mel2hz_fant], lines 202-218. *)
Definition mel2hz_fant (mm out : nat) : M nat :=
  un (fun x => x / 1000) mm out ;;;
  un (Rpower 2) out out ;;;
  un (fun x => x - 1) out out ;;;
  un (fun x => x * 1000) out out.

(** ** Equivalent rectangular bandwidth *)

(** [erb], lines 221-247. *)
Definition erb (f out : nat) : M nat :=
  tmp <-- empty_like junk out ;;
  un (fun x => 9339 / 1000000 * x) f tmp ;;;
  un (fun x => x * x) f out ;;;
  un (fun x => 623 / 100000000 * x) out out ;;;
  bin Rplus out tmp out ;;;
  un (fun x => x + 2852 / 100) out out.

(** [_erb_linear], lines 250-266. *)
Definition erb_linear (f out : nat) : M nat :=
  un (fun x => 437 / 100000 * x) f out ;;;
  un (fun x => x + 1) out out ;;;
  un (fun x => 247 / 10 * x) out out.

(** [hz2cams], lines 269-294. *)
Definition hz2cams (f out : nat) : M nat :=
  tmp <-- empty_like junk out ;;
  un (fun x => x + 312) f tmp ;;;
  un (fun x => x + 14675) f out ;;;
  bin Rdiv tmp out out ;;;
  un ln out out ;;;
  un (fun x => 1117 / 100 * x) out out ;;;
  un (fun x => x + 43) out out.

(** [_hz2cams_linear], lines 297-312. *)
Definition hz2cams_linear (f out : nat) : M nat :=
  un (fun x => 437 / 100000 * x) f out ;;;
  un (fun x => 1 + x) out out ;;;
  un log10 out out ;;;
  un (fun x => 214 / 10 * x) out out.

(** [cams2hz], lines 315-341. *)
Definition cams2hz (c out : nat) : M nat :=
  k <-- empty_like junk out ;;
  un (fun x => x - 43) c k ;;;
  un (fun x => x / (1117 / 100)) k k ;;;
  un exp k k ;;;
  un (fun x => 14675 * x) k out ;;;
  un (fun x => 312 - x) out out ;;;
  un (fun x => x - 1) k k ;;;
  bin Rdiv out k out.

(** [_cams2hz_linear], lines 344-359. *)
Definition cams2hz_linear (c out : nat) : M nat :=
  un (fun x => x / (214 / 10)) c out ;;;
  un (Rpower 10) out out ;;;
  un (fun x => x - 1) out out ;;;
  un (fun x => x / (437 / 100000)) out out.

(** ** Decibel *)

(** [db2a], sample/utils/dsp.py lines 62-73. *)
Definition db2a_np (d out : nat) : M nat :=
  un (fun x => x / 20) d out ;;;
  un (Rpower 10) out out.

(** [_a2db_floorless], lines 100-111. *)
Definition a2db_floorless (a out : nat) : M nat :=
  un log10 a out ;;;
  un (fun x => 20 * x) out out.

(** [_a2db_floored], lines 117-132, with an array of floor values [fl]. *)
Definition a2db_floored (fl a out : nat) : M nat :=
  bin Rmax a fl out ;;;
  a2db_floorless out out.

(** [a2db], lines 76-97.  The floor, if any, is an array of the same size;
    [floor_db] converts it to a new array. *)
Definition a2db_np (floor : option nat) (floor_db : bool) (a out : nat) : M nat :=
  match floor with
  | None => a2db_floorless a out
  | Some fl =>
    fl' <-- (if floor_db then numpy_out junk db2a_np fl None else ret fl) ;;
    a2db_floored fl' a out
  end.

(** ** A-weighting *)

(** [a_weighting(f, db=False)], sample/psycho.py lines 379-394. *)
Definition a_weighting_lin (f out : nat) : M nat :=
  f2 <-- empty_like junk out ;;
  un (fun x => x * x) f f2 ;;;
  un (fun x => x + 1159929 / 100) f2 out ;;;
  tmp <-- empty_like junk out ;;
  un (fun x => x + 54449641 / 100) f2 tmp ;;;
  bin Rmult out tmp out ;;;
  un sqrt out out ;;;
  un (fun x => x + 42436 / 100) f2 tmp ;;;
  bin Rmult out tmp out ;;;
  un (fun x => x + 148693636) f2 tmp ;;;
  bin Rmult out tmp out ;;;
  un (fun x => x * x) f2 f2 ;;;
  un (fun x => 148693636 * x) f2 tmp ;;;
  bin Rdiv tmp out out.

(** [_a_weight_1kHz_db], line 397: level of the weight at 1 kHz, computed with
    the same function. *)
Definition a_weight_1kHz_db : res R :=
  match call junk a_weighting_lin [1000] with
  | Ok w => match call junk (a2db_np None false) w with
            | Ok [v] => Ok v
            | Ok _ => Err ValueError
            | Err e => Err e
            end
  | Err e => Err e
  end.

(** [a_weighting(f, db=True)], lines 377-378: the linear weights go to [out],
    the result is a new array. *)
Definition a_weighting_db (f out : nat) : M nat :=
  w <-- numpy_out junk a_weighting_lin f (Some out) ;;
  d <-- numpy_out junk (a2db_np None false) w None ;;
  match a_weight_1kHz_db with
  | Ok ref => r <-- empty_like junk d ;; un (fun x => x - ref) d r
  | Err e => fun _ => Err e
  end.

(** ** Modal energy *)

(** [modal_energy], sample/sample.py lines 19-36. *)
Definition modal_energy_np (d a out : nat) : M nat :=
  un (fun x => x * x) a out ;;;
  bin Rmult out d out ;;;
  un (fun x => x / 4) out out.

(** [semisum], [semidiff], sample/utils/__init__.py lines 258-291. *)
Definition semisum (y x out : nat) : M nat :=
  bin Rplus x y out ;;; un (fun v => v / 2) out out.
Definition semidiff (y x out : nat) : M nat :=
  bin Rminus x y out ;;; un (fun v => v / 2) out out.

(** ** Gammatone filter *)

(** [_envelope], sample/psycho.py lines 581-612, for a whole order [n]. *)
Definition gt_envelope (n : nat) (t_c b : R) (t out : nat) : M nat :=
  tmp <-- empty_like junk t ;;
  t_ <-- empty_like junk t ;;
  un (fun x => x + t_c) t t_ ;;;
  un (fun x => if Rle_lt_dec 0 x then 1 else 0) t_ out ;;;
  un (fun x => x ^ (n - 1)) t_ tmp ;;;
  bin Rmult tmp out out ;;;
  un (fun x => -2 * PI * b * x) t_ tmp ;;;
  un exp tmp tmp ;;;
  bin Rmult tmp out out.

(** A filter: parameters that may be left out are [None].  (Callables as
    parameters are not modelled, they stand for the number they return.) *)
Record gammatone : Type := mkGt
  { gt_f : R; gt_n : nat; gt_bandwidth : option R; gt_t_c : option R;
    gt_phi : option R; gt_normalize : bool; gt_a : option R }.

(** [bandwidth], lines 441-448 (the formula of [erb] for one number). *)
Definition erb_value (f : R) : R :=
  623 / 100000000 * (f * f) + 9339 / 1000000 * f + 2852 / 100.
Definition bandwidth (g : gammatone) : R :=
  match gt_bandwidth g with None => erb_value (gt_f g) | Some b => b end.

(** [raw_group_delay], lines 454-458. *)
Definition raw_group_delay (g : gammatone) : R :=
  (INR (gt_n g) - 1) / (2 * PI * bandwidth g).

(** [t_c], lines 470-477. *)
Definition t_c (g : gammatone) : R :=
  match gt_t_c g with None => raw_group_delay g | Some v => v end.

(** [group_delay] and its setter, lines 460-468. *)
Definition group_delay (g : gammatone) : R := raw_group_delay g - t_c g.
Definition set_group_delay (g : gammatone) (v : R) : gammatone :=
  mkGt (gt_f g) (gt_n g) (gt_bandwidth g) (Some (raw_group_delay g - v))
       (gt_phi g) (gt_normalize g) (gt_a g).

(** [phi], lines 483-490. *)
Definition phi (g : gammatone) : R :=
  match gt_phi g with None => -2 * PI * gt_f g * t_c g | Some v => v end.

(** [envelope], lines 614-632. *)
Definition envelope_of (g : gammatone) (t out : nat) : M nat :=
  gt_envelope (gt_n g) (t_c g) (bandwidth g) t out.

(** [wavefun], lines 634-664, for real output; note that [t] is read again
    after the envelope has been written to [out]. *)
Definition wavefun (g : gammatone) (t : nat) (out : option nat) : M nat :=
  o <-- numpy_out junk (envelope_of g) t out ;;
  tmp <-- empty_like junk o ;;
  un (fun x => 2 * PI * gt_f g * x) t tmp ;;;
  un (fun x => x + phi g) tmp tmp ;;;
  un cos tmp tmp ;;;
  bin Rmult o tmp o.

End Junk.
