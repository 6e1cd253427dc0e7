(** The time axis of a track (sample/sample.py, [SAMPLE._preprocess_track]) and
    the hinge function (sample/hinge.py) in double precision, operation by
    operation as python and numpy compute them with IEEE 754 binary64. *)
From Coq Require Import String List Bool ZArith.
From Flocq Require Import Core IEEE754.BinarySingleNaN.
Import ListNotations.
From Verif Require Import Base Double_Model Peak_Model Sample_Model.
Local Open Scope Z_scope.

(** What [SAMPLE._preprocess_track] reads of the sinusoidal model and of its
    tracker, sample/sample.py lines 113-122: sampling rate, hop size and window
    size in samples, whether frames are padded, whether the signal is analysed
    backwards. *)
Record fcfg : Type := mkFCfg
  { fc_fs : f64_num; fc_h : Z; fc_wsize : Z; fc_padded : bool; fc_rev : bool }.

(** [np.logical_not(np.isnan(t["mag"]))], sample/sample.py line 111. *)
Definition f_notnans (mag : list f64_num) : list bool :=
  map (fun v => negb (@is_nan 53 1024 v)) mag.

(** The time axis of [SAMPLE._preprocess_track], sample/sample.py lines 111-116
    and 121-123: [start] is [t["start_frame"]] and [nx] is [np.size(x)].
    [self.sinusoidal.frame_rate] is [fs / h] (sample/sms/sm.py line 73).
    Divisions of python numbers may raise, those of arrays do not. *)
Definition f_time_axis (c : fcfg) (nx start : Z) (mag : list f64_num) : res (list f64_num) :=
  let time_axis := mask (f_notnans mag)
                     (map (fun i => f64_of (Z.of_nat i) 0) (seq 0 (List.length mag))) in
  let time_axis := map (fun v => fadd v (f64_of start 0)) time_axis in
  do frame_rate <- f64_div (fc_fs c) (f64_of (fc_h c) 0);
  let time_axis := map (fun v => fdiv v frame_rate) time_axis in
  do time_axis <-
    (if fc_padded c then Ok time_axis
     else do off <- f64_div (fmul (f64_of 1 (-1)) (f64_of (fc_wsize c) 0)) (fc_fs c);
          Ok (map (fun v => fadd v off) time_axis));
  if fc_rev c then
    do total <- f64_div (f64_of nx 0) (fc_fs c);
    Ok (map (fun v => fsub total v) time_axis)
  else Ok time_axis.

(** [np.minimum], sample/hinge.py line 31: the first argument if it is NaN or not
    above the second one. *)
Definition f_minimum (x y : f64_num) : f64_num :=
  if @is_nan 53 1024 x || @Bleb 53 1024 x y then x else y.

(** [hinge_function], sample/hinge.py lines 15-34, for one [x]. *)
Definition f_hinge (a k q x : f64_num) : f64_num := fadd q (fmul k (f_minimum x a)).
