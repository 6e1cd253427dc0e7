(** The scales of sample/psycho.py that need only arithmetic, in double precision, for one number. *)
From Coq Require Import ZArith List.
From Flocq Require Import Core IEEE754.BinarySingleNaN.
From Verif Require Import Base Double_Model Peak_Model.
Local Open Scope Z_scope.

(** The doubles that python makes of 26.81, 0.53, 26.28, 6.23e-6, 0.009339, 28.52, 0.00437 and 24.7 (lines 83-85, 120-124, 242-247 and 264-266). *)
Definition k_26_81 : f64_num := f64_of 7546344125612687 (-48).
Definition k_0_53 : f64_num := f64_of 4773815605012726 (-53).
Definition k_26_28 : f64_num := f64_of 7397162387956040 (-48).
Definition k_6_23e_6 : f64_num := f64_of 7355085797069472 (-70).
Definition k_0_009339 : f64_num := f64_of 5383566965761672 (-59).
Definition k_28_52 : f64_num := f64_of 8027666335787909 (-48).
Definition k_0_00437 : f64_num := f64_of 5038266975131921 (-60).
Definition k_24_7 : f64_num := f64_of 6952431924753203 (-48).

(** [_hz2bark_traunmuller], lines 67-85. *)
Definition s_bark (f : f64_num) : f64_num :=
  let tmp := fadd (f64_of 1960 0) f in
  let out := fmul k_26_81 f in
  let out := fdiv out tmp in
  fsub out k_0_53.
(** [_bark2hz_traunmuller], lines 106-124. *)
Definition s_hz (b : f64_num) : f64_num :=
  let tmp := fadd k_0_53 b in
  let out := fsub k_26_28 b in
  let out := fdiv tmp out in
  fmul out (f64_of 1960 0).
(** [erb], lines 223-247. *)
Definition s_erb (f : f64_num) : f64_num :=
  let tmp := fmul k_0_009339 f in
  let out := fmul f f in
  let out := fmul k_6_23e_6 out in
  let out := fadd out tmp in
  fadd out k_28_52.
(** [_erb_linear], lines 250-266. *)
Definition s_erb_linear (f : f64_num) : f64_num :=
  let out := fmul k_0_00437 f in
  let out := fadd out (f64_of 1 0) in
  fmul k_24_7 out.
