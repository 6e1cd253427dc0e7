(** The beat model of two partials (sample/beatsdrop/__init__.py, [Beat] and
    [ExponentialDecay]) in double precision, operation by operation as numpy and
    scipy compute it with IEEE 754 binary64.  Everything here is for one sample of
    the time axis, or for a list of samples; broadcasting is left to [Beat_Model]. *)
From Coq Require Import String List Bool ZArith.
From Flocq Require Import Core IEEE754.BinarySingleNaN.
Import ListNotations.
From Verif Require Import Base Double_Model Peak_Model.
Local Open Scope Z_scope.

(** numpy's [cos], [sin], [arctan2] and [exp]: functions of doubles.  Which ones
    they are depends on the C library, so they are arguments of the model. *)
Record trig : Type := mkTrig
  { t_cos : f64_num -> f64_num; t_sin : f64_num -> f64_num;
    t_atan2 : f64_num -> f64_num -> f64_num; t_exp : f64_num -> f64_num }.

(** [np.sqrt], which IEEE 754 defines. *)
Definition fsqrt (x : f64_num) : f64_num := @Bsqrt 53 1024 prec_pos prec_emax mode_NE x.
(** [2 * np.pi], lines 112-113. *)
Definition two_pi : f64_num := fmul (f64_of 2 0) (f64_of 884279719003555 (-48)).

(** The values of the nodes of [_define_base_graph], lines 88-92 and 99-111, for
    one sample: amplitudes, derivatives of the amplitudes, frequencies, phases
    and the time. *)
Record rpoint : Type := mkRPoint
  { r_a0 : f64_num; r_a1 : f64_num; r_da0 : f64_num; r_da1 : f64_num;
    r_f0 : f64_num; r_f1 : f64_num; r_p0 : f64_num; r_p1 : f64_num; r_t : f64_num }.

(** [Numpy2Paragraph._semisum] and [_semidiff], sample/utils/__init__.py lines
    257-291. *)
Definition f_semisum (x y : f64_num) : f64_num := fdiv (fadd x y) (f64_of 2 0).
Definition f_semidiff (x y : f64_num) : f64_num := fdiv (fsub x y) (f64_of 2 0).
(** [np.square], lines 118-119 and 123. *)
Definition f_square (x : f64_num) : f64_num := fmul x x.

(** The nodes of lines 93-97 and 112-113. *)
Definition r_a_oln (q : rpoint) : f64_num := f_semisum (r_a0 q) (r_a1 q).
Definition r_a_hat (q : rpoint) : f64_num := f_semidiff (r_a0 q) (r_a1 q).
Definition r_p_oln (q : rpoint) : f64_num := f_semisum (r_p0 q) (r_p1 q).
Definition r_p_hat (q : rpoint) : f64_num := f_semidiff (r_p0 q) (r_p1 q).
Definition r_w_oln (q : rpoint) : f64_num := fmul two_pi (f_semisum (r_f0 q) (r_f1 q)).
Definition r_w_hat (q : rpoint) : f64_num := fmul two_pi (f_semidiff (r_f0 q) (r_f1 q)).

(** [phase], lines 121-122 and 141-142. *)
Definition r_phase (q : rpoint) : f64_num := fadd (fmul (r_w_hat q) (r_t q)) (r_p_hat q).

(** The node [alpha2] of [_define_am], lines 116-126. *)
Definition r_alpha2 (T : trig) (q : rpoint) : f64_num :=
  let a_oln2 := f_square (r_a_oln q) in
  let a_hat2 := f_square (r_a_hat q) in
  let modulant := f_square (t_cos T (r_phase q)) in
  let am_range := fsub a_oln2 a_hat2 in
  fadd (fmul am_range modulant) a_hat2.

(** The node [am], lines 127-128. *)
Definition r_am (T : trig) (q : rpoint) : f64_num := fmul (fsqrt (r_alpha2 T q)) (f64_of 2 0).

(** The node [fm] of [_define_fm], lines 133-151. *)
Definition r_fm (T : trig) (q : rpoint) : f64_num :=
  let f := fmul (fmul (r_a_oln q) (r_a_hat q)) (r_w_hat q) in
  let g := fsub (fmul (r_da0 q) (r_a1 q)) (fmul (r_da1 q) (r_a0 q)) in
  let g_ := fmul (r_phase q) (f64_of 2 0) in
  let g := fmul (fmul g (t_sin T g_)) (f64_of 1 (-2)) in
  fadd (fdiv (fadd f g) (r_alpha2 T q)) (r_w_oln q).

(** [scipy.integrate.cumulative_trapezoid(y, x, initial=0)], line 160:
    [cumsum(diff(x) * (y[1:] + y[:-1]) / 2.0)] after a zero. *)
Fixpoint f_trapz_from (acc y0 x0 : f64_num) (yx : list (f64_num * f64_num)) : list f64_num :=
  match yx with
  | [] => []
  | (y, x) :: r =>
    let acc := fadd acc (fdiv (fmul (fsub x x0) (fadd y y0)) (f64_of 2 0)) in
    acc :: f_trapz_from acc y x r
  end.
Definition f_cumtrapz (yx : list (f64_num * f64_num)) : list f64_num :=
  match yx with
  | [] => []
  | (y, x) :: r => f64_of 0 0 :: f_trapz_from (f64_of 0 0) y x r
  end.

(** The initial phase, lines 153-158: [z0] and [z1] are the amplitudes at time
    zero. *)
Definition r_phase0 (T : trig) (z0 z1 : f64_num) (q : rpoint) : f64_num :=
  let y0 := fmul (f_semidiff z0 z1) (t_sin T (r_p_hat q)) in
  let x0 := fmul (f_semisum z0 z1) (t_cos T (r_p_hat q)) in
  fadd (r_p_oln q) (t_atan2 T y0 x0).

(** The node [pm], lines 159-162. *)
Definition r_pm (T : trig) (z0 z1 : f64_num) (qs : list rpoint) : list f64_num :=
  map (fun e => fadd (fst e) (r_phase0 T z0 z1 (snd e)))
      (combine (f_cumtrapz (map (fun q => (r_fm T q, r_t q)) qs)) qs).

(** The node [x], lines 82-83: the audio. *)
Definition r_audio (T : trig) (z0 z1 : f64_num) (qs : list rpoint) : list f64_num :=
  map (fun e => fmul (r_am T (snd e)) (t_cos T (fst e))) (combine (r_pm T z0 z1 qs) qs).

(** [ExponentialDecay.__init__], [__call__] and [dt], lines 198-229, for one
    sample. *)
Definition r_decay_k (d : f64_num) : res f64_num := f64_div (f64_of (-2) 0) d.
Definition r_decay (T : trig) (a k t : f64_num) : f64_num := fmul a (t_exp T (fmul k t)).
Definition r_decay_dt (T : trig) (a k t : f64_num) : f64_num := fmul (r_decay T a k t) k.

(** [ModalBeat] at one sample, lines 245-260. *)
Definition r_modal_point (T : trig) (a0 a1 f0 f1 k0 k1 p0 p1 t : f64_num) : rpoint :=
  mkRPoint (r_decay T a0 k0 t) (r_decay T a1 k1 t) (r_decay_dt T a0 k0 t) (r_decay_dt T a1 k1 t)
    f0 f1 p0 p1 t.
(** The audio of a [ModalBeat]; a decay of zero raises ZeroDivisionError. *)
Definition r_modal_audio (T : trig) (a0 a1 f0 f1 d0 d1 p0 p1 : f64_num) (ts : list f64_num)
  : res (list f64_num) :=
  do k0 <- r_decay_k d0;
  do k1 <- r_decay_k d1;
  let at_time := r_modal_point T a0 a1 f0 f1 k0 k1 p0 p1 in
  Ok (r_audio T (r_a0 (at_time (f64_of 0 0))) (r_a1 (at_time (f64_of 0 0))) (map at_time ts)).
