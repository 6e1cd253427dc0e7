(** Model of sample/beatsdrop: beat model, parameter sorting, disambiguation,
    default bounds, decision and parameters of SAMPLEBeatsDROP.  Numbers are
    real numbers; rounding and non-finite values are not modelled. *)
From Coq Require Import List Bool ZArith Reals.
Import ListNotations.
From Verif Require Import Base Py RLists Np_Model Dsp_Model Sample_Model.
Local Open Scope R_scope.

(** ** Numbers and arrays *)

(** A numpy scalar or a one-dimensional array. *)
Inductive val : Type := Num (r : R) | Arr (l : list R).

Definition vmap (f : R -> R) (v : val) : val :=
  match v with Num r => Num (f r) | Arr l => Arr (map f l) end.

(** A ufunc of two values without [out].  (Broadcasting of arrays of one
    element to other sizes is not modelled.) *)
Definition vbin (op : R -> R -> R) (x y : val) : res val :=
  match x, y with
  | Num a, Num b => Ok (Num (op a b))
  | Num a, Arr m => Ok (Arr (map (op a) m))
  | Arr l, Num b => Ok (Arr (map (fun a => op a b) l))
  | Arr l, Arr m => if Nat.eqb (List.length l) (List.length m)
                    then Ok (Arr (map2 op l m)) else Err ValueError
  end.

(** [_semisum], [_semidiff], sample/utils/__init__.py lines 257-292: [numpy_out]
    allocates [out] with the shape of the first argument, so that a number and
    an array do not fit. *)
Definition vsemi (op : R -> R -> R) (x y : val) : res val :=
  match x, y with
  | Num _, Arr _ => Err ValueError
  | _, _ => do v <- vbin op x y; Ok (vmap (fun s => s / 2) v)
  end.
Definition vsemisum : val -> val -> res val := vsemi Rplus.
Definition vsemidiff : val -> val -> res val := vsemi Rminus.

(** [np.arctan2]. *)
Definition atan2 (y x : R) : R :=
  if Rlt_dec 0 x then atan (y / x)
  else if Rlt_dec x 0 then
    (if Rlt_dec y 0 then atan (y / x) - PI else atan (y / x) + PI)
  else if Rlt_dec 0 y then PI / 2
  else if Rlt_dec y 0 then - (PI / 2)
  else 0.

(** [scipy.integrate.cumulative_trapezoid(y, x, initial=0)]. *)
Fixpoint cumtrapz_from (acc y0 x0 : R) (ys xs : list R) : list R :=
  match ys, xs with
  | y :: ys', x :: xs' =>
    let acc := acc + (x - x0) * (y + y0) / 2 in
    acc :: cumtrapz_from acc y x ys' xs'
  | _, _ => []
  end.
Definition cumtrapz (ys xs : list R) : list R :=
  match ys, xs with
  | y :: ys', x :: xs' => 0 :: cumtrapz_from 0 y x ys' xs'
  | _, _ => [0]
  end.
(** Arrays only (a number is an error in scipy). *)
Definition vcumtrapz (y x : val) : res val :=
  match y, x with
  | Arr ys, Arr xs => if Nat.eqb (List.length ys) (List.length xs)
                      then Ok (Arr (cumtrapz ys xs)) else Err ValueError
  | _, _ => Err ValueError
  end.

(** ** Beat model, sample/beatsdrop/__init__.py *)

(** A float or a function of time; functions act elementwise (other callables
    are not modelled). *)
Inductive foc : Type := FConst (r : R) | FFun (g : R -> R).
(** An amplitude: functions may carry their derivative [dt]. *)
Inductive amp : Type := AConst (r : R) | AFun (g : R -> R) (dt : option (R -> R)).

(** [_float_or_call], lines 22-45. *)
Definition float_or_call (x : foc) (t : val) : val :=
  match x with FConst r => Num r | FFun g => vmap g t end.

(** [Beat.__init__], lines 65-80. *)
Record beat : Type := mkBeat
  { b_a0 : amp; b_a1 : amp; b_f0 : foc; b_f1 : foc; b_p0 : foc; b_p1 : foc }.

Definition amp_foc (a : amp) : foc :=
  match a with AConst r => FConst r | AFun g _ => FFun g end.
(** The derivative, lines 100-111: zero for a number, AttributeError for a
    function without [dt]. *)
Definition amp_dt (a : amp) : res foc :=
  match a with
  | AConst _ => Ok (FConst 0)
  | AFun _ (Some d) => Ok (FFun d)
  | AFun _ None => Err AttributeError
  end.

(** The check made by the constructor. *)
Definition beat_init (b : beat) : res beat :=
  do _ <- amp_dt (b_a0 b);
  do _ <- amp_dt (b_a1 b);
  Ok b.

(** Nodes of the graph, evaluated at time [t]. *)
(** [_define_base_graph], lines 86-117. *)
Definition n_a0 b (t : val) : val := float_or_call (amp_foc (b_a0 b)) t.
Definition n_a1 b (t : val) : val := float_or_call (amp_foc (b_a1 b)) t.
Definition n_f0 b (t : val) : val := float_or_call (b_f0 b) t.
Definition n_f1 b (t : val) : val := float_or_call (b_f1 b) t.
Definition n_p0 b (t : val) : val := float_or_call (b_p0 b) t.
Definition n_p1 b (t : val) : val := float_or_call (b_p1 b) t.
Definition n_a_oln b t : res val := vsemisum (n_a0 b t) (n_a1 b t).
Definition n_a_hat b t : res val := vsemidiff (n_a0 b t) (n_a1 b t).
Definition n_f_oln b t : res val := vsemisum (n_f0 b t) (n_f1 b t).
Definition n_f_hat b t : res val := vsemidiff (n_f0 b t) (n_f1 b t).
Definition n_p_oln b t : res val := vsemisum (n_p0 b t) (n_p1 b t).
Definition n_p_hat b t : res val := vsemidiff (n_p0 b t) (n_p1 b t).
Definition n_da0 b t : res val := do d <- amp_dt (b_a0 b); Ok (float_or_call d t).
Definition n_da1 b t : res val := do d <- amp_dt (b_a1 b); Ok (float_or_call d t).
Definition n_w_hat b t : res val := do f <- n_f_hat b t; Ok (vmap (Rmult (2 * PI)) f).
Definition n_w_oln b t : res val := do f <- n_f_oln b t; Ok (vmap (Rmult (2 * PI)) f).

(** [_define_am], lines 119-133. *)
Definition n_phase b t : res val :=
  do w <- n_w_hat b t;
  do ph <- vbin Rmult w t;
  do p <- n_p_hat b t;
  vbin Rplus ph p.
Definition n_alpha2 b t : res val :=
  do ao <- n_a_oln b t;
  do ah <- n_a_hat b t;
  let ao2 := vmap Rsqr ao in
  let ah2 := vmap Rsqr ah in
  do phase <- n_phase b t;
  let modulant := vmap Rsqr (vmap cos phase) in
  do am_range <- vbin Rminus ao2 ah2;
  do m <- vbin Rmult am_range modulant;
  vbin Rplus m ah2.
Definition n_am b t : res val :=
  do a2 <- n_alpha2 b t; Ok (vmap (fun v => v * 2) (vmap sqrt a2)).

(** [_define_fm], lines 135-166. *)
Definition n_g b t : res val :=
  do da0 <- n_da0 b t;
  do da1 <- n_da1 b t;
  do g <- vbin Rmult da0 (n_a1 b t);
  do g' <- vbin Rmult da1 (n_a0 b t);
  do g <- vbin Rminus g g';
  do g_ <- n_phase b t;
  let g_ := vmap (fun v => v * 2) g_ in
  do g <- vbin Rmult g (vmap sin g_);
  Ok (vmap (fun v => v * (1 / 4)) g).
Definition n_fm b t : res val :=
  do ao <- n_a_oln b t;
  do ah <- n_a_hat b t;
  do f <- vbin Rmult ao ah;
  do w <- n_w_hat b t;
  do f <- vbin Rmult f w;
  do g <- n_g b t;
  do f <- vbin Rplus f g;
  do a2 <- n_alpha2 b t;
  do f <- vbin Rdiv f a2;
  do w <- n_w_oln b t;
  vbin Rplus f w.
(** The initial phase, lines 156-162; [compute(0, ...)] are numbers. *)
Definition n_init_phase b t : res val :=
  do ah0 <- n_a_hat b (Num 0);
  do ao0 <- n_a_oln b (Num 0);
  do ph <- n_p_hat b t;
  do y0 <- vbin Rmult ah0 (vmap sin ph);
  do x0 <- vbin Rmult ao0 (vmap cos ph);
  do po <- n_p_oln b t;
  do a <- vbin atan2 y0 x0;
  vbin Rplus po a.
Definition n_pm b t : res val :=
  do f <- n_fm b t;
  do p <- vcumtrapz f t;
  do p0 <- n_init_phase b t;
  vbin Rplus p p0.
(** [self._graph["x"]], lines 82-83. *)
Definition n_x b t : res val :=
  do am <- n_am b t;
  do pm <- n_pm b t;
  vbin Rmult am (vmap cos pm).

(** [ExponentialDecay], lines 190-229. *)
Definition exp_decay_k (d : R) : R := - 2 / d.
Definition exp_decay (a d t : R) : R := a * exp (exp_decay_k d * t).
Definition exp_decay_dt (a d t : R) : R := exp_decay a d t * exp_decay_k d.

(** The eight parameters a0, a1, f0, f1, d0, d1, p0, p1. *)
Record params : Type := mkParams
  { q_a0 : R; q_a1 : R; q_f0 : R; q_f1 : R; q_d0 : R; q_d1 : R; q_p0 : R; q_p1 : R }.

(** [ModalBeat.__init__], lines 232-259. *)
Definition modal_beat (p : params) : beat :=
  mkBeat (AFun (exp_decay (q_a0 p) (q_d0 p)) (Some (exp_decay_dt (q_a0 p) (q_d0 p))))
         (AFun (exp_decay (q_a1 p) (q_d1 p)) (Some (exp_decay_dt (q_a1 p) (q_d1 p))))
         (FConst (q_f0 p)) (FConst (q_f1 p)) (FConst (q_p0 p)) (FConst (q_p1 p)).

(** ** sample/beatsdrop/regression.py *)

(** [_param_energies], lines 48-56. *)
Definition param_energies (p : params) : R * R :=
  (modal_energy (q_a0 p) (q_d0 p), modal_energy (q_a1 p) (q_d1 p)).

(** [sort_params], lines 59-76; [np.argmin] gives the first of two equal
    values. *)
Definition sort_params (p : params) (key : params -> R * R) (descending : bool) : params :=
  let is_descending := if Rlt_dec (snd (key p)) (fst (key p)) then true else false in
  if xorb descending is_descending then
    mkParams (q_a1 p) (q_a0 p) (q_f1 p) (q_f0 p) (q_d1 p) (q_d0 p) (q_p1 p) (q_p0 p)
  else p.

(** [BeatRegression._default_params_init], lines 167-210, from the results of
    the numerical estimators: intercept [q] and slope [k] of the linear
    regression, [am_freq] from the autocorrelogram, [p_hat] from the phase
    estimate (an angle modulo pi). *)
Definition default_params_init (k q am_freq p_hat : R) (f : list R) : params :=
  let a := db2a q / 2 in
  let carrier := mean f in
  let d := - 40 * log10 (exp 1) / k in
  mkParams a a (carrier + am_freq) (carrier - am_freq) d d 0 (- 2 * p_hat).

(** [np.finfo(float).eps]. *)
Definition eps : R := / 2 ^ 52.

(** [BeatRegression._default_bounds], lines 212-261. *)
Definition default_bounds (t a f : list R) (p : params) : res (params * params) :=
  if (zlen t <=? 1)%Z then Err ValueError
  else
    let a_lin := map db2a a in
    do a_min <- amin a_lin;
    do a_max <- amax a_lin;
    let '(a_min, a_max) :=
      if Req_EM_T a_min a_max then
        (0, if Req_EM_T 0 a_max then 1 else a_max)
      else
        let a_max := Rmax (Rmax a_max (q_a0 p)) (q_a1 p) in
        let a_min := Rmin (Rmin a_min (q_a0 p)) (q_a1 p) in
        let a_d := a_max - a_min in
        (Rmax 0 (a_min - a_d), a_max + a_d) in
    do f_min <- amin f;
    do f_max <- amax f;
    let df := Rmin (f_max - f_min) 1 in
    let f_max := Rmax (Rmax (q_f0 p) (q_f1 p)) f_max + df in
    let f_min := Rmin (Rmin (q_f0 p) (q_f1 p)) f_min - df in
    Ok (mkParams a_min a_min f_min f_min eps eps (- PI) (q_p1 p - PI),
        mkParams a_max a_max f_max f_max 100 100 PI (q_p1 p + PI)).

Definition params_list (p : params) : list R :=
  [q_a0 p; q_a1 p; q_f0 p; q_f1 p; q_d0 p; q_d1 p; q_p0 p; q_p1 p].

Definition Rltb (x y : R) : bool := if Rlt_dec x y then true else false.

(** [np.less(bounds[0], x) & np.less(x, bounds[1])], lines 287-289. *)
Definition feasible (b : params * params) (p : params) : bool :=
  forallb (fun q => Rltb (fst (fst q)) (snd q) && Rltb (snd q) (snd (fst q)))
    (combine (combine (params_list (fst b)) (params_list (snd b))) (params_list p)).

(** [BeatRegression.fit], lines 263-307.  [init] is [params_init], [bounds]
    the bounds function, [least_squares res x0 bounds] the optimiser (arbitrary,
    it may raise), [res] the residual function. *)
Definition beat_fit (init : params) (bounds : params -> res (params * params))
    (least_squares : (params -> list R) -> params -> params * params -> res params)
    (residual : params -> list R) : res params :=
  do b <- bounds init;
  if feasible b init then least_squares residual init b else Err ValueError.

(** ** DualBeatRegression, lines 328-496 *)

(** [_residual_fn], lines 436-456.  [freq_clip] is the clipping to the quantile
    range (lines 445-448), any function here; [amp_loss], [freq_loss] are the
    loss functions (arrays to arrays). *)
Definition dual_residual (amp_loss freq_loss : list R -> list R -> list R)
    (freq_w : R) (freq_clip : list R -> list R) (t a f : list R) (p : params)
  : res (list R) :=
  let a_lin := map db2a a in
  let f_abs := map Rabs f in
  do a_est <- n_am (modal_beat p) (Arr t);
  do f_est <- n_fm (modal_beat p) (Arr t);
  match a_est, f_est with
  | Arr a_est, Arr f_est =>
    let a_loss := amp_loss a_lin a_est in
    let f_est := map Rabs (map (fun v => v / (2 * PI)) f_est) in
    let f_est := freq_clip f_est in
    let f_loss := freq_loss f_abs f_est in
    Ok (a_loss ++ map (Rmult freq_w) f_loss)
  | _, _ => Err ValueError
  end.

(** The second hypothesis, lines 472-480. *)
Definition exchange_freqs (p : params) : params :=
  mkParams (q_a0 p) (q_a1 p) (q_f1 p) (q_f0 p) (q_d0 p) (q_d1 p) (q_p1 p) (q_p0 p).

(** [_ssr], lines 482-492. *)
Definition ssr (residual : params -> list R) (p : params) : R :=
  rsum (map Rsqr (residual p)).

(** [min(hypoteses, key=_ssr)], line 494: the first one unless the second is
    strictly smaller. *)
Definition disambiguate (residual : params -> list R) (p : params) : params :=
  let p' := exchange_freqs p in
  if Rlt_dec (ssr residual p') (ssr residual p) then p' else p.

(** [DualBeatRegression.fit], lines 458-496. *)
Definition dual_fit (init : params) (bounds : params -> res (params * params))
    (least_squares : (params -> list R) -> params -> params * params -> res params)
    (residual : params -> list R) (disamb : bool) : res params :=
  do p <- beat_fit init bounds least_squares residual;
  Ok (if disamb then disambiguate residual p else p).

(** ** Decision and SAMPLEBeatsDROP *)

(** [BeatDecisor.output_params], [output_beat_params],
    sample/beatsdrop/decision.py lines 30-57: rows (f, d, a, phase). *)
Definition quad : Type := (R * R * R * R)%type.
Definition output_params (q : R * R * R) : list quad :=
  let '(f, d, a) := q in [(f, d, a, 0)].
Definition output_beat_params (p : params) : list quad :=
  [(q_f0 p, q_d0 p, q_a0 p, q_p0 p); (q_f1 p, q_d1 p, q_a1 p, q_p1 p)].

(** [AlmostNotABeatDecisor.decide_beat], lines 127-151. *)
Definition decide_beat (th : R) (p : params) : bool :=
  forallb (fun v => Rltb (th * eps) v)
    (map Rabs [q_f0 p - q_f1 p; q_a0 p; q_a1 p]).

(** [track_params], lines 78-106, after the beat regression gave [p]. *)
Definition track_params (th : R) (p : params) (q : R * R * R) : list quad :=
  if decide_beat th p then output_beat_params p else output_params q.

(** [SAMPLEBeatsDROP.fit]: the columns contributed by the tracks, in order
    (sample/beatsdrop/sample.py lines 88-111, sample/sample.py lines 181-190);
    an exception of one track propagates. *)
Definition beatsdrop_columns (th : R) (tracks : list (res params * (R * R * R)))
  : res (list quad) :=
  do l <- mapM (fun t => do p <- fst t; Ok (track_params th p (snd t))) tracks;
  Ok (concat l).
