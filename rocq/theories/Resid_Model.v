(** Model of the residual functions of the beat regressions
    (sample/beatsdrop/regression.py), of the variables that a beat computes
    (sample/beatsdrop/__init__.py) and of the resynthesis from them
    (sample/beatsdrop/sample.py).
    Numbers are real numbers; rounding and non-finite values are not modelled. *)
From Coq Require Import String List Bool ZArith Reals.
Import ListNotations.
From Verif Require Import Base Py RLists Np_Model Dsp_Model Sample_Model Psycho_Model Bank_Model Beat_Model
  Gamma_Model.
Local Open Scope R_scope.

(** ** Interpolation and quantiles of numpy *)

(** [np.interp(x, xp, fp)] for increasing [xp], at one [x]: the first value
    before the first point, the last one from the last point on, a straight
    line between two neighbours.  No points are a ValueError. *)
Fixpoint interp_from (x0 y0 : R) (xp fp : list R) (x : R) : R :=
  match xp, fp with
  | x1 :: xp', y1 :: fp' =>
    if Rlt_dec x x1 then (y1 - y0) / (x1 - x0) * (x - x0) + y0
    else interp_from x1 y1 xp' fp' x
  | _, _ => y0
  end.
Definition interp (xp fp : list R) (x : R) : res R :=
  match xp, fp with
  | x0 :: xp', y0 :: fp' => Ok (if Rlt_dec x x0 then y0 else interp_from x0 y0 xp' fp' x)
  | _, _ => Err ValueError
  end.

(** [np.quantile(v, q)] (method [linear]): position [q * (n - 1)] in the sorted
    values, on the line between its neighbours.  No values are an IndexError. *)
Fixpoint insert (v : R) (l : list R) : list R :=
  match l with
  | [] => [v]
  | w :: l' => if Rle_dec v w then v :: l else w :: insert v l'
  end.
Definition sort (l : list R) : list R := fold_right insert [] l.
Definition quantile (l : list R) (q : R) : res R :=
  match l with
  | [] => Err IndexError
  | _ =>
    let s := sort l in
    let pos := q * INR (List.length l - 1) in
    let j := Z.to_nat (Rfloor pos) in
    let v := nth j s 0 in
    Ok (v + (pos - INR j) * (nth (S j) s v - v))
  end.

(** ** Times and residuals *)

(** A time axis: one axis, or a column (shape [(-1, 1)]). *)
Inductive times : Type := Flat (l : list R) | Column (l : list R).
Definition time_list (t : times) : list R := match t with Flat l => l | Column l => l end.

(** An elementwise function of [data] (one axis) and of estimates that have the
    shape of the time axis, flattened: numpy compares every value of [data] with
    every value of a column.  (Broadcasting of arrays of one element is not
    modelled.) *)
Definition compare (g : R -> R -> R) (t : times) (data est : list R) : res (list R) :=
  match t with
  | Flat _ => if Nat.eqb (List.length data) (List.length est) then Ok (map2 g data est) else Err ValueError
  | Column _ => Ok (flat_map (fun e => map (fun d => g d e) data) est)
  end.

(** [np.arange(np.ceil(t_max * self.fs)) / self.fs], lines 138-140. *)
Definition model_axis (fs t_max : R) : list R :=
  map (fun i => INR i / fs) (seq 0 (Z.to_nat (Rceil (t_max * fs)))).

(** [BeatRegression._residual_fn], sample/beatsdrop/regression.py lines 126-147,
    applied to parameters. *)
Definition beat_residual (fs : R) (t : times) (a : list R) (p : params) : res (list R) :=
  do t_max <- amax (time_list t);
  let u := model_axis fs t_max in
  let a_lin := map db2a a in
  do am <- n_am (modal_beat p) (Arr u);
  match am with
  | Num _ => Err ValueError
  | Arr am =>
    do a_est <- mapM (interp u am) (time_list t);
    compare Rminus t a_lin a_est
  end.

(** The clipping of lines 445-448. *)
Definition np_clip (lo hi v : R) : R := Rmin (Rmax v lo) hi.
Definition clip_freqs (freq_clip : option R) (f : list R) : res (list R) :=
  match freq_clip with
  | None => Ok f
  | Some c =>
    do q1 <- quantile f (1 / 4);
    do q2 <- quantile f (1 / 2);
    do q3 <- quantile f (3 / 4);
    let max_df := c * (q3 - q1) / 2 in
    Ok (map (np_clip (q2 - max_df) (q2 + max_df)) f)
  end.

(** A loss function; [None] is the default one (lines 397-403).  Other functions
    are modelled if they act elementwise. *)
Definition loss : Type := option (R -> R -> R).
(** [_default_amp_loss], lines 416-426. *)
Definition amp_loss_of (l : loss) (t : times) (a_true a_est : list R) : res (list R) :=
  compare (match l with None => Rminus | Some g => g end) t a_true a_est.
(** [_default_freq_loss], lines 404-414. *)
Definition freq_loss_of (junk : nat -> nat -> R) (l : loss) (t : times) (f_true f_est : list R) : res (list R) :=
  match l with
  | None =>
    do m_true <- call junk hz2mel f_true;
    do m_est <- call junk hz2mel f_est;
    compare Rminus t m_true m_est
  | Some g => compare g t f_true f_est
  end.

(** Attributes of a [DualBeatRegression] that its residuals depend on, with the
    default values of lines 376-380. *)
Record dual : Type := mkDual
  { du_amp_loss : loss; du_freq_loss : loss; du_freq_w : R; du_freq_clip : option R }.
Definition dual_default : dual := mkDual None None (1 / 3800) (Some (5 / 2)).

(** [DualBeatRegression._residual_fn], lines 428-456, applied to parameters.
    [np.reshape([a_loss, f_loss], -1)] is the concatenation. *)
Definition dual_residual_fn (junk : nat -> nat -> R) (r : dual) (t : times) (a f : list R) (p : params)
  : res (list R) :=
  let a_lin := map db2a a in
  let f_abs := map Rabs f in
  do a_est <- n_am (modal_beat p) (Arr (time_list t));
  do f_est <- n_fm (modal_beat p) (Arr (time_list t));
  match a_est, f_est with
  | Arr a_est, Arr f_est =>
    do a_loss <- amp_loss_of (du_amp_loss r) t a_lin a_est;
    let f_est := map Rabs (map (fun v => v / (2 * PI)) f_est) in
    do f_est <- clip_freqs (du_freq_clip r) f_est;
    do f_loss <- freq_loss_of junk (du_freq_loss r) t f_abs f_est;
    Ok (a_loss ++ map (Rmult (du_freq_w r)) f_loss)
  | _, _ => Err ValueError
  end.

(** The phase estimate of [BeatRegression._default_params_init], lines 205-208:
    half of [np.angle] of the sum of the amplitudes times [expi], modulo pi, for
    times with one axis. *)
Definition np_mod (x m : R) : R := x - m * IZR (Rfloor (x / m)).
Definition phase_estimate (a t : list R) (am_freq : R) : R :=
  let w := fun tj => - 4 * PI * am_freq * tj in
  let re := rsum (map2 (fun aj tj => db2a aj * cos (w tj)) a t) in
  let im := rsum (map2 (fun aj tj => db2a aj * sin (w tj)) a t) in
  np_mod (atan2 im re / 2) PI.

(** ** Variables of a beat, sample/beatsdrop/__init__.py *)

(** The computational graph: names and nodes in the order in which
    [_define_base_graph], [_define_am], [_define_fm] (lines 86-166) and
    [__init__] (lines 77-83) set them. *)
Definition graph : list (string * (beat -> val -> res val)) :=
  [("t", fun _ t => Ok t);
   ("a0", fun b t => Ok (n_a0 b t)); ("a1", fun b t => Ok (n_a1 b t));
   ("f0", fun b t => Ok (n_f0 b t)); ("f1", fun b t => Ok (n_f1 b t));
   ("p0", fun b t => Ok (n_p0 b t)); ("p1", fun b t => Ok (n_p1 b t));
   ("a_oln", n_a_oln); ("a_hat", n_a_hat);
   ("f_oln", n_f_oln); ("f_hat", n_f_hat);
   ("p_oln", n_p_oln); ("p_hat", n_p_hat);
   ("da0_dt", n_da0); ("da1_dt", n_da1);
   ("w_hat", n_w_hat); ("w_oln", n_w_oln);
   ("a_oln2", fun b t => do v <- n_a_oln b t; Ok (vmap Rsqr v));
   ("a_hat2", fun b t => do v <- n_a_hat b t; Ok (vmap Rsqr v));
   ("alpha2", n_alpha2); ("am", n_am);
   ("fm_from_am", fun b t => do g <- n_g b t; do a2 <- n_alpha2 b t; vbin Rdiv g a2);
   ("fm", n_fm); ("pm", n_pm); ("x", n_x)]%string.

(** [Beat.variables], lines 165-168. *)
Definition variables : list string := map fst graph.

Fixpoint lookup {A} (k : string) (d : list (string * A)) : option A :=
  match d with
  | [] => None
  | (k', v) :: d' => if String.eqb k k' then Some v else lookup k d'
  end.

(** [Beat.compute] with an iterable of names and with one name, lines 170-180:
    the names are looked up before anything is computed. *)
Definition compute (b : beat) (t : val) (names : list string) : res (list val) :=
  do nodes <- mapM (fun k => match lookup k graph with Some n => Ok n | None => Err KeyError end) names;
  mapM (fun n => n b t) nodes.
Definition compute1 (b : beat) (t : val) (name : string) : res val :=
  do l <- compute b t [name];
  match l with v :: _ => Ok v | [] => Err IndexError end.

(** [np.squeeze] of a time axis: one time has no axes. *)
Definition squeeze_times (t : times) : val :=
  match time_list t with [v] => Num v | l => Arr l end.

(** [BeatRegression.predict], sample/beatsdrop/regression.py lines 309-322. *)
Definition beat_predict (b : beat) (t : times) (names : list string) : res (list val) :=
  compute b (squeeze_times t) (match names with [] => ["x"%string] | _ => names end).

(** [Beat.__getattr__], lines 182-187, for names that are no attribute of the
    object or of its class.  [g] is the attribute [_graph]: [None] before
    [__init__] sets it, when looking for it calls [__getattr__] again ([limit]
    calls are allowed). *)
Fixpoint beat_getattr (limit : nat) (g : option beat) (key : string) : res (val -> res val) :=
  match limit with
  | O => Err RecursionError
  | S n =>
    match g with
    | Some b => if existsb (String.eqb key) variables then Ok (fun t => compute1 b t key) else Err AttributeError
    | None => match beat_getattr n None "_graph" with
              | Ok _ => Err TypeError
              | Err e => Err e
              end
    end
  end.
(** [copy.copy], [copy.deepcopy] and [pickle.loads] ask a new object, made
    without [__init__], for the method [__setstate__]. *)
Definition copy_beat (limit : nat) (b : beat) : res beat :=
  do s <- hasattr (beat_getattr limit None "__setstate__");
  if s then Err TypeError else Ok b.

(** ** Resynthesis, sample/beatsdrop/sample.py *)

(** [SAMPLEBeatsDROP.predict], lines 113-124, and [phases_], lines 108-111: the
    learned phases are used unless [phases] is given.  ([order="phases"] is not
    modelled.) *)
Definition beatsdrop_predict (argsort : list R -> list nat) (osc : R -> R)
    (draw : nat -> list R) (max_n_modes : option Z) (cols : list quad) (x : list R)
    (n_modes : option Z) (order : string) (reverse : bool) (ph : option phases) : res (list R) :=
  let m := mkModes (map (fun c => fst (fst (fst c))) cols) (map (fun c => snd (fst (fst c))) cols)
                   (map (fun c => snd (fst c)) cols) in
  predict argsort osc draw max_n_modes m x n_modes order reverse
    (match ph with None => Some (PArr (map snd cols)) | Some p => Some p end).
