(** [additive_synth] (sample/sample.py lines 338-378) in double precision, as numpy
    computes it with IEEE 754 binary64. *)
From Coq Require Import String List Bool ZArith Permutation.
From Flocq Require Import Core IEEE754.BinarySingleNaN.
Import ListNotations.
From Verif Require Import Base Double_Model Peak_Model Ripple_Model.
Local Open Scope Z_scope.

(** Multiplication and addition with one rounding, as BLAS may use it. *)
Definition ffma (x y z : f64_num) : f64_num := @Bfma 53 1024 prec_pos prec_emax mode_NE x y z.

(** Scalar products ([@], lines 362, 374 and 378): BLAS adds the products in an order that
    depends on the machine, with or without fused operations, possibly starting from
    zero.  [dot l x]: [x] is one of the possible results for the factors [l]. *)
Inductive dot : list (f64_num * f64_num) -> f64_num -> Prop :=
| dot_nil : dot [] (f64_of 0 0)
| dot_one : forall a b, dot [(a, b)] (fmul a b)
| dot_add : forall l r x y, l <> [] -> r <> [] -> dot l x -> dot r y -> dot (l ++ r) (fadd x y)
| dot_fma : forall a b l x, dot l x -> dot ((a, b) :: l) (ffma a b x)
| dot_zero : forall l x, l <> [] -> dot l x -> dot l (fadd (f64_of 0 0) x)
| dot_perm : forall l r x, Permutation l r -> dot l x -> dot r x.

(** The argument of the cosine, lines 362-372: [2 * np.pi * t * f], and the phase if there
    are phases. *)
Definition s_arg (t f : f64_num) (p : option f64_num) : f64_num :=
  let osc := fmul (fmul two_pi t) f in
  match p with None => osc | Some p => fadd osc p end.
(** The argument of the exponential, line 374; numpy divides by zero without an
    exception. *)
Definition s_dec (t d : f64_num) : f64_num := fmul t (fdiv (f64_of (-2) 0) d).
(** A partial at a time and its amplitude, lines 373-378. *)
Definition s_factors (T : trig) (t f d a : f64_num) (p : option f64_num) : f64_num * f64_num :=
  (fmul (t_exp T (s_dec t d)) (t_cos T (s_arg t f p)), a).

(** A mode: frequency, decay, amplitude and phase. *)
Record mode_ : Type := mkMode { m_f : f64_num; m_d : f64_num; m_a : f64_num; m_p : option f64_num }.
(** The lists of frequencies, decays, amplitudes and phases as modes.  Lists of
    different sizes are a ValueError, as in [Sample_Model.additive_synth]. *)
Fixpoint s_modes (freqs decays amps : list f64_num) (phases : option (list f64_num)) : res (list mode_) :=
  match freqs, decays, amps, phases with
  | [], [], [], None => Ok []
  | [], [], [], Some [] => Ok []
  | f :: fs, d :: ds, a :: as_, None =>
    do ms <- s_modes fs ds as_ None; Ok (mkMode f d a None :: ms)
  | f :: fs, d :: ds, a :: as_, Some (p :: ps) =>
    do ms <- s_modes fs ds as_ (Some ps); Ok (mkMode f d a (Some p) :: ms)
  | _, _, _, _ => Err ValueError
  end.

(** [additive_synth] with [analytic=False], lines 338-378: [audio T x ms ys] if [ys] can be
    the samples at the times [x].  ([np.squeeze] only removes axes.) *)
Definition s_audio (T : trig) (x : list f64_num) (ms : list mode_) (ys : list f64_num) : Prop :=
  Forall2 (fun t y => dot (map (fun m => s_factors T t (m_f m) (m_d m) (m_a m) (m_p m)) ms) y) x ys.
