(** Vocabulary for the properties of sample/sample.py. *)
From Coq Require Import String List ZArith Reals Permutation Sorted.
Import ListNotations.
From Verif Require Import Base Py RLists Sample_Model.
Local Open Scope R_scope.

(** Time in seconds assigned to analysis frame number [g]: frames are [h]
    samples apart, without padding the middle of the window is meant, in
    reverse mode time runs backwards from the end of the recording. *)
Definition frame_time (c : acfg) (nx : R) (g : Z) : R :=
  let t := IZR g * a_h c / a_fs c
           + (if a_padded c then 0 else a_wsize c / (2 * a_fs c)) in
  if a_rev c then nx / a_fs c - t else t.

(** Frames in which the track has a value. *)
Definition has_value (l : list (option R)) (i : nat) (v : R) : Prop :=
  nth_error l i = Some (Some v).

(** A track without misaligned gaps, of at least two frames. *)
Definition aligned (t : rtrack) : Prop :=
  (2 <= List.length (r_mag t))%nat /\
  List.length (r_freq t) = List.length (r_mag t) /\
  forall i, (exists v, has_value (r_freq t) i v) <-> (exists v, has_value (r_mag t) i v).

(** All three parameters of a mode are finite. *)
Definition all_finite (p : fl * fl * fl) : Prop :=
  exists f d a, p = (Fin f, Fin d, Fin a).

(** [ord] lists all indices of [keys] in an order that sorts the keys. *)
Definition sorts_asc (keys : list R) (ord : list nat) : Prop :=
  Permutation ord (seq 0 (List.length keys)) /\
  StronglySorted (fun i j => nth i keys 0 <= nth j keys 0) ord.
Definition sorts_dec (keys : list R) (ord : list nat) : Prop :=
  Permutation ord (seq 0 (List.length keys)) /\
  StronglySorted (fun i j => nth j keys 0 <= nth i keys 0) ord.

(** [argsort] is some sorting function (not necessarily a stable one). *)
Definition is_argsort (argsort : list R -> list nat) : Prop :=
  forall keys, sorts_asc keys (argsort keys).

(** The three parameter lists have the same length. *)
Definition same_size (m : modes) : Prop :=
  List.length (m_decays m) = List.length (m_freqs m) /\
  List.length (m_amps m) = List.length (m_freqs m).

(** Feature of mode [i] by name. *)
Definition feature_of (m : modes) (order : string) (i : nat) : R :=
  if String.eqb order "energies"
  then nth i (m_amps m) 0 ^ 2 * nth i (m_decays m) 0 / 4
  else if String.eqb order "freqs" then nth i (m_freqs m) 0
  else if String.eqb order "amps" then nth i (m_amps m) 0
  else nth i (m_decays m) 0.
Definition known_order (order : string) : Prop :=
  order = "energies"%string \/ order = "freqs"%string \/
  order = "amps"%string \/ order = "decays"%string.

(** The sound of modes: sum over [i] of
    [a_i * exp(-2t/d_i) * osc(2*pi*f_i*t + phi_i)]. *)
Definition superposition (osc : R -> R) (fs ds as_ ps : list R) (t : R) : R :=
  rsum (map (fun i => nth i as_ 0 * exp (-2 * t / nth i ds 0)
                      * osc (2 * PI * nth i fs 0 * t + nth i ps 0))
            (seq 0 (List.length fs))).

(** Values of a list at the given indices. *)
Definition pick (idx : list nat) (l : list R) : list R :=
  map (fun i => nth i l 0) idx.
