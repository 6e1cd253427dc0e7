(** Specification vocabulary for the trackers: what a user expects, written
    without the loops of the model. *)
From Coq Require Import String List ZArith QArith Qabs Lia Bool Permutation Sorting.Sorted.
Import ListNotations.
From Verif Require Import Base Tracker_Model.
Local Open Scope Q_scope.

(** Some result of [np.argsort(-pmag)]: a permutation of the indices along
    which magnitudes never increase.  (numpy's default sort is not stable, so
    every such permutation is possible.) *)
Definition sorts_desc (fr : frame) (ord : list nat) : Prop :=
  Permutation ord (seq 0 (List.length fr)) /\
  StronglySorted
    (fun a b => pk_m (nth b fr no_peak) <= pk_m (nth a fr no_peak)) ord.

(** A possible history of calls: every frame comes with a sorting order. *)
Definition valid_hist (hist : list (frame * list nat)) : Prop :=
  Forall (fun fo => sorts_desc (fst fo) (snd fo)) hist.

(** Distance of a peak from the last frequency of a track, and the
    deviation threshold. *)
Definition dist (t : track) (p : peak) : Q := Qabs (last (t_freq t) 0 - pk_f p).
Definition within (c : cfg) (t : track) (p : peak) : Prop :=
  dist t p < c_off c + c_slope c * pk_f p.

(** [(i, p)] in [M] reads: active track [i] is continued by peak [p]. *)
Record greedy_matching (c : cfg) (ts : list track) (fr : frame)
    (M : list (nat * nat)) : Prop := {
  gm_range : forall i p, In (i, p) M ->
    (i < List.length ts)%nat /\ (p < List.length fr)%nat;
  gm_track_once : NoDup (map fst M);
  gm_peak_once : NoDup (map snd M);
  (* continuation only below the threshold *)
  gm_threshold : forall i p, In (i, p) M ->
    within c (nth i ts no_track) (nth p fr no_peak);
  (* a track that is nearer (or as near, and older in the list) than the
     chosen one is taken by a peak that is at least as loud *)
  gm_nearest : forall i p j, In (i, p) M -> (j < List.length ts)%nat ->
    (dist (nth j ts no_track) (nth p fr no_peak)
       < dist (nth i ts no_track) (nth p fr no_peak)
     \/ (dist (nth j ts no_track) (nth p fr no_peak)
           == dist (nth i ts no_track) (nth p fr no_peak) /\ (j < i)%nat)) ->
    exists q, In (j, q) M /\
      pk_m (nth p fr no_peak) <= pk_m (nth q fr no_peak);
  (* a free peak has all compatible tracks taken by peaks at least as loud *)
  gm_free : forall p j, (p < List.length fr)%nat -> ~ In p (map snd M) ->
    (j < List.length ts)%nat ->
    within c (nth j ts no_track) (nth p fr no_peak) ->
    exists q, In (j, q) M /\
      pk_m (nth p fr no_peak) <= pk_m (nth q fr no_peak)
}.

(** The peak that continues track [i], if any. *)
Definition partner (M : list (nat * nat)) (i : nat) : option nat :=
  option_map snd (find (fun ip => Nat.eqb (fst ip) i) M).

(** Tracks after the frame, in order: continued ones with their peak added. *)
Definition surviving (ts : list track) (fr : frame) (M : list (nat * nat))
  : list track :=
  flat_map
    (fun i => match partner M i with
              | Some p =>
                let t := nth i ts no_track in
                let k := nth p fr no_peak in
                [mkTrack (t_start t) (t_freq t ++ [pk_f k])
                         (t_mag t ++ [pk_m k]) (t_ph t ++ [pk_p k])]
              | None => []
              end)
    (seq 0 (List.length ts)).

(** Tracks that end, in order. *)
Definition dying (ts : list track) (M : list (nat * nat)) : list track :=
  flat_map
    (fun i => match partner M i with
              | Some _ => []
              | None => [nth i ts no_track]
              end)
    (seq 0 (List.length ts)).

(** Indices of the peaks that continue no track. *)
Definition free_peaks (fr : frame) (M : list (nat * nat)) : list nat :=
  filter (fun p => negb (existsb (Nat.eqb p) (map snd M)))
         (seq 0 (List.length fr)).

(** How many new tracks fit. *)
Definition room (c : cfg) (n : nat) : nat := Z.to_nat (c_max c - Z.of_nat n).

(** Tracks started in frame [n]. *)
Definition born (c : cfg) (n : nat) (fr : frame) (M : list (nat * nat))
    (ns : nat) : list track :=
  map (fun p => let k := nth p fr no_peak in
                mkTrack n [pk_f k] [pk_m k] [pk_p k])
      (firstn (room c ns) (free_peaks fr M)).

(** The deactivator that keeps everything: it logs every track that ends. *)
Definition log_deact : deactivator := fun sv t => Ok (sv ++ [numpy_track t]).

(** ** Where the samples of a track come from *)

(** Peak number [p] of frame number [x] of the history is [k]. *)
Definition peak_at (hist : list (frame * list nat)) (x p : nat) (k : peak)
  : Prop :=
  exists fr ord, nth_error hist x = Some (fr, ord) /\ nth_error fr p = Some k.

(** [lab] says, for each sample of the reported track [t], which peak of the
    corresponding frame it is ([None]: a NaN gap). *)
Definition labels_ok (hist : list (frame * list nat)) (t : strack)
    (lab : list (option nat)) : Prop :=
  List.length (s_freq t) = List.length lab /\
  List.length (s_mag t) = List.length lab /\
  List.length (s_ph t) = List.length lab /\
  forall k, (k < List.length lab)%nat ->
    match nth k lab None with
    | Some p => exists q, peak_at hist (s_start t + k) p q /\
        nth k (s_freq t) None = Some (pk_f q) /\
        nth k (s_mag t) None = Some (pk_m q) /\
        nth k (s_ph t) None = Some (pk_p q)
    | None => nth k (s_freq t) None = None /\ nth k (s_mag t) None = None /\
              nth k (s_ph t) None = None
    end.

(** The (frame, peak) pairs a labelled track uses. *)
Definition used (tl : strack * list (option nat)) : list (nat * nat) :=
  flat_map
    (fun xl => match snd xl with Some p => [(fst xl, p)] | None => [] end)
    (combine (seq (s_start (fst tl)) (List.length (snd tl))) (snd tl)).

(** ** Merged tracks *)

(** The samples of consecutive segments with NaN in the frames between
    them. *)
Fixpoint spliced (fld : track -> list Q) (ss : list track)
  : list (option Q) :=
  match ss with
  | [] => []
  | s :: rest =>
    match rest with
    | [] => map Some (fld s)
    | s' :: _ =>
      map Some (fld s)
      ++ repeat None (t_start s' - (t_start s + List.length (fld s)))%nat
      ++ spliced fld rest
    end
  end.

(** Each segment ends at least one frame before the next one starts. *)
Fixpoint separated (ss : list track) : Prop :=
  match ss with
  | s :: ((s' :: _) as rest) =>
    (t_start s + List.length (t_mag s) < t_start s')%nat /\ separated rest
  | _ => True
  end.

(** Reported track [t] consists of segments [ss]. *)
Definition made_of (t : strack) (ss : list track) : Prop :=
  ss <> [] /\ separated ss /\ s_start t = t_start (hd no_track ss) /\
  s_freq t = spliced t_freq ss /\ s_mag t = spliced t_mag ss /\
  s_ph t = spliced t_ph ss.

(** ** Acceptance criteria of the modal tracker *)

(** Sum of the squared residuals of the line [k x + q], and what a
    least-squares line is. *)
Definition ssr (xs ys : list Q) (k q : Q) : Q :=
  fold_right Qplus 0
    (map (fun xy => (snd xy - (k * fst xy + q)) * (snd xy - (k * fst xy + q)))
         (combine xs ys)).
Definition least_squares_line (xs ys : list Q) (k q : Q) : Prop :=
  forall k' q', ssr xs ys k q <= ssr xs ys k' q'.

(** Position of each sample in playback order: 0, 1, ... from the first
    sample, or from the last one when the analysed audio was reversed. *)
Definition playback (reversed : bool) (n : nat) : list Q :=
  map (fun i => inject_Z (Z.of_nat (if reversed then n - 1 - i else i)%nat))
      (seq 0 n).

Definition mean (l : list Q) : Q :=
  fold_right Qplus 0 l / inject_Z (Z.of_nat (List.length l)).

Definition meets_criteria (m : mcfg) (t : track) : Prop :=
  let n := List.length (t_freq t) in
  let c := m_base m in
  (2 <= n)%nat /\
  (* duration in seconds *)
  c_dur c * (c_fs c / inject_Z (Zpos (c_h c))) <= inject_Z (Z.of_nat n) /\
  (forall b, m_fmin m = Some b -> b <= mean (t_freq t)) /\
  (forall b, m_fmax m = Some b -> mean (t_freq t) <= b) /\
  exists k q, least_squares_line (playback (m_rev m) n) (t_mag t) k q /\
              k <= 0 /\ m_thr m <= q.

(** A track as the tracker makes them: not empty, three lists of the same
    length. *)
Definition wf_track (t : track) : Prop :=
  t_freq t <> [] /\ List.length (t_mag t) = List.length (t_freq t) /\
  List.length (t_ph t) = List.length (t_freq t).

(** Frequency distance of a new track from a saved one. *)
Definition strategy_dist (single : bool) (u : strack) (t : track) : Q :=
  if single then Qabs (last (present (s_freq u)) 0 - hd 0 (t_freq t))
  else Qabs (mean (present (s_freq u)) - mean (t_freq t)).

(** Saved track number [i] ended before [t] started, with a gap. *)
Definition earlier (sv : list strack) (t : track) (i : nat) : Prop :=
  (i < List.length sv)%nat /\
  (s_start (nth i sv no_strack) + List.length (s_mag (nth i sv no_strack))
   < t_start t)%nat.

(** Minimum duration of a reported sine track: two frames and [min_sine_dur]
    seconds. *)
Definition long_enough (c : cfg) (t : strack) : Prop :=
  (2 <= List.length (s_freq t))%nat /\
  (c_dur c * (c_fs c / inject_Z (Zpos (c_h c)))
     <= inject_Z (Z.of_nat (List.length (s_freq t))))%Q.

(** What the saved tracks of a modal tracker look like (C07 shows that they
    always do). *)
Definition saved_wf (sv : list strack) : Prop :=
  Forall (fun u => exists ss, made_of u ss /\ Forall wf_track ss) sv.

(** Names of the merge strategies. *)
Definition strategy_name (single : bool) : string :=
  if single then "single"%string else "average"%string.

(** Onset frame of a reported track in playback time. *)
Definition onset (m : mcfg) (st : state) (t : strack) : Z :=
  if m_rev m
  then (Z.of_nat (nframe st) - (Z.of_nat (s_start t) + Z.of_nat (List.length (s_mag t))))%Z
  else Z.of_nat (s_start t).

