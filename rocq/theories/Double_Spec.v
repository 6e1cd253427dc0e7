(** Vocabulary for the trackers over arbitrary arithmetic. *)
From Coq Require Import ZArith List Bool Permutation Sorting.Sorted.
Import ListNotations.
From Verif Require Import Base Tracker_Spec Double_Model.
Local Open Scope nat_scope.

Section Spec.
Context {A : arith}.
Notation peak := (dpeak A).
Notation track := (dtrack A).

(** A possible history: every frame comes with some order of its peaks.
    Nothing is assumed about the numbers, which may be NaN. *)
Definition d_hist_ok (hist : list (dframe A * list nat)) : Prop :=
  Forall (fun fo => Permutation (snd fo) (seq 0 (List.length (fst fo)))) hist.

(** Peak number [p] of frame number [x] is [k]. *)
Definition d_peak_at (hist : list (dframe A * list nat)) (x p : nat) (k : peak)
  : Prop :=
  exists fr ord, nth_error hist x = Some (fr, ord) /\ nth_error fr p = Some k.

(** [lab] says for each sample of [t] which peak of the corresponding frame it
    is; [None]: a NaN put there by merging. *)
Definition d_labels_ok (hist : list (dframe A * list nat)) (t : track)
    (lab : list (option nat)) : Prop :=
  List.length (dt_freq t) = List.length lab /\
  List.length (dt_mag t) = List.length lab /\
  List.length (dt_ph t) = List.length lab /\
  forall k, (k < List.length lab)%nat ->
    match nth k lab None with
    | Some p => exists q, d_peak_at hist (dt_start t + k) p q /\
        nth_error (dt_freq t) k = Some (dp_f q) /\
        nth_error (dt_mag t) k = Some (dp_m q) /\
        nth_error (dt_ph t) k = Some (dp_p q)
    | None => nth_error (dt_freq t) k = Some (nan A) /\
              nth_error (dt_mag t) k = Some (nan A) /\
              nth_error (dt_ph t) k = Some (nan A)
    end.

(** The (frame, peak) pairs a labelled track uses. *)
Definition d_used (tl : track * list (option nat)) : list (nat * nat) :=
  flat_map
    (fun xl => match snd xl with Some p => [(fst xl, p)] | None => [] end)
    (combine (seq (dt_start (fst tl)) (List.length (snd tl))) (snd tl)).

(** ** One frame *)

(** [(i, p)] in [M]: active track [i] is continued by peak [p]. *)
Record d_matching (c : dcfg A) (ts : list track) (fr : dframe A)
    (M : list (nat * nat)) : Prop := {
  dm_range : forall i p, In (i, p) M ->
    (i < List.length ts)%nat /\ (p < List.length fr)%nat;
  dm_track_once : NoDup (map fst M);
  dm_peak_once : NoDup (map snd M);
  dm_threshold : forall i p, In (i, p) M ->
    lt A (d_gap (nth i ts d_notrack) (nth p fr d_nopeak))
         (d_df c (dp_f (nth p fr d_nopeak))) = true
}.

(** Peaks are served by loudness and take the nearest free track, as
    distances and loudnesses compare in [A]. *)
Record d_greedy (c : dcfg A) (ts : list track) (fr : dframe A)
    (M : list (nat * nat)) : Prop := {
  dg_nearest : forall i p j, In (i, p) M -> (j < List.length ts)%nat ->
    (lt A (d_gap (nth j ts d_notrack) (nth p fr d_nopeak))
          (d_gap (nth i ts d_notrack) (nth p fr d_nopeak)) = true
     \/ (lt A (d_gap (nth i ts d_notrack) (nth p fr d_nopeak))
              (d_gap (nth j ts d_notrack) (nth p fr d_nopeak)) = false /\
         (j < i)%nat)) ->
    exists q, In (j, q) M /\
      lt A (dp_m (nth q fr d_nopeak)) (dp_m (nth p fr d_nopeak)) = false;
  dg_free : forall p j, (p < List.length fr)%nat -> ~ In p (map snd M) ->
    (j < List.length ts)%nat ->
    lt A (d_gap (nth j ts d_notrack) (nth p fr d_nopeak))
         (d_df c (dp_f (nth p fr d_nopeak))) = true ->
    exists q, In (j, q) M /\
      lt A (dp_m (nth q fr d_nopeak)) (dp_m (nth p fr d_nopeak)) = false
}.

(** An order of the peaks in which no peak is followed by a louder one. *)
Definition d_sorted (fr : dframe A) (ord : list nat) : Prop :=
  StronglySorted
    (fun a b => lt A (dp_m (nth a fr d_nopeak)) (dp_m (nth b fr d_nopeak)) = false)
    ord.

(** Tracks after the frame, in order: continued ones with their peak added;
    those that end; those that start. *)
Definition d_surviving (ts : list track) (fr : dframe A) (M : list (nat * nat))
  : list track :=
  flat_map
    (fun i => match partner M i with
              | Some p =>
                let t := nth i ts d_notrack in
                let k := nth p fr d_nopeak in
                [mkDTrack (dt_start t) (dt_freq t ++ [dp_f k])
                          (dt_mag t ++ [dp_m k]) (dt_ph t ++ [dp_p k])]
              | None => []
              end)
    (seq 0 (List.length ts)).
Definition d_dying (ts : list track) (M : list (nat * nat)) : list track :=
  flat_map
    (fun i => match partner M i with
              | Some _ => []
              | None => [nth i ts d_notrack]
              end)
    (seq 0 (List.length ts)).
Definition d_free_peaks (fr : dframe A) (M : list (nat * nat)) : list nat :=
  filter (fun p => negb (existsb (Nat.eqb p) (map snd M)))
         (seq 0 (List.length fr)).
Definition d_room (c : dcfg A) (n : nat) : nat := Z.to_nat (dc_max c - Z.of_nat n).
Definition d_born (c : dcfg A) (n : nat) (fr : dframe A) (M : list (nat * nat))
    (ns : nat) : list track :=
  map (fun p => let k := nth p fr d_nopeak in
                mkDTrack n [dp_f k] [dp_m k] [dp_p k])
      (firstn (d_room c ns) (d_free_peaks fr M)).

(** The deactivator that keeps everything. *)
Definition d_log_deact : d_deactivator A := fun sv t => Ok (sv ++ [t]).

(** ** Merged tracks *)

Fixpoint d_spliced (fld : track -> list (num A)) (ss : list track)
  : list (num A) :=
  match ss with
  | [] => []
  | s :: rest =>
    match rest with
    | [] => fld s
    | s' :: _ =>
      fld s
      ++ repeat (nan A) (dt_start s' - (dt_start s + List.length (fld s)))%nat
      ++ d_spliced fld rest
    end
  end.

Fixpoint d_separated (ss : list track) : Prop :=
  match ss with
  | s :: ((s' :: _) as rest) =>
    (dt_start s + List.length (dt_mag s) < dt_start s')%nat /\ d_separated rest
  | _ => True
  end.

(** [t] consists of the segments [ss], one after the other, with NaN in the
    frames between them. *)
Definition d_made_of (t : track) (ss : list track) : Prop :=
  ss <> [] /\ d_separated ss /\ dt_start t = dt_start (hd d_notrack ss) /\
  dt_freq t = d_spliced dt_freq ss /\ dt_mag t = d_spliced dt_mag ss /\
  dt_ph t = d_spliced dt_ph ss.

Definition d_wf (t : track) : Prop :=
  dt_freq t <> [] /\ List.length (dt_mag t) = List.length (dt_freq t) /\
  List.length (dt_ph t) = List.length (dt_freq t).

(** The numbers in [P] are comparable: "not below" is transitive among
    them. *)
Record comparable (P : num A -> Prop) : Prop := {
  cmp_irr : forall x, P x -> lt A x x = false;
  cmp_trans : forall x y z, P x -> P y -> P z ->
    lt A x y = true -> lt A y z = true -> lt A x z = true;
  cmp_neg : forall x y z, P x -> P y -> P z ->
    lt A x y = false -> lt A y z = false -> lt A x z = false
}.
End Spec.
