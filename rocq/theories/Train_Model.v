(** Model of fitting: [SinusoidalModel.fit] (sample/sms/sm.py), the training
    contexts of sample/_training.py, the fitting of the tracks in
    sample/sample.py and the progress reports of sample/widgets/sample.py. *)
From Coq Require Import String List Bool ZArith QArith.
Import ListNotations.
From Verif Require Import Base Py Dict Utils_Model Stft_Model Tracker_Model.
Local Open Scope string_scope.
Local Open Scope list_scope.

(** ** SinusoidalModel.fit *)

(** The tracker of a sinusoidal model and its parameters. *)
Inductive tracker : Type := Sine (c : cfg) | Modal (m : mcfg).
Definition t_cfg (t : tracker) : cfg := match t with Sine c => c | Modal m => m_base m end.
(** [getattr(self.tracker, "reverse", False)]. *)
Definition t_reverse (t : tracker) : bool := match t with Sine _ => false | Modal m => m_rev m end.
Definition t_deact (t : tracker) : deactivator := match t with Sine c => sine_deact c | Modal m => modal_deact m end.
Definition t_all (t : tracker) (st : state) : list strack :=
  match t with Sine c => all_tracks (sine_ok c) st | Modal m => modal_all_tracks m st end.

(** Parameters of [SinusoidalModel], sample/sms/sm.py lines 246-262, without
    the storage. *)
Record sparams : Type := mkSparams
  { p_w : list Q; p_n : Z; p_t : option Q; p_padded : bool; p_tracker : tracker }.

(** The object: parameters, the state of its tracker ([None] before the first
    [reset]), its storage and [w_]. *)
Record smodel : Type := mkSmodel
  { sm_params : sparams; sm_state : option state; sm_store : storage; sm_w_ : option (list Q) }.
(** An instance that was never fitted. *)
Definition fresh_model (p : sparams) (save : bool) : smodel := mkSmodel p None (mkStorage save None) None.

(** Keywords of [fit] that reach [set_params] (line 316): a change of plain
    parameters (which may raise), a tracker that has its own state, a storage, and the
    flag of the storage ([intermediate__save], applied after a given storage). *)
Record skwargs : Type := mkSkwargs
  { k_params : sparams -> res sparams; k_tracker_state : option (option state);
    k_store : option storage; k_save : option bool }.
Definition no_kwargs : skwargs := mkSkwargs (fun p => Ok p) None None None.
Definition set_params (k : skwargs) (o : smodel) : smodel * res unit :=
  match k_params k (sm_params o) with
  | Err e => (o, Err e)
  | Ok p =>
    let s := match k_store k with Some s => s | None => sm_store o end in
    let s := match k_save k with Some b => mkStorage b (s_cache s) | None => s end in
    (mkSmodel p (match k_tracker_state k with Some st => st | None => sm_state o end) s (sm_w_ o), Ok tt)
  end.

(** [_normalized_window], lines 338-341. *)
Definition normalized_window (w : list Q) : list Q := map (fun v => v / Qsum w)%Q w.

(** What [append] gets for a frame and for its peaks. *)
Definition enc_list (l : list Q) : val := VList (map VNum l).
Definition enc_frame (f : list Q * list Q) : val := VList [enc_list (fst f); enc_list (snd f)].
Definition enc_peaks (ps : list (Q * Q * Q)) : val :=
  VList [enc_list (map (fun p => fst (fst p)) ps); enc_list (map (fun p => snd (fst p)) ps);
         enc_list (map (fun p => snd p) ps)].

(** Peaks of a frame as given to the tracker, lines 325-328. *)
Definition to_frame (fs : Q) (n : Z) (ps : list (Q * Q * Q)) : frame :=
  map (fun p => mkPeak (bin_to_hz fs n (fst (fst p))) (snd (fst p)) (snd p)) ps.

(** The loop of lines 322-330: storage and tracker state when it ends, also if
    it ends with an exception.  [dft] is [sms.dsp.dft] with its window and size
    (it raises for a wrong size); [argsort] is [np.argsort(-pmag)]. *)
Fixpoint fit_loop (dft : list (option Q) -> res (list Q * list Q)) (argsort : frame -> list nat)
    (p : sparams) (frames : list (list (option Q))) (s : storage) (st : state)
  : storage * state * res unit :=
  match frames with
  | [] => (s, st, Ok tt)
  | x :: frames' =>
    match dft x with
    | Err e => (s, st, Err e)
    | Ok f =>
      let s := fst (st_append s "stft" (enc_frame f) None) in
      match peak_detect_interp (fst f) (snd f) (p_t p) with
      | Err e => (s, st, Err e)
      | Ok ps =>
        let s := fst (st_append s "peaks" (enc_peaks ps) None) in
        let fr := to_frame (c_fs (t_cfg (p_tracker p))) (p_n p) ps in
        match step (t_cfg (p_tracker p)) (t_deact (p_tracker p)) st (fr, argsort fr) with
        | Err e => (s, st, Err e)
        | Ok st => fit_loop dft argsort p frames' s st
        end
      end
    end
  end.

(** [fit], lines 298-331: the object afterwards and the outcome.  [dft n w] is
    the transform of a frame. *)
Definition sm_fit (dft : Z -> list Q -> list (option Q) -> res (list Q * list Q)) (argsort : frame -> list nat)
    (x : list Q) (k : skwargs) (o : smodel) : smodel * res unit :=
  let o := mkSmodel (sm_params o) (sm_state o) (st_reset (sm_store o)) (sm_w_ o) in
  match set_params k o with
  | (o, Err e) => (o, Err e)
  | (o, Ok _) =>
    let p := sm_params o in
    let w_ := normalized_window (p_w p) in
    let x := if t_reverse (p_tracker p) then rev x else x in
    match time_frames (p_padded p) (zlen (p_w p)) (Zpos (c_h (t_cfg (p_tracker p)))) x with
    | Err e => (mkSmodel p (Some reset) (sm_store o) (Some w_), Err e)
    | Ok frames =>
      let '(s, st, r) := fit_loop (dft (p_n p) w_) argsort p frames (sm_store o) reset in
      (mkSmodel p (Some st) s (Some w_), r)
    end
  end.

(** [tracks_], lines 333-336. *)
Definition sm_tracks (o : smodel) : res (list strack) :=
  match sm_state o with
  | None => Err AttributeError
  | Some st => Ok (t_all (p_tracker (sm_params o)) st)
  end.

(** ** Serial and parallel starmap *)

(** Calls of the progress methods of [FitArgs]. *)
Inductive event : Type := EStart (maximum value : Z) | EUpdate (value : option Z) | EStop.

(** A consumer of the results: all of them, or the first exception, and how
    many were received. *)
Fixpoint collect {B} (rs : list (outcome B)) : nat * outcome (list B) :=
  match rs with
  | [] => (0%nat, Ret [])
  | Raise e m :: _ => (0%nat, Raise e m)
  | Ret b :: rs' =>
    let '(n, r) := collect rs' in
    (S n, match r with Ret l => Ret (b :: l) | Raise e m => Raise e m end)
  end.

(** [FitArgs.starmap_progress], sample/_training.py lines 37-48, consumed to
    the end; [before] are the events of the starmap itself, [rs] its results. *)
Definition starmap_progress {B} (before : list event) (rs : list (outcome B)) (tot : option Z)
  : list event * outcome (list B) :=
  let '(n, r) := collect rs in
  ((match tot with Some t => [EStart t 0] | None => [] end) ++ before ++ repeat (EUpdate None) n ++
   (match tot, r with Some _, Ret _ => [EStop] | _, _ => [] end), r).

(** With [itertools.starmap]. *)
Definition serial_starmap {A B} (f : A -> outcome B) (args : list A) (tot : option Z) :=
  starmap_progress [] (map f args) tot.

(** The waiting loop of [_progress_starmap], lines 69-74.  [ready k r] tells if
    job [r] is ready when the loop asks for the [k]-th time; the loop is
    followed for at most [fuel] rounds. *)
Fixpoint poll_loop (ready : nat -> nat -> bool) (fuel k : nat) (total : nat) (not_ready : list nat)
  : option (list event) :=
  match not_ready with
  | [] => Some []
  | _ =>
    match fuel with
    | O => None
    | S fuel' =>
      match poll_loop ready fuel' (S k) total (filter (fun r => negb (ready k r)) not_ready) with
      | Some es => Some (EUpdate (Some (Z.of_nat total - zlen not_ready)%Z) :: es)
      | None => None
      end
    end
  end.

(** With [_progress_starmap], lines 60-75: [r.get()] returns what the job
    returned or raises what it raised. *)
Definition parallel_starmap {A B} (ready : nat -> nat -> bool) (fuel : nat) (f : A -> outcome B) (args : list A)
    (tot : option Z) : option (list event * outcome (list B)) :=
  match poll_loop ready fuel 0 (List.length args) (seq 0 (List.length args)) with
  | Some es => Some (starmap_progress es (map f args) tot)
  | None => None
  end.

(** [_GUIFitArgs], sample/widgets/sample.py lines 20-55, without the throttling:
    current value and maximum of the bar after each event. *)
Definition gui_step (b : Z * Z) (e : event) : Z * Z :=
  match e with
  | EStart m v => (v, m)
  | EStop => (1, 1)%Z
  | EUpdate None => (fst b + 1, snd b)%Z
  | EUpdate (Some v) => (v, snd b)
  end.
Fixpoint gui_run (b : Z * Z) (es : list event) : list (Z * Z) :=
  match es with
  | [] => []
  | e :: es' => gui_step b e :: gui_run (gui_step b e) es'
  end.

(** ** Fitting of the tracks with a storage *)

(** A job: the indexed appends it makes on the storage of the beat decisor
    (sample/beatsdrop/decision.py lines 99-105 and 149) and its outcome. *)
Definition job (B : Type) : Type := (list (string * nat * val) * outcome B)%type.
Definition puts (s : storage) (ops : list (string * nat * val)) : storage :=
  fold_left (fun s o => fst (st_append s (fst (fst o)) (snd o) (Some (Z.of_nat (snd (fst o)))))) ops s.

(** Serial: one job after the other up to the first exception. *)
Fixpoint serial_jobs {B} (s : storage) (js : list (job B)) : storage * outcome (list B) :=
  match js with
  | [] => (s, Ret [])
  | (ops, r) :: js' =>
    let s := puts s ops in
    match r with
    | Raise e m => (s, Raise e m)
    | Ret b =>
      let '(s, r) := serial_jobs s js' in
      (s, match r with Ret l => Ret (b :: l) | Raise e m => Raise e m end)
    end
  end.

(** The decisor with the storage of track [i] (sample/beatsdrop/decision.py
    lines 78-106, 131-151): test values and decision are stored at [i]. *)
Definition decision_job {B} (i : nat) (test : val) (decision : bool) (out : B) : job B :=
  ([("test", i, test); ("decision", i, VBool decision)], Ret out).

(** One call of [append] in the manager process, statement by statement
    (sample/utils/learn.py lines 281-293); every worker is served by its own
    thread and nothing is locked. *)
Inductive pc : Type := HasCache | NewCache | HasKey | NewKey | Enough | Extend | Assign | Done.
Record thread : Type := mkThread { th_pc : pc; th_key : string; th_val : val; th_index : nat }.
Definition th_goto (t : thread) (p : pc) : thread := mkThread p (th_key t) (th_val t) (th_index t).
Definition th_step (c : option (dict (list val))) (t : thread) : option (dict (list val)) * thread :=
  let d := match c with Some d => d | None => [] end in
  let l := match dget (th_key t) d with Some l => l | None => [] end in
  match th_pc t with
  | HasCache => (c, th_goto t (match c with None => NewCache | Some _ => HasKey end))
  | NewCache => (Some [], th_goto t HasKey)
  | HasKey => (c, th_goto t (match dget (th_key t) d with None => NewKey | Some _ => Enough end))
  | NewKey => (Some (dset (th_key t) [] d), th_goto t Enough)
  | Enough => (c, th_goto t (if Nat.leb (List.length l) (th_index t) then Extend else Assign))
  | Extend => (Some (dset (th_key t) (l ++ repeat VNone (S (th_index t) - List.length l)) d), th_goto t Assign)
  | Assign => (Some (dset (th_key t) (upd (th_index t) (th_val t) l) d), th_goto t Done)
  | Done => (c, t)
  end.
Fixpoint th_run (c : option (dict (list val))) (t u : thread) (schedule : list bool)
  : option (dict (list val)) * thread * thread :=
  match schedule with
  | [] => (c, t, u)
  | true :: sch => let '(c, t) := th_step c t in th_run c t u sch
  | false :: sch => let '(c, u) := th_step c u in th_run c t u sch
  end.

(** ** Training contexts *)

(** Resources that a context opens and closes. *)
Inductive resource : Type := RManager | RPool (processes : option Z).

(** Storages by identity, the storages of the model by parameter name, the
    number of the next storage, and the resources that are open. *)
Record tworld : Type := mkTworld
  { heap : nat -> storage; slots : dict nat; tfresh : nat; opened : list resource }.
Definition set_heap (w : tworld) (o : nat) (s : storage) : tworld :=
  mkTworld (fun o' => if Nat.eqb o' o then s else heap w o') (slots w) (tfresh w) (opened w).
Definition set_slot (w : tworld) (k : string) (o : nat) : tworld :=
  mkTworld (heap w) (dset k o (slots w)) (tfresh w) (opened w).
Definition set_opened (w : tworld) (l : list resource) : tworld :=
  mkTworld (heap w) (slots w) (tfresh w) l.
Definition body_of (R : Type) : Type := tworld -> tworld * outcome R.

(** [_wrap_as_managed] with one key, sample/_training.py lines 139-152.
    [create o] tells if the manager cannot create a storage like [o]; all
    storages are [OptionalStorage] and a manager that created a storage
    answers. *)
Definition wrap_one {R} (create : nat -> option exn) (key : string) (body : body_of R) : body_of R := fun w =>
  match dget key (slots w) with
  | None => body w
  | Some o =>
    match create o with
    | Some e => (w, Raise e "manager")
    | None =>
      let m := tfresh w in
      let w := mkTworld (heap (set_heap w m (mkStorage (s_save (heap w o)) None))) (slots w) (S m) (opened w) in
      let w := set_slot w key m in
      let '(w, r) := body w in
      let w := match r with
               | Ret _ => set_heap w o (mkStorage (s_save (heap w o)) (Some (st_get_state (heap w m))))
               | Raise _ _ => w
               end in
      (set_slot w key o, r)
    end
  end.
(** With several keys, lines 134-138. *)
Fixpoint wrap_as_managed {R} (create : nat -> option exn) (keys : list string) (body : body_of R) : body_of R :=
  match keys with
  | [] => body
  | key :: more => wrap_one create key (wrap_as_managed create more body)
  end.

(** [with r: body]: the resource is closed when the body ends, normally or with
    an exception. *)
Definition with_resource {R} (r : resource) (body : body_of R) : body_of R := fun w =>
  let '(w', x) := body (set_opened w (r :: opened w)) in
  (set_opened w' (tl (opened w')), x).
(** [multiprocessing.Pool(processes=n)]: less than one process is a ValueError. *)
Definition with_pool {R} (n_jobs : option Z) (body : body_of R) : body_of R := fun w =>
  if match n_jobs with Some n => Z.ltb n 1 | None => false end
  then (w, Raise ValueError "Number of processes must be at least 1")
  else with_resource (RPool n_jobs) body w.

Definition managed_keys : list string := ["beat_decisor__intermediate"; "sinusoidal__intermediate"].

(** [sample_training_context], lines 78-127.  The body is told if it works in
    parallel.  [manager] and [pool]: a manager, a pool was given. *)
Definition training_context {R} (create : nat -> option exn) (n_jobs : option Z) (manager pool : bool)
    (body : bool -> body_of R) : body_of R :=
  if negb pool && match n_jobs with Some n => Z.eqb n 0 | None => false end then body false
  else
    let managed := wrap_as_managed create managed_keys (body true) in
    let pooled := if pool then managed else with_pool n_jobs managed in
    if manager then pooled else with_resource RManager pooled.

(** Fitting of the tracks inside a context, sample/sample.py lines 183-188, as
    far as the storage of the decisor is concerned.  In parallel the jobs run
    in any order: [tr] are their appends in the order in which they happen. *)
Definition fit_tracks {B} (js : list (job B)) (tr : list (string * nat * val)) (parallel : bool)
  : body_of (list B) := fun w =>
  match dget "beat_decisor__intermediate" (slots w) with
  | None => (w, snd (collect (map snd js)))
  | Some o =>
    let '(s, r) := if parallel then (puts (heap w o) tr, snd (collect (map snd js)))
                   else serial_jobs (heap w o) js in
    (set_heap w o s, r)
  end.
