(** Playing audio from several threads, sample/widgets/audio.py ([TempAudio]): what threads
    do with the lock, the buffers and pygame, one operation at a time. *)
From Coq Require Import List Bool ZArith Lia.
Import ListNotations.
Local Open Scope nat_scope.

(** The operations of [play], [close_pygame], [open_pygame] and [__del__], lines
    30-60.  [MIfOpen o]: [if not self.buf.closed].  Objects are numbered. *)
Inductive mop : Type :=
| MAcquire | MRelease | MIfOpen (o : nat)
| MUnload | MMixQuit | MPyQuit | MPyInit | MMixInit (o : nat) | MLoad (o : nat) | MPlay (o : nat)
| MCloseBuf (o : nat).

(** [close_pygame], lines 30-37.  [mixer.music.unload] may raise [pygame.error],
    which is caught. *)
Definition m_close_pygame : list mop := [MUnload; MMixQuit; MPyQuit].
(** [open_pygame], lines 39-44. *)
Definition m_open_pygame (o : nat) : list mop := [MPyInit; MMixInit o].
(** [play], lines 46-54. *)
Definition m_play (o : nat) : list mop :=
  [MAcquire; MIfOpen o] ++ m_close_pygame ++ m_open_pygame o ++ [MLoad o; MPlay o; MRelease].
(** [__del__], lines 56-60. *)
Definition m_del (o : nat) : list mop := [MAcquire; MIfOpen o; MCloseBuf o; MRelease].

(** pygame: is it initialised, the rate of the mixer if that is initialised, the music loaded
    and if it plays.  The list has one entry for every [TempAudio]: its sample
    rate and if its buffer is closed.  [lock] is the thread that holds [TempAudio.lock]
    (line 18: one for the class).  A thread is the stack of its calls, the inner one first,
    each with the operations it has still to do. *)
Record mixer : Type := mkMixer { x_py : bool; x_rate : option Z; x_music : option nat; x_playing : bool }.
Record mstate : Type := mkMState
  { s_bufs : list (Z * bool); s_lock : option nat; s_threads : list (list (list mop)); s_mixer : mixer }.

Definition is_closed (s : mstate) (o : nat) : bool := match nth_error (s_bufs s) o with Some (_, b) => b | None => true end.
Definition rate_of (s : mstate) (o : nat) : Z := match nth_error (s_bufs s) o with Some (r, _) => r | None => 0%Z end.
Fixpoint update {A : Type} (l : list A) (i : nat) (x : A) : list A :=
  match l, i with
  | [], _ => []
  | _ :: l, O => x :: l
  | y :: l, S i => y :: update l i x
  end.
Definition close_buf (s : mstate) (o : nat) : list (Z * bool) :=
  match nth_error (s_bufs s) o with Some (r, _) => update (s_bufs s) o (r, true) | None => s_bufs s end.

(** What pygame does.  [auto]: [pygame.init] initialises the mixer too, with a rate of 44100 Hz, as
    its documentation says of all modules that have been imported; initialising
    again does not change the rate. *)
Definition mix_init (x : mixer) (r : Z) : mixer :=
  match x_rate x with
  | Some _ => x
  | None => mkMixer (x_py x) (Some r) (x_music x) (x_playing x)
  end.
Definition mix_op (auto : bool) (s : mstate) (p : mop) : mixer :=
  let x := s_mixer s in
  match p with
  | MUnload => mkMixer (x_py x) (x_rate x) None false
  | MMixQuit => mkMixer (x_py x) None None false
  | MPyQuit => mkMixer false None None false
  | MPyInit => let y := mkMixer true (x_rate x) (x_music x) (x_playing x) in if auto then mix_init y 44100 else y
  | MMixInit o => mix_init x (rate_of s o)
  | MLoad o => mkMixer (x_py x) (x_rate x) (Some o) false
  | MPlay o => mkMixer (x_py x) (x_rate x) (x_music x) true
  | _ => x
  end.

(** Thread [i] does the operation [p], of which the call has [rest] left to do, and the
    calls below are [below].  [threading.Lock] cannot be acquired while it is held,
    not even by the thread that holds it. *)
Definition pop (rest : list mop) (below : list (list mop)) : list (list mop) :=
  match rest with [] => below | _ => rest :: below end.
Definition m_exec (auto : bool) (s : mstate) (i : nat) (p : mop) (rest : list mop) (below : list (list mop)) : option mstate :=
  let th rest := update (s_threads s) i (pop rest below) in
  match p with
  | MAcquire => match s_lock s with None => Some (mkMState (s_bufs s) (Some i) (th rest) (s_mixer s)) | Some _ => None end
  | MRelease => Some (mkMState (s_bufs s) None (th rest) (s_mixer s))
  | MIfOpen o => Some (mkMState (s_bufs s) (s_lock s) (th (if is_closed s o then [MRelease] else rest)) (s_mixer s))
  | MCloseBuf o => Some (mkMState (close_buf s o) (s_lock s) (th rest) (s_mixer s))
  | _ => Some (mkMState (s_bufs s) (s_lock s) (th rest) (mix_op auto s p))
  end.

(** One step of an execution.  [m_run]: a thread goes on.  [m_call]: a thread that is in no
    call of [TempAudio] calls [play].  [m_fin]: the interpreter calls [__del__] in a thread: between calls, and if
    [anywhere], also during calls, as the cyclic garbage collector may do whenever objects are
    allocated.  [m_new]: [__init__], lines 20-28. *)
Definition run_step (auto : bool) (s : mstate) (i : nat) (p : mop) (s' : mstate) : Prop :=
  exists rest below, nth_error (s_threads s) i = Some ((p :: rest) :: below) /\ m_exec auto s i p rest below = Some s'.
Inductive mstep (auto anywhere : bool) (s : mstate) : mstate -> Prop :=
| m_run : forall i p s', run_step auto s i p s' -> mstep auto anywhere s s'
| m_call : forall i o, nth_error (s_threads s) i = Some [] -> o < List.length (s_bufs s) ->
    mstep auto anywhere s (mkMState (s_bufs s) (s_lock s) (update (s_threads s) i [m_play o]) (s_mixer s))
| m_fin : forall i o st, nth_error (s_threads s) i = Some st -> anywhere = true \/ st = [] -> o < List.length (s_bufs s) ->
    mstep auto anywhere s (mkMState (s_bufs s) (s_lock s) (update (s_threads s) i (m_del o :: st)) (s_mixer s))
| m_new : forall r, mstep auto anywhere s (mkMState (s_bufs s ++ [(r, false)]) (s_lock s) (s_threads s) (s_mixer s)).

Inductive msteps (auto anywhere : bool) (s : mstate) : mstate -> Prop :=
| ms_refl : msteps auto anywhere s s
| ms_step : forall s1 s2, msteps auto anywhere s s1 -> mstep auto anywhere s1 s2 -> msteps auto anywhere s s2.

(** At the start: [n] threads, none in a call; nobody has the lock; nothing has been loaded. *)
Definition m_start (n : nat) : mstate := mkMState [] None (repeat [] n) (mkMixer false None None false).
Definition reachable (auto anywhere : bool) (n : nat) (s : mstate) : Prop := msteps auto anywhere (m_start n) s.
