(** Model of small wrappers: [warnings_simplefilter] and [Numpy2Paragraph]
    (sample/utils/__init__.py), [try_func] and [custom_bool] (sample/widgets/settings.py),
    [mock_tk2ttk] (sample/widgets/pyplot.py), [time_this] and [WebAudio]
    (sample/ipython.py), [tf_plot] (sample/plots.py), [complex2db] (sample/utils/dsp.py). *)
From Coquelicot Require Import Coquelicot.
From Coq Require Import String Ascii List Bool ZArith Arith Reals.
Import ListNotations.
From Verif Require Import Base Py Dict Sample_Model Perf_Model.
Local Open Scope list_scope.
Local Open Scope nat_scope.

(** ** Warnings *)

(** [warnings]: a filter is an action and a category.  The first filter that the category
    of a warning is a child of decides; without one the warning is shown (the default
    action shows it once for each place, which is left out). *)
Inductive action : Type := Ignore | Error | Always.
Definition filter_ : Type := action * nat.
(** Exceptions of the function or warnings that were turned into errors. *)
Inductive raised : Type := Exn (e : exn) | Warning (c : nat).
(** What the function does, one after the other: it warns, adds a filter of its own,
    raises or returns. *)
Inductive stmt : Type := SWarn (c : nat) | SFilter (f : filter_) | SRaise (e : exn).
Definition decide (child : nat -> nat -> bool) (filters : list filter_) (c : nat) : action :=
  match find (fun f => child c (snd f)) filters with Some (a, _) => a | None => Always end.
(** [warnings.simplefilter]: the filter is put first. *)
Definition action_eqb (a b : action) : bool := match a, b with Ignore, Ignore | Error, Error | Always, Always => true | _, _ => false end.
Definition simplefilter (f : filter_) (filters : list filter_) : list filter_ :=
  f :: filter (fun g => negb (action_eqb (fst f) (fst g) && Nat.eqb (snd f) (snd g))) filters.
(** Run the statements: exception or not, warnings shown, filters. *)
Fixpoint run (child : nat -> nat -> bool) (prog : list stmt) (filters : list filter_)
  : option raised * list nat * list filter_ :=
  match prog with
  | [] => (None, [], filters)
  | SRaise e :: _ => (Some (Exn e), [], filters)
  | SFilter f :: prog => run child prog (simplefilter f filters)
  | SWarn c :: prog =>
    match decide child filters c with
    | Error => (Some (Warning c), [], filters)
    | Ignore => run child prog filters
    | Always => let '(r, shown, fs) := run child prog filters in (r, c :: shown, fs)
    end
  end.

(** What a call leaves: exception, warnings shown, filters, and the lists of [traces]
    ([None] is what [catch_warnings] gives without [record]). *)
Record called : Type := mkCalled
  { k_raised : option raised; k_shown : list nat; k_filters : list filter_; k_traces : list (option (list nat)) }.

(** [warnings_simplefilter], sample/utils/__init__.py lines 500-537: the decorated
    function [func_], lines 527-535.  [body] is the function, by its keyword arguments;
    [flt] is the filter ([simplefilter] with [append=False]); [record] that of
    [catch_kws]; [truthy] the truth value of an argument.  [kws.pop] of a toggle gives
    its default if the argument is not given.  With [record] the warnings that would be
    shown are in the list of [catch_warnings], which is the new element of [traces]. *)
Definition decorated {V} (child : nat -> nat -> bool) (truthy : V -> bool) (flt : filter_) (record : bool)
    (traces : option (list (option (list nat)))) (toggle : option (string * V))
    (body : dict V -> list stmt) (kws : dict V) (filters : list filter_) : called :=
  let old := match traces with Some t => t | None => [] end in
  let '(on, kws) := match toggle with
                    | None => (true, kws)
                    | Some (key, default) =>
                      (truthy (match dget key kws with Some v => v | None => default end), ddel key kws)
                    end in
  if on then
    let '(r, shown, _) := run child (body kws) (simplefilter flt filters) in
    mkCalled r (if record then [] else shown) filters
      (match traces with Some t => t ++ [if record then Some shown else None] | None => old end)
  else
    let '(r, shown, fs) := run child (body kws) filters in mkCalled r shown fs old.

(** ** Replaced classes, sample/widgets/pyplot.py *)

(** Attributes of a module. *)
Definition module : Type := string -> option nat.
Definition set_member (m : module) (k : string) (v : option nat) : module :=
  fun k' => if String.eqb k k' then v else m k'.
(** [mock.patch.object(m, k, new)]: AttributeError if there is no such attribute; the
    original is put back at the end. *)
Definition patch {A} (k : string) (new : module -> res nat) (body : module -> res A * module) (m : module) : res A * module :=
  match new m with
  | Err e => (Err e, m)
  | Ok v =>
    match m k with
    | None => (Err AttributeError, m)
    | Some old => let '(r, m') := body (set_member m k (Some v)) in (r, set_member m' k (Some old))
    end
  end.
(** [mock_tk2ttk], lines 13-33.  [get k m]: [getattr(tk, k)] while the attributes of
    tkinter are [m]. *)
Fixpoint mock_tk2ttk {A} (get : string -> module -> res nat) (names : list string) (body : module -> res A * module)
    (m : module) : res A * module :=
  match names with
  | [] => body m
  | k :: names => mock_tk2ttk get names (patch k (get k) body) m
  end.

(** ** Parsers, sample/widgets/settings.py *)

(** [try_func], lines 18-39: [caught e] tells whether [exc] has the class of [e]. *)
Definition try_func {A B} (func : A -> res B) (caught : exn -> bool) (default : B) (x : A) : res B :=
  match func x with Ok v => Ok v | Err e => if caught e then Ok default else Err e end.
(** [custom_bool], lines 45-57.  [float_of x]: whether the number that [x] is is zero;
    [None] is ValueError.  (NaN is not zero.) *)
Definition lower_char (c : ascii) : ascii :=
  let n := nat_of_ascii c in if (65 <=? n) && (n <=? 90) then ascii_of_nat (n + 32) else c.
Definition lower (s : string) : string := string_of_list_ascii (map lower_char (list_ascii_of_string s)).
Definition custom_bool (float_of : string -> option bool) (x : string) : bool :=
  if existsb (String.eqb (lower x)) ["false"; "f"; ""]%string then false
  else match float_of x with None => true | Some zero => negb zero end.

(** ** Operators made once, sample/utils/__init__.py *)

(** [Numpy2Paragraph.__getattr__], lines 296-300, for names that the class does not
    define: [numpy key] is the function of that name; operators are numbers. *)
Record ops : Type := mkOps { o_made : dict nat; o_next : nat }.
Definition op_getattr (numpy : string -> option nat) (key : string) (s : ops) : res nat * ops :=
  match dget key (o_made s) with
  | Some o => (Ok o, s)
  | None => match numpy key with
            | None => (Err AttributeError, s)
            | Some _ => (Ok (o_next s), mkOps (dset key (o_next s) (o_made s)) (S (o_next s)))
            end
  end.
Definition op_accesses (numpy : string -> option nat) (keys : list string) (s : ops) : list (res nat) * ops :=
  fold_left (fun acc k => let '(r, s) := op_getattr numpy k (snd acc) in (fst acc ++ [r], s)) keys ([], s).

(** ** Timing, sample/ipython.py lines 124-146 *)

(** The number that [f"{dt:.{n}f}"] shows. *)
Definition shown_number (dt : R) (ndigits : nat) : R := (IZR (Rhalf_even (dt * 10 ^ ndigits)) / 10 ^ ndigits)%R.
(** [time_this]: what is displayed (title, number and its unit) and the exception of the
    block.  [clock]: the two times that are read. *)
Definition time_this (title : option string) (label : string) (scale : R) (ndigits : nat) (start stop : R)
    (block : res unit) : list (option string * R * string) * option exn :=
  match block with
  | Err e => ([], Some e)
  | Ok _ => ([(title, shown_number ((stop - start) * scale) ndigits, label)], None)
  end.

(** ** [WebAudio], sample/ipython.py lines 26-34 *)

(** Arrays of numbers: their shape and their elements in order.  [np.reshape] to rows:
    ValueError if the elements cannot be shared among them.  Gives the channels. *)
Record array : Type := mkArray { a_shape : list nat; a_data : list R }.
Fixpoint chunks {A} (n : nat) (size : nat) (l : list A) : list (list A) :=
  match n with 0 => [] | S n => firstn size l :: chunks n size (skipn size l) end.
Definition channels (x : array) : res (list (list R)) :=
  do n <- (match a_shape x with [] => Err IndexError | [_] => Ok 1 | n :: _ => Ok n end);
  if (n =? 0) then Err ValueError
  else if (List.length (a_data x) mod n =? 0) then Ok (chunks n (List.length (a_data x) / n) (a_data x)) else Err ValueError.

(** ** [tf_plot], sample/plots.py lines 100-138 *)

(** Limits, aspect (height of a unit of frequency by the width of a unit of time) and the
    size of the figure, if it is set. *)
Record tf_axes : Type := mkTf { f_xlim : R * R; f_ylim : R * R; f_extent : R * R * R * R; f_aspect : R; f_size : option (R * R) }.
Definition tf_plot (tlim flim : R * R) (xlim ylim : option (R * R)) (ax : bool) (aspect_ratio width : R) : tf_axes :=
  let xlim := match xlim with Some l => l | None => tlim end in
  let ylim := match ylim with Some l => l | None => flim end in
  mkTf xlim ylim (fst tlim, snd tlim, fst flim, snd flim)
    ((snd xlim - fst xlim) / (aspect_ratio * (snd ylim - fst ylim)))
    (if ax then None else Some (aspect_ratio * width, 1 * width)%R).

(** ** [complex2db], sample/utils/dsp.py lines 138-150, with [a2db], lines 76-98 *)

(** [None] is minus infinity, the logarithm of zero. *)
Definition complex2db (c : Complex.C) (floor : option R) (floor_db : bool) : option R :=
  let a := Cmod c in
  let m := match floor with
           | None => a
           | Some f => Rmax a (if floor_db then db2a f else f)
           end in
  if Req_EM_T m 0 then None else Some (a2db m).
