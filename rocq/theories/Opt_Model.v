(** Model of the keywords of [SAMPLE.fit] (sample/sample.py) and of
    sample/optimize.py. *)
From Coq Require Import String Ascii List Bool ZArith QArith Qabs Qminmax.
Import ListNotations.
From Verif Require Import Base Py Dict Utils_Model Params_Model.
Local Open Scope string_scope.
Local Open Scope list_scope.

Section Opt.

(** As in [Params_Model]. *)
Variable default_window : val.
Variable construct_tracker : val -> outcome val.
(** [scipy.signal.get_window]: name (or anything else it accepts) and size. *)
Variable get_window : val -> Z -> outcome val.
(** Available stack. *)
Variable d : nat.

(** ** Keywords of fit *)

(** What [SAMPLE.fit] passes to [sample_training_context]
    (sample/_training.py lines 78-83 and 99) and to the filter of warnings
    (sample/utils/__init__.py line 529). *)
Record fit_context : Type := mkContext
  { x_jobs : val; x_manager : val; x_pool : val; x_args : option val; x_ignore : val }.

(** [SAMPLE.fit] until the training context is entered, sample/sample.py lines
    158-177.  [n_jobs], [mp_manager] and [pool] have the defaults of lines 79-82
    of sample/_training.py; its other keywords are not used. *)
Definition keyword (k : string) (def : val) (kwargs : dict val) : val :=
  match dget k kwargs with Some v => v | None => def end.
Definition fit_start (o : nat) (kwargs : dict val) (w : pworld) : pworld * outcome fit_context :=
  let ignore := keyword "ignore_warnings" (VBool true) kwargs in
  let kwargs := ddel "ignore_warnings" kwargs in
  match (match kwargs with [] => Ret [] | _ => get_params d w o true end) with
  | Raise e m => (w, Raise e m)
  | Ret names =>
    match set_params default_window construct_tracker d o (filter (fun p => dmem (fst p) names) kwargs) w with
    | (w, Raise e m) => (w, Raise e m)
    | (w, Ret _) =>
      if dmem "model" kwargs then (w, Raise TypeError "got multiple values for argument 'model'")
      else (w, Ret (mkContext (keyword "n_jobs" (VInt 0) kwargs) (keyword "mp_manager" VNone kwargs)
                              (keyword "pool" VNone kwargs) (dget "_fit_args" kwargs) ignore))
    end
  end.

(** ** Remapper *)

(** [np.size]: number of elements of a nested list of equal rows, 1 for
    anything else. *)
Fixpoint np_size (v : val) : Z :=
  match v with
  | VList l => (fix sum (l : list val) : Z := match l with [] => 0 | x :: l' => np_size x + sum l' end)%Z l
  | _ => 1%Z
  end.
(** [int(x)] truncates. *)
Definition py_int (q : Q) : Z := Z.quot (Qnum q) (Zpos (Qden q)).
(** [1 << v], for python integers (numpy ones overflow). *)
Definition shift_one (v : val) : outcome val :=
  match v with
  | VInt z => if (z <? 0)%Z then Raise ValueError "negative shift count" else Ret (VInt (2 ^ z))
  | VBool b => Ret (VInt (if b then 2 else 1))
  | _ => Raise TypeError "unsupported operand type(s) for <<"
  end.
(** [int(a * b)] of numbers; exact instead of binary64.  The repetition of
    strings and lists is left out. *)
Definition int_product (a b : val) : outcome Z :=
  match as_num a, as_num b with
  | Some x, Some y => Ret (py_int (x * y))
  | _, _ => Raise TypeError "unsupported operand type(s) for *"
  end.
(** [1 - v], as [int_product]. *)
Definition one_minus (v : val) : outcome val :=
  match as_num v with
  | Some x => Ret (VNum (1 - x))
  | None => Raise TypeError "unsupported operand type(s) for -"
  end.

(** [sample.SAMPLE( **kwargs).sinusoidal.a]; only parameters are attributes. *)
Definition sample_attr (kwargs : dict val) (a : string) (w : pworld) : pworld * outcome val :=
  match construct default_window construct_tracker d CSample kwargs w with
  | (w, Raise e m) => (w, Raise e m)
  | (w, Ret o) =>
    match dget "sinusoidal" (attrs_of w o) with
    | Some (VObj i) =>
      match dget a (attrs_of w i) with
      | Some v => (w, Ret v)
      | None => (w, Raise AttributeError a)
      end
    | _ => (w, Raise AttributeError a)
    end
  end.

(** Body of [sample_kwargs_remapper], sample/optimize.py lines 56-70. *)
Definition remap_n (log_n : val) (kwargs : dict val) : outcome (dict val) :=
  match log_n with
  | VNone => Ret kwargs
  | _ =>
    if dmem "sinusoidal__n" kwargs then Ret kwargs
    else match shift_one log_n with
         | Raise e m => Raise e m
         | Ret n => Ret (dset "sinusoidal__n" n kwargs)
         end
  end.
Definition remap_w (wtype wsize : val) (kwargs : dict val) (w : pworld) : pworld * outcome (dict val) :=
  if dmem "sinusoidal__w" kwargs then (w, Ret kwargs)
  else match sample_attr kwargs "n" w with
       | (w, Raise e m) => (w, Raise e m)
       | (w, Ret n) =>
         match int_product n wsize with
         | Raise e m => (w, Raise e m)
         | Ret size =>
           match get_window wtype size with
           | Raise e m => (w, Raise e m)
           | Ret win => (w, Ret (dset "sinusoidal__w" win kwargs))
           end
         end
       end.
Definition remap_h (overlap : val) (kwargs : dict val) (w : pworld) : pworld * outcome (dict val) :=
  if dmem "sinusoidal__tracker__h" kwargs then (w, Ret kwargs)
  else match sample_attr kwargs "w" w with
       | (w, Raise e m) => (w, Raise e m)
       | (w, Ret win) =>
         let wsize := np_size win in
         match one_minus overlap with
         | Raise e m => (w, Raise e m)
         | Ret step =>
           match int_product step (VInt wsize) with
           | Raise e m => (w, Raise e m)
           | Ret hop => (w, Ret (dset "sinusoidal__tracker__h" (VInt (Z.max (Z.min hop wsize) 1)) kwargs))
           end
         end
       end.
Definition remap_body (log_n wtype wsize overlap : val) (kwargs : dict val) (w : pworld)
  : pworld * outcome (dict val) :=
  match remap_n log_n kwargs with
  | Raise e m => (w, Raise e m)
  | Ret kwargs =>
    match remap_w wtype wsize kwargs w with
    | (w, Raise e m) => (w, Raise e m)
    | (w, Ret kwargs) => remap_h overlap kwargs w
    end
  end.

(** Parameters with defaults, lines 31-35, and their decorators, lines 27-30. *)
Definition remap_sig : dict val :=
  [("sinusoidal__log_n", VNone); ("sinusoidal__wtype", VStr "hamming"); ("sinusoidal__wsize", VNum 1);
   ("sinusoidal__overlap", VNum (1 # 2))].
Definition remap_decorators : list depr :=
  map (fun k => renamed ("sinusoidal_model__" ++ k) ("sinusoidal__" ++ k)) ["log_n"; "wtype"; "wsize"; "overlap"].
Fixpoint rename_keywords (ds : list depr) (args : list val) (kwargs : dict val) : outcome (dict val) :=
  match ds with
  | [] => Ret kwargs
  | x :: ds' =>
    match snd (depr_loop x args (key_map x kwargs) kwargs) with
    | Raise e m => Raise e m
    | Ret kwargs => rename_keywords ds' args kwargs
    end
  end.
(** Binding of positional and keyword arguments to the parameters [sig]; the
    other keywords remain. *)
Fixpoint bind_args (sig : dict val) (args : list val) (kwargs : dict val) : outcome (list val * dict val) :=
  match sig with
  | [] => match args with
          | [] => Ret ([], kwargs)
          | _ => Raise TypeError "takes from 0 to 4 positional arguments"
          end
  | (k, def) :: sig' =>
    match args with
    | a :: args' =>
      if dmem k kwargs then Raise TypeError "got multiple values for argument"
      else match bind_args sig' args' kwargs with
           | Raise e m => Raise e m
           | Ret (vs, kw) => Ret (a :: vs, kw)
           end
    | [] => match bind_args sig' [] (ddel k kwargs) with
            | Raise e m => Raise e m
            | Ret (vs, kw) => Ret (keyword k def kwargs :: vs, kw)
            end
    end
  end.
(** [sample_kwargs_remapper], lines 27-70. *)
Definition remapper (args : list val) (kwargs : dict val) (w : pworld) : pworld * outcome (dict val) :=
  match rename_keywords remap_decorators args kwargs with
  | Raise e m => (w, Raise e m)
  | Ret kwargs =>
    match bind_args remap_sig args kwargs with
    | Raise e m => (w, Raise e m)
    | Ret (vs, kwargs) =>
      remap_body (nth 0 vs VNone) (nth 1 vs VNone) (nth 2 vs VNone) (nth 3 vs VNone) kwargs w
    end
  end.

(** ** Optimizer *)

(** A remapper: positional arguments, keywords and objects. *)
Definition remap_fn : Type := list val -> dict val -> pworld -> pworld * outcome (dict val).
(** The attributes of [SAMPLEOptimizer] that hold the model, the names and
    search spaces of the dimensions, the remapper and the clipping flag (lines
    118-122); the loss function is an argument of [loss_value]. *)
Record optimizer : Type := mkOpt { o_model : val; o_dims : dict val; o_remap : option remap_fn; o_clip : bool }.

(** [model.set_params( **kwargs)], which returns the model. *)
Definition call_set_params (v : val) (kwargs : dict val) (w : pworld) : pworld * outcome val :=
  match as_estimator w v with
  | None => (w, Raise AttributeError "set_params")
  | Some o =>
    match set_params default_window construct_tracker d o kwargs w with
    | (w, Raise e m) => (w, Raise e m)
    | (w, Ret _) => (w, Ret v)
    end
  end.
(** Keyword [remap]: absent, [None], or a function. *)
Definition call_remap (remap : option (option remap_fn)) (args : list val) (kwargs : dict val) (w : pworld)
  : pworld * outcome (dict val) :=
  match remap with
  | None => remapper args kwargs w
  | Some None => (w, Raise TypeError "'NoneType' object is not callable")
  | Some (Some f) => f args kwargs w
  end.
(** Constructor, lines 93-126.  The outer decorator converts [sample_fn] (which
    gets the keywords and returns an object), the inner one [sample_kw]; the
    default of [kwargs.get("model", sample.SAMPLE())] is built in any case.
    [**None] is a TypeError, other values of [sample_kw] are taken to be
    dictionaries.  [sample_fn] is given as a keyword. *)
Definition opt_init (sample_fn : option (dict val -> pworld -> pworld * outcome val)) (sample_kw : option (option (dict val)))
    (model : option val) (remap : option (option remap_fn)) (clip : bool) (dims : dict val) (w : pworld)
  : pworld * outcome optimizer :=
  let first :=
    match sample_fn with
    | None => (w, Ret model)
    | Some f =>
      match call_remap remap [VDict (match sample_kw with Some (Some kw) => kw | _ => [] end)] [] w with
      | (w, Raise e m) => (w, Raise e m)
      | (w, Ret kw) =>
        match f kw w with
        | (w, Raise e m) => (w, Raise e m)
        | (w, Ret v) => (w, Ret (Some v))
        end
      end
    end in
  let second :=
    match first with
    | (w, Raise e m) => (w, Raise e m)
    | (w, Ret model) =>
      match sample_kw with
      | None => (w, Ret model)
      | Some kw =>
        match construct default_window construct_tracker d CSample [] w with
        | (w, Raise e m) => (w, Raise e m)
        | (w, Ret s) =>
          match kw with
          | None => (w, Raise TypeError "argument after ** must be a mapping, not NoneType")
          | Some kw =>
            match call_remap remap [] kw w with
            | (w, Raise e m) => (w, Raise e m)
            | (w, Ret kw) =>
              match call_set_params (match model with Some v => v | None => VObj s end) kw w with
              | (w, Raise e m) => (w, Raise e m)
              | (w, Ret v) => (w, Ret (Some v))
              end
            end
          end
        end
      end
    end in
  let remap := match remap with None => Some remapper | Some r => r end in
  match second with
  | (w, Raise e m) => (w, Raise e m)
  | (w, Ret (Some v)) =>
    match v with
    | VNone => match construct default_window construct_tracker d CSample [] w with
               | (w, Raise e m) => (w, Raise e m)
               | (w, Ret s) => (w, Ret (mkOpt (VObj s) dims remap clip))
               end
    | _ => (w, Ret (mkOpt v dims remap clip))
    end
  | (w, Ret None) => match construct default_window construct_tracker d CSample [] w with
                     | (w, Raise e m) => (w, Raise e m)
                     | (w, Ret s) => (w, Ret (mkOpt (VObj s) dims remap clip))
                     end
  end.

(** [_kwargs], lines 128-144.  The same keyword twice is a TypeError. *)
Definition dict_zip (ks : list string) (vs : list val) : dict val :=
  fold_left (fun m p => dset (fst p) (snd p) m) (combine ks vs) [].
Definition opt_kwargs (p : optimizer) (args : list val) (kwargs : dict val) (w : pworld)
  : pworld * outcome (dict val) :=
  if Nat.eqb (List.length args) (List.length (o_dims p)) then
    match o_remap p with
    | None => (w, Ret kwargs)
    | Some f =>
      let point := dict_zip (dkeys (o_dims p)) args in
      if existsb (fun k => dmem k kwargs) (dkeys point)
      then (w, Raise TypeError "got multiple values for keyword argument")
      else f [] (point ++ kwargs) w
    end
  else (w, Raise ValueError "Expected another number of positional arguments").

(** [base.clone(self.model)] followed by [set_params], lines 161-163 and
    201-202: the model that is then trained. *)
Definition opt_model (p : optimizer) (args : list val) (kwargs : dict val) (w : pworld) : pworld * outcome nat :=
  match as_estimator w (o_model p) with
  | None => (w, Raise TypeError "Cannot clone object")
  | Some m =>
    match clone default_window construct_tracker d m w with
    | (w, Raise e m) => (w, Raise e m)
    | (w, Ret o) =>
      match opt_kwargs p args kwargs w with
      | (w, Raise e m) => (w, Raise e m)
      | (w, Ret ps) =>
        match set_params default_window construct_tracker d o ps w with
        | (w, Raise e m) => (w, Raise e m)
        | (w, Ret _) => (w, Ret o)
        end
      end
    end
  end.

(** Peak of the audio, line 157; [np.max] of nothing is a ValueError. *)
Definition opt_peak (p : optimizer) (x : list Q) : outcome (option Q) :=
  if o_clip p then
    match map Qabs x with
    | [] => Raise ValueError "zero-size array to reduction operation maximum which has no identity"
    | a :: l => Ret (Some (fold_left Qmax l a))
    end
  else Ret None.
(** [np.clip(y, -peak, peak)], line 168. *)
Definition np_clip (peak : option Q) (y : list Q) : list Q :=
  match peak with
  | None => y
  | Some p => map (fun v => Qmin (Qmax v (- p)) p) y
  end.

(** Training and synthesis (any function of the objects), the loss function and
    the minimizer of scikit-optimize are arguments.  [predict] gets the number
    of samples and the sample rate; the phases are random, so that it may
    depend on the number of the call. *)
Variable fit : nat -> list Q -> dict val -> pworld -> pworld * outcome unit.
Variable predict : nat -> nat -> nat -> val -> pworld -> pworld * outcome (list Q).
Variable loss_fn : list Q -> list Q -> outcome Q.

(** [loss_], lines 159-169: [r] is the number of the call, [peak] the one of
    [opt_peak]. *)
Definition loss_value (p : optimizer) (peak : option Q) (x : list Q) (fs : val) (r : nat) (args : list val)
    (kwargs : dict val) (w : pworld) : pworld * outcome Q :=
  match opt_model p args (kwargs ++ [("sinusoidal__tracker__fs", fs)]) w with
  | (w, Raise e m) => (w, Raise e m)
  | (w, Ret o) =>
    match fit o x [] w with
    | (w, Raise e m) => (w, Raise e m)
    | (w, Ret _) =>
      match predict r o (List.length x) fs w with
      | (w, Raise e m) => (w, Raise e m)
      | (w, Ret y) => (w, loss_fn x (np_clip peak y))
      end
    end
  end.

(** [skopt.gp_minimize]: what it does next after the given evaluations. *)
Inductive ask : Type := Ask (x : list val) | Best (x : list val).
Variable minimizer : dict val -> list (list val * Q) -> ask.

(** At most [n] evaluations; [None] if the minimizer asks for more. *)
Fixpoint minimize (p : optimizer) (peak : option Q) (x : list Q) (fs : val) (kwargs : dict val) (n : nat)
    (seen : list (list val * Q)) (w : pworld) : option (pworld * outcome (list val)) :=
  match minimizer kwargs seen with
  | Best b => Some (w, Ret b)
  | Ask a =>
    match n with
    | O => None
    | S n' =>
      match loss_value p peak x fs (List.length seen) a [] w with
      | (w, Raise e m) => Some (w, Raise e m)
      | (w, Ret q) => minimize p peak x fs kwargs n' (seen ++ [(a, q)]) w
      end
    end
  end.
(** Continuation of an earlier run, lines 193-195: [state] are its points and
    values. *)
Definition with_state (state : option (val * val)) (kwargs : dict val) : dict val :=
  match state with
  | Some (xs, ys) =>
    if negb (dmem "x0" kwargs) && negb (dmem "y0" kwargs)
    then dset "y0" ys (dset "x0" xs kwargs) else kwargs
  | None => kwargs
  end.
(** [gp_minimize], lines 173-204, without the filter of warnings: the model and
    the best point. *)
Definition gp_minimize (p : optimizer) (x : list Q) (fs : val) (state : option (val * val)) (fit_kws : dict val)
    (kwargs : dict val) (n : nat) (w : pworld) : option (pworld * outcome (nat * list val)) :=
  match opt_peak p x with
  | Raise e m => Some (w, Raise e m)
  | Ret peak =>
    match minimize p peak x fs (with_state state kwargs) n [] w with
    | None => None
    | Some (w, Raise e m) => Some (w, Raise e m)
    | Some (w, Ret b) =>
      match opt_model p b [("sinusoidal__tracker__fs", fs)] w with
      | (w, Raise e m) => Some (w, Raise e m)
      | (w, Ret o) =>
        match fit o x fit_kws w with
        | (w, Raise e m) => Some (w, Raise e m)
        | (w, Ret _) => Some (w, Ret (o, b))
        end
      end
    end
  end.

End Opt.

(** ** Progress bar *)

(** What happens to progress bars: a bar with a total opens, it advances by
    one, its text changes, it closes. *)
Inductive bar_event : Type := Open (total : Z) | Advance | Text (s : string) | Close.

(** Attributes of [TqdmCallback], lines 218-230; [tc_open] says that [tqdm] is
    not [None]. *)
Record callback : Type := mkCallback
  { tc_calls : Z; tc_initial : Z; tc_minimum : bool; tc_i : option Z; tc_open : bool }.
Definition tc_init (n_calls n_initial : Z) (minimum : bool) : callback :=
  mkCallback n_calls n_initial minimum None false.
(** [started], lines 232-235. *)
Definition tc_started (c : callback) : bool :=
  tc_open c || match tc_i c with Some _ => true | None => false end.
(** [reset], lines 237-243. *)
Definition tc_reset (c : callback) : callback * list bar_event :=
  (mkCallback (tc_calls c) (tc_initial c) (tc_minimum c) None false, if tc_open c then [Close] else []).
(** [start], lines 245-250: an open bar is replaced, not closed. *)
Definition tc_start (c : callback) : callback * list bar_event :=
  (mkCallback (tc_calls c) (tc_initial c) (tc_minimum c) (Some 0%Z) true, [Open (tc_calls c)]).
(** [__call__], lines 252-270.  [show] is the text of a value in an f-string;
    the result has the best point and its value. *)
Definition tc_postfix (show : val -> string) (c : callback) (i : Z) (dims : list string) (best : list val)
    (value : val) : string :=
  let stage := if (i <=? tc_initial c)%Z then "stage=randomize" else "stage=minimize" in
  if tc_minimum c then
    (stage ++ ", minimum=(value=" ++ show value ++ ", params=(" ++
     String.concat ", " (map (fun p => fst p ++ "=" ++ show (snd p)) (combine dims best)) ++ "))")%string
  else stage.
Definition tc_call (show : val -> string) (dims : list string) (best : list val) (value : val) (c : callback)
  : callback * list bar_event :=
  let '(c, es) := if tc_started c then (c, []) else tc_start c in
  let i := (match tc_i c with Some i => i | None => 0 end + 1)%Z in
  (mkCallback (tc_calls c) (tc_initial c) (tc_minimum c) (Some i) (tc_open c),
   es ++ [Advance; Text (tc_postfix show c i dims best value)]).
