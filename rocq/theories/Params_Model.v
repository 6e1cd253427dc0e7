(** Model of the parameters of the estimators of the package: constructors,
    [get_params], [set_params] and [clone] (sample/sample.py, sample/sms/sm.py,
    sample/sms/mm.py, sample/hinge.py, sample/utils/learn.py on top of
    sklearn.base), routing of the keywords of [SAMPLE.fit], and
    sample/optimize.py. *)
From Coq Require Import String Ascii List Bool ZArith QArith Qround.
Import ListNotations.
From Verif Require Import Base Py Dict Utils_Model.
Local Open Scope string_scope.
Local Open Scope list_scope.

(** Exceptions without a name in [exn]. *)
Notation RecursionError := (OtherError 10).
Notation RuntimeError := (OtherError 11).

(** ** Classes *)

(** Classes of the package, any other scikit-learn estimator with the given
    names and defaults of the parameters, and objects that are not estimators. *)
Inductive cls : Type :=
| CSample | CSinusoidal | CModal | CSineTracker | CModalTracker | CHinge | CLinear | CStorage
| CUser (sig : dict val)
| COther.

(** Names and default values of the parameters of [__init__], sorted by name as
    [BaseEstimator._get_param_names] lists them: sample/sample.py lines 74-83
    (the function [numpy.mean] is represented by its name), sample/sms/sm.py
    lines 54-61 and 246-255, sample/sms/mm.py lines 69-82 and 224-231,
    sample/hinge.py lines 76-84, sample/utils/learn.py line 248, and
    [LinearRegression] of scikit-learn (only the parameters that no version
    lacks). *)
Definition tracker_sig : dict val :=
  [("freq_dev_offset", VInt 20); ("freq_dev_slope", VNum (1 # 100)); ("fs", VInt 44100); ("h", VInt 500);
   ("max_n_sines", VInt 100); ("min_sine_dur", VNum (4 # 100))].
Definition modal_tracker_sig : dict val :=
  [("freq_dev_offset", VInt 20); ("freq_dev_slope", VNum (1 # 100));
   ("frequency_bounds", VList [VInt 20; VInt 16000]); ("fs", VInt 44100); ("h", VInt 500);
   ("max_n_sines", VInt 100); ("merge_strategy", VStr "average"); ("min_sine_dur", VNum (4 # 100));
   ("peak_threshold", VInt (-90)); ("reverse", VBool false); ("strip_t", VNone)].
Definition sinusoidal_sig : dict val :=
  [("intermediate", VNone); ("n", VInt 2048); ("padded", VBool false); ("t", VInt (-90)); ("tracker", VNone);
   ("w", VNone)].
Definition c_sig (c : cls) : dict val :=
  match c with
  | CSample =>
    [("freq_reduce", VStr "numpy.mean"); ("max_n_modes", VNone); ("regressor", VNone);
     ("regressor_k", VStr "k_"); ("regressor_q", VStr "q_"); ("sinusoidal", VNone)]
  | CSinusoidal | CModal => sinusoidal_sig
  | CSineTracker => tracker_sig
  | CModalTracker => modal_tracker_sig
  | CHinge =>
    [("bounds", VNone); ("coeffs_init", VNone); ("linear_regressor", VNone);
     ("linear_regressor_k", VStr "coef_"); ("linear_regressor_q", VStr "intercept_"); ("method", VStr "dogbox")]
  | CLinear =>
    [("copy_X", VBool true); ("fit_intercept", VBool true); ("n_jobs", VNone); ("positive", VBool false)]
  | CStorage => [("save", VBool false)]
  | CUser sig => sig
  | COther => []
  end.

(** Whether [__init__] accepts further keywords and sets them with
    [set_params]. *)
Definition c_kwargs (c : cls) : bool :=
  match c with
  | CSample | CSinusoidal | CModal | CSineTracker | CModalTracker => true
  | _ => false
  end.

(** Whether objects of the class have [get_params] and [set_params]. *)
Definition estimator (c : cls) : bool := match c with COther => false | _ => true end.

(** Default properties: the class of the object that is built when [None] is
    set (sample/sample.py lines 102-110, sample/sms/sm.py lines 268-276,
    sample/sms/mm.py lines 244-247, sample/hinge.py lines 92-95), or the default
    window [numpy.hamming(2001)] (sample/sms/sm.py lines 278-281). *)
Inductive builder : Type := BObj (c : cls) | BWindow.
Definition c_default (c : cls) (k : string) : option builder :=
  match c with
  | CSample => if String.eqb k "sinusoidal" then Some (BObj CModal)
               else if String.eqb k "regressor" then Some (BObj CHinge) else None
  | CSinusoidal | CModal =>
    if String.eqb k "intermediate" then Some (BObj CStorage)
    else if String.eqb k "tracker" then
      Some (BObj (match c with CModal => CModalTracker | _ => CSineTracker end))
    else if String.eqb k "w" then Some BWindow else None
  | CHinge => if String.eqb k "linear_regressor" then Some (BObj CLinear) else None
  | _ => None
  end.

(** ** Objects *)

(** All objects in order of creation: class and values of the parameters.
    [VObj i] refers to the [i]-th one.  Arrays, functions, tuples and
    dictionaries are values: the modelled code does not change them in place. *)
Definition pworld : Type := list (cls * dict val).
Definition class_of (w : pworld) (o : nat) : cls :=
  match nth_error w o with Some (c, _) => c | None => COther end.
Definition attrs_of (w : pworld) (o : nat) : dict val :=
  match nth_error w o with Some (_, a) => a | None => [] end.
Definition put_attr (w : pworld) (o : nat) (k : string) (v : val) : pworld :=
  match nth_error w o with
  | Some (c, a) => upd o (c, dset k v a) w
  | None => w
  end.

(** The estimator that a value refers to. *)
Definition as_estimator (w : pworld) (v : val) : option nat :=
  match v with
  | VObj i => if estimator (class_of w i) then Some i else None
  | _ => None
  end.

Section Params.

(** [numpy.hamming(2001)]. *)
Variable default_window : val.
(** Call of the class given as [sine_tracker_cls] (sample/sms/sm.py line 217). *)
Variable construct_tracker : val -> outcome val.

(** Construction without further keywords: every parameter is set to the given
    value or to the default value of the signature, default properties build
    their object.  [n] bounds the depth of the construction of defaults; the
    longest chain is SAMPLE, ModalModel, ModalTracker. *)
Fixpoint init_attrs (mk : cls -> pworld -> option (pworld * nat)) (c : cls) (own : dict val) (o : nat)
    (sig : dict val) (w : pworld) : pworld :=
  match sig with
  | [] => w
  | (k, d) :: sig' =>
    let v := match dget k own with Some v => v | None => d end in
    init_attrs mk c own o sig'
      (match v, c_default c k with
       | VNone, Some BWindow => put_attr w o k default_window
       | VNone, Some (BObj c') =>
         match mk c' w with Some (w, i) => put_attr w o k (VObj i) | None => put_attr w o k VNone end
       | _, _ => put_attr w o k v
       end)
  end.
Fixpoint build (n : nat) (c : cls) (own : dict val) (w : pworld) : pworld * nat :=
  (init_attrs (match n with O => fun _ _ => None | S n' => fun c' w => Some (build n' c' [] w) end)
     c own (List.length w) (c_sig c) (w ++ [(c, [])]), List.length w).

(** [setattr(self, k, v)] of a parameter, with default properties
    (sample/utils/learn.py lines 88-92). *)
Definition setattr (w : pworld) (o : nat) (k : string) (v : val) : pworld :=
  match v, c_default (class_of w o) k with
  | VNone, Some BWindow => put_attr w o k default_window
  | VNone, Some (BObj c') => let '(w, i) := build 3 c' [] w in put_attr w o k (VObj i)
  | _, _ => put_attr w o k v
  end.

(** [BaseEstimator.get_params] of sklearn.base; [d] is the available stack. *)
Fixpoint get_params (d : nat) (w : pworld) (o : nat) (deep : bool) : outcome (dict val) :=
  match d with
  | O => Raise RecursionError "maximum recursion depth exceeded"
  | S d' =>
    fold_left (fun out k =>
      match out with
      | Raise e m => Raise e m
      | Ret out =>
        match dget k (attrs_of w o) with
        | None => Raise AttributeError k
        | Some v =>
          match (if deep then as_estimator w v else None) with
          | None => Ret (dset k v out)
          | Some i =>
            match get_params d' w i true with
            | Raise e m => Raise e m
            | Ret sub => Ret (dset k v (dupdate out (map (fun p => (k ++ "__" ++ fst p, snd p))%string sub)))
            end
          end
        end
      end) (dkeys (c_sig (class_of w o))) (Ret [])
  end.

(** [key.partition("__")]. *)
Fixpoint partition (s : string) : string * option string :=
  match s with
  | String a s' =>
    match (if Ascii.eqb a "_" then s' else "") with
    | String b s'' => if Ascii.eqb b "_" then ("", Some s'') else let '(k, r) := partition s' in (String a k, r)
    | _ => let '(k, r) := partition s' in (String a k, r)
    end
  | "" => ("", None)
  end.

(** Keywords after the decorators of [__init__] and [set_params]: deprecated
    arguments of the class, the outermost decorator first (sample/sample.py
    lines 73 and 98, sample/sms/mm.py lines 223 and 240, sample/sms/sm.py lines
    245 and 264).  [self] is the only positional argument; the warnings are left
    out (see [Utils_Model]). *)
Definition c_deprecated (c : cls) : list depr :=
  match c with
  | CSample => [sample_decorator]
  | CSinusoidal => sinusoidal_decorators construct_tracker
  | CModal => modal_decorators ++ sinusoidal_decorators construct_tracker
  | _ => []
  end.
Fixpoint rename (ds : list depr) (self : val) (kwargs : dict val) : outcome (dict val) :=
  match ds with
  | [] => Ret kwargs
  | d :: ds' =>
    match snd (depr_loop d [self] (key_map d kwargs) kwargs) with
    | Raise e m => Raise e m
    | Ret kwargs => rename ds' self kwargs
    end
  end.

(** The loop of [BaseEstimator.set_params] over the given parameters: own
    parameters are set at once, nested ones are collected; [valid] are the
    valid parameters with their values. *)
Fixpoint set_own (o : nat) (params : dict val) (valid : dict val) (nested : dict (dict val)) (w : pworld)
  : pworld * outcome (dict val * dict (dict val)) :=
  match params with
  | [] => (w, Ret (valid, nested))
  | (key, value) :: params' =>
    let '(k, sub) := partition key in
    if dmem k valid then
      match sub with
      | Some sub_key =>
        set_own o params' valid
          (dset k (dset sub_key value (match dget k nested with Some s => s | None => [] end)) nested) w
      | None => set_own o params' (dset k value valid) nested (setattr w o k value)
      end
    else (w, Raise ValueError ("Invalid parameter " ++ k)%string)
  end.

(** [set_params] of the estimator [o]: the decorators of its class and
    [BaseEstimator.set_params] of sklearn.base. *)
Fixpoint set_params (d : nat) (o : nat) (kwargs : dict val) (w : pworld) : pworld * outcome unit :=
  match d with
  | O => (w, Raise RecursionError "maximum recursion depth exceeded")
  | S d' =>
    match rename (c_deprecated (class_of w o)) (VObj o) kwargs with
    | Raise e m => (w, Raise e m)
    | Ret [] => (w, Ret tt)
    | Ret params =>
      match get_params d' w o true with
      | Raise e m => (w, Raise e m)
      | Ret valid =>
        match set_own o params valid [] w with
        | (w, Raise e m) => (w, Raise e m)
        | (w, Ret (valid, nested)) =>
          fold_left (fun r (p : string * dict val) =>
            match r with
            | (w, Raise e m) => (w, Raise e m)
            | (w, Ret _) =>
              match dget (fst p) valid with
              | Some v =>
                match as_estimator w v with
                | Some i => set_params d' i (snd p) w
                | None => (w, Raise AttributeError "set_params")
                end
              | None => (w, Raise KeyError (fst p))
              end
            end) nested (w, Ret tt)
        end
      end
    end
  end.

(** Call of the class [c] with keywords only. *)
Definition construct (d : nat) (c : cls) (kwargs : dict val) (w : pworld) : pworld * outcome nat :=
  match rename (c_deprecated c) (VObj (List.length w)) kwargs with
  | Raise e m => (w, Raise e m)
  | Ret kwargs =>
    let own := filter (fun p => dmem (fst p) (c_sig c)) kwargs in
    let rest := filter (fun p => negb (dmem (fst p) (c_sig c))) kwargs in
    if negb (c_kwargs c) && negb (match rest with [] => true | _ => false end)
    then (w, Raise TypeError "got an unexpected keyword argument")
    else
      let '(w, o) := build 3 c own w in
      match set_params d o rest w with
      | (w, Raise e m) => (w, Raise e m)
      | (w, Ret _) => (w, Ret o)
      end
  end.

(** [sklearn.base.clone] of an estimator ([safe] is true at the top): a new
    object of the same class, called with clones of the parameters.  Estimators
    in lists and tuples are cloned, values are copied; an object that is not an
    estimator is opaque and its copy is another one.  The check that every parameter is stored
    as it was given raises [RuntimeError]. *)
Fixpoint same_val (u v : val) : bool :=
  match u, v with
  | VObj i, VObj j => Nat.eqb i j
  | VNone, VNone => true
  | VNone, _ | _, VNone => false
  | VObj _, _ | _, VObj _ => false
  | _, _ => true
  end.
Fixpoint clone_val (f : nat -> pworld -> pworld * outcome val) (v : val) (w : pworld) : pworld * outcome val :=
  match v with
  | VObj i => f i w
  | VList l =>
    let r := (fix go (l : list val) (w : pworld) : pworld * outcome (list val) :=
      match l with
      | [] => (w, Ret [])
      | v :: l' =>
        match clone_val f v w with
        | (w, Raise e m) => (w, Raise e m)
        | (w, Ret v) =>
          match go l' w with
          | (w, Raise e m) => (w, Raise e m)
          | (w, Ret l') => (w, Ret (v :: l'))
          end
        end
      end) l w in
    match r with (w, Raise e m) => (w, Raise e m) | (w, Ret l) => (w, Ret (VList l)) end
  | _ => (w, Ret v)
  end.
Fixpoint clone_dict (f : nat -> pworld -> pworld * outcome val) (ps : dict val) (w : pworld)
  : pworld * outcome (dict val) :=
  match ps with
  | [] => (w, Ret [])
  | (k, v) :: ps' =>
    match clone_val f v w with
    | (w, Raise e m) => (w, Raise e m)
    | (w, Ret v) =>
      match clone_dict f ps' w with
      | (w, Raise e m) => (w, Raise e m)
      | (w, Ret ps') => (w, Ret ((k, v) :: ps'))
      end
    end
  end.
Fixpoint clone (d : nat) (o : nat) (w : pworld) : pworld * outcome nat :=
  match d with
  | O => (w, Raise RecursionError "maximum recursion depth exceeded")
  | S d' =>
    match get_params d' w o false with
    | Raise e m => (w, Raise e m)
    | Ret ps =>
      let copy := fun i w =>
        if estimator (class_of w i)
        then match clone d' i w with (w, Ret j) => (w, Ret (VObj j)) | (w, Raise e m) => (w, Raise e m) end
        else (w ++ [(COther, [])], Ret (VObj (List.length w))) in
      match clone_dict copy ps w with
      | (w, Raise e m) => (w, Raise e m)
      | (w, Ret ps) =>
        match construct d' (class_of w o) ps w with
        | (w, Raise e m) => (w, Raise e m)
        | (w, Ret o') =>
          match get_params d' w o' false with
          | Raise e m => (w, Raise e m)
          | Ret set =>
            if forallb (fun p => match dget (fst p) set with Some v => same_val (snd p) v | None => false end) ps
            then (w, Ret o')
            else (w, Raise RuntimeError "Cannot clone object")
          end
        end
      end
    end
  end.

End Params.
