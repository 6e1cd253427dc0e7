(** Model of the call plumbing of sample/utils/__init__.py (function variants,
    deprecated arguments, default keywords), of its uses in sample/sms/sm.py,
    sample/sms/mm.py and sample/sample.py, and of sample/utils/learn.py (default
    properties, optional storage). *)
From Coq Require Import String Ascii List Bool ZArith QArith.
Import ListNotations.
From Verif Require Import Base Py Dict.
Local Open Scope string_scope.

(** Python values as far as the modelled code looks at them.  [VObj i] is an
    object that the code only passes around. *)
Inductive val : Type :=
| VNone
| VBool (b : bool)
| VInt (z : Z)
| VNum (q : Q)
| VStr (s : string)
| VObj (i : nat)
| VList (l : list val)
| VDict (d : list (string * val)).

(** A call ends with a value or an exception and its message. *)
Inductive outcome (A : Type) : Type :=
| Ret (a : A)
| Raise (e : exn) (msg : string).
Arguments Ret {A} a.
Arguments Raise {A} e msg.

(** A python function: positional and keyword arguments to the warnings it
    issues and its outcome. *)
Definition pyfun : Type := list val -> dict val -> list string * outcome val.

(** ** Function variants *)

(** [comma_join_quote], sample/utils/__init__.py lines 12-20, on strings. *)
Definition comma_join_quote (l : list string) : string :=
  String.concat ", " (map (fun s => "'" ++ s ++ "'") l).

(** [inspect.Parameter]: name and kind (positional-only 0,
    positional-or-keyword 1, var-positional 2, keyword-only 3, var-keyword 4). *)
Record param : Type := mkParam { pname : string; pkind : nat }.

(** [add_keyword_arg], lines 46-57: the new parameters. *)
Definition add_keyword_arg (name : string) (sig : list param) : list param :=
  let params := filter (fun p => negb (String.eqb (pname p) name)) sig in
  let i := List.length params in
  let i := match rev params with
           | p :: _ => if Nat.eqb (pkind p) 4 then (i - 1)%nat else i
           | [] => i
           end in
  (firstn i params ++ mkParam name 3 :: skipn i params)%list.

(** [function_with_variants], lines 60-101: name of the decorated function,
    keyword, default option and [func_dict]. *)
Record variants : Type := mkVariants
  { v_name : string; v_key : string; v_default : string; v_dict : dict pyfun }.
Definition function_with_variants (name : string) (func : pyfun) (key default : string)
    (this : option string) : variants :=
  mkVariants name key default (match this with None => [] | Some t => [(t, func)] end).

(** [function_variant], lines 104-121: also replaces an earlier registration
    under the same key. *)
Definition function_variant (main : variants) (key : string) (this : pyfun) : variants :=
  mkVariants (v_name main) (v_key main) (v_default main) (dset key this (v_dict main)).

(** Text of a value in an f-string; [repr] for the values that are not strings. *)
Definition py_str (repr : val -> string) (v : val) : string :=
  match v with VStr s => s | _ => repr v end.

(** [func_], lines 88-98.  Looking up an unhashable option (a list or a
    dictionary) is a TypeError. *)
Definition variants_call (repr : val -> string) (f : variants) : pyfun :=
  fun args kwargs =>
    let k := match dget (v_key f) kwargs with Some k => k | None => VStr (v_default f) end in
    let kwargs := ddel (v_key f) kwargs in
    let unsupported :=
      ([], Raise ValueError
             (v_name f ++ ": unsupported option '" ++ py_str repr k ++ "' for argument '" ++ v_key f ++
              "'. Supported options are: " ++ comma_join_quote (dkeys (v_dict f)))) in
    match k with
    | VStr s => match dget s (v_dict f) with
                | Some foo => foo args kwargs
                | None => unsupported
                end
    | VList _ | VDict _ => ([], Raise TypeError "unhashable type")
    | _ => unsupported
    end.

(** ** Deprecated arguments *)

(** The arguments of [deprecated_argument], lines 311-317.  [convert] gets the
    positional and keyword arguments. *)
Record depr : Type := mkDepr
  { old_key : string; new_key : option string;
    convert : option (list val -> dict val -> outcome (string * val));
    dmsg : option string; dprefix : bool; dwarn : bool }.

(** Checks made at decoration, lines 433-439. *)
Definition depr_check (d : depr) : outcome unit :=
  match new_key d with
  | Some _ => Ret tt
  | None =>
    if dprefix d then Raise ValueError "prefix=True should be used in conjuction with 'new_key'"
    else match convert d with
         | Some _ => Ret tt
         | None => Raise ValueError "At least one between 'new_key' and 'convert' should not be None"
         end
  end.

(** [s[n:]]. *)
Fixpoint sdrop (n : nat) (s : string) : string :=
  match n, s with
  | S n', String _ s' => sdrop n' s'
  | _, _ => s
  end.

(** [key_map_], lines 448-455. *)
Definition fstr (k : option string) : string := match k with Some s => s | None => "None" end.
Definition key_map (d : depr) (kwargs : dict val) : list (string * option string) :=
  if dprefix d then
    map (fun k => (k, Some (fstr (new_key d) ++ sdrop (String.length (old_key d)) k)))
        (filter (String.prefix (old_key d)) (dkeys kwargs))
  else [(old_key d, new_key d)].

(** The warning of lines 471-476. *)
Definition depr_warning (d : depr) (old : string) (new : option string) : list string :=
  if dwarn d then
    ["The '" ++ old ++ "' argument is deprecated, use '" ++ fstr new ++ "' instead." ++
     (match dmsg d with None => "" | Some m => " " ++ m end)]
  else [].

(** The loop of lines 457-476: warnings so far and the new keywords. *)
Fixpoint depr_loop (d : depr) (args : list val) (km : list (string * option string)) (kwargs : dict val)
  : list string * outcome (dict val) :=
  match km with
  | [] => ([], Ret kwargs)
  | (o, n) :: km' =>
    match dget o kwargs with
    | None => depr_loop d args km' kwargs
    | Some v =>
      match convert d with
      | Some c =>
        match c args kwargs with
        | Raise e m => ([], Raise e m)
        | Ret (n', x) =>
          let '(w, r) := depr_loop d args km' (dset n' x (ddel o kwargs)) in
          ((depr_warning d o (Some n') ++ w)%list, r)
        end
      | None =>
        let kwargs := match n with Some n' => dset n' v (ddel o kwargs) | None => kwargs end in
        let '(w, r) := depr_loop d args km' kwargs in
        ((depr_warning d o n ++ w)%list, r)
      end
    end
  end.

(** [func_], lines 447-477. *)
Definition deprecated (d : depr) (func : pyfun) : pyfun :=
  fun args kwargs =>
    match depr_loop d args (key_map d kwargs) kwargs with
    | (w, Raise e m) => (w, Raise e m)
    | (w, Ret kwargs) => let '(w', r) := func args kwargs in ((w ++ w')%list, r)
    end.

(** Stacked decorators, the outermost first. *)
Definition deprecated_all (ds : list depr) (func : pyfun) : pyfun := fold_right deprecated func ds.

(** [deprecated_argument(old, new)]. *)
Definition renamed (old new : string) : depr := mkDepr old (Some new) None None false true.

(** Call of a lambda with one positional parameter [p] and [**kwargs]. *)
Definition bind1 (p : string) (args : list val) (kwargs : dict val) : outcome (val * dict val) :=
  match args with
  | [] => match dget p kwargs with
          | Some v => Ret (v, ddel p kwargs)
          | None => Raise TypeError "missing 1 required positional argument"
          end
  | [v] => if dmem p kwargs then Raise TypeError "got multiple values for argument" else Ret (v, kwargs)
  | _ => Raise TypeError "takes 1 positional argument"
  end.

(** [max(a, b)] of numbers (booleans are integers): the first one unless the
    second one is larger. *)
Definition as_num (v : val) : option Q :=
  match v with
  | VInt z => Some (inject_Z z)
  | VNum q => Some q
  | VBool b => Some (if b then 1 else 0)%Q
  | _ => None
  end.
Definition pymax (a b : val) : outcome val :=
  match as_num a, as_num b with
  | Some x, Some y => Ret (if Qltb x y then b else a)
  | _, _ => Raise TypeError "'>' not supported"
  end.

(** The conversion of [safe_sine_len], sample/sms/sm.py lines 207-210. *)
Definition safe_sine_len (args : list val) (kwargs : dict val) : outcome (string * val) :=
  match bind1 "_" args kwargs with
  | Raise e m => Raise e m
  | Ret (_, kw) =>
    match dget "safe_sine_len" kw with
    | None => Raise KeyError "safe_sine_len"
    | Some v =>
      match pymax (match v with VNone => VInt (-1) | _ => v end)
                  (match dget "tracker__min_sine_dur" kw with Some u => u | None => VInt 1 end) with
      | Raise e m => Raise e m
      | Ret x => Ret ("tracker__min_sine_dur", x)
      end
    end
  end.
(** The conversion of [sine_tracker_cls], lines 215-217; [construct] calls the
    given class. *)
Definition sine_tracker_cls (construct : val -> outcome val) (args : list val) (kwargs : dict val)
  : outcome (string * val) :=
  match bind1 "sine_tracker_cls" args kwargs with
  | Raise e m => Raise e m
  | Ret (c, _) => match construct c with Raise e m => Raise e m | Ret t => Ret ("tracker", t) end
  end.

(** [_decorate_sinusoidal_model], sample/sms/sm.py lines 200-225. *)
Definition sinusoidal_decorators (construct : val -> outcome val) : list depr :=
  [renamed "max_n_sines" "tracker__max_n_sines";
   renamed "min_sine_dur" "tracker__min_sine_dur";
   mkDepr "safe_sine_len" None (Some safe_sine_len)
     (Some ("'safe_sine_len' is no longer a parameter, since the " ++
            "'min_sine_dur' of the sine tracker is already expressed in frames")) false true;
   renamed "freq_dev_offset" "tracker__freq_dev_offset";
   renamed "freq_dev_slope" "tracker__freq_dev_slope";
   mkDepr "sine_tracker_cls" None (Some (sine_tracker_cls construct)) None false true;
   renamed "save_intermediate" "intermediate__save";
   renamed "fs" "tracker__fs";
   renamed "h" "tracker__h"].

(** [_decorate_modal_model], sample/sms/mm.py lines 190-202. *)
Definition modal_decorators : list depr :=
  [renamed "reverse" "tracker__reverse";
   renamed "frequency_bounds" "tracker__frequency_bounds";
   renamed "peak_threshold" "tracker__peak_threshold";
   renamed "merge_strategy" "tracker__merge_strategy";
   renamed "strip_t" "tracker__strip_t"].

(** [_decorate_sample], sample/sample.py lines 39-46. *)
Definition sample_decorator : depr :=
  mkDepr "sinusoidal_model" (Some "sinusoidal") None None true true.

(** ** Default keyword arguments *)

(** [default_kws], sample/utils/__init__.py lines 540-570.  The given
    dictionary is copied. *)
Definition default_kws {V} (d : option (dict V)) (kwargs : dict V) : dict V :=
  fold_left (fun d p => dset (fst p) (match dget (fst p) d with Some v => v | None => snd p end) d)
    kwargs (match d with None => [] | Some d => d end).

(** ** Default properties *)

(** Attributes of every object, and the number of the next new object. *)
Record world : Type := mkWorld { attrs : nat -> dict val; fresh : nat }.

(** [_DefaultProperty.__init__], sample/utils/learn.py lines 50-63: the name of
    the attribute that holds the value; [fn_name] is the name of the function,
    if it has one. *)
Definition property_attr (name fn_name : option string) : outcome string :=
  let name := match name with Some n => Some n | None => fn_name end in
  match name with
  | None => Raise ValueError "default_property(): name 'None' is forbidden"
  | Some n =>
    if String.eqb n "<lambda>" then
      Raise ValueError "default_property(): name '<lambda>' is forbidden because of possible conflicts with other lambda functions"
    else if String.eqb n "_" then
      Raise ValueError "default_property(): name '_' is forbidden because it is conventionally used as a placeholder"
    else Ret ("_default_property_" ++ n)
  end.

(** A property: its attribute, its default-checker [fdef] and the function that
    builds the default value of an object, which may create objects. *)
Record property : Type := mkProperty
  { p_attr : string; p_fdef : nat -> val -> bool; p_default : nat -> world -> world * val }.

(** [_default_fdef], lines 99-102; [_constant_fdef], lines 94-97. *)
Definition default_fdef (parent : nat) (v : val) : bool := match v with VNone => true | _ => false end.
Definition constant_fdef (parent : nat) (v : val) : bool := false.
(** [defaulter], lines 74-82. *)
Definition defaulter (p : property) (fdef : option (nat -> val -> bool)) : property :=
  mkProperty (p_attr p) (match fdef with None => constant_fdef | Some f => f end) (p_default p).

(** [setattr]. *)
Definition set_attr (w : world) (o : nat) (a : string) (v : val) : world :=
  mkWorld (fun o' => if Nat.eqb o' o then dset a v (attrs w o) else attrs w o') (fresh w).
(** [_default_fset], lines 88-92. *)
Definition prop_set (p : property) (parent : nat) (v : val) (w : world) : world :=
  let '(w, v) := if p_fdef p parent v then p_default p parent w else (w, v) in
  set_attr w parent (p_attr p) v.
(** [_default_fget], lines 84-86. *)
Definition prop_get (p : property) (parent : nat) (w : world) : outcome val :=
  match dget (p_attr p) (attrs w parent) with
  | Some v => Ret v
  | None => Raise AttributeError (p_attr p)
  end.

(** Statements of a program that uses properties: creation of an object (by any
    other constructor) and assignment of a property. *)
Inductive pstmt : Type :=
| PNew
| PSet (p : property) (parent : nat) (v : val).
Definition pstep (w : world) (s : pstmt) : world :=
  match s with
  | PNew => mkWorld (attrs w) (S (fresh w))
  | PSet p parent v => prop_set p parent v w
  end.
Definition prun (w : world) (h : list pstmt) : world := fold_left pstep h w.

(** ** Optional storage *)

(** [OptionalStorage], lines 194-295: [cache_] may be missing. *)
Record storage : Type := mkStorage { s_save : bool; s_cache : option (dict (list val)) }.

(** [__getitem__], lines 251-252. *)
Definition st_getitem (s : storage) (key : string) : outcome (list val) :=
  match dget key (match s_cache s with Some c => c | None => [] end) with
  | Some l => Ret l
  | None => Raise KeyError key
  end.
(** [get_state], lines 254-263. *)
Definition st_get_state (s : storage) : dict (list val) :=
  match s_cache s with Some c => c | None => [] end.
(** [reset], lines 265-268. *)
Definition st_reset (s : storage) : storage := mkStorage (s_save s) None.

(** [l[i] = v] on a python list: negative indices count from the end, IndexError
    outside. *)
Definition list_set {A} (l : list A) (i : Z) (v : A) : res (list A) :=
  let j := (if i <? 0 then i + zlen l else i)%Z in
  if ((0 <=? j) && (j <? zlen l))%Z then Ok (upd (Z.to_nat j) v l) else Err IndexError.

(** [append], lines 270-293: the storage afterwards (also if the call raises)
    and the outcome. *)
Definition st_append (s : storage) (key : string) (v : val) (index : option Z) : storage * outcome val :=
  if s_save s then
    let c := match s_cache s with Some c => c | None => [] end in
    let l := match dget key c with Some l => l | None => [] end in
    match index with
    | None => (mkStorage (s_save s) (Some (dset key (l ++ [v])%list c)), Ret v)
    | Some i =>
      let l := if (zlen l <=? i)%Z then (l ++ repeat VNone (Z.to_nat (i + 1 - zlen l)))%list else l in
      match list_set l i v with
      | Ok l' => (mkStorage (s_save s) (Some (dset key l' c)), Ret v)
      | Err e => (mkStorage (s_save s) (Some (dset key l c)), Raise e "list assignment index out of range")
      end
    end
  else (s, Ret v).
