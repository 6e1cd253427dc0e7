(** Model of the trim region of the audio tab, sample/widgets/audioload.py, and
    of the parsers and of the callback of the settings tab,
    sample/widgets/settings.py.  Widgets, plots and messages are left out. *)
From Coq Require Import String List Bool ZArith QArith Floats.SpecFloat Qround.
Import ListNotations.
From Verif Require Import Base Py Dict.
Local Open Scope list_scope.
Local Open Scope Z_scope.

(** ** The trim region *)

(** Double precision: products and quotients of floats, conversion of an
    integer, [int(x)]. *)
Definition f_mul : spec_float -> spec_float -> spec_float := SFmul 53 1024.
Definition f_div : spec_float -> spec_float -> spec_float := SFdiv 53 1024.
Definition f_of_int (z : Z) : spec_float := binary_normalize 53 1024 z 0 false.
Definition f_int (x : spec_float) : res Z :=
  match x with
  | S754_nan => Err ValueError
  | S754_infinity _ => Err OverflowError
  | S754_zero _ => Ok 0
  | S754_finite s m e =>
    let v := if 0 <=? e then Zpos m * 2 ^ e else Zpos m / 2 ^ (- e) in
    Ok (if s then - v else v)
  end.

(** The data of the tab.  [t_size] is the size of [audio_x]; [None] is no audio.
    [t_side]: [_trim_side]. *)
Record trim : Type := mkTrim
  { t_size : option Z; t_sr : Z; t_start : option Z; t_stop : option Z; t_side : option bool }.

(** [DataOnRootMixin.audio_loaded], sample/widgets/utils.py lines 104-112, for a
    tab that got its sample rate with its audio: the bounds, if loaded. *)
Definition loaded (s : trim) : option (Z * Z * Z) :=
  match t_size s, t_start s, t_stop s with
  | Some n, Some a, Some b => Some (n, a, b)
  | _, _, _ => None
  end.
Definition with_start (s : trim) (a : Z) : trim := mkTrim (t_size s) (t_sr s) (Some a) (t_stop s) (t_side s).
Definition with_stop (s : trim) (b : Z) : trim := mkTrim (t_size s) (t_sr s) (t_start s) (Some b) (t_side s).
Definition with_side (s : trim) (d : option bool) : trim := mkTrim (t_size s) (t_sr s) (t_start s) (t_stop s) d.

(** [set_trim] with [samples=False], sample/widgets/audioload.py lines 206-216:
    the new state and the exception, if any.  ([None] as a value is
    [event.xdata] outside of the axes.) *)
Definition set_trim (s : trim) (value : option spec_float) (start : bool) : trim * option exn :=
  match loaded s with
  | None => (s, None)
  | Some (n, a, b) =>
    match value with
    | None => (s, Some TypeError)
    | Some v =>
      match f_int (f_mul v (f_of_int (t_sr s))) with
      | Err e => (s, Some e)
      | Ok i =>
        if start then (with_start s (Z.min (b - 1) (Z.max 0 i)), None)
        else (with_stop s (Z.max (a + 1) (Z.min n i)), None)
      end
    end
  end.

(** [update_plot] with [update_vars], lines 292-296, as far as the region is
    concerned: writing the entries calls their callbacks (lines 62-75), which
    read the text back ([float(str(x))] is [x]) and set the region. *)
Definition refresh (s : trim) : trim :=
  match loaded s with
  | None => s
  | Some (n, a, b) =>
    let s := fst (set_trim s (Some (f_div (f_of_int a) (f_of_int (t_sr s)))) true) in
    match t_stop s with
    | None => s
    | Some b => fst (set_trim s (Some (f_div (f_of_int b) (f_of_int (t_sr s)))) false)
    end
  end.

(** [auto_trim], lines 178-185: [np.argmax] of the empty array is a ValueError.
    [onsets] is [np.flatnonzero(dsp.onset_detection(x))]. *)
Fixpoint argmax_diff (l : list Z) (i best : nat) (d : Z) : nat :=
  match l with
  | x :: (y :: _) as l' => if d <? y - x then argmax_diff l' (S i) i (y - x) else argmax_diff l' (S i) best d
  | _ => best
  end.
Definition auto_trim (s : trim) (n : Z) (onsets : list Z) : trim * option exn :=
  let l := onsets ++ [n] in
  match l with
  | x :: y :: _ =>
    let i := argmax_diff (tl l) 1 0 (y - x) in
    (mkTrim (t_size s) (t_sr s) (Some (nth i l 0)) (Some (nth (S i) l 0)) (t_side s), None)
  | _ => (s, Some ValueError)
  end.

(** User actions: typing in an entry (lines 62-75; [None] is a text that is not
    a number, read as 0), pressing and releasing the mouse on the plot (lines
    220-247; [toolbar]: a tool is active), loading a file (lines 151-176, after
    the file was read). *)
Inductive gevent : Type :=
| Type_ (start : bool) (value : option spec_float)
| Press (toolbar : bool) (xdata : option spec_float)
| Release (toolbar : bool) (xdata : option spec_float)
| Load (size sr : Z) (onsets : list Z).

Definition gstep (s : trim) (e : gevent) : trim * option exn :=
  match e with
  | Type_ start value =>
    set_trim s (Some match value with Some v => v | None => S754_zero false end) start
  | Press toolbar x =>
    if toolbar then (with_side s None, None)
    else match loaded s, t_side s with
         | Some (n, a, b), None =>
           match x with
           | None => (s, Some TypeError)
           | Some v =>
             match f_int (f_mul v (f_of_int (t_sr s))) with
             | Err e => (s, Some e)
             | Ok i => (with_side s (Some (Z.abs (i - a) <? Z.abs (i - b))), None)
             end
           end
         | _, _ => (s, None)
         end
  | Release toolbar x =>
    if toolbar then (with_side s None, None)
    else match loaded s, t_side s with
         | Some _, Some d =>
           match set_trim s x d with
           | (s, Some e) => (s, Some e)
           | (s, None) => (with_side (refresh s) None, None)
           end
         | _, _ => (s, None)
         end
  | Load n sr onsets =>
    let s := mkTrim (Some n) sr (t_start s) (t_stop s) (t_side s) in
    match auto_trim s n onsets with
    | (s, Some e) => (s, Some e)
    | (s, None) => (refresh s, None)
    end
  end.
Definition grun (s : trim) (h : list gevent) : trim := fold_left (fun s e => fst (gstep s e)) h s.

(** ** The parsers of the settings *)

(** Python floats up to rounding: only comparisons, [max], [min] and [int] are
    used, which are exact. *)
Inductive pfloat : Type := PFin (q : Q) | PInf (positive : bool) | PNan.
(** [a < b]. *)
Definition p_lt (a b : pfloat) : bool :=
  match a, b with
  | PNan, _ | _, PNan => false
  | PFin x, PFin y => Qltb x y
  | PFin _, PInf s => s
  | PInf s, PFin _ => negb s
  | PInf s, PInf t => negb s && t
  end.
(** [a == b]. *)
Definition p_eq (a b : pfloat) : bool :=
  match a, b with
  | PFin x, PFin y => Qeq_bool x y
  | PInf s, PInf t => Bool.eqb s t
  | _, _ => false
  end.
(** [max(a, b)], [min(a, b)]: the first one unless the second one is greater
    (less). *)
Definition p_max (a b : pfloat) : pfloat := if p_lt a b then b else a.
Definition p_min (a b : pfloat) : pfloat := if p_lt b a then b else a.
(** [int(x)]. *)
Definition Qtrunc (q : Q) : Z := if Qle_bool 0 q then Qfloor q else Qceiling q.
Definition p_int (x : pfloat) : res Z :=
  match x with
  | PFin q => Ok (Qtrunc q)
  | PInf _ => Err OverflowError
  | PNan => Err ValueError
  end.
Definition pz (z : Z) : pfloat := PFin (inject_Z z).

(** [x] below is what [float(text)] gives, [None] if it raises ValueError. *)

(** [try_float], settings.py line 42. *)
Definition try_float (x : option pfloat) : pfloat := match x with Some v => v | None => pz 0 end.
(** [strip_time_parse], lines 60-74. *)
Definition strip_time_parse (x : option pfloat) : option pfloat :=
  match x with
  | None => None
  | Some v => if p_lt v (pz 0) || p_eq v (pz 0) then None else Some v
  end.
(** [float_clip], lines 77-113: the default value ((left + right) / 2 is not
    rounded) and the parser. *)
Definition clip_default (left right default : option Q) : Q :=
  match default, left, right with
  | Some d, _, _ => d
  | None, None, None => 0
  | None, None, Some r => r
  | None, Some l, None => l
  | None, Some l, Some r => (l + r) / 2
  end.
Definition float_clip (left right default : option Q) (x : option pfloat) : pfloat :=
  match x with
  | None => PFin (clip_default left right default)
  | Some v =>
    let v := match left with Some l => p_max (PFin l) v | None => v end in
    match right with Some r => p_min (PFin r) v | None => v end
  end.
(** [custom_positive_int], lines 116-129. *)
Definition custom_positive_int (dflt : option Z) (x : option pfloat) : res (option Z) :=
  match x with
  | None => Ok dflt
  | Some v => do i <- p_int (p_max v (pz 1)); Ok (Some i)
  end.
(** [int.bit_length] of a non-negative integer. *)
Definition bit_length (z : Z) : Z := if z =? 0 then 0 else Z.log2 z + 1.
(** [next_power_of_2], lines 132-138. *)
Definition next_power_of_2 (x : option pfloat) : res Z :=
  do i <- custom_positive_int (Some 1) x;
  match i with Some i => Ok (2 ^ bit_length (i - 1)) | None => Err TypeError end.

(** ** Post-processing *)

(** Values of settings and parameters; [SWin ty size]: the window of that type
    and size. *)
Inductive sval : Type :=
| SNone
| SBool (b : bool)
| SInt (z : Z)
| SFloat (x : pfloat)
| SStr (s : string)
| SPair (a b : pfloat)
| SWin (ty : string) (size : Z).

(** [postprocess_fbound], lines 145-165: the new bounds. *)
Definition fbound (a b : pfloat) : pfloat * pfloat :=
  if p_lt b a then (b, a) else if p_eq a b then (pz 20, pz 16000) else (a, b).

(** The loop of [postprocess_windows], lines 180-193.  [get_window ty size] tells
    if [signal.get_window] makes a window; it raises ValueError otherwise.
    [None]: the loop did not end within [fuel] rounds.  [size] may come from a
    file, hence need not be an integer. *)
Fixpoint window_loop (get_window : string -> Q -> bool) (fuel : nat) (ty : string) (size : Q) : option (string * Q) :=
  match fuel with
  | O => None
  | S fuel =>
    if get_window ty size then Some (ty, size)
    else if Qltb size 1 then window_loop get_window fuel ty 4096
    else window_loop get_window fuel "blackman" size
  end.
Definition windows (get_window : string -> Q -> bool) (fuel : nat) (n size : Q) (ty : string) : option (string * Q) :=
  window_loop get_window fuel ty (if Qltb n size then n else size).

(** ** The tab *)

(** How an entry is read, lines 226-395. *)
Inductive kind : Type :=
| KPosInt (dflt : option Z)
| KPow2
| KFloat
| KClip (left right default : option Q)
| KStrip
| KBool
| KText.
Definition specs : list (string * kind) :=
  [("max_n_modes", KPosInt None);
   ("sinusoidal__tracker__max_n_sines", KPosInt (Some 1));
   ("sinusoidal__n", KPow2);
   ("sinusoidal__tracker__h", KPosInt (Some 1));
   ("wsize", KPosInt (Some 1));
   ("wtype", KText);
   ("sinusoidal__tracker__freq_dev_offset", KFloat);
   ("sinusoidal__tracker__freq_dev_slope", KFloat);
   ("smfb_0", KFloat);
   ("smfb_1", KFloat);
   ("sinusoidal__tracker__peak_threshold", KFloat);
   ("sinusoidal__t", KFloat);
   ("sinusoidal__tracker__min_sine_dur", KClip (Some 0%Q) None (Some (1 # 10)%Q));
   ("sinusoidal__tracker__strip_t", KStrip);
   ("sinusoidal__tracker__reverse", KBool);
   ("sinusoidal__padded", KBool);
   ("beatsdrop", KBool);
   ("parallel", KBool);
   ("n_jobs", KPosInt (Some 4));
   ("beat_decisor__th", KClip (Some 0%Q) None (Some 4%Q));
   ("beatsdrop__lpf", KClip (Some 2%Q) (Some 50%Q) (Some 12%Q));
   ("gui_theme", KText)]%string.

(** State of an entry: the text of a [StringVar], the value of a [BooleanVar].
    [Setting.get], lines 465-476. *)
Record entry : Type := mkEntry { e_text : string; e_bool : bool }.
Definition read (float_of : string -> option pfloat) (k : kind) (e : entry) : res sval :=
  let x := float_of (e_text e) in
  match k with
  | KPosInt dflt => do i <- custom_positive_int dflt x; Ok (match i with Some z => SInt z | None => SNone end)
  | KPow2 => do z <- next_power_of_2 x; Ok (SInt z)
  | KFloat => Ok (SFloat (try_float x))
  | KClip l r d => Ok (SFloat (float_clip l r d x))
  | KStrip => Ok (match strip_time_parse x with Some v => SFloat v | None => SNone end)
  | KBool => Ok (SBool (e_bool e))
  | KText => Ok (SStr (e_text e))
  end.

(** A post-processing function: the names of its parameters and the function. *)
Record postprocess : Type := mkPost
  { pp_keys : list string; pp_fun : dict sval -> res (dict sval * dict sval) }.

(** Numbers of a value that comes from a file or from an entry. *)
Definition as_q (v : sval) : option Q :=
  match v with SInt z => Some (inject_Z z) | SFloat (PFin q) => Some q | _ => None end.
Definition as_p (v : sval) : option pfloat :=
  match v with SInt z => Some (pz z) | SFloat x => Some x | _ => None end.
Definition of_q (like : sval) (q : Q) : sval :=
  match like with SFloat _ => SFloat (PFin q) | _ => SInt (Qfloor q) end.

(** The four functions, lines 145-221.  A parameter that is missing or has a
    type that is not expected is a TypeError.  A window loop without end is
    OtherError 0; windows with non-finite sizes are not modelled (OtherError 1).
    [valid_theme] is [userfiles.UserTtkTheme.is_valid].  Whole numbers among the
    frequency bounds become floats here. *)
Definition pp_multiprocessing : postprocess :=
  mkPost ["parallel"; "n_jobs"]%string (fun kw =>
    match dget "parallel" kw, dget "n_jobs" kw with
    | Some (SBool p), Some n =>
      Ok ([("parallel", SBool p); ("n_jobs", n)], [("n_jobs", if p then n else SInt 0)])%string
    | _, _ => Err TypeError
    end).
Definition pp_windows (get_window : string -> Q -> bool) (fuel : nat) : postprocess :=
  mkPost ["sinusoidal__n"; "wsize"; "wtype"]%string (fun kw =>
    match dget "sinusoidal__n" kw, dget "wsize" kw, dget "wtype" kw with
    | Some n, Some size, Some (SStr ty) =>
      match as_q n, as_q size with
      | Some qn, Some qs =>
        match windows get_window fuel qn qs ty with
        | None => Err (OtherError 0)
        | Some (ty, q) =>
          let size := if Qltb qn qs then n else size in
          let size := of_q size q in
          Ok ([("sinusoidal__n", n); ("wsize", size); ("wtype", SStr ty)],
              [("sinusoidal__n", n); ("sinusoidal__w", SWin ty (Qfloor q))])%string
        end
      | _, _ => Err (OtherError 1)
      end
    | _, _, _ => Err TypeError
    end).
Definition pp_fbound : postprocess :=
  mkPost ["smfb_0"; "smfb_1"]%string (fun kw =>
    match dget "smfb_0" kw, dget "smfb_1" kw with
    | Some a, Some b =>
      match as_p a, as_p b with
      | Some a, Some b =>
        let '(a, b) := fbound a b in
        Ok ([("smfb_0", SFloat a); ("smfb_1", SFloat b)],
            [("sinusoidal__tracker__frequency_bounds", SPair a b)])%string
      | _, _ => Err TypeError
      end
    | _, _ => Err TypeError
    end).
Definition pp_guitheme (valid_theme : string -> bool) : postprocess :=
  mkPost ["gui_theme"]%string (fun kw =>
    match dget "gui_theme" kw with
    | Some (SStr t) => Ok ([("gui_theme", SStr (if valid_theme t then t else ""))], [])%string
    | _ => Err TypeError
    end).
Definition posts get_window fuel valid_theme : list postprocess :=
  [pp_multiprocessing; pp_windows get_window fuel; pp_fbound; pp_guitheme valid_theme].

(** One turn of the loop of [apply_cbk], lines 588-600. *)
Definition keep (f : string -> bool) (d : dict sval) : dict sval := filter (fun p => f (fst p)) d.
Definition post_step (sp : dict sval * dict sval) (p : postprocess) : res (dict sval * dict sval) :=
  let '(settings, params) := sp in
  let mine k := existsb (String.eqb k) (pp_keys p) in
  do u <- pp_fun p (keep mine params);
  Ok (dupdate settings (fst u), dupdate (keep (fun k => negb (mine k)) params) (snd u)).

(** The settings of lines 582-586: the value in the file, else that of the
    entry, which is read in both cases. *)
Fixpoint read_all (float_of : string -> option pfloat) (file : dict sval) (entries : string -> entry)
    (sp : list (string * kind)) : res (dict sval) :=
  match sp with
  | [] => Ok []
  | (k, kd) :: sp' =>
    do v <- read float_of kd (entries k);
    do d <- read_all float_of file entries sp';
    Ok ((k, match dget k file with Some v' => v' | None => v end) :: d)
  end.

(** [apply_cbk], lines 575-610: settings (which are saved and written back to the
    entries) and [sample_object_kwargs].  [file]: the saved settings if
    [from_file], else empty. *)
Definition apply_cbk (float_of : string -> option pfloat) get_window fuel valid_theme (prev_theme : string)
    (file : dict sval) (entries : string -> entry) : res (dict sval * dict sval) :=
  do settings <- read_all float_of file entries specs;
  do sp <- foldM post_step (settings, settings) (posts get_window fuel valid_theme);
  let '(settings, params) := sp in
  match dget "gui_theme" settings with
  | Some (SStr t) => Ok (if String.eqb t "" then dset "gui_theme"%string (SStr prev_theme) settings else settings, params)
  | _ => Err TypeError
  end.
