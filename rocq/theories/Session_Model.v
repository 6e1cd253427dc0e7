(** Model of a session of the GUI: loading audio (sample/widgets/audioload.py),
    analysing, playing and exporting (sample/widgets/analysis.py), the files that
    carry a session over a reload (sample/widgets/userfiles.py, main.py) and the
    loop that launches the GUI (sample/gui.py).  Widgets and figures are left
    out.  Samples are exact: rounding is left out. *)
From Coq Require Import String Ascii List Bool ZArith QArith Floats.SpecFloat.
Import ListNotations.
From Verif Require Import Base Py Dict Gui_Model Changelog_Model.
Local Open Scope list_scope.
Local Open Scope Z_scope.

(** ** Paths (posixpath) *)

(** The last slash: what precedes it (with it) and what follows. *)
Fixpoint cut_slash (p : text) : text * text :=
  match p with
  | [] => ([], [])
  | c :: p' =>
    match cut_slash p' with
    | ([], t) => if Ascii.eqb c "/" then ([c], t) else ([], c :: t)
    | (h, t) => (c :: h, t)
    end
  end.
(** [os.path.basename]. *)
Definition basename (p : text) : text := snd (cut_slash p).
(** [os.path.dirname]: trailing slashes are removed unless there is nothing
    else. *)
Definition is_slash (c : ascii) : bool := Ascii.eqb c "/".
Definition dirname (p : text) : text :=
  let h := fst (cut_slash p) in
  if forallb is_slash h then h else rev (dropwhile is_slash (rev h)).
(** [os.path.splitext(p)[0]]: see [stem] in Changelog_Model.v. *)
Definition splitext_root (p : text) : text := fst (cut_slash p) ++ stem (snd (cut_slash p)).

(** ** Reading a WAV file *)

(** The arrays that [scipy.io.wavfile.read] returns: their type, and the samples
    of one channel ([samples,]) or those of every frame ([samples, channels]).
    For floating point files only the type matters here. *)
Inductive dtype : Type := U8 | I16 | I32 | I64 | F32 | F64.
Inductive wav : Type :=
| Mono (dt : dtype) (x : list Z)
| Multi (dt : dtype) (x : list (list Z)).
(** [np.iinfo(dtype).min]: ValueError for floating point types. *)
Definition iinfo_min (dt : dtype) : res Z :=
  match dt with
  | U8 => Ok 0
  | I16 => Ok (- 2 ^ 15)
  | I32 => Ok (- 2 ^ 31)
  | I64 => Ok (- 2 ^ 63)
  | F32 | F64 => Err ValueError
  end.
(** [v / d] of numpy for integers: no exception for [d = 0]. *)
Definition np_div (v d : Z) : pfloat :=
  if d =? 0 then
    if v =? 0 then PNan else PInf (0 <? v)
  else PFin (inject_Z v / inject_Z d)%Q.
(** Sum and quotient by a number of elements, as in [np.mean]. *)
Definition p_add (a b : pfloat) : pfloat :=
  match a, b with
  | PNan, _ | _, PNan => PNan
  | PFin x, PFin y => PFin (x + y)%Q
  | PFin _, PInf s | PInf s, PFin _ => PInf s
  | PInf s, PInf t => if Bool.eqb s t then PInf s else PNan
  end.
Definition p_over (a : pfloat) (n : nat) : pfloat :=
  match a with
  | PFin x => if Nat.eqb n 0 then PNan else PFin (x / inject_Z (Z.of_nat n))%Q
  | PInf s => PInf s
  | PNan => PNan
  end.
Definition np_mean (l : list pfloat) : pfloat := p_over (fold_left p_add l (PFin 0)) (List.length l).
(** [load_cbk], sample/widgets/audioload.py lines 169-171. *)
Definition read_samples (w : wav) : res (list pfloat) :=
  match w with
  | Mono dt x => do m <- iinfo_min dt; Ok (map (fun v => np_div v (- m)) x)
  | Multi dt x => do m <- iinfo_min dt; Ok (map (fun f => np_mean (map (fun v => np_div v (- m)) f)) x)
  end.

(** ** The library behind the analysis tab *)

(** What [fit] does to a new model: fitted parameters, or an exception, and
    then whether the short-time transform had been stored. *)
Inductive fit_result (P : Type) : Type :=
| Fitted (p : P)
| Failed (e : exn) (stft : bool).
Arguments Fitted {P} p.
Arguments Failed {P} e stft.

(** [l_onset]: [np.flatnonzero(dsp.onset_detection(x))].
    [l_build]: the exception of [sample_factory(sinusoidal__tracker__fs=sr, **kwargs)],
    sample/widgets/sample.py lines 64-89.  The model it returns is new, so the
    result of [fit] depends on the arguments of both calls only ([l_fit], C11).
    [l_predict]: the flattened result of [predict] for a time axis, without
    [np.squeeze].  [l_json]: [sdt_params_()]. *)
Record lib (K P J : Type) : Type := mkLib
  { l_onset : list pfloat -> list Z;
    l_build : K -> Z -> option exn;
    l_fit : K -> Z -> list pfloat -> fit_result P;
    l_predict : P -> list Q -> list pfloat;
    l_json : P -> res J }.
Arguments mkLib {K P J}. Arguments l_onset {K P J}. Arguments l_build {K P J}.
Arguments l_fit {K P J}. Arguments l_predict {K P J}. Arguments l_json {K P J}.

(** An array or a number: [np.squeeze] of one sample is a number. *)
Inductive arr : Type := Arr (x : list pfloat) | Num (x : pfloat).
Definition squeeze (x : list pfloat) : arr := match x with [v] => Num v | _ => Arr x end.
(** [np.clip(x, -1, +1)]. *)
Definition clip1 (v : pfloat) : pfloat :=
  if p_lt v (pz (-1)) then pz (-1) else if p_lt (pz 1) v then pz 1 else v.
Definition clip (a : arr) : arr := match a with Arr x => Arr (map clip1 x) | Num v => Num (clip1 v) end.
(** [np.arange(n) / sr]. *)
Definition times (n : nat) (sr : Z) : list Q :=
  map (fun k => inject_Z (Z.of_nat k) / inject_Z sr)%Q (seq 0 n).

(** ** The data on the root widget *)

(** sample/widgets/utils.py lines 88-102.  [audio_x] is [r_x] if [t_size] of
    [r_trim] is its size.  [r_obj]: [None] is no [sample_object];
    [Some (None, stft)] is a model without fitted parameters.
    [r_res]: [audio_resynth_x].  [r_lock]: [_analisis_lock] is taken. *)
Record root (K P : Type) : Type := mkRoot
  { r_file : option text; r_dir_save : option text;
    r_trim : trim; r_x : list pfloat;
    r_kwargs : K; r_obj : option (option P * bool); r_res : option arr; r_lock : bool }.
Arguments mkRoot {K P}. Arguments r_file {K P}. Arguments r_dir_save {K P}. Arguments r_trim {K P}.
Arguments r_x {K P}. Arguments r_kwargs {K P}. Arguments r_obj {K P}. Arguments r_res {K P}. Arguments r_lock {K P}.

(** What the user sees and hears, and the files. *)
Inductive obs (J : Type) : Type :=
| Error (title : string)
| Info
| Warning
| Play (x : arr) (sr : Z)
| Ask (dir : option text) (name : text)
| SaveWav (file : text) (sr : Z) (x : arr)
| SaveJson (file : text) (j : J)
| Draw (x : list pfloat) (resynth : arr)
| Traceback (e : exn).
Arguments Error {J}. Arguments Info {J}. Arguments Warning {J}. Arguments Play {J}. Arguments Ask {J}.
Arguments SaveWav {J}. Arguments SaveJson {J}. Arguments Draw {J}. Arguments Traceback {J}.

(** What the user does.  [ELoad]: the chosen file ([None] is cancel) and what
    reading it gives.  [ETrim]: typing or clicking in the audio tab.
    [ESettings]: new parameters from the settings tab.  [EAnalyse during]: the
    analyse button; the progress bar handles the events [during] while the model
    is fitted (sample/widgets/sample.py lines 28-55: [progressbar.update()]).
    [EPlayTab]: the play button of the audio tab.  [EWav], [EJson]: the export
    buttons, the chosen file and the exception of writing it.  Other events while
    a dialog is open are left out. *)
Inductive event (K : Type) : Type :=
| ELoad (file : option text) (content : res (Z * wav))
| ETrim (g : gevent)
| ESettings (kw : K)
| EAnalyse (during : list (event K))
| EPlayTab
| EPlay (original : bool)
| EWav (file : option text) (err : option exn)
| EJson (file : option text) (err : option exn).
Arguments ELoad {K}. Arguments ETrim {K}. Arguments ESettings {K}. Arguments EAnalyse {K}. Arguments EPlayTab {K}.
Arguments EPlay {K}. Arguments EWav {K}. Arguments EJson {K}.

Section Session.
  Context {K P J : Type} (L : lib K P J).
  Notation root := (root K P).
  Notation obs := (obs J).

  Definition with_trim (s : root) (t : trim) : root :=
    mkRoot (r_file s) (r_dir_save s) t (r_x s) (r_kwargs s) (r_obj s) (r_res s) (r_lock s).
  Definition with_res (s : root) (y : option arr) : root :=
    mkRoot (r_file s) (r_dir_save s) (r_trim s) (r_x s) (r_kwargs s) (r_obj s) y (r_lock s).
  Definition with_obj (s : root) (o : option (option P * bool)) : root :=
    mkRoot (r_file s) (r_dir_save s) (r_trim s) (r_x s) (r_kwargs s) o (r_res s) (r_lock s).
  Definition with_lock (s : root) (b : bool) : root :=
    mkRoot (r_file s) (r_dir_save s) (r_trim s) (r_x s) (r_kwargs s) (r_obj s) (r_res s) b.
  Definition with_dir_save (s : root) (d : option text) : root :=
    mkRoot (r_file s) d (r_trim s) (r_x s) (r_kwargs s) (r_obj s) (r_res s) (r_lock s).

  (** [self.audio_x[self.audio_trim_start:self.audio_trim_stop]] if
      [audio_loaded], and the sample rate. *)
  Definition region (s : root) : option (list pfloat * Z) :=
    match loaded (r_trim s) with
    | Some (_, a, b) => Some (slice (Some a) (Some b) (r_x s), t_sr (r_trim s))
    | None => None
    end.

  (** [self.sample_object.predict(np.arange(x.size) / self.audio_sr)], clipped:
      AttributeError without a fitted model (sample/sample.py lines 204-206:
      [param_matrix_]). *)
  Definition resynth (s : root) (n : nat) (sr : Z) : res arr :=
    match r_obj s with
    | Some (Some p, _) => Ok (clip (squeeze (l_predict L p (times n sr))))
    | _ => Err AttributeError
    end.

  (** [load_cbk], sample/widgets/audioload.py lines 148-176.  An exception of
      [read_samples] or of [auto_trim] leaves the callback.  The new samples are
      set before [auto_trim]. *)
  Definition load_cbk (s : root) (file : option text) (content : res (Z * wav)) : root * list obs :=
    match file with
    | None => (s, [])
    | Some f =>
      let s := mkRoot (Some f) (match r_dir_save s with None => Some (dirname f) | d => d end)
                      (r_trim s) (r_x s) (r_kwargs s) (r_obj s) (r_res s) (r_lock s) in
      match content with
      | Err e => (s, [Error "load"])
      | Ok (sr, w) =>
        match read_samples w with
        | Err e => (s, [Traceback e])
        | Ok x =>
          let '(t, e) := gstep (r_trim s) (Load (zlen x) sr (l_onset L x)) in
          (mkRoot (r_file s) (r_dir_save s) t x (r_kwargs s) (r_obj s) (r_res s) (r_lock s),
           match e with Some e => [Traceback e] | None => [] end)
        end
      end
    end.

  (** Typing and clicking, Gui_Model.v. *)
  Definition trim_cbk (s : root) (g : gevent) : root * list obs :=
    match g with
    | Load _ _ _ => (s, [])
    | _ => let '(t, e) := gstep (r_trim s) g in
           (with_trim s t, match e with Some e => [Traceback e] | None => [] end)
    end.

  (** [update_plot], sample/widgets/analysis.py lines 129-205: exceptions for a
      missing model (line 133), a missing transform (line 134: KeyError) and a
      missing [tracks_] or [param_matrix_] (lines 139, 168); the cached or new
      resynthesis (lines 165-169). *)
  Definition update_plot (s : root) : root * list obs :=
    match r_obj s with
    | None => (s, [Traceback AttributeError])
    | Some (None, false) => (s, [Traceback KeyError])
    | Some (None, true) => (s, [Traceback AttributeError])
    | Some (Some _, _) =>
      match region s with
      | None => (s, [Traceback TypeError])
      | Some (x, sr) =>
        match r_res s with
        | Some y => (s, [Draw x y])
        | None =>
          match resynth s (List.length x) sr with
          | Ok y => (with_res s (Some y), [Draw x y])
          | Err e => (s, [Traceback e])
          end
        end
      end
    end.

  (** [_get_audio], lines 231-251: an exception of [predict] that is no
      AttributeError does not occur ([resynth]). *)
  Definition get_audio (s : root) (re : bool) : root * list obs * option (arr * Z) :=
    match region s with
    | None => (s, [Error "No audio"], None)
    | Some (x, sr) =>
      if negb re then (s, [], Some (Arr x, sr))
      else match r_res s with
           | Some y => (s, [], Some (y, sr))
           | None =>
             match resynth s (List.length x) sr with
             | Ok y => (with_res s (Some y), [], Some (y, sr))
             | Err _ => (with_res s None, [Error "Not analyzed"], None)
             end
           end
    end.

  (** [scipy.io.wavfile.write]: the shape of a number has no channels. *)
  Definition wav_write (x : arr) : option exn := match x with Arr _ => None | Num _ => Some IndexError end.

  (** [play_cbk_], lines 256-261, with [TempAudio], sample/widgets/audio.py lines
      20-33. *)
  Definition play (x : arr) (sr : Z) : list obs :=
    match wav_write x with Some e => [Traceback e] | None => [Play x sr] end.
  Definition play_cbk (s : root) (original : bool) : root * list obs :=
    let '(s, o, a) := get_audio s (negb original) in
    match a with
    | Some (x, sr) => (s, o ++ play x sr)
    | None => (s, o)
    end.
  (** The play button of the audio tab, sample/widgets/audioload.py lines 140-146. *)
  Definition play_tab (s : root) : root * list obs :=
    match region s with
    | Some (x, sr) => (s, play (Arr x) sr)
    | None => (s, [])
    end.

  (** [_filedialog_file_safe], sample/widgets/analysis.py lines 266-269. *)
  Definition file_safe (s : root) : text := match r_file s with None => txt "output.wav" | Some f => f end.

  (** [wav_export_cbk], lines 271-295. *)
  Definition wav_export_cbk (s : root) (file : option text) (err : option exn) : root * list obs :=
    let '(s, o, a) := get_audio s true in
    match a with
    | None => (s, o)
    | Some (x, sr) =>
      let ask := Ask (r_dir_save s) (basename (splitext_root (file_safe s)) ++ txt "_resynth") in
      match file with
      | None => (s, o ++ [ask])
      | Some f =>
        (with_dir_save s (Some (dirname f)),
         o ++ ask :: match err, wav_write x with
                     | None, None => [SaveWav f sr x; Info]
                     | _, _ => [Error "save"]
                     end)
      end
    end.

  (** [export_cbk], lines 297-328: only AttributeError of [sdt_params_] is
      caught. *)
  Definition export_cbk (s : root) (file : option text) (err : option exn) : root * list obs :=
    match r_obj s with
    | Some (Some p, _) =>
      match l_json L p with
      | Err AttributeError => (s, [Error "Not analyzed"])
      | Err e => (s, [Traceback e])
      | Ok j =>
        let ask := Ask (r_dir_save s) (basename (splitext_root (file_safe s))) in
        match file with
        | None => (s, [ask])
        | Some f =>
          (with_dir_save s (Some (dirname f)),
           ask :: match err with
                  | None => [SaveJson f j; Info]
                  | Some _ => [Error "save"]
                  end)
        end
      end
    | _ => (s, [Error "Not analyzed"])
    end.

  (** [finally], lines 227-229. *)
  Definition finish (s : root) : root * list obs := update_plot (with_res s None).

  (** One action and all of its nested ones.  [analysis_cbk], lines 207-229, with
      [_non_block_lock], lines 17-32: the region and the parameters are read
      first, the new model replaces the old one before it is fitted, and it is
      the same object after [during] since a nested analysis is refused. *)
  Fixpoint step (e : event K) (s : root) {struct e} : root * list obs :=
    match e with
    | ELoad f c => load_cbk s f c
    | ETrim g => trim_cbk s g
    | ESettings kw => (mkRoot (r_file s) (r_dir_save s) (r_trim s) (r_x s) kw (r_obj s) (r_res s) (r_lock s), [])
    | EAnalyse during =>
      match region s with
      | None => (s, [Error "No audio"])
      | Some (x, sr) =>
        if r_lock s then (s, [Warning])
        else
          let s := with_lock s true in
          let '(s, o) :=
            match l_build L (r_kwargs s) sr with
            | Some _ => (s, [Error "fit"])
            | None =>
              let kw := r_kwargs s in
              let '(s, o) :=
                (fix go (l : list (event K)) (s : root) : root * list obs :=
                   match l with
                   | [] => (s, [])
                   | e :: l => let '(s, o1) := step e s in
                               let '(s, o2) := go l s in (s, o1 ++ o2)
                   end) during (with_obj s (Some (None, false))) in
              match l_fit L kw sr x with
              | Fitted p => (with_obj s (Some (Some p, true)), o)
              | Failed _ st => (with_obj s (Some (None, st)), o ++ [Error "fit"])
              end
            end in
          let '(s, o') := finish s in
          (with_lock s false, o ++ o')
      end
    | EPlayTab => play_tab s
    | EPlay original => play_cbk s original
    | EWav f err => wav_export_cbk s f err
    | EJson f err => export_cbk s f err
    end.

  (** A session. *)
  Fixpoint run (l : list (event K)) (s : root) : root * list obs :=
    match l with
    | [] => (s, [])
    | e :: l => let '(s, o1) := step e s in
                let '(s, o2) := run l s in (s, o1 ++ o2)
    end.
End Session.

(** ** Files of the user *)

(** [UserDir.is_valid], [UserFile.is_valid], sample/widgets/userfiles.py lines
    46-49 and 94-96: neither is [None] or empty. *)
Definition path_valid (p : option text) : bool :=
  match p with Some (_ :: _) => true | _ => false end.
Definition file_valid (dir subpath : option text) : bool := path_valid dir && path_valid subpath.

(** What [settings.json] contains: no such file, a file that cannot be decoded,
    a value that is no object, an object; of its values only strings matter. *)
Inductive settings_file : Type := Missing | Undecodable (e : exn) | NoObject | Object (d : dict (option string)).
(** [UserTtkTheme.get], lines 142-155, with [is_valid], lines 115-132, and
    [default], lines 134-140.  [themes] is [ttkthemes.THEMES].  [valid]: the
    file of the settings [is_valid].  A key that is missing is [None], which is
    no theme. *)
Definition default_theme (linux : bool) : string := if linux then "radiance" else "arc".
Definition get_theme (themes : list string) (linux valid : bool) (f : settings_file) : res string :=
  if negb valid then Ok (default_theme linux) else
  match f with
  | Missing => Ok (default_theme linux)
  | Undecodable e => Err e
  | NoObject => Err AttributeError
  | Object d =>
    match dget "gui_theme" d with
    | Some (Some t) => Ok (if existsb (String.eqb t) themes then t else default_theme linux)
    | _ => Ok (default_theme linux)
    end
  end.

(** The audio cache: [save_pickled] of the settings tab,
    sample/widgets/settings.py lines 618-623. *)
Record cache : Type := mkCache
  { c_x : option (list pfloat); c_sr : option Z; c_start : option Z; c_stop : option Z }.
Definition save_cache {K P} (s : root K P) : cache :=
  let t := r_trim s in
  match t_size t with
  | None => mkCache None None (t_start t) (t_stop t)
  | Some _ => mkCache (Some (r_x s)) (Some (t_sr t)) (t_start t) (t_stop t)
  end.

(** Start of the GUI, [SAMPLEGUI.__init__], sample/widgets/main.py lines 65-97,
    with [AudioLoadTab.__init__], sample/widgets/audioload.py lines 118-133:
    the audio of the tab, the cache that is left, and the exception if there is
    one (then the cache is not deleted).  The drawing of the audio sets the
    region again ([refresh]). *)
Definition startup (onset : list pfloat -> list Z) (c : option cache) : (trim * list pfloat) * option cache * option exn :=
  let empty := mkTrim None 0 None None None in
  match c with
  | None => (empty, [], None, None)
  | Some k =>
    match c_x k with
    | None => (mkTrim None 0 (c_start k) (c_stop k) None, [], None, None)
    | Some x =>
      let sr := match c_sr k with None => 44100 | Some r => r end in
      let t := mkTrim (Some (zlen x)) sr (c_start k) (c_stop k) None in
      match c_start k, c_stop k with
      | Some _, Some _ => (refresh t, x, None, None)
      | _, _ =>
        match auto_trim t (zlen x) (onset x) with
        | (t, Some e) => (t, x, c, Some e)
        | (t, None) => (refresh t, x, None, None)
        end
      end
    end
  end.

(** ** The launcher *)

(** [run], sample/gui.py lines 71-79.  [launches] is what the processes do, one
    after the other: [Some b] puts [b] into the queue ([on_closing],
    sample/widgets/main.py lines 35-45), [None] ends without (for example
    [r.quit()], sample/widgets/settings.py line 626, or a crash).  The result is
    the number of launches, [None] if all of [launches] are used and the loop
    goes on. *)
Fixpoint launcher (queue : list bool) (launches : list (option bool)) : option nat :=
  let go queue :=
    match launches with
    | [] => None
    | o :: launches => option_map S (launcher (queue ++ match o with Some b => [b] | None => [] end) launches)
    end in
  match queue with
  | [] => go []
  | b :: queue => if b then go queue else Some 0%nat
  end.
