(** Model of what the widgets of the GUI share and how they are laid out,
    sample/widgets/utils.py, responsive.py, settings.py, analysis.py, audioload.py,
    main.py, pyplot.py, and of the files of the user, userfiles.py.  A widget is a
    number; tkinter itself, fonts, colours and events are left out. *)
From Coq Require Import String Ascii List Bool ZArith Arith Reals.
Import ListNotations.
From Verif Require Import Base Py Dict Changelog_Model Session_Model Utils_Model Report_Model.
Local Open Scope list_scope.
Local Open Scope nat_scope.

(** ** Data on the parent, sample/widgets/utils.py *)

(** [get_root], lines 11-19.  [parent w] is the parent of [w], [None] for the root
    window, of which [winfo_parent] is the empty path and [_nametowidget] of that the
    root window. *)
Definition get_root (parent : nat -> option nat) (w : nat) : nat :=
  match parent w with Some p => p | None => w end.

(** Attributes of widgets.  [None] is both the value None and no attribute:
    [getattr(_, name, None)] does not tell them apart. *)
Definition attrs (V : Type) : Type := nat -> string -> option V.
Definition set_attr {V} (s : attrs V) (w : nat) (name : string) (v : option V) : attrs V :=
  fun w' n' => if Nat.eqb w w' && String.eqb name n' then v else s w' n'.
(** [RootProperty], lines 53-69: [fget] and [fset]. *)
Definition fget {V} (parent : nat -> option nat) (s : attrs V) (w : nat) (name : string) : option V :=
  s (get_root parent w) name.
Definition fset {V} (parent : nat -> option nat) (s : attrs V) (w : nat) (name : string) (v : option V) : attrs V :=
  set_attr s (get_root parent w) name v.

(** What a class defines: a [RootProperty], the list of names, anything else. *)
Inductive member : Type := RootProperty (name : string) | Names (l : list string) | Other.
(** [DataOnRootMeta.__new__], lines 76-82: the dictionary of the new class. *)
Definition root_key : string := "sample_gui_root_properties".
Definition new_class (classdict : dict member) : dict member :=
  match dget root_key classdict with
  | Some (Names l) =>
    fold_left (fun d pn => if dmem pn d then d else dset pn (RootProperty pn) d) l classdict
  | _ => classdict
  end.
(** Attribute of an instance, in the method resolution order of its class (the classes
    as they were made). *)
Fixpoint lookup (mro : list (dict member)) (name : string) : option member :=
  match mro with
  | [] => None
  | c :: mro => match dget name c with Some m => Some m | None => lookup mro name end
  end.
(** The names, lines 88-102. *)
Definition root_properties : list string :=
  ["filedialog_dir"; "filedialog_file"; "filedialog_dir_save"; "audio_x"; "audio_sr"; "audio_trim_start";
   "audio_trim_stop"; "sample_object"; "sample_object_kwargs"; "audio_resynth_x"; "persistent_dir";
   "settings_file"; "audio_cache_file"]%string.
(** [DataOnRootMixin], lines 85-117, as far as names are concerned. *)
Definition data_on_root : dict member :=
  [(root_key, Names root_properties); ("audio_loaded"%string, Other); ("log_root_properties"%string, Other)].

(** [widget_children], lines 120-136. *)
Inductive tree : Type := Node (w : nat) (children : list tree).
Fixpoint widget_children (t : tree) (include_root : bool) : list nat :=
  match t with
  | Node w l => (if include_root then [w] else []) ++ flat_map (fun v => widget_children v true) l
  end.

(** [root_color], lines 32-50: without a key the colour, with one a dictionary.
    [style] is what [root_style] finds (the empty text if there is nothing). *)
Definition root_color {C} (is_color_like : C -> bool) (style : C) (default : option C) : option C :=
  if is_color_like style then Some style else default.
Definition root_color_key {C} (is_color_like : C -> bool) (style : C) (default : option C) (key : string) : dict C :=
  match root_color is_color_like style default with Some c => [(key, c)] | None => [] end.

(** ** Responsive widgets, sample/widgets/responsive.py *)

(** A number of lines or indices. *)
Inductive lines : Type := Count (n : Z) | Indices (l : list Z).
Definition indices (it : lines) : list Z :=
  match it with Count n => map Z.of_nat (seq 0 (Z.to_nat n)) | Indices l => l end.
(** Weights of rows ([true]) and columns ([false]) of the grid of a widget. *)
Definition weights : Type := bool -> Z -> Z.
Definition configure (s : weights) (row : bool) (i w : Z) : weights :=
  fun r j => if Bool.eqb r row && Z.eqb i j then w else s r j.
(** [ResponsiveMixin.responsive], lines 22-51: weights afterwards and for which lines
    the missing method is warned of.  [has row]: the widget has the method.  (Tk refuses
    negative indices; they are not given.) *)
Definition responsive (has : bool -> bool) (rows cols : option lines) (s : weights) : weights * list bool :=
  fold_left (fun acc p =>
               let '(s, warned) := acc in
               let '(it, row) := p in
               if negb (has row) then (s, warned ++ [row])
               else match it with
                    | None => (s, warned)
                    | Some it => (fold_left (fun s i => configure s row i 1%Z) (indices it) s, warned)
                    end)
    [(rows, true); (cols, false)] (s, []).

(** The module attributes, lines 65-81.  Objects of the modules are classes or other
    values.  The cache maps classes to their children; [fresh] is the next new class. *)
Inductive obj : Type := Class (c : nat) | Value (v : nat).
Record wrapped : Type := mkWrapped { w_cache : list (nat * nat); w_fresh : nat }.
Definition cached (cache : list (nat * nat)) (c : nat) : option nat :=
  option_map snd (find (fun p => Nat.eqb (fst p) c) cache).
Fixpoint first_module (modules : list (string -> option obj)) (name : string) : option obj :=
  match modules with
  | [] => None
  | m :: ms => match m name with Some o => Some o | None => first_module ms name end
  end.
(** [__getattr__], lines 69-81, with [responsive], lines 54-62: the new class is a child
    of [ResponsiveMixin] and of the class; [final]: the class has no children (an
    enumeration), which is a TypeError. *)
Definition module_getattr (modules : list (string -> option obj)) (final : nat -> bool) (name : string) (s : wrapped)
  : res obj * wrapped :=
  match first_module modules name with
  | None => (Err AttributeError, s)
  | Some (Value v) => (Ok (Value v), s)
  | Some (Class c) =>
    match cached (w_cache s) c with
    | Some d => (Ok (Class d), s)
    | None => if final c then (Err TypeError, s)
              else (Ok (Class (w_fresh s)), mkWrapped ((c, w_fresh s) :: w_cache s) (S (w_fresh s)))
    end
  end.
(** Several accesses. *)
Fixpoint accesses modules final (names : list string) (s : wrapped) : list (res obj) * wrapped :=
  match names with
  | [] => ([], s)
  | n :: names =>
    let '(r, s) := module_getattr modules final n s in
    let '(rs, s) := accesses modules final names s in (r :: rs, s)
  end.

(** ** The settings tab, sample/widgets/settings.py *)

(** A widget of the grid: row, column, number of columns. *)
Inductive part : Type := PLabel | PSpacer | PEntry.
Record cell : Type := mkCell { g_name : string; g_part : part; g_row : nat; g_col : nat; g_span : nat }.
(** [add_setting], lines 549-573, without an index: names and kinds ([true]: only a
    spacer) of the settings so far, and the grid. *)
Definition add_setting (st : dict bool * list cell) (s : string * bool) : dict bool * list cell :=
  let '(settings, grid) := st in
  let '(name, is_spacer) := s in
  let i := List.length settings in
  (dset name is_spacer settings,
   grid ++ [mkCell name PLabel i 0 1; mkCell name PSpacer i 1 (if is_spacer then 2 else 1)]
        ++ (if is_spacer then [] else [mkCell name PEntry i 2 1])).
(** Lines 528-531 of [__init__]: the loop, and the lines of the grid that are
    responsive. *)
Definition settings_grid (specs : list (string * bool)) : dict bool * list cell :=
  fold_left add_setting specs ([], []).
Definition settings_lines (specs : list (string * bool)) : option lines * option lines :=
  (Some (Count (Z.of_nat (List.length specs))), Some (Indices [0%Z; 2%Z])).

(** [_settings], lines 229-403: names, and whether they are spacers. *)
Definition setting_specs : list (string * bool) :=
  [("resynth_group", true); ("max_n_modes", false); ("analysis_space", true); ("analysis_group", true);
   ("sinusoidal__tracker__max_n_sines", false); ("sinusoidal__n", false); ("sinusoidal__tracker__h", false);
   ("wsize", false); ("wtype", false); ("sinusoidal__tracker__freq_dev_offset", false);
   ("sinusoidal__tracker__freq_dev_slope", false); ("smfb_0", false); ("smfb_1", false);
   ("sinusoidal__tracker__peak_threshold", false); ("sinusoidal__t", false);
   ("sinusoidal__tracker__min_sine_dur", false); ("sinusoidal__tracker__strip_t", false);
   ("sinusoidal__tracker__reverse", false); ("sinusoidal__padded", false); ("beatsdrop_space", true);
   ("beatsdrop_group", true); ("beatsdrop", false); ("parallel", false); ("n_jobs", false);
   ("beat_decisor__th", false); ("beatsdrop__lpf", false); ("gui_space", true); ("gui_group", true);
   ("gui_theme", false)]%string.

(** [SettingsTab.reset_selections], lines 544-547: the entries of which the selection is
    cleared, and the exception.  A spacer has no [entry] (lines 459-461). *)
Fixpoint reset_selections (settings : dict bool) : list string * option exn :=
  match settings with
  | [] => ([], None)
  | (_, true) :: _ => ([], Some AttributeError)
  | (k, false) :: l => let '(done, e) := reset_selections l in (k :: done, e)
  end.
(** [SAMPLEGUI.reset_selections], sample/widgets/main.py lines 99-105: tab after tab, the
    AttributeError of a tab is passed over.  Only the settings tab has the method; a tab
    is [Some] settings or [None]. *)
Fixpoint gui_reset (tabs : list (option (dict bool))) : list string * option exn :=
  match tabs with
  | [] => ([], None)
  | t :: tabs =>
    let '(done, e) := match t with Some d => reset_selections d | None => ([], Some AttributeError) end in
    match e with
    | None | Some AttributeError => let '(done', e') := gui_reset tabs in (done ++ done', e')
    | Some e => (done, Some e)
    end
  end.

(** ** The rows of buttons *)

(** Columns of the widgets and the lines that are responsive: sample/widgets/analysis.py
    lines 101-127 and sample/widgets/audioload.py lines 53-115. *)
Definition analysis_buttons : list (string * Z) :=
  [("Analyze", 0%Z); ("Play Original", 1%Z); ("Play Resynthesis", 2%Z); ("Export JSON", 3%Z); ("Export WAV", 4%Z)]%string.
Definition analysis_lines : option lines * option lines := (Some (Count 1), Some (Count 4)).
Definition load_widgets : list (string * Z) :=
  [("Load", 0%Z); ("start", 1%Z); ("start time", 2%Z); ("stop", 3%Z); ("stop time", 4%Z); ("Play", 5%Z)]%string.
Definition load_lines : option lines * option lines := (Some (Count 1), Some (Count 4)).

(** ** The axes of the analysis tab, sample/widgets/analysis.py lines 67-88 *)

(** Left, bottom, width, height. *)
Record box : Type := mkBox { b_x : R; b_y : R; b_w : R; b_h : R }.
Definition analysis_axes (pad_top_w pad_top_wm pad_top_h pad_bottom_w pad_bottom_h : R) : list box :=
  let top_width := (/ 2 - pad_top_w - / 2 * pad_top_wm)%R in
  let top_height := (/ 2 - 2 * pad_top_h)%R in
  [mkBox pad_top_w (/ 2 + pad_top_h) top_width top_height;
   mkBox (/ 2 + pad_top_wm / 2) (/ 2 + pad_top_h) top_width top_height;
   mkBox pad_bottom_w pad_bottom_h (1 - 2 * pad_bottom_w) (/ 2 - 2 * pad_bottom_h)].

(** ** The title, sample/widgets/main.py lines 12 and 29-30 *)

(** [_PRERELEASE_REGEX.fullmatch]: [v?(\d+\.)*\d+], for ASCII digits. *)
Fixpoint dotted (digit_before : bool) (s : text) : bool :=
  match s with
  | [] => digit_before
  | c :: s => if Changelog_Model.is_digit c then dotted true s
              else if Ascii.eqb c "." && digit_before then dotted false s else false
  end.
Definition released (version : text) : bool :=
  match version with
  | c :: s => if Ascii.eqb c "v" then dotted false s else dotted false version
  | [] => false
  end.
Definition title (version : text) : text :=
  if released version then list_ascii_of_string "SAMPLE"
  else list_ascii_of_string "SAMPLE (" ++ version ++ [")"%char].

(** ** The style of the toolbar, sample/widgets/pyplot.py *)

Inductive wclass : Type := CButton | CLabel | CCheckbutton | CFrame.
Definition wclass_eqb (a b : wclass) : bool :=
  match a, b with CButton, CButton | CLabel, CLabel | CCheckbutton, CCheckbutton | CFrame, CFrame => true | _, _ => false end.
(** [_remap_style], lines 45-72. *)
Definition remap_style : list (wclass * list (string * string)) :=
  [(CButton, [("background", "bg"); ("foreground", "fg"); ("height", "height"); ("width", "width");
              ("borderwidth", "bd"); ("active background", "active background");
              ("active foreground", "active foreground")]);
   (CLabel, [("background", "bg"); ("foreground", "fg"); ("height", "height"); ("width", "width"); ("borderwidth", "bd")]);
   (CCheckbutton, [("background", "bg"); ("foreground", "fg"); ("height", "height"); ("width", "width");
                   ("borderwidth", "bd"); ("active background", "active background");
                   ("active foreground", "active foreground")]);
   (CFrame, [("background", "bg")])]%string.
(** Names with a space are no options of Tk: TclError. *)
Notation TclError := (OtherError 7).
Definition tk_option (k : string) : bool := negb (existsb (Ascii.eqb " ") (list_ascii_of_string k)).
Definition config (options : dict string) (k v : string) : res (dict string) :=
  if tk_option k then Ok (dset k v options) else Err TclError.
(** Lines 98-110, one widget of the toolbar: its options afterwards.  [cls]: the class
    among the four that it is an instance of ([isinstance] of at most one of them: none of
    the four is a child of another).  [style cls k]: the style of such widgets, the empty
    text if there is none. *)
Definition remap (style : wclass -> string -> string) (cls : option wclass) (options : dict string) : res (dict string) :=
  match cls with
  | None => Ok options
  | Some c =>
    match find (fun p => wclass_eqb (fst p) c) remap_style with
    | None => Ok options
    | Some (_, mappings) =>
      do options <- (match c with CButton | CCheckbutton => config options "relief" "flat" | _ => Ok options end);
      foldM (fun options p => let v := style c (fst p) in
                              if String.eqb v "" then Ok options else config options (snd p) v) options mappings
    end
  end.

(** ** Files of the user, sample/widgets/userfiles.py *)

(** [os.path.join] for any second path. *)
Definition join_path (a b : text) : text :=
  match b with c :: _ => if is_slash c then b else path_join a b | [] => path_join a b end.
(** [os.path.expanduser] of a path that begins with a slash or is below [~]: [home]
    without the slashes at its end. *)
Definition expanduser (home p : text) : text :=
  match p with
  | c :: rest => if Ascii.eqb c "~" then
                   match rev (dropwhile is_slash (rev home)) ++ rest with [] => ["/"%char] | q => q end
                 else p
  | [] => p
  end.
(** [UserDir.__init__], lines 89-92. *)
Definition user_dir (home path : text) (in_home : bool) : text :=
  if in_home then expanduser home (join_path ["~"%char] path) else path.
(** [UserFile.path], lines 34-37. *)
Definition file_path (dir subpath : text) : text := join_path dir subpath.

(** The file system: folders that are made, and the contents of the files. *)
Record fs : Type := mkFs { d_made : list text; d_file : text -> option text }.
Definition text_eqb (a b : text) : bool := if list_eq_dec ascii_dec a b then true else false.
Definition write (p : text) (c : option text) (f : fs) : fs :=
  mkFs (d_made f) (fun q => if text_eqb p q then c else d_file f q).
Definition make_dirs (p : text) (f : fs) : res unit * fs :=
  match makedirs p with Ok d => (Ok tt, mkFs (d_made f ++ [d]) (d_file f)) | Err e => (Err e, f) end.
(** [exists], lines 51-53, and [delete], lines 55-57. *)
Definition file_exists (p : text) (f : fs) : bool := match d_file f p with Some _ => true | None => false end.
Definition delete (p : text) (f : fs) : res unit * fs :=
  match d_file f p with Some _ => (Ok tt, write p None f) | None => (Err FileNotFoundError, f) end.
(** [save_json], lines 59-66, with [open], lines 39-44: the folder is made, the file is
    opened for writing, which empties it, and the pieces of the JSON text are written;
    [dump] gives what is written before the exception, if there is one. *)
Definition save_json {D} (dump : D -> text * option exn) (p : text) (d : D) (f : fs) : res unit * fs :=
  match make_dirs (dirname p) f with
  | (Err e, f) => (Err e, f)
  | (Ok _, f) => let '(s, e) := dump d in (match e with None => Ok tt | Some e => Err e end, write p (Some s) f)
  end.
(** [load_json], lines 68-74: the folder is made here, too. *)
Definition load_json {D} (parse : text -> res D) (p : text) (f : fs) : res D * fs :=
  match make_dirs (dirname p) f with
  | (Err e, f) => (Err e, f)
  | (Ok _, f) => (match d_file f p with Some s => parse s | None => Err FileNotFoundError end, f)
  end.

(** ** The theme *)

(** [UserTtkTheme.is_valid], lines 115-132: the answer, what is logged and what is shown
    in a message box. *)
Definition theme_message (themes : list string) (theme : string) : string :=
  "Unsupported theme: '" ++ theme ++ "'. Supported themes are: " ++ comma_join_quote themes.
Definition theme_valid (themes : list string) (theme : string) (log messagebox : bool)
  : bool * list string * list string :=
  let b := existsb (String.eqb theme) themes in
  let m := theme_message themes theme in
  (b, if negb b && log then [m] else [], if negb b && messagebox then [m] else []).
(** [postprocess_guitheme], sample/widgets/settings.py lines 212-224.  [None]: the
    setting is no text (null in the file), it has no length. *)
Definition postprocess_guitheme (themes : list string) (theme : option string)
  : res (string * list string * list string) :=
  match theme with
  | None => Err TypeError
  | Some t =>
    let '(b, logged, shown) := theme_valid themes t true (negb (String.eqb t "")) in
    Ok (if b then t else ""%string, logged, shown)
  end.
