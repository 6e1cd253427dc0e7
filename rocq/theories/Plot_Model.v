(** Model of the plots of sample/plots.py, as far as data is concerned: the points
    of every line, the panels and their signals.  Colours, grids, labels of axes and
    matplotlib itself are left out.  Rounding is left out. *)
From Coq Require Import String List Bool ZArith Reals DecimalString.
Import ListNotations.
From Verif Require Import Base Py RLists Sample_Model.
Local Open Scope R_scope.

(** ** Sine tracks *)

(** What the plots read of a fitted model.  [p_save], [p_stft]: the storage of the
    sinusoidal model saves, and the number of spectra in it ([None]: no key "stft",
    as after a fit without frames).  [p_beats]: the [beat_decisor], if the model has
    one: its storage saves, and the stored decisions, if any. *)
Record pmodel : Type := mkPModel
  { p_tracks : list rtrack; p_h : R; p_fs : R; p_reverse : bool;
    p_save : bool; p_stft : option nat;
    p_beats : option (bool * option (list bool)) }.

(** [_is_beat], lines 24-29. *)
Definition is_beat (m : pmodel) (i : nat) : res bool :=
  match p_beats m with
  | None => Ok false
  | Some (false, _) => Ok false
  | Some (true, None) => Err KeyError
  | Some (true, Some d) => match nth_error d i with Some b => Ok b | None => Err IndexError end
  end.

(** [track["freq"].size]. *)
Definition track_size (t : rtrack) : nat := List.length (r_freq t).

(** [tmax], lines 46-53. *)
Definition plot_tmax (m : pmodel) : res R :=
  if p_reverse m then
    if p_save m then
      match p_stft m with Some n => Ok (INR n * p_h m / p_fs m) | None => Err KeyError end
    else
      match map (fun t => (IZR (r_start t) + INR (track_size t)) * p_h m / p_fs m) (p_tracks m) with
      | [] => Err ValueError
      | v :: l => Ok (fold_left Rmax l v)
      end
  else Ok 0.

(** [(track["start_frame"] + np.arange(track["freq"].size)) * m.h / m.fs], lines 55
    and 91. *)
Definition frame_times (m : pmodel) (t : rtrack) : list R :=
  map (fun j => (IZR (r_start t) + INR j) * p_h m / p_fs m) (seq 0 (track_size t)).

(** A line: points and style.  [ax.plot] raises ValueError if there are not as many
    ordinates as abscissae. *)
Record line : Type := mkLine { ln_x : list R; ln_y : list (option R); ln_dashed : bool }.
Definition plot_line (x : list R) (y : list (option R)) (b : bool) : res line :=
  if Nat.eqb (List.length x) (List.length y) then Ok (mkLine x y b) else Err ValueError.

(** [enumerate]. *)
Definition enumerate {A} (l : list A) : list (nat * A) := combine (seq 0 (List.length l)) l.

(** [sine_tracking_2d], lines 44-60: the lines of frequencies and of magnitudes. *)
Definition sine_tracking_2d (m : pmodel) : res (list (line * line)) :=
  do tmax <- plot_tmax m;
  mapM (fun it =>
    let '(i, t) := it in
    let t_x := frame_times m t in
    let t_x := if p_reverse m then map (fun v => tmax - v) t_x else t_x in
    do b <- is_beat m i;
    do f <- plot_line t_x (r_freq t) b;
    do a <- plot_line t_x (r_mag t) b;
    Ok (f, a)) (enumerate (p_tracks m)).

(** [sine_tracking_3d], lines 87-92: times, frequencies, magnitudes and style.  The
    check of lengths by [ax.plot] is left out (those of a track are equal). *)
Definition sine_tracking_3d (m : pmodel) : res (list (list R * list (option R) * list (option R) * bool)) :=
  mapM (fun it =>
    let '(i, t) := it in
    do b <- is_beat m i;
    Ok (frame_times m t, r_freq t, r_mag t, b)) (enumerate (p_tracks m)).

(** ** Resynthesis *)

(** A model as [resynthesis] uses it: sample rate and [predict]. *)
Record smodel : Type := mkSModel { s_fs : R; s_predict : list R -> list R }.

(** Line 213: [max(..., default=44100)] unless given. *)
Definition plot_fs (fs : option R) (models : list (string * smodel)) : R :=
  match fs with
  | Some v => v
  | None => match map (fun p => s_fs (snd p)) models with [] => 44100 | v :: l => fold_left Rmax l v end
  end.
(** [np.arange(x.size) / fs], line 235. *)
Definition plot_times (n : nat) (fs : R) : list R := map (fun i => INR i / fs) (seq 0 n).

(** A panel: number of its axes, title, limits of the time axis, signal. *)
Record panel : Type := mkPanel { pn_ax : nat; pn_title : string; pn_tlim : R * R; pn_signal : list R }.

(** [resynthesis], lines 208-247: the wave plots (label and signal, all against the
    same times) and the panels of the spectrograms.  [axs]: the number of axes, if
    given; else there are a row for the waves and a column for every signal (at
    least one, ValueError).  Line 227 reads the second of the axes.  Arguments of
    [foreach] are the number, the title and the signal of the panels. *)
Definition resynthesis (x : list R) (models : list (string * smodel)) (fs : option R) (original : bool)
    (original_k : string) (axs : option nat) : res (list R * list (string * list R) * list panel) :=
  let fs := plot_fs fs models in
  let n := (List.length models + if original then 1 else 0)%nat in
  do n_axs <- match axs with
              | Some k => Ok k
              | None => if Nat.eqb n 0 then Err ValueError else Ok (1 + n)%nat
              end;
  do _ <- if (n_axs <? 2)%nat then Err IndexError else Ok tt;
  let t := plot_times (List.length x) fs in
  let wavs := (if original then [(original_k, x)] else []) ++ map (fun p => (fst p, s_predict (snd p) t)) models in
  do panels <- mapM (fun iw =>
    let '(i, (k, y)) := iw in
    do _ <- if Nat.eqb (List.length t) (List.length y) then Ok tt else Err ValueError;
    do lo <- getitem t 0;
    do hi <- getitem t (-1);
    if (i + 1 <? n_axs)%nat then Ok (mkPanel (i + 1) k (lo, hi) y) else Err IndexError) (enumerate wavs);
  Ok (t, wavs, panels).

(** ** [LabelAndPlayForeach], sample/ipython.py *)

(** What is displayed: HTML text or the samples of an audio player. *)
Inductive widget : Type := Html (s : string) | Audio (y : list R).

(** [str(z)] of an integer. *)
Definition str_int (z : Z) : string := NilZero.string_of_int (Z.to_int z).

(** [_label], lines 162-174. *)
Definition lp_label (i : option Z) (k : option string) : option widget :=
  let html s := Some (Html ("<h1>" ++ s ++ "</h1>")%string) in
  match i, k with
  | None, None => None
  | None, Some k => html k
  | Some i, None => html (str_int (i + 1))
  | Some i, Some k =>
    if String.eqb k "" then html (str_int (i + 1)) else html (str_int (i + 1) ++ " - " ++ k)%string
  end.
(** [_audio], lines 176-182; [normalize] is an option of the constructor (lines
    153-160), false by default. *)
Definition clip1 (v : R) : R := Rmin (Rmax v (-1)) 1.
Definition lp_audio (normalize : option bool) (y : option (list R)) : option widget :=
  option_map (fun y => Audio (match normalize with Some true => y | _ => map clip1 y end)) y.
(** [__call__], lines 184-200: the widgets of the call of [display], if there is
    one. *)
Definition lp_call (normalize : option bool) (i : option Z) (k : option string) (y : option (list R))
  : option (list widget) :=
  let tbd := flat_map (fun o => match o with Some w => [w] | None => [] end) [lp_label i k; lp_audio normalize y] in
  match tbd with [] => None | _ => Some tbd end.

(** ** Comparison of beat regressions *)

(** What [fig.subplots(rows, columns)] returns after squeezing, with the positions
    (row, column) of the axes on the figure. *)
Inductive axes : Type :=
| Single (a : nat * nat)
| Row (l : list (nat * nat))
| Grid (l : list (list (nat * nat))).
Definition subplots (rows cols : nat) : res axes :=
  if (Nat.eqb rows 0 || Nat.eqb cols 0)%bool then Err ValueError
  else
    let g := map (fun i => map (fun j => (i, j)) (seq 0 cols)) (seq 0 rows) in
    match rows, cols with
    | 1%nat, 1%nat => Ok (Single (0, 0)%nat)
    | 1%nat, _ => Ok (Row (map (fun j => (0%nat, j)) (seq 0 cols)))
    | _, 1%nat => Ok (Row (map (fun i => (i, 0%nat)) (seq 0 rows)))
    | _, _ => Ok (Grid g)
    end.
(** [axs.T]. *)
Definition axes_t (a : axes) : axes :=
  match a with
  | Grid l => Grid (map (fun j => map (fun row => nth j row (0, 0)%nat) l) (seq 0 (List.length (hd [] l))))
  | _ => a
  end.
(** [axs[r][c]]: axes are no sequences. *)
Definition axes_get (a : axes) (r c : nat) : res (nat * nat) :=
  match a with
  | Single _ => Err TypeError
  | Row l => match nth_error l r with Some _ => Err TypeError | None => Err IndexError end
  | Grid l =>
    match nth_error l r with
    | None => Err IndexError
    | Some row => match nth_error row c with Some p => Ok p | None => Err IndexError end
    end
  end.

(** The axes made by [beatsdrop_comparison] for [n] regressions, lines 282-291, and
    those on which regression [i] draws amplitudes, levels and frequencies (lines
    313-391). *)
Definition comparison_axes (n : nat) (transpose : bool) : res axes :=
  if transpose then do a <- subplots n 3; Ok (axes_t a) else subplots 3 n.
Definition comparison_cells (n : nat) (transpose : bool) : res (list (nat * nat * (nat * nat) * (nat * nat))) :=
  do a <- comparison_axes n transpose;
  mapM (fun i => do p0 <- axes_get a 0 i; do p1 <- axes_get a 1 i; do p2 <- axes_get a 2 i; Ok (p0, p1, p2)) (seq 0 n).
(** The axes that get the label "time (s)", lines 403-404: [axs[c, -1]] for every
    row [c]. *)
Definition comparison_time_axes (n : nat) (transpose : bool) : res (list (nat * nat)) :=
  do a <- comparison_axes n transpose;
  match a with
  | Grid l => mapM (fun row => getitem row (-1)) l
  | _ => Err IndexError
  end.

(** Samples of the signal under the Hilbert envelope, lines 320-325.  [am]: [None] is
    [True], else the factor of the subsampling. *)
Definition envelope_samples (size : nat) (am : option Z) : list Z :=
  match am with
  | None => map Z.of_nat (seq 0 size)
  | Some k => map (fun i => (Z.of_nat i * k)%Z) (seq 0 (Z.to_nat (Z.of_nat size / k)))
  end.

(** The levels of line 366 with line 367: [None] is NaN. *)
Definition level_or_nan (a : R) : option R := if Rle_dec a (db2a (-60)) then None else Some (a2db a).
