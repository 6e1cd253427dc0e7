(** Model of the computations of scripts/beatsdrop/figures.py: which figures are made,
    panels, colours, Fourier transforms of beats, extrema and zero crossings.  Drawing
    and rounding are left out. *)
From Coquelicot Require Import Complex.
From Coq Require Import String List Bool ZArith Reals.
Import ListNotations.
From Verif Require Import Base Py Beat_Model.
Local Open Scope R_scope.

(** ** Which figures are made *)

(** [custom_parse_args], lines 108-113: the figures of the registry (name, function)
    whose flags are given, or all if none is.  Names in the registry are distinct. *)
Definition select_plots {F} (flag : string -> bool) (registry : list (string * F)) : list (string * F) :=
  if existsb (fun kf => flag (fst kf)) registry then filter (fun kf => flag (fst kf)) registry else registry.
(** [register_plot], lines 78-90: [cls._PLOTS[_name] = ...] of a dictionary. *)
Fixpoint register_plot {F} (k : string) (f : F) (registry : list (string * F)) : list (string * F) :=
  match registry with
  | [] => [(k, f)]
  | (k', f') :: r => if String.eqb k' k then (k, f) :: r else (k', f') :: register_plot k f r
  end.

(** ** Panels *)

(** Arguments [sharex], [sharey] of [plt.subplots]. *)
Inductive share : Type := ShareBool (b : bool) | ShareStr (s : string).
(** [subplots], lines 157-172: rows and columns, size of the figure, and how axes are
    shared ([sharex] and [sharey]); [base] is [mpl.rcParams["figure.figsize"]]. *)
Definition share_flip (v : share) : res share :=
  match v with
  | ShareBool b => Ok (ShareBool b)
  | ShareStr s =>
    if String.eqb s "col" then Ok (ShareStr "row")
    else if String.eqb s "row" then Ok (ShareStr "col") else Err KeyError
  end.
Record panels : Type := mkPanels {
  pn_rows : nat; pn_cols : nat; pn_width : R; pn_height : R; pn_sharex : share; pn_sharey : share }.
Definition subplots (vshape : nat * nat) (w aspect : R) (horizontal : bool) (base : R * R) (sharex sharey : share) : res panels :=
  let shape := if horizontal then (snd vshape, fst vshape) else vshape in
  let width := INR (snd shape) * 1 * fst base * w / INR (snd shape) in
  let height := INR (fst shape) * (1 / aspect) * snd base * w / INR (snd shape) in
  if horizontal
  then do sx <- share_flip sharex; do sy <- share_flip sharey; Ok (mkPanels (fst shape) (snd shape) width height sx sy)
  else Ok (mkPanels (fst shape) (snd shape) width height sharex sharey).
(** Lines 173-174: the panel (row and column of the figure) that is entry [i, j] of the
    array that is returned. *)
Definition panel_at (horizontal : bool) (ij : nat * nat) : nat * nat :=
  if horizontal then (snd ij, fst ij) else ij.

(** ** Colours *)

Definition rgb : Type := R * R * R.
(** [matplotlib.colors.rgb_to_hsv] of one colour. *)
Definition rgb_to_hsv (c : rgb) : R * R * R :=
  let '(r, g, b) := c in
  let mx := Rmax (Rmax r g) b in
  let mn := Rmin (Rmin r g) b in
  let delta := mx - mn in
  let s := if Rlt_dec 0 mx then delta / mx else 0 in
  let h := 0 in
  let h := if Rlt_dec 0 delta then if Req_EM_T r mx then (g - b) / delta else h else h in
  let h := if Rlt_dec 0 delta then if Req_EM_T g mx then 2 + (b - r) / delta else h else h in
  let h := if Rlt_dec 0 delta then if Req_EM_T b mx then 4 + (r - g) / delta else h else h in
  let h := h / 6 - IZR (Int_part (h / 6)) in
  (h, s, mx).
(** [matplotlib.colors.hsv_to_rgb] of one colour; ValueError out of [0, 1]. *)
Definition hsv_to_rgb (c : R * R * R) : res rgb :=
  let '(h, s, v) := c in
  if Rlt_dec h 0 then Err ValueError else if Rlt_dec 1 h then Err ValueError else
  if Rlt_dec s 0 then Err ValueError else if Rlt_dec 1 s then Err ValueError else
  if Rlt_dec v 0 then Err ValueError else if Rlt_dec 1 v then Err ValueError else
  let i := Int_part (h * 6) in
  let f := h * 6 - IZR i in
  let p := v * (1 - s) in
  let q := v * (1 - s * f) in
  let t := v * (1 - s * (1 - f)) in
  if Req_EM_T s 0 then Ok (v, v, v) else
  let k := (i mod 6)%Z in
  Ok (if Z.eqb k 0 then (v, t, p) else if Z.eqb k 1 then (q, v, p) else if Z.eqb k 2 then (p, v, t)
      else if Z.eqb k 3 then (p, q, v) else if Z.eqb k 4 then (t, p, v) else (v, p, q)).
(** [resaturate], lines 178-189. *)
Definition resaturate (c : rgb) (saturation : R) : res rgb :=
  let '(h, s, v) := rgb_to_hsv c in hsv_to_rgb (h, s * saturation, v).

(** ** Fourier transforms of beats *)

(** [np.exp(1j * phi)]. *)
Definition cis (phi : R) : Complex.C := (cos phi, sin phi).
(** [_exp_ft], lines 527-529. *)
Definition exp_ft (nu a : R) : Complex.C := (RtoC 1 / (RtoC a + (0%R, 2) * RtoC PI * RtoC nu))%C.
(** [_cos_ft], lines 532-540. *)
Definition cos_ft (nu nu_0 a d phi : R) (half : bool) : Complex.C :=
  (RtoC (a / 2) * (exp_ft (nu - nu_0)%R (2 / d)%R * cis (- phi)%R +
     (if half then RtoC 0 else exp_ft (nu + nu_0)%R (2 / d)%R * cis phi)))%C.
(** [_beat_ft], lines 543-563. *)
Definition beat_ft (nu nu_1 a_1 d_1 phi_1 : R) (nu_2 a_2 d_2 phi_2 : option R) (half : bool) : Complex.C :=
  let nu_2 := match nu_2 with None => nu_1 + 2 | Some v => v end in
  let a_2 := match a_2 with None => a_1 | Some v => v end in
  let d_2 := match d_2 with None => d_1 | Some v => v end in
  let phi_2 := match phi_2 with None => phi_1 | Some v => v end in
  (cos_ft nu nu_1 a_1 d_1 phi_1 half + cos_ft nu nu_2 a_2 d_2 phi_2 half)%C.
(** [plot_fft], lines 583-597: the curve of the spectrum, and the signal, whose
    magnitude is the curve of the envelope. *)
Definition fft_curve (nu_a nu_d d nu : R) : R :=
  Cmod (beat_ft nu (nu_a - nu_d) 1 d 0 (Some (nu_a + nu_d)) None None None false).
Definition fft_signal (nu_a nu_d d t : R) : Complex.C :=
  let mode f := (RtoC (exp (t * (- 2 / d)))%R * cis (2 * PI * t * f + - PI / 2)%R * RtoC (1 / 2)%R)%C in
  (mode (nu_a - nu_d)%R + mode (nu_a + nu_d)%R)%C.

(** ** Extrema and zero crossings *)

(** [np.greater] and [np.less]. *)
Definition greater (x y : R) : bool := Rltb y x.
Definition less (x y : R) : bool := Rltb x y.
Definition map2b {A B} (op : A -> A -> B) (a b : list A) : list B := map (fun p => op (fst p) (snd p)) (combine a b).
(** [_find_extrema], lines 695-701: [b[1:-1]] of fewer than three elements is empty, and
    [b[[0, -1]] = False] of none raises IndexError. *)
Definition find_extrema (cmp : R -> R -> bool) (a : list R) : res (list bool) :=
  let mid := slice (Some 1%Z) (Some (-1)%Z) a in
  let inner := map2b cmp mid (slice (Some 2%Z) None a) in
  let inner := map2b andb (map2b cmp mid (slice None (Some (-2)%Z) a)) inner in
  match a with
  | [] => Err IndexError
  | [_] => Ok [false]
  | _ => Ok (false :: inner ++ [false])
  end.
(** [_find_zerox], lines 704-709 (the input of [np.not_equal] overlaps its output, which
    numpy allows for). *)
Definition find_zerox (a : list R) : res (list bool) :=
  let b := map (fun v => greater v 0) a in
  let inner := map2b xorb (slice (Some 1%Z) None b) (slice None (Some (-1)%Z) b) in
  match b with
  | [] => Err IndexError
  | _ => Ok (false :: inner)
  end.
(** [sum(minima)], line 781, and the size of [arange[zeroxs[i]]], lines 795-799. *)
Definition count_true (b : list bool) : nat := List.length (filter (fun x => x) b).
(** Lines 760-761, 795: the times of crossings, interpolated linearly at [i - 0.5]. *)
Definition zerox_times (t : list R) (b : list bool) : list R :=
  map (fun i => nth (i - 1) t 0 + (INR i - 0.5 - INR (i - 1)) * (nth i t 0 - nth (i - 1) t 0))
      (filter (fun i => nth i b false) (seq 0 (List.length b))).
