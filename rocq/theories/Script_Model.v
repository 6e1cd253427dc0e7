(** Model of scripts/beatsdrop/example.py: loading, cropping and writing audio.
    Rounding is left out; samples that are not finite are [None]. *)
From Coq Require Import String Ascii List Bool ZArith Reals.
Import ListNotations.
From Verif Require Import Base Py RLists Eval_Model.
Local Open Scope R_scope.

(** ** Names of files *)

(** Names as lists of characters. *)
Definition name : Type := list ascii.
(** [str.rfind] of a character. *)
Definition rfind (c : ascii) (p : name) : Z :=
  fold_left (fun r i => if Ascii.eqb (nth i p "0"%char) c then Z.of_nat i else r) (seq 0 (List.length p)) (-1)%Z.
(** [os.path.splitext] of POSIX systems (genericpath._splitext of the standard
    library). *)
Definition splitext (p : name) : name * name :=
  let s := rfind "/" p in
  let d := rfind "." p in
  if (s <? d)%Z && existsb (fun c => negb (Ascii.eqb c ".")) (slice (Some (s + 1)%Z) (Some d) p)
  then (firstn (Z.to_nat d) p, skipn (Z.to_nat d) p) else (p, []).
(** [suffix.join(os.path.splitext(args.input))], lines 177 and 278. *)
Definition out_name (suffix p : name) : name := let '(r, e) := splitext p in r ++ suffix ++ e.

(** ** Loading *)

(** Types of the samples of WAV files. *)
Inductive wavtype : Type := WInt (bits : Z) | WUint8 | WFloat.
(** [np.iinfo(dtype).min]. *)
Definition iinfo_min (t : wavtype) : option Z :=
  match t with WInt bits => Some (- 2 ^ (bits - 1))%Z | WUint8 => Some 0%Z | WFloat => None end.
(** Lines 134-137 for one number [v] of the file: integers are divided by
    [-np.iinfo(dtype).min]; a division by zero is not finite. *)
Definition load_sample (t : wavtype) (v : R) : option R :=
  match iinfo_min t with
  | Some m => let d := (- m)%Z in if Z.eqb d 0 then None else Some (v / IZR d)
  | None => Some v
  end.
(** Lines 138-140: the mean of channels. *)
Definition mono (frame : list (option R)) : option R :=
  if forallb (fun o => match o with Some _ => true | None => false end) frame
  then Some (rsum (map (fun o => match o with Some v => v | None => 0 end) frame) / INR (List.length frame)) else None.
(** [load_audio], lines 112-141, for frames of one number (mono) or of the numbers of
    all channels. *)
Inductive frames : Type := Mono (x : list R) | Multi (x : list (list R)).
Definition load_audio (t : wavtype) (x : frames) : list (option R) :=
  match x with
  | Mono x => map (load_sample t) x
  | Multi x => map (fun f => mono (map (load_sample t) f)) x
  end.

(** ** Cropping *)

(** [np.diff], and [np.argmax] of values that are not empty. *)
Fixpoint zdiff (l : list Z) : list Z :=
  match l with a :: ((b :: _) as l') => (b - a)%Z :: zdiff l' | _ => [] end.
Definition argmax (l : list Z) : nat :=
  fold_left (fun m i => if (nth m l 0 <? nth i l 0)%Z then i else m) (seq 1 (List.length l - 1)) 0%nat.
(** [min(l, default=d)] and [max(l, default=d)]. *)
Definition zmin (l : list Z) (d : Z) : Z := match l with [] => d | a :: l => fold_left Z.min l a end.
Definition zmax (l : list Z) (d : Z) : Z := match l with [] => d | a :: l => fold_left Z.max l a end.

(** [crop_audio], lines 156-175: the bounds of the part that is kept, of [n] samples
    with these onsets, which are looked for if a bound is not given. *)
Definition crop_bounds (start stop : option R) (fs : R) (onsets : res (list Z)) (n : Z) : res (Z * Z) :=
  let i0 := option_map (fun v => Rtrunc (v * fs)) start in
  let i1 := option_map (fun v => Rtrunc (v * fs)) stop in
  match i0, i1 with
  | Some a, Some b => Ok (a, b)
  | _, _ =>
    do o <- onsets;
    let ons := o ++ [n] in
    let until a := zmin (filter (fun i => (a <? i)%Z) ons) n in
    match i0, i1 with
    | None, None =>
      if (List.length ons <? 2)%nat then Ok (0%Z, n)
      else let a := nth (argmax (zdiff ons)) ons 0%Z in Ok (a, until a)
    | Some a, _ => Ok (a, until a)
    | _, Some b => Ok (zmax (filter (fun i => (i <? b)%Z) ons) 0%Z, b)
    end
  end.
(** Lines 154-155, 176-181: the audio to be analysed, and what is written and where. *)
Definition crop_audio {A} (no_crop : bool) (start stop : option R) (fs : R) (onsets : res (list Z))
    (input : name) (cropped : option name) (x : list A) : res (list A * option (name * list A)) :=
  if no_crop then Ok (x, None)
  else
    do b <- crop_bounds start stop fs onsets (zlen x);
    let y := slice (Some (fst b)) (Some (snd b)) x in
    Ok (y, Some (match cropped with Some p => p | None => out_name (list_ascii_of_string "-cropped") input end, y)).

(** ** Resynthesis *)

(** [resynth_audio], lines 270-281: the audio that is written for predictions [y], with
    the threshold [th], and where to. *)
Definition resynth_audio (clip : bool) (th : R) (input : name) (output : option name) (y : list R) : res (name * list R) :=
  match map Rabs y with
  | [] => Err ValueError
  | a :: l =>
    let p := fold_left Rmax l a in
    let y := if Rlt_dec th p then if clip then y else map (fun v => v * (th / p)) y else y in
    Ok (match output with Some p => p | None => out_name (list_ascii_of_string "-output") input end, y)
  end.

(** ** Progress *)

(** [ScriptFitArgs], lines 184-224: the counter and what the bar shows (its number and
    its total), if there is one. *)
Record progress : Type := mkProgress { pr_count : R; pr_bar : option (R * R) }.
Definition progress_start (maximum value : R) (p : progress) : progress :=
  mkProgress value (option_map (fun _ => (value, maximum)) (pr_bar p)).
Definition progress_stop (p : progress) : progress :=
  let v := match pr_bar p with None => 1 | Some (_, t) => t end in progress_start v v p.
(** [shown]: whether the throttle lets the update through.  Updates hold a lock. *)
Definition progress_update (shown : bool) (value : option R) (p : progress) : progress :=
  let v := match value with Some v => v | None => pr_count p + 1 end in
  mkProgress v (if shown then option_map (fun b => (v, snd b)) (pr_bar p) else pr_bar p).
