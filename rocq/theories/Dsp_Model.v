(** Model of sample/utils/dsp.py (normalisation, dichotomic search, local
    maxima, onset selection, strided convolution, spectral flux) and of the
    convolutions of sample/psycho.py [PrecomputedIRBank].  Numbers are real
    numbers; rounding and non-finite values are not modelled. *)
From Coq Require Import List Bool ZArith Reals.
Import ListNotations.
From Verif Require Import Base Py RLists Np_Model Stft_Model.
Local Open Scope R_scope.

Definition Rleb (x y : R) : bool := if Rle_lt_dec x y then true else false.

(** ** Reductions *)

(** [np.max], [np.min]: ValueError on an empty array. *)
Definition amax (l : list R) : res R :=
  match l with [] => Err ValueError | v :: l' => Ok (fold_left Rmax l' v) end.
Definition amin (l : list R) : res R :=
  match l with [] => Err ValueError | v :: l' => Ok (fold_left Rmin l' v) end.
(** [np.mean], [np.std] (of an empty array: nan, not modelled). *)
Definition mean (l : list R) : R := rsum l / INR (List.length l).
Definition std (l : list R) : R :=
  let mu := mean l in sqrt (mean (map (fun v => (v - mu) * (v - mu)) l)).

(** A reduction of the array at address [a]. *)
Definition red (f : list R -> res R) (a : nat) : M R :=
  fun m => match f (cells m a) with Ok v => Ok (v, m) | Err e => Err e end.

(** ** [normalize], lines 12-59 *)

(** Division by zero gives nan or inf and a warning in numpy; the theorems
    exclude it. *)
Definition normalize_peak (x out : nat) : M nat :=
  p <-- red (fun l => amax (map Rabs l)) x ;;
  un (fun v => v / p) x out.

(** [_normalize_rms], lines 30-43; [np.std(x)] is evaluated after [out] has
    been written. *)
Definition normalize_rms (x out : nat) : M nat :=
  mu <-- red (fun l => Ok (mean l)) x ;;
  un (fun v => v - mu) x out ;;;
  s <-- red (fun l => Ok (std l)) x ;;
  un (fun v => v / (if Req_EM_T s 0 then 1 else s)) out out.

(** [_normalize_range], lines 46-59. *)
Definition normalize_range (x out : nat) : M nat :=
  lo <-- red amin x ;;
  un (fun v => v - lo) x out ;;;
  hi <-- red amax out ;;
  un (fun v => v / hi) out out.

(** ** [dychotomic_zero_crossing], lines 153-185 *)

(** The loop, with [a] the current point. *)
Fixpoint dicho_loop (func : R -> R) (steps : nat) (lo hi a : R) : R :=
  match steps with
  | O => a
  | S k =>
    let f_a := func a in
    if Rlt_dec f_a 0 then dicho_loop func k a hi ((a + hi) / 2)
    else if Rlt_dec 0 f_a then dicho_loop func k lo a ((lo + a) / 2)
    else a
  end.
Definition dychotomic_zero_crossing (func : R -> R) (lo hi : R) (steps : nat) : res R :=
  let f_lo := func lo in
  let f_hi := func hi in
  if Rlt_dec 0 (f_lo * f_hi) then Err ValueError
  else
    let '(lo, hi) := if Rlt_dec f_hi f_lo then (hi, lo) else (lo, hi) in
    Ok (dicho_loop func steps lo hi ((lo + hi) / 2)).

(** ** Local maxima *)

(** An operand of a ufunc whose [out] has [n] elements: as it is, or one
    element repeated; ValueError otherwise (numpy broadcasting). *)
Definition fit {A} (n : nat) (l : list A) : res (list A) :=
  if Nat.eqb (List.length l) n then Ok l
  else match l with [v] => Ok (repeat v n) | _ => Err ValueError end.
Definition ufunc2 {A B C} (op : A -> B -> C) (a : list A) (b : list B) (n : nat)
  : res (list C) :=
  do a <- fit n a;
  do b <- fit n b;
  Ok (map (fun p => op (fst p) (snd p)) (combine a b)).

(** The value of a memory cell of a strided view; memory outside the array is
    an error of the model (proved not to occur). *)
Definition cell_value (c : option R) : res R :=
  match c with Some v => Ok v | None => Err (OtherError 0) end.
Definition window_values (rows : list (list (option R))) : res (list (list R)) :=
  mapM (mapM cell_value) rows.

(** [local_maxima], lines 540-570; [out] are the contents of [out] before. *)
Definition local_maxima (x : list R) (w : Z) (key : option (list R))
    (logical_and : bool) (out : list bool) : res (list bool) :=
  let key := match key with None => x | Some k => slice None (Some (zlen x)) k end in
  do rows <- overlapping_windows key (2 * w + 1) (Some 1%Z);
  do wins <- window_values rows;
  do maxima <- mapM amax wins;
  let xs := slice (Some w) (Some (- w)%Z) x in
  let out_mid := slice (Some w) (Some (- w)%Z) out in
  let ge a b := Rleb b a in
  do mid <- (if logical_and then
               do mx <- ufunc2 ge xs maxima (List.length maxima);
               ufunc2 andb mx out_mid (List.length out_mid)
             else ufunc2 ge xs maxima (List.length out_mid));
  do out <- set_slice (Some w) (Some (- w)%Z) mid out;
  do out <- set_slice None (Some w) [false] out;
  set_slice (Some (- w)%Z) None [false] out.

(** ** Onset selection *)

(** [_onset_selection_g], lines 573-584: the loop with the current [g]. *)
Fixpoint onset_g (alpha g : R) (x : list R) : list R :=
  match x with
  | [] => []
  | f :: x' =>
    let g := Rmax f (alpha * g + (1 - alpha) * f) in
    g :: onset_g alpha g x'
  end.

(** [_onset_selection_m], lines 587-600. *)
Definition onset_m (x : list R) (w m : Z) (delta : R) (out : list R) : res (list R) :=
  do rows <- overlapping_windows x ((m + 1) * w + 1) (Some 1%Z);
  do wins <- window_values rows;
  do out <- set_slice None (Some (m * w)%Z) [0] out;
  do out <- set_slice (Some (- w)%Z) None [0] out;
  (* reductions need an [out] of exactly the size of the result *)
  if Nat.eqb (List.length wins)
             (List.length (slice (Some (m * w)%Z) (Some (- w)%Z) out)) then
    do out <- set_slice (Some (m * w)%Z) (Some (- w)%Z) (map mean wins) out;
    Ok (map (fun v => v + delta) out)
  else Err ValueError.

(** [onset_selection], lines 603-639.  [junk] is uninitialised memory: of
    [normalize], and of [ons]. *)
Definition onset_selection (junk : nat -> nat -> R) (junk_b : nat -> bool)
    (x : list R) (w m : Z) (alpha delta : R) : res (list bool) :=
  do x_n <- call junk normalize_rms x;
  let n := List.length x_n in
  let ons := map junk_b (seq 0 n) in
  let tmp := onset_g alpha 0 x_n in
  let ge a b := Rleb b a in
  do c <- ufunc2 ge (slice (Some 1%Z) None x_n) (slice None (Some (-1)%Z) tmp)
                 (List.length (slice (Some 1%Z) None ons));
  do ons <- set_slice (Some 1%Z) None c ons;
  do tmp <- onset_m x_n w m delta tmp;
  do c <- ufunc2 ge x_n tmp n;
  do ons <- ufunc2 andb ons c n;
  local_maxima x w None true ons.

(** [onset_detection], lines 673-679, from the detection function [f] of a
    signal of [size] samples: flat indices of the onsets, scaled. *)
Definition onset_detection (ons_subs : list bool) (size : Z) : res (list bool) :=
  let fsize := zlen ons_subs in
  let idx := filter (fun i => nth i ons_subs false) (seq 0 (List.length ons_subs)) in
  let idx := map (fun i => (Z.of_nat i * size / fsize)%Z) idx in
  foldM (fun ons i =>
           if (0 <=? i)%Z && (i <? zlen ons)%Z then Ok (upd (Z.to_nat i) true ons)
           else Err IndexError)
        (repeat false (Z.to_nat size)) idx.

(** ** Spectral flux *)

(** [spectral_flux_from_tf], lines 520-537, from the moduli [a] of the matrix
    (list of rows, one per frequency). *)
Fixpoint diff (l : list R) : list R :=
  match l with
  | a :: ((b :: _) as l') => (b - a) :: diff l'
  | _ => []
  end.
Definition spectral_flux (a : list (list R)) : res (list R) :=
  let delta := map (fun row => map (fun d => Rmax d 0) (diff row)) a in
  match delta with
  | [] => Err IndexError
  | row :: rows => Ok (fold_left (map2 Rplus) rows row)
  end.

(** ** Strided convolution, lines 436-490 *)

Definition dot (a b : list R) : R := rsum (map2 Rmult a b).
Definition strided_convolution (x kernel : list R) (stride : Z) : res (list R) :=
  do rows <- overlapping_windows x (zlen kernel) (Some stride);
  do a <- window_values rows;
  Ok (map (fun row => dot row (rev kernel)) a).

(** [strided_convolution_complex_kernel]: the real and imaginary parts of the
    result. *)
Definition strided_convolution_complex_kernel (x : list R) (kernel : list (R * R))
    (stride : Z) : res (list (R * R)) :=
  do re <- strided_convolution x (map fst kernel) stride;
  do im <- strided_convolution x (map snd kernel) stride;
  Ok (combine re im).

(** ** [PrecomputedIRBank], sample/psycho.py lines 762-869 *)

(** [np.convolve]-like full convolution of two non-empty arrays (what
    [signal.oaconvolve] and [signal.convolve] compute, up to rounding). *)
Definition conv_full (x k : list R) : list R :=
  map (fun n => rsum (map (fun j => nth j k 0 *
                             (if (Z.of_nat j <=? n)%Z && (n - Z.of_nat j <? zlen x)%Z
                              then nth (Z.to_nat (n - Z.of_nat j)) x 0 else 0))
                          (seq 0 (List.length k))))
      (zrange (zlen x + zlen k - 1)).

(** Largest of a list of integers (never empty here). *)
Definition zmax (l : list Z) : Z := fold_left Z.max l 0%Z.

(** The offsets computed by [__init__], lines 786-798, from the leading times
    in samples [lead = ceil(t_c * fs)]: the delays that align the IRs. *)
Definition align_offsets (lead : list Z) : list Z :=
  match lead with
  | [] => []
  | v :: l => map (fun o => fold_left Z.max l v - o)%Z lead
  end.

(** A bank of real IRs with their offsets. *)
Definition bank : Type := list (list R * Z).
(** [self._ir_size], lines 799-800. *)
Definition bank_ir_size (b : bank) : Z := zmax (map (fun io => zlen (fst io) + snd io)%Z b).

(** [convolve] without stride, lines 823-836. *)
Definition convolve_full (b : bank) (x : list R) : res (list (list R)) :=
  let s := bank_ir_size b in
  mapM (fun io => let '(ir, off) := io in
          let y := conv_full x ir in
          set_slice (Some off) (Some (off + zlen y)%Z) y
                    (repeat 0 (Z.to_nat (zlen x + s - 1)))) b.

(** [convolve] with a stride, lines 846-868, for IRs that are not analytic. *)
Definition convolve_strided (b : bank) (x : list R) (stride : Z) : res (list (list R)) :=
  let s := bank_ir_size b in
  do x_pad <- set_slice (Some (s - 1)%Z) (Some (- (s - 1))%Z) x
                        (repeat 0 (Z.to_nat (zlen x + 2 * (s - 1))));
  let x_begin (io : list R * Z) :=
    let off := snd io in (s - zlen (fst io) - (off - off / stride * stride))%Z in
  let x_size io :=
    Z.min (zlen x_pad - x_begin io) (zlen x + 2 * (zlen (fst io) - 1)) in
  do n_wins <- mapM (fun io => n_windows (x_size io) (zlen (fst io)) (Some stride)) b;
  let width := zmax (map (fun p => fst p + snd (snd p) / stride)%Z (combine n_wins b)) in
  mapM (fun p => let '(n, (ir, off)) := p in
          let x0 := x_begin (ir, off) in
          do y <- strided_convolution
                    (slice (Some x0) (Some (x0 + x_size (ir, off))%Z) x_pad) ir stride;
          set_slice (Some (off / stride)%Z) (Some (off / stride + n)%Z) y
                    (repeat 0 (Z.to_nat width)))
       (combine n_wins b).

(** [convolve], lines 803-869: [method] is whether a method was given. *)
Definition convolve (b : bank) (x : list R) (method : bool) (stride : option Z)
  : res (list (list R)) :=
  match stride with
  | None => convolve_full b x
  | Some st => if method then Err ValueError else convolve_strided b x st
  end.
