(** Properties of framing and spectral peak picking (C13-C17).  Arrays are
    lists, [zlen] is their size and [at_ x i] the element at index [i]. *)
From Coq Require Import List ZArith QArith Bool Lia Sorted.
Import ListNotations.
From Verif Require Import Base Py Stft_Model Stft_Proofs.
Local Open Scope Z_scope.

(** *** C13 *)

(** For [1 <= w <= size] and [1 <= h] there are [1 + (size - w) // h] rows of
    [w] columns, row [i] column [j] is element [i*h+j] of the array, which is
    inside the array, and one window more would not fit. *)
Theorem c13_windows_exact : forall A (a : list A) w h,
  1 <= w -> 1 <= h -> w <= zlen a ->
  exists rows, overlapping_windows a w (Some h) = Ok rows /\
    zlen rows = 1 + (zlen a - w) / h /\
    (forall i j, 0 <= i < zlen rows -> 0 <= j < w ->
       0 <= i * h + j < zlen a /\
       exists row, nth_error rows (Z.to_nat i) = Some row /\ zlen row = w /\
         nth_error row (Z.to_nat j) = Some (nth_error a (Z.to_nat (i * h + j)))) /\
    (zlen rows - 1) * h + w <= zlen a < zlen rows * h + w.
Proof. exact windows_ok. Qed.
Print Assumptions c13_windows_exact.

(** An array shorter than the window: no rows if at most [h] samples are
    missing, ValueError otherwise. *)
Theorem c13_short_input : forall A (a : list A) w h, 1 <= h -> zlen a < w ->
  overlapping_windows a w (Some h) =
  if w - zlen a <=? h then Ok [] else Err ValueError.
Proof. exact windows_short. Qed.
Print Assumptions c13_short_input.

Example c13_example :
  overlapping_windows [10; 11; 12; 13; 14; 15; 16] 3 (Some 2) =
    Ok [[Some 10; Some 11; Some 12]; [Some 12; Some 13; Some 14];
        [Some 14; Some 15; Some 16]] /\
  overlapping_windows [10; 11; 12] 4 (Some 2) = Ok [] /\
  overlapping_windows [10; 11; 12] 6 (Some 2) = Err ValueError.
Proof. repeat split. Qed.

(** *** C14 *)

(** The padded input is [(w+1)//2] zeros, the signal, [w//2] zeros. *)
Theorem c14_padding : forall w x, 1 <= w ->
  pad_input true w x =
  Ok (repeat 0%Q (Z.to_nat ((w + 1) / 2)) ++ x ++ repeat 0%Q (Z.to_nat (w / 2)),
      (w + 1) / 2).
Proof. exact pad_ok. Qed.
Print Assumptions c14_padding.

(** If the hop is at most [w//2+1] every sample [x_i] occurs in some frame [r]
    at some column [j], the position [(w+1)//2+i] of the padded input. *)
Theorem c14_all_samples_analysed : forall w h x, 1 <= w -> 1 <= h <= w / 2 + 1 ->
  exists rows, time_frames true w h x = Ok rows /\
    forall i, 0 <= i < zlen x ->
      exists r j row, 0 <= r < zlen rows /\ 0 <= j < w /\
        r * h + j = (w + 1) / 2 + i /\
        nth_error rows (Z.to_nat r) = Some row /\
        nth_error row (Z.to_nat j) = Some (nth_error x (Z.to_nat i)).
Proof. exact frames_cover. Qed.
Print Assumptions c14_all_samples_analysed.

(** The bound on the hop is sharp: for every larger hop (hops up to [w] are
    usual) some signal has a sample that is in no frame, although
    [pad_input] says it pads "to analyze all samples". *)
Theorem c14_large_hop_loses_samples : forall w h, 1 <= w -> w / 2 + 1 < h ->
  exists x rows i, time_frames true w h x = Ok rows /\ 0 <= i < zlen x /\
    forall r j, 0 <= r < zlen rows -> 0 <= j < w -> r * h + j <> (w + 1) / 2 + i.
Proof. exact frames_miss. Qed.
Print Assumptions c14_large_hop_loses_samples.

(** The centre (column [w//2]) of frame [r] is the sample [r*h - w mod 2]: for
    windows of odd size, such as the default one, frames are centred one
    sample before [r*h]. *)
Theorem c14_frame_centre : forall w h x rows, 1 <= w -> 1 <= h ->
  time_frames true w h x = Ok rows ->
  forall r row, 0 <= r -> nth_error rows (Z.to_nat r) = Some row ->
    forall i, 0 <= i < zlen x -> i = r * h - w mod 2 ->
      nth_error row (Z.to_nat (w / 2)) = Some (nth_error x (Z.to_nat i)).
Proof. exact frame_centre. Qed.
Print Assumptions c14_frame_centre.

(** "the first window is centered at the first sample" is false for odd
    sizes: the centre of the first frame is padding. *)
Theorem c14_first_frame_centred_refuted : exists w h x row rows,
  time_frames true w h x = Ok (row :: rows) /\
  nth_error row (Z.to_nat (w / 2)) = Some (Some 0%Q) /\
  nth_error x 0 = Some 7%Q.
Proof. exists 3, 1, [7%Q; 8%Q]. eexists _, _. vm_compute. auto. Qed.
Print Assumptions c14_first_frame_centred_refuted.

Example c14_example :
  time_frames true 4 3 [1; 2; 3; 4; 5]%Q =
  Ok [[Some 0; Some 0; Some 1; Some 2]; [Some 2; Some 3; Some 4; Some 5]]%Q.
Proof. reflexivity. Qed.

(** *** C15, buffer part (the spectrum is in [Dft_Props]) *)

(** Position [p] of the buffer holds windowed sample [(p + w//2) mod n], or
    zero if there is no such sample. *)
Theorem c15_buffer_is_rotation : forall A (zero : A) xw n,
  2 <= zlen xw -> zlen xw <= n ->
  exists buf, dft_buffer zero xw n = Ok buf /\ zlen buf = n /\
    forall p, 0 <= p < n ->
      nth (Z.to_nat p) buf zero =
      nth (Z.to_nat ((p + zlen xw / 2) mod n)) xw zero.
Proof. exact buffer_spec. Qed.
Print Assumptions c15_buffer_is_rotation.

(** A window of one sample is not supported. *)
Theorem c15_one_sample_window_raises : forall A (zero v : A) n, 1 <= n ->
  dft_buffer zero [v] n = Err ValueError.
Proof. exact buffer_one. Qed.
Print Assumptions c15_one_sample_window_raises.

(** A window longer than the FFT is accepted but samples are lost. *)
Theorem c15_long_window_refuted : exists (xw buf : list Z) n v,
  dft_buffer 0 xw n = Ok buf /\ n < zlen xw /\ In v xw /\ v <> 0 /\ ~ In v buf.
Proof.
  exists [1; 2; 3; 4; 5], [3; 4; 1; 2], 4, 5.
  split; [reflexivity|]. split; [reflexivity|].
  split; [simpl; auto 10|]. split; [lia|]. simpl. lia.
Qed.
Print Assumptions c15_long_window_refuted.

Example c15_example : dft_buffer 0 [1; 2; 3; 4; 5] 8 = Ok [3; 4; 5; 0; 0; 0; 1; 2].
Proof. reflexivity. Qed.

(** *** C16 *)

(** Exactly the strict interior maxima above the threshold. *)
Theorem c16_peaks_exact : forall x t i,
  In i (peak_detect x t) <->
  1 <= i /\ i + 1 < zlen x /\
  (at_ x (i - 1) < at_ x i)%Q /\ (at_ x (i + 1) < at_ x i)%Q /\
  match t with None => True | Some t => (t < at_ x i)%Q end.
Proof. exact peak_iff. Qed.
Print Assumptions c16_peaks_exact.

(** In increasing order, so without repetition. *)
Theorem c16_increasing : forall x t, StronglySorted Z.lt (peak_detect x t).
Proof. exact peak_sorted. Qed.
Print Assumptions c16_increasing.

(** No two returned indices are adjacent. *)
Theorem c16_not_adjacent : forall x t i j,
  In i (peak_detect x t) -> In j (peak_detect x t) -> i < j -> i + 2 <= j.
Proof. exact peak_gap. Qed.
Print Assumptions c16_not_adjacent.

Example c16_example :
  peak_detect [1; 3; 2; 5; 5; 2; 8; 0; 9]%Q None = [1; 6] /\
  peak_detect [1; 3; 2; 5; 5; 2; 8; 0; 9]%Q (Some 3%Q) = [6].
Proof. split; reflexivity. Qed.

(** *** C17 *)

(** For a detected peak [i]: the refined location is less than half a bin
    away, the denominator is not zero, the refined magnitude is at least the
    sampled one, is the value at the refined location of the parabola through
    the three samples and its maximum, and the phase is interpolated linearly
    between the two bins around the refined location. *)
Theorem c17_vertex : forall mx px t i, zlen px = zlen mx ->
  In i (peak_detect mx t) ->
  exists f m p, refine1 mx px i = Ok (f, m, p) /\
    (inject_Z i - (1 # 2) < f < inject_Z i + (1 # 2))%Q /\
    ~ (at_ mx (i - 1) - 2 * at_ mx i + at_ mx (i + 1) == 0)%Q /\
    (at_ mx i <= m)%Q /\
    (forall a b, a - b + at_ mx i == at_ mx (i - 1) ->
                 a + b + at_ mx i == at_ mx (i + 1) ->
       let P z := at_ mx i + b * (z - inject_Z i)
                  + a * ((z - inject_Z i) * (z - inject_Z i)) in
       P f == m /\ forall z, P z <= m)%Q /\
    exists j s, (j = i - 1 \/ j = i) /\
      (0 <= s <= 1 /\ s == f - inject_Z j /\
       p == (1 - s) * at_ px j + s * at_ px (j + 1))%Q.
Proof. exact refined_peak. Qed.
Print Assumptions c17_vertex.

(** All detected peaks are refined, never with an error, and the refined
    locations are strictly increasing. *)
Theorem c17_all_refined_increasing : forall mx px t, zlen px = zlen mx ->
  exists ps, peak_detect_interp mx px t = Ok ps /\
    Forall2 (fun i q => refine1 mx px i = Ok q) (peak_detect mx t) ps /\
    StronglySorted Qlt (map (fun q => fst (fst q)) ps).
Proof. exact detect_interp_ok. Qed.
Print Assumptions c17_all_refined_increasing.

(** The frequencies handed to the tracker lie strictly between zero and half
    the sampling rate, for a spectrum of [n//2+1] bins. *)
Theorem c17_below_nyquist : forall mx px t fs n f m p, zlen px = zlen mx ->
  2 <= n -> zlen mx = n / 2 + 1 -> (0 < fs)%Q ->
  (exists ps, peak_detect_interp mx px t = Ok ps /\ In (f, m, p) ps) ->
  (0 < bin_to_hz fs n f < fs / 2)%Q.
Proof. exact freq_in_band. Qed.
Print Assumptions c17_below_nyquist.

Example c17_example : exists ps,
  peak_detect_interp [0; 4; 3; 1; 2]%Q [1; 2; 3; 4; 5]%Q None = Ok ps /\
  Forall2 (fun q r => fst (fst q) == fst (fst r) /\ snd (fst q) == snd (fst r)
                      /\ snd q == snd r)%Q
    ps [(1 + (3 # 10), 4 + (9 # 40), 2 + (3 # 10))%Q].
Proof. eexists. split; [vm_compute; reflexivity|]. repeat constructor. Qed.
