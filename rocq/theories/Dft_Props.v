(** Properties of the zero-phase spectrum (C15). *)
From Coq Require Import List ZArith Reals Lra.
Import ListNotations.
From Verif Require Import Base Py Stft_Model RLists Dft_Model Dft_Proofs.
Local Open Scope R_scope.

(** Bin [k] is the discrete Fourier transform of the windowed frame [xw] with
    the time origin at its sample [w.size//2]:
    sum of [xw_i * exp(-2*pi*i*k*(i - w.size//2)/n)]. *)
Theorem c15_spectrum_centred : forall xw n k, (2 <= zlen xw)%Z -> (zlen xw <= n)%Z ->
  exists buf, dft_buffer 0 xw n = Ok buf /\
    rfft_re buf k =
      rsum (map (fun i => nth i xw 0 *
        cos (2 * PI * IZR k * IZR (Z.of_nat i - zlen xw / 2) / IZR n))
        (seq 0 (List.length xw))) /\
    rfft_im buf k =
      - rsum (map (fun i => nth i xw 0 *
        sin (2 * PI * IZR k * IZR (Z.of_nat i - zlen xw / 2) / IZR n))
        (seq 0 (List.length xw))).
Proof. exact centred_bins. Qed.
Print Assumptions c15_spectrum_centred.

(** A frame of odd size that is symmetric about its centre has a real spectrum
    (zero phase). *)
Theorem c15_zero_phase : forall xw n k buf, (2 <= zlen xw)%Z -> (zlen xw <= n)%Z ->
  Z.odd (zlen xw) = true -> rev xw = xw ->
  dft_buffer 0 xw n = Ok buf -> rfft_im buf k = 0.
Proof. exact zero_phase. Qed.
Print Assumptions c15_zero_phase.

(** The normalised window sums to one. *)
Theorem c15_window_sums_to_one : forall w, rsum w <> 0 ->
  rsum (normalized_window w) = 1.
Proof. exact window_normalised. Qed.
Print Assumptions c15_window_sums_to_one.

(** A constant frame has its own value in bin 0, whatever the window. *)
Theorem c15_constant_level : forall w n c,
  (2 <= zlen w)%Z -> (zlen w <= n)%Z -> rsum w <> 0 ->
  exists buf,
    dft_buffer 0 (windowed (repeat c (List.length w)) (normalized_window w)) n = Ok buf /\
    rfft_re buf 0 = c /\ rfft_im buf 0 = 0.
Proof. exact dc_level. Qed.
Print Assumptions c15_constant_level.

(** Magnitudes are never below 20*log10(2^-52) dB, in particular the spectrum
    of silence is finite. *)
Theorem c15_magnitude_floor : forall re im,
  20 * (ln (/ (2 ^ 52)) / ln 10) <= bin_db re im.
Proof. exact bin_db_floor. Qed.
Print Assumptions c15_magnitude_floor.

(** The hypotheses are met, e.g. by a triangular frame of three samples. *)
Example c15_dft_example :
  exists buf, dft_buffer 0 [1; 2; 1] 4 = Ok buf /\ buf = [2; 1; 0; 1] /\
    rfft_im buf 1 = 0 /\ rsum [1; 2; 1] <> 0.
Proof.
  exists [2; 1; 0; 1]. split; [reflexivity|]. split; [reflexivity|].
  split; [|simpl; lra].
  apply (c15_zero_phase [1; 2; 1] 4); try reflexivity; discriminate.
Qed.
