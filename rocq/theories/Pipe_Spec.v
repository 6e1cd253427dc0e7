(** Vocabulary for the properties of the whole analysis: frames, spectra and
    their peaks as defined in textbooks, sounds that decay. *)
From Coq Require Import List ZArith Reals.
Import ListNotations.
From Verif Require Import Base Py RLists.
Local Open Scope R_scope.

(** Frame [i] of a signal: [w] samples from sample [i * h] on. *)
Definition frame_of (w h i : nat) (x : list R) : list R := map (fun j => nth (i * h + j) x 0) (seq 0 w).
(** Number of complete frames. *)
Definition frame_count (w h : nat) (x : list R) : nat :=
  if (List.length x <? w)%nat then 0 else S ((List.length x - w) / h).

(** Bin [k] of the discrete Fourier transform with [n] bins of the frame [x],
    weighted with the window [w] (divided by its sum), with time zero in the middle
    of the window: real and imaginary part, magnitude and level in dB. *)
Definition bin_re (w x : list R) (n k : Z) : R :=
  rsum (map (fun i => nth i x 0 * (nth i w 0 / rsum w) *
                      cos (2 * PI * IZR k * IZR (Z.of_nat i - zlen w / 2) / IZR n)) (seq 0 (List.length w))).
Definition bin_im (w x : list R) (n k : Z) : R :=
  - rsum (map (fun i => nth i x 0 * (nth i w 0 / rsum w) *
                        sin (2 * PI * IZR k * IZR (Z.of_nat i - zlen w / 2) / IZR n)) (seq 0 (List.length w))).
Definition magnitude (w x : list R) (n k : Z) : R := sqrt (bin_re w x n k ^ 2 + bin_im w x n k ^ 2).
Definition level (w x : list R) (n k : Z) : R := 20 * (ln (magnitude w x n k) / ln 10).

(** A bin that is louder than its neighbours, among bins [0] to [n / 2]. *)
Definition local_peak (lev : Z -> R) (n k : Z) : Prop :=
  (1 <= k)%Z /\ (k + 1 <= n / 2)%Z /\ lev (k - 1)%Z < lev k /\ lev (k + 1)%Z < lev k.
(** The vertex of the parabola through the levels at [k - 1], [k] and [k + 1]. *)
Definition vertex (lev : Z -> R) (k : Z) (loc m : R) : Prop :=
  exists a, a < 0 /\ forall j, (k - 1 <= j <= k + 1)%Z -> lev j = a * (IZR j - loc) ^ 2 + m.

(** From one hop to the next every sample is multiplied by the same factor. *)
Definition scaled_by_hop (h : nat) (c : R) (x : list R) : Prop :=
  forall i, (i + h < List.length x)%nat -> nth (i + h) x 0 = c * nth i x 0.
