(** Sums of sinusoids at the frequencies of bins: their spectra and tracks.
    The functions of the analysis are those of [Pipe_Model.v]. *)
From Coquelicot Require Import Coquelicot.
From Coq Require Import String List Bool ZArith Reals Lra Lia Permutation Sorted.
Import ListNotations.
From Verif Require Import Base Py PyLemmas ListLemmas RLists Stft_Model Stft_Proofs Dft_Model Dft_Proofs Tracker_Model Tracker_Step
  Tracker_Proofs Dsp_Model Sample_Model Sample_Spec Sample_Proofs Bank_Model Beat_Model Pipe_Model Pipe_Spec Pipe_Proofs
  Corr_Proofs.
Local Open Scope R_scope.

(** ** Vocabulary *)

(** A sinusoid that makes [tn_bin] turns in [n] samples: amplitude, phase at the
    first sample. *)
Record tone : Type := mkTone { tn_bin : Z; tn_amp : R; tn_phase : R }.
Definition tone_at (n : Z) (q : tone) (t : R) : R :=
  tn_amp q * cos (2 * PI * IZR (tn_bin q) * t / IZR n + tn_phase q).
(** [len] samples of a sum of sinusoids. *)
Definition sound (n : Z) (qs : list tone) (len : nat) : list R :=
  map (fun t => rsum (map (fun q => tone_at n q (INR t)) qs)) (seq 0 len).

(** The spectrum of a window, relative to its value at 0: magnitude at bin [m] of
    the window applied to a constant 1. *)
Definition ones (w : list R) : list R := repeat 1 (List.length w).
Definition lobe (w : list R) (m : Z) : R := magnitude w (ones w) (zlen w) m.
(** A window whose spectrum is zero beyond [b] bins and decreases up to there. *)
Definition tapers (b : Z) (w : list R) : Prop :=
  (0 <= b)%Z /\ rsum w <> 0 /\
  (forall m, (b < m < zlen w - b)%Z -> lobe w m = 0) /\
  (forall m, (0 <= m < b)%Z -> lobe w (m + 1) <= lobe w m) /\ lobe w 1 < 1.
(** Sinusoids in ascending order, so far apart that the spectra of the window
    around them do not overlap, and as far from 0 and half of the sample rate. *)
Definition apart (b n : Z) (qs : list tone) : Prop :=
  StronglySorted (fun p q => (tn_bin p + Z.max 1 (2 * b) < tn_bin q)%Z) qs /\
  forall q, In q qs -> (1 <= tn_bin q)%Z /\ (b < tn_bin q)%Z /\ (tn_bin q + 1 <= n / 2)%Z /\ (2 * (tn_bin q + b) < n)%Z /\
    0 < tn_amp q.

(** ** Sums *)

Lemma nth_ones : forall w i, (i < List.length w)%nat -> nth i (ones w) 0 = 1.
Proof.
  intros w i. unfold ones. revert i. induction (List.length w) as [|l IH]; intros [|i] H; cbn; try lia; auto. apply IH. lia.
Qed.

Definition wc (w : list R) (m : Z) : R :=
  sumn (List.length w) (fun i => nth i w 0 / rsum w * cos (2 * PI * IZR m * IZR (Z.of_nat i - zlen w / 2) / IZR (zlen w))).
Definition ws (w : list R) (m : Z) : R :=
  sumn (List.length w) (fun i => nth i w 0 / rsum w * sin (2 * PI * IZR m * IZR (Z.of_nat i - zlen w / 2) / IZR (zlen w))).

Lemma lobe_eq : forall w m, lobe w m = sqrt (wc w m ^ 2 + ws w m ^ 2).
Proof.
  intros w m. unfold lobe, magnitude. f_equal. f_equal.
  - f_equal. unfold bin_re, wc. apply sumn_ext. intros i Hi. rewrite nth_ones by exact Hi. ring.
  - replace (ws w m ^ 2) with ((- ws w m) ^ 2) by ring. f_equal. unfold bin_im, ws. f_equal. apply sumn_ext.
    intros i Hi. rewrite nth_ones by exact Hi. ring.
Qed.
Lemma wc_opp : forall w m, wc w (- m) = wc w m.
Proof.
  intros. unfold wc. apply sumn_ext. intros i _. f_equal. rewrite opp_IZR.
  replace (2 * PI * - IZR m * IZR (Z.of_nat i - zlen w / 2) / IZR (zlen w))
    with (- (2 * PI * IZR m * IZR (Z.of_nat i - zlen w / 2) / IZR (zlen w))) by (unfold Rdiv; ring). apply cos_neg.
Qed.
Lemma ws_opp : forall w m, ws w (- m) = - ws w m.
Proof.
  intros. unfold ws. replace (- sumn _ _) with ((-1) * sumn (List.length w) (fun i => nth i w 0 / rsum w * sin (2 * PI * IZR m * IZR (Z.of_nat i - zlen w / 2) / IZR (zlen w)))) by ring.
  rewrite <- sumn_scale. apply sumn_ext. intros i _. rewrite opp_IZR.
  replace (2 * PI * - IZR m * IZR (Z.of_nat i - zlen w / 2) / IZR (zlen w))
    with (- (2 * PI * IZR m * IZR (Z.of_nat i - zlen w / 2) / IZR (zlen w))) by (unfold Rdiv; ring). rewrite sin_neg. ring.
Qed.
Lemma lobe_opp : forall w m, lobe w (- m) = lobe w m.
Proof. intros. rewrite !lobe_eq, wc_opp, ws_opp. f_equal. ring. Qed.
Lemma lobe_nonneg : forall w m, 0 <= lobe w m.
Proof. intros. rewrite lobe_eq. apply sqrt_pos. Qed.
Lemma lobe_zero : forall w m, lobe w m = 0 -> wc w m = 0 /\ ws w m = 0.
Proof.
  intros w m H. rewrite lobe_eq in H. apply sqrt_eq_0 in H; [|nra]. split; nra.
Qed.
Lemma centre_values : forall w, rsum w <> 0 -> wc w 0 = 1 /\ ws w 0 = 0.
Proof.
  intros w H. unfold wc, ws. split.
  - rewrite (sumn_ext _ _ (fun i => / rsum w * nth i w 0)).
    + rewrite sumn_scale, <- rsum_sumn. field. exact H.
    + intros i _. replace (2 * PI * 0 * IZR (Z.of_nat i - zlen w / 2) / IZR (zlen w)) with 0 by (unfold Rdiv; ring).
      rewrite cos_0. unfold Rdiv. ring.
  - apply sumn_zero. intros i _. replace (2 * PI * 0 * IZR (Z.of_nat i - zlen w / 2) / IZR (zlen w)) with 0 by (unfold Rdiv; ring).
    rewrite sin_0. ring.
Qed.
Lemma lobe_0 : forall w, rsum w <> 0 -> lobe w 0 = 1.
Proof.
  intros w H. rewrite lobe_eq. destruct (centre_values w H) as [-> ->]. replace (1 ^ 2 + 0 ^ 2) with 1 by ring. apply sqrt_1.
Qed.

(** ** The spectrum of one frame *)

(** Phase of a sinusoid at the sample in the middle of the window that starts at
    sample [s]. *)
Definition mid_phase (n : Z) (s : nat) (q : tone) : R :=
  2 * PI * IZR (tn_bin q) * IZR (Z.of_nat s + n / 2) / IZR n + tn_phase q.

Definition part_re (w : list R) (psi : tone -> R) (k : Z) (q : tone) : R :=
  tn_amp q / 2 * (cos (psi q) * (wc w (tn_bin q - k) + wc w (tn_bin q + k)) -
                  sin (psi q) * (ws w (tn_bin q - k) + ws w (tn_bin q + k))).
Definition part_im (w : list R) (psi : tone -> R) (k : Z) (q : tone) : R :=
  tn_amp q / 2 * (cos (psi q) * (ws w (tn_bin q - k) - ws w (tn_bin q + k)) +
                  sin (psi q) * (wc w (tn_bin q - k) - wc w (tn_bin q + k))).

Lemma one_tone : forall w psi k q, 
  let N := zlen w in let u i := IZR (Z.of_nat i - zlen w / 2) in
  sumn (List.length w) (fun i => tn_amp q * cos (2 * PI * IZR (tn_bin q) * u i / IZR N + psi q) * (nth i w 0 / rsum w) *
      cos (2 * PI * IZR k * u i / IZR N)) = part_re w psi k q /\
  - sumn (List.length w) (fun i => tn_amp q * cos (2 * PI * IZR (tn_bin q) * u i / IZR N + psi q) * (nth i w 0 / rsum w) *
      sin (2 * PI * IZR k * u i / IZR N)) = part_im w psi k q.
Proof.
  intros w psi k q N u.
  assert (AD : forall i, 2 * PI * IZR (tn_bin q - k) * u i / IZR N = 2 * PI * IZR (tn_bin q) * u i / IZR N - 2 * PI * IZR k * u i / IZR N).
  { intros. rewrite minus_IZR. unfold Rdiv. ring. }
  assert (AS : forall i, 2 * PI * IZR (tn_bin q + k) * u i / IZR N = 2 * PI * IZR (tn_bin q) * u i / IZR N + 2 * PI * IZR k * u i / IZR N).
  { intros. rewrite plus_IZR. unfold Rdiv. ring. }
  unfold part_re, part_im, wc, ws.
  rewrite <- !sumn_plus, <- !sumn_minus, <- !sumn_scale, <- sumn_minus, <- sumn_plus, <- !sumn_scale.
  split.
  - apply sumn_ext. intros i _. fold N. change (IZR (Z.of_nat i - N / 2)) with (u i). rewrite (AD i), (AS i).
    generalize (2 * PI * IZR (tn_bin q) * u i / IZR N) (2 * PI * IZR k * u i / IZR N) (nth i w 0 / rsum w). intros a b v.
    rewrite !cos_plus, !cos_minus, !sin_plus, !sin_minus. field.
  - match goal with |- - sumn ?l ?f = _ => replace (- sumn l f) with ((-1) * sumn l f) by ring end.
    rewrite <- sumn_scale. apply sumn_ext. intros i _. fold N. change (IZR (Z.of_nat i - N / 2)) with (u i). rewrite (AD i), (AS i).
    generalize (2 * PI * IZR (tn_bin q) * u i / IZR N) (2 * PI * IZR k * u i / IZR N) (nth i w 0 / rsum w). intros a b v.
    rewrite !cos_plus, !cos_minus, !sin_plus, !sin_minus. field.
Qed.

Lemma frame_parts : forall w x psi k qs,
  (forall i, (i < List.length w)%nat -> nth i x 0 =
     rsum (map (fun q => tn_amp q * cos (2 * PI * IZR (tn_bin q) * IZR (Z.of_nat i - zlen w / 2) / IZR (zlen w) + psi q)) qs)) ->
  bin_re w x (zlen w) k = rsum (map (part_re w psi k) qs) /\ bin_im w x (zlen w) k = rsum (map (part_im w psi k) qs).
Proof.
  intros w x psi k qs H.
  change (bin_re w x (zlen w) k) with (sumn (List.length w) (fun i => nth i x 0 * (nth i w 0 / rsum w) *
     cos (2 * PI * IZR k * IZR (Z.of_nat i - zlen w / 2) / IZR (zlen w)))).
  change (bin_im w x (zlen w) k) with (- sumn (List.length w) (fun i => nth i x 0 * (nth i w 0 / rsum w) *
     sin (2 * PI * IZR k * IZR (Z.of_nat i - zlen w / 2) / IZR (zlen w)))).
  revert H. generalize (fun i => nth i x 0). intros X H. cbv beta in H. 
  assert (G : forall X, (forall i, (i < List.length w)%nat -> X i =
     rsum (map (fun q => tn_amp q * cos (2 * PI * IZR (tn_bin q) * IZR (Z.of_nat i - zlen w / 2) / IZR (zlen w) + psi q)) qs)) ->
     sumn (List.length w) (fun i => X i * (nth i w 0 / rsum w) *
     cos (2 * PI * IZR k * IZR (Z.of_nat i - zlen w / 2) / IZR (zlen w))) = rsum (map (part_re w psi k) qs) /\
     - sumn (List.length w) (fun i => X i * (nth i w 0 / rsum w) *
     sin (2 * PI * IZR k * IZR (Z.of_nat i - zlen w / 2) / IZR (zlen w))) = rsum (map (part_im w psi k) qs)).
  { clear X H. induction qs as [|q qs IH]; intros X H; cbn [map] in *.
    - change (rsum []) with 0 in *. rewrite !sumn_zero; [split; ring| |]; intros i Hi; rewrite (H i Hi); ring.
    - set (Y := fun i => rsum (map (fun q => tn_amp q * cos (2 * PI * IZR (tn_bin q) * IZR (Z.of_nat i - zlen w / 2) / IZR (zlen w) + psi q)) qs)) in *.
      destruct (IH Y (fun i _ => eq_refl)) as [ER EI]. destruct (one_tone w psi k q) as [OR OI].
      change (rsum (part_re w psi k q :: map (part_re w psi k) qs)) with (part_re w psi k q + rsum (map (part_re w psi k) qs)).
      change (rsum (part_im w psi k q :: map (part_im w psi k) qs)) with (part_im w psi k q + rsum (map (part_im w psi k) qs)).
      rewrite <- ER, <- EI, <- OR, <- OI, <- Ropp_plus_distr, <- !sumn_plus.
      split; [|f_equal]; apply sumn_ext; intros i Hi; rewrite (H i Hi);
        change (rsum (?a :: map ?f qs)) with (a + rsum (map f qs)); fold (Y i); ring. }
  apply G. exact H.
Qed.

(** Magnitude of the bins of a frame. *)
Definition near (b k : Z) (q : tone) : Prop := (Z.abs (tn_bin q - k) <= b)%Z.

Lemma part_far : forall b w psi k n q, tapers b w -> n = zlen w -> (1 <= tn_bin q)%Z -> (b < tn_bin q)%Z -> (2 * (tn_bin q + b) < n)%Z ->
  (0 <= k <= n / 2)%Z -> ~ near b k q -> part_re w psi k q = 0 /\ part_im w psi k q = 0.
Proof.
  intros b w psi k n q (B0 & _ & HZ & _) -> H1 Hb Hn Hk HN. unfold near in HN.
  assert (N2 : (2 * (zlen w / 2) <= zlen w)%Z) by (apply Z.mul_div_le; lia).
  destruct (lobe_zero w (tn_bin q + k)) as [A1 A2]; [apply HZ; lia|].
  assert (D : wc w (tn_bin q - k) = 0 /\ ws w (tn_bin q - k) = 0).
  { destruct (Z_lt_le_dec 0 (tn_bin q - k)).
    - apply lobe_zero. apply HZ. lia.
    - apply lobe_zero. rewrite <- lobe_opp. apply HZ. lia. }
  destruct D as [D1 D2]. unfold part_re, part_im. rewrite A1, A2, D1, D2. split; ring.
Qed.
Lemma part_near : forall b w psi k n q, tapers b w -> n = zlen w -> (1 <= tn_bin q)%Z -> (b < tn_bin q)%Z -> (2 * (tn_bin q + b) < n)%Z ->
  (0 <= k <= n / 2)%Z -> 
  part_re w psi k q = tn_amp q / 2 * (cos (psi q) * wc w (tn_bin q - k) - sin (psi q) * ws w (tn_bin q - k)) /\
  part_im w psi k q = tn_amp q / 2 * (cos (psi q) * ws w (tn_bin q - k) + sin (psi q) * wc w (tn_bin q - k)).
Proof.
  intros b w psi k n q (B0 & _ & HZ & _) -> H1 Hb Hn Hk.
  assert (N2 : (2 * (zlen w / 2) <= zlen w)%Z) by (apply Z.mul_div_le; lia).
  destruct (lobe_zero w (tn_bin q + k)) as [A1 A2]; [apply HZ; lia|].
  unfold part_re, part_im. rewrite A1, A2. split; ring.
Qed.

Lemma rsum_zero : forall (A : Type) (f : A -> R) l, (forall a, In a l -> f a = 0) -> rsum (map f l) = 0.
Proof.
  intros A f l H. induction l as [|a l IH]; [reflexivity|]. cbn [map]. change (rsum (?x :: ?y)) with (x + rsum y).
  rewrite (H a (or_introl eq_refl)), IH by (intros b Hb; apply H; now right). ring.
Qed.
Lemma rsum_one : forall (f : tone -> R) b qs q, StronglySorted (fun p q => (tn_bin p + Z.max 1 (2 * b) < tn_bin q)%Z) qs -> (0 <= b)%Z ->
  In q qs -> (forall p, In p qs -> tn_bin p <> tn_bin q -> f p = 0) -> rsum (map f qs) = f q.
Proof.
  intros f b qs q SQ B0. induction SQ as [|a l SQ IH FA]; intros I H; [destruct I|].
  rewrite Forall_forall in FA. cbn [map]. change (rsum (?x :: ?y)) with (x + rsum y). destruct I as [->|I].
  - rewrite rsum_zero; [ring|]. intros p Hp. apply H; [now right|]. specialize (FA p Hp). lia.
  - rewrite (H a (or_introl eq_refl)); [|specialize (FA q I); lia]. rewrite IH; auto; [ring|]. intros p Hp. apply H. now right.
Qed.

Lemma apart_bins : forall b n qs p q, apart b n qs -> (0 <= b)%Z -> In p qs -> In q qs -> tn_bin p <> tn_bin q ->
  (Z.max 1 (2 * b) < Z.abs (tn_bin p - tn_bin q))%Z.
Proof.
  intros b n qs p q [SQ _] B0. induction SQ as [|a l SQ IH FA]; intros Ip Iq NE; [destruct Ip|].
  rewrite Forall_forall in FA. destruct Ip as [->|Ip], Iq as [->|Iq].
  - congruence.
  - specialize (FA q Iq). lia.
  - specialize (FA p Ip). lia.
  - auto.
Qed.

(** A frame with one sinusoid near the bin. *)
Definition tone_frame (w x : list R) (psi : tone -> R) (qs : list tone) : Prop :=
  forall i, (i < List.length w)%nat -> nth i x 0 =
     rsum (map (fun q => tn_amp q * cos (2 * PI * IZR (tn_bin q) * IZR (Z.of_nat i - zlen w / 2) / IZR (zlen w) + psi q)) qs).

Lemma bin_near : forall b w x psi k qs q, tapers b w -> apart b (zlen w) qs -> tone_frame w x psi qs -> (0 <= k <= zlen w / 2)%Z ->
  In q qs -> near b k q ->
  bin_re w x (zlen w) k = tn_amp q / 2 * (cos (psi q) * wc w (tn_bin q - k) - sin (psi q) * ws w (tn_bin q - k)) /\
  bin_im w x (zlen w) k = tn_amp q / 2 * (cos (psi q) * ws w (tn_bin q - k) + sin (psi q) * wc w (tn_bin q - k)).
Proof.
  intros b w x psi k qs q T A F Hk I HN. destruct (frame_parts w x psi k qs F) as [ER EI]. rewrite ER, EI.
  assert (B0 : (0 <= b)%Z) by apply T.
  destruct (proj2 A q I) as (H1 & H2 & _ & H3 & _).
  destruct (part_near b w psi k (zlen w) q T eq_refl H1 H2 H3 Hk) as [<- <-].
  assert (Z : forall p, In p qs -> tn_bin p <> tn_bin q -> part_re w psi k p = 0 /\ part_im w psi k p = 0).
  { intros p Ip NE. destruct (proj2 A p Ip) as (G1 & G2 & _ & G3 & _). apply (part_far b w psi k (zlen w) p); auto.
    pose proof (apart_bins b (zlen w) qs p q A B0 Ip I NE). unfold near in *. lia. }
  split; apply (rsum_one _ b); auto; try apply A; intros p Ip NE; now destruct (Z p Ip NE).
Qed.
Lemma mag_near : forall b w x psi k qs q, tapers b w -> apart b (zlen w) qs -> tone_frame w x psi qs -> (0 <= k <= zlen w / 2)%Z ->
  In q qs -> near b k q -> magnitude w x (zlen w) k = tn_amp q / 2 * lobe w (tn_bin q - k).
Proof.
  intros b w x psi k qs q T A F Hk I HN. unfold magnitude. destruct (bin_near b w x psi k qs q T A F Hk I HN) as [-> ->].
  destruct (proj2 A q I) as (_ & _ & _ & _ & HA). rewrite lobe_eq.
  set (c := wc w (tn_bin q - k)). set (s := ws w (tn_bin q - k)). pose proof (sin2_cos2 (psi q)) as SC. unfold Rsqr in SC.
  replace (_ + _) with ((tn_amp q / 2) ^ 2 * (c ^ 2 + s ^ 2)).
  - rewrite sqrt_mult_alt by nra. f_equal. rewrite <- Rsqr_pow2. apply sqrt_Rsqr. lra.
  - transitivity ((tn_amp q / 2) ^ 2 * ((sin (psi q) * sin (psi q) + cos (psi q) * cos (psi q)) * (c ^ 2 + s ^ 2))); [rewrite SC; ring|ring].
Qed.
Lemma mag_far : forall b w x psi k qs, tapers b w -> apart b (zlen w) qs -> tone_frame w x psi qs -> (0 <= k <= zlen w / 2)%Z ->
  (forall q, In q qs -> ~ near b k q) -> magnitude w x (zlen w) k = 0.
Proof.
  intros b w x psi k qs T A F Hk HN. unfold magnitude. destruct (frame_parts w x psi k qs F) as [-> ->].
  rewrite !rsum_zero; [replace (0 ^ 2 + 0 ^ 2) with 0 by ring; apply sqrt_0| |];
    intros q I; destruct (proj2 A q I) as (H1 & H2 & _ & H3 & _);
    now destruct (part_far b w psi k (zlen w) q T eq_refl H1 H2 H3 Hk (HN q I)).
Qed.

(** ** Levels with the floor *)

Definition floor_level (w x : list R) (n k : Z) : R := a2db (Rmax (magnitude w x n k) float_eps).
Lemma dft_floor : forall w x n, (2 <= zlen w)%Z -> (zlen w <= n)%Z -> List.length x = List.length w ->
  dft_mag x (normalized_window w) n = Ok (map (floor_level w x n) (zrange (n / 2 + 1))).
Proof.
  intros w x n H2 Hn Lx. unfold dft_mag.
  assert (LW : List.length (windowed x (normalized_window w)) = List.length w).
  { unfold windowed. rewrite map_length, combine_length, normalized_length. lia. }
  assert (ZW : zlen (windowed x (normalized_window w)) = zlen w) by (unfold zlen; now rewrite LW).
  destruct (centred_bins (windowed x (normalized_window w)) n 0 ltac:(lia) ltac:(lia)) as (buf & E & _).
  rewrite E. cbn [bind]. f_equal. apply map_ext_in. intros k Hk.
  destruct (centred_bins (windowed x (normalized_window w)) n k ltac:(lia) ltac:(lia)) as (buf' & E' & ER & EI).
  rewrite E in E'. injection E' as <-. rewrite ER, EI, LW, ZW.
  assert (Q : forall g : R -> R, rsum (map (fun i => nth i (windowed x (normalized_window w)) 0 *
      g (2 * PI * IZR k * IZR (Z.of_nat i - zlen w / 2) / IZR n)) (seq 0 (List.length w))) =
    rsum (map (fun i => nth i x 0 * (nth i w 0 / rsum w) *
                        g (2 * PI * IZR k * IZR (Z.of_nat i - zlen w / 2) / IZR n)) (seq 0 (List.length w)))).
  { intros g. apply rsum_map_ext. intros i Hi. apply in_seq in Hi.
    rewrite windowed_nth by (rewrite ?normalized_length; lia). now rewrite normalized_nth by lia. }
  rewrite (Q cos), (Q sin). fold (bin_re w x n k) (bin_im w x n k).
  unfold bin_db, floor_level, a2db, log10. do 4 f_equal. unfold bin_abs, magnitude. f_equal. ring.
Qed.

Lemma a2db_lt : forall a b, 0 < a -> a < b -> a2db a < a2db b.
Proof.
  intros a b H L. unfold a2db, log10. pose proof ln10_pos. pose proof (ln_increasing a b H L).
  apply Rmult_lt_compat_l; [lra|]. unfold Rdiv. apply Rmult_lt_compat_r; [now apply Rinv_0_lt_compat|lra].
Qed.

(** ** Peaks *)

Section Frame.
Context (b : Z) (w x : list R) (psi : tone -> R) (qs : list tone).
Hypothesis T : tapers b w.
Hypothesis A : apart b (zlen w) qs.
Hypothesis FX : tone_frame w x psi qs.
Hypothesis L2 : (2 <= zlen w)%Z.
Hypothesis loud : forall q, In q qs -> float_eps < tn_amp q / 2.

Let lev := floor_level w x (zlen w).

Lemma lobe_le : forall d, (Z.abs d <= b)%Z -> forall e, (Z.abs d <= Z.abs e <= b)%Z -> lobe w e <= lobe w d.
Proof.
  destruct T as (B0 & S0 & _ & HD & _).
  assert (G : forall j d, (0 <= d)%Z -> (d + Z.of_nat j <= b)%Z -> lobe w (d + Z.of_nat j) <= lobe w d).
  { induction j as [|j IH]; intros d Hd Hj.
    - rewrite Z.add_0_r. lra.
    - specialize (IH d Hd ltac:(lia)). specialize (HD (d + Z.of_nat j)%Z ltac:(lia)).
      replace (d + Z.of_nat (S j))%Z with (d + Z.of_nat j + 1)%Z by lia. lra. }
  assert (AB : forall d, lobe w d = lobe w (Z.abs d)).
  { intros d. destruct (Z.abs_spec d) as [[_ ->]|[_ ->]]; [reflexivity|]. now rewrite lobe_opp. }
  intros d Hd e He. rewrite (AB e), (AB d).
  specialize (G (Z.to_nat (Z.abs e - Z.abs d)) (Z.abs d) ltac:(lia)). 
  replace (Z.abs d + Z.of_nat (Z.to_nat (Z.abs e - Z.abs d)))%Z with (Z.abs e) in G by lia. apply G. lia.
Qed.

(** Magnitude one bin away from a sinusoid. *)
Lemma mag_beside : forall q k, In q qs -> (Z.abs (tn_bin q - k) = 1)%Z -> magnitude w x (zlen w) k = tn_amp q / 2 * lobe w 1.
Proof.
  intros q k I E. assert (B0 : (0 <= b)%Z) by apply T. destruct (proj2 A q I) as (H1 & H2 & H3 & H4 & _).
  assert (N2 : (2 * (zlen w / 2) <= zlen w)%Z) by (apply Z.mul_div_le; lia).
  assert (LE : lobe w (tn_bin q - k) = lobe w 1).
  { assert (D : (tn_bin q - k = 1 \/ tn_bin q - k = - (1))%Z) by lia. destruct D as [->| ->]; [reflexivity|]. apply lobe_opp. }
  destruct (Z_le_gt_dec 1 b) as [B1|B1].
  - rewrite (mag_near b w x psi k qs q T A FX ltac:(lia) I); [now rewrite LE|unfold near; lia].
  - assert (L1 : lobe w 1 = 0) by (apply T; lia). rewrite L1, Rmult_0_r.
    apply (mag_far b w x psi k qs T A FX); [lia|]. intros p Ip Np. unfold near in Np.
    assert (NE : tn_bin p <> tn_bin q) by lia.
    pose proof (apart_bins b (zlen w) qs p q A B0 Ip I NE). lia.
Qed.
Lemma mag_at : forall q, In q qs -> magnitude w x (zlen w) (tn_bin q) = tn_amp q / 2.
Proof.
  intros q I. assert (B0 : (0 <= b)%Z) by apply T. destruct (proj2 A q I) as (H1 & H2 & H3 & H4 & _).
  rewrite (mag_near b w x psi (tn_bin q) qs q T A FX ltac:(lia) I).
  - rewrite Z.sub_diag, lobe_0 by apply T. ring.
  - unfold near. lia.
Qed.
Lemma lev_at : forall q, In q qs -> lev (tn_bin q) = a2db (tn_amp q / 2).
Proof. intros q I. unfold lev, floor_level. rewrite (mag_at q I). f_equal. apply Rmax_left. specialize (loud q I). lra. Qed.
Lemma lev_beside : forall q, In q qs -> lev (tn_bin q - 1)%Z < lev (tn_bin q) /\ lev (tn_bin q + 1)%Z = lev (tn_bin q - 1)%Z.
Proof.
  intros q I. rewrite (lev_at q I). unfold lev, floor_level.
  rewrite (mag_beside q (tn_bin q - 1) I) by lia. rewrite (mag_beside q (tn_bin q + 1) I) by lia. split; [|reflexivity].
  assert (HA : 0 < tn_amp q) by apply (proj2 A q I). assert (L1 : lobe w 1 < 1) by apply T.
  pose proof (loud q I). pose proof float_eps_pos. apply a2db_lt.
  - eapply Rlt_le_trans; [|apply Rmax_r]. lra.
  - apply Rmax_lub_lt; [|lra]. nra.
Qed.

(** The peaks are the sinusoids. *)
Lemma peaks_iff : forall k, local_peak lev (zlen w) k <-> exists q, In q qs /\ tn_bin q = k.
Proof.
  intros k. assert (B0 : (0 <= b)%Z) by apply T.
  assert (N2 : (2 * (zlen w / 2) <= zlen w)%Z) by (apply Z.mul_div_le; lia). split.
  - intros (K1 & K2 & HL & HR).
    destruct (Exists_dec (near b k) qs (fun p => Z_le_dec _ _)) as [EX|NX].
    + apply Exists_exists in EX. destruct EX as (q & I & N). exists q. split; [exact I|].
      destruct (Z.eq_dec (tn_bin q) k) as [|NE]; [assumption|exfalso]. unfold near in N.
      destruct (proj2 A q I) as (H1 & H2 & H3 & H4 & HA).
      (* the bin next to k towards q is at least as loud *)
      set (k' := if Z_lt_le_dec (tn_bin q) k then (k - 1)%Z else (k + 1)%Z).
      assert (ML : magnitude w x (zlen w) k <= magnitude w x (zlen w) k').
      { rewrite (mag_near b w x psi k qs q T A FX ltac:(lia) I N).
        rewrite (mag_near b w x psi k' qs q T A FX); [|unfold k'; destruct (Z_lt_le_dec (tn_bin q) k); lia|exact I|
          unfold near, k'; destruct (Z_lt_le_dec (tn_bin q) k); lia].
        apply Rmult_le_compat_l; [lra|]. apply lobe_le; unfold k'; destruct (Z_lt_le_dec (tn_bin q) k); lia. }
      assert (LL : lev k <= lev k').
      { unfold lev, floor_level. set (u := Rmax (magnitude w x (zlen w) k) float_eps).
        set (v := Rmax (magnitude w x (zlen w) k') float_eps).
        assert (UV : u <= v) by (unfold u, v; apply Rle_max_compat_r; exact ML).
        assert (U0 : 0 < u) by (unfold u; eapply Rlt_le_trans; [apply float_eps_pos|apply Rmax_r]).
        destruct (Rle_lt_or_eq_dec u v UV) as [LT|EQ]; [left; now apply a2db_lt|rewrite EQ; lra]. }
      unfold k' in LL. destruct (Z_lt_le_dec (tn_bin q) k); lra.
    + exfalso. unfold lev in HL. unfold floor_level at 2 in HL.
      rewrite (mag_far b w x psi k qs T A FX) in HL; [|lia|].
      2:{ intros q I N. apply NX. apply Exists_exists. eauto. }
      rewrite Rmax_right in HL by (pose proof float_eps_pos; lra). unfold floor_level in HL.
      set (u := Rmax (magnitude w x (zlen w) (k - 1)) float_eps) in HL.
      assert (U0 : float_eps <= u) by (unfold u; apply Rmax_r). pose proof float_eps_pos.
      destruct (Rle_lt_or_eq_dec _ _ U0) as [LT|EQ]; [|rewrite <- EQ in HL; lra].
      pose proof (a2db_lt _ _ H LT). lra.
  - intros (q & I & <-). destruct (lev_beside q I) as [HB HE]. destruct (proj2 A q I) as (H1 & H2 & H3 & H4 & HA).
    repeat split; [lia|lia|exact HB|rewrite HE; exact HB].
Qed.
Lemma vertex_at : forall q, In q qs -> vloc lev (tn_bin q) = IZR (tn_bin q) /\ vlev lev (tn_bin q) = a2db (tn_amp q / 2).
Proof.
  intros q I. destruct (lev_beside q I) as [_ HE]. unfold vloc, vlev. rewrite HE, (lev_at q I), Rminus_eq_0.
  split; unfold Rdiv; ring.
Qed.

Lemma bins_sorted : StronglySorted Z.lt (map tn_bin qs).
Proof.
  destruct A as [SQ _]. clear - SQ. induction SQ as [|a l SQ IH FA]; cbn [map]; constructor; auto.
  rewrite Forall_forall in FA |- *. intros k Hk. apply in_map_iff in Hk. destruct Hk as (q & <- & Iq). specialize (FA q Iq). lia.
Qed.

Lemma frame_peaks : forall fs t phase, List.length x = List.length w ->
  (forall q, In q qs -> above t (a2db (tn_amp q / 2))) ->
  exists mx, dft_mag x (normalized_window w) (zlen w) = Ok mx /\
  rpeaks fs (zlen w) t phase mx =
    Ok (map (fun q => mkRPeak (IZR (tn_bin q) * fs / IZR (zlen w)) (a2db (tn_amp q / 2)) (phase (IZR (tn_bin q)))) qs).
Proof.
  intros fs t phase Lx HT. exists (map lev (zrange (zlen w / 2 + 1))). split; [apply dft_floor; auto; lia|].
  rewrite rpeaks_ok by lia. f_equal.
  assert (E : rpeak_detect (map lev (zrange (zlen w / 2 + 1))) t = map tn_bin qs).
  { apply sorted_same; [apply detect_sorted|apply bins_sorted|]. intros k. rewrite detect_iff by lia. rewrite peaks_iff, in_map_iff.
    split.
    - intros [(q & I & E) _]. eauto.
    - intros (q & E & I). split; [eauto|]. subst k. rewrite (lev_at q I). now apply HT. }
  rewrite E, map_map. apply map_ext_in. intros q I. destruct (vertex_at q I) as [-> ->]. reflexivity.
Qed.
End Frame.

(** ** Frames of sounds *)

Lemma sound_nth : forall n qs len t, (t < len)%nat -> nth t (sound n qs len) 0 = rsum (map (fun q => tone_at n q (INR t)) qs).
Proof.
  intros n qs len t H. unfold sound. rewrite (nth_map_lt _ _ _ 0%nat) by (rewrite seq_length; exact H). now rewrite seq_nth by exact H.
Qed.
Lemma sound_length : forall n qs len, List.length (sound n qs len) = len.
Proof. intros. unfold sound. now rewrite map_length, seq_length. Qed.

Lemma sound_frame : forall w qs len h i, (1 <= List.length w)%nat -> (i * h + List.length w <= len)%nat ->
  tone_frame w (frame_of (List.length w) h i (sound (zlen w) qs len)) (mid_phase (zlen w) (i * h)) qs.
Proof.
  intros w qs len h i Hw Hi j Hj. rewrite frame_nth by exact Hj. rewrite sound_nth by lia. f_equal. apply map_ext. intros q.
  unfold tone_at, mid_phase. f_equal. f_equal. rewrite INR_IZR_INZ, Nat2Z.inj_add, !plus_IZR, minus_IZR. field.
  apply not_0_IZR. unfold zlen. lia.
Qed.

(** The reversed sound: same bins and amplitudes, other phases. *)
Definition back (n : Z) (len : nat) (q : tone) : tone :=
  mkTone (tn_bin q) (tn_amp q) (- (2 * PI * IZR (tn_bin q) * INR (len - 1) / IZR n) - tn_phase q).
Lemma sound_rev : forall n qs len, n <> 0%Z -> rev (sound n qs len) = sound n (map (back n len) qs) len.
Proof.
  intros n qs len Hn. apply nth_ext with (d := 0) (d' := 0); [now rewrite rev_length, !sound_length|].
  intros t Ht. rewrite rev_length, sound_length in Ht. rewrite rev_nth by (rewrite sound_length; exact Ht).
  rewrite sound_length, !sound_nth by lia. rewrite map_map. f_equal. apply map_ext. intros q. unfold tone_at, back.
  cbn [tn_bin tn_amp tn_phase]. f_equal. rewrite <- cos_neg. f_equal.
  replace (len - S t)%nat with (len - 1 - t)%nat by lia. rewrite (minus_INR (len - 1) t) by lia. field. now apply not_0_IZR.
Qed.
Lemma apart_back : forall b n len qs, apart b n qs -> apart b n (map (back n len) qs).
Proof.
  intros b n len qs [SQ HQ]. split.
  - clear HQ. induction SQ as [|a l SQ IH FA]; cbn [map]; constructor; auto. rewrite Forall_forall in FA |- *.
    intros p Hp. apply in_map_iff in Hp. destruct Hp as (q & <- & Iq). exact (FA q Iq).
  - intros p Hp. apply in_map_iff in Hp. destruct Hp as (q & <- & Iq). exact (HQ q Iq).
Qed.

(** ** Tracks *)

(** Whether the tracker keeps the track of a sinusoid. *)
Definition kept (t : rtracker) (f l : R) : Prop :=
  match t with
  | RSine _ => True
  | RModal tr => (match g_fmin tr with Some lo => lo <= f | None => True end) /\
                 (match g_fmax tr with Some hi => f <= hi | None => True end) /\ g_thr tr <= l
  end.

Lemma modal_kept : forall f l tr m t, (2 <= m)%nat -> l_freq t = repeat f m -> l_mag t = repeat l m ->
  (rmin_sine_len (g_base tr) <= Z.of_nat m)%Z -> (rmodal_ok tr t = true <-> kept (RModal tr) f l).
Proof.
  intros f l tr m t H2 EF EM HL. unfold rmodal_ok.
  assert (OS : rsine_ok (g_base tr) t = true).
  { unfold rsine_ok. rewrite EF, repeat_length. apply Z.leb_le. exact HL. }
  rewrite OS. cbn [negb].
  assert (MF : rmean (l_freq t) = f).
  { unfold rmean. rewrite EF, repeat_length. assert (G : forall n, rsum (repeat f n) = INR n * f).
    { induction n as [|n IH]; [cbn; ring|]. cbn [repeat]. change (rsum (?u :: ?v)) with (u + rsum v). rewrite S_INR, IH. ring. }
    rewrite G. field. apply not_0_INR. lia. }
  rewrite MF.
  assert (LM : List.length (l_mag t) = m) by (rewrite EM; apply repeat_length). rewrite LM, lm_x_map.
  set (xs := map (fun j => if g_rev tr then INR (m - 1 - j) else INR j) (seq 0 m)).
  assert (EY : l_mag t = map (fun x => 0 * x + l) xs).
  { rewrite EM. unfold xs. rewrite map_map. clear. generalize 0%nat. induction m as [|m IH]; intros a; cbn [repeat seq map]; [reflexivity|].
    f_equal; [ring|]. apply nth_ext with (d := 0) (d' := 0).
    - now rewrite repeat_length, map_length, seq_length.
    - intros i Hi. rewrite repeat_length in Hi. rewrite (nth_map_lt _ _ _ 0%nat) by (rewrite seq_length; exact Hi).
      rewrite nth_repeat_lt by exact Hi. ring. }
  destruct (ols_line xs 0 l) as [EC EI].
  { exists (if g_rev tr then INR (m - 1 - 0) else INR 0), (if g_rev tr then INR (m - 1 - 1) else INR 1).
    repeat split.
    - apply (in_map (fun j => if g_rev tr then INR (m - 1 - j) else INR j)). apply in_seq. lia.
    - apply (in_map (fun j => if g_rev tr then INR (m - 1 - j) else INR j)). apply in_seq. lia.
    - destruct (g_rev tr); intros E; apply INR_eq in E; lia. }
  rewrite EY, EC, EI.
  assert (ESL : Rltb 0 0 = false) by (apply Rltb_false; lra). rewrite ESL. unfold kept.
  assert (QQ : (if Rltb l (g_thr tr) then false else true) = true <-> g_thr tr <= l).
  { destruct (Rltb l (g_thr tr)) eqn:EQ; [apply Rltb_true in EQ|apply Rltb_false in EQ]; split; intros; auto; try discriminate; lra. }
  destruct (g_fmin tr) as [lo|]; [destruct (Rltb f lo) eqn:EA|].
  - apply Rltb_true in EA. split; [discriminate|]. intros [? _]. lra.
  - apply Rltb_false in EA. destruct (g_fmax tr) as [hi|]; [destruct (Rltb hi f) eqn:EB|].
    + apply Rltb_true in EB. split; [discriminate|]. intros (_ & ? & _). lra.
    + apply Rltb_false in EB. tauto.
    + tauto.
  - destruct (g_fmax tr) as [hi|]; [destruct (Rltb hi f) eqn:EB|].
    + apply Rltb_true in EB. split; [discriminate|]. intros (_ & ? & _). lra.
    + apply Rltb_false in EB. tauto.
    + tauto.
Qed.

(** Frequency and level of a sinusoid. *)
Definition tone_hz (o : rmodel) (q : tone) : R := IZR (tn_bin q) * g_fs (rt_cfg (rm_tracker o)) / IZR (rm_n o).
Definition half_db (q : tone) : R := a2db (tn_amp q / 2).

(** A track of [m] frames from the first one, of constant frequency and level. *)
Definition steady (m : nat) (f l : R) (t : rtrack) : Prop :=
  r_start t = 0%Z /\ r_freq t = repeat (Some f) m /\ r_mag t = repeat (Some l) m.

Lemma map_const : forall (A B : Type) (f : A -> B) (v : B) l, (forall a, In a l -> f a = v) -> map f l = repeat v (List.length l).
Proof.
  intros A B f v l H. induction l as [|a l IH]; [reflexivity|]. cbn [map List.length repeat].
  rewrite (H a (or_introl eq_refl)), IH; auto. intros x Hx. apply H. now right.
Qed.
Lemma repeat_map : forall (A B : Type) (f : A -> B) v n, map f (repeat v n) = repeat (f v) n.
Proof. induction n as [|n IH]; [reflexivity|]. cbn. now rewrite IH. Qed.

Lemma tone_tracks : forall phase argsort o b qs len,
  let c := rt_cfg (rm_tracker o) in let w := List.length (rm_w o) in let h := Pos.to_nat (g_h c) in
  let x := sound (rm_n o) qs len in
  let m := frame_count w h x in
  rm_padded o = false -> (2 <= zlen (rm_w o))%Z -> rm_n o = zlen (rm_w o) -> (w <= len)%nat ->
  tapers b (rm_w o) -> apart b (rm_n o) qs -> 
  (forall fr, Permutation (argsort fr) (seq 0 (List.length fr))) ->
  (forall q, In q qs -> float_eps < tn_amp q / 2 /\ above (rm_t o) (half_db q)) ->
  (forall p q, In p qs -> In q qs -> tn_bin p <> tn_bin q -> rdf c (tone_hz o p) <= Rabs (tone_hz o q - tone_hz o p)) ->
  (forall q, In q qs -> 0 < rdf c (tone_hz o q)) -> (Z.of_nat (List.length qs) <= g_max c)%Z ->
  (rmin_sine_len c <= Z.of_nat m)%Z ->
  match rm_tracker o with
  | RModal tr => match g_strip tr with Some st => (0 <= Rceil (st * rframe_rate c))%Z | None => True end
  | RSine _ => True end ->
  exists qs' ts, rtracks phase argsort o x = Ok ts /\
    StronglySorted (fun p q => (tn_bin p < tn_bin q)%Z) qs' /\
    (forall q, In q qs' <-> In q qs /\ kept (rm_tracker o) (tone_hz o q) (half_db q)) /\
    Forall2 (fun q t => steady m (tone_hz o q) (half_db q) t) qs' ts.
Proof.
  intros phase argsort o b qs len c w h x m HP H2 HN HL HT HA HO HQ HD HTo HM HLen HST.
  assert (Hh : (1 <= h)%nat) by (unfold h; lia).
  assert (LX : List.length x = len) by apply sound_length.
  set (y := if rt_reverse (rm_tracker o) then rev x else x).
  (* the sound that is analysed *)
  assert (EY : exists qy, y = sound (rm_n o) qy len /\ apart b (rm_n o) qy /\
             map (fun q => (tn_bin q, tn_amp q)) qy = map (fun q => (tn_bin q, tn_amp q)) qs).
  { unfold y. destruct (rt_reverse (rm_tracker o)).
    - exists (map (back (rm_n o) len) qs). split; [|split].
      + apply sound_rev. lia.
      + now apply apart_back.
      + rewrite map_map. reflexivity.
    - exists qs. auto. }
  destruct EY as (qy & EY & HAy & EQ).
  assert (LY : List.length y = len) by (rewrite EY; apply sound_length).
  assert (EM : frame_count w h y = m) by (unfold m, frame_count; now rewrite LY, LX).
  set (ks := map tn_bin qs).
  assert (EKy : map tn_bin qy = ks).
  { apply (f_equal (map fst)) in EQ. rewrite !map_map in EQ. exact EQ. }
  assert (m2 : (2 <= m)%nat) by (unfold rmin_sine_len in HLen; lia).
  assert (ND : NoDup ks).
  { apply sorted_nodup. unfold ks. rewrite HN in HA. apply (bins_sorted b (rm_w o) qs HA). }
  set (F := fun k : Z => IZR k * g_fs c / IZR (rm_n o)).
  set (M := fun k : Z => nth (fst (fold_right (fun q a => if (tn_bin q =? k)%Z then (0, true) else (S (fst a), snd a)) (0, false) qs)%nat)
                             (map half_db qs) 0).
  assert (MK : forall j, (j < List.length qs)%nat -> M (nth j ks 0%Z) = half_db (nth j qs (mkTone 0 0 0))).
  { clear - ND. unfold M, ks in *. clear M ks. induction qs as [|q qs IH]; intros j Hj; [cbn in Hj; lia|].
    cbn [map] in ND. inversion ND as [|? ? NI ND']; subst. destruct j as [|j]; cbn [map nth fold_right].
    - rewrite Z.eqb_refl. reflexivity.
    - cbn [List.length] in Hj. assert (IJ : In (nth j (map tn_bin qs) 0%Z) (map tn_bin qs)) by (apply nth_In; rewrite map_length; lia).
      destruct (Z.eqb_spec (tn_bin q) (nth j (map tn_bin qs) 0%Z)) as [E|_]; [rewrite <- E in IJ; contradiction|].
      cbn [fst nth]. apply IH; [exact ND'|lia]. }
  assert (KN : forall j, (j < List.length qs)%nat -> nth j ks 0%Z = tn_bin (nth j qs (mkTone 0 0 0))).
  { intros j Hj. unfold ks. now rewrite (nth_map_lt _ _ _ (mkTone 0 0 0)) by exact Hj. }
  unfold rtracks. fold y c. rewrite HP.
  replace (zlen (rm_w o)) with (Z.of_nat w) by reflexivity. replace (Zpos (g_h c)) with (Z.of_nat h) by (unfold h; lia).
  rewrite frames_ok; [|unfold zlen in H2; fold w in H2; lia|exact Hh|rewrite LY; exact HL]. cbn [bind]. rewrite EM.
  destruct (foldM_range _ _ (rframe_step phase argsort o) (fun i => frame_of w h i y)
    (steady_state F M 0 ks) m 0%nat rreset) as (st & E & Hn & HSv & HAc).
  - intros i st Hi HI.
    assert (TF : tone_frame (rm_w o) (frame_of w h i y) (mid_phase (zlen (rm_w o)) (i * h)) qy).
    { rewrite EY, HN. apply sound_frame; [unfold zlen in H2; lia|].
      rewrite <- LY. apply frame_count_bound; [exact Hh|]. fold w. rewrite EM. lia. }
    assert (HAy' : apart b (zlen (rm_w o)) qy) by (rewrite <- HN; exact HAy).
    assert (HQy : forall q, In q qy -> float_eps < tn_amp q / 2 /\ above (rm_t o) (half_db q)).
    { intros q I. assert (IQ : In (tn_bin q, tn_amp q) (map (fun q => (tn_bin q, tn_amp q)) qs)).
      { rewrite <- EQ. apply (in_map (fun q => (tn_bin q, tn_amp q))). exact I. }
      apply in_map_iff in IQ. destruct IQ as (q' & EP & I'). injection EP as _ EA. unfold half_db. rewrite <- EA. apply HQ. exact I'. }
    destruct (frame_peaks b (rm_w o) (frame_of w h i y) (mid_phase (zlen (rm_w o)) (i * h)) qy HT HAy' TF H2
                (fun q I => proj1 (HQy q I)) (g_fs c) (rm_t o) (phase (frame_of w h i y)) (frame_length w h i y)
                (fun q I => proj2 (HQy q I))) as (mx & EMX & EPK).
    unfold rframe_step. fold c. rewrite HN, EMX. cbn [bind]. rewrite EPK. cbn [bind].
    set (fr := map _ qy).
    assert (LQ : List.length qy = List.length qs) by (apply (f_equal (@List.length _)) in EQ; now rewrite !map_length in EQ).
    assert (LK : List.length ks = List.length qs) by (unfold ks; apply map_length).
    apply steady_step with (F := F) (M := M) (s := 0) (ks := ks); auto.
    + intros k k' Ik Ik' NE. unfold ks in Ik, Ik'. apply in_map_iff in Ik, Ik'. destruct Ik as (p & <- & Ip), Ik' as (q & <- & Iq).
      apply (HD p q); auto.
    + intros k Ik. unfold ks in Ik. apply in_map_iff in Ik. destruct Ik as (p & <- & Ip). apply (HTo p Ip).
    + now rewrite LK.
    + unfold fr. now rewrite map_length, LK.
    + intros j Hj. rewrite LK in Hj. unfold fr. rewrite (nth_map_lt _ _ _ (mkTone 0 0 0)) by (rewrite LQ; exact Hj). cbn [rp_f rp_m].
      assert (EJ : (tn_bin (nth j qy (mkTone 0 0 0)), tn_amp (nth j qy (mkTone 0 0 0))) =
                   (tn_bin (nth j qs (mkTone 0 0 0)), tn_amp (nth j qs (mkTone 0 0 0)))).
      { apply (f_equal (fun l => nth j l (0%Z, 0))) in EQ.
        rewrite !(nth_map_lt _ _ _ (mkTone 0 0 0)) in EQ by (rewrite ?LQ; exact Hj). exact EQ. }
      pose proof (f_equal fst EJ) as EB. pose proof (f_equal snd EJ) as EA. cbn [fst snd] in EB, EA.
      rewrite (MK j Hj), (KN j Hj), EB, EA. unfold F, half_db. rewrite HN. split; [reflexivity|ring].
  - repeat split.
  - cbn [Nat.add] in Hn, HAc. rewrite E. cbn [bind].
    assert (LK : List.length ks = List.length qs) by (unfold ks; apply map_length).
    assert (HAc' : List.length (ractive st) = List.length qs /\ forall j, (j < List.length qs)%nat ->
      l_start (nth j (ractive st) no_ltrack) = 0%nat /\
      l_freq (nth j (ractive st) no_ltrack) = repeat (tone_hz o (nth j qs (mkTone 0 0 0))) m /\
      l_mag (nth j (ractive st) no_ltrack) = repeat (half_db (nth j qs (mkTone 0 0 0))) m).
    { assert (HAc2 : List.length (ractive st) = List.length ks /\
         forall j, (j < List.length ks)%nat -> steady_track F M 0 (nth j ks 0%Z) m (nth j (ractive st) no_ltrack)).
      { clear - HAc m2. destruct m as [|m']; [lia|exact HAc]. }
      destruct HAc2 as [LA HA2]. split; [now rewrite LA|]. intros j Hj.
      destruct (HA2 j) as [(n' & _ & En & E1 & E2 & _) H0]; [now rewrite LK|].
      rewrite H0 in En. cbn in En. subst n'. split; [exact H0|]. rewrite E1, E2. unfold tone_hz.
      rewrite (MK j Hj). split.
      - f_equal. unfold F. rewrite (KN j Hj). reflexivity.
      - rewrite (map_const _ _ _ (half_db (nth j qs (mkTone 0 0 0)))); [now rewrite seq_length|]. intros a _. ring. }
    clear HAc. destruct HAc' as [LA HAc].
    set (good := fun q t => l_start t = 0%nat /\ l_freq t = repeat (tone_hz o q) m /\ l_mag t = repeat (half_db q) m).
    assert (F2 : Forall2 good qs (ractive st)).
    { clear - LA HAc. clearbody m. subst good. clear x. revert LA HAc. generalize (ractive st).
      induction qs as [|k l0 IH]; intros [|t l] LA HAc; try discriminate; constructor.
      - apply (HAc 0%nat). cbn. lia.
      - apply IH; [cbn in LA; lia|]. intros j Hj. apply (HAc (S j)). cbn. lia. }
    set (ok := match rm_tracker o with RSine c0 => rsine_ok c0 | RModal tr => rmodal_ok tr end).
    assert (OK : forall q t, good q t -> (ok t = true <-> kept (rm_tracker o) (tone_hz o q) (half_db q))).
    { intros q t (H0 & E1 & E2). unfold ok. unfold c in HLen. destruct (rm_tracker o) as [c0|tr] eqn:ETr.
      - cbn [kept]. split; [auto|]. intros _. unfold rsine_ok. rewrite E1, repeat_length. apply Z.leb_le. exact HLen.
      - apply (modal_kept _ _ tr m t m2 E1 E2). exact HLen. }
    assert (SQ : StronglySorted (fun p q => (tn_bin p < tn_bin q)%Z) qs).
    { destruct HA as [SQ _]. clear - SQ. induction SQ as [|a l SQ IH FA]; constructor; auto. rewrite Forall_forall in FA |- *.
      intros p Hp. specialize (FA p Hp). lia. }
    assert (G : exists qs' ts, map rnumpy_track (filter ok (ractive st)) = ts /\ StronglySorted (fun p q => (tn_bin p < tn_bin q)%Z) qs' /\
      (forall q, In q qs' <-> In q qs /\ kept (rm_tracker o) (tone_hz o q) (half_db q)) /\
      Forall2 (fun q t => steady m (tone_hz o q) (half_db q) t) qs' ts).
    { clear - F2 OK SQ. clearbody m ok. unfold good in *. clear good x. revert F2 SQ. generalize (ractive st). induction qs as [|k l0 IH]; intros l F2 SK.
      - inversion F2; subst. exists [], []. repeat split; try constructor; cbn in *; tauto.
      - inversion F2 as [|? t ? l' Hkt F2']; subst. inversion SK as [|? ? SK' FK]; subst.
        destruct (IH l' F2' SK') as (ks' & ts & ET & SKs & IKs & FSs). cbn [filter].
        assert (QT : steady m (tone_hz o k) (half_db k) (rnumpy_track t)).
        { destruct Hkt as (H0 & E1 & E2). unfold steady, rnumpy_track. cbn [r_start r_freq r_mag]. rewrite H0, E1, E2, !repeat_map. auto. }
        destruct (ok t) eqn:EO.
        + exists (k :: ks'), (rnumpy_track t :: ts). cbn [map]. rewrite ET. split; [reflexivity|].
          split; [|split].
          * constructor; auto. rewrite Forall_forall in FK |- *. intros k' Hk'. apply FK. apply IKs in Hk'. tauto.
          * intros k'. cbn [In]. rewrite IKs. split; [|tauto]. intros [<-|?]; [|tauto].
            split; [now left|]. now apply (OK k t).
          * constructor; auto.
        + exists ks', ts. split; [exact ET|]. split; [exact SKs|]. split; [|auto].
          intros k'. cbn [In]. rewrite IKs. split; [tauto|]. intros [[<-|?] HK]; [|tauto].
          apply (OK k t) in HK; [congruence|auto]. }
    destruct G as (qs' & ts & ET & SKs & IKs & FSs). exists qs', ts.
    assert (ER : rt_all (rm_tracker o) st = ts).
    { unfold rt_all. unfold ok in ET. destruct (rm_tracker o) as [c0|tr] eqn:ETr.
      - unfold rall_tracks. rewrite HSv. exact ET.
      - unfold rmodal_all_tracks, rall_tracks. rewrite HSv, ET. cbn [app].
        destruct (g_strip tr) as [sv|]; [|reflexivity]. apply filter_every. intros t Ht.
        assert (ZS : r_start t = 0%Z /\ zlen (r_mag t) = Z.of_nat m).
        { clear - FSs Ht. induction FSs as [|q u l l' Hq FSs IH]; [destruct Ht|]. destruct Ht as [->|Ht]; [|auto].
          destruct Hq as (H0 & _ & E2). split; [exact H0|]. unfold zlen. now rewrite E2, repeat_length. }
        destruct ZS as [E0 EL]. rewrite E0, EL, Hn. apply Z.leb_le. cbn [rt_cfg] in c. fold c.
        destruct (g_rev tr); lia. }
    rewrite ER. split; [reflexivity|]. auto.
Qed.

(** ** Windows that are sums of cosines *)

(** [n] samples of the window with coefficients [a]. *)
Definition cosine_window (a : list R) (n : nat) : list R :=
  map (fun i => rsum (map (fun k => nth k a 0 * cos (INR k * (- PI + 2 * PI * INR i / INR n))) (seq 0 (List.length a)))) (seq 0 n).

Lemma cos_half_turns : forall k x, cos (x - INR k * PI) = (-1) ^ k * cos x.
Proof.
  induction k as [|k IH]; intros x; [cbn; rewrite Rmult_0_l, Rminus_0_r; ring|].
  rewrite S_INR. replace (x - (INR k + 1) * PI) with ((x - INR k * PI) - PI) by ring. cbn [pow].
  rewrite cos_minus, cos_PI, sin_PI, IH. ring.
Qed.

Section Cosines.
Context (a : list R) (N : nat).
Local Notation B := (List.length a - 1)%nat.
Hypothesis a1 : (1 <= List.length a)%nat.
Hypothesis long : (2 * B < N)%nat.
Let w := cosine_window a N.

Lemma cw_length : List.length w = N.
Proof. unfold w, cosine_window. now rewrite map_length, seq_length. Qed.
Lemma cw_zlen : zlen w = Z.of_nat N.
Proof. unfold zlen. now rewrite cw_length. Qed.
Lemma cw_nth : forall i, (i < N)%nat -> nth i w 0 = sumn (List.length a) (fun k => nth k a 0 * (-1) ^ k * cos (ang N i (Z.of_nat k))).
Proof.
  intros i Hi. unfold w, cosine_window. rewrite (nth_map_lt _ _ _ 0%nat) by (rewrite seq_length; exact Hi).
  rewrite seq_nth by exact Hi. cbn [Nat.add]. apply sumn_ext. intros k _.
  transitivity (nth k a 0 * ((-1) ^ k * cos (ang N i (Z.of_nat k)))); [|ring]. f_equal.
  rewrite <- cos_half_turns. f_equal. unfold ang. rewrite <- INR_IZR_INZ. field. apply not_0_INR. lia.
Qed.
Lemma cw_sums : forall m, 
  sumn N (fun i => nth i w 0 * cos (ang N i m)) =
    sumn (List.length a) (fun k => nth k a 0 * (-1) ^ k * (INR N / 2 *
       ((if ((Z.of_nat k - m) mod Z.of_nat N =? 0)%Z then 1 else 0) + (if ((Z.of_nat k + m) mod Z.of_nat N =? 0)%Z then 1 else 0)))) /\
  sumn N (fun i => nth i w 0 * sin (ang N i m)) = 0.
Proof.
  intros m. assert (N0 : (0 < N)%nat) by lia. split.
  - rewrite (sumn_ext N _ (fun i => sumn (List.length a) (fun k => nth k a 0 * (-1) ^ k * (cos (ang N i (Z.of_nat k)) * cos (ang N i m))))).
    + rewrite sumn_swap. apply sumn_ext. intros k _. rewrite sumn_scale. f_equal. apply (trig_orth N (Z.of_nat k) m N0).
    + intros i Hi. rewrite (cw_nth i Hi), <- sumn_scale_r. apply sumn_ext. intros k _. ring.
  - rewrite (sumn_ext N _ (fun i => sumn (List.length a) (fun k => nth k a 0 * (-1) ^ k * (cos (ang N i (Z.of_nat k)) * sin (ang N i m))))).
    + rewrite sumn_swap. apply sumn_zero. intros k _. rewrite sumn_scale.
      rewrite (proj2 (proj2 (proj2 (trig_orth N (Z.of_nat k) m N0)))). ring.
    + intros i Hi. rewrite (cw_nth i Hi), <- sumn_scale_r. apply sumn_ext. intros k _. ring.
Qed.

Lemma mod_small_zero : forall z, (- Z.of_nat N < z < Z.of_nat N)%Z -> (z mod Z.of_nat N =? 0)%Z = (z =? 0)%Z.
Proof.
  intros z H. destruct (Z.eqb_spec z 0) as [->|NZ]; [now rewrite Z.mod_0_l by lia|]. apply Z.eqb_neq. intros E.
  apply Z.mod_divide in E; [|lia]. destruct E as [q Eq]. subst z.
  assert (q = 0)%Z; [|subst q; lia]. assert (P : (0 < Z.of_nat N)%Z) by lia. revert H P. clear. generalize (Z.of_nat N). intros v H P.
  destruct (Z_lt_le_dec q 0); [nia|]. destruct (Z_lt_le_dec 0 q); [nia|lia].
Qed.

Lemma cw_sum : rsum w = INR N * nth 0 a 0.
Proof.
  rewrite rsum_sumn, cw_length. destruct (cw_sums 0) as [E _].
  rewrite (sumn_ext N _ (fun i => nth i w 0 * cos (ang N i 0))).
  2:{ intros i _. unfold ang. replace (2 * PI * INR i * 0 / INR N) with 0 by (unfold Rdiv; ring). rewrite cos_0. ring. }
  rewrite E. rewrite (sumn_ext _ _ (fun k => if Nat.eqb k 0 then nth k a 0 * INR N else 0)).
  - rewrite sumn_delta by lia. ring.
  - intros k Hk. rewrite !mod_small_zero by lia. destruct (Nat.eqb_spec k 0) as [->|NK].
    + cbn. field.
    + destruct (Z.eqb_spec (Z.of_nat k - 0) 0); [lia|]. destruct (Z.eqb_spec (Z.of_nat k + 0) 0); [lia|]. ring.
Qed.
Lemma cw_bin : forall m, (1 <= m < Z.of_nat N - Z.of_nat B)%Z ->
  sumn N (fun i => nth i w 0 * cos (ang N i m)) = if (m <=? Z.of_nat B)%Z then INR N / 2 * ((-1) ^ Z.to_nat m * nth (Z.to_nat m) a 0) else 0.
Proof.
  intros m Hm. destruct (cw_sums m) as [E _]. rewrite E.
  destruct (Z.leb_spec m (Z.of_nat B)).
  - rewrite (sumn_ext _ _ (fun k => if Nat.eqb k (Z.to_nat m) then INR N / 2 * ((-1) ^ k * nth k a 0) else 0)).
    + rewrite sumn_delta by lia. reflexivity.
    + intros k Hk. rewrite !mod_small_zero by lia. destruct (Nat.eqb_spec k (Z.to_nat m)) as [->|NK].
      * destruct (Z.eqb_spec (Z.of_nat (Z.to_nat m) - m) 0); [|lia]. destruct (Z.eqb_spec (Z.of_nat (Z.to_nat m) + m) 0); [lia|]. ring.
      * destruct (Z.eqb_spec (Z.of_nat k - m) 0); [lia|]. destruct (Z.eqb_spec (Z.of_nat k + m) 0); [lia|]. ring.
  - apply sumn_zero. intros k Hk. rewrite !mod_small_zero by lia.
    destruct (Z.eqb_spec (Z.of_nat k - m) 0); [lia|]. destruct (Z.eqb_spec (Z.of_nat k + m) 0); [lia|]. ring.
Qed.
Lemma cw_lobe : forall m, rsum w <> 0 -> lobe w m = Rabs (sumn N (fun i => nth i w 0 * cos (ang N i m)) / rsum w).
Proof.
  intros m S0. rewrite lobe_eq.
  set (g := 2 * PI * IZR m * IZR (zlen w / 2) / IZR (zlen w)).
  set (E := sumn N (fun i => nth i w 0 * cos (ang N i m)) / rsum w).
  assert (AN : forall i, 2 * PI * IZR m * IZR (Z.of_nat i - zlen w / 2) / IZR (zlen w) = ang N i m - g).
  { intros i. unfold ang, g. rewrite cw_zlen, minus_IZR, <- !INR_IZR_INZ. field. apply not_0_INR. lia. }
  assert (EC : wc w m = cos g * E).
  { unfold wc, E. rewrite cw_length.
    rewrite (sumn_ext N _ (fun i => (cos g / rsum w) * (nth i w 0 * cos (ang N i m)) + (sin g / rsum w) * (nth i w 0 * sin (ang N i m)))).
    - rewrite sumn_plus, !sumn_scale, (proj2 (cw_sums m)). field. exact S0.
    - intros i _. rewrite AN, cos_minus. field. exact S0. }
  assert (ES : ws w m = - (sin g * E)).
  { unfold ws, E. rewrite cw_length.
    rewrite (sumn_ext N _ (fun i => (cos g / rsum w) * (nth i w 0 * sin (ang N i m)) + (- sin g / rsum w) * (nth i w 0 * cos (ang N i m)))).
    - rewrite sumn_plus, !sumn_scale, (proj2 (cw_sums m)). field. exact S0.
    - intros i _. rewrite AN, sin_minus. field. exact S0. }
  rewrite EC, ES. pose proof (sin2_cos2 g) as SC. unfold Rsqr in SC.
  replace ((cos g * E) ^ 2 + (- (sin g * E)) ^ 2) with (E²); [apply sqrt_Rsqr_abs|].
  unfold Rsqr. transitivity ((sin g * sin g + cos g * cos g) * (E * E)); [rewrite SC; ring|ring].
Qed.
Lemma cw_values : forall m, 0 < nth 0 a 0 -> (1 <= m < Z.of_nat N - Z.of_nat B)%Z ->
  lobe w m = if (m <=? Z.of_nat B)%Z then Rabs (nth (Z.to_nat m) a 0) / (2 * nth 0 a 0) else 0.
Proof.
  intros m A0 Hm. assert (NP : 0 < INR N) by (apply lt_0_INR; lia).
  assert (S0 : rsum w <> 0) by (rewrite cw_sum; nra).
  rewrite (cw_lobe m S0), (cw_bin m Hm), cw_sum. destruct (Z.leb_spec m (Z.of_nat B)).
  - replace (INR N / 2 * ((-1) ^ Z.to_nat m * nth (Z.to_nat m) a 0) / (INR N * nth 0 a 0))
      with ((-1) ^ Z.to_nat m * (nth (Z.to_nat m) a 0 / (2 * nth 0 a 0))) by (field; split; lra).
    rewrite Rabs_mult, pow_1_abs, Rmult_1_l. unfold Rdiv. rewrite Rabs_mult. f_equal. apply Rabs_right.
    apply Rle_ge. left. apply Rinv_0_lt_compat. lra.
  - unfold Rdiv. rewrite Rmult_0_l. apply Rabs_R0.
Qed.
End Cosines.
