(** Properties of sample/utils/dsp.py and of the cochleagram: C40, C41, C51,
    C52, C53, C58, C59. *)
From Coq Require Import List Bool ZArith Reals Lra Lia.
Import ListNotations.
From Verif Require Import Base Py PyLemmas ListLemmas RLists Np_Model Np_Lemmas
  Stft_Model Stft_Proofs Dsp_Model Dsp_Proofs Onset_Proofs Conv_Proofs.
Local Open Scope R_scope.

(** ** C40 *)

(** Output [i] is sample [i * stride] of the valid part of the convolution,
    for exactly those [i] for which it exists. *)
Theorem c40_strided_convolution : forall x kernel stride,
  (1 <= List.length kernel <= List.length x)%nat -> (1 <= stride)%nat ->
  exists y, strided_convolution x kernel (Z.of_nat stride) = Ok y /\
    (forall i, (i < List.length y <->
                i * stride + List.length kernel <= List.length x)%nat) /\
    forall i, (i < List.length y)%nat ->
      nth i y 0 = rsum (map (fun j => nth j kernel 0 *
                               nth (i * stride + (List.length kernel - 1 - j)) x 0)
                            (seq 0 (List.length kernel))).
Proof.
  intros x k st Hk Hs. rewrite strided_ok by lia. eexists. split; [reflexivity|].
  rewrite map_length, seq_length. split.
  - intro i. assert (D := Nat.div_mod (List.length x - List.length k) st ltac:(lia)).
    assert (M := Nat.mod_upper_bound (List.length x - List.length k) st ltac:(lia)). nia.
  - intros i Hi. rewrite (nth_map_lt _ _ _ 0%nat) by (now rewrite seq_length).
    rewrite seq_nth by auto. unfold filtered. apply rsum_map_ext. intros j Hj. apply in_seq in Hj.
    f_equal. rewrite <- sample_in. f_equal. lia.
Qed.
Print Assumptions c40_strided_convolution.

(** A complex kernel is convolved by real and imaginary parts. *)
Theorem c40_complex_kernel : forall x (kernel : list (R * R)) stride,
  (1 <= List.length kernel <= List.length x)%nat -> (1 <= stride)%nat ->
  exists y re im, strided_convolution_complex_kernel x kernel (Z.of_nat stride) = Ok y /\
    strided_convolution x (map fst kernel) (Z.of_nat stride) = Ok re /\
    strided_convolution x (map snd kernel) (Z.of_nat stride) = Ok im /\
    List.length y = List.length re /\
    forall i, (i < List.length y)%nat -> nth i y (0, 0) = (nth i re 0, nth i im 0).
Proof.
  intros x k st Hk Hs. unfold strided_convolution_complex_kernel.
  rewrite !strided_ok by (rewrite ?map_length; lia). cbn [bind].
  eexists _, _, _. split; [reflexivity|]. split; [reflexivity|]. split; [reflexivity|].
  rewrite combine_length, !map_length, !seq_length, Nat.min_id. split; [reflexivity|].
  intros i Hi. apply nth_combine; rewrite map_length, seq_length; lia.
Qed.
Print Assumptions c40_complex_kernel.

(** An input shorter than the kernel: nothing, or ValueError. *)
Theorem c40_short_input : forall x kernel stride, (1 <= stride)%nat ->
  (List.length x < List.length kernel)%nat ->
  strided_convolution x kernel (Z.of_nat stride) =
  if (List.length kernel - List.length x <=? stride)%nat then Ok [] else Err ValueError.
Proof. exact strided_short. Qed.
Print Assumptions c40_short_input.

Example c40_example : exists y,
  strided_convolution [1; 2; 3; 4; 5] [10; 1] 2 = Ok y /\ y = [21; 43].
Proof. eexists. split; [reflexivity|]. unfold dot, map2. simpl. f_equal; [lra|f_equal; lra]. Qed.

(** ** C41 *)

(** Without stride: row of the filter [(ir, off)], column [c], is the sum of
    [ir_j * x_(c-off-j)] with [x] zero outside. *)
Theorem c41_full : forall b x, Forall (fun io => (1 <= zlen (fst io) /\ 0 <= snd io)%Z) b ->
  (1 <= zlen x)%Z -> forall method,
  exists rows, convolve b x method None = Ok rows /\
    Forall2 (fun io row =>
      zlen row = (zlen x + bank_ir_size b - 1)%Z /\
      forall c, (0 <= c < zlen row)%Z ->
        nth (Z.to_nat c) row 0 =
        rsum (map (fun j => nth j (fst io) 0 *
                let z := (c - snd io - Z.of_nat j)%Z in
                if (z <? 0)%Z then 0 else nth (Z.to_nat z) x 0)
             (seq 0 (List.length (fst io))))) b rows.
Proof. intros b x Hb Hx method. exact (convolve_full_ok b x Hb Hx). Qed.
Print Assumptions c41_full.

(** With a stride: entry [m] is entry [m * stride] of the full matrix whenever
    [m * stride + off mod stride <= N + L + off - 2] ([N], [L] sizes of the
    signal and of the IR); the other entries are zero.  The number of columns
    is the largest number of columns computed for a filter. *)
Theorem c41_strided : forall b x stride,
  Forall (fun io => (1 <= zlen (fst io) /\ 0 <= snd io)%Z) b ->
  (1 <= zlen x)%Z -> (1 <= stride)%Z -> (2 <= bank_ir_size b)%Z -> b <> [] ->
  exists full rows width,
    convolve b x false None = Ok full /\ convolve b x false (Some stride) = Ok rows /\
    List.length full = List.length b /\ List.length rows = List.length b /\
    (exists io, In io b /\
       (width = snd io / stride + 1 + (zlen x + zlen (fst io) - 2) / stride)%Z) /\
    Forall (fun io => (snd io / stride + 1 + (zlen x + zlen (fst io) - 2) / stride <= width)%Z) b /\
    forall i ir off, nth_error b i = Some (ir, off) ->
      exists frow row, nth_error full i = Some frow /\ nth_error rows i = Some row /\
        zlen row = width /\
        forall m, (0 <= m < width)%Z ->
          if (m * stride + off mod stride <=? zlen x + zlen ir + off - 2)%Z
          then (m * stride < zlen frow)%Z /\
               nth (Z.to_nat m) row 0 = nth (Z.to_nat (m * stride)) frow 0
          else nth (Z.to_nat m) row 0 = 0.
Proof.
  intros b x st Hb Hx Hs HS Hne. cbn [convolve].
  destruct (convolve_full_ok b x Hb Hx) as (full & F1 & F2).
  destruct (convolve_strided_ok b x st Hb Hx Hs HS) as (rows & width & R1 & R2 & R3 & R4).
  exists full, rows, width. split; [exact F1|]. split; [exact R1|].
  split; [symmetry; eapply Forall2_length'; exact F2|].
  split; [symmetry; eapply Forall2_length'; exact R4|].
  split; [auto|]. split; [exact R2|].
  intros i ir off Hi.
  assert (N : forall A B (P : A -> B -> Prop) l l' i a, Forall2 P l l' -> nth_error l i = Some a ->
    exists b, nth_error l' i = Some b /\ P a b).
  { clear. intros A B P l l' i a F. revert i. induction F; intros i Hi; [destruct i; discriminate|].
    destruct i as [|i]; [injection Hi as <-; eexists; split; [reflexivity|auto]|]. apply IHF. exact Hi. }
  destruct (N _ _ _ _ _ _ _ F2 Hi) as (frow & E1 & L1 & V1).
  destruct (N _ _ _ _ _ _ _ R4 Hi) as (row & E2 & L2 & V2).
  exists frow, row. split; [exact E1|]. split; [exact E2|]. split; [exact L2|].
  intros m Hm. specialize (V2 m Hm). simpl fst in *. simpl snd in *.
  destruct (Z.leb_spec (m * st + off mod st) (zlen x + zlen ir + off - 2)) as [C|C]; [|exact V2].
  pose proof (bank_size_ge b ir off (nth_error_In _ _ Hi)) as HB.
  pose proof (Z.mod_pos_bound off st ltac:(lia)).
  assert (m * st < zlen frow)%Z by lia. split; [assumption|].
  rewrite V2, V1 by nia. reflexivity.
Qed.
Print Assumptions c41_strided.

(** If all delays are multiples of the stride no column is missing: every
    entry is the decimated one, and the full matrix is zero where the strided
    one has no column. *)
Theorem c41_strided_aligned : forall b x stride full rows i ir off frow row,
  Forall (fun io => (1 <= zlen (fst io) /\ 0 <= snd io)%Z) b ->
  (1 <= zlen x)%Z -> (1 <= stride)%Z -> (2 <= bank_ir_size b)%Z ->
  convolve b x false None = Ok full -> convolve b x false (Some stride) = Ok rows ->
  nth_error b i = Some (ir, off) -> (off mod stride = 0)%Z ->
  nth_error full i = Some frow -> nth_error rows i = Some row ->
  forall m, (0 <= m)%Z ->
    nth (Z.to_nat m) row 0 = nth (Z.to_nat (m * stride)) frow 0.
Proof.
  intros b x st full rows i ir off frow row Hb Hx Hs HS F R Hi Hoff Ef Er m Hm.
  cbn [convolve] in F, R.
  destruct (convolve_full_ok b x Hb Hx) as (full' & F1 & F2).
  destruct (convolve_strided_ok b x st Hb Hx Hs HS) as (rows' & width & R1 & R2 & R3 & R4).
  rewrite F in F1. rewrite R in R1. injection F1 as <-. injection R1 as <-.
  assert (N : forall A B (P : A -> B -> Prop) l l' i a b, Forall2 P l l' -> nth_error l i = Some a ->
    nth_error l' i = Some b -> P a b).
  { clear. intros A B P l l' i a b F. revert i. induction F; intros i Hi Hi'; [destruct i; discriminate|].
    destruct i as [|i]; [injection Hi as <-; injection Hi' as <-; auto|]. eapply IHF; eauto. }
  destruct (N _ _ _ _ _ _ _ _ F2 Hi Ef) as (L1 & V1).
  destruct (N _ _ _ _ _ _ _ _ R4 Hi Er) as (L2 & V2).
  simpl fst in *. simpl snd in *. rewrite Hoff in V2.
  pose proof (bank_size_ge b ir off (nth_error_In _ _ Hi)) as HB.
  rewrite Forall_forall in R2. specialize (R2 _ (nth_error_In _ _ Hi)). simpl in R2.
  rewrite Forall_forall in Hb. destruct (Hb _ (nth_error_In _ _ Hi)) as [B1 B2]. simpl in B1, B2.
  assert (Full0 : forall c, (zlen x + zlen ir + off - 2 < c)%Z -> nth (Z.to_nat c) frow 0 = 0).
  { intros c Hc. destruct (Z_lt_ge_dec c (zlen frow)).
    - rewrite V1 by lia. apply filtered_out. lia.
    - apply nth_overflow. unfold zlen in *. lia. }
  destruct (Z_lt_ge_dec m width).
  - rewrite V2 by lia.
    destruct (Z.leb_spec (m * st + 0) (zlen x + zlen ir + off - 2)).
    + rewrite V1 by nia. reflexivity.
    + symmetry. apply Full0. lia.
  - rewrite nth_overflow by (unfold zlen in *; lia). symmetry. apply Full0.
    pose proof (Z.div_mod (zlen x + zlen ir - 2) st ltac:(lia)).
    pose proof (Z.mod_pos_bound (zlen x + zlen ir - 2) st ltac:(lia)).
    pose proof (Z.div_mod off st ltac:(lia)). nia.
Qed.
Print Assumptions c41_strided_aligned.

(** Otherwise the strided cochleagram is not the decimation of the full one,
    even in columns that it has: here column 1 of the second row is 0 and
    column 2 of the full matrix is 1. *)
Theorem c41_decimation_refuted : exists b x stride full rows i m frow row,
  Forall (fun io => (1 <= zlen (fst io) /\ 0 <= snd io)%Z) b /\
  convolve b x false None = Ok full /\ convolve b x false (Some stride) = Ok rows /\
  nth_error full i = Some frow /\ nth_error rows i = Some row /\
  (0 <= m < zlen row)%Z /\ (m * stride < zlen frow)%Z /\
  nth (Z.to_nat m) row 0 = 0 /\ nth (Z.to_nat (m * stride)) frow 0 = 1.
Proof.
  set (b := [([1; 0; 0; 0], 0%Z); ([1], 1%Z)] : bank).
  assert (Hb : Forall (fun io => (1 <= zlen (fst io) /\ 0 <= snd io)%Z) b)
    by (unfold b; repeat constructor; cbn [fst snd]; unfold zlen; cbn [List.length]; lia).
  assert (HS : bank_ir_size b = 4%Z) by reflexivity.
  assert (Hx : zlen [0; 1] = 2%Z) by reflexivity.
  destruct (c41_strided b [0; 1] 2 Hb) as (full & rows & width & F & R & L1 & L2 & W1 & W2 & V);
    [lia|lia|lia|discriminate|].
  destruct (V 1%nat [1] 1%Z eq_refl) as (frow & row & E1 & E2 & Lr & Hv).
  assert (L4 : zlen [1; 0; 0; 0] = 4%Z) by reflexivity.
  assert (Hw : (3 <= width)%Z).
  { rewrite Forall_forall in W2. specialize (W2 ([1; 0; 0; 0], 0%Z) (or_introl eq_refl)).
    cbn [fst snd] in W2. rewrite Hx, L4 in W2. exact W2. }
  exists b, [0; 1], 2%Z, full, rows, 1%nat, 1%Z, frow, row.
  split; [exact Hb|]. split; [exact F|]. split; [exact R|]. split; [exact E1|]. split; [exact E2|].
  split; [lia|].
  destruct (c41_full b [0; 1] Hb ltac:(lia) false) as (full' & F' & FF).
  rewrite F in F'. injection F' as <-.
  unfold b in FF. clear V W1 W2 R F.
  inversion FF as [|? ? ? ? _ FF2 Ea Eb]. clear Ea. subst full.
  inversion FF2 as [|? y0 ? ? [Hl Hc] FF3 Ea Eb]. clear Ea. subst l'.
  cbn [nth_error] in E1. injection E1 as <-.
  fold b in Hl. rewrite HS, Hx in Hl.
  split; [lia|]. split.
  - specialize (Hv 1%Z ltac:(lia)). rewrite Hx in Hv. exact Hv.
  - rewrite Hc by lia. simpl. lra.
Qed.
Print Assumptions c41_decimation_refuted.

(** A bank whose longest delayed IR has one sample cannot be used with a
    stride (the slice [0:-0] is empty): ValueError. *)
Theorem c41_one_sample_bank_raises : forall b x stride, bank_ir_size b = 1%Z ->
  (2 <= zlen x)%Z -> convolve b x false (Some stride) = Err ValueError.
Proof.
  intros b x st Hs Hx. cbn [convolve]. unfold convolve_strided. rewrite Hs.
  assert (E : set_slice (Some (1 - 1)%Z) (Some (- (1 - 1))%Z) x
    (repeat 0 (Z.to_nat (zlen x + 2 * (1 - 1)))) = Err ValueError).
  { unfold set_slice. rewrite zlen_repeat. simpl. unfold slice_bound. simpl.
    rewrite !Z.min_l by lia. simpl. unfold zlen in Hx. destruct x as [|u [|v x]]; simpl in *; try lia; reflexivity. }
  rewrite E. reflexivity.
Qed.
Print Assumptions c41_one_sample_bank_raises.

(** A method and a stride together are rejected. *)
Theorem c41_method_and_stride : forall b x stride,
  convolve b x true (Some stride) = Err ValueError.
Proof. reflexivity. Qed.
Print Assumptions c41_method_and_stride.

(** The delays computed from the leading times align the IRs: sample [k] of an
    IR that starts [lead_i] samples before time zero goes to column
    [k + off_i]; time zero ([k = lead_i]) has the same column for all. *)
Theorem c41_aligned : forall lead, exists c,
  List.length (align_offsets lead) = List.length lead /\
  forall i l o, nth_error lead i = Some l -> nth_error (align_offsets lead) i = Some o ->
    (0 <= o /\ l + o = c)%Z.
Proof.
  intros [|v lead].
  - exists 0%Z. split; [reflexivity|]. intros [|i] l o H; discriminate.
  - exists (fold_left Z.max lead v).
    assert (M : forall l b, (b <= fold_left Z.max l b)%Z).
    { clear. induction l; intros; simpl; [lia|]. specialize (IHl (Z.max b a)). lia. }
    assert (G : forall l b z, In z (b :: l) -> (z <= fold_left Z.max l b)%Z).
    { induction l as [|a l IH]; intros b z [<-|H]; simpl; try lia; try (destruct H; fail).
      - specialize (M l (Z.max b a)). lia.
      - destruct H as [<-|H].
        + specialize (M l (Z.max b a)). lia.
        + apply (IH (Z.max b a) z). simpl. auto. }
    split; [unfold align_offsets; now rewrite map_length|].
    intros i l o Hl Ho. unfold align_offsets in Ho. rewrite nth_error_map, Hl in Ho.
    simpl in Ho. injection Ho as <-. specialize (G lead v l (nth_error_In _ _ Hl)). lia.
Qed.
Print Assumptions c41_aligned.

Example c41_example :
  let b := [([1; 2], 0%Z); ([3; 4; 5], 2%Z)] in
  Forall (fun io => (1 <= zlen (fst io) /\ 0 <= snd io)%Z) b /\ bank_ir_size b = 5%Z /\
  align_offsets [3; 1; 5]%Z = [2; 4; 0]%Z /\
  exists r0 r1, convolve b [1; 1; 1; 1] false (Some 2%Z) = Ok [r0; r1] /\
    List.length r1 = 4%nat /\ nth 1 r1 0 = 3.
Proof.
  cbv zeta. split; [repeat constructor; unfold zlen; simpl; lia|].
  split; [reflexivity|]. split; [reflexivity|]. eexists _, _.
  split; [reflexivity|]. split; [reflexivity|]. unfold dot, map2. simpl. lra.
Qed.

(** ** C51 *)

(** With opposite signs at the end points the search returns a point of the
    interval that is an exact zero or the middle of an interval of width
    [|hi-lo| / 2^steps] with a sign change. *)
Theorem c51_bracket : forall func lo hi steps, func lo * func hi <= 0 ->
  exists a, dychotomic_zero_crossing func lo hi steps = Ok a /\
    Rmin lo hi <= a <= Rmax lo hi /\
    (func a = 0 \/
     exists u v, func u <= 0 /\ 0 <= func v /\ a = (u + v) / 2 /\
       Rabs (v - u) = Rabs (hi - lo) / 2 ^ steps /\
       Rmin lo hi <= u <= Rmax lo hi /\ Rmin lo hi <= v <= Rmax lo hi).
Proof. exact dicho_ok. Qed.
Print Assumptions c51_bracket.

Theorem c51_continuous : forall func lo hi steps, continuity func -> func lo * func hi <= 0 ->
  exists a z, dychotomic_zero_crossing func lo hi steps = Ok a /\ func z = 0 /\
    Rmin lo hi <= z <= Rmax lo hi /\ Rabs (a - z) <= Rabs (hi - lo) / 2 ^ S steps.
Proof. exact dicho_root. Qed.
Print Assumptions c51_continuous.

Theorem c51_same_sign : forall func lo hi steps,
  dychotomic_zero_crossing func lo hi steps = Err ValueError <-> 0 < func lo * func hi.
Proof.
  intros. unfold dychotomic_zero_crossing. destruct (Rlt_dec 0 (func lo * func hi)); split; auto.
  - destruct (Rlt_dec (func hi) (func lo)); discriminate.
  - contradiction.
Qed.
Print Assumptions c51_same_sign.

Example c51_example : exists a,
  dychotomic_zero_crossing (fun t => 3 - t) 0 8 2 = Ok a /\ a = 3.
Proof.
  unfold dychotomic_zero_crossing. destruct (Rlt_dec 0 _) as [H|_]; [exfalso; lra|].
  destruct (Rlt_dec (3 - 8) (3 - 0)) as [_|H]; [|exfalso; lra].
  eexists. split; [reflexivity|]. cbn [dicho_loop].
  destruct (Rlt_dec (3 - (8 + 0) / 2) 0) as [_|H]; [|exfalso; lra].
  destruct (Rlt_dec (3 - ((8 + 0) / 2 + 0) / 2) 0) as [H|_]; [exfalso; lra|].
  destruct (Rlt_dec 0 (3 - ((8 + 0) / 2 + 0) / 2)) as [_|H]; [|exfalso; lra].
  lra.
Qed.

(** ** C52 *)

Theorem c52_local_maxima : forall x w key logical_and out,
  let k := match key with None => x | Some k => k end in
  (1 <= w)%nat -> (2 * w + 1 <= List.length x)%nat ->
  (List.length x <= List.length k)%nat -> List.length out = List.length x ->
  exists r, local_maxima x (Z.of_nat w) key logical_and out = Ok r /\
    List.length r = List.length x /\
    forall i, (i < List.length x)%nat ->
      (nth i r false = true <->
       (w <= i /\ i + w < List.length x)%nat /\
       (forall j, (i <= j + w /\ j <= i + w)%nat -> nth j k 0 <= nth i x 0) /\
       (logical_and = true -> nth i out false = true)).
Proof. exact local_maxima_ok. Qed.
Print Assumptions c52_local_maxima.

(** [onset_selection]: [xn] is the signal with mean zero and unit variance,
    [g] the filter ([g (S i)] after sample [i]); near the start, where the
    averaging window does not fit, the mean is replaced by zero.  The contents
    of uninitialised memory ([junk], [junk_b]) do not matter. *)
Theorem c52_onset_selection : forall x w m alpha delta,
  (1 <= w)%nat -> (2 * w + 1 <= List.length x)%nat -> ((m + 1) * w + 1 <= List.length x)%nat ->
  exists mu sigma (xn g : nat -> R),
    mu = rsum x / INR (List.length x) /\
    sigma = (let v := sqrt (rsum (map (fun a => (a - mu) * (a - mu)) x) / INR (List.length x)) in
             if Req_EM_T v 0 then 1 else v) /\
    (forall i, xn i = (nth i x 0 - mu) / sigma) /\
    g 0%nat = 0 /\ (forall i, g (S i) = Rmax (xn i) (alpha * g i + (1 - alpha) * xn i)) /\
  forall junk junk_b, exists r,
    onset_selection junk junk_b x (Z.of_nat w) (Z.of_nat m) alpha delta = Ok r /\
    List.length r = List.length x /\
    forall i, (i < List.length x)%nat ->
      (nth i r false = true <->
       (w <= i /\ i + w < List.length x)%nat /\
       (forall j, (i <= j + w /\ j <= i + w)%nat -> nth j x 0 <= nth i x 0) /\
       g i <= xn i /\
       (if Nat.ltb i (m * w) then 0
        else rsum (map xn (seq (i - m * w) ((m + 1) * w + 1))) / INR ((m + 1) * w + 1)) + delta
         <= xn i).
Proof.
  intros x w m alpha delta Hw H2 Hm.
  exists (mean x), (rms_scale x), (rms_value x), (filt alpha (rms_value x)).
  split; [reflexivity|]. split.
  { unfold rms_scale, std, mean. rewrite map_length. reflexivity. }
  split; [reflexivity|]. split; [reflexivity|]. split; [reflexivity|].
  intros junk junk_b.
  destruct (onset_selection_ok junk junk_b x w m alpha delta Hw H2 Hm) as (r & R1 & R2 & R3).
  exists r. split; [exact R1|]. split; [exact R2|]. intros i Hi. rewrite (R3 i Hi).
  unfold mean. rewrite map_length, seq_length. reflexivity.
Qed.
Print Assumptions c52_onset_selection.

(** A radius of zero is not supported: the interior slice [0:-0] is empty. *)
Theorem c52_zero_radius_raises : forall x out, (2 <= List.length x)%nat ->
  List.length out = List.length x -> forall logical_and,
  local_maxima x 0 None logical_and out = Err ValueError.
Proof.
  intros x out Hx Ho la. unfold local_maxima. cbv zeta.
  change (2 * 0 + 1)%Z with (Z.of_nat 1). change (Some 1%Z) with (Some (Z.of_nat 1)).
  destruct (win_values x 1 1) as (rows & R1 & R2); try lia.
  rewrite R1. cbn [bind]. rewrite R2. cbn [bind].
  set (n := List.length x) in *. rewrite Nat.div_1_r. replace (S (n - 1)) with n by lia.
  rewrite (mapM_map_ok _ _ _ _ _ (fun i => max_of (map (fun j => nth (i * 1 + j) x 0) (seq 0 1)))).
  2: { intros i _. reflexivity. }
  cbn [bind].
  assert (E : forall A (l : list A), (1 <= List.length l)%nat -> slice (Some 0%Z) (Some (- 0)%Z) l = []).
  { intros A l Hl. unfold slice. simpl. unfold slice_bound. simpl. rewrite Z.min_l; [reflexivity|].
    unfold zlen. lia. }
  rewrite !E by lia. unfold ufunc2, fit. rewrite !map_length, !seq_length.
  cbn [List.length]. destruct la.
  - destruct (Nat.eqb_spec 0 n); [lia|]. reflexivity.
  - cbn [Nat.eqb bind]. destruct (Nat.eqb_spec n 0); [lia|].
    destruct n as [|[|n]]; [lia|lia|]. reflexivity.
Qed.
Print Assumptions c52_zero_radius_raises.

Example c52_example : forall u, exists r, local_maxima [1; 3; 2; 2; 5; 5; 0] 1 None false
  [u; u; u; u; u; u; u] = Ok r /\ nth 1 r false = true /\ nth 3 r false = false /\
  nth 4 r false = true /\ nth 6 r true = false.
Proof.
  intro u. set (x := [1; 3; 2; 2; 5; 5; 0]).
  destruct (c52_local_maxima x 1 None false [u; u; u; u; u; u; u]) as (r & R1 & R2 & R3);
    simpl; try lia.
  exists r. split; [exact R1|].
  assert (F : forall i, (i < 7)%nat -> nth i r false <> true -> nth i r false = false)
    by (intros i _; destruct (nth i r false); congruence).
  split; [|split; [|split]].
  - apply R3; [simpl; lia|]. split; [simpl; lia|]. split; [|discriminate].
    intros j Hj. assert (j = 0 \/ j = 1 \/ j = 2)%nat as [->|[->| ->]] by lia; simpl; lra.
  - apply F; [lia|]. intro H. apply R3 in H; [|simpl; lia]. destruct H as (_ & H & _).
    specialize (H 4%nat ltac:(lia)). simpl in H. lra.
  - apply R3; [simpl; lia|]. split; [simpl; lia|]. split; [|discriminate].
    intros j Hj. assert (j = 3 \/ j = 4 \/ j = 5)%nat as [->|[->| ->]] by lia; simpl; lra.
  - rewrite (nth_indep _ true false) by (rewrite R2; simpl; lia). apply F; [lia|].
    intro H. apply R3 in H; [|simpl; lia]. destruct H as (H & _). simpl in H. lia.
Qed.

(** ** C53 *)

(** Peak normalisation of an array with a non-zero sample. *)
Theorem c53_peak : forall junk x, Exists (fun v => v <> 0) x ->
  exists p y, call junk normalize_peak x = Ok y /\ 0 < p /\ y = map (fun v => v / p) x /\
    Forall (fun v => Rabs v <= 1) y /\ Exists (fun v => Rabs v = 1) y.
Proof.
  intros junk x H. assert (Hne : x <> []) by (intros ->; inversion H).
  exists (peak_of x). rewrite (call_computes _ _ _ _ _ normalize_peak_ok Hne).
  eexists. split; [reflexivity|].
  unfold peak_of. destruct (amax_ok (map Rabs x)) as (p & -> & Pin & Pmax).
  { destruct x; simpl; congruence. }
  assert (Hp : 0 < p).
  { apply Exists_exists in H. destruct H as (v & Hv & Nv).
    pose proof (Pmax (Rabs v) (in_map _ _ _ Hv)). pose proof (Rabs_pos_lt v Nv). lra. }
  assert (Ha : forall v, Rabs (v / p) = Rabs v / p).
  { intro v. unfold Rdiv. rewrite Rabs_mult, (Rabs_right (/ p)); [reflexivity|].
    left. now apply Rinv_0_lt_compat. }
  split; [exact Hp|]. split; [reflexivity|]. split.
  - apply Forall_map, Forall_forall. intros v Hv. rewrite Ha.
    pose proof (Pmax (Rabs v) (in_map _ _ _ Hv)).
    apply (Rmult_le_reg_r p); [exact Hp|]. unfold Rdiv. rewrite Rmult_assoc, Rinv_l by lra. lra.
  - apply in_map_iff in Pin. destruct Pin as (v & E & Hv). apply Exists_exists. exists (v / p).
    split; [apply in_map_iff; exists v; auto|]. rewrite Ha, E. field. lra.
Qed.
Print Assumptions c53_peak.

(** RMS normalisation: zero mean and unit variance, or all zeros for a
    constant array; [y = (x - mean) / s] with [s > 0]. *)
Theorem c53_rms : forall junk x, x <> [] ->
  exists s y, call junk normalize_rms x = Ok y /\ 0 < s /\
    y = map (fun v => (v - rsum x / INR (List.length x)) / s) x /\
    rsum y = 0 /\
    (~ (exists c, Forall (fun v => v = c) x) ->
       rsum (map (fun v => v * v) y) / INR (List.length y) = 1) /\
    ((exists c, Forall (fun v => v = c) x) -> Forall (fun v => v = 0) y).
Proof.
  intros junk x Hne. exists (rms_scale x).
  rewrite (call_computes _ _ _ _ _ normalize_rms_ok I). eexists. split; [reflexivity|].
  fold (mean x).
  assert (L : 0 < INR (List.length x)) by (apply lt_0_INR; destruct x; simpl; [congruence|lia]).
  assert (Sn : 0 <= std x) by apply sqrt_pos.
  assert (Hs : 0 < rms_scale x).
  { unfold rms_scale. destruct (Req_EM_T (std x) 0); lra. }
  assert (Es : rsum (map (fun v => v - mean x) x) = 0).
  { pose proof (mean_shift (mean x) x Hne) as E. unfold mean at 1 in E. rewrite map_length in E.
    replace (mean x - mean x) with 0 in E by lra. unfold Rdiv in E.
    apply Rmult_integral in E. destruct E as [E|E]; auto.
    exfalso. revert E. apply Rinv_neq_0_compat. lra. }
  split; [exact Hs|]. split; [reflexivity|]. split; [|split].
  - replace (map (fun v => (v - mean x) / rms_scale x) x)
      with (map (fun v => / rms_scale x * v) (map (fun v => v - mean x) x)).
    + rewrite rsum_scale, Es. ring.
    + rewrite map_map. apply map_ext. intro. unfold Rdiv. ring.
  - intro Hc. rewrite map_map, map_length.
    assert (Sp : std x <> 0).
    { intro Z. apply Hc. exists (mean x). apply Forall_forall. now apply (proj1 (std_zero_iff x Hne)). }
    unfold rms_scale. destruct (Req_EM_T (std x) 0); [contradiction|].
    replace (map (fun x0 => (x0 - mean x) / std x * ((x0 - mean x) / std x)) x)
      with (map (fun v => / (std x * std x) * v) (map (fun v => (v - mean x) * (v - mean x)) x)).
    + rewrite rsum_scale. unfold std at 1 2.
      set (q := map (fun v => (v - mean x) * (v - mean x)) x).
      assert (Eq : sqrt (mean q) * sqrt (mean q) = mean q).
      { apply sqrt_sqrt. apply mean_nonneg. intros y Hy. apply in_map_iff in Hy.
        destruct Hy as (v & <- & _). change ((v - mean x) * (v - mean x)) with (Rsqr (v - mean x)).
        apply Rle_0_sqr. }
      rewrite Eq.
      assert (Nq : mean q <> 0).
      { intro Z. apply Sp. unfold std. fold q. rewrite Z. apply sqrt_0. }
      assert (Em : mean q = rsum q / INR (List.length x)) by (unfold mean, q; now rewrite map_length).
      rewrite Em in Nq |- *. assert (rsum q <> 0).
      { intro Z. apply Nq. rewrite Z. unfold Rdiv. ring. }
      field. split; lra.
    + rewrite map_map. apply map_ext. intro. field. auto.
  - intros (c & Hc). apply Forall_map, Forall_forall. intros v Hv.
    rewrite Forall_forall in Hc.
    assert (Em : mean x = c).
    { unfold mean. assert (E : rsum x = INR (List.length x) * c).
      { clear - Hc. induction x as [|a x IH]; [simpl; lra|].
        change (rsum (a :: x)) with (a + rsum x). change (List.length (a :: x)) with (S (List.length x)).
        rewrite S_INR, IH, (Hc a) by (simpl; auto; intros; apply Hc; simpl; auto). lra. }
      rewrite E. field. lra. }
    rewrite Em, (Hc v Hv). unfold Rdiv. ring.
Qed.
Print Assumptions c53_rms.

(** Range normalisation of an array that is not constant. *)
Theorem c53_range : forall junk x, x <> [] -> ~ (exists c, Forall (fun v => v = c) x) ->
  exists lo s y, call junk normalize_range x = Ok y /\ 0 < s /\
    y = map (fun v => (v - lo) / s) x /\
    Forall (fun v => 0 <= v <= 1) y /\ In 0 y /\ In 1 y.
Proof.
  intros junk x Hne Hc. exists (min_of x), (max_of x - min_of x).
  rewrite (call_computes _ _ _ _ _ normalize_range_ok Hne). eexists. split; [reflexivity|].
  unfold min_of, max_of.
  destruct (amin_ok x Hne) as (lo & -> & Lin & Lmin). destruct (amax_ok x Hne) as (hi & -> & Hin & Hmax).
  assert (H : lo < hi).
  { destruct (Rlt_le_dec lo hi); auto. exfalso. apply Hc. exists lo. apply Forall_forall.
    intros v Hv. specialize (Lmin v Hv). specialize (Hmax v Hv). lra. }
  split; [lra|]. split; [reflexivity|]. split; [|split].
  - apply Forall_map, Forall_forall. intros v Hv. specialize (Lmin v Hv). specialize (Hmax v Hv).
    split.
    + apply Rmult_le_pos; [lra|]. left. apply Rinv_0_lt_compat. lra.
    + apply (Rmult_le_reg_r (hi - lo)); [lra|]. unfold Rdiv.
      rewrite Rmult_assoc, Rinv_l by lra. lra.
  - apply in_map_iff. exists lo. split; auto. unfold Rdiv. ring.
  - apply in_map_iff. exists hi. split; auto. field. lra.
Qed.
Print Assumptions c53_range.

(** The same with any [out], in particular in place: the result is in [out],
    no other array changes. *)
Theorem c53_out : forall junk prog, In prog [normalize_peak; normalize_rms; normalize_range] ->
  forall m x out, (x < next m)%nat -> (out < next m)%nat ->
    List.length (cells m x) = List.length (cells m out) -> cells m x <> [] ->
    exists y m', call junk prog (cells m x) = Ok y /\ prog x out m = Ok (out, m') /\
      cells m' out = y /\ forall l, (l < next m)%nat -> l <> out -> cells m' l = cells m l.
Proof.
  intros junk prog Hp m x out Hx Ho HL Hne.
  assert (G : forall F (P : list R -> Prop) q, computes F P q -> P (cells m x) ->
    exists y m', call junk q (cells m x) = Ok y /\ q x out m = Ok (out, m') /\
      cells m' out = y /\ forall l, (l < next m)%nat -> l <> out -> cells m' l = cells m l).
  { intros F P q H Hq. destruct (H m x out Hx Ho HL Hq) as (m' & R1 & C & _ & O).
    exists (F (cells m x)), m'. split; [now apply (call_computes junk F P)|]. auto. }
  destruct Hp as [<-|[<-|[<-|[]]]].
  - exact (G _ _ _ normalize_peak_ok Hne).
  - exact (G _ _ _ normalize_rms_ok I).
  - exact (G _ _ _ normalize_range_ok Hne).
Qed.
Print Assumptions c53_out.

Example c53_example : forall junk, exists y, call junk normalize_range [2; 4; 3] = Ok y /\
  y = [0; 1; 1 / 2].
Proof.
  intro junk. rewrite (call_computes _ _ _ _ _ normalize_range_ok) by discriminate.
  eexists. split; [reflexivity|]. unfold min_of, max_of. simpl.
  rewrite (Rmin_left 2 4), (Rmin_left 2 3), (Rmax_right 2 4), (Rmax_left 4 3) by lra.
  repeat (apply f_equal2; [lra|]). reflexivity.
Qed.

(** ** C58: onset positions *)

(** Detected onsets: sample [s] is flagged exactly if it is
    [floor (i * size / frames)] for a flagged frame [i]; no index is out of
    range, whatever the sizes. *)
Theorem c58_onset_positions : forall subs size, (1 <= size)%nat ->
  exists ons, onset_detection subs (Z.of_nat size) = Ok ons /\ List.length ons = size /\
    forall s, (s < size)%nat ->
      (nth s ons false = true <->
       exists i, (i < List.length subs)%nat /\ nth i subs false = true /\
         (Z.of_nat s * zlen subs <= Z.of_nat i * Z.of_nat size < (Z.of_nat s + 1) * zlen subs)%Z).
Proof.
  intros subs size Hs. unfold onset_detection.
  set (idx := filter (fun i => nth i subs false) (seq 0 (List.length subs))).
  assert (Hidx : forall i, In i idx <-> (i < List.length subs)%nat /\ nth i subs false = true).
  { intro i. unfold idx. rewrite filter_In, in_seq. intuition. }
  set (f := fun i => (Z.of_nat i * Z.of_nat size / zlen subs)%Z).
  assert (Hf : forall i, In i idx -> (0 <= f i < Z.of_nat size)%Z).
  { intros i Hi. apply Hidx in Hi. unfold f, zlen. split.
    - apply Z.div_pos; lia.
    - apply Z.div_lt_upper_bound; nia. }
  rewrite Nat2Z.id. clearbody idx.
  assert (G : forall l acc, (forall i, In i l -> (0 <= f i < Z.of_nat size)%Z) ->
    List.length acc = size ->
    exists ons, foldM (fun ons i =>
           if (0 <=? i)%Z && (i <? zlen ons)%Z then Ok (upd (Z.to_nat i) true ons)
           else Err IndexError) acc (map f l) = Ok ons /\ List.length ons = size /\
      forall s, (s < size)%nat ->
        (nth s ons false = true <-> nth s acc false = true \/ exists i, In i l /\ f i = Z.of_nat s)).
  { induction l as [|a l IH]; intros acc Hl La; simpl.
    - exists acc. split; [reflexivity|]. split; [auto|]. intros s _. split; auto.
      intros [H|(i & [] & _)]; auto.
    - pose proof (Hl a (or_introl eq_refl)) as Ha. unfold zlen at 1. rewrite La.
      destruct (Z.leb_spec 0 (f a)); [|lia]. destruct (Z.ltb_spec (f a) (Z.of_nat size)); [|lia].
      cbn [andb]. destruct (IH (upd (Z.to_nat (f a)) true acc)) as (ons & R1 & R2 & R3).
      + intros; apply Hl; simpl; auto.
      + now rewrite upd_length.
      + exists ons. split; [exact R1|]. split; [exact R2|]. intros s Hsz. rewrite (R3 s Hsz).
        destruct (Nat.eq_dec s (Z.to_nat (f a))) as [E|N].
        * rewrite E, nth_upd_eq by lia. split; intros _; [right; exists a|auto].
          split; [auto|lia].
        * rewrite nth_upd_neq by auto. split; intros [H1|(i & Hi & Ei)]; auto.
          -- right. exists i. auto.
          -- destruct Hi as [<-|Hi]; [lia|]. right. exists i. auto. }
  destruct (G idx (repeat false size) Hf ltac:(now rewrite repeat_length)) as (ons & R1 & R2 & R3).
  exists ons. split; [exact R1|]. split; [exact R2|]. intros s Hsz. rewrite (R3 s Hsz).
  rewrite nth_repeat_lt by auto. split.
  - intros [H|(i & Hi & Ei)]; [discriminate|]. exists i. apply Hidx in Hi.
    split; [tauto|]. split; [tauto|]. unfold f in Ei.
    pose proof (Z.div_mod (Z.of_nat i * Z.of_nat size) (zlen subs)).
    pose proof (Z.mod_pos_bound (Z.of_nat i * Z.of_nat size) (zlen subs)).
    unfold zlen in *. nia.
  - intros (i & Hi & Ti & B). right. exists i. split; [apply Hidx; auto|]. unfold f.
    symmetry. apply (Z.div_unique_pos _ _ _ (Z.of_nat i * Z.of_nat size - Z.of_nat s * zlen subs)); lia.
Qed.
Print Assumptions c58_onset_positions.

Example c58_example :
  onset_detection [false; true; false; true] 10 =
  Ok [false; false; true; false; false; false; false; true; false; false].
Proof. reflexivity. Qed.

(** ** C59: spectral flux *)

Lemma diff_length : forall l, List.length (diff l) = (List.length l - 1)%nat.
Proof. induction l as [|a [|b l] IH]; simpl in *; auto. rewrite IH. lia. Qed.
Lemma diff_nth : forall l t, (t + 1 < List.length l)%nat ->
  nth t (diff l) 0 = nth (t + 1) l 0 - nth t l 0.
Proof.
  induction l as [|a [|b l] IH]; intros t H; simpl in H; try lia.
  destruct t as [|t]; [reflexivity|].
  change (diff (a :: b :: l)) with ((b - a) :: diff (b :: l)). cbn [nth].
  rewrite IH by (simpl; lia). reflexivity.
Qed.

(** The flux at [t] is the sum over the frequencies of the increments from [t]
    to [t+1]; one value fewer than columns; never negative, and zero exactly
    if no modulus increases. *)
Theorem c59_spectral_flux : forall a n, (1 <= n)%nat -> a <> [] ->
  Forall (fun row => List.length row = n) a ->
  exists flux, spectral_flux a = Ok flux /\ List.length flux = (n - 1)%nat /\
    forall t, (t + 1 < n)%nat ->
      nth t flux 0 = rsum (map (fun row => Rmax (nth (t + 1) row 0 - nth t row 0) 0) a) /\
      0 <= nth t flux 0 /\
      (nth t flux 0 = 0 <-> Forall (fun row => nth (t + 1) row 0 <= nth t row 0) a).
Proof.
  intros a n Hn Hne Ha. unfold spectral_flux.
  set (delta := map (fun row => map (fun d => Rmax d 0) (diff row)) a).
  assert (Hd : Forall (fun row => List.length row = (n - 1)%nat) delta).
  { apply Forall_map. eapply Forall_impl; [|exact Ha]. intros row Hr.
    rewrite map_length, diff_length. now rewrite Hr. }
  assert (Ed : forall t, (t + 1 < n)%nat ->
    map (fun row => nth t row 0) delta
    = map (fun row => Rmax (nth (t + 1) row 0 - nth t row 0) 0) a).
  { intros t Ht. unfold delta. rewrite map_map. apply map_ext_in. intros row Hr.
    rewrite Forall_forall in Ha. specialize (Ha row Hr).
    rewrite (nth_map_lt _ _ _ 0) by (rewrite diff_length; lia). rewrite diff_nth by lia. reflexivity. }
  destruct delta as [|row rows] eqn:E; [destruct a; [congruence|discriminate]|].
  eexists. split; [reflexivity|].
  assert (G : forall rows row, List.length row = (n - 1)%nat ->
    Forall (fun row => List.length row = (n - 1)%nat) rows ->
    List.length (fold_left (map2 Rplus) rows row) = (n - 1)%nat /\
    forall t, (t < n - 1)%nat -> nth t (fold_left (map2 Rplus) rows row) 0
      = rsum (map (fun row => nth t row 0) (row :: rows))).
  { clear. induction rows as [|r rows IH]; intros row Hr F; simpl.
    - split; [auto|]. intros. lra.
    - inversion F as [|? ? F1 F2]; subst.
      destruct (IH (map2 Rplus row r)) as [I1 I2]; [rewrite map2_length; lia|auto|].
      split; [exact I1|]. intros t Ht. rewrite I2 by auto. simpl.
      unfold map2 at 1. rewrite (nth_map_lt _ _ _ (0, 0)) by (rewrite combine_length; lia).
      rewrite nth_combine by lia. simpl. lra. }
  inversion Hd as [|? ? D1 D2]; subst.
  destruct (G rows row D1 D2) as [G1 G2]. split; [exact G1|].
  intros t Ht. rewrite G2 by lia. rewrite Ed by auto.
  split; [reflexivity|].
  assert (Pos : forall r, 0 <= Rmax (nth (t + 1) r 0 - nth t r 0) 0) by (intro; apply Rmax_r).
  split; [apply rsum_nonneg; auto|]. split.
  - intro Z. apply Forall_forall. intros r Hr.
    assert (Zr : Rmax (nth (t + 1) r 0 - nth t r 0) 0 = 0).
    { apply (rsum_zero_all (map (fun row => Rmax (nth (t + 1) row 0 - nth t row 0) 0) a)); auto.
      - intros x Hx. apply in_map_iff in Hx. destruct Hx as (r' & <- & _). auto.
      - apply in_map_iff. exists r. auto. }
    pose proof (Rmax_l (nth (t + 1) r 0 - nth t r 0) 0). lra.
  - intro F. apply rsum_zero. intros r Hr. rewrite Forall_forall in F. specialize (F r Hr).
    apply Rmax_right. lra.
Qed.
Print Assumptions c59_spectral_flux.

Example c59_example : exists f, spectral_flux [[1; 3; 2]; [0; 1; 5]] = Ok f /\ f = [3; 4].
Proof.
  eexists. split; [reflexivity|]. unfold map2. simpl.
  rewrite (Rmax_left (3 - 1) 0), (Rmax_right (2 - 3) 0), (Rmax_left (1 - 0) 0), (Rmax_left (5 - 1) 0) by lra.
  repeat (apply f_equal2; [lra|]). reflexivity.
Qed.
