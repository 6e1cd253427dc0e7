(** From the operations of [Peak_Model.v] to the real numbers of
    [Peak_Round.v] and [Peak_Accuracy.v] (C106). *)
From Coq Require Import String ZArith Reals Lra Lia Bool List Sorted.
From Flocq Require Import Core IEEE754.BinarySingleNaN.
Import ListNotations.
From Verif Require Import Base Py PyLemmas ListLemmas Stft_Model Stft_Proofs Double_Model
  Double_Float Peak_Model Peak_Round Peak_Accuracy.
Local Open Scope R_scope.

(** ** Values of operations that do not overflow *)

Lemma val_fmt : forall x : f64_num, fmt (val x).
Proof. intro x. apply (generic_format_B2R 53 1024). Qed.

Lemma bound_lt : forall x, Rabs x <= bpow radix2 1023 -> Rabs (rnd x) < bpow radix2 1024.
Proof.
  intros x H. apply Rle_lt_trans with (bpow radix2 1023).
  - apply rnd_abs_le; auto. apply fmt_bpow. lia.
  - apply bpow_lt. lia.
Qed.

Lemma fadd_val : forall x y : f64_num, finite x -> finite y ->
  Rabs (val x + val y) <= bpow radix2 1023 ->
  finite (fadd x y) /\ val (fadd x y) = rnd (val x + val y).
Proof.
  intros x y Fx Fy B. pose proof (Bplus_correct 53 1024 prec_pos prec_emax mode_NE x y Fx Fy) as H.
  apply bound_lt in B. unfold rnd in B. rewrite Rlt_bool_true in H by exact B.
  destruct H as (H1 & H2 & _). auto.
Qed.
Lemma fsub_val : forall x y : f64_num, finite x -> finite y ->
  Rabs (val x - val y) <= bpow radix2 1023 ->
  finite (fsub x y) /\ val (fsub x y) = rnd (val x - val y).
Proof.
  intros x y Fx Fy B. pose proof (Bminus_correct 53 1024 prec_pos prec_emax mode_NE x y Fx Fy) as H.
  apply bound_lt in B. unfold rnd in B. rewrite Rlt_bool_true in H by exact B.
  destruct H as (H1 & H2 & _). auto.
Qed.
Lemma fmul_val : forall x y : f64_num, finite x -> finite y ->
  Rabs (val x * val y) <= bpow radix2 1023 ->
  finite (fmul x y) /\ val (fmul x y) = rnd (val x * val y).
Proof. intros x y Fx Fy B. apply bmul_val; auto. now apply bound_lt. Qed.
Lemma fdiv_val : forall x y : f64_num, finite x -> val y <> 0 ->
  Rabs (val x / val y) <= bpow radix2 1023 ->
  finite (fdiv x y) /\ val (fdiv x y) = rnd (val x / val y).
Proof. intros x y Fx Ny B. apply bdiv_val; auto. now apply bound_lt. Qed.

Lemma f64_of_val : forall m e, (Z.abs m <= 2 ^ 53)%Z -> (-1074 <= e <= 900)%Z ->
  finite (f64_of m e) /\ val (f64_of m e) = IZR m * bpow radix2 e.
Proof.
  intros m e Hm He.
  pose proof (binary_normalize_correct 53 1024 prec_pos prec_emax mode_NE m e false) as H.
  assert (F : fmt (IZR m * bpow radix2 e)) by (apply fmt_scaled; lia).
  assert (E : round radix2 (SpecFloat.fexp 53 1024) (round_mode mode_NE) (F2R (Float radix2 m e))
              = IZR m * bpow radix2 e) by (apply rnd_id; exact F).
  cbv zeta in H. rewrite E in H. rewrite Rlt_bool_true in H.
  - destruct H as (H1 & H2 & _). auto.
  - rewrite Rabs_mult, (Rabs_pos_eq (bpow radix2 e)) by apply bpow_ge_0. rewrite <- abs_IZR.
    apply Rle_lt_trans with (bpow radix2 53 * bpow radix2 e).
    + apply Rmult_le_compat_r; [apply bpow_ge_0|].
      change (bpow radix2 53) with (IZR (2 ^ 53)). now apply IZR_le.
    + rewrite <- bpow_plus. apply bpow_lt. lia.
Qed.

Lemma fgt_iff : forall x y : f64_num, finite x -> finite y -> (fgt x y = true <-> val y < val x).
Proof.
  intros x y Fx Fy. unfold fgt. rewrite Bltb_correct by auto.
  destruct (Rlt_bool_spec (val y) (val x)); split; intros; try discriminate; auto. lra.
Qed.

(** ** Detection *)

(** What a detected index is, for any doubles. *)
Definition f_at (x : list f64_num) (i : Z) : f64_num := nth (Z.to_nat i) x B754_nan.

Lemma f_peak_conds : forall x t, exists conds,
  List.length conds = (List.length x - 2)%nat /\
  f_peak_detect x t = map (fun i => Z.of_nat i + 1)%Z
      (filter (fun i => nth i conds false) (seq 0 (List.length conds))) /\
  forall i, (i < List.length conds)%nat ->
    nth i conds false =
     (fgt (nth (1 + i) x B754_nan) (nth (2 + i) x B754_nan) &&
      fgt (nth (1 + i) x B754_nan) (nth i x B754_nan) &&
      match t with None => true | Some t => fgt (nth (1 + i) x B754_nan) t end)%bool.
Proof.
  intros x t. unfold f_peak_detect.
  set (c := slice (Some 1%Z) (Some (-1)%Z) x).
  set (nx := slice (Some 2%Z) None x).
  set (pv := slice None (Some (-2)%Z) x).
  assert (Lx : zlen x = Z.of_nat (List.length x)) by reflexivity.
  assert (Lc : List.length c = (List.length x - 2)%nat).
  { unfold c. rewrite slice_length. unfold hi_bound, lo_bound, slice_bound. rewrite Lx.
    change (-1 <? 0)%Z with true. change (-2 <? 0)%Z with true.
    change (1 <? 0)%Z with false. change (2 <? 0)%Z with false. cbv iota. lia. }
  assert (Ln : List.length nx = (List.length x - 2)%nat).
  { unfold nx. rewrite slice_length. unfold hi_bound, lo_bound, slice_bound. rewrite Lx.
    change (-1 <? 0)%Z with true. change (-2 <? 0)%Z with true.
    change (1 <? 0)%Z with false. change (2 <? 0)%Z with false. cbv iota. lia. }
  assert (Lp : List.length pv = (List.length x - 2)%nat).
  { unfold pv. rewrite slice_length. unfold hi_bound, lo_bound, slice_bound. rewrite Lx.
    change (-1 <? 0)%Z with true. change (-2 <? 0)%Z with true.
    change (1 <? 0)%Z with false. change (2 <? 0)%Z with false. cbv iota. lia. }
  assert (Nc : forall i, (i < List.length x - 2)%nat -> nth i c B754_nan = nth (1 + i) x B754_nan).
  { intros. unfold c. rewrite slice_nth by (fold c; lia). f_equal.
    unfold lo_bound. rewrite slice_bound_pos by lia. reflexivity. }
  assert (Nn : forall i, (i < List.length x - 2)%nat -> nth i nx B754_nan = nth (2 + i) x B754_nan).
  { intros. unfold nx. rewrite slice_nth by (fold nx; lia). f_equal.
    unfold lo_bound. rewrite slice_bound_pos by lia. reflexivity. }
  assert (Np : forall i, (i < List.length x - 2)%nat -> nth i pv B754_nan = nth i x B754_nan).
  { intros. unfold pv. rewrite slice_nth by (fold pv; lia). reflexivity. }
  clearbody c nx pv.
  set (g := fun p : f64_num * f64_num => fgt (fst p) (snd p)).
  set (b := fun p : bool * bool => (fst p && snd p)%bool).
  set (c2 := map b (combine (map g (combine c nx)) (map g (combine c pv)))).
  assert (L2 : List.length c2 = (List.length x - 2)%nat).
  { unfold c2. rewrite map_length, combine_length, !map_length, !combine_length. lia. }
  assert (V2 : forall i, (i < List.length c2)%nat ->
     nth i c2 false = (fgt (nth (1 + i) x B754_nan) (nth (2 + i) x B754_nan) &&
                       fgt (nth (1 + i) x B754_nan) (nth i x B754_nan))%bool).
  { intros i Hi. rewrite L2 in Hi. unfold c2.
    rewrite (nth_map_lt _ _ _ (false, false))
      by (rewrite combine_length, !map_length, !combine_length; lia).
    rewrite nth_combine by (rewrite map_length, combine_length; lia).
    rewrite !(nth_map_lt _ _ g (B754_nan, B754_nan)) by (rewrite combine_length; lia).
    rewrite !nth_combine by (unfold f64_num in *; lia). unfold b, g. cbn [fst snd].
    rewrite Nc, Nn, Np by lia. reflexivity. }
  destruct t as [t|].
  - exists (map b (combine c2 (map (fun v => fgt v t) c))).
    assert (L3 : List.length (map b (combine c2 (map (fun v => fgt v t) c)))
                 = (List.length x - 2)%nat).
    { rewrite map_length, combine_length, map_length. lia. }
    split; [exact L3|]. split; [reflexivity|]. intros i Hi. rewrite L3 in Hi.
    rewrite (nth_map_lt _ _ _ (false, false))
      by (rewrite combine_length, !map_length; lia).
    rewrite nth_combine by (rewrite ?map_length; lia).
    rewrite (nth_map_lt _ _ (fun v => fgt v t) B754_nan) by lia.
    unfold b at 1. cbn [fst snd]. rewrite Nc by lia. rewrite V2 by (rewrite L2; exact Hi). reflexivity.
  - exists c2. split; [exact L2|]. split; [reflexivity|]. intros i Hi.
    rewrite V2 by auto. rewrite andb_true_r. reflexivity.
Qed.

Lemma f_peak_iff : forall x t i,
  In i (f_peak_detect x t) <->
  (1 <= i)%Z /\ (i + 1 < zlen x)%Z /\
  fgt (f_at x i) (f_at x (i - 1)) = true /\ fgt (f_at x i) (f_at x (i + 1)) = true /\
  match t with None => True | Some t => fgt (f_at x i) t = true end.
Proof.
  intros x t i. destruct (f_peak_conds x t) as (conds & L & E & V). rewrite E.
  rewrite in_map_iff. unfold f_at, zlen. split.
  - intros (k & Ek & Hk). apply filter_In in Hk. destruct Hk as [Hk Ck].
    apply in_seq in Hk. rewrite V in Ck by lia. subst i.
    replace (Z.to_nat (Z.of_nat k + 1 - 1)) with k by lia.
    replace (Z.to_nat (Z.of_nat k + 1 + 1)) with (2 + k)%nat by lia.
    replace (Z.to_nat (Z.of_nat k + 1)) with (1 + k)%nat by lia.
    rewrite !andb_true_iff in Ck. destruct Ck as ((A & B) & C). repeat split; auto; try lia.
    destruct t; auto.
  - intros (H1 & H2 & A & B & C). exists (Z.to_nat (i - 1)). split; [lia|].
    apply filter_In. split; [apply in_seq; lia|]. rewrite V by lia.
    replace (2 + Z.to_nat (i - 1))%nat with (Z.to_nat (i + 1)) by lia.
    replace (1 + Z.to_nat (i - 1))%nat with (Z.to_nat i) by lia.
    rewrite A, B. destruct t; auto.
Qed.

Lemma f_peak_sorted : forall x t, StronglySorted Z.lt (f_peak_detect x t).
Proof.
  intros. destruct (f_peak_conds x t) as (conds & _ & E & _). rewrite E.
  apply sorted_filter_seq.
Qed.

(** Doubles are not both above and below each other. *)
Lemma fgt_asym : forall x y, fgt x y = true -> fgt y x = true -> False.
Proof.
  intros x y A B. destruct x as [s|s| |s m e H], y as [s'|s'| |s' m' e' H'];
    try discriminate A; try discriminate B.
  all: try (destruct s; discriminate).
  all: try (destruct s'; discriminate).
  all: try (destruct s, s'; discriminate).
  unfold fgt in *. rewrite Bltb_correct in A, B by reflexivity.
  revert A B. case Rlt_bool_spec; intros; try discriminate.
  revert B. case Rlt_bool_spec; intros; try discriminate. lra.
Qed.

Lemma f_peak_gap : forall x t i j, In i (f_peak_detect x t) -> In j (f_peak_detect x t) ->
  (i < j)%Z -> (i + 2 <= j)%Z.
Proof.
  intros x t i j Hi Hj L. destruct (Z.eq_dec j (i + 1)) as [->|]; [|lia].
  apply f_peak_iff in Hi. apply f_peak_iff in Hj.
  destruct Hi as (_ & _ & _ & A & _). destruct Hj as (_ & _ & B & _ & _).
  replace (i + 1 - 1)%Z with i in B by lia. exfalso. eapply fgt_asym; eauto.
Qed.

(** ** Refinement *)

(** Numbers far from overflow: less than [2^1020]. *)
Definition moderate (x : f64_num) : Prop := finite x /\ Rabs (val x) <= bpow radix2 1020.

Lemma b1020 : bpow radix2 1023 = 8 * bpow radix2 1020 /\ 8 <= bpow radix2 1020.
Proof.
  split.
  - change 1023%Z with (3 + 1020)%Z. rewrite bpow_plus. reflexivity.
  - change 8 with (bpow radix2 3). apply bpow_le. lia.
Qed.

Lemma getitem_nth : forall (x : list f64_num) i, (0 <= i < zlen x)%Z -> getitem x i = Ok (f_at x i).
Proof.
  intros x i H. unfold getitem, f_at.
  rewrite (proj2 (Z.ltb_ge i 0)) by lia. cbv zeta.
  rewrite (proj2 (Z.leb_le 0 i)), (proj2 (Z.ltb_lt i (zlen x))) by lia. cbn [andb].
  destruct (nth_error x (Z.to_nat i)) eqn:E.
  - apply nth_error_nth with (d := B754_nan) in E. now rewrite E.
  - apply nth_error_None in E. unfold zlen in H. lia.
Qed.

Section Refine.
  Variables (mx : list f64_num) (i : Z).
  Hypotheses (Hi : (1 <= i)%Z) (Hi2 : (i + 1 < zlen mx)%Z) (Hn : (i <= 2 ^ 50)%Z).
  Let L := f_at mx (i - 1).
  Let C := f_at mx i.
  Let R_ := f_at mx (i + 1).
  Hypotheses (ML : moderate L) (MC : moderate C) (MR : moderate R_).
  Hypotheses (HL : val L < val C) (HR : val R_ < val C).

  Local Notation l := (val L).
  Local Notation c := (val C).
  Local Notation r := (val R_).

  Lemma refine1_val : exists loc mag, f_refine1 mx i = Ok (loc, mag) /\
    finite loc /\ finite mag /\
    val loc = rnd (IZR i + par_off l c r) /\ val mag = rnd (c - par_p l c r).
  Proof.
    destruct ML as [FL BL], MC as [FC BC], MR as [FR BR].
    destruct b1020 as [E23 G20]. set (M := bpow radix2 1020) in *.
    apply Rabs_le_inv in BL. apply Rabs_le_inv in BC. apply Rabs_le_inv in BR.
    assert (FM : forall k, (0 <= k <= 3)%Z -> fmt (bpow radix2 k * M)).
    { intros k Hk. unfold M. rewrite <- bpow_plus. apply fmt_bpow. lia. }
    assert (F2M : fmt (2 * M)) by (apply (FM 1%Z); lia).
    assert (F4M : fmt (4 * M)) by (apply (FM 2%Z); lia).
    unfold f_refine1. rewrite !getitem_nth by lia. cbn [bind]. fold L C R_.
    destruct (fsub_val L R_ FL FR) as [FD VD]; [apply Rabs_le; lra|].
    fold (par_d l r) in VD.
    assert (BD : Rabs (par_d l r) <= 2 * M) by (apply rnd_abs_le; [exact F2M|apply Rabs_le; lra]).
    apply Rabs_le_inv in BD.
    destruct (f64_of_val 2 0 ltac:(lia) ltac:(lia)) as [F2 V2].
    rewrite Rmult_1_r in V2.
    destruct (fmul_val (f64_of 2 0) C F2 FC) as [F2C V2C]; [rewrite V2; apply Rabs_le; lra|].
    rewrite V2, rnd_id in V2C by (apply fmt_double, val_fmt).
    destruct (fsub_val L (fmul (f64_of 2 0) C) FL F2C) as [FS VS];
      [rewrite V2C; apply Rabs_le; lra|].
    rewrite V2C in VS. fold (par_s l c) in VS.
    assert (BS : Rabs (par_s l c) <= 4 * M) by (apply rnd_abs_le; [exact F4M|apply Rabs_le; lra]).
    apply Rabs_le_inv in BS.
    destruct (fadd_val _ R_ FS FR) as [FN VN]; [rewrite VS; apply Rabs_le; lra|].
    rewrite VS in VN. fold (par_den l c r) in VN.
    pose proof (den_neg l c r (val_fmt _) (val_fmt _) HL HR) as DN.
    destruct (f64_of_val 1 (-1) ltac:(lia) ltac:(lia)) as [FH VH].
    rewrite Rmult_1_l in VH. change (bpow radix2 (-1)) with (/ 2) in VH.
    destruct (fmul_val (f64_of 1 (-1)) (fsub L R_) FH FD) as [FHD VHD];
      [rewrite VH, VD; apply Rabs_le; lra|].
    rewrite VH, VD in VHD. replace (/ 2 * par_d l r) with (par_d l r / 2) in VHD by field.
    pose proof (d_den l c r (val_fmt _) (val_fmt _) (val_fmt _) HL HR) as DD.
    pose proof (half_den l c r (val_fmt _) (val_fmt _) (val_fmt _) HL HR) as HW.
    pose proof uro_small as US. pose proof uro_pos as U0.
    assert (Q1 : Rabs (rnd (par_d l r / 2) / par_den l c r) <= 1).
    { unfold Rdiv at 1. rewrite Rabs_mult, Rabs_inv.
      assert (P : 0 < Rabs (par_den l c r)) by (apply Rabs_pos_lt; lra).
      apply Rmult_le_reg_r with (Rabs (par_den l c r)); auto.
      rewrite Rmult_assoc, Rinv_l, Rmult_1_r by lra. nra. }
    destruct (fdiv_val _ (fadd (fsub L (fmul (f64_of 2 0) C)) R_) FHD) as [FO VO].
    { rewrite VN. lra. }
    { rewrite VHD, VN. lra. }
    rewrite VHD, VN in VO. fold (par_off l c r) in VO.
    pose proof (off_wide l c r (val_fmt _) (val_fmt _) (val_fmt _) HL HR) as OW.
    apply Rabs_le_inv in OW.
    destruct (f64_of_val i 0 ltac:(lia) ltac:(lia)) as [FI VI]. rewrite Rmult_1_r in VI.
    assert (BI : IZR i <= 1 * M).
    { unfold M. apply Rle_trans with (IZR (2 ^ 50)); [now apply IZR_le|].
      change (IZR (2 ^ 50)) with (bpow radix2 50). rewrite Rmult_1_l. apply bpow_le. lia. }
    assert (BI0 : 1 <= IZR i) by now apply IZR_le.
    set (off := fdiv (fmul (f64_of 1 (-1)) (fsub L R_))
                     (fadd (fsub L (fmul (f64_of 2 0) C)) R_)) in *.
    destruct (fadd_val (f64_of i 0) off FI FO) as [FLc VLc].
    { rewrite VI, VO. apply Rabs_le. lra. }
    rewrite VI, VO in VLc.
    destruct (f64_of_val 1 (-2) ltac:(lia) ltac:(lia)) as [FQ VQ].
    rewrite Rmult_1_l in VQ. change (bpow radix2 (-2)) with (/ 4) in VQ.
    destruct (fmul_val (f64_of 1 (-2)) (fsub L R_) FQ FD) as [FQD VQD];
      [rewrite VQ, VD; apply Rabs_le; lra|].
    rewrite VQ, VD in VQD. replace (/ 4 * par_d l r) with (par_d l r / 4) in VQD by field.
    assert (BQ : Rabs (rnd (par_d l r / 4)) <= 2 * M) by (apply rnd_abs_le; [exact F2M|apply Rabs_le; lra]).
    assert (BP : Rabs (rnd (par_d l r / 4) * par_off l c r) <= 2 * M).
    { rewrite Rabs_mult. assert (Rabs (par_off l c r) <= 1) by (apply Rabs_le; lra).
      pose proof (Rabs_pos (rnd (par_d l r / 4))). pose proof (Rabs_pos (par_off l c r)). nra. }
    destruct (fmul_val _ off FQD FO) as [FP VP]; [rewrite VQD, VO; lra|].
    rewrite VQD, VO in VP. fold (par_p l c r) in VP.
    assert (BPp : Rabs (par_p l c r) <= 2 * M) by (apply rnd_abs_le; auto).
    apply Rabs_le_inv in BPp.
    destruct (fsub_val C _ FC FP) as [FMg VMg]; [rewrite VP; apply Rabs_le; lra|].
    rewrite VP in VMg.
    eexists. eexists. split; [reflexivity|]. auto.
  Qed.
End Refine.

(** ** Phases *)

Lemma count_below : forall n k, (k < n)%nat ->
  List.length (filter (fun j => Nat.leb j k) (seq 0 n)) = (k + 1)%nat.
Proof.
  intros n k H. replace n with ((k + 1) + (n - (k + 1)))%nat by lia.
  rewrite seq_app, filter_app, app_length.
  assert (E1 : filter (fun j => Nat.leb j k) (seq 0 (k + 1)) = seq 0 (k + 1)).
  { assert (G : forall l, (forall j, In j l -> (j <= k)%nat) -> filter (fun j => Nat.leb j k) l = l).
    { induction l as [|a l IH]; intro F; cbn [filter]; auto.
      rewrite (proj2 (Nat.leb_le a k)) by (apply F; now left). f_equal. apply IH.
      intros j Hj. apply F. now right. }
    apply G. intros j Hj. apply in_seq in Hj. lia. }
  assert (E2 : filter (fun j => Nat.leb j k) (seq (0 + (k + 1)) (n - (k + 1))) = []).
  { assert (G : forall l, (forall j, In j l -> (k < j)%nat) -> filter (fun j => Nat.leb j k) l = []).
    { induction l as [|a l IH]; intro F; cbn [filter]; auto.
      rewrite (proj2 (Nat.leb_gt a k)) by (apply F; now left). apply IH.
      intros j Hj. apply F. now right. }
    apply G. intros j Hj. apply in_seq in Hj. lia. }
  rewrite E1, E2, seq_length. cbn [List.length]. lia.
Qed.

(** Linear interpolation between samples [k] and [k + 1]. *)
Definition line (a b f : R) : R := a + (b - a) * f.

Lemma interp_val : forall x px, finite x -> Forall moderate px ->
  (2 <= List.length px)%nat -> (Z.of_nat (List.length px) <= 2 ^ 50)%Z ->
  0 <= val x <= INR (List.length px - 1) ->
  let k := Z.to_nat (Zfloor (val x)) in
  exists y, f_interp x px = Ok y /\ finite y /\
    (val x = INR k -> y = nth k px B754_nan) /\
    (forall a b, (k + 1 < List.length px)%nat -> a = val (nth k px B754_nan) ->
       b = val (nth (k + 1) px B754_nan) ->
       Rabs (val y - line a b (val x - INR k)) <= bpow radix2 (-50) * (Rabs a + Rabs b) + bpow radix2 (-1074)).
Proof.
  intros x px Fx Mp N2 NB Bx k.
  destruct px as [|p0 px']; [cbn in N2; lia|]. set (px := p0 :: px') in *.
  assert (XF : IZR (Zfloor (val x)) <= val x < IZR (Zfloor (val x)) + 1).
  { split; [apply Zfloor_lb|apply Zfloor_ub]. }
  assert (FZ : (0 <= Zfloor (val x))%Z) by (apply Zfloor_lub; apply Bx).
  assert (EK : INR k = IZR (Zfloor (val x))).
  { unfold k. rewrite INR_IZR_INZ, Z2Nat.id by auto. reflexivity. }
  assert (KN : (k <= List.length px - 1)%nat).
  { apply INR_le. rewrite EK. apply Rle_trans with (val x); [apply XF|apply Bx]. }
  assert (XP : forall j, (j < List.length px)%nat -> finite (f64_of (Z.of_nat j) 0) /\
                 val (f64_of (Z.of_nat j) 0) = INR j).
  { intros j Hj. destruct (f64_of_val (Z.of_nat j) 0) as [A B]; try lia. split; auto.
    rewrite B, Rmult_1_r, INR_IZR_INZ. reflexivity. }
  assert (SEL : forall j, (j < List.length px)%nat ->
     negb (fgt (f64_of (Z.of_nat j) 0) x) = Nat.leb j k).
  { intros j Hj. destruct (XP j Hj) as [A B].
    destruct (Nat.leb_spec j k) as [Q|Q].
    - destruct (fgt _ x) eqn:G; auto. apply fgt_iff in G; auto. rewrite B in G.
      assert (INR j <= INR k) by now apply le_INR. lra.
    - replace (fgt (f64_of (Z.of_nat j) 0) x) with true; auto. symmetry.
      apply fgt_iff; auto. rewrite B.
      assert (INR (k + 1) <= INR j) by (apply le_INR; lia). rewrite plus_INR in H. cbn [INR] in H. lra. }
  assert (CNT : (List.length (filter (fun j => negb (fgt (f64_of (Z.of_nat j) 0) x))
                   (seq 0 (List.length px))) - 1)%nat = k).
  { rewrite (filter_ext_in _ (fun j => Nat.leb j k)).
    - rewrite count_below by lia. lia.
    - intros j Hj. apply in_seq in Hj. apply SEL. lia. }
  unfold f_interp. unfold px at 1. fold px. cbv zeta. rewrite CNT.
  replace (is_nan x) with false by (symmetry; now apply finite_notnan).
  assert (G1 : fgt x (f64_of (Z.of_nat (List.length px - 1)) 0) = false).
  { destruct (fgt _ _) eqn:G; auto. destruct (XP (List.length px - 1)%nat) as [A B]; [lia|].
    apply fgt_iff in G; auto. rewrite B in G. lra. }
  assert (G2 : fgt (f64_of (Z.of_nat 0) 0) x = false).
  { apply not_true_is_false. intro G. destruct (XP 0%nat) as [A B]; [lia|].
    pose proof (proj1 (fgt_iff _ _ A Fx) G) as G'. rewrite B in G'. cbn [INR] in G'. lra. }
  rewrite G1, G2.
  assert (ND : forall j d, (j < List.length px)%nat -> nth j px d = nth j px B754_nan).
  { intros. now apply nth_indep. }
  assert (MD : forall j, (j < List.length px)%nat -> moderate (nth j px B754_nan)).
  { intros j Hj. rewrite Forall_forall in Mp. apply Mp. now apply nth_In. }
  destruct (XP k) as [FK VK]; [lia|].
  destruct (MD k) as [FA BA]; [lia|].
  pose proof uro_pos as U0.
  destruct (Nat.eqb_spec k (List.length px - 1)) as [KL|KL].
  { exists (nth k px p0). rewrite ND by lia. split; [reflexivity|]. split; [exact FA|].
    split; [reflexivity|]. intros a b Hk. lia. }
  assert (HK1 : (k + 1 < List.length px)%nat) by lia.
  destruct (XP (k + 1)%nat HK1) as [FK1 VK1].
  destruct (MD (k + 1)%nat HK1) as [FB BB].
  destruct (Beqb (f64_of (Z.of_nat k) 0) x) eqn:EQ.
  { rewrite Beqb_correct in EQ by auto. revert EQ. case Req_bool_spec; [intros EQ _|discriminate].
    exists (nth k px p0). rewrite ND by lia. split; [reflexivity|]. split; [exact FA|].
    split; [reflexivity|]. intros a b _ -> ->.
    rewrite <- EQ, VK. unfold line.
    replace (val (nth k px B754_nan) - _) with 0 by ring. rewrite Rabs_R0.
    pose proof (Rabs_pos (val (nth k px B754_nan))).
    pose proof (Rabs_pos (val (nth (k + 1) px B754_nan))).
    pose proof (bpow_gt_0 radix2 (-50)). pose proof (bpow_gt_0 radix2 (-1074)). nra. }
  assert (NE : val x <> INR k).
  { intro E. rewrite Beqb_correct in EQ by auto. rewrite VK, E in EQ.
    rewrite Req_bool_true in EQ by reflexivity. discriminate. }
  set (a := val (nth k px B754_nan)) in *. set (b := val (nth (k + 1) px B754_nan)) in *.
  rewrite (ND k p0), (ND (k + 1)%nat p0) by lia.
  destruct b1020 as [E23 G20]. set (M := bpow radix2 1020) in *.
  assert (F2M : fmt (2 * M)).
  { unfold M. change 2 with (bpow radix2 1). rewrite <- bpow_plus. apply fmt_bpow. lia. }
  assert (BA' := BA). assert (BB' := BB).
  apply Rabs_le_inv in BA. apply Rabs_le_inv in BB.
  destruct (fsub_val (nth (k + 1) px B754_nan) (nth k px B754_nan) FB FA) as [FD VD];
    [fold a b; apply Rabs_le; lra|]. fold a b in VD.
  destruct (fsub_val (f64_of (Z.of_nat (k + 1)) 0) (f64_of (Z.of_nat k) 0) FK1 FK) as [F1 V1].
  { rewrite VK1, VK, plus_INR. cbn [INR]. replace (INR k + 1 - INR k) with 1 by ring.
    rewrite Rabs_pos_eq; lra. }
  rewrite VK1, VK, plus_INR in V1. cbn [INR] in V1. replace (INR k + 1 - INR k) with 1 in V1 by ring.
  rewrite (rnd_id 1) in V1 by (change 1 with (bpow radix2 0); apply fmt_bpow; lia).
  assert (BD : Rabs (rnd (b - a)) <= 2 * M) by (apply rnd_abs_le; [exact F2M|apply Rabs_le; lra]).
  destruct (fdiv_val (fsub (nth (k + 1) px B754_nan) (nth k px B754_nan)) _ FD
              (ltac:(rewrite V1; lra) : val (fsub (f64_of (Z.of_nat (k + 1)) 0) (f64_of (Z.of_nat k) 0)) <> 0))
    as [FSl VSl].
  { rewrite VD, V1. unfold Rdiv. rewrite Rinv_1, Rmult_1_r. lra. }
  rewrite VD, V1 in VSl. unfold Rdiv in VSl. rewrite Rinv_1, Rmult_1_r in VSl.
  rewrite (rnd_id (rnd (b - a))) in VSl by apply rnd_fmt.
  set (slope := fdiv _ _) in *.
  assert (F01 : 0 <= val x - INR k <= 1) by (rewrite EK; lra).
  destruct (fsub_val x (f64_of (Z.of_nat k) 0) Fx FK) as [FF VF].
  { rewrite VK. rewrite Rabs_pos_eq; lra. }
  rewrite VK in VF.
  set (f := val x - INR k) in *.
  assert (FKf : fmt (INR k)) by (rewrite <- VK; apply val_fmt).
  destruct (rnd_minus (val x) (INR k) (val_fmt x) FKf) as (e2 & B2 & E2). fold f in E2.
  assert (F1f : fmt 1) by (change 1 with (bpow radix2 0); apply fmt_bpow; lia).
  assert (RF : Rabs (rnd f) <= 1).
  { apply rnd_abs_le; auto. rewrite Rabs_pos_eq; lra. }
  destruct (fmul_val slope (fsub x (f64_of (Z.of_nat k) 0)) FSl FF) as [FPr VPr].
  { rewrite VSl, VF, Rabs_mult. pose proof (Rabs_pos (rnd (b - a))). pose proof (Rabs_pos (rnd f)). nra. }
  rewrite VSl, VF in VPr.
  assert (BP : Rabs (rnd (rnd (b - a) * rnd f)) <= 2 * M).
  { apply rnd_abs_le; auto. rewrite Rabs_mult.
    pose proof (Rabs_pos (rnd (b - a))). pose proof (Rabs_pos (rnd f)). nra. }
  destruct (fadd_val (fmul slope (fsub x (f64_of (Z.of_nat k) 0))) (nth k px B754_nan) FPr FA) as [FY VY].
  { fold a. rewrite VPr. apply Rabs_le_inv in BP. apply Rabs_le. lra. }
  fold a in VY. rewrite VPr in VY.
  exists (fadd (fmul slope (fsub x (f64_of (Z.of_nat k) 0))) (nth k px B754_nan)).
  replace (is_nan (fadd (fmul slope (fsub x (f64_of (Z.of_nat k) 0))) (nth k px B754_nan)))
    with false by (symmetry; now apply finite_notnan).
  split; [reflexivity|]. split; [exact FY|]. split; [intro; contradiction|].
  intros a' b' _ -> ->. fold a b. rewrite VY.
  destruct (rnd_minus b a (val_fmt _) (val_fmt _)) as (e1 & B1 & E1).
  pose proof (rnd_near (rnd (b - a) * rnd f)) as N3.
  set (P := rnd (rnd (b - a) * rnd f)) in *.
  destruct (rnd_plus P a (rnd_fmt _) (val_fmt _)) as (e4 & B4 & E4).
  rewrite E4.
  set (u := uro) in *.
  assert (US : u <= / 1024) by apply uro_small.
  assert (E50 : bpow radix2 (-50) = 8 * u).
  { unfold u. rewrite uro_val. change (-50)%Z with (3 + -53)%Z. rewrite bpow_plus. reflexivity. }
  rewrite E50.
  set (w := bpow radix2 (-1074)) in *.
  assert (W0 : 0 < w) by apply bpow_gt_0.
  set (S := Rabs a + Rabs b).
  assert (S0 : 0 <= S) by (unfold S; pose proof (Rabs_pos a); pose proof (Rabs_pos b); lra).
  assert (SD : Rabs (b - a) <= S).
  { unfold S, Rminus. eapply Rle_trans; [apply Rabs_triang|]. rewrite Rabs_Ropp. lra. }
  assert (SA : Rabs a <= S) by (unfold S; pose proof (Rabs_pos b); lra).
  (* the product *)
  set (T := (b - a) * f).
  assert (TS : Rabs T <= S).
  { unfold T. rewrite Rabs_mult, (Rabs_pos_eq f) by lra. pose proof (Rabs_pos (b - a)). nra. }
  assert (Q1 : rnd (b - a) * rnd f = T + T * (e1 + e2 + e1 * e2)).
  { rewrite E1, E2. unfold T. ring. }
  assert (Q2 : Rabs (e1 + e2 + e1 * e2) <= 2 * u + u * u).
  { eapply Rle_trans; [apply Rabs_triang|]. rewrite Rabs_mult.
    pose proof (Rabs_triang e1 e2). pose proof (Rabs_pos e1). pose proof (Rabs_pos e2). nra. }
  assert (Q3 : Rabs (T * (e1 + e2 + e1 * e2)) <= S * (2 * u + u * u)).
  { rewrite Rabs_mult. pose proof (Rabs_pos T). pose proof (Rabs_pos (e1 + e2 + e1 * e2)).
    apply Rmult_le_compat; auto. }
  assert (UU : S * (u * u) <= S * (u * / 1024)).
  { apply Rmult_le_compat_l; auto. apply Rmult_le_compat_l; lra. }
  assert (SU : 0 <= S * u) by (apply Rmult_le_pos; lra).
  assert (Q4 : Rabs (rnd (b - a) * rnd f) <= 2 * S).
  { rewrite Q1. eapply Rle_trans; [apply Rabs_triang|].
    assert (S * (2 * u + u * u) <= S * 1) by (apply Rmult_le_compat_l; nra). lra. }
  assert (Q4' : Rabs (rnd (b - a) * rnd f) <= S * (1 + / 256)).
  { rewrite Q1. eapply Rle_trans; [apply Rabs_triang|].
    assert (S * (2 * u + u * u) <= S * / 256) by (apply Rmult_le_compat_l; nra). lra. }
  assert (Q5 : Rabs (P - T) <= S * (4 * u) + / 2 * w).
  { replace (P - T) with ((P - rnd (b - a) * rnd f) + T * (e1 + e2 + e1 * e2)) by (rewrite Q1; ring).
    eapply Rle_trans; [apply Rabs_triang|].
    assert (u * Rabs (rnd (b - a) * rnd f) <= u * (S * (1 + / 256))) by (apply Rmult_le_compat_l; lra).
    lra. }
  assert (WL : w <= / 4) by (unfold w; change (/ 4) with (bpow radix2 (-2)); apply bpow_le; lia).
  unfold line. fold T.
  replace ((P + a) * (1 + e4) - (a + T)) with ((P - T) + (P + a) * e4) by ring.
  eapply Rle_trans; [apply Rabs_triang|]. rewrite Rabs_mult.
  assert (Q6 : Rabs (P + a) <= S * (2 + / 64) + / 2 * w).
  { replace (P + a) with ((P - T) + (T + a)) by ring.
    eapply Rle_trans; [apply Rabs_triang|]. pose proof (Rabs_triang T a).
    assert (S * (4 * u) <= S * / 64) by (apply Rmult_le_compat_l; nra). lra. }
  assert (Rabs (P + a) * Rabs e4 <= (S * (2 + / 64) + / 2 * w) * u).
  { apply Rmult_le_compat; auto; apply Rabs_pos. }
  nra.
Qed.
