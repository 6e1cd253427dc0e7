(** Lemmas for strided convolution and the cochleagram. *)
From Coq Require Import List Bool ZArith Reals Lra Lia.
Import ListNotations.
From Verif Require Import Base Py PyLemmas ListLemmas RLists Np_Model Np_Lemmas
  Stft_Model Stft_Proofs Dsp_Model Dsp_Proofs Onset_Proofs.
Local Open Scope R_scope.

(** [sample x z] is [x_z], zero outside of the array. *)
Definition sample (x : list R) (z : Z) : R :=
  if (z <? 0)%Z then 0 else nth (Z.to_nat z) x 0.

(** [filtered x k n] is output [n] of the filter with impulse response [k]. *)
Definition filtered (x k : list R) (n : Z) : R :=
  rsum (map (fun j => nth j k 0 * sample x (n - Z.of_nat j)) (seq 0 (List.length k))).

Lemma sample_in : forall x i, sample x (Z.of_nat i) = nth i x 0.
Proof. intros. unfold sample. destruct (Z.ltb_spec (Z.of_nat i) 0); [lia|]. now rewrite Nat2Z.id. Qed.
Lemma sample_out : forall x z, (z < 0 \/ zlen x <= z)%Z -> sample x z = 0.
Proof.
  intros x z H. unfold sample. destruct (Z.ltb_spec z 0); [reflexivity|].
  apply nth_overflow. unfold zlen in H. lia.
Qed.

Lemma seq_rev : forall n, rev (seq 0 n) = map (fun j => n - 1 - j)%nat (seq 0 n).
Proof.
  intro n. apply (list_by_nth _ 0%nat).
  - now rewrite rev_length, seq_length.
  - intros i Hi. rewrite rev_nth by (rewrite seq_length; lia).
    rewrite seq_length, seq_nth by lia. lia.
Qed.
Lemma rsum_rev_seq : forall (f : nat -> R) n,
  rsum (map f (seq 0 n)) = rsum (map (fun j => f (n - 1 - j)%nat) (seq 0 n)).
Proof.
  intros f n. rewrite <- (map_map (fun j => n - 1 - j)%nat f), <- seq_rev.
  apply rsum_perm. apply Permutation.Permutation_map. apply Permutation.Permutation_rev.
Qed.

Lemma strided_ok : forall x k st, (1 <= List.length k)%nat -> (1 <= st)%nat ->
  (List.length k <= List.length x)%nat ->
  strided_convolution x k (Z.of_nat st) =
  Ok (map (fun i => filtered x k (Z.of_nat (i * st + List.length k - 1)))
          (seq 0 (S ((List.length x - List.length k) / st)))).
Proof.
  intros x k st Hk Hs Hx. unfold strided_convolution.
  destruct (win_values x (List.length k) st Hk Hs Hx) as (rows & R1 & R2).
  unfold zlen. rewrite R1. cbn [bind]. rewrite R2. cbn [bind]. f_equal.
  rewrite map_map. apply map_ext. intro i. unfold dot, filtered.
  assert (E : map2 Rmult (map (fun j => nth (i * st + j) x 0) (seq 0 (List.length k))) (rev k)
    = map (fun j => nth (i * st + j) x 0 * nth (List.length k - 1 - j) k 0) (seq 0 (List.length k))).
  { apply (list_by_nth _ 0).
    - rewrite map2_length, map_length, seq_length, rev_length. lia.
    - intros j Hj. unfold map2.
      rewrite (nth_map_lt _ _ _ (0, 0)) by (rewrite combine_length, map_length, seq_length, rev_length; lia).
      rewrite nth_combine by (rewrite ?map_length, ?seq_length, ?rev_length; lia). cbn [fst snd].
      rewrite (nth_map_lt _ _ _ 0%nat) by (rewrite seq_length; lia). rewrite seq_nth by lia.
      rewrite rev_nth by lia. f_equal. f_equal. lia. }
  rewrite E, rsum_rev_seq. apply rsum_map_ext. intros j Hj. apply in_seq in Hj.
  replace (Z.of_nat (i * st + List.length k - 1) - Z.of_nat j)%Z
    with (Z.of_nat (i * st + (List.length k - 1 - j))) by lia.
  rewrite sample_in. replace (List.length k - 1 - (List.length k - 1 - j))%nat with j by lia.
  ring.
Qed.

Lemma strided_short : forall x k st, (1 <= st)%nat -> (List.length x < List.length k)%nat ->
  strided_convolution x k (Z.of_nat st) =
  if (List.length k - List.length x <=? st)%nat then Ok [] else Err ValueError.
Proof.
  intros x k st Hs H. unfold strided_convolution. rewrite windows_short; unfold zlen; try lia.
  destruct (Z.leb_spec (Z.of_nat (List.length k) - Z.of_nat (List.length x)) (Z.of_nat st));
    destruct (Nat.leb_spec (List.length k - List.length x) st); try lia; reflexivity.
Qed.

Lemma combine_map_same : forall A B C (f : A -> B) (g : A -> C) l,
  combine (map f l) (map g l) = map (fun x => (f x, g x)) l.
Proof. induction l; simpl; congruence. Qed.

(** ** The bank *)

Lemma conv_full_length : forall x k, (1 <= List.length x + List.length k)%nat ->
  List.length (conv_full x k) = (List.length x + List.length k - 1)%nat.
Proof. intros. unfold conv_full. rewrite map_length, zrange_length. unfold zlen. lia. Qed.
Lemma conv_full_nth : forall x k n, (n < List.length x + List.length k - 1)%nat ->
  nth n (conv_full x k) 0 = filtered x k (Z.of_nat n).
Proof.
  intros x k n H. unfold conv_full.
  rewrite (nth_map_lt _ _ _ 0%Z) by (rewrite zrange_length; unfold zlen; lia).
  rewrite zrange_nth by (unfold zlen; lia). unfold filtered. apply rsum_map_ext.
  intros j _. f_equal. unfold sample.
  destruct (Z.leb_spec (Z.of_nat j) (Z.of_nat n)); cbn [andb];
    destruct (Z.ltb_spec (Z.of_nat n - Z.of_nat j) 0); try lia; try reflexivity.
  destruct (Z.ltb_spec (Z.of_nat n - Z.of_nat j) (zlen x)); [reflexivity|].
  symmetry. apply nth_overflow. unfold zlen in *. lia.
Qed.
Lemma filtered_out : forall x k n, (n < 0 \/ zlen x + zlen k - 1 <= n)%Z -> filtered x k n = 0.
Proof.
  intros x k n H. unfold filtered. apply rsum_zero. intros j Hj. apply in_seq in Hj.
  rewrite sample_out; [ring|]. unfold zlen in *. lia.
Qed.

Lemma zmax_ge : forall l z, In z l -> (z <= zmax l)%Z.
Proof.
  unfold zmax. intros l z. generalize 0%Z. revert z.
  induction l as [|a l IH]; intros z b H; [destruct H|]. simpl.
  assert (M : forall l b, (b <= fold_left Z.max l b)%Z).
  { clear. induction l; intros; simpl; [lia|]. specialize (IHl (Z.max b a)). lia. }
  destruct H as [->|H]; auto. specialize (M l (Z.max b z)). lia.
Qed.
Lemma zmax_nonneg : forall l, (0 <= zmax l)%Z.
Proof.
  unfold zmax. intros l.
  assert (M : forall l b, (b <= fold_left Z.max l b)%Z).
  { clear. induction l; intros; simpl; [lia|]. specialize (IHl (Z.max b a)). lia. }
  apply M.
Qed.

(** IRs are not empty and delays are not negative. *)
Definition bank_ok (b : bank) : Prop :=
  Forall (fun io => (1 <= zlen (fst io))%Z /\ (0 <= snd io)%Z) b.

Lemma bank_size_ge : forall b ir off, In (ir, off) b -> (zlen ir + off <= bank_ir_size b)%Z.
Proof.
  intros b ir off H. unfold bank_ir_size. apply zmax_ge. apply in_map_iff.
  exists (ir, off). auto.
Qed.

(** Writing a block into a row of zeros. *)
Lemma set_block : forall (y : list R) off n, (0 <= off)%Z -> (off + zlen y <= Z.of_nat n)%Z ->
  exists r, set_slice (Some off) (Some (off + zlen y)%Z) y (repeat 0 n) = Ok r /\
    List.length r = n /\
    forall c, (c < n)%nat ->
      nth c r 0 = if (Z.of_nat c <? off)%Z || (off + zlen y <=? Z.of_nat c)%Z then 0
                  else nth (c - Z.to_nat off) y 0.
Proof.
  intros y off n Ho Hn.
  assert (Ll : zlen (repeat 0 n) = Z.of_nat n) by apply zlen_repeat.
  rewrite (set_slice_exact _ _ _ _ _ (Z.to_nat off) (Z.to_nat off + List.length y)).
  - eexists. split; [reflexivity|].
    rewrite firstn_repeat, skipn_repeat. unfold zlen in *.
    split. { rewrite !app_length, !repeat_length. lia. }
    intros c Hc. replace (Nat.min (Z.to_nat off) n) with (Z.to_nat off) by lia.
    destruct (Z.ltb_spec (Z.of_nat c) off); cbn [orb].
    + rewrite app_nth1 by (rewrite repeat_length; lia). apply nth_repeat_lt. lia.
    + rewrite app_nth2 by (rewrite repeat_length; lia). rewrite repeat_length.
      destruct (Z.leb_spec (off + Z.of_nat (List.length y)) (Z.of_nat c)).
      * rewrite app_nth2 by lia. apply nth_repeat_lt. lia.
      * rewrite app_nth1 by lia. reflexivity.
  - simpl. rewrite Ll, slice_bound_pos by (unfold zlen in *; lia). reflexivity.
  - simpl. rewrite Ll, slice_bound_pos by (unfold zlen in *; lia). unfold zlen. lia.
  - lia.
  - lia.
Qed.

Lemma Forall2_mapM : forall A B (f : A -> res B) (P : A -> B -> Prop) l,
  (forall a, In a l -> exists b, f a = Ok b /\ P a b) ->
  exists l', mapM f l = Ok l' /\ Forall2 P l l'.
Proof.
  induction l as [|a l IH]; intros H; [exists []; split; auto|].
  destruct (H a (or_introl eq_refl)) as (b & E & Pb).
  destruct IH as (l' & E' & F); [intros; apply H; simpl; auto|].
  exists (b :: l'). simpl. rewrite E. cbn [bind]. rewrite E'. auto.
Qed.

(** Entry [c] of the row of [(ir, off)] is the delayed filter output. *)
Lemma convolve_full_ok : forall b x, bank_ok b -> (1 <= zlen x)%Z ->
  exists rows, convolve_full b x = Ok rows /\
    Forall2 (fun io row =>
      zlen row = (zlen x + bank_ir_size b - 1)%Z /\
      forall c, (0 <= c < zlen row)%Z -> nth (Z.to_nat c) row 0 = filtered x (fst io) (c - snd io)) b rows.
Proof.
  intros b x Hb Hx. unfold convolve_full. apply Forall2_mapM.
  intros [ir off] Hin. unfold bank_ok in Hb. rewrite Forall_forall in Hb.
  destruct (Hb _ Hin) as [H1 H2]. simpl in H1, H2.
  pose proof (bank_size_ge b ir off Hin) as Hs. cbv zeta.
  pose proof (conv_full_length x ir) as Lc. unfold zlen in *.
  destruct (set_block (conv_full x ir) off
    (Z.to_nat (Z.of_nat (List.length x) + bank_ir_size b - 1))) as (r & R1 & R2 & R3).
  - lia.
  - unfold zlen. rewrite Lc by lia. lia.
  - exists r. unfold zlen in R1. split; [exact R1|]. simpl fst. simpl snd. split; [lia|].
    intros c Hc. rewrite R3 by lia. unfold zlen. rewrite Lc by lia.
    destruct (Z.ltb_spec (Z.of_nat (Z.to_nat c)) off); cbn [orb].
    + symmetry. apply filtered_out. lia.
    + destruct (Z.leb_spec (off + Z.of_nat (List.length x + List.length ir - 1)) (Z.of_nat (Z.to_nat c))).
      * symmetry. apply filtered_out. unfold zlen. lia.
      * rewrite conv_full_nth by lia. f_equal. lia.
Qed.

(** The padded signal. *)
Lemma pad_sample : forall x s x_pad, (2 <= s)%Z -> (1 <= zlen x)%Z ->
  set_slice (Some (s - 1)%Z) (Some (- (s - 1))%Z) x (repeat 0 (Z.to_nat (zlen x + 2 * (s - 1))))
    = Ok x_pad ->
  zlen x_pad = (zlen x + 2 * (s - 1))%Z /\
  forall z, sample x_pad z = sample x (z - (s - 1)).
Proof.
  intros x s x_pad Hs Hx E.
  set (n := Z.to_nat (zlen x + 2 * (s - 1))) in *.
  replace (s - 1)%Z with (Z.of_nat (Z.to_nat (s - 1))) in E by lia.
  rewrite set_mid in E; [|lia|unfold n; rewrite repeat_length; unfold zlen in *; lia].
  injection E as <-. rewrite firstn_repeat, skipn_repeat, repeat_length.
  unfold zlen in *. split.
  - rewrite !app_length, !repeat_length. lia.
  - intros z. unfold sample.
    destruct (Z.ltb_spec z 0); destruct (Z.ltb_spec (z - (s - 1)) 0); try lia; auto.
    + rewrite app_nth1 by (rewrite repeat_length; lia). apply nth_repeat_lt. lia.
    + rewrite app_nth2 by (rewrite repeat_length; lia). rewrite repeat_length.
      replace (Z.to_nat z - Nat.min (Z.to_nat (s - 1)) n)%nat with (Z.to_nat (z - (s - 1))) by lia.
      destruct (Nat.lt_ge_cases (Z.to_nat (z - (s - 1))) (List.length x)).
      * now rewrite app_nth1.
      * rewrite app_nth2 by auto. rewrite (nth_overflow x) by auto.
        destruct (Nat.lt_ge_cases (Z.to_nat (z - (s - 1)) - List.length x)
                    (n - (n - Z.to_nat (s - 1)))).
        -- now apply nth_repeat_lt.
        -- apply nth_overflow. now rewrite repeat_length.
Qed.

Lemma sample_slice : forall x lo n z, (0 <= lo)%Z -> (0 <= n)%Z -> (lo + n <= zlen x)%Z ->
  (0 <= z < n)%Z -> sample (slice (Some lo) (Some (lo + n)%Z) x) z = sample x (lo + z).
Proof.
  intros x lo n z Hlo Hn Hx Hz. unfold sample.
  destruct (Z.ltb_spec z 0); [lia|]. destruct (Z.ltb_spec (lo + z) 0); [lia|].
  assert (L : lo_bound (zlen x) (Some lo) = Z.to_nat lo)
    by (simpl; rewrite slice_bound_pos by lia; reflexivity).
  assert (L' : hi_bound (zlen x) (Some (lo + n)%Z) = Z.to_nat (lo + n))
    by (simpl; rewrite slice_bound_pos by lia; reflexivity).
  rewrite slice_nth by (rewrite slice_length, L, L'; lia). rewrite L. f_equal. lia.
Qed.
Lemma slice_zlen : forall (x : list R) lo n, (0 <= lo)%Z -> (0 <= n)%Z -> (lo + n <= zlen x)%Z ->
  zlen (slice (Some lo) (Some (lo + n)%Z) x) = n.
Proof.
  intros x lo n Hlo Hn Hx. unfold zlen at 1. rewrite slice_length. simpl.
  rewrite !slice_bound_pos by lia. lia.
Qed.

(** Entry [m] of the row of [(ir, off)]: the filter output at [m * stride - off],
    if it is computed, zero otherwise. *)
Lemma convolve_strided_ok : forall b x st, bank_ok b -> (1 <= zlen x)%Z -> (1 <= st)%Z ->
  (2 <= bank_ir_size b)%Z ->
  exists rows width, convolve_strided b x st = Ok rows /\
    Forall (fun io => (snd io / st + 1 + (zlen x + zlen (fst io) - 2) / st <= width)%Z) b /\
    (b <> [] -> exists io, In io b /\
       (width = snd io / st + 1 + (zlen x + zlen (fst io) - 2) / st)%Z) /\
    Forall2 (fun io row => zlen row = width /\
      forall m, (0 <= m < width)%Z ->
        nth (Z.to_nat m) row 0 =
        if (m * st + snd io mod st <=? zlen x + zlen (fst io) + snd io - 2)%Z
        then filtered x (fst io) (m * st - snd io) else 0) b rows.
Proof.
  intros b x st Hb Hx Hst HS. unfold convolve_strided.
  set (s := bank_ir_size b) in *.
  destruct (set_slice (Some (s - 1)%Z) (Some (- (s - 1))%Z) x
    (repeat 0 (Z.to_nat (zlen x + 2 * (s - 1))))) as [xp|e] eqn:E.
  2: { exfalso. replace (s - 1)%Z with (Z.of_nat (Z.to_nat (s - 1))) in E by lia.
       rewrite set_mid in E; [discriminate|lia|rewrite repeat_length; unfold zlen in *; lia]. }
  destruct (pad_sample x s xp HS Hx E) as [Lp Sp]. cbn [bind].
  unfold bank_ok in Hb. rewrite Forall_forall in Hb.
  assert (Hmod : forall off, (0 <= off - off / st * st < st /\ off mod st = off - off / st * st)%Z).
  { intro off. pose proof (Z.div_mod off st). pose proof (Z.mod_pos_bound off st). lia. }
  set (xb := fun io : list R * Z => (s - zlen (fst io) - (snd io - snd io / st * st))%Z).
  assert (Hxb : forall io, In io b -> (0 <= xb io)%Z).
  { intros [ir off] Hin. unfold xb. cbn [fst snd]. pose proof (bank_size_ge b ir off Hin). fold s in H.
    destruct (Hb _ Hin) as [_ H2]. simpl in H2.
    assert (0 <= off / st * st)%Z by (pose proof (Z.div_pos off st); nia). lia. }
  assert (Hxs : forall io, In io b ->
    Z.min (zlen xp - xb io) (zlen x + 2 * (zlen (fst io) - 1)) = (zlen x + 2 * (zlen (fst io) - 1))%Z).
  { intros [ir off] Hin. unfold xb. cbn [fst snd]. pose proof (bank_size_ge b ir off Hin). fold s in H.
    destruct (Hb _ Hin) as [_ H2]. cbn [snd] in H2. specialize (Hmod off). lia. }
  set (nw := fun io : list R * Z => (1 + (zlen x + zlen (fst io) - 2) / st)%Z).
  assert (Enw : mapM (fun io => n_windows (Z.min (zlen xp - xb io) (zlen x + 2 * (zlen (fst io) - 1)))
                        (zlen (fst io)) (Some st)) b = Ok (map nw b)).
  { rewrite <- (map_id b) at 1. apply mapM_map_ok. intros io Hin. rewrite Hxs by auto.
    unfold n_windows. destruct (Z.eqb_spec st 0); [lia|]. unfold nw. do 3 f_equal. lia. }
  change (fun io : list R * Z => n_windows
    (Z.min (zlen xp - (s - zlen (fst io) - (snd io - snd io / st * st)))
       (zlen x + 2 * (zlen (fst io) - 1))) (zlen (fst io)) (Some st))
    with (fun io : list R * Z => n_windows
      (Z.min (zlen xp - xb io) (zlen x + 2 * (zlen (fst io) - 1))) (zlen (fst io)) (Some st)).
  rewrite Enw. cbn [bind].
  assert (Ecomb : combine (map nw b) b = map (fun io => (nw io, io)) b).
  { rewrite <- (map_id b) at 2. apply combine_map_same. }
  rewrite Ecomb, map_map. cbn [fst snd].
  set (width := zmax (map (fun io => (nw io + snd io / st)%Z) b)).
  assert (Hw : forall io, In io b -> (nw io + snd io / st <= width)%Z).
  { intros io Hin. unfold width. apply zmax_ge. apply in_map_iff. exists io. auto. }
  assert (Hrow : forall io, In io b -> exists row,
    (let '(ir, off) := io in
       do y <- strided_convolution
          (slice (Some (s - zlen ir - (off - off / st * st))%Z)
             (Some (s - zlen ir - (off - off / st * st) +
               Z.min (zlen xp - (s - zlen ir - (off - off / st * st))) (zlen x + 2 * (zlen ir - 1)))%Z) xp)
          ir st;
       set_slice (Some (off / st)%Z) (Some (off / st + nw io)%Z) y (repeat 0 (Z.to_nat width)))
      = Ok row /\
    (zlen row = width /\
      forall m, (0 <= m < width)%Z ->
        nth (Z.to_nat m) row 0 =
        if (m * st + snd io mod st <=? zlen x + zlen (fst io) + snd io - 2)%Z
        then filtered x (fst io) (m * st - snd io) else 0)).
  { intros [ir off] Hin. specialize (Hxb _ Hin). specialize (Hxs _ Hin). specialize (Hw _ Hin).
    destruct (Hb _ Hin) as [H1 H2]. pose proof (bank_size_ge b ir off Hin) as Hs. fold s in Hs.
    destruct (Hmod off) as [Hm1 Hm2].
    unfold xb, nw in *. simpl fst in *. simpl snd in *.
    rewrite Hxs. set (x0 := (s - zlen ir - (off - off / st * st))%Z) in *.
    set (xs := slice (Some x0) (Some (x0 + (zlen x + 2 * (zlen ir - 1)))%Z) xp).
    assert (Lxs : zlen xs = (zlen x + 2 * (zlen ir - 1))%Z).
    { unfold xs. apply slice_zlen; lia. }
    pose proof (strided_ok xs ir (Z.to_nat st) ltac:(unfold zlen in *; lia) ltac:(lia)
      ltac:(unfold zlen in *; lia)) as SO.
    rewrite Z2Nat.id in SO by lia. rewrite SO. clear SO. cbn [bind].
    set (y := map _ _).
    assert (Ly : zlen y = (1 + (zlen x + zlen ir - 2) / st)%Z).
    { unfold y, zlen at 1. rewrite map_length, seq_length.
      rewrite Nat2Z.inj_succ, Nat2Z.inj_div, Nat2Z.inj_sub by (unfold zlen in *; lia).
      unfold zlen in *. rewrite Lxs, Z2Nat.id by lia. rewrite Z.add_1_l. do 2 f_equal. lia. }
    assert (Hq : (0 <= off / st)%Z) by (apply Z.div_pos; lia).
    rewrite <- Ly.
    assert (Hd : (0 <= (zlen x + zlen ir - 2) / st)%Z) by (apply Z.div_pos; lia).
    destruct (set_block y (off / st) (Z.to_nat width)) as (row & R1 & R2 & R3); [lia|lia|].
    exists row. split; [exact R1|]. unfold zlen at 1. split; [lia|].
    intros m Hm. rewrite R3 by lia. rewrite Z2Nat.id by lia. rewrite Ly.
    pose proof (Z.div_mod (zlen x + zlen ir - 2) st ltac:(lia)) as D1.
    pose proof (Z.mod_pos_bound (zlen x + zlen ir - 2) st ltac:(lia)) as D2.
    rewrite Hm2.
    destruct (Z.ltb_spec m (off / st)) as [C|C]; cbn [orb].
    - destruct (Z.leb_spec (m * st + (off - off / st * st)) (zlen x + zlen ir + off - 2)); [|reflexivity].
      symmetry. apply filtered_out. nia.
    - destruct (Z.leb_spec (off / st + (1 + (zlen x + zlen ir - 2) / st)) m) as [C2|C2].
      + destruct (Z.leb_spec (m * st + (off - off / st * st)) (zlen x + zlen ir + off - 2)); [|reflexivity].
        exfalso. nia.
      + destruct (Z.leb_spec (m * st + (off - off / st * st)) (zlen x + zlen ir + off - 2)); [|exfalso; nia].
        unfold y. assert (Hi : (Z.to_nat m - Z.to_nat (off / st) < List.length y)%nat)
          by (clearbody y; unfold zlen in *; lia).
        unfold y in Hi. rewrite map_length in Hi.
        rewrite (nth_map_lt _ _ _ 0%nat) by exact Hi. rewrite seq_length in Hi.
        rewrite seq_nth by exact Hi.
        set (q := (Z.to_nat m - Z.to_nat (off / st))%nat).
        unfold filtered. apply rsum_map_ext. intros j Hj. apply in_seq in Hj. f_equal.
        replace (Z.of_nat ((0 + q) * Z.to_nat st + List.length ir - 1) - Z.of_nat j)%Z
          with ((m - off / st) * st + zlen ir - 1 - Z.of_nat j)%Z
          by (unfold q, zlen in *; nia).
        unfold xs. rewrite sample_slice; try lia.
        * rewrite Sp. f_equal. unfold x0. nia.
        * unfold zlen in *. nia. }
  destruct (Forall2_mapM _ _
    (fun p : Z * (list R * Z) => let '(n, (ir, off)) := p in
       do y <- strided_convolution
          (slice (Some (s - zlen ir - (off - off / st * st))%Z)
             (Some (s - zlen ir - (off - off / st * st) +
               Z.min (zlen xp - (s - zlen ir - (off - off / st * st))) (zlen x + 2 * (zlen ir - 1)))%Z) xp)
          ir st;
       set_slice (Some (off / st)%Z) (Some (off / st + n)%Z) y (repeat 0 (Z.to_nat width)))
    (fun p row => let io := snd p in (zlen row = width /\
      forall m, (0 <= m < width)%Z ->
        nth (Z.to_nat m) row 0 =
        if (m * st + snd io mod st <=? zlen x + zlen (fst io) + snd io - 2)%Z
        then filtered x (fst io) (m * st - snd io) else 0)) (map (fun io => (nw io, io)) b))
    as (rows & R1 & R2).
  { intros [n [ir off]] Hin. apply in_map_iff in Hin. destruct Hin as (io & Ei & Hin).
    injection Ei as En Eio. subst io. destruct (Hrow _ Hin) as (row & Er & Hr).
    exists row. rewrite <- En. auto. }
  exists rows, width. split; [exact R1|]. split; [|split].
  - apply Forall_forall. intros io Hin. specialize (Hw io Hin). unfold nw in Hw. lia.
  - intros Hne.
    assert (Hin : forall l c, l <> [] -> Forall (fun v => c <= v)%Z l ->
      In (fold_left Z.max l c) l).
    { clear. induction l as [|a l IH]; intros c H F; [congruence|]. simpl.
      inversion F as [|? ? F1 F2]; subst. replace (Z.max c a) with a by lia. clear c F F1 F2 H.
      assert (G : forall l a, fold_left Z.max l a = a \/ In (fold_left Z.max l a) l).
      { clear. induction l as [|b l IH]; intros a; simpl; auto.
        destruct (IH (Z.max a b)) as [E|E]; auto. rewrite E.
        destruct (Z.max_spec a b) as [[_ M]|[_ M]]; rewrite M; auto. }
      destruct (G l a); auto. }
    assert (Hin2 : In width (map (fun io => (nw io + snd io / st)%Z) b)).
    { unfold width, zmax. apply Hin; [destruct b; simpl; congruence|].
      apply Forall_forall. intros v Hv. apply in_map_iff in Hv. destruct Hv as (io & <- & Hio).
      destruct (Hb _ Hio) as [B1 B2]. unfold nw.
      pose proof (Z.div_pos (snd io) st). pose proof (Z.div_pos (zlen x + zlen (fst io) - 2) st). lia. }
    apply in_map_iff in Hin2. destruct Hin2 as (io & Eio & Hio). exists io. split; auto.
    rewrite <- Eio. unfold nw. lia.
  - clearbody width. clear - R2. revert rows R2. induction b as [|io b IH]; intros rows F; inversion F; subst; constructor; auto.
Qed.
