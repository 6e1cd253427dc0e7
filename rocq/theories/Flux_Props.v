(** C117: spectral flux and onset detection in double precision. *)
From Coq Require Import String ZArith Reals Lra Lia Bool Permutation List.
From Flocq Require Import Core IEEE754.BinarySingleNaN.
Import ListNotations.
From Verif Require Import Base Py PyLemmas ListLemmas RLists Np_Model Np_Lemmas Double_Model Double_Float Peak_Model Peak_Round Peak_Accuracy
  Peak_Proofs Clock_Model Clock_Proofs Stft_Model Onset_Proofs Dsp_Model Dsp_Props Level_Model Level_Proofs Level_Props Rise_Model Rise_Props Kernel_Model
  Attack_Model Attack_Proofs Attack_Props Flux_Model.
Local Open Scope R_scope.

Lemma u_diff_length : forall r, List.length (u_diff r) = (List.length r - 1)%nat.
Proof. induction r as [|a [|b l] IH]; auto. change (u_diff (a :: b :: l)) with (fsub b a :: u_diff (b :: l)). cbn [List.length] in *. rewrite IH. lia. Qed.
Lemma u_diff_nth : forall r t, (t + 1 < List.length r)%nat -> nth t (u_diff r) z = fsub (nth (t + 1) r z) (nth t r z).
Proof.
  induction r as [|a [|b l] IH]; intros t Ht; cbn [List.length] in Ht; try lia. change (u_diff (a :: b :: l)) with (fsub b a :: u_diff (b :: l)).
  destruct t as [|t]; [reflexivity|]. change (nth (Datatypes.S t) (fsub b a :: u_diff (b :: l)) z) with (nth t (u_diff (b :: l)) z).
  rewrite IH by (cbn [List.length]; lia). reflexivity.
Qed.
Lemma u_delta_length : forall r, List.length (u_delta r) = (List.length r - 1)%nat.
Proof. intros. unfold u_delta. rewrite map_length. apply u_diff_length. Qed.
Lemma u_delta_nth : forall r t, (t + 1 < List.length r)%nat -> nth t (u_delta r) z = f_maximum (fsub (nth (t + 1) r z) (nth t r z)) z.
Proof. intros r t Ht. unfold u_delta. rewrite (nth_map_lt _ _ _ z) by (rewrite u_diff_length; lia). rewrite u_diff_nth by auto. reflexivity. Qed.

(** What rises between the frames [t] and [t + 1] of a row. *)
Definition rise (t : nat) (r : list f64_num) : R := Rmax (val (nth (t + 1) r z) - val (nth t r z)) 0.
Definition modulus (v : f64_num) : Prop := finite v /\ 0 <= val v <= bpow radix2 900.
Lemma delta_ok : forall r t, Forall modulus r -> (t + 1 < List.length r)%nat ->
  finite (nth t (u_delta r) z) /\ 0 <= rise t r <= bpow radix2 900 /\ exists e, Rabs e <= uro /\ val (nth t (u_delta r) z) = rise t r * (1 + e).
Proof.
  intros r t H Ht. rewrite u_delta_nth by auto. rewrite Forall_forall in H. destruct (H (nth (t + 1) r z) ltac:(apply nth_In; lia)) as [F1 B1].
  destruct (H (nth t r z) ltac:(apply nth_In; lia)) as [F0 B0]. unfold rise. set (x := nth (t + 1) r z) in *. set (y := nth t r z) in *.
  assert (B : Rabs (val x - val y) <= bpow radix2 900) by (apply Rabs_le; split; lra).
  destruct (fsub_val x y F1 F0) as [Fs Vs]; [eapply Rle_trans; [exact B|apply bpow_le; lia]|].
  destruct (int_val 0 ltac:(lia)) as [Fz Vz]. change (f64_of 0 0) with z in *.
  destruct (f_maximum_val (fsub x y) z Fs Fz) as [Fm Vm]. split; [exact Fm|].
  apply Rabs_le_inv in B. pose proof (bpow_ge_0 radix2 900). split; [split; [apply Rmax_r|apply Rmax_lub; lra]|].
  destruct (rnd_minus (val x) (val y) (val_fmt x) (val_fmt y)) as (e & He & Ee). exists e. split; [exact He|]. rewrite Vm, Vs, Vz, Ee.
  pose proof uro_small. apply Rabs_le_inv in He. destruct (Rle_lt_dec (val x - val y) 0) as [L|L].
  - rewrite (Rmax_right (val x - val y)) by lra. rewrite Rmax_right; [ring|]. replace 0 with (0 * (1 + e)) by ring. apply Rmult_le_compat_r; lra.
  - rewrite (Rmax_left (val x - val y)) by lra. apply Rmax_left. apply Rmult_le_pos; lra.
Qed.

Definition rises (t : nat) (a : list (list f64_num)) : R := fold_right (fun r s => rise t r + s) 0 a.
Definition column (t : nat) (a : list (list f64_num)) : list f64_num := map (fun r => nth t (u_delta r) z) a.
Lemma column_ok : forall a t n, Forall (fun r => List.length r = n /\ Forall modulus r) a -> (t + 1 < n)%nat ->
  Forall (fun v : f64_num => finite v) (column t a) /\ Forall (fun v : f64_num => 0 <= val v) (column t a) /\ 0 <= rises t a <= INR (List.length a) * bpow radix2 900 /\
  Rabs (asum (column t a) - rises t a) <= uro * rises t a /\ asize (column t a) <= (1 + uro) * rises t a.
Proof.
  intros a t n H Ht. pose proof uro_pos as U. pose proof uro_small as US. induction H as [|r a [L M] H IH].
  - split; [constructor|]. split; [constructor|]. cbn [column map rises fold_right List.length INR]. change (asum []) with 0. change (asize []) with 0. rewrite Rminus_0_r, Rabs_R0. split; [split; lra|]. split; lra.
  - destruct IH as (I1 & I2 & [I3 I3'] & I4 & I5). destruct (delta_ok r t M ltac:(lia)) as (F & [R1 R2] & e & He & Ee).
    change (column t (r :: a)) with (nth t (u_delta r) z :: column t a). change (rises t (r :: a)) with (rise t r + rises t a).
    set (v := nth t (u_delta r) z) in *. change (asum (v :: column t a)) with (val v + asum (column t a)). change (asize (v :: column t a)) with (Rabs (val v) + asize (column t a)).
    apply Rabs_le_inv in He. assert (M1 : rise t r * e <= rise t r * uro) by (apply Rmult_le_compat_l; lra). assert (M2 : rise t r * - uro <= rise t r * e) by (apply Rmult_le_compat_l; lra).
    assert (M3 : rise t r * uro <= rise t r * / 1024) by (apply Rmult_le_compat_l; lra).
    assert (P : 0 <= val v) by (rewrite Ee; lra). split; [constructor; assumption|]. split; [constructor; assumption|]. cbn [List.length]. rewrite S_INR. split; [lra|].
    rewrite (Rabs_pos_eq (val v)) by exact P. rewrite Ee. apply Rabs_le_inv in I4. split; [apply Rabs_le; split; lra|lra].
Qed.
Lemma flux_shape : forall S a n, a <> [] -> Forall (fun r => List.length r = n) a -> u_flux S a = Ok (map (fun t => S (column t a)) (seq 0 (n - 1))).
Proof.
  intros S [|r a] n N H; [congruence|]. unfold u_flux. cbn [map]. inversion H as [|? ? L H']; subst. rewrite u_delta_length. f_equal. apply map_ext. intros t.
  f_equal. unfold column. cbn [map]. now rewrite map_map.
Qed.
Lemma column_ne : forall t a, a <> [] -> column t a <> [].
Proof. intros t [|r a] N; [congruence|discriminate]. Qed.

(** The flux of moduli, in whatever order numpy adds: one value for each two successive frames, never negative, zero exactly if no modulus rises, and right
    up to [2^-50] for each row of what rises. *)
Theorem c117_flux : forall S a n, summer S -> a <> [] -> (Z.of_nat (List.length a) <= 2 ^ 50)%Z ->
  Forall (fun r => List.length r = n /\ Forall modulus r) a ->
  exists f, u_flux S a = Ok f /\ List.length f = (n - 1)%nat /\ forall t, (t < n - 1)%nat ->
    finite (nth t f z) /\ 0 <= val (nth t f z) /\
    (val (nth t f z) = 0 <-> forall r, In r a -> val (nth (t + 1) r z) <= val (nth t r z)) /\
    Rabs (val (nth t f z) - rises t a) <= bpow radix2 (-50) * INR (List.length a) * rises t a.
Proof.
  intros S a n HS N HL H. exists (map (fun t => S (column t a)) (seq 0 (n - 1))).
  split; [apply flux_shape; [exact N|revert H; apply Forall_impl; tauto]|]. split; [now rewrite map_length, seq_length|]. intros t Ht.
  rewrite (nth_map_lt _ _ _ 0%nat) by now rewrite seq_length. rewrite seq_nth by auto. cbn [Nat.add].
  destruct (column_ok a t n H ltac:(lia)) as (C1 & C2 & [C3 C3'] & C4 & C5). pose proof (HS (column t a) (column_ne t a N)) as D.
  assert (LC : List.length (column t a) = List.length a) by (unfold column; apply map_length).
  pose proof uro_pos as U. pose proof uro_small as US.
  assert (I1 : 1 <= INR (List.length a) <= bpow radix2 50).
  { split; [change 1 with (INR 1); apply le_INR; destruct a; [congruence|cbn; lia]|]. rewrite INR_IZR_INZ. apply IZR_le_bpow; lia. }
  assert (RB : rises t a <= bpow radix2 950).
  { eapply Rle_trans; [exact C3'|]. change 950%Z with (50 + 900)%Z. rewrite bpow_plus. apply Rmult_le_compat_r; [apply bpow_ge_0|lra]. }
  assert (AS : asize (column t a) <= bpow radix2 1000).
  { eapply Rle_trans; [exact C5|]. apply Rle_trans with (2 * bpow radix2 950); [apply Rmult_le_compat; lra|]. change 2 with (bpow radix2 1). rewrite <- bpow_plus. apply bpow_le. lia. }
  destruct (adds_bound _ _ D C1 AS ltac:(rewrite LC; exact HL)) as (F & B & B2). destruct (adds_ge _ _ D C1 AS ltac:(rewrite LC; exact HL) C2) as [G1 G2].
  set (s := S (column t a)) in *. split; [exact F|]. split; [exact G1|]. split.
  - split.
    + intros E r Hr. rewrite Forall_forall in G2, H. specialize (G2 (nth t (u_delta r) z) ltac:(unfold column; apply in_map_iff; exists r; auto)).
      destruct (H r Hr) as [Lr Mr]. destruct (delta_ok r t Mr ltac:(lia)) as (_ & [R1 _] & e & He & Ee). rewrite E, Ee in G2. apply Rabs_le_inv in He.
      unfold rise in *. destruct (Rle_lt_dec (val (nth (t + 1) r z) - val (nth t r z)) 0) as [L|L]; [lra|]. exfalso. rewrite Rmax_left in G2 by lra.
      assert (0 < (val (nth (t + 1) r z) - val (nth t r z)) * (1 + e)) by (apply Rmult_lt_0_compat; lra). lra.
    + intros E. assert (R0 : rises t a = 0).
      { clear - E. induction a as [|r a IH]; [reflexivity|]. change (rises t (r :: a)) with (rise t r + rises t a). rewrite IH by (intros; apply E; now right).
        unfold rise. rewrite Rmax_right; [ring|]. specialize (E r (or_introl eq_refl)). lra. }
      rewrite R0 in C5. apply Rabs_le_inv in B2. lra.
  - rewrite LC in B. assert (E51 : bpow radix2 (-51) = 4 * uro) by (rewrite uro_val; change 4 with (bpow radix2 2); rewrite <- bpow_plus; reflexivity).
    assert (E50 : bpow radix2 (-50) = 8 * uro) by (rewrite uro_val; change 8 with (bpow radix2 3); rewrite <- bpow_plus; reflexivity).
    rewrite E51 in B. rewrite E50. set (k := INR (List.length a)) in *. set (q := rises t a) in *.
    assert (4 * uro * k * asize (column t a) <= 4 * uro * k * ((1 + uro) * q)) by (apply Rmult_le_compat_l; [|exact C5]; apply Rmult_le_pos; lra).
    assert (UQ : 0 <= uro * q) by (apply Rmult_le_pos; lra).
    assert (uro * q * 1 <= uro * q * k) by (apply Rmult_le_compat_l; lra).
    assert (uro * q * k * uro <= uro * q * k * / 1024) by (apply Rmult_le_compat_l; [apply Rmult_le_pos; lra|lra]).
    replace (val s - q) with ((val s - asum (column t a)) + (asum (column t a) - q)) by ring. eapply Rle_trans; [apply Rabs_triang|].
    replace (4 * uro * k * ((1 + uro) * q)) with (4 * (uro * q * k) + 4 * (uro * q * k * uro)) in * by ring. replace (8 * uro * k * q) with (8 * (uro * q * k)) by ring. lra.
Qed.

(** The sample of an onset: exactly the floor of the real quotient as long as the product is below [2^53]. *)
Theorem c117_index : forall i size fsize, (0 <= i * size < 2 ^ 53)%Z -> (1 <= fsize <= 2 ^ 53)%Z -> u_index i size fsize = (i * size / fsize)%Z.
Proof.
  intros i size b HA HB. unfold u_index. set (a := (i * size)%Z) in *. destruct (int_val a ltac:(lia)) as [Fa Va]. destruct (int_val b ltac:(lia)) as [Fb Vb].
  assert (PB : 1 <= IZR b) by (apply IZR_le; lia). assert (PA : 0 <= IZR a) by (apply IZR_le; lia).
  assert (IB : 0 < / IZR b) by (apply Rinv_0_lt_compat; lra).
  assert (IB1 : / IZR b <= 1) by (rewrite <- Rinv_1; apply Rinv_le; lra).
  assert (A53 : IZR a <= bpow radix2 53 - 1) by (change (bpow radix2 53) with (IZR (2 ^ 53)); rewrite <- minus_IZR; apply IZR_le; lia).
  assert (Q0 : 0 <= IZR a / IZR b) by (apply Rmult_le_pos; lra).
  assert (Q1 : IZR a / IZR b <= IZR a) by (unfold Rdiv; rewrite <- (Rmult_1_r (IZR a)) at 2; apply Rmult_le_compat_l; lra).
  destruct (fdiv_val (f64_of a 0) (f64_of b 0) Fa) as [Fq Vq]; [rewrite Vb; lra| |].
  { rewrite Va, Vb, Rabs_pos_eq by lra. apply Rle_trans with (bpow radix2 53); [lra|apply bpow_le; lia]. }
  rewrite Va, Vb in Vq. set (d := fdiv (f64_of a 0) (f64_of b 0)) in *. set (q := (a / b)%Z).
  pose proof (Z.div_mod a b ltac:(lia)) as DM. pose proof (Z.mod_pos_bound a b ltac:(lia)) as MB. fold q in DM. set (r := (a mod b)%Z) in *.
  assert (Hq : (0 <= q <= a)%Z) by (unfold q; split; [apply Z.div_pos; lia|apply Z.div_le_upper_bound; nia]).
  assert (EQ : IZR a / IZR b = IZR q + IZR r * / IZR b).
  { rewrite DM at 1. rewrite plus_IZR, mult_IZR. field. lra. }
  assert (Fmt : forall m, (Z.abs m <= 2 ^ 53)%Z -> fmt (IZR m)) by (intros m Hm; destruct (int_val m Hm) as [_ V]; rewrite <- V; apply val_fmt).
  assert (RR : 0 <= IZR r <= IZR b - 1) by (split; [apply IZR_le; lia|rewrite <- minus_IZR; apply IZR_le; lia]).
  assert (R1 : 0 <= IZR r * / IZR b) by (apply Rmult_le_pos; lra).
  assert (R2 : IZR r * / IZR b <= 1 - / IZR b).
  { apply Rle_trans with ((IZR b - 1) * / IZR b); [apply Rmult_le_compat_r; lra|]. right. field. lra. }
  assert (Lo : IZR q <= val d) by (rewrite Vq; apply rnd_ge_fmt; [apply Fmt; lia|lra]).
  assert (Hi : val d < IZR (q + 1)).
  { apply Rnot_le_lt. intros G. rewrite Vq in G. rewrite plus_IZR in G. pose proof (rnd_near (IZR a / IZR b)) as RN. rewrite (Rabs_pos_eq (IZR a / IZR b)) in RN by exact Q0.
    apply Rabs_le_inv in RN. rewrite uro_val in RN.
    assert (K1 : bpow radix2 (-53) * (IZR a / IZR b) <= (1 - bpow radix2 (-53)) * / IZR b).
    { unfold Rdiv. rewrite <- Rmult_assoc. apply Rmult_le_compat_r; [lra|]. apply Rle_trans with (bpow radix2 (-53) * (bpow radix2 53 - 1)); [apply Rmult_le_compat_l; [apply bpow_ge_0|lra]|].
      rewrite Rmult_minus_distr_l, <- bpow_plus. change (bpow radix2 (-53 + 53)) with 1. lra. }
    assert (K2 : bpow radix2 (-106) <= bpow radix2 (-53) * / IZR b).
    { change (-106)%Z with (-53 + -53)%Z. rewrite bpow_plus. apply Rmult_le_compat_l; [apply bpow_ge_0|]. change (bpow radix2 (-53)) with (/ IZR (2 ^ 53)). apply Rinv_le; [lra|apply IZR_le; lia]. }
    assert (K3 : bpow radix2 (-1074) <= bpow radix2 (-106)) by (apply bpow_le; lia). pose proof (bpow_gt_0 radix2 (-106)). lra. }
  assert (ZF : Zfloor (val d) = q) by (apply Zfloor_imp; split; assumption).
  apply eq_IZR. rewrite Btrunc_correct by exact prec_emax. destruct (Bnearbyint_correct 53 1024 prec_emax mode_DN d) as (BC & _). rewrite BC. cbn [round_mode].
  assert (RF : forall rnd x, round radix2 (FIX_exp 0) rnd x = IZR (rnd x)).
  { intros rd x. unfold round, scaled_mantissa, cexp, FIX_exp, F2R. cbn. now rewrite !Rmult_1_r. }
  rewrite !RF. rewrite Ztrunc_IZR. change (B2R d) with (val d). now rewrite ZF.
Qed.
(** Beyond, the last of 2^23 frames of 512 samples (2^32 + 1 samples) is one sample late. *)
Theorem c117_index_refuted : exists i size fsize, (0 <= i < fsize)%Z /\ (0 <= i * size < 2 ^ 63)%Z /\ u_index i size fsize = (i * size / fsize + 1)%Z.
Proof. exists (2 ^ 23 - 1)%Z, (2 ^ 32 + 1)%Z, (2 ^ 23)%Z. split; [lia|]. split; [lia|]. vm_compute. reflexivity. Qed.

(** So the flagged samples are those at the floors of the real positions of the flagged frames. *)
Theorem c117_positions : forall subs size, (1 <= size)%nat -> (zlen subs * Z.of_nat size <= 2 ^ 53)%Z ->
  exists ons, u_mark subs (Z.of_nat size) = Ok ons /\ List.length ons = size /\
    forall s, (s < size)%nat ->
      (nth s ons false = true <->
       exists i, (i < List.length subs)%nat /\ nth i subs false = true /\
         (Z.of_nat s * zlen subs <= Z.of_nat i * Z.of_nat size < (Z.of_nat s + 1) * zlen subs)%Z).
Proof.
  intros subs size Hs Hb. assert (E : u_mark subs (Z.of_nat size) = onset_detection subs (Z.of_nat size)).
  { unfold u_mark, onset_detection. cbv zeta. f_equal. apply map_ext_in. intros i Hi. apply filter_In in Hi. destruct Hi as [Hi _]. apply in_seq in Hi.
    unfold zlen in *. apply c117_index; nia. }
  rewrite E. apply c58_onset_positions, Hs.
Qed.

Lemma mark_none : forall k size, u_mark (repeat false k) size = Ok (repeat false (Z.to_nat size)).
Proof.
  intros k size. unfold u_mark. cbv zeta. replace (filter (fun i => nth i (repeat false k) false) (seq 0 (List.length (repeat false k)))) with (@nil nat); [reflexivity|].
  generalize (seq 0 (List.length (repeat false k))). induction l as [|i l IH]; [reflexivity|]. cbn [filter]. rewrite nth_repeat. exact IH.
Qed.
(** One NaN anywhere in the matrix, or an infinity after the first frame, and no onset is detected. *)
Theorem c117_silent : forall S junk a size n w m alpha delta row t, summer S -> Forall (fun r => List.length r = n) a ->
  (1 <= w)%nat -> (2 * w + 1 < n)%nat -> ((m + 1) * w + 1 < n)%nat -> (Z.of_nat n <= 2 ^ 50)%Z ->
  In row a -> (t < n)%nat -> nth t row z = B754_nan \/ (1 <= t)%nat /\ nth t row z = B754_infinity false ->
  u_detection S junk a size (Z.of_nat w) (Z.of_nat m) alpha delta = Ok (repeat false (Z.to_nat size)).
Proof.
  intros S junk a size n w m alpha delta row t HS HR Hw H2 Hm Hn Hr Ht Hv. assert (N : a <> []) by (intros ->; destruct Hr).
  unfold u_detection. rewrite (flux_shape S a n N HR). cbn [bind]. set (f := map (fun t => S (column t a)) (seq 0 (n - 1))).
  assert (Lf : @List.length f64_num f = (n - 1)%nat) by (unfold f; now rewrite map_length, seq_length).
  rewrite Forall_forall in HR. pose proof (HR row Hr) as Lr.
  assert (SN : forall v, fsub v B754_nan = B754_nan) by (intros [q|q| |q ? e B]; reflexivity).
  assert (NS : forall v, fsub B754_nan v = B754_nan) by reflexivity.
  assert (IS : forall v : f64_num, fsub (B754_infinity false) v = B754_infinity false \/ fsub (B754_infinity false) v = B754_nan).
  { intros [q|q| |q ? e B]; try (left; reflexivity); try (right; reflexivity). destruct q; [left|right]; reflexivity. }
  assert (K : exists u, (u < n - 1)%nat /\ (nth u (u_delta row) z = B754_nan \/ nth u (u_delta row) z = B754_infinity false)).
  { destruct Hv as [Hv|[H1 Hv]].
    - destruct t as [|t].
      + exists 0%nat. split; [lia|]. left. rewrite u_delta_nth by lia. rewrite Hv, SN. reflexivity.
      + exists t. split; [lia|]. left. rewrite u_delta_nth by lia. replace (t + 1)%nat with (Datatypes.S t) by lia. rewrite Hv, NS. reflexivity.
    - exists (t - 1)%nat. split; [lia|]. rewrite u_delta_nth by lia. replace (t - 1 + 1)%nat with t by lia. rewrite Hv.
      destruct (IS (nth (t - 1) row z)) as [->| ->]; [right|left]; reflexivity. }
  destruct K as (u & Hu & Ku). assert (IC : In (nth u (u_delta row) z) (column u a)) by (unfold column; apply in_map_iff; exists row; auto).
  assert (IF : In (S (column u a)) f) by (unfold f; apply in_map_iff; exists u; split; [reflexivity|apply in_seq; lia]).
  assert (BAD : In B754_nan f \/ In (B754_infinity false) f).
  { destruct Ku as [Ku|Ku]; rewrite Ku in IC.
    - left. rewrite (adds_nan _ _ (HS _ (column_ne u a N)) IC) in IF. exact IF.
    - destruct (adds_inf _ _ false (HS _ (column_ne u a N)) IC) as [E|E]; rewrite E in IF; auto. }
  pose proof (c116_nan S junk f w m alpha delta false Hw) as NN. change (@List.length _ f) with (@List.length f64_num f) in NN. rewrite Lf in NN. rewrite (NN ltac:(lia) ltac:(lia) HS ltac:(lia) BAD). cbn [bind]. apply mark_none.
Qed.

(** Zeros stay zeros. *)
Lemma adds_zeros : forall l s, adds l s -> Forall is_zero l -> is_zero s.
Proof.
  intros l s D. induction D as [x|l r x y Dl IHl Dr IHr|b l x D IH|l r x P D IH]; intros H.
  - now inversion H.
  - apply Forall_app in H. destruct H as [Hl Hr]. destruct (IHl Hl) as [p ->], (IHr Hr) as [q ->]. destruct p, q; eexists; reflexivity.
  - destruct (IH H) as [p ->]. destruct b, p; eexists; reflexivity.
  - apply IH. revert H. apply Permutation_Forall. now apply Permutation_sym.
Qed.
Lemma mean_zeros : forall S l, summer S -> l <> [] -> (Z.of_nat (List.length l) <= 2 ^ 50)%Z -> Forall is_zero l -> is_zero (l_mean S l).
Proof.
  intros S l HS N HL H. unfold l_mean. destruct (adds_zeros _ _ (HS l N) H) as [p ->]. destruct (int_val (Z.of_nat (List.length l)) ltac:(lia)) as [F V].
  assert (L0 : (1 <= Z.of_nat (List.length l))%Z) by (destruct l; [congruence|cbn [List.length]; lia]). apply IZR_le in L0.
  destruct (f64_of (Z.of_nat (List.length l)) 0) as [q|q| |q m e B]; try discriminate F; [change (0 = IZR (Z.of_nat (List.length l))) in V; lra|]. eexists. reflexivity.
Qed.
Lemma rms_zeros : forall S l, summer S -> l <> [] -> (Z.of_nat (List.length l) <= 2 ^ 50)%Z -> Forall is_zero l -> Forall is_zero (l_rms S l).
Proof.
  intros S l HS N HL H. assert (D : Forall is_zero (l_diff S l)).
  { unfold l_diff. destruct (mean_zeros S l HS N HL H) as [p Ep]. rewrite Ep. apply Forall_map. revert H. apply Forall_impl. intros v [q ->]. destruct p, q; eexists; reflexivity. }
  assert (LD : List.length (l_diff S l) = List.length l) by (unfold l_diff; apply map_length).
  assert (ST : is_zero (l_std S l)).
  { unfold l_std. destruct (mean_zeros S (map (fun v => fmul v v) (l_diff S l)) HS) as [p ->]; [| | |eexists; reflexivity].
    - intros E. apply (f_equal (@List.length _)) in E. rewrite map_length, LD in E. destruct l; [congruence|discriminate E].
    - rewrite map_length, LD. exact HL.
    - apply Forall_map. revert D. apply Forall_impl. intros v [q ->]. destruct q; eexists; reflexivity. }
  unfold l_rms. destruct ST as [p ->]. cbn [f_or1]. apply Forall_map. revert D. apply Forall_impl. intros v [q ->]. exists q. destruct q; apply (B2SF_inj 53 1024); vm_compute; reflexivity.
Qed.
(** If no modulus ever rises, and [delta] is positive, no onset is detected. *)
Theorem c117_quiet : forall S junk a size n w m alpha delta, summer S -> a <> [] -> (Z.of_nat (List.length a) <= 2 ^ 50)%Z ->
  Forall (fun r => List.length r = n /\ Forall modulus r) a ->
  (forall r t, In r a -> (t + 1 < n)%nat -> val (nth (t + 1) r z) <= val (nth t r z)) ->
  (1 <= w)%nat -> (2 * w + 1 < n)%nat -> ((m + 1) * w + 1 < n)%nat -> (Z.of_nat n <= 2 ^ 50)%Z -> finite delta -> 0 < val delta ->
  u_detection S junk a size (Z.of_nat w) (Z.of_nat m) alpha delta = Ok (repeat false (Z.to_nat size)).
Proof.
  intros S junk a size n w m alpha delta HS N HL H HD Hw H2 Hm Hn Fd Pd. destruct (c117_flux S a n HS N HL H) as (f & Ef & Lf & Hf).
  unfold u_detection. rewrite Ef. cbn [bind].
  assert (Z0 : Forall is_zero f).
  { apply Forall_forall. intros v Hv. destruct (In_nth f v z Hv) as (t & Ht & <-). destruct (Hf t ltac:(lia)) as (F & _ & E & _). apply zero_of; [exact F|]. apply E. intros r Hr. apply HD; [exact Hr|lia]. }
  pose proof (c116_selection S junk f w m alpha delta Hw) as NN. cbv zeta in NN. rewrite Lf in NN. destruct (NN ltac:(lia) ltac:(lia)) as (r & Er & Lr & Hr). rewrite Er. cbn [bind].
  assert (NF : f <> []) by (intros ->; cbn in Lf; lia). pose proof (rms_zeros S f HS NF ltac:(lia) Z0) as ZX. set (xn := l_rms S f) in *.
  assert (LX : List.length xn = List.length f) by (unfold xn, l_rms, l_diff; now rewrite !map_length).
  assert (NX : forall i, is_zero (nth i xn z)).
  { intros i. destruct (Nat.lt_ge_cases i (List.length xn)) as [L|L]; [|rewrite nth_overflow by lia; eexists; reflexivity]. rewrite Forall_forall in ZX. apply ZX, nth_In, L. }
  replace r with (repeat false (List.length f)); [apply mark_none|]. symmetry.
  apply (nth_ext _ _ false false); [rewrite repeat_length, Lr; symmetry; exact Lf|]. intros i Hi. rewrite Lr in Hi. rewrite nth_repeat. apply not_true_is_false. intros T. apply (Hr i Hi) in T.
  destruct T as (_ & _ & _ & T). destruct (NX i) as [p Ep]. rewrite Ep in T.
  assert (ME : is_zero (if Nat.ltb i (m * w) then z else l_mean S (map (fun j => nth (i - m * w + j) xn z) (seq 0 ((m + 1) * w + 1))))).
  { destruct (Nat.ltb i (m * w)); [eexists; reflexivity|]. apply mean_zeros; auto.
    - replace ((m + 1) * w + 1)%nat with (Datatypes.S ((m + 1) * w)) by lia. discriminate.
    - rewrite map_length, seq_length. lia.
    - apply Forall_map, Forall_forall. intros j _. apply NX. }
  destruct ME as [q Eq]. rewrite Eq in T. assert (ED : fadd (B754_zero q) delta = delta) by (destruct delta as [c|c| |c ? e B]; try discriminate Fd; [cbn in Pd; lra|reflexivity]).
  rewrite ED in T. apply ge_iff in T; [|reflexivity|exact Fd]. cbn in T. lra.
Qed.

(** Two rows: 1 to 3 and 2 to 5 rise, 4 to 0 does not. *)
Example ex_flux : u_flux left_sum [[f64_of 1 0; f64_of 3 0; f64_of 3 0]; [f64_of 4 0; f64_of 2 0; f64_of 5 0]] = Ok [f64_of 2 0; f64_of 3 0].
Proof. apply res_eq. vm_compute. reflexivity. Qed.
Example ex_modulus : Forall (fun r => List.length r = 3%nat /\ Forall modulus r) [[f64_of 1 0; f64_of 3 0; f64_of 3 0]; [f64_of 4 0; f64_of 2 0; f64_of 5 0]].
Proof.
  assert (K : forall m, (0 <= m <= 5)%Z -> modulus (f64_of m 0)).
  { intros m Hm. destruct (int_val m ltac:(lia)) as [F V]. split; [exact F|]. rewrite V. split; [apply IZR_le; lia|]. apply IZR_le_bpow; [lia|]. apply Z.le_trans with (2 ^ 3)%Z; [lia|apply Z.pow_le_mono_r; lia]. }
  repeat first [apply Forall_cons | apply Forall_nil | split | reflexivity | (apply K; lia)].
Qed.
Example ex_flux_empty : u_detection left_sum (fun _ => true) [] 21 1 3 (f64_of 3 (-2)) (f64_of 3 (-1)) = Err IndexError.
Proof. reflexivity. Qed.
(** A signal of 21 samples and 11 frames, one of which is loud: the onset of flux frame 5 of 10 is sample 10.  With a NaN in the last frame, or without the loud frame, there is none. *)
Example ex_detection : let row v e := [z; z; z; z; z; z; v; z; z; z; e] in
  let det v e := u_detection left_sum (fun _ => true) [row v e; row z z] 21 1 3 (f64_of 3 (-2)) (f64_of 3 (-1)) in
  det (f64_of 1 0) z = Ok (repeat false 10 ++ [true] ++ repeat false 10) /\ det (f64_of 1 0) B754_nan = Ok (repeat false 21) /\ det z z = Ok (repeat false 21).
Proof. split; [vm_compute; reflexivity|]. split; vm_compute; reflexivity. Qed.
Example ex_index : u_index 7 44100 10 = 30870%Z /\ u_index 2 22050 3 = 14700%Z /\ u_index 1 22051 3 = 7350%Z.
Proof. vm_compute. auto. Qed.
Print Assumptions c117_flux. Print Assumptions c117_index. Print Assumptions c117_index_refuted. Print Assumptions c117_positions. Print Assumptions c117_silent. Print Assumptions c117_quiet.
