(** C115: strided convolution in double precision. *)
From Coq Require Import String ZArith Reals Lra Lia Bool Permutation List.
From Flocq Require Import Core IEEE754.BinarySingleNaN.
Import ListNotations.
From Verif Require Import Base Py PyLemmas ListLemmas RLists Double_Model Double_Float Peak_Model Peak_Round Peak_Accuracy
  Peak_Proofs Clock_Model Clock_Proofs Stft_Model Stft_Proofs Onset_Proofs Synth_Model Synth_Proofs Kernel_Model.
Local Open Scope R_scope.
Notation z := (f64_of 0 0).

Lemma k_windows : forall (x k : list f64_num) st, (1 <= List.length k <= List.length x)%nat -> (1 <= st)%nat ->
  k_factors x k (Z.of_nat st) = Ok (map (fun i => combine (map (fun j => nth (i * st + j) x z) (seq 0 (List.length k))) (rev k))
    (seq 0 (S ((List.length x - List.length k) / st)))).
Proof.
  intros x k st Hk Hs. unfold k_factors, overlapping_windows, n_windows. set (w := List.length k) in *. change (zlen k) with (Z.of_nat w).
  destruct (Z.eqb_spec (Z.of_nat st) 0) as [|_]; [lia|]. cbn [bind].
  assert (E : (1 + (zlen x - Z.of_nat w) / Z.of_nat st)%Z = Z.of_nat (S ((List.length x - w) / st))).
  { unfold zlen. rewrite Nat2Z.inj_succ, Nat2Z.inj_div, Nat2Z.inj_sub by lia. lia. }
  rewrite E. destruct (Z.ltb_spec (Z.of_nat (S ((List.length x - w) / st))) 0); [lia|]. destruct (Z.ltb_spec (Z.of_nat w) 0); [lia|]. cbn [orb bind].
  unfold zrange at 2. rewrite Nat2Z.id, map_map.
  rewrite (mapM_map_ok _ _ _ _ _ (fun i => map (fun j => nth (i * st + j) x z) (seq 0 w))).
  - cbn [bind]. rewrite map_map. reflexivity.
  - intros i Hi. apply in_seq in Hi. unfold zrange. rewrite Nat2Z.id, map_map. apply mapM_map_ok.
    intros j Hj. apply in_seq in Hj. unfold cell. destruct (Z.ltb_spec (Z.of_nat i * Z.of_nat st + Z.of_nat j) 0); [lia|].
    replace (Z.to_nat (Z.of_nat i * Z.of_nat st + Z.of_nat j)) with (i * st + j)%nat by lia. rewrite (nth_error_nth' x z); [reflexivity|].
    assert (i * st <= List.length x - w)%nat; [|lia]. apply Nat.le_trans with (((List.length x - w) / st) * st)%nat.
    + apply Nat.mul_le_mono_r. lia.
    + rewrite Nat.mul_comm. apply Nat.mul_div_le. lia.
Qed.
(** The factors of one window, by index of the kernel. *)
Lemma window_perm : forall (x k : list f64_num) s, Permutation (combine (map (fun j => nth (s + j) x z) (seq 0 (List.length k))) (rev k))
  (map (fun j => (nth (s + (List.length k - 1 - j)) x z, nth j k z)) (seq 0 (List.length k))).
Proof.
  intros x k s. set (w := List.length k).
  assert (E : combine (map (fun j => nth (s + j) x z) (seq 0 w)) (rev k) = map (fun j => (nth (s + j) x z, nth (w - 1 - j) k z)) (seq 0 w)).
  { apply (list_by_nth _ (z, z)).
    - rewrite combine_length, map_length, seq_length, rev_length. apply Nat.min_id.
    - intros j Hj. rewrite ?combine_length, ?map_length, ?seq_length, ?rev_length in Hj. fold w in Hj. assert (Hj2 : (j < w)%nat) by lia. clear Hj. rename Hj2 into Hj.
      rewrite nth_combine by (rewrite ?map_length, ?seq_length, ?rev_length; fold w; lia).
      rewrite (nth_map_lt _ _ _ 0%nat) by (rewrite seq_length; lia). rewrite seq_nth by lia.
      rewrite rev_nth by (fold w; lia). fold w. f_equal. f_equal. lia. }
  rewrite E. eapply Permutation_trans; [apply Permutation_rev|]. rewrite <- map_rev.
  assert (R : rev (seq 0 w) = map (fun j => (w - 1 - j)%nat) (seq 0 w)).
  { apply (list_by_nth _ 0%nat).
    - rewrite rev_length, seq_length. reflexivity.
    - intros j Hj. rewrite rev_nth by (rewrite seq_length; lia). rewrite seq_length.
      rewrite !seq_nth by lia. lia. }
  rewrite R, map_map. apply Permutation_refl'. apply map_ext_in. intros j Hj. apply in_seq in Hj. f_equal. f_equal. lia.
Qed.
Lemma sum_of_map : forall (f g : nat -> f64_num) l, sum_of (map (fun j => (f j, g j)) l) = rsum (map (fun j => val (g j) * val (f j)) l) /\
  size_of (map (fun j => (f j, g j)) l) = rsum (map (fun j => Rabs (val (g j) * val (f j))) l).
Proof.
  intros f g. induction l as [|a l [I1 I2]]; cbn [map]; [split; reflexivity|]. cbn [sum_of size_of fold_right fst snd rsum].
  fold (sum_of (map (fun j => (f j, g j)) l)) (size_of (map (fun j => (f j, g j)) l)). rewrite I1, I2. rewrite (Rmult_comm (val (f a))). split; reflexivity.
Qed.
Lemma dot_exists : forall l, exists y, dot l y.
Proof. induction l as [|[a b] l [y H]]; [exists z; constructor|]. exists (ffma a b y). now constructor. Qed.
Lemma dot_nan : forall l y, dot l y -> (exists p, In p l /\ (fst p = B754_nan \/ snd p = B754_nan)) -> y = B754_nan.
Proof.
  assert (A1 : forall v, fadd B754_nan v = B754_nan) by (intros [c|c| |c m e B]; reflexivity). assert (A2 : forall v, fadd v B754_nan = B754_nan) by (intros [c|c| |c m e B]; reflexivity).
  assert (M1 : forall v, fmul B754_nan v = B754_nan) by (intros [c|c| |c m e B]; reflexivity). assert (M2 : forall v, fmul v B754_nan = B754_nan) by (intros [c|c| |c m e B]; reflexivity).
  assert (F1 : forall v w, ffma B754_nan v w = B754_nan) by (intros [c|c| |c m e B] [c'|c'| |c' m' e' B']; reflexivity).
  assert (F2 : forall v w, ffma v B754_nan w = B754_nan) by (intros [c|c| |c m e B] [c'|c'| |c' m' e' B']; reflexivity).
  assert (F3 : forall v w, ffma v w B754_nan = B754_nan) by (intros [c|c| |c m e B] [c'|c'| |c' m' e' B']; try reflexivity; destruct c; try destruct c'; reflexivity).
  intros l y D. induction D as [|a b|l r x y Nl Nr _ IH1 _ IH2|a b l x _ IH|l x N _ IH|l r x P _ IH]; intros (p & Hp & H).
  - destruct Hp.
  - destruct Hp as [<-|[]]. cbn [fst snd] in H. destruct H as [->| ->]; auto.
  - apply in_app_or in Hp. destruct Hp as [Hp|Hp].
    + rewrite IH1 by eauto. auto.
    + rewrite IH2 by eauto. auto.
  - destruct Hp as [<-|Hp].
    + cbn [fst snd] in H. destruct H as [->| ->]; auto.
    + rewrite IH by eauto. auto.
  - rewrite IH by eauto. auto.
  - apply IH. exists p. split; [|exact H]. eapply Permutation_in; [apply Permutation_sym; eassumption|exact Hp].
Qed.

(** There is a result, and every possible result is: output [i] is sample [i * stride] of the valid part of the convolution, for exactly those [i]
    for which it exists; if the numbers it depends on are finite and not too big it is finite and right up to [2^-51 n] of the sum of the moduli, where [n]
    is the size of the kernel; if one of them is NaN it is NaN. *)
Theorem c115_convolution : forall (x kernel : list f64_num) stride, (1 <= List.length kernel <= List.length x)%nat -> (1 <= stride)%nat ->
  (exists y, k_conv x kernel (Z.of_nat stride) y) /\
  forall y, k_conv x kernel (Z.of_nat stride) y -> exists ys, y = Ok ys /\
    (forall i, (i < List.length ys <-> i * stride + List.length kernel <= List.length x)%nat) /\
    forall i, (i < List.length ys)%nat ->
      let n := List.length kernel in
      let at_ j := nth (i * stride + (n - 1 - j)) x z in
      (Forall (fun k : f64_num => finite k) kernel -> (forall j, (j < n)%nat -> finite (at_ j)) -> (Z.of_nat n <= 2 ^ 50)%Z ->
       rsum (map (fun j => Rabs (val (nth j kernel z) * val (at_ j))) (seq 0 n)) <= bpow radix2 1000 ->
       finite (nth i ys z) /\
       Rabs (val (nth i ys z) - rsum (map (fun j => val (nth j kernel z) * val (at_ j)) (seq 0 n))) <=
       bpow radix2 (-51) * INR n * rsum (map (fun j => Rabs (val (nth j kernel z) * val (at_ j))) (seq 0 n)) + 2 * INR n * bpow radix2 (-1074)) /\
      ((exists j, (j < n)%nat /\ (at_ j = B754_nan \/ nth j kernel z = B754_nan)) -> nth i ys z = B754_nan).
Proof.
  intros x k st Hk Hs. set (w := List.length k) in *.
  set (L := map (fun i => combine (map (fun j => nth (i * st + j) x z) (seq 0 w)) (rev k)) (seq 0 (S ((List.length x - w) / st)))).
  assert (KW : forall y, k_conv x k (Z.of_nat st) y <-> exists ys, y = Ok ys /\ Forall2 dot L ys) by (intros y; unfold k_conv; rewrite k_windows by assumption; reflexivity).
  split.
  - assert (E : exists ys, Forall2 dot L ys) by (clear; clearbody L; induction L as [|l L [ys IH]]; [exists []; constructor|]; destruct (dot_exists l) as [y H]; exists (y :: ys); now constructor).
    destruct E as [ys E]. exists (Ok ys). apply KW. exists ys. split; [reflexivity|exact E].
  - intros y HY. apply KW in HY. destruct HY as (ys & Ey & F2). exists ys. split; [exact Ey|].
    assert (LL : List.length ys = S ((List.length x - w) / st)).
    { transitivity (List.length L); [|unfold L; now rewrite map_length, seq_length]. clear - F2. induction F2; cbn; congruence. }
    split.
    + intro i. rewrite LL. assert (D := Nat.div_mod (List.length x - w) st ltac:(lia)). assert (M := Nat.mod_upper_bound (List.length x - w) st ltac:(lia)). nia.
    + intros i Hi n at_.
      assert (PN : forall (a : list (list (f64_num * f64_num))) (b : list f64_num) m, Forall2 dot a b -> (m < List.length b)%nat -> dot (nth m a []) (nth m b z)).
      { intros a b m F. revert m. induction F; intros [|m] Hm; cbn in *; try lia; auto. apply IHF. lia. }
      pose proof (PN _ _ i F2 Hi) as D. unfold L in D. rewrite (nth_map_lt _ _ _ 0%nat) in D by (rewrite seq_length; lia). rewrite seq_nth in D by lia. cbn [plus] in D.
      pose proof (dot_perm _ _ _ (window_perm x k (i * st)) D) as D'. fold w in D'. change w with n in D'. fold (at_) in D'.
      destruct (sum_of_map at_ (fun j => nth j k z) (seq 0 n)) as [SU SI].
      split.
      * intros FK FX HN HS. rewrite <- SU, <- SI. rewrite <- SI in HS.
        destruct (dot_bound _ _ D') as [F B]; [| exact HS | now rewrite map_length, seq_length|].
        { unfold all_finite. rewrite Forall_forall. intros p Hp. apply in_map_iff in Hp. destruct Hp as (j & <- & Hj). apply in_seq in Hj. cbn [fst snd].
          split; [apply FX; lia|]. rewrite Forall_forall in FK. apply FK, nth_In. fold w. change w with n. lia. }
        rewrite map_length, seq_length in B. split; [exact F|exact B].
      * intros (j & Hj & H). apply (dot_nan _ _ D'). exists (at_ j, nth j k z). split; [|exact H].
        apply in_map_iff. exists j. split; [reflexivity|]. apply in_seq. lia.
Qed.

(** Numbers up to [X] and a kernel whose moduli sum up to [S]: one bound for all. *)
Theorem c115_uniform : forall (x kernel : list f64_num) stride X y, (1 <= List.length kernel <= List.length x)%nat -> (1 <= stride)%nat ->
  Forall (fun k : f64_num => finite k) kernel -> Forall (fun v : f64_num => finite v /\ Rabs (val v) <= X) x -> (Z.of_nat (List.length kernel) <= 2 ^ 50)%Z ->
  let K := rsum (map (fun k : f64_num => Rabs (val k)) kernel) in
  K * X <= bpow radix2 1000 -> k_conv x kernel (Z.of_nat stride) y -> exists ys, y = Ok ys /\
  forall i, (i * stride + List.length kernel <= List.length x)%nat ->
    finite (nth i ys z) /\
    Rabs (val (nth i ys z) - rsum (map (fun j => val (nth j kernel z) * val (nth (i * stride + (List.length kernel - 1 - j)) x z)) (seq 0 (List.length kernel)))) <=
    INR (List.length kernel) * (bpow radix2 (-51) * (K * X) + bpow radix2 (-1073)).
Proof.
  intros x k st X y Hk Hs FK FX HN K HK HY. destruct (c115_convolution x k st Hk Hs) as [_ C]. destruct (C y HY) as (ys & E & L & B). exists ys. split; [exact E|].
  intros i Hi. apply L in Hi. destruct (B i Hi) as [B1 _]. clear B. apply L in Hi. set (n := List.length k) in *. rewrite Forall_forall in FX.
  assert (IN : forall j, (j < n)%nat -> In (nth (i * st + (n - 1 - j)) x z) x) by (intros j Hj; apply nth_In; lia).
  assert (SZ : rsum (map (fun j => Rabs (val (nth j k z) * val (nth (i * st + (n - 1 - j)) x z))) (seq 0 n)) <= K * X).
  { assert (EK : K = rsum (map (fun j => Rabs (val (nth j k z))) (seq 0 n))).
    { unfold K. f_equal. apply (list_by_nth _ 0); [rewrite map_length; reflexivity|]. intros j Hj.
      rewrite (nth_map_lt _ _ _ z) by exact Hj. reflexivity. }
    rewrite EK. assert (G : forall l, (forall j, In j l -> (j < n)%nat) -> rsum (map (fun j => Rabs (val (nth j k z) * val (nth (i * st + (n - 1 - j)) x z))) l) <= rsum (map (fun j => Rabs (val (nth j k z))) l) * X).
    { induction l as [|j l IH]; intros Hl; cbn [map rsum fold_right]; [cbn; lra|].
      change (Rabs (val (nth j k z) * val (nth (i * st + (n - 1 - j)) x z)) + rsum (map (fun j => Rabs (val (nth j k z) * val (nth (i * st + (n - 1 - j)) x z))) l) <= (Rabs (val (nth j k z)) + rsum (map (fun j => Rabs (val (nth j k z))) l)) * X).
      assert (I := IH ltac:(intros; apply Hl; now right)). destruct (FX _ (IN j ltac:(apply Hl; now left))) as [_ BX]. rewrite Rabs_mult.
      assert (Rabs (val (nth j k z)) * Rabs (val (nth (i * st + (n - 1 - j)) x z)) <= Rabs (val (nth j k z)) * X) by (apply Rmult_le_compat_l; [apply Rabs_pos|exact BX]). lra. }
    apply G. intros j Hj. apply in_seq in Hj. lia. }
  destruct B1 as [F B]; auto.
  - intros j Hj. apply FX, IN, Hj.
  - eapply Rle_trans; [exact SZ|exact HK].
  - split; [exact F|]. eapply Rle_trans; [exact B|]. pose proof (pos_INR n) as PN. pose proof (bpow_gt_0 radix2 (-51)) as P5.
    assert (E2 : bpow radix2 (-1073) = 2 * bpow radix2 (-1074)) by (change (-1073)%Z with (1 + -1074)%Z; rewrite bpow_plus; reflexivity). rewrite E2.
    assert (M : bpow radix2 (-51) * INR n * rsum (map (fun j => Rabs (val (nth j k z) * val (nth (i * st + (n - 1 - j)) x z))) (seq 0 n)) <= bpow radix2 (-51) * INR n * (K * X)).
    { apply Rmult_le_compat_l; [apply Rmult_le_pos; lra|exact SZ]. }
    lra.
Qed.

(** A signal shorter than the kernel: no output if the stride reaches the end of the kernel, else ValueError. *)
Theorem c115_short : forall (x kernel : list f64_num) stride y, (1 <= stride)%nat -> (List.length x < List.length kernel)%nat ->
  k_conv x kernel (Z.of_nat stride) y <-> y = if (List.length kernel - List.length x <=? stride)%nat then Ok [] else Err ValueError.
Proof.
  intros x k st y Hs H. unfold k_conv, k_factors. rewrite windows_short; unfold zlen; try lia.
  destruct (Z.leb_spec (Z.of_nat (List.length k) - Z.of_nat (List.length x)) (Z.of_nat st)); destruct (Nat.leb_spec (List.length k - List.length x) st); try lia; cbn.
  - split; [intros (ys & -> & F); inversion F; reflexivity|intros ->; exists []; split; [reflexivity|constructor]].
  - reflexivity.
Qed.

(** Complex kernels: the real part is a possible result for the real parts, and the imaginary part for the imaginary parts. *)
Theorem c115_complex : forall (x : list f64_num) (kernel : list (f64_num * f64_num)) stride y, (1 <= List.length kernel <= List.length x)%nat -> (1 <= stride)%nat ->
  k_complex x kernel (Z.of_nat stride) y -> exists ys, y = Ok ys /\
    k_conv x (map fst kernel) (Z.of_nat stride) (Ok (map fst ys)) /\ k_conv x (map snd kernel) (Z.of_nat stride) (Ok (map snd ys)).
Proof.
  intros x k st y Hk Hs (re & im & H1 & H2 & ->).
  assert (K1 : (1 <= List.length (map fst k) <= List.length x)%nat) by (rewrite map_length; exact Hk). assert (K2 : (1 <= List.length (map snd k) <= List.length x)%nat) by (rewrite map_length; exact Hk).
  destruct (c115_convolution x (map fst k) st K1 Hs) as [_ C1]. destruct (C1 _ H1) as (r & -> & L1 & _). destruct (c115_convolution x (map snd k) st K2 Hs) as [_ C2]. destruct (C2 _ H2) as (m & -> & L2 & _).
  exists (combine r m). split; [reflexivity|]. rewrite map_length in L1, L2.
  assert (E : List.length r = List.length m).
  { destruct (Nat.lt_trichotomy (List.length r) (List.length m)) as [G|[G|G]]; [exfalso|exact G|exfalso].
    - apply L2 in G. apply L1 in G. lia.
    - apply L1 in G. apply L2 in G. lia. }
  assert (CB : map fst (combine r m) = r /\ map snd (combine r m) = m).
  { clear - E. revert m E. induction r as [|a r IH]; intros [|b m] E; cbn in *; try discriminate; [split; reflexivity|]. destruct (IH m) as [I1 I2]; [lia|]. rewrite I1, I2. split; reflexivity. }
  destruct CB as [-> ->]. split; assumption.
Qed.

(** [[1; 2; 3; 4; 5]] with the kernel [[10; 1]] and stride 2, as in C40; a NaN only spoils the outputs that depend on it. *)
Example ex_conv : exists y n, k_conv [f64_of 1 0; f64_of 2 0; f64_of 3 0; f64_of 4 0; f64_of 5 0] [f64_of 10 0; f64_of 1 0] 2 (Ok y) /\ map B2SF y = map B2SF [f64_of 21 0; f64_of 43 0] /\
  k_conv [B754_nan; f64_of 2 0; f64_of 3 0; f64_of 4 0; f64_of 5 0] [f64_of 10 0; f64_of 1 0] 2 (Ok n) /\ map B2SF n = map B2SF [B754_nan; f64_of 43 0].
Proof.
  assert (D : forall a b c d, dot [(a, b); (c, d)] (fadd (fmul a b) (fmul c d))) by (intros; apply (dot_add [(a, b)] [(c, d)]); try discriminate; constructor).
  eexists. eexists. split; [|split; [|split]].
  - eexists. split; [reflexivity|]. constructor; [apply D|]. constructor; [apply D|constructor].
  - vm_compute. reflexivity.
  - eexists. split; [reflexivity|]. constructor; [apply D|]. constructor; [apply D|constructor].
  - vm_compute. reflexivity.
Qed.
Print Assumptions c115_convolution. Print Assumptions c115_uniform. Print Assumptions c115_short. Print Assumptions c115_complex.
