(** C114: the filter of onset selection in double precision. *)
From Coq Require Import String ZArith Reals Lra Lia Bool List.
From Flocq Require Import Core IEEE754.BinarySingleNaN.
Import ListNotations.
From Verif Require Import Base ListLemmas RLists Double_Model Double_Float Peak_Model Peak_Round Peak_Accuracy
  Peak_Proofs Clock_Model Clock_Proofs Level_Model Level_Proofs Dsp_Model Rise_Model.
Local Open Scope R_scope.

Lemma py_max_val : forall a b : f64_num, finite a -> finite b -> finite (py_max a b) /\ val (py_max a b) = Rmax (val a) (val b).
Proof.
  intros a b Fa Fb. unfold py_max. destruct (fgt b a) eqn:E.
  - apply (fgt_iff b a Fb Fa) in E. split; [exact Fb|]. rewrite Rmax_right; lra.
  - split; [exact Fa|]. rewrite Rmax_left; [reflexivity|]. destruct (Rle_lt_dec (val b) (val a)) as [|L]; [assumption|]. apply (fgt_iff b a Fb Fa) in L. congruence.
Qed.
Lemma rmax_near : forall f a b e, Rabs (a - b) <= e -> Rabs (Rmax f a - Rmax f b) <= e.
Proof. intros f a b e H. pose proof (Rabs_pos (a - b)). apply Rabs_le_inv in H. unfold Rmax. destruct (Rle_dec f a), (Rle_dec f b); apply Rabs_le; split; lra. Qed.

(** One step: the error shrinks by [alpha], and [16] roundings of the size of the signal are added. *)
Lemma step : forall (al al' g f : f64_num) gr F, finite al -> finite al' -> finite g -> finite f -> 0 <= val al <= 1 ->
  Rabs (val al' - (1 - val al)) <= uro -> bpow radix2 (-900) <= F <= bpow radix2 1000 -> Rabs (val g) <= 2 * F -> Rabs (val f) <= F ->
  let v := fadd (fmul al g) (fmul al' f) in
  finite v /\ Rabs (val v - (val al * gr + (1 - val al) * val f)) <= val al * Rabs (val g - gr) + 16 * uro * F.
Proof.
  intros al al' g f gr F Fa Fa' Fg Ff A HA' HF Hg Hf v. pose proof uro_small as U. pose proof uro_val as UV. pose proof (bpow_gt_0 radix2 (-900)) as P9.
  assert (U0 : 0 < uro) by (rewrite UV; apply bpow_gt_0).
  assert (ET : eta <= uro * F).
  { apply Rle_trans with (uro * bpow radix2 (-900)); [|apply Rmult_le_compat_l; lra]. rewrite UV, <- bpow_plus. apply bpow_le. lia. }
  assert (FB : 4 * F <= bpow radix2 1002) by (change 1002%Z with (2 + 1000)%Z; rewrite bpow_plus; change (bpow radix2 2) with 4; lra).
  assert (BB : bpow radix2 1002 <= bpow radix2 1023) by (apply bpow_le; lia). pose proof eta_pos as EP.
  assert (A' : 0 <= Rabs (val al') <= 2) by (split; [apply Rabs_pos|]; apply Rabs_le_inv in HA'; apply Rabs_le; split; lra).
  assert (P1 : Rabs (val al * val g) <= 2 * F).
  { rewrite Rabs_mult, (Rabs_pos_eq (val al)) by lra. apply Rle_trans with (1 * (2 * F)); [|lra]. apply Rmult_le_compat; try lra. apply Rabs_pos. }
  assert (AF : Rabs (val al' * val f - (1 - val al) * val f) <= uro * F).
  { rewrite <- Rmult_minus_distr_r, Rabs_mult. apply Rmult_le_compat; auto using Rabs_pos. }
  assert (AR : Rabs ((1 - val al) * val f) <= F).
  { rewrite Rabs_mult, (Rabs_pos_eq (1 - val al)) by lra. apply Rle_trans with (1 * F); [|lra]. apply Rmult_le_compat; try lra. apply Rabs_pos. }
  assert (UF : uro * F <= / 1000 * F) by (apply Rmult_le_compat_r; lra).
  assert (P2 : Rabs (val al' * val f) <= 1.5 * F) by (apply Rabs_le_inv in AF; apply Rabs_le_inv in AR; apply Rabs_le; split; lra).
  destruct (fmul_val al g Fa Fg) as [F1 V1]; [lra|]. destruct (fmul_val al' f Fa' Ff) as [F2 V2]; [lra|].
  pose proof (rnd_near (val al * val g)) as N1. pose proof (rnd_near (val al' * val f)) as N2. rewrite <- V1 in N1. rewrite <- V2 in N2.
  set (p := val (fmul al g)) in *. set (q := val (fmul al' f)) in *.
  assert (N1' : Rabs (p - val al * val g) <= 3 * (uro * F)).
  { eapply Rle_trans; [exact N1|]. assert (uro * Rabs (val al * val g) <= uro * (2 * F)) by (apply Rmult_le_compat_l; lra). lra. }
  assert (N2' : Rabs (q - val al' * val f) <= 3 * (uro * F)).
  { eapply Rle_trans; [exact N2|]. assert (uro * Rabs (val al' * val f) <= uro * (1.5 * F)) by (apply Rmult_le_compat_l; lra). lra. }
  assert (PQ : Rabs (p + q) <= 4 * F).
  { apply Rabs_le_inv in N1'. apply Rabs_le_inv in N2'. apply Rabs_le_inv in P1. apply Rabs_le_inv in P2. apply Rabs_le; split; lra. }
  destruct (fadd_val (fmul al g) (fmul al' f) F1 F2) as [F3 V3]; [fold p q; lra|]. fold p q in V3. split; [exact F3|].
  change (val v) with (val (fadd (fmul al g) (fmul al' f))). rewrite V3. pose proof (rnd_near (p + q)) as N3.
  assert (N3' : Rabs (rnd (p + q) - (p + q)) <= 5 * (uro * F)).
  { eapply Rle_trans; [exact N3|]. assert (uro * Rabs (p + q) <= uro * (4 * F)) by (apply Rmult_le_compat_l; lra). lra. }
  assert (E : Rabs (val al * val g - val al * gr) <= val al * Rabs (val g - gr)) by (rewrite <- Rmult_minus_distr_l, Rabs_mult, (Rabs_pos_eq (val al)) by lra; lra).
  apply Rabs_le_inv in N1'. apply Rabs_le_inv in N2'. apply Rabs_le_inv in N3'. apply Rabs_le_inv in AF. apply Rabs_le_inv in E.
  replace (16 * uro * F) with (16 * (uro * F)) by ring. apply Rabs_le; split; lra.
Qed.

Lemma loop_near : forall (al al' : f64_num) k F, finite al -> finite al' -> (0 <= k <= 40)%Z -> 0 <= val al <= 1 - bpow radix2 (- k) ->
  Rabs (val al' - (1 - val al)) <= uro -> bpow radix2 (-900) <= F <= bpow radix2 1000 ->
  forall (x : list f64_num) (g : f64_num) gr, finite g -> Rabs gr <= F -> Rabs (val g - gr) <= bpow radix2 (k - 49) * F ->
  Forall (fun f : f64_num => finite f /\ Rabs (val f) <= F) x ->
  Forall2 (fun (d : f64_num) r => finite d /\ Rabs (val d - r) <= bpow radix2 (k - 49) * F) (d_onset_loop al al' g x) (onset_g (val al) gr (map (fun v : f64_num => val v) x)).
Proof.
  intros al al' k F Fa Fa' K A HA' HF. pose proof (bpow_gt_0 radix2 (-900)) as P9. pose proof (bpow_gt_0 radix2 (- k)) as PK.
  assert (B : bpow radix2 (k - 49) <= 1) by (change 1 with (bpow radix2 0); apply bpow_le; lia).
  assert (BF : bpow radix2 (k - 49) * F <= 1 * F) by (apply Rmult_le_compat_r; lra).
  assert (U : 16 * uro * F <= bpow radix2 (- k) * (bpow radix2 (k - 49) * F)).
  { replace (bpow radix2 (- k) * (bpow radix2 (k - 49) * F)) with (bpow radix2 (- k) * bpow radix2 (k - 49) * F) by ring. rewrite <- (bpow_plus radix2 (- k) (k - 49)). rewrite uro_val. change 16 with (bpow radix2 4). rewrite <- (bpow_plus radix2 4 (-53)). apply Rmult_le_compat_r; [lra|]. apply bpow_le. lia. }
  set (D := bpow radix2 (k - 49) * F) in *. induction x as [|f x IH]; intros g gr Fg Hr Hd Hx; cbn [d_onset_loop onset_g map]; [constructor|].
  apply Forall_cons_iff in Hx. destruct Hx as [[Ff Hf] Hx]. pose proof (Rabs_pos (val g - gr)) as RP.
  destruct (step al al' g f gr F Fa Fa' Fg Ff ltac:(lra) HA' HF) as [Fv Hv]; auto.
  { apply Rabs_le_inv in Hd. apply Rabs_le_inv in Hr. apply Rabs_le; split; lra. }
  set (v := fadd (fmul al g) (fmul al' f)) in *. destruct (py_max_val f v Ff Fv) as [Fm Vm].
  assert (HD : Rabs (val (py_max f v) - Rmax (val f) (val al * gr + (1 - val al) * val f)) <= D).
  { rewrite Vm. apply rmax_near. eapply Rle_trans; [exact Hv|].
    assert (val al * Rabs (val g - gr) <= (1 - bpow radix2 (- k)) * D) by (apply Rmult_le_compat; lra). lra. }
  constructor; [split; assumption|]. apply IH; auto.
  apply Rabs_le_inv in Hf. apply Rabs_le_inv in Hr.
  assert (M1 : val al * gr <= val al * F) by (apply Rmult_le_compat_l; lra). assert (M2 : val al * - F <= val al * gr) by (apply Rmult_le_compat_l; lra).
  assert (M3 : (1 - val al) * val f <= (1 - val al) * F) by (apply Rmult_le_compat_l; lra). assert (M4 : (1 - val al) * - F <= (1 - val al) * val f) by (apply Rmult_le_compat_l; lra).
  unfold Rmax. destruct (Rle_dec _ _); apply Rabs_le; split; lra.
Qed.

(** For a signal up to [F], and [alpha] at most [1 - 2^-k], the filter is right up to [2^(k-49) F], however long the signal is. *)
Theorem c114_filter : forall (alpha : f64_num) (x : list f64_num) k F, finite alpha -> (0 <= k <= 40)%Z -> 0 <= val alpha <= 1 - bpow radix2 (- k) ->
  bpow radix2 (-900) <= F <= bpow radix2 1000 -> Forall (fun f : f64_num => finite f /\ Rabs (val f) <= F) x ->
  Forall2 (fun (d : f64_num) r => finite d /\ Rabs (val d - r) <= bpow radix2 (k - 49) * F) (d_onset_g alpha x) (onset_g (val alpha) 0 (map (fun v : f64_num => val v) x)).
Proof.
  intros alpha x k F Fa K A HF Hx. pose proof (bpow_gt_0 radix2 (- k)) as PK. pose proof (bpow_gt_0 radix2 (-900)) as P9.
  destruct (int_val 1 ltac:(lia)) as [F1 V1]. destruct (int_val 0 ltac:(lia)) as [F0 V0].
  assert (R : Rabs (val (f64_of 1 0) - val alpha) <= 1) by (rewrite V1; apply Rabs_le; split; lra).
  destruct (fsub_val (f64_of 1 0) alpha F1 Fa) as [Fs Vs]; [eapply Rle_trans; [exact R|]; change 1 with (bpow radix2 0); apply bpow_le; lia|].
  destruct (rnd_minus _ _ (val_fmt (f64_of 1 0)) (val_fmt alpha)) as (e & He & Ee).
  apply loop_near; auto.
  - rewrite Vs, Ee, V1. replace ((1 - val alpha) * (1 + e) - (1 - val alpha)) with ((1 - val alpha) * e) by ring. rewrite Rabs_mult.
    apply Rle_trans with (1 * uro); [|lra]. apply Rmult_le_compat; auto using Rabs_pos. apply Rabs_le; split; lra.
  - rewrite Rabs_R0. lra.
  - rewrite V0, Rminus_0_r, Rabs_R0. apply Rmult_le_pos; [apply bpow_ge_0|lra].
Qed.

(** Whatever the numbers are: a result is NaN exactly where the signal is, and is otherwise never below the signal. *)
Lemma loop_nan : forall alpha alpha_ x g, Forall2 (fun f r : f64_num => (r = B754_nan <-> f = B754_nan) /\ fgt f r = false) x (d_onset_loop alpha alpha_ g x).
Proof.
  induction x as [|f x IH]; intros g; cbn [d_onset_loop]; [constructor|]. constructor; [|apply IH]. unfold py_max. generalize (fadd (fmul alpha g) (fmul alpha_ f)). intros v.
  destruct (fgt v f) eqn:E.
  - assert (NV : v <> B754_nan) by (intros ->; destruct f; discriminate E). assert (NF : f <> B754_nan) by (intros ->; destruct v; discriminate E). split; [tauto|].
    apply not_true_is_false. intros G. unfold fgt, Bltb, SpecFloat.SFltb in *. pose proof (Bcompare_swap 53 1024 f v) as W. unfold Bcompare in W. rewrite W in G.
    destruct (SpecFloat.SFcompare (B2SF f) (B2SF v)) as [[| |]|]; cbn in *; discriminate.
  - split; [tauto|]. apply not_true_is_false. intros G. unfold fgt, Bltb, SpecFloat.SFltb in *. pose proof (Bcompare_swap 53 1024 f f) as W. unfold Bcompare in W.
    destruct (SpecFloat.SFcompare (B2SF f) (B2SF f)) as [[| |]|]; cbn in *; discriminate.
Qed.
Theorem c114_nan : forall alpha x, Forall2 (fun f r : f64_num => (r = B754_nan <-> f = B754_nan) /\ fgt f r = false) x (d_onset_g alpha x).
Proof. intros. apply loop_nan. Qed.
(** After a NaN the filter restarts: the next result is the next number. *)
Theorem c114_restart : forall alpha x f y, exists g, d_onset_g alpha (x ++ B754_nan :: f :: y) = d_onset_g alpha x ++ B754_nan :: f :: g /\ List.length g = List.length y.
Proof.
  intros alpha x f y. unfold d_onset_g. generalize (fsub (f64_of 1 0) alpha) (f64_of 0 0). intros al' g.
  assert (LL : forall z g, List.length (d_onset_loop alpha al' g z) = List.length z) by (induction z as [|? ? I]; intros; cbn; [reflexivity|]; now rewrite I).
  assert (GN : forall t, fgt t B754_nan = false) by (intros [c|c| |c m e B]; reflexivity). assert (NG : forall t, fgt B754_nan t = false) by (intros [c|c| |c m e B]; reflexivity).
  assert (MN : forall t, fmul t B754_nan = B754_nan) by (intros [c|c| |c m e B]; reflexivity). assert (AN : forall t, fadd B754_nan t = B754_nan) by (intros [c|c| |c m e B]; reflexivity).
  revert g. induction x as [|a x IH]; intros g.
  - cbn [app d_onset_loop]. unfold py_max at 1. rewrite GN. exists (d_onset_loop alpha al' f y). split; [|apply LL].
    assert (P : py_max B754_nan (fadd (fmul alpha g) (fmul al' B754_nan)) = B754_nan) by (unfold py_max; rewrite GN; reflexivity).
    rewrite P. unfold py_max. rewrite MN, AN, NG. reflexivity.
  - cbn [app d_onset_loop]. destruct (IH (py_max a (fadd (fmul alpha g) (fmul al' a)))) as (r & -> & L). exists r. split; [reflexivity|exact L].
Qed.
(** A sample passes the test of line 632 only if it is not below the one before it. *)
Theorem c114_rising : forall alpha (x : list f64_num) i, Forall (fun f : f64_num => finite f) x -> nth i (d_rising alpha x) false = true ->
  (i + 1 < List.length x)%nat /\ val (nth i x (f64_of 0 0)) <= val (nth (i + 1) x (f64_of 0 0)).
Proof.
  intros alpha x i HF H. pose proof (c114_nan alpha x) as N. assert (L : List.length x = List.length (d_onset_g alpha x)) by (clear - N; induction N; cbn; congruence). unfold d_rising in H.
  set (z := f64_of 0 0). assert (LI : (i < List.length (combine (tl x) (d_onset_g alpha x)))%nat).
  { destruct (Nat.lt_ge_cases i (List.length (combine (tl x) (d_onset_g alpha x)))) as [|G]; [assumption|]. rewrite nth_overflow in H by (rewrite map_length; exact G). discriminate H. }
  assert (LT : (S (List.length (tl x)) = List.length x \/ x = [])%nat) by (destruct x; [now right|now left]).
  rewrite combine_length in LI. destruct LT as [LT| ->]; [|cbn in LI; lia]. assert (I1 : (i + 1 < List.length x)%nat) by lia. split; [exact I1|].
  rewrite (nth_indep _ false (d_ge z z)) in H by (rewrite map_length, combine_length; lia).
  change (d_ge z z) with ((fun p => d_ge (fst p) (snd p)) (z, z)) in H. rewrite map_nth in H.
  assert (CN : forall (a b : list f64_num) n, (n < List.length a)%nat -> (n < List.length b)%nat -> nth n (combine a b) (z, z) = (nth n a z, nth n b z)).
  { induction a as [|a0 a IHa]; intros [|b0 b] [|n] Ha Hb; cbn in *; try lia; try reflexivity. apply IHa; lia. }
  rewrite CN in H by lia. cbn [fst snd] in H.
  assert (TN : nth i (tl x) z = nth (i + 1) x z) by (destruct x; [cbn in I1; lia|]; cbn [tl]; rewrite Nat.add_1_r; reflexivity). rewrite TN in H.
  assert (PN : forall (a b : list f64_num) (P : f64_num -> f64_num -> Prop) n, Forall2 P a b -> (n < List.length a)%nat -> P (nth n a z) (nth n b z)).
  { intros a b P n F2. revert n. induction F2; intros [|n] Hn; cbn in *; try lia; auto. apply IHF2. lia. }
  pose proof (PN _ _ _ i N ltac:(lia)) as [_ G]. rewrite Forall_forall in HF.
  assert (Fi : finite (nth i x z)) by (apply HF, nth_In; lia). assert (Fj : finite (nth (i + 1) x z)) by (apply HF, nth_In; lia).
  set (a := nth i x z) in *. set (b := nth (i + 1) x z) in *. set (g := nth i (d_onset_g alpha x) z) in *.
  destruct (Rle_lt_dec (val a) (val b)) as [|LTa]; [assumption|exfalso].
  destruct (is_finite g) eqn:Fg.
  - assert (GA : val a <= val g). { destruct (Rle_lt_dec (val a) (val g)) as [|Q]; [assumption|]. apply (fgt_iff a g Fi Fg) in Q. congruence. }
    unfold d_ge in H. apply orb_true_iff in H. destruct H as [H|H].
    + apply (fgt_iff b g Fj Fg) in H. lra.
    + pose proof (Beqb_correct 53 1024 b g Fj Fg) as Q. rewrite H in Q. destruct (Req_bool_spec (B2R b) (B2R g)) as [Q2|Q2]; [|discriminate Q]. clear Q. rename Q2 into Q. change (val b = val g) in Q. lra.
  - destruct g as [s|s| |s m e B]; try discriminate Fg.
    + destruct s; [destruct a as [c|c| |c m e B]; try discriminate Fi; destruct c; discriminate G|].
      destruct b as [c|c| |c m e B]; try discriminate Fj; destruct c; discriminate H.
    + destruct b as [c|c| |c m e B]; try discriminate Fj; discriminate H.
Qed.

(** A sample passes exactly if it is not below the filter at the one before it, which [c114_filter] says what it is. *)
Lemma ge_iff : forall a b : f64_num, finite a -> finite b -> (d_ge a b = true <-> val b <= val a).
Proof.
  intros a b Fa Fb. unfold d_ge. rewrite orb_true_iff. rewrite (fgt_iff a b Fa Fb). pose proof (Beqb_correct 53 1024 a b Fa Fb) as Q. rewrite Q.
  destruct (Req_bool_spec (B2R a) (B2R b)) as [E|E]; change (B2R a) with (val a) in E; change (B2R b) with (val b) in E.
  - split; [intros _; lra|now right].
  - split; [intros [H|H]; [lra|discriminate H]|intros H; left]. destruct (Rle_lt_or_eq_dec _ _ H); [assumption|congruence].
Qed.
Theorem c114_test : forall (alpha : f64_num) (x : list f64_num) k F i, finite alpha -> (0 <= k <= 40)%Z -> 0 <= val alpha <= 1 - bpow radix2 (- k) ->
  bpow radix2 (-900) <= F <= bpow radix2 1000 -> Forall (fun f : f64_num => finite f /\ Rabs (val f) <= F) x ->
  List.length (d_rising alpha x) = (List.length x - 1)%nat /\
  ((i + 1 < List.length x)%nat -> (nth i (d_rising alpha x) false = true <-> val (nth i (d_onset_g alpha x) (f64_of 0 0)) <= val (nth (i + 1) x (f64_of 0 0)))).
Proof.
  intros alpha x k F i Fa K A HF Hx. pose proof (c114_filter alpha x k F Fa K A HF Hx) as N.
  pose proof (c114_nan alpha x) as N0. assert (L : List.length x = List.length (d_onset_g alpha x)) by (clear - N0; induction N0; cbn; congruence).
  assert (LT : List.length (tl x) = (List.length x - 1)%nat) by (destruct x; cbn; lia).
  assert (LC : List.length (combine (tl x) (d_onset_g alpha x)) = (List.length x - 1)%nat) by (rewrite combine_length; lia).
  unfold d_rising. split; [rewrite map_length; exact LC|]. intros I. set (z := f64_of 0 0).
  rewrite (nth_indep _ false (d_ge z z)) by (rewrite map_length; lia). change (d_ge z z) with ((fun p => d_ge (fst p) (snd p)) (z, z)). rewrite map_nth.
  assert (CN : forall (a b : list f64_num) n, (n < List.length a)%nat -> (n < List.length b)%nat -> nth n (combine a b) (z, z) = (nth n a z, nth n b z)).
  { induction a as [|a0 a IHa]; intros [|b0 b] [|n] Ha Hb; cbn in *; try lia; try reflexivity. apply IHa; lia. }
  rewrite CN by lia. cbn [fst snd]. replace (nth i (tl x) z) with (nth (i + 1) x z) by (destruct x; [cbn in I; lia|]; cbn [tl]; rewrite Nat.add_1_r; reflexivity).
  apply ge_iff.
  - rewrite Forall_forall in Hx. apply Hx, nth_In. exact I.
  - assert (G : Forall (fun d : f64_num => finite d) (d_onset_g alpha x)) by (clear - N; induction N as [|? ? ? ? [? ?]]; constructor; auto).
    rewrite Forall_forall in G. apply G, nth_In. lia.
Qed.
(** But with [alpha = 0.95] a constant signal does not pass: the filter of 0.59, 0.59, ... rises above 0.59.  In real numbers it stays at 0.59. *)
Theorem c114_constant_refuted : exists (alpha f : f64_num) n, finite alpha /\ finite f /\ 0 < val f /\ 0 <= val alpha < 1 /\
  In false (d_rising alpha (repeat f n)) /\ Forall (fun r => r = val f) (onset_g (val alpha) 0 (map (fun v : f64_num => val v) (repeat f n))).
Proof.
  destruct (f64_of_val 8556839292003942 (-53) ltac:(lia) ltac:(lia)) as [Fa Va]. destruct (f64_of_val 5314247560297185 (-53) ltac:(lia) ltac:(lia)) as [Ff Vf].
  exists (f64_of 8556839292003942 (-53)), (f64_of 5314247560297185 (-53)), 5%nat. split; [exact Fa|]. split; [exact Ff|].
  change (bpow radix2 (-53)) with (/ IZR (2 ^ 53)) in Va, Vf.
  assert (PF : 0 < val (f64_of 5314247560297185 (-53))) by (rewrite Vf; apply Rmult_lt_0_compat; [lra|apply Rinv_0_lt_compat, IZR_lt; lia]).
  assert (PA : 0 <= val (f64_of 8556839292003942 (-53)) < 1).
  { rewrite Va. split; [apply Rmult_le_pos; [lra|left; apply Rinv_0_lt_compat, IZR_lt; lia]|]. apply Rmult_lt_reg_r with (IZR (2 ^ 53)); [apply IZR_lt; lia|].
    rewrite Rmult_assoc, Rinv_l, Rmult_1_l, Rmult_1_r by (apply not_0_IZR; lia). apply IZR_lt. lia. }
  split; [exact PF|]. split; [exact PA|]. split; [vm_compute; tauto|].
  change (map (fun v : f64_num => val v) (repeat (f64_of 5314247560297185 (-53)) 5)) with (repeat (val (f64_of 5314247560297185 (-53))) 5). revert PF PA. generalize (val (f64_of 5314247560297185 (-53))) (val (f64_of 8556839292003942 (-53))). intros f a PF PA.
  assert (S1 : Rmax f (a * 0 + (1 - a) * f) = f) by (apply Rmax_left; assert (0 <= a * f) by (apply Rmult_le_pos; lra); lra).
  assert (S2 : Rmax f (a * f + (1 - a) * f) = f) by (replace (a * f + (1 - a) * f) with f by ring; apply Rmax_left; lra).
  cbn [repeat map onset_g]. rewrite S1, !S2. repeat constructor.
Qed.
Example ex_filter : finite (f64_of 3 (-2)) /\ 0 <= val (f64_of 3 (-2)) <= 1 - bpow radix2 (- 2) /\
  map B2SF (d_onset_g (f64_of 3 (-2)) [f64_of 4 0; f64_of 0 0; B754_nan; f64_of 1 0]) = map B2SF [f64_of 4 0; f64_of 3 0; B754_nan; f64_of 1 0] /\
  d_rising (f64_of 3 (-2)) [f64_of 4 0; f64_of 3 0; f64_of 7 (-1); f64_of 5 0; f64_of 5 0; B754_nan; f64_of 0 0] = [false; false; true; true; false; false].
Proof.
  destruct (f64_of_val 3 (-2) ltac:(lia) ltac:(lia)) as [F V]. split; [exact F|]. split; [rewrite V; cbn; lra|]. split; vm_compute; reflexivity.
Qed.
Print Assumptions c114_filter. Print Assumptions c114_nan. Print Assumptions c114_restart. Print Assumptions c114_rising. Print Assumptions c114_test. Print Assumptions c114_constant_refuted.
