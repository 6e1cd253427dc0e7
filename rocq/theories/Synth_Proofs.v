(** Errors of scalar products and of synthesis (C110). *)
From Coq Require Import String ZArith Reals Lra Lia Bool List Permutation.
From Flocq Require Import Core IEEE754.BinarySingleNaN.
Import ListNotations.
From Verif Require Import Base ListLemmas RLists Double_Model Double_Float Peak_Model Peak_Round Peak_Accuracy
  Peak_Proofs Clock_Proofs Ripple_Model Ripple_Proofs Ripple_Audio Ripple_Pi Synth_Model.
Local Open Scope R_scope.

(** ** Scalar products *)

Definition sum_of (l : list (f64_num * f64_num)) : R := fold_right (fun p s => val (fst p) * val (snd p) + s) 0 l.
Definition size_of (l : list (f64_num * f64_num)) : R := fold_right (fun p s => Rabs (val (fst p) * val (snd p)) + s) 0 l.
Definition all_finite (l : list (f64_num * f64_num)) : Prop :=
  Forall (fun p : f64_num * f64_num => finite (fst p) /\ finite (snd p)) l.

Lemma size_nonneg : forall l, 0 <= size_of l.
Proof. induction l as [|p l IH]; [cbn; lra|]. apply Rplus_le_le_0_compat; [apply Rabs_pos|exact IH]. Qed.
Lemma sum_size : forall l, Rabs (sum_of l) <= size_of l.
Proof.
  induction l as [|p l IH]; cbn; [rewrite Rabs_R0; lra|]. eapply Rle_trans; [apply Rabs_triang|]. apply Rplus_le_compat_l, IH.
Qed.
Lemma sum_app : forall l r, sum_of (l ++ r) = sum_of l + sum_of r.
Proof.
  induction l as [|p l IH]; intros r; [change (sum_of r = 0 + sum_of r); ring|].
  change (val (fst p) * val (snd p) + sum_of (l ++ r) = (val (fst p) * val (snd p) + sum_of l) + sum_of r). rewrite IH. ring.
Qed.
Lemma size_app : forall l r, size_of (l ++ r) = size_of l + size_of r.
Proof.
  induction l as [|p l IH]; intros r; [change (size_of r = 0 + size_of r); ring|].
  change (Rabs (val (fst p) * val (snd p)) + size_of (l ++ r) = (Rabs (val (fst p) * val (snd p)) + size_of l) + size_of r).
  rewrite IH. ring.
Qed.
Lemma sum_perm : forall l r, Permutation l r -> sum_of l = sum_of r /\ size_of l = size_of r.
Proof.
  intros l r P. induction P as [|p l r P [I1 I2]|p q l|l m r P [I1 I2] Q [I3 I4]].
  - auto.
  - split; [apply (f_equal (Rplus _)), I1|apply (f_equal (Rplus _)), I2].
  - split; unfold sum_of, size_of; cbn [fold_right]; rewrite <- !Rplus_assoc; f_equal; apply Rplus_comm.
  - split; congruence.
Qed.

Lemma ffma_val : forall x y z : f64_num, finite x -> finite y -> finite z ->
  Rabs (val x * val y + val z) <= bpow radix2 1023 ->
  finite (ffma x y z) /\ val (ffma x y z) = rnd (val x * val y + val z).
Proof.
  intros x y z Fx Fy Fz B. pose proof (Bfma_correct 53 1024 prec_pos prec_emax mode_NE x y z Fx Fy Fz) as H.
  apply bound_lt in B. unfold rnd in B. cbv zeta in H. rewrite Rlt_bool_true in H by exact B.
  destruct H as (H1 & H2 & _). auto.
Qed.

(** Powers of [1 + uro]. *)
Definition grow (n : nat) : R := (1 + uro) ^ (2 * n).
Lemma grow_ge1 : forall n, 1 <= grow n.
Proof. intros n. apply pow_R1_Rle. pose proof uro_pos. lra. Qed.
Lemma grow_mono : forall n m, (n <= m)%nat -> grow n <= grow m.
Proof. intros n m H. apply Rle_pow; [pose proof uro_pos; lra|lia]. Qed.
Lemma grow_S : forall n, grow (S n) = (1 + uro) * (1 + uro) * grow n.
Proof. intros n. unfold grow. replace (2 * S n)%nat with (S (S (2 * n))) by lia. cbn [pow]. ring. Qed.
Lemma pow_bern : forall m, (1 + uro) ^ m * (1 - INR m * uro) <= 1.
Proof.
  pose proof uro_pos as U. induction m as [|m IH]; [cbn; lra|]. rewrite S_INR. cbn [pow].
  assert (P : 0 < (1 + uro) ^ m) by (apply pow_lt; lra). pose proof (pos_INR m) as Pm.
  replace ((1 + uro) * (1 + uro) ^ m * (1 - (INR m + 1) * uro))
    with ((1 + uro) ^ m * (1 - INR m * uro) - (1 + uro) ^ m * (uro * uro * (INR m + 1))) by ring.
  assert (0 <= (1 + uro) ^ m * (uro * uro * (INR m + 1))).
  { apply Rmult_le_pos; [lra|]. apply Rmult_le_pos; [apply Rmult_le_pos; lra|lra]. }
  lra.
Qed.
Lemma grow_bound : forall n, (Z.of_nat n <= 2 ^ 50)%Z -> grow n <= 1 + 4 * INR n * uro /\ 4 * INR n * uro <= 1.
Proof.
  intros n H. assert (N : INR n * uro <= / 8).
  { rewrite INR_IZR_INZ, uro_val. apply Rle_trans with (bpow radix2 50 * bpow radix2 (-53)).
    - apply Rmult_le_compat_r; [apply bpow_ge_0|]. apply IZR_le_bpow; lia.
    - rewrite <- bpow_plus. change (/ 8) with (bpow radix2 (-3)). apply bpow_le. lia. }
  pose proof (pos_INR n) as Pn. pose proof uro_pos as U. split; [|lra].
  pose proof (pow_bern (2 * n)) as B. fold (grow n) in B. rewrite mult_INR in B. change (INR 2) with 2 in B.
  pose proof (grow_ge1 n) as G. set (y := INR n * uro) in *.
  replace (1 - 2 * INR n * uro) with (1 - 2 * y) in B by (unfold y; ring).
  replace (4 * INR n * uro) with (4 * y) by (unfold y; ring).
  assert (0 <= y) by (apply Rmult_le_pos; lra). nra.
Qed.

Definition dot_err (l : list (f64_num * f64_num)) : R :=
  (grow (List.length l) - 1) * size_of l + grow (List.length l) * (INR (List.length l) - / 2) * eta.

Lemma dot_ok : forall l x, dot l x -> l <> [] -> all_finite l -> size_of l <= bpow radix2 1000 ->
  (Z.of_nat (List.length l) <= 2 ^ 50)%Z ->
  finite x /\ Rabs (val x - sum_of l) <= dot_err l.
Proof.
  assert (NN : forall l : list (f64_num * f64_num), l <> [] -> (1 <= List.length l)%nat).
  { intros [|p l] H; [congruence|cbn; lia]. }
  assert (EP := eta_pos). assert (UP := uro_pos).
  assert (E1 : eta <= 1) by (change 1 with (bpow radix2 0); apply bpow_le; lia).
  (* what a rounding adds *)
  assert (STEP : forall v s S c n, 1 <= c <= 2 -> 1 <= INR n -> 0 <= S -> Rabs s <= S -> 
     Rabs (v - s) <= (c - 1) * S + c * (INR n - 1) * eta ->
     Rabs (rnd v - s) <= ((1 + uro) * (1 + uro) * c - 1) * S + (1 + uro) * (1 + uro) * c * (INR n - / 2) * eta).
  { intros v s S c n [C1 C2] N HS Hs Hv. pose proof (rnd_near v) as RN.
    assert (V : Rabs v <= c * S + c * (INR n - 1) * eta).
    { replace v with ((v - s) + s) by ring. eapply Rle_trans; [apply Rabs_triang|]. lra. }
    replace (rnd v - s) with ((rnd v - v) + (v - s)) by ring. eapply Rle_trans; [apply Rabs_triang|].
    set (q := c * (INR n - 1) * eta) in *. assert (Q : 0 <= q) by (unfold q; repeat apply Rmult_le_pos; lra).
    assert (X : uro * Rabs v <= uro * (c * S + q)) by (apply Rmult_le_compat_l; lra).
    replace ((1 + uro) * (1 + uro) * c * (INR n - / 2) * eta)
      with ((1 + uro) * (1 + uro) * (q + / 2 * c * eta)) by (unfold q; field).
    assert (CS : 0 <= c * S) by (apply Rmult_le_pos; lra).
    assert (CE : 0 <= c * eta) by (apply Rmult_le_pos; lra).
    assert (Y : eta <= c * eta) by (rewrite <- (Rmult_1_l eta) at 1; apply Rmult_le_compat_r; lra).
    assert (Z1 : (1 + uro) * (c * S) <= (1 + uro) * (1 + uro) * (c * S)).
    { apply Rmult_le_compat_r; [exact CS|]. rewrite <- (Rmult_1_r (1 + uro)) at 1. apply Rmult_le_compat_l; lra. }
    assert (Z2 : (1 + uro) * q + / 2 * (c * eta) <= (1 + uro) * (1 + uro) * (q + / 2 * c * eta)).
    { assert (K : 1 <= 1 + uro) by lra.
      apply Rle_trans with ((1 + uro) * (q + / 2 * c * eta)).
      - assert (1 * (/ 2 * c * eta) <= (1 + uro) * (/ 2 * c * eta)) by (apply Rmult_le_compat_r; lra). lra.
      - apply Rmult_le_compat_r; [lra|]. rewrite <- (Rmult_1_r (1 + uro)) at 1. apply Rmult_le_compat_l; lra. }
    lra. }
  assert (BIG : forall v s S c n, 1 <= c <= 2 -> 0 <= INR n <= bpow radix2 50 -> Rabs s <= S -> S <= bpow radix2 1000 ->
     Rabs (v - s) <= (c - 1) * S + c * INR n * eta -> Rabs v <= bpow radix2 1023).
  { intros v s S c n [C1 C2] N Hs HS Hv. replace v with ((v - s) + s) by ring.
    eapply Rle_trans; [apply Rabs_triang|].
    assert (c * INR n * eta <= 2 * bpow radix2 50 * 1).
    { apply Rmult_le_compat; try lra; [apply Rmult_le_pos; lra|]. apply Rmult_le_compat; lra. }
    assert (bpow radix2 50 <= bpow radix2 1000) by (apply bpow_le; lia).
    assert (E : bpow radix2 (1000 + 3) = 8 * bpow radix2 1000).
    { rewrite bpow_plus. change (bpow radix2 3) with 8. ring. }
    assert (bpow radix2 (1000 + 3) <= bpow radix2 1023) by (apply bpow_le; lia).
    pose proof (Rabs_pos s). assert ((c - 1) * S <= 1 * S) by (apply Rmult_le_compat_r; lra). lra. }
  assert (LE : forall l : list (f64_num * f64_num), (Z.of_nat (List.length l) <= 2 ^ 50)%Z -> 1 <= grow (List.length l) <= 2 /\ 0 <= INR (List.length l) <= bpow radix2 50).
  { intros l H. destruct (grow_bound _ H). split; [pose proof (grow_ge1 (List.length l)); lra|].
    split; [apply pos_INR|]. rewrite INR_IZR_INZ. apply IZR_le_bpow; lia. }
  intros l x D. induction D as [|a b|l r x y Nl Nr Dl IHl Dr IHr|a b l x D IH|l x N D IH|l r x P D IH];
    intros NE FA HS HL.
  - congruence.
  - inversion FA as [|? ? [Fa Fb] _]; subst. cbn [fst snd] in *. cbn [size_of fold_right fst snd] in HS.
    rewrite Rplus_0_r in HS.
    destruct (fmul_val a b Fa Fb) as [F V]; [eapply Rle_trans; [exact HS|apply bpow_le; lia]|].
    split; [exact F|]. rewrite V. unfold dot_err. cbn [sum_of size_of fold_right List.length fst snd].
    rewrite !Rplus_0_r. rewrite grow_S. change (grow 0) with 1.
    apply (STEP _ _ _ 1 1%nat); [lra|cbn; lra|apply Rabs_pos|lra|].
    rewrite Rminus_diag_eq, Rabs_R0 by reflexivity. cbn [INR]. lra.
  - rewrite size_app in HS. pose proof (size_nonneg l) as Sl. pose proof (size_nonneg r) as Sr.
    rewrite app_length in HL. apply Forall_app in FA. destruct FA as [FAl FAr].
    destruct (IHl Nl FAl ltac:(lra) ltac:(lia)) as [Fx Dx]. destruct (IHr Nr FAr ltac:(lra) ltac:(lia)) as [Fy Dy].
    pose proof (NN l Nl) as Ll. pose proof (NN r Nr) as Lr.
    set (c := grow (List.length (l ++ r) - 1)).
    assert (HL' : (Z.of_nat (List.length (l ++ r) - 1) <= 2 ^ 50)%Z) by (rewrite app_length; lia).
    destruct (grow_bound _ HL') as [G1 G2]. fold c in G1. pose proof (grow_ge1 (List.length (l ++ r) - 1)) as G0. fold c in G0.
    assert (C : 1 <= c <= 2) by lra.
    assert (Cl : 1 <= grow (List.length l) <= c) by (split; [apply grow_ge1|apply grow_mono; rewrite app_length; lia]).
    assert (Cr : 1 <= grow (List.length r) <= c) by (split; [apply grow_ge1|apply grow_mono; rewrite app_length; lia]).
    unfold dot_err in Dx, Dy. apply le_INR in Ll. apply le_INR in Lr. change (INR 1) with 1 in Ll, Lr.
    assert (IN : INR (List.length (l ++ r)) = INR (List.length l) + INR (List.length r)) by (rewrite app_length; apply plus_INR).
    assert (X : Rabs (val x + val y - (sum_of l + sum_of r)) <= (c - 1) * (size_of l + size_of r)
                 + c * (INR (List.length (l ++ r)) - 1) * eta).
    { replace (val x + val y - (sum_of l + sum_of r)) with ((val x - sum_of l) + (val y - sum_of r)) by ring.
      eapply Rle_trans; [apply Rabs_triang|]. rewrite IN.
      assert ((grow (List.length l) - 1) * size_of l <= (c - 1) * size_of l) by (apply Rmult_le_compat_r; lra).
      assert ((grow (List.length r) - 1) * size_of r <= (c - 1) * size_of r) by (apply Rmult_le_compat_r; lra).
      assert (grow (List.length l) * (INR (List.length l) - / 2) * eta <= c * (INR (List.length l) - / 2) * eta)
        by (apply Rmult_le_compat_r; [lra|]; apply Rmult_le_compat_r; lra).
      assert (grow (List.length r) * (INR (List.length r) - / 2) * eta <= c * (INR (List.length r) - / 2) * eta)
        by (apply Rmult_le_compat_r; [lra|]; apply Rmult_le_compat_r; lra).
      replace (c * (INR (List.length l) + INR (List.length r) - 1) * eta)
        with (c * (INR (List.length l) - / 2) * eta + c * (INR (List.length r) - / 2) * eta) by field. lra. }
    assert (SS : Rabs (sum_of l + sum_of r) <= size_of l + size_of r).
    { eapply Rle_trans; [apply Rabs_triang|]. pose proof (sum_size l). pose proof (sum_size r). lra. }
    assert (HLr : (Z.of_nat (List.length (l ++ r)) <= 2 ^ 50)%Z) by (rewrite app_length; lia).
    destruct (fadd_val x y Fx Fy) as [F V].
    { apply (BIG _ (sum_of l + sum_of r) (size_of l + size_of r) c (List.length (l ++ r)) C (proj2 (LE _ HLr)) SS HS).
      eapply Rle_trans; [exact X|].
      assert (c * (INR (List.length (l ++ r)) - 1) * eta <= c * INR (List.length (l ++ r)) * eta)
        by (apply Rmult_le_compat_r; [lra|]; apply Rmult_le_compat_l; lra). lra. }
    split; [exact F|]. rewrite V, sum_app. unfold dot_err. rewrite size_app.
    assert (GE : grow (List.length (l ++ r)) = (1 + uro) * (1 + uro) * c).
    { unfold c. rewrite <- grow_S. f_equal. rewrite app_length. pose proof (NN l Nl). lia. }
    rewrite GE. apply STEP; auto; lra.
  - inversion FA as [|? ? [Fa Fb] FA']; subst. cbn [fst snd] in *. cbn [size_of fold_right fst snd] in HS.
    fold (size_of l) in HS. cbn [List.length] in HL.
    pose proof (size_nonneg l) as Sl. pose proof (Rabs_pos (val a * val b)) as Pab.
    assert (HL' : (Z.of_nat (List.length l) <= 2 ^ 50)%Z) by lia.
    destruct (LE _ HL') as [C N'].
    assert (X : finite x /\ Rabs (val x - sum_of l) <= (grow (List.length l) - 1) * size_of l + grow (List.length l) * INR (List.length l) * eta).
    { destruct l as [|p l'].
      - assert (x = f64_of 0 0 \/ x <> f64_of 0 0) as _ by tauto.
        assert (Z0 : forall l x, dot l x -> l = [] -> finite x /\ val x = 0).
        { clear. intros l x D. induction D as [|a b|l r x y Nl Nr _ _ _ _|a b l x _ _|l x N _ _|l r x P D IH]; intros E; try congruence.
          - destruct (int_val 0 ltac:(lia)) as [F V]. split; [exact F|]. rewrite V. reflexivity.
          - apply app_eq_nil in E. tauto.
          - apply IH. subst r. apply Permutation_sym, Permutation_nil in P. exact P. }
        destruct (Z0 _ _ D eq_refl) as [F V]. split; [exact F|]. rewrite V. cbn. rewrite Rminus_diag_eq, Rabs_R0 by reflexivity. lra.
      - destruct (IH ltac:(discriminate) FA' ltac:(lra) HL') as [F Dx]. split; [exact F|]. unfold dot_err in Dx.
        eapply Rle_trans; [exact Dx|].
        assert (grow (List.length (p :: l')) * (INR (List.length (p :: l')) - / 2) * eta <= grow (List.length (p :: l')) * INR (List.length (p :: l')) * eta).
        { apply Rmult_le_compat_r; [lra|]. apply Rmult_le_compat_l; lra. } lra. }
    destruct X as [Fx Dx]. set (c := grow (List.length l)) in *.
    assert (Y : Rabs (val a * val b + val x - (val a * val b + sum_of l)) <= (c - 1) * (Rabs (val a * val b) + size_of l)
                 + c * (INR (S (List.length l)) - 1) * eta).
    { replace (val a * val b + val x - (val a * val b + sum_of l)) with (val x - sum_of l) by ring.
      rewrite S_INR. replace (INR (List.length l) + 1 - 1) with (INR (List.length l)) by ring.
      assert (0 <= (c - 1) * Rabs (val a * val b)) by (apply Rmult_le_pos; lra). lra. }
    assert (SS : Rabs (val a * val b + sum_of l) <= Rabs (val a * val b) + size_of l).
    { eapply Rle_trans; [apply Rabs_triang|]. pose proof (sum_size l). lra. }
    destruct (ffma_val a b x Fa Fb Fx) as [F V].
    { apply (BIG _ (val a * val b + sum_of l) (Rabs (val a * val b) + size_of l) c (List.length l) C N' SS HS).
      rewrite S_INR in Y. replace (INR (List.length l) + 1 - 1) with (INR (List.length l)) in Y by ring. exact Y. }
    split; [exact F|]. rewrite V. unfold dot_err. cbn [sum_of size_of fold_right List.length fst snd].
    fold (sum_of l) (size_of l). rewrite grow_S. fold c. apply STEP; auto; try lra.
    rewrite S_INR. lra.
  - destruct (IH NE FA HS HL) as [Fx Dx].
    destruct (int_val 0 ltac:(lia)) as [F0 V0].
    destruct (LE _ HL) as [C N']. pose proof (NN l NE) as L1. apply le_INR in L1. change (INR 1) with 1 in L1.
    assert (B : Rabs (val x) <= bpow radix2 1023).
    { apply (BIG _ (sum_of l) (size_of l) (grow (List.length l)) (List.length l) C N' (sum_size l) HS).
      unfold dot_err in Dx. eapply Rle_trans; [exact Dx|].
      assert (grow (List.length l) * (INR (List.length l) - / 2) * eta <= grow (List.length l) * INR (List.length l) * eta)
        by (apply Rmult_le_compat_r; [lra|]; apply Rmult_le_compat_l; lra). lra. }
    destruct (fadd_val (f64_of 0 0) x F0 Fx) as [F V].
    { rewrite V0. replace (0 + val x) with (val x) by ring. exact B. }
    split; [exact F|]. rewrite V, V0. replace (0 + val x) with (val x) by ring. rewrite rnd_id by apply val_fmt. exact Dx.
  - destruct (sum_perm _ _ P) as [E1' E2']. assert (Lr : List.length l = List.length r) by apply Permutation_length, P.
    destruct (IH) as [F Dx].
    + intros ->. apply Permutation_nil in P. congruence.
    + unfold all_finite in *. rewrite Forall_forall in *. intros p Hp. apply FA. eapply Permutation_in; eauto.
    + rewrite E2'. exact HS.
    + rewrite Lr. exact HL.
    + split; [exact F|]. unfold dot_err in *. rewrite <- E1', <- E2', <- Lr. exact Dx.
Qed.

(** A simpler bound. *)
Lemma dot_bound : forall l x, dot l x -> all_finite l -> size_of l <= bpow radix2 1000 ->
  (Z.of_nat (List.length l) <= 2 ^ 50)%Z ->
  finite x /\ Rabs (val x - sum_of l) <= bpow radix2 (-51) * INR (List.length l) * size_of l + 2 * INR (List.length l) * eta.
Proof.
  intros l x D FA HS HL. destruct l as [|p l].
  - assert (Z0 : forall l x, dot l x -> l = [] -> finite x /\ val x = 0).
    { clear. intros l x D. induction D as [|a b|l r x y Nl Nr _ _ _ _|a b l x _ _|l x N _ _|l r x P D IH]; intros E; try congruence.
      - destruct (int_val 0 ltac:(lia)) as [F V]. split; [exact F|]. rewrite V. reflexivity.
      - apply app_eq_nil in E. tauto.
      - apply IH. subst r. apply Permutation_sym, Permutation_nil in P. exact P. }
    destruct (Z0 _ _ D eq_refl) as [F V]. split; [exact F|]. rewrite V. cbn. rewrite Rminus_diag_eq, Rabs_R0 by reflexivity. lra.
  - destruct (dot_ok _ _ D ltac:(discriminate) FA HS HL) as [F B]. split; [exact F|]. eapply Rle_trans; [exact B|].
    unfold dot_err. set (n := List.length (p :: l)) in *. destruct (grow_bound n HL) as [G1 G2].
    pose proof (grow_ge1 n) as G0. pose proof (size_nonneg (p :: l)) as S0. pose proof eta_pos as EP. pose proof (pos_INR n) as Pn.
    assert (E51 : bpow radix2 (-51) = 4 * uro).
    { rewrite uro_val. change 4 with (bpow radix2 2). rewrite <- bpow_plus. reflexivity. }
    rewrite E51. apply Rplus_le_compat.
    + apply Rmult_le_compat_r; [exact S0|]. replace (4 * uro * INR n) with (4 * INR n * uro) by ring. lra.
    + apply Rmult_le_compat_r; [lra|]. apply Rle_trans with (grow n * INR n).
      * apply Rmult_le_compat_l; lra.
      * apply Rmult_le_compat_r; lra.
Qed.

(** ** Arguments *)

Lemma exp_lip : forall x y, x <= 0 -> y <= 0 -> Rabs (exp x - exp y) <= Rabs (x - y).
Proof.
  assert (H : forall x y, x <= y -> y <= 0 -> 0 <= exp y - exp x <= y - x).
  { intros x y L Y. assert (EY : exp y <= 1) by (rewrite <- exp_0; destruct Y as [Y| ->]; [left; now apply exp_increasing|lra]).
    assert (E : exp x = exp y * exp (x - y)) by (rewrite <- exp_plus; f_equal; ring).
    pose proof (exp_pos y) as PY. pose proof (exp_pos (x - y)) as PD.
    assert (I : 1 + (x - y) <= exp (x - y)).
    { destruct (Req_dec (x - y) 0) as [->|N]; [rewrite exp_0; lra|]. left. apply exp_ineq1. exact N. }
    assert (J : exp (x - y) <= 1).
    { rewrite <- exp_0. destruct (Req_dec (x - y) 0) as [->|N]; [lra|]. left. apply exp_increasing. lra. }
    rewrite E. split; nra. }
  intros x y X Y. destruct (Rle_lt_dec x y) as [L|L].
  - destruct (H x y L Y) as [H1 H2]. rewrite (Rabs_minus_sym (exp x)), (Rabs_minus_sym x), !Rabs_pos_eq by lra. exact H2.
  - destruct (H y x ltac:(lra) X) as [H1 H2]. rewrite !Rabs_pos_eq by lra. exact H2.
Qed.

Lemma eta_small : forall e, (-900 <= e)%Z -> eta <= uro * bpow radix2 e.
Proof. intros e H. rewrite uro_val, <- bpow_plus. apply bpow_le. lia. Qed.

Lemma dec_ok : forall (t d : f64_num) U D, rng U (-200) 200 -> rng D (-200) 200 ->
  finite t -> finite d -> 0 <= val t <= U -> D <= val d <= bpow radix2 200 ->
  finite (s_dec t d) /\ val (s_dec t d) <= 0 /\ Rabs (val (s_dec t d) - val t * (-2 / val d)) <= 9 * uro * (U / D).
Proof.
  intros t d U D RU RD Ft Fd [T0 T1] [D1 D2]. unfold s_dec.
  pose proof (rng_pos _ _ _ RU) as PU. pose proof (rng_pos _ _ _ RD) as PD. assert (Pd : 0 < val d) by lra.
  destruct (int_val (-2) ltac:(lia)) as [F2 V2]. pose proof uro_pos as UP. pose proof uro_tiny as UT. pose proof eta_pos as EP.
  destruct RU as [U1 U2]. destruct RD as [RD1 RD2].
  assert (I200 : / bpow radix2 (-200) = bpow radix2 200) by (rewrite <- bpow_opp; reflexivity).
  assert (Id1 : / val d <= / D) by (apply Rinv_le_contravar; lra).
  assert (Id2 : / D <= bpow radix2 200).
  { rewrite <- I200. apply Rinv_le_contravar; [apply bpow_gt_0|exact RD1]. }
  assert (Id3 : bpow radix2 (-200) <= / val d).
  { rewrite <- (Rinv_inv (bpow radix2 (-200))), I200. apply Rinv_le_contravar; lra. }
  pose proof (bpow_gt_0 radix2 (-200)) as B2. set (i := / val d) in *.
  assert (AQ : Rabs (-2 / val d) = 2 * i).
  { unfold Rdiv. fold i. rewrite Rabs_mult, (Rabs_left (-2)), (Rabs_pos_eq i) by lra. ring. }
  assert (B201 : 2 * bpow radix2 200 = bpow radix2 201) by (symmetry; change 201%Z with (200 + 1)%Z; apply bpow_S).
  destruct (fdiv_val (f64_of (-2) 0) d F2) as [Fk Vk]; [lra| |].
  { rewrite V2, AQ. apply Rle_trans with (bpow radix2 201); [lra|apply bpow_le; lia]. }
  rewrite V2 in Vk. set (k := fdiv (f64_of (-2) 0) d) in *.
  assert (K0 : val k <= 0).
  { rewrite Vk. rewrite <- rnd_0. apply rnd_mono. unfold Rdiv. fold i. lra. }
  assert (K1 : Rabs (val k) <= bpow radix2 201).
  { rewrite Vk. apply rnd_abs_le; [apply fmt_bpow; lia|]. rewrite AQ. lra. }
  assert (K2 : Rabs (val k - -2 / val d) <= 3 * uro * i).
  { rewrite Vk. pose proof (rnd_near (-2 / val d)) as N. rewrite AQ in N.
    pose proof (eta_small (-200) ltac:(lia)) as ES.
    assert (uro * bpow radix2 (-200) <= uro * i) by (apply Rmult_le_compat_l; lra). lra. }
  assert (B400 : bpow radix2 200 * bpow radix2 201 = bpow radix2 401) by (rewrite <- bpow_plus; reflexivity).
  destruct (fmul_val t k Ft Fk) as [Fm Vm].
  { rewrite Rabs_mult, (Rabs_pos_eq (val t)) by lra. apply Rle_trans with (bpow radix2 401); [|apply bpow_le; lia].
    rewrite <- B400. apply Rmult_le_compat; try lra. apply Rabs_pos. }
  split; [exact Fm|]. rewrite Vm. split.
  - rewrite <- rnd_0. apply rnd_mono. nra.
  - pose proof (rnd_near (val t * val k)) as N.
    replace (rnd (val t * val k) - val t * (-2 / val d))
      with ((rnd (val t * val k) - val t * val k) + val t * (val k - -2 / val d)) by ring.
    eapply Rle_trans; [apply Rabs_triang|].
    assert (UD : 0 < U / D) by (apply Rdiv_lt_0_compat; lra).
    assert (X1 : Rabs (val t * (val k - -2 / val d)) <= 3 * uro * (U / D)).
    { rewrite Rabs_mult, (Rabs_pos_eq (val t)) by lra. apply Rle_trans with (U * (3 * uro * / D)).
      - apply Rmult_le_compat; try lra; [apply Rabs_pos|]. eapply Rle_trans; [exact K2|]. apply Rmult_le_compat_l; lra.
      - unfold Rdiv. lra. }
    assert (Ki : Rabs (val k) <= 3 * / D).
    { replace (val k) with ((val k - -2 / val d) + -2 / val d) by ring. eapply Rle_trans; [apply Rabs_triang|]. rewrite AQ.
      assert (3 * uro * i <= 1 * i) by (apply Rmult_le_compat_r; lra). lra. }
    assert (X2 : uro * Rabs (val t * val k) <= uro * (3 * (U / D))).
    { apply Rmult_le_compat_l; [lra|]. rewrite Rabs_mult, (Rabs_pos_eq (val t)) by lra.
      apply Rle_trans with (U * (3 * / D)); [apply Rmult_le_compat; try lra; apply Rabs_pos|unfold Rdiv; lra]. }
    assert (X3 : eta <= uro * (U / D)).
    { apply Rle_trans with (uro * bpow radix2 (-400)); [apply eta_small; lia|]. apply Rmult_le_compat_l; [lra|].
      change (-400)%Z with (-200 + -200)%Z. rewrite bpow_plus. unfold Rdiv. apply Rmult_le_compat; lra. }
    lra.
Qed.

Lemma arg_ok : forall (t f : f64_num) (p : option f64_num) F U P, rng F (-200) 200 -> rng U (-200) 200 -> rng P (-200) 200 ->
  finite t -> finite f -> match p with None => True | Some p => finite p end ->
  Rabs (val t) <= U -> Rabs (val f) <= F -> match p with None => True | Some p => Rabs (val p) <= P end ->
  finite (s_arg t f p) /\
  Rabs (val (s_arg t f p) - (2 * PI * val t * val f + match p with None => 0 | Some p => val p end))
    <= 64 * uro * (F * U + P).
Proof.
  intros t f p F U P RF RU RP Ft Ff Fp Bt Bf Bp.
  pose proof (rng_pos _ _ _ RF) as PF. pose proof (rng_pos _ _ _ RU) as PU. pose proof (rng_pos _ _ _ RP) as PP.
  pose proof (rng_mul _ _ _ _ _ _ rng_7 RU) as R7U. pose proof (rng_mul _ _ _ _ _ _ R7U RF) as R7UF.
  assert (M1 : ap (fmul two_pi t) (val two_pi * val t) (7 * U) 3).
  { replace 3 with (0 + 0 + 3) by ring. apply ap_mul; try lra; [apply tau_ap|apply ap_const; auto|].
    eapply rng_scale; [exact R7U|lia|lia]. }
  assert (M2 : ap (fmul (fmul two_pi t) f) (val two_pi * val t * val f) (7 * U * F) 6).
  { replace 6 with (3 + 0 + 3) by ring. apply ap_mul; try lra; [exact M1|apply ap_const; auto|].
    eapply rng_scale; [exact R7UF|lia|lia]. }
  pose proof (Rmult_lt_0_compat _ _ PF PU) as PFU. assert (E7 : 7 * U * F = 7 * (F * U)) by ring. rewrite E7 in *.
  pose proof uro_pos as UP.
  assert (W : ap (s_arg t f p) (val two_pi * val t * val f + match p with None => 0 | Some p => val p end) (7 * (F * U) + P) 8).
  { destruct p as [p|].
    - replace 8 with (6 + 2) by ring. apply ap_add; try lra; [exact M2| |].
      + apply ap_weak with (A := P) (k := 0); try lra. apply ap_const; auto.
      + split.
        * destruct RP as [RP _]. apply Rle_trans with (bpow radix2 (-200)); [apply bpow_le; lia|lra].
        * destruct R7UF as [_ R7]. destruct RP as [_ RP]. apply Rle_trans with (bpow radix2 500 + bpow radix2 500).
          -- apply Rplus_le_compat; (eapply Rle_trans; [eassumption|apply bpow_le; lia]).
          -- apply Rle_trans with (bpow radix2 (500 + 1)); [rewrite bpow_S; lra|apply bpow_le; lia].
    - rewrite Rplus_0_r. apply ap_weak with (A := 7 * (F * U)) (k := 6); try lra. exact M2. }
  destruct W as (FW & _ & DW). split; [exact FW|].
  set (pv := match p with None => 0 | Some p => val p end) in *.
  replace (val (s_arg t f p) - (2 * PI * val t * val f + pv))
    with ((val (s_arg t f p) - (val two_pi * val t * val f + pv)) + (val two_pi - 2 * PI) * (val t * val f)) by ring.
  eapply Rle_trans; [apply Rabs_triang|]. rewrite (Rabs_mult (val two_pi - 2 * PI)). pose proof two_pi_pi as TP.
  assert (E50 : bpow radix2 (-50) = 8 * uro).
  { rewrite uro_val. change 8 with (bpow radix2 3). rewrite <- bpow_plus. reflexivity. }
  rewrite E50 in TP.
  assert (X : Rabs (val two_pi - 2 * PI) * Rabs (val t * val f) <= 8 * uro * (F * U)).
  { apply Rmult_le_compat; try apply Rabs_pos; [exact TP|]. rewrite Rabs_mult, (Rmult_comm F).
    apply Rmult_le_compat; auto using Rabs_pos. }
  assert (0 < uro * (F * U)) by (apply Rmult_lt_0_compat; assumption).
  assert (0 < uro * P) by (apply Rmult_lt_0_compat; assumption).
  replace (64 * uro * (F * U + P)) with (64 * (uro * (F * U)) + 64 * (uro * P)) by ring.
  replace (8 * uro * (7 * (F * U) + P)) with (56 * (uro * (F * U)) + 8 * (uro * P)) in DW by ring.
  replace (8 * uro * (F * U)) with (8 * (uro * (F * U))) in X by ring. lra.
Qed.
