(** The number that stands for [2 * np.pi] (C109). *)
From Coq Require Import ZArith Reals Lra Lia Machin QArith Qreals.
From Flocq Require Import Core IEEE754.BinarySingleNaN.
From Verif Require Import Double_Model Double_Float Peak_Model Peak_Round Peak_Accuracy Peak_Proofs Ripple_Model Ripple_Proofs.
Local Open Scope R_scope.

(** Terms of Machin's series for a quarter of pi, as fractions. *)
Fixpoint qpow (x : Q) (n : nat) : Q := match n with O => 1%Q | S n => Qred (x * qpow x n) end.
Definition q_term (n : nat) : Q :=
  let m := S (n + n) in
  let d := Z.of_nat m in
  Qred ((2 * (qpow (1 # 3) m) + qpow (1 # 7) m) * (1 # Z.to_pos d)).
Fixpoint q_sum (n : nat) : Q :=
  match n with
  | O => q_term 0
  | S k => Qred (q_sum k + (if Nat.even n then q_term n else - q_term n))
  end.

Lemma Q2R_red : forall q, Q2R (Qred q) = Q2R q.
Proof. intros q. apply Qeq_eqR, Qred_correct. Qed.
Lemma qpow_val : forall x n, Q2R (qpow x n) = Q2R x ^ n.
Proof.
  intros x n. induction n as [|n IH]; cbn [qpow pow].
  - unfold Q2R. cbn. field.
  - rewrite Q2R_red, Q2R_mult, IH. reflexivity.
Qed.
Lemma q_term_val : forall n, Q2R (q_term n) = PI_2_3_7_tg n.
Proof.
  intros n. unfold q_term, PI_2_3_7_tg, Ratan_seq. cbv zeta. rewrite Q2R_red, Q2R_mult, Q2R_plus, Q2R_mult, !qpow_val.
  replace (2 * n + 1)%nat with (S (n + n)) by lia.
  replace (Q2R (1 # 3)) with (/ 3) by (unfold Q2R; cbn; field).
  replace (Q2R (1 # 7)) with (/ 7) by (unfold Q2R; cbn; field).
  replace (Q2R 2) with 2 by (unfold Q2R; cbn; field).
  replace (Q2R (1 # Z.to_pos (Z.of_nat (S (n + n))))) with (/ INR (S (n + n))).
  - field. apply not_0_INR. lia.
  - unfold Q2R. cbn [Qnum Qden]. rewrite Z2Pos.id by lia. rewrite INR_IZR_INZ. rewrite Rmult_1_l. reflexivity.
Qed.
Lemma pow_m1 : forall n, (-1) ^ n = if Nat.even n then 1 else -1.
Proof.
  induction n as [|n IH]; [reflexivity|]. rewrite Nat.even_succ, <- Nat.negb_even. cbn [pow]. rewrite IH.
  destruct (Nat.even n); cbn; ring.
Qed.
Lemma q_sum_val : forall n, Q2R (q_sum n) = sum_f_R0 (tg_alt PI_2_3_7_tg) n.
Proof.
  induction n as [|n IH].
  - cbn [q_sum sum_f_R0]. unfold tg_alt. rewrite q_term_val. cbn [pow]. ring.
  - cbn [sum_f_R0]. rewrite <- IH. change (q_sum (S n)) with (Qred (q_sum n + (if Nat.even (S n) then q_term (S n) else - q_term (S n)))).
    rewrite Q2R_red, Q2R_plus. unfold tg_alt. rewrite pow_m1. destruct (Nat.even (S n)).
    + rewrite q_term_val. ring.
    + rewrite Q2R_opp, q_term_val. ring.
Qed.

Lemma pi_between : Q2R (q_sum 19) <= PI / 4 <= Q2R (q_sum 18).
Proof. rewrite !q_sum_val. exact (PI_2_3_7_ineq 9). Qed.

(** [two_pi] is twice pi, to within [2^-50]. *)
Lemma two_pi_pi : Rabs (val two_pi - 2 * PI) <= bpow radix2 (-50).
Proof.
  destruct pi_between as [L U].
  assert (L' : Q2R (884279719003555 * 8 - 1 # (8 * 4 * 281474976710656)) <= Q2R (q_sum 19)).
  { apply Qle_Rle. vm_compute. intro H. discriminate H. }
  assert (U' : Q2R (q_sum 18) <= Q2R (884279719003555 * 8 + 1 # (8 * 4 * 281474976710656))).
  { apply Qle_Rle. vm_compute. intro H. discriminate H. }
  destruct two_pi_val as [_ ->].
  assert (E1 : bpow radix2 (-47) = / 140737488355328).
  { change (-47)%Z with (Z.opp 47). rewrite bpow_opp. reflexivity. }
  assert (E2 : bpow radix2 (-50) = / 1125899906842624).
  { change (-50)%Z with (Z.opp 50). rewrite bpow_opp. reflexivity. }
  rewrite E1, E2. pose proof (Rle_trans _ _ _ L' L) as L1. pose proof (Rle_trans _ _ _ U U') as U1. clear L U L' U'.
  unfold Q2R in L1, U1. cbn [Qnum Qden] in L1, U1.
  change (Z.pos (8 * 4 * 281474976710656)) with 9007199254740992%Z in L1, U1.
  change (884279719003555 * 8 - 1)%Z with 7074237752028439%Z in L1.
  change (884279719003555 * 8 + 1)%Z with 7074237752028441%Z in U1.
  apply Rabs_le. lra.
Qed.
