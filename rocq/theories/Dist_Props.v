(** C120: what the distance of the spectral losses is in double precision. *)
From Coq Require Import String ZArith Reals Lra Lia Bool Permutation List.
From Flocq Require Import Core IEEE754.BinarySingleNaN.
Import ListNotations.
From Verif Require Import Base Py PyLemmas ListLemmas RLists Np_Model Np_Lemmas Double_Model Double_Float Peak_Model Peak_Round Peak_Accuracy
  Peak_Proofs Clock_Model Clock_Proofs Level_Model Level_Proofs Level_Props Attack_Model Attack_Proofs Choice_Props Dist_Model.
Local Open Scope R_scope.
Local Notation z := (f64_of 0 0).

(** The sum of the absolute differences of real vectors. *)
Fixpoint r_l1 (x y : list R) : R :=
  match x, y with
  | a :: x, b :: y => Rabs (a - b) + r_l1 x y
  | _, _ => 0
  end.
Lemma r_l1_pos : forall x y, 0 <= r_l1 x y.
Proof. induction x as [|a x IH]; intros [|b y]; cbn; try lra. pose proof (Rabs_pos (a - b)). pose proof (IH y). lra. Qed.
Lemma r_l1_zero : forall x y, List.length x = List.length y -> r_l1 x y = 0 <-> x = y.
Proof.
  induction x as [|a x IH]; intros [|b y] L; try discriminate L; cbn; [tauto|]. pose proof (Rabs_pos (a - b)) as P. pose proof (r_l1_pos x y) as Q.
  injection L as L. specialize (IH y L). split.
  - intros E. assert (A : Rabs (a - b) = 0) by lra. f_equal; [|apply IH; lra]. destruct (Req_dec (a - b) 0) as [D|D]; [lra|]. pose proof (Rabs_pos_lt _ D). lra.
  - intros E. injection E as -> E. rewrite (proj2 IH E), Rminus_diag_eq by reflexivity. rewrite Rabs_R0. lra.
Qed.
Lemma r_l1_triangle : forall x y w, List.length x = List.length y -> List.length y = List.length w -> r_l1 x w <= r_l1 x y + r_l1 y w.
Proof.
  induction x as [|a x IH]; intros [|b y] [|c w] L M; try discriminate L; try discriminate M; cbn; [lra|]. injection L as L. injection M as M. specialize (IH y w L M).
  pose proof (Rabs_triang (a - b) (b - c)) as T. replace (a - b + (b - c)) with (a - c) in T by ring. lra.
Qed.

Definition bounded (B : R) (x : list f64_num) : Prop := Forall (fun v : f64_num => finite v /\ Rabs (val v) <= B) x.
Lemma fit_same : forall n y, @List.length f64_num y = n -> q_fit n y = Ok y.
Proof. intros n y E. unfold q_fit. rewrite E, Nat.eqb_refl. reflexivity. Qed.
Lemma moduli : forall B x y, bounded B x -> bounded B y -> B <= bpow radix2 1000 -> List.length x = List.length y ->
  let m := q_moduli x y in let D := r_l1 (map val x) (map val y) in
  @List.length f64_num m = List.length x /\ Forall (fun v : f64_num => finite v) m /\ Forall (fun v : f64_num => 0 <= val v) m /\
  asize m = asum m /\ D * (1 - uro) <= asum m <= D * (1 + uro) /\ D <= INR (List.length x) * (2 * B).
Proof.
  intros B x y Hx Hy HB. revert y Hy. induction Hx as [|a x [Fa Ba] Hx IH]; intros [|b y] Hy L; try discriminate L.
  - cbn. repeat split; try constructor; lra.
  - inversion Hy as [|? ? [Fb Bb] Hy']; subst. injection L as L. destruct (IH y Hy' L) as (IL & IF & IP & IS & IB & ID). clear IH.
    assert (AB : Rabs (val a - val b) <= 2 * B) by (eapply Rle_trans; [apply Rabs_triang|]; rewrite Rabs_Ropp; lra).
    destruct (fsub_rel a b Fa Fb) as (e & He & Fs & Vs).
    { eapply Rle_trans; [exact AB|]. apply Rle_trans with (bpow radix2 1 * bpow radix2 1000); [change (bpow radix2 1) with 2; lra|]. rewrite <- bpow_plus. apply bpow_le. lia. }
    destruct (f_abs_val _ Fs) as [Fm Vm]. unfold q_moduli. cbn [combine map]. fold (q_moduli x y).
    set (m := q_moduli x y) in *. cbn [fst snd List.length r_l1]. set (v := f_abs (fsub a b)) in *.
    assert (Pv : 0 <= val v) by (rewrite Vm; apply Rabs_pos). set (D := r_l1 (map val x) (map val y)) in *.
    change (asize (v :: m)) with (Rabs (val v) + asize m). change (asum (v :: m)) with (val v + asum m). rewrite (Rabs_pos_eq (val v)) by exact Pv.
    assert (Ev : val v = Rabs (val a - val b) * (1 + e)).
    { rewrite Vm, Vs, Rabs_mult. f_equal. apply Rabs_pos_eq. pose proof uro_small. apply Rabs_le_inv in He. lra. }
    apply Rabs_le_inv in He. pose proof (Rabs_pos (val a - val b)) as PA.
    assert (Rabs (val a - val b) * - uro <= Rabs (val a - val b) * e <= Rabs (val a - val b) * uro) by (split; apply Rmult_le_compat_l; lra).
    assert (SN : INR (Datatypes.S (List.length x)) = INR (List.length x) + 1) by apply S_INR.
    split; [f_equal; exact IL|]. split; [constructor; assumption|]. split; [constructor; assumption|]. split; [rewrite IS; reflexivity|].
    cbn [map r_l1]. fold D. split; [rewrite Ev; split; lra|]. rewrite SN. lra.
Qed.

Lemma asum_zero : forall m, Forall (fun v : f64_num => 0 <= val v) m -> Forall (fun v : f64_num => val v <= 0) m -> asum m = 0.
Proof.
  induction m as [|w m IH]; intros P G; [reflexivity|]. inversion G as [|? ? G1 G2]; subst. inversion P as [|? ? P1 P2]; subst. change (asum (w :: m)) with (val w + asum m). rewrite (IH P2 G2). lra.
Qed.
(** The distance of vectors of finite numbers of the same length: it is right up to [2^-50 (n+1)] of it, it is not negative, and it is 0 exactly if the
    vectors are equal (differences never vanish for being small). *)
Theorem c120_distance : forall S B x y, summer S -> bounded B x -> bounded B y -> 0 <= B <= bpow radix2 900 -> List.length x = List.length y -> (Z.of_nat (List.length x) <= 2 ^ 40)%Z ->
  exists d, q_l1 S x y = Ok d /\ finite d /\ 0 <= val d /\
  Rabs (val d - r_l1 (map val x) (map val y)) <= bpow radix2 (-50) * (INR (List.length x) + 1) * r_l1 (map val x) (map val y) /\
  (val d = 0 <-> map val x = map val y).
Proof.
  intros S B x y HS Hx Hy HB L N. unfold q_l1. rewrite fit_same by (symmetry; exact L). cbn [bind]. exists (q_sum S (q_moduli x y)). split; [reflexivity|].
  destruct (moduli B x y Hx Hy ltac:(apply Rle_trans with (bpow radix2 900); [lra|apply bpow_le; lia]) L) as (ML & MF & MP & MS & MB & MD).
  pose proof (r_l1_zero (map val x) (map val y) ltac:(rewrite !map_length; exact L)) as RZ. pose proof (r_l1_pos (map val x) (map val y)) as RP.
  set (m := q_moduli x y) in *. set (D := r_l1 (map val x) (map val y)) in *. pose proof uro_pos as U. pose proof uro_small as US.
  assert (NI : INR (List.length x) <= bpow radix2 40) by (rewrite INR_IZR_INZ; apply (IZR_le_bpow _ 40); lia).
  assert (N0 : 0 <= INR (List.length x)) by apply pos_INR. set (n := INR (List.length x)) in *.
  assert (SZ : asize m <= bpow radix2 1000).
  { rewrite MS. assert (D * uro <= D * 1) by (apply Rmult_le_compat_l; lra). apply Rle_trans with (4 * (n * B)); [lra|].
    apply Rle_trans with (bpow radix2 2 * (bpow radix2 40 * bpow radix2 900)); [change (bpow radix2 2) with 4; apply Rmult_le_compat_l; [lra|]; apply Rmult_le_compat; lra|].
    rewrite <- !bpow_plus. apply bpow_le. lia. }
  destruct m as [|v m'] eqn:Em.
  - cbn [q_sum]. destruct (int_val 0 ltac:(lia)) as [Fz Vz]. rewrite Vz. change (asum []) with 0 in MB. assert (D0 : D = 0).
    { destruct (Rle_lt_or_eq_dec 0 D RP) as [P|P]; [|lra]. assert (0 < D * (1 - uro)) by (apply Rmult_lt_0_compat; lra). lra. }
    split; [exact Fz|]. split; [lra|]. rewrite D0. split; [rewrite Rminus_0_r, Rabs_R0; lra|]. split; [intros _; apply RZ; exact D0|reflexivity].
  - cbn [q_sum]. rewrite <- Em in *. assert (NE : m <> []) by (rewrite Em; discriminate). pose proof (HS m NE) as A.
    assert (LM : (Z.of_nat (@List.length f64_num m) <= 2 ^ 50)%Z) by (rewrite ML; lia).
    destruct (adds_bound m (S m) A MF SZ LM) as (Fd & Bd & _). destruct (adds_ge m (S m) A MF SZ LM MP) as [Pd Ge]. rewrite MS in Bd. rewrite ML in Bd. fold n in Bd.
    split; [exact Fd|]. split; [exact Pd|]. split.
    + assert (E51 : bpow radix2 (-51) = 4 * uro) by (rewrite uro_val; change 4 with (bpow radix2 2); rewrite <- bpow_plus; reflexivity).
      assert (E50 : bpow radix2 (-50) = 8 * uro) by (rewrite uro_val; change 8 with (bpow radix2 3); rewrite <- bpow_plus; reflexivity). rewrite E51 in Bd. rewrite E50.
      assert (UD : D * uro <= D * / 1024) by (apply Rmult_le_compat_l; lra). assert (UD0 : 0 <= D * uro) by (apply Rmult_le_pos; lra).
      assert (AM : asum m <= 2 * D) by lra.
      assert (Q : 4 * uro * n * asum m <= 4 * uro * n * (2 * D)) by (apply Rmult_le_compat_l; [apply Rmult_le_pos; lra|exact AM]).
      apply Rabs_le_inv in Bd. apply Rabs_le. split; lra.
    + rewrite <- RZ. fold D. split.
      * intros Z0. assert (A0 : asum m = 0).
        { rewrite Z0 in Ge. apply (asum_zero m MP Ge). }
        destruct (Rle_lt_or_eq_dec 0 D RP) as [P|P]; [|lra]. assert (0 < D * (1 - uro)) by (apply Rmult_lt_0_compat; lra). lra.
      * intros D0. rewrite D0 in MB. assert (A0 : asum m = 0) by lra. rewrite A0, Rmult_0_r in Bd. apply Rabs_le_inv in Bd. lra.
Qed.
(** It is the same, to the bit, in both directions, also with infinities and NaN. *)
Theorem c120_symmetric : forall S x y, List.length x = List.length y -> q_l1 S x y = q_l1 S y x.
Proof.
  intros S x y L. unfold q_l1. rewrite (fit_same _ y) by (symmetry; exact L). rewrite (fit_same _ x) by exact L. cbn [bind]. assert (E : q_moduli x y = q_moduli y x); [|rewrite E; reflexivity]. revert y L.
  induction x as [|a x IH]; intros [|b y] L; try discriminate L; [reflexivity|]. unfold q_moduli. cbn [combine map fst snd]. rewrite (sub_abs a b). apply (f_equal (cons (f_abs (fsub b a)))). apply IH. injection L as L. exact L.
Qed.
(** A NaN in one vector, or the same infinity in the same place in both, makes it NaN. *)
Theorem c120_nan : forall S x y (i : nat), summer S -> List.length x = List.length y -> (i < List.length x)%nat ->
  nth i x z = B754_nan \/ nth i y z = B754_nan \/ (exists s, nth i x z = B754_infinity s /\ nth i y z = B754_infinity s) -> q_l1 S x y = Ok B754_nan.
Proof.
  intros S x y i HS L I H. unfold q_l1. rewrite fit_same by (symmetry; exact L). cbn [bind]. f_equal.
  assert (IN : In (@B754_nan 53 1024) (q_moduli x y)).
  { unfold q_moduli. apply in_map_iff. exists (nth i x z, nth i y z). split.
    - cbn [fst snd]. destruct H as [H|[H|(s & H1 & H2)]].
      + rewrite H. reflexivity.
      + rewrite H. destruct (nth i x z); reflexivity.
      + rewrite H1, H2. destruct s; reflexivity.
    - rewrite <- combine_nth by exact L. apply nth_In. rewrite combine_length, <- L. lia. }
  unfold q_sum. destruct (q_moduli x y) as [|v m] eqn:E; [destruct IN|]. rewrite <- E in *. apply (adds_nan (q_moduli x y)); [apply HS; rewrite E; discriminate|exact IN].
Qed.
(** The triangle inequality holds up to [2^-47 (n+1)] of the sum of the distances. *)
Theorem c120_triangle : forall S B x y w, summer S -> bounded B x -> bounded B y -> bounded B w -> 0 <= B <= bpow radix2 900 -> List.length x = List.length y -> List.length y = List.length w ->
  (Z.of_nat (List.length x) <= 2 ^ 40)%Z -> exists dxw dxy dyw, q_l1 S x w = Ok dxw /\ q_l1 S x y = Ok dxy /\ q_l1 S y w = Ok dyw /\
  val dxw <= (val dxy + val dyw) * (1 + bpow radix2 (-47) * (INR (List.length x) + 1)).
Proof.
  intros S B x y w HS Hx Hy Hw HB L M N.
  destruct (c120_distance S B x w HS Hx Hw HB ltac:(congruence) N) as (a & Ea & _ & Pa & Aa & _). destruct (c120_distance S B x y HS Hx Hy HB L N) as (b & Eb & _ & Pb & Ab & _).
  destruct (c120_distance S B y w HS Hy Hw HB M ltac:(rewrite <- L; exact N)) as (c & Ec & _ & Pc & Ac & _). exists a, b, c. do 3 (split; [assumption|]).
  assert (E1 : @List.length f64_num y = List.length x) by (symmetry; exact L). rewrite E1 in Ac.
  pose proof (r_l1_triangle (map val x) (map val y) (map val w) ltac:(rewrite !map_length; exact L) ltac:(rewrite !map_length; exact M)) as T.
  pose proof (r_l1_pos (map val x) (map val y)) as P1. pose proof (r_l1_pos (map val y) (map val w)) as P2. pose proof (r_l1_pos (map val x) (map val w)) as P3.
  set (D := r_l1 (map val x) (map val w)) in *. set (D1 := r_l1 (map val x) (map val y)) in *. set (D2 := r_l1 (map val y) (map val w)) in *.
  assert (NI : INR (List.length x) <= bpow radix2 40) by (rewrite INR_IZR_INZ; apply (IZR_le_bpow _ 40); lia).
  assert (N0 : 0 <= INR (List.length x)) by apply pos_INR. set (n := INR (List.length x)) in *.
  assert (E47 : bpow radix2 (-47) = 8 * bpow radix2 (-50)) by (change 8 with (bpow radix2 3); rewrite <- bpow_plus; reflexivity). rewrite E47. clear E47.
  set (E := bpow radix2 (-50) * (n + 1)) in *.
  assert (E0 : 0 <= E <= / 512).
  { unfold E. pose proof (bpow_gt_0 radix2 (-50)) as B5. split; [apply Rmult_le_pos; lra|]. apply Rle_trans with (bpow radix2 (-50) * bpow radix2 41).
    - apply Rmult_le_compat_l; [lra|]. change (bpow radix2 41) with (bpow radix2 (40 + 1)). rewrite bpow_plus. change (bpow radix2 1) with 2. assert (1 <= bpow radix2 40) by (change 1 with (bpow radix2 0); apply bpow_le; lia). lra.
    - rewrite <- bpow_plus. change (bpow radix2 (-50 + 41)) with (/ 512). lra. }
  replace (8 * bpow radix2 (-50) * (n + 1)) with (8 * E) by (unfold E; ring). clearbody E.
  apply Rabs_le_inv in Aa, Ab, Ac. set (s := val b + val c) in *. set (DS := D1 + D2) in *.
  assert (S1 : DS * (1 - E) <= s) by (unfold DS, s; lra). assert (S2 : val a <= DS * (1 + E)).
  { assert (E * D <= E * DS) by (apply Rmult_le_compat_l; [lra|exact T]). unfold DS in *. lra. }
  eapply Rle_trans; [exact S2|]. assert (S0 : 0 <= DS) by (unfold DS; lra).
  apply Rle_trans with (DS * (1 - E) * (1 + 8 * E)).
  - rewrite Rmult_assoc. apply Rmult_le_compat_l; [exact S0|]. assert (E * E <= E * / 512) by (apply Rmult_le_compat_l; lra). lra.
  - apply Rmult_le_compat_r; lra.
Qed.
(** It does not hold exactly. *)
Theorem c120_triangle_refuted : forall S, summer S -> exists x y w dxw dxy dyw : f64_num, q_l1 S [x] [w] = Ok dxw /\ q_l1 S [x] [y] = Ok dxy /\ q_l1 S [y] [w] = Ok dyw /\
  finite dxw /\ finite dxy /\ finite dyw /\ val (fadd dxy dyw) < val dxy + val dyw /\ val dxy + val dyw < val dxw.
Proof.
  intros S HS. assert (ONE : forall v : f64_num, finite v -> Rabs (val v) <= bpow radix2 1000 -> finite (S [v]) /\ val (S [v]) = val v).
  { intros v F Bv. destruct (adds_ok [v] (S [v]) (HS [v] ltac:(discriminate)) ltac:(repeat constructor; exact F) ltac:(change (Rabs (val v) + 0 <= bpow radix2 1000); lra) ltac:(cbn; lia)) as [FS AS].
    split; [exact FS|]. change (Rabs (val (S [v]) - (val v + 0)) <= (1 - 1) * asize [v]) in AS. rewrite Rminus_eq_0, Rmult_0_l in AS. apply Rabs_le_inv in AS. lra. }
  set (x := f64_of 9007199254740992 0). set (y := f64_of (-1) 0). set (w := f64_of (-2) 0).
  assert (E1 : f_abs (fsub x w) = f64_of 4503599627370497 1) by (apply (B2SF_inj 53 1024); vm_compute; reflexivity).
  assert (E2 : f_abs (fsub x y) = f64_of 4503599627370496 1) by (apply (B2SF_inj 53 1024); vm_compute; reflexivity).
  assert (E3 : f_abs (fsub y w) = f64_of 1 0) by (apply (B2SF_inj 53 1024); vm_compute; reflexivity).
  assert (V1 : val (f64_of 4503599627370497 1) = 9007199254740994) by (unfold val; cbn; unfold F2R; cbn; lra).
  assert (V2 : val (f64_of 4503599627370496 1) = 9007199254740992) by (unfold val; cbn; unfold F2R; cbn; lra).
  assert (V3 : val (f64_of 1 0) = 1) by (unfold val; cbn; unfold F2R; cbn; lra).
  assert (BB : forall v, 0 <= v <= 9007199254740994 -> Rabs v <= bpow radix2 1000).
  { intros v Hv. rewrite Rabs_pos_eq by lra. apply Rle_trans with (bpow radix2 54); [change (bpow radix2 54) with 18014398509481984; lra|apply bpow_le; lia]. }
  destruct (ONE (f64_of 4503599627370497 1) eq_refl ltac:(apply BB; lra)) as [F1 W1]. destruct (ONE (f64_of 4503599627370496 1) eq_refl ltac:(apply BB; lra)) as [F2 W2].
  destruct (ONE (f64_of 1 0) eq_refl ltac:(apply BB; lra)) as [F3 W3]. rewrite V1 in W1. rewrite V2 in W2. rewrite V3 in W3.
  exists x, y, w, (S [f64_of 4503599627370497 1]), (S [f64_of 4503599627370496 1]), (S [f64_of 1 0]).
  unfold q_l1, q_fit, q_moduli, q_sum. cbn [List.length Nat.eqb bind combine map fst snd]. rewrite E1, E2, E3. do 3 (split; [reflexivity|]). do 3 (split; [assumption|]).
  rewrite W1, W2, W3. split; [|lra]. destruct (fadd_val (S [f64_of 4503599627370496 1]) (S [f64_of 1 0]) F2 F3) as [_ V]; [rewrite W2, W3; eapply Rle_trans; [apply BB|apply bpow_le; lia]; lra|].
  rewrite V, W2, W3. assert (G : fadd (f64_of 4503599627370496 1) (f64_of 1 0) = f64_of 4503599627370496 1) by (apply (B2SF_inj 53 1024); vm_compute; reflexivity).
  destruct (fadd_val (f64_of 4503599627370496 1) (f64_of 1 0) eq_refl eq_refl) as [_ V']; [rewrite V2, V3; eapply Rle_trans; [apply BB|apply bpow_le; lia]; lra|].
  rewrite G, V2, V3 in V'. lra.
Qed.
(** Lengths: the second vector must have the length of the first one, or one element, which is then repeated. *)
Theorem c120_lengths : forall S x y, (q_l1 S x y = Err ValueError <-> List.length y <> List.length x /\ List.length y <> 1%nat) /\
  (q_l1 S x y <> Err ValueError -> exists d, q_l1 S x y = Ok d) /\ (forall v, y = [v] -> q_l1 S x y = q_l1 S x (repeat v (List.length x))).
Proof.
  intros S x y. assert (K : (exists d, q_l1 S x y = Ok d) /\ (List.length y = List.length x \/ List.length y = 1%nat) \/ q_l1 S x y = Err ValueError /\ List.length y <> List.length x /\ List.length y <> 1%nat).
  { unfold q_l1, q_fit. destruct (Nat.eqb_spec (@List.length f64_num y) (@List.length f64_num x)) as [E|E].
    - left. split; [eexists; reflexivity|left; exact E].
    - destruct y as [|v [|u y]]; cbn [bind List.length] in *; [right|left|right]; (split; [first [reflexivity|eexists; reflexivity]|]); [split; [exact E|discriminate]|right; reflexivity|split; [exact E|discriminate]]. }
  split; [|split].
  - destruct K as [[(d & K) C]|[K C]]; rewrite K; split; intros H; auto; [discriminate H|lia].
  - intros H. destruct K as [[D _]|[K _]]; [exact D|contradiction].
  - intros v ->. unfold q_l1. rewrite (fit_same (List.length x) (repeat v (List.length x))) by apply repeat_length. unfold q_fit. cbn [List.length].
    destruct (Nat.eqb_spec 1 (@List.length f64_num x)) as [E|E]; [|reflexivity]. rewrite <- E. reflexivity.
Qed.
(** Hence distances that exist in one direction only. *)
Theorem c120_symmetric_refuted : forall S, exists x y d, q_l1 S x y = Ok d /\ q_l1 S y x = Err ValueError.
Proof. intros S. exists [f64_of 1 0; f64_of 2 0], [f64_of 0 0]. eexists. split; reflexivity. Qed.

(** |1-4| + |0.5-0.25| + |-2-1| = 6.25. *)
Example ex_l1 : let x := [f64_of 1 0; f64_of 1 (-1); f64_of (-2) 0] in let y := [f64_of 4 0; f64_of 1 (-2); f64_of 1 0] in
  summer left_sum /\ bounded 4 x /\ bounded 4 y /\ List.length x = List.length y /\ q_l1 left_sum x y = Ok (f64_of 25 (-2)) /\ q_l1 left_sum x [z] = Ok (f64_of 7 (-1)) /\ q_l1 left_sum x [z; z] = Err ValueError.
Proof.
  cbv zeta. split; [exact ex_summer|]. assert (RE : forall a b : f64_num, B2SF a = B2SF b -> Ok a = Ok b) by (intros a b E; f_equal; apply (B2SF_inj 53 1024), E).
  split; [|split; [|split; [reflexivity|split; [apply RE; vm_compute; reflexivity|split; [apply RE; vm_compute; reflexivity|reflexivity]]]]]; repeat (apply Forall_cons; [split; [reflexivity|unfold val; cbn; unfold F2R; cbn; apply Rabs_le; lra]|]); apply Forall_nil.
Qed.
Example ex_nan : q_l1 left_sum [f64_of 1 0; B754_infinity true] [f64_of 1 0; B754_infinity true] = Ok B754_nan.
Proof. reflexivity. Qed.
Print Assumptions c120_distance. Print Assumptions c120_symmetric. Print Assumptions c120_nan. Print Assumptions c120_triangle. Print Assumptions c120_triangle_refuted. Print Assumptions c120_lengths. Print Assumptions c120_symmetric_refuted.
