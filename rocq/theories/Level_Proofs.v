(** Maxima, sums and square roots of doubles (C112). *)
From Coq Require Import String ZArith Reals Lra Lia Bool List Permutation.
From Flocq Require Import Core IEEE754.BinarySingleNaN.
Import ListNotations.
From Verif Require Import Base ListLemmas RLists Double_Model Double_Float Peak_Model Peak_Round Peak_Accuracy
  Peak_Proofs Clock_Model Clock_Proofs Synth_Proofs Level_Model.
Local Open Scope R_scope.

(** ** Absolute values, maxima, minima *)

Lemma f_abs_val : forall x : f64_num, finite x -> finite (f_abs x) /\ val (f_abs x) = Rabs (val x).
Proof.
  intros x F. split; [|apply B2R_Babs]. unfold f_abs. rewrite is_finite_Babs. exact F.
Qed.
Lemma f_maximum_val : forall x y : f64_num, finite x -> finite y ->
  finite (f_maximum x y) /\ val (f_maximum x y) = Rmax (val x) (val y).
Proof.
  intros x y Fx Fy. unfold f_maximum.
  assert (N : @is_nan 53 1024 x = false) by (destruct x; try reflexivity; discriminate Fx).
  rewrite N. cbn [orb]. rewrite Bleb_correct by auto. case Rle_bool_spec; intros H.
  - split; [exact Fx|]. rewrite Rmax_left; auto.
  - split; [exact Fy|]. rewrite Rmax_right; auto. left. exact H.
Qed.
Lemma f_max_ok : forall x, x <> [] -> Forall (fun v : f64_num => finite v) x -> exists m, f_max x = Ok m /\ finite m /\
  (forall v, In v x -> val v <= val m) /\ exists v, In v x /\ val v = val m.
Proof.
  intros [|v x] N F; [congruence|]. inversion F as [|? ? Fv Fx]; subst. clear F N. cbn [f_max].
  eexists. split; [reflexivity|]. revert v Fv. induction x as [|w x IH]; intros v Fv; cbn [fold_left].
  - split; [exact Fv|]. split; [intros u [<-|[]]; lra|]. exists v. split; [now left|reflexivity].
  - inversion Fx as [|? ? Fw Fx']; subst. destruct (f_maximum_val v w Fv Fw) as [Fm Vm].
    destruct (IH Fx' _ Fm) as (F & B & u & Iu & Eu). split; [exact F|]. split.
    + intros z Iz. assert (Bm : val (f_maximum v w) <= val (fold_left f_maximum x (f_maximum v w))) by (apply B; now left).
      rewrite Vm in Bm. pose proof (Rmax_l (val v) (val w)). pose proof (Rmax_r (val v) (val w)).
      destruct Iz as [<-|[<-|Iz]]; [lra|lra|]. apply B. now right.
    + destruct Iu as [<-|Iu]; [|exists u; split; [now do 2 right|exact Eu]].
      rewrite <- Eu, Vm. unfold Rmax. destruct (Rle_dec (val v) (val w)); [exists w|exists v]; (split; [cbn; auto|reflexivity]).
Qed.
Lemma f_min_ok : forall x, x <> [] -> Forall (fun v : f64_num => finite v) x -> exists m, f_min x = Ok m /\ finite m /\
  (forall v, In v x -> val m <= val v) /\ exists v, In v x /\ val v = val m.
Proof.
  intros [|v x] N F; [congruence|]. inversion F as [|? ? Fv Fx]; subst. clear F N. cbn [f_min].
  eexists. split; [reflexivity|]. revert v Fv. induction x as [|w x IH]; intros v Fv; cbn [fold_left].
  - split; [exact Fv|]. split; [intros u [<-|[]]; lra|]. exists v. split; [now left|reflexivity].
  - inversion Fx as [|? ? Fw Fx']; subst. destruct (f_minimum_val v w Fv Fw) as [Fm Vm].
    destruct (IH Fx' _ Fm) as (F & B & u & Iu & Eu). split; [exact F|]. split.
    + intros z Iz. assert (Bm : val (fold_left f_minimum x (f_minimum v w)) <= val (f_minimum v w)) by (apply B; now left).
      rewrite Vm in Bm. pose proof (Rmin_l (val v) (val w)). pose proof (Rmin_r (val v) (val w)).
      destruct Iz as [<-|[<-|Iz]]; [lra|lra|]. apply B. now right.
    + destruct Iu as [<-|Iu]; [|exists u; split; [now do 2 right|exact Eu]].
      rewrite <- Eu, Vm. unfold Rmin. destruct (Rle_dec (val v) (val w)); [exists v|exists w]; (split; [cbn; auto|reflexivity]).
Qed.

(** NaN and infinities. *)
Lemma max_nan_l : forall x, fold_left f_maximum x B754_nan = B754_nan.
Proof. induction x as [|v x IH]; [reflexivity|]. exact IH. Qed.
Lemma max_nan_r : forall v, f_maximum v B754_nan = B754_nan.
Proof. intros [s|s| |s m e H]; reflexivity. Qed.
Lemma max_nan : forall x v, In B754_nan x -> fold_left f_maximum x v = B754_nan.
Proof.
  induction x as [|w x IH]; intros v H; [destruct H|]. destruct H as [->|H]; cbn [fold_left].
  - rewrite max_nan_r. apply max_nan_l.
  - now apply IH.
Qed.
Lemma max_inf : forall x v, (v = B754_infinity false \/ In (B754_infinity false) x) -> v <> B754_nan -> ~ In B754_nan x ->
  fold_left f_maximum x v = B754_infinity false.
Proof.
  induction x as [|w x IH]; intros v H Nv Nx; cbn [fold_left].
  - destruct H as [->|[]]. reflexivity.
  - assert (Nw : w <> B754_nan) by (intros ->; apply Nx; now left).
    apply IH; [|unfold f_maximum; destruct (_ || _); assumption|intro; apply Nx; now right].
    destruct H as [->|[->|H]]; [left| |now right].
    + destruct w as [s|[|]| |s m e B]; try congruence; reflexivity.
    + left. destruct v as [s|[|]| |s m e B]; try congruence; reflexivity.
Qed.
Lemma zero_of : forall x : f64_num, finite x -> val x = 0 -> exists b, x = B754_zero b.
Proof.
  intros [s|s| |s m e H] F V; try discriminate F; [eauto|]. exfalso. cbn in V. apply (f_equal Rabs) in V.
  rewrite Rabs_R0, <- F2R_Zabs, abs_cond_Zopp in V. apply eq_0_F2R in V. cbn in V. discriminate V.
Qed.
Lemma val_inj : forall x y : f64_num, finite x -> finite y -> val x = val y -> val y <> 0 -> x = y.
Proof.
  intros x y Fx Fy E N. apply (B2R_inj 53 1024).
  - destruct x; try discriminate Fx; [|reflexivity]. exfalso. apply N. rewrite <- E. reflexivity.
  - destruct y; try discriminate Fy; [|reflexivity]. exfalso. now apply N.
  - exact E.
Qed.

(** ** Square roots *)

Lemma f_sqrt_val : forall x : f64_num, finite x -> 0 <= val x -> finite (f_sqrt x) /\ val (f_sqrt x) = rnd (sqrt (val x)).
Proof.
  intros x F P. pose proof (Bsqrt_correct 53 1024 prec_pos prec_emax mode_NE x) as (V & K & _). split; [|exact V].
  unfold f_sqrt. etransitivity; [exact K|]. destruct x as [s|s| |s m e H]; try discriminate F; [reflexivity|]. destruct s; [|reflexivity]. exfalso.
  assert (N : val (B754_finite true m e H) < 0) by (apply F2R_lt_0; reflexivity). lra.
Qed.

(** ** Sums *)

Definition asum (l : list f64_num) : R := fold_right (fun x s => val x + s) 0 l.
Definition asize (l : list f64_num) : R := fold_right (fun x s => Rabs (val x) + s) 0 l.
Lemma asize_nonneg : forall l, 0 <= asize l.
Proof. induction l as [|p l IH]; [cbn; lra|]. apply Rplus_le_le_0_compat; [apply Rabs_pos|exact IH]. Qed.
Lemma asum_size : forall l, Rabs (asum l) <= asize l.
Proof.
  induction l as [|p l IH]; cbn; [rewrite Rabs_R0; lra|]. eapply Rle_trans; [apply Rabs_triang|]. apply Rplus_le_compat_l, IH.
Qed.
Lemma asum_app : forall l r, asum (l ++ r) = asum l + asum r.
Proof.
  induction l as [|p l IH]; intros r; [change (asum r = 0 + asum r); ring|].
  change (val p + asum (l ++ r) = (val p + asum l) + asum r). rewrite IH. ring.
Qed.
Lemma asize_app : forall l r, asize (l ++ r) = asize l + asize r.
Proof.
  induction l as [|p l IH]; intros r; [change (asize r = 0 + asize r); ring|].
  change (Rabs (val p) + asize (l ++ r) = (Rabs (val p) + asize l) + asize r). rewrite IH. ring.
Qed.
Lemma asum_perm : forall l r, Permutation l r -> asum l = asum r /\ asize l = asize r.
Proof.
  intros l r P. induction P as [|p l r P [I1 I2]|p q l|l m r P [I1 I2] Q [I3 I4]].
  - auto.
  - split; [apply (f_equal (Rplus _)), I1|apply (f_equal (Rplus _)), I2].
  - split; unfold asum, asize; cbn [fold_right]; rewrite <- !Rplus_assoc; f_equal; apply Rplus_comm.
  - split; congruence.
Qed.
Lemma asize_le : forall l B, Forall (fun x : f64_num => Rabs (val x) <= B) l -> asize l <= INR (List.length l) * B.
Proof.
  intros l B F. induction F as [|x l H F IH]; [cbn; lra|]. cbn [asize fold_right List.length]. fold (asize l). rewrite S_INR. lra.
Qed.

Lemma adds_ne : forall l x, adds l x -> l <> [].
Proof.
  intros l x H. induction H as [x|l r x y _ IH _ _|b l x _ IH|l r x P _ IH]; [discriminate| |exact IH|].
  - intro E. apply app_eq_nil in E. tauto.
  - intros ->. apply Permutation_sym, Permutation_nil in P. congruence.
Qed.

Lemma adds_ok : forall l x, adds l x -> Forall (fun v : f64_num => finite v) l -> asize l <= bpow radix2 1000 -> (Z.of_nat (List.length l) <= 2 ^ 50)%Z ->
  finite x /\ Rabs (val x - asum l) <= ((1 + uro) ^ (List.length l - 1) - 1) * asize l.
Proof.
  pose proof uro_pos as U.
  assert (PW : forall n m, (n <= m)%nat -> 1 <= (1 + uro) ^ n <= (1 + uro) ^ m).
  { intros n m H. split; [apply pow_R1_Rle; lra|apply Rle_pow; [lra|exact H]]. }
  assert (P2 : forall n, (Z.of_nat n <= 2 ^ 50)%Z -> (1 + uro) ^ n <= 2).
  { intros n H. destruct (grow_bound n H) as [G1 G2]. destruct (PW n (2 * n)%nat ltac:(lia)) as [_ G]. unfold grow in G1. lra. }
  intros l x D. induction D as [x|l r x y Dl IHl Dr IHr|b l x D IH|l r x P D IH]; intros FA HS HL.
  - inversion FA; subst. split; [assumption|]. cbn [asum fold_right List.length Nat.sub pow].
    replace (val x - (val x + 0)) with 0 by ring. rewrite Rabs_R0. lra.
  - rewrite asize_app in HS. pose proof (asize_nonneg l) as Sl. pose proof (asize_nonneg r) as Sr.
    rewrite app_length in HL. apply Forall_app in FA. destruct FA as [FAl FAr].
    destruct (IHl FAl ltac:(lra) ltac:(lia)) as [Fx Dx]. destruct (IHr FAr ltac:(lra) ltac:(lia)) as [Fy Dy].
    assert (Ll : (1 <= List.length l)%nat) by (pose proof (adds_ne _ _ Dl); destruct l; [congruence|cbn; lia]).
    assert (Lr : (1 <= List.length r)%nat) by (pose proof (adds_ne _ _ Dr); destruct r; [congruence|cbn; lia]).
    rewrite app_length, asum_app, asize_app. set (n := (List.length l + List.length r - 2)%nat).
    destruct (PW (List.length l - 1)%nat n ltac:(lia)) as [A1 A2]. destruct (PW (List.length r - 1)%nat n ltac:(lia)) as [B1 B2].
    pose proof (P2 n ltac:(lia)) as C2. replace (List.length l + List.length r - 1)%nat with (S n) by lia. cbn [pow].
    set (c := (1 + uro) ^ n) in *. set (cl := (1 + uro) ^ (List.length l - 1)) in *. set (cr := (1 + uro) ^ (List.length r - 1)) in *.
    assert (X : Rabs (val x + val y - (asum l + asum r)) <= (c - 1) * (asize l + asize r)).
    { replace (val x + val y - (asum l + asum r)) with ((val x - asum l) + (val y - asum r)) by ring.
      eapply Rle_trans; [apply Rabs_triang|].
      assert ((cl - 1) * asize l <= (c - 1) * asize l) by (apply Rmult_le_compat_r; lra).
      assert ((cr - 1) * asize r <= (c - 1) * asize r) by (apply Rmult_le_compat_r; lra). lra. }
    set (S0 := asize l + asize r) in *.
    assert (SS : Rabs (asum l + asum r) <= S0).
    { eapply Rle_trans; [apply Rabs_triang|]. pose proof (asum_size l). pose proof (asum_size r). unfold S0. lra. }
    assert (V0 : Rabs (val x + val y) <= c * S0).
    { replace (val x + val y) with ((val x + val y - (asum l + asum r)) + (asum l + asum r)) by ring.
      eapply Rle_trans; [apply Rabs_triang|]. lra. }
    destruct (fadd_val x y Fx Fy) as [F V].
    { eapply Rle_trans; [exact V0|]. apply Rle_trans with (2 * bpow radix2 1000); [apply Rmult_le_compat; unfold S0 in *; lra|].
      change 2 with (bpow radix2 1). rewrite <- bpow_plus. apply bpow_le. lia. }
    split; [exact F|]. rewrite V. destruct (rnd_plus _ _ (val_fmt x) (val_fmt y)) as (e & He & ->).
    replace ((val x + val y) * (1 + e) - (asum l + asum r)) with ((val x + val y - (asum l + asum r)) + e * (val x + val y)) by ring.
    eapply Rle_trans; [apply Rabs_triang|]. rewrite Rabs_mult.
    assert (Rabs e * Rabs (val x + val y) <= uro * (c * S0)) by (apply Rmult_le_compat; auto using Rabs_pos).
    replace (((1 + uro) * c - 1) * S0) with ((c - 1) * S0 + uro * (c * S0)) by ring. lra.
  - destruct (IH FA HS HL) as [Fx Dx]. assert (F0 : finite (B754_zero b : f64_num)) by reflexivity.
    pose proof (P2 (List.length l - 1)%nat ltac:(lia)) as C2. pose proof (asize_nonneg l) as Sl.
    destruct (fadd_val (B754_zero b) x F0 Fx) as [F V].
    { change (val (B754_zero b)) with 0. rewrite Rplus_0_l. replace (val x) with ((val x - asum l) + asum l) by ring.
      eapply Rle_trans; [apply Rabs_triang|]. pose proof (asum_size l).
      assert (((1 + uro) ^ (List.length l - 1) - 1) * asize l <= 1 * asize l) by (apply Rmult_le_compat_r; lra).
      apply Rle_trans with (2 * bpow radix2 1000); [lra|]. change 2 with (bpow radix2 1). rewrite <- bpow_plus. apply bpow_le. lia. }
    split; [exact F|]. rewrite V. change (val (B754_zero b)) with 0. rewrite Rplus_0_l, rnd_id by apply val_fmt. exact Dx.
  - destruct (asum_perm _ _ P) as [E1 E2]. assert (Lr : List.length l = List.length r) by apply Permutation_length, P.
    destruct IH as [F Dx].
    + rewrite Forall_forall in *. intros p Hp. apply FA. eapply Permutation_in; eauto.
    + rewrite E2. exact HS.
    + rewrite Lr. exact HL.
    + split; [exact F|]. rewrite <- E1, <- E2, <- Lr. exact Dx.
Qed.
Lemma adds_bound : forall l x, adds l x -> Forall (fun v : f64_num => finite v) l -> asize l <= bpow radix2 1000 -> (Z.of_nat (List.length l) <= 2 ^ 50)%Z ->
  finite x /\ Rabs (val x - asum l) <= bpow radix2 (-51) * INR (List.length l) * asize l /\ Rabs (val x) <= 2 * asize l.
Proof.
  intros l x D FA HS HL. destruct (adds_ok _ _ D FA HS HL) as [F B]. split; [exact F|].
  destruct (grow_bound _ HL) as [G1 G2]. pose proof (asize_nonneg l) as Sl. pose proof uro_pos as U.
  assert (G : (1 + uro) ^ (List.length l - 1) <= grow (List.length l)) by (apply Rle_pow; [lra|lia]).
  assert (E51 : bpow radix2 (-51) = 4 * uro).
  { rewrite uro_val. change 4 with (bpow radix2 2). rewrite <- bpow_plus. reflexivity. }
  rewrite E51. assert (((1 + uro) ^ (List.length l - 1) - 1) * asize l <= 4 * uro * INR (List.length l) * asize l)
    by (apply Rmult_le_compat_r; lra).
  split; [lra|]. assert (4 * uro * INR (List.length l) * asize l <= 1 * asize l) by (apply Rmult_le_compat_r; lra).
  replace (val x) with ((val x - asum l) + asum l) by ring. eapply Rle_trans; [apply Rabs_triang|]. pose proof (asum_size l). lra.
Qed.

(** A sum of numbers that are not negative is at least each of them. *)
Lemma adds_ge : forall l x, adds l x -> Forall (fun v : f64_num => finite v) l -> asize l <= bpow radix2 1000 -> (Z.of_nat (List.length l) <= 2 ^ 50)%Z ->
  Forall (fun v => 0 <= val v) l -> 0 <= val x /\ Forall (fun v => val v <= val x) l.
Proof.
  intros l x D. induction D as [x|l r x y Dl IHl Dr IHr|b l x D IH|l r x P D IH]; intros FA HS HL PO.
  - inversion PO; subst. split; [assumption|]. constructor; [lra|constructor].
  - pose proof (adds_bound _ _ (adds_add _ _ _ _ Dl Dr) FA HS HL) as (FS & _ & BS).
    rewrite asize_app in HS. pose proof (asize_nonneg l) as Sl. pose proof (asize_nonneg r) as Sr.
    rewrite app_length in HL. apply Forall_app in FA. destruct FA as [FAl FAr]. apply Forall_app in PO. destruct PO as [POl POr].
    destruct (IHl FAl ltac:(lra) ltac:(lia) POl) as [Px Gx]. destruct (IHr FAr ltac:(lra) ltac:(lia) POr) as [Py Gy].
    destruct (adds_bound _ _ Dl FAl ltac:(lra) ltac:(lia)) as (Fx & _ & Bx).
    destruct (adds_bound _ _ Dr FAr ltac:(lra) ltac:(lia)) as (Fy & _ & By).
    destruct (fadd_val x y Fx Fy) as [F V].
    { eapply Rle_trans; [apply Rabs_triang|]. apply Rle_trans with (bpow radix2 (1 + 1000)); [|apply bpow_le; lia].
      rewrite bpow_plus. change (bpow radix2 1) with 2. lra. }
    assert (Vx : val x <= val (fadd x y)) by (rewrite V; apply rnd_ge_fmt; [apply val_fmt|lra]).
    assert (Vy : val y <= val (fadd x y)) by (rewrite V; apply rnd_ge_fmt; [apply val_fmt|lra]).
    split; [lra|]. apply Forall_app. split; [revert Gx|revert Gy]; apply Forall_impl; intros; lra.
  - destruct (IH FA HS HL PO) as [Px Gx]. destruct (adds_bound _ _ D FA HS HL) as (Fx & _ & Bx).
    assert (F0 : finite (B754_zero b : f64_num)) by reflexivity.
    destruct (fadd_val (B754_zero b) x F0 Fx) as [F V].
    { change (val (B754_zero b)) with 0. rewrite Rplus_0_l. eapply Rle_trans; [exact Bx|].
      apply Rle_trans with (bpow radix2 (1 + 1000)); [|apply bpow_le; lia]. rewrite bpow_plus. change (bpow radix2 1) with 2. lra. }
    assert (E : val (fadd (B754_zero b) x) = val x).
    { rewrite V. change (val (B754_zero b)) with 0. rewrite Rplus_0_l. apply rnd_id, val_fmt. }
    rewrite E. auto.
  - destruct (asum_perm _ _ P) as [E1 E2]. assert (Lr : List.length l = List.length r) by apply Permutation_length, P.
    assert (IN : forall v, In v l -> In v r) by (intros v; apply Permutation_in, P). rewrite Forall_forall in FA, PO.
    destruct IH as [Px G].
    + rewrite Forall_forall. auto.
    + rewrite E2. exact HS.
    + rewrite Lr. exact HL.
    + rewrite Forall_forall. auto.
    + split; [exact Px|]. rewrite Forall_forall in *. intros v Iv. apply G. eapply Permutation_in; [apply Permutation_sym, P|exact Iv].
Qed.
