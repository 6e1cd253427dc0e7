(** Lemmas about powers, norms, pools and samplers. *)
From Coq Require Import String List Bool ZArith Reals Lra Lia Permutation.
Import ListNotations.
From Verif Require Import Base Py Dict RLists Utils_Model Sample_Model Eval_Model.
Local Open Scope R_scope.

Lemma div_nonneg : forall a b, 0 <= a -> 0 < b -> 0 <= a / b.
Proof. intros a b Ha Hb. apply Rmult_le_pos; [assumption | left; apply Rinv_0_lt_compat; assumption]. Qed.

(** ** Powers *)
Lemma power_0 : forall p, power 0 p = 0.
Proof. intros p. unfold power. destruct (Req_EM_T 0 0); [reflexivity|lra]. Qed.
Lemma power_pos : forall v p, 0 < v -> power v p = Rpower v p.
Proof. intros v p H. unfold power. destruct (Req_EM_T v 0); [lra|reflexivity]. Qed.
Lemma power_nonneg : forall v p, 0 <= power v p.
Proof.
  intros v p. unfold power. destruct (Req_EM_T v 0); [lra|]. left. apply exp_pos.
Qed.
Lemma power_gt0 : forall v p, 0 < v -> 0 < power v p.
Proof. intros v p H. rewrite power_pos by assumption. apply exp_pos. Qed.
Lemma power_zero : forall v p, power v p = 0 -> v = 0.
Proof.
  intros v p H. unfold power in H. destruct (Req_EM_T v 0); [assumption|].
  exfalso. assert (0 < Rpower v p) by apply exp_pos. lra.
Qed.
Lemma power_mult_distr : forall u v p, 0 <= u -> 0 <= v -> power (u * v) p = power u p * power v p.
Proof.
  intros u v p Hu Hv.
  destruct (Req_dec u 0) as [-> | Hu0]; [rewrite Rmult_0_l, power_0; ring|].
  destruct (Req_dec v 0) as [-> | Hv0]; [rewrite Rmult_0_r, power_0; ring|].
  assert (0 < u * v) by (apply Rmult_lt_0_compat; lra).
  rewrite !power_pos by lra. symmetry. apply Rpower_mult_distr; lra.
Qed.
Lemma power_inv : forall v p, 0 <= v -> p <> 0 -> power (power v p) (1 / p) = v.
Proof.
  intros v p Hv Hp. destruct (Req_dec v 0) as [-> | Hv0]; [rewrite !power_0; reflexivity|].
  rewrite (power_pos v) by lra. rewrite power_pos by apply exp_pos.
  rewrite Rpower_mult. replace (p * (1 / p)) with 1 by (field; assumption). apply Rpower_1. lra.
Qed.
Lemma power_inv' : forall v p, 0 <= v -> p <> 0 -> power (power v (1 / p)) p = v.
Proof.
  intros v p Hv Hp. destruct (Req_dec v 0) as [-> | Hv0]; [rewrite !power_0; reflexivity|].
  rewrite (power_pos v) by lra. rewrite power_pos by apply exp_pos.
  rewrite Rpower_mult. replace (1 / p * p) with 1 by (field; assumption). apply Rpower_1. lra.
Qed.
Lemma power_le : forall u v p, 0 <= u <= v -> 0 < p -> power u p <= power v p.
Proof.
  intros u v p [Hu Huv] Hp.
  destruct (Req_dec u 0) as [-> | Hu0]; [rewrite power_0; apply power_nonneg|].
  rewrite !power_pos by lra. apply Rle_Rpower_l; lra.
Qed.
Lemma power_1 : forall v, 0 <= v -> power v 1 = v.
Proof.
  intros v H. destruct (Req_dec v 0) as [-> | H0]; [apply power_0|].
  rewrite power_pos by lra. apply Rpower_1. lra.
Qed.
Lemma power_one : forall p, power 1 p = 1.
Proof. intros p. rewrite power_pos by lra. unfold Rpower. rewrite ln_1, Rmult_0_r. apply exp_0. Qed.
Lemma power_2 : forall v, 0 <= v -> power v 2 = v * v.
Proof.
  intros v H. destruct (Req_dec v 0) as [-> | H0]; [rewrite power_0; ring|].
  rewrite power_pos by lra. replace 2 with (1 + 1) by ring.
  rewrite Rpower_plus, Rpower_1 by lra. reflexivity.
Qed.
Lemma power_half : forall v, 0 <= v -> power v (1 / 2) = sqrt v.
Proof.
  intros v H. destruct (Req_dec v 0) as [-> | H0]; [rewrite power_0, sqrt_0; reflexivity|].
  rewrite power_pos by lra. replace (1 / 2) with (/ 2) by lra. apply Rpower_sqrt. lra.
Qed.

(** Tangents of the logarithm. *)
Lemma ln_le_minus : forall x, 0 < x -> ln x <= x - 1.
Proof.
  intros x H. destruct (Rle_lt_dec (x - 1) (ln x)) as [H1|H1]; [|lra].
  destruct (Req_dec (ln x) 0) as [E|E].
  - rewrite E in *. assert (x = 1) by (rewrite <- (exp_ln x) by assumption; rewrite E; apply exp_0). lra.
  - pose proof (exp_ineq1 (ln x) E) as H2. rewrite exp_ln in H2 by assumption. lra.
Qed.
Lemma bernoulli : forall t p, 0 <= t -> 1 <= p -> 1 + p * (t - 1) <= power t p.
Proof.
  intros t p Ht Hp.
  destruct (Req_dec t 0) as [-> | Ht0]; [rewrite power_0; nra|].
  assert (T : 0 < t) by lra. rewrite power_pos by assumption.
  destruct (Rle_lt_dec (1 + p * (t - 1)) 0) as [Hs|Hs].
  { pose proof (exp_pos (p * ln t)). unfold Rpower. lra. }
  set (s := 1 + p * (t - 1)) in *.
  assert (H : ln s <= p * ln t).
  { (* t = (1/p) s + (1 - 1/p) *)
    pose proof (ln_le_minus (s / t)) as A. pose proof (ln_le_minus (1 / t)) as B.
    assert (0 < s / t) by (apply Rdiv_lt_0_compat; assumption).
    assert (0 < 1 / t) by (apply Rdiv_lt_0_compat; lra).
    specialize (A H). specialize (B H0).
    unfold Rdiv in A, B. rewrite ln_mult in A by (try assumption; apply Rinv_0_lt_compat; assumption).
    rewrite ln_mult in B by (try lra; apply Rinv_0_lt_compat; assumption).
    rewrite ln_Rinv in A, B by assumption. rewrite ln_1 in B.
    assert (C : s * / t - 1 + (p - 1) * (1 * / t - 1) = 0) by (unfold s; field; lra).
    nra. }
  unfold Rpower. rewrite <- (exp_ln s) at 1 by assumption.
  destruct H as [H | ->]; [left; apply exp_increasing; assumption | right; reflexivity].
Qed.
(** The power is convex. *)
Lemma power_convex : forall u v a p, 0 <= u -> 0 <= v -> 0 <= a <= 1 -> 1 <= p ->
  power (a * u + (1 - a) * v) p <= a * power u p + (1 - a) * power v p.
Proof.
  intros u v a p Hu Hv Ha Hp. set (m := a * u + (1 - a) * v).
  assert (M : 0 <= m) by (unfold m; nra).
  destruct (Req_dec m 0) as [E|E].
  { rewrite E, power_0. pose proof (power_nonneg u p). pose proof (power_nonneg v p). nra. }
  assert (M0 : 0 < m) by lra.
  pose proof (power_gt0 m p M0) as PM.
  assert (U : power u p = power m p * power (u / m) p).
  { rewrite <- power_mult_distr; [f_equal; field; lra | lra | apply div_nonneg; assumption]. }
  assert (V : power v p = power m p * power (v / m) p).
  { rewrite <- power_mult_distr; [f_equal; field; lra | lra | apply div_nonneg; assumption]. }
  pose proof (bernoulli (u / m) p ltac:(apply div_nonneg; assumption) Hp) as BU.
  pose proof (bernoulli (v / m) p ltac:(apply div_nonneg; assumption) Hp) as BV.
  rewrite U, V.
  assert (C : a * (1 + p * (u / m - 1)) + (1 - a) * (1 + p * (v / m - 1)) = 1) by (unfold m; field; exact E).
  assert (D : 1 <= a * power (u / m) p + (1 - a) * power (v / m) p) by nra.
  nra.
Qed.

(** ** Norms of lists *)
Definition norm (p : R) (l : list R) : R := power (rsum (map (fun v => power v p) l)) (1 / p).

Lemma rsum_powers_nonneg : forall p l, 0 <= rsum (map (fun v => power v p) l).
Proof. intros p l. apply rsum_nonneg. intros a _. apply power_nonneg. Qed.
Lemma norm_nonneg : forall p l, 0 <= norm p l.
Proof. intros. apply power_nonneg. Qed.
Lemma norm_1 : forall l, Forall (fun v => 0 <= v) l -> norm 1 l = rsum l.
Proof.
  intros l H. unfold norm. replace (1 / 1) with 1 by lra. rewrite power_1 by apply rsum_powers_nonneg.
  induction H as [|v l Hv H IH]; [reflexivity|].
  cbn [map rsum fold_right]. fold (rsum (map (fun v => power v 1) l)). fold (rsum l).
  rewrite IH, power_1 by assumption. reflexivity.
Qed.
Lemma norm_power : forall p l, p <> 0 -> power (norm p l) p = rsum (map (fun v => power v p) l).
Proof. intros p l H. apply power_inv'; [apply rsum_powers_nonneg | assumption]. Qed.
Lemma norm_zero : forall p l, 0 < p -> (norm p l = 0 <-> Forall (fun v => v = 0) l).
Proof.
  intros p l Hp. split.
  - intros H. apply power_zero in H. induction l as [|v l IH]; [constructor|].
    cbn [map rsum fold_right] in H. fold (rsum (map (fun v => power v p) l)) in H.
    pose proof (rsum_powers_nonneg p l). pose proof (power_nonneg v p).
    constructor; [apply (power_zero v p); lra | apply IH; lra].
  - intros H. unfold norm. replace (rsum (map (fun v => power v p) l)) with 0; [apply power_0|].
    induction H as [|v l -> H IH]; [reflexivity|].
    cbn [map rsum fold_right]. fold (rsum (map (fun v => power v p) l)). rewrite <- IH, power_0. ring.
Qed.
Lemma norm_mono : forall p l l', 0 < p -> Forall2 (fun u v => 0 <= u <= v) l l' -> norm p l <= norm p l'.
Proof.
  intros p l l' Hp H. unfold norm. apply power_le; [split; [apply rsum_powers_nonneg|] | apply Rdiv_lt_0_compat; lra].
  induction H as [|u v l l' Huv H IH]; [apply Rle_refl|].
  cbn [map rsum fold_right]. fold (rsum (map (fun v => power v p) l)). fold (rsum (map (fun v => power v p) l')).
  pose proof (power_le u v p Huv Hp). lra.
Qed.
Lemma norm_scale : forall p c l, 0 < p -> 0 <= c -> Forall (fun v => 0 <= v) l ->
  norm p (map (fun v => c * v) l) = c * norm p l.
Proof.
  intros p c l Hp Hc H. unfold norm.
  replace (rsum (map (fun v => power v p) (map (fun v => c * v) l)))
    with (power c p * rsum (map (fun v => power v p) l)).
  - rewrite power_mult_distr by (apply power_nonneg || apply rsum_powers_nonneg).
    rewrite power_inv by lra. reflexivity.
  - induction H as [|v l Hv H IH]; [cbn; ring|].
    cbn [map rsum fold_right]. fold (rsum (map (fun v => power v p) l)).
    fold (rsum (map (fun v => power v p) (map (fun v => c * v) l))). rewrite <- IH, power_mult_distr by assumption. ring.
Qed.

(** Minkowski's inequality. *)
Lemma minkowski : forall A p (f g : A -> R) l, 1 <= p ->
  (forall a, 0 <= f a) -> (forall a, 0 <= g a) ->
  norm p (map (fun a => f a + g a) l) <= norm p (map f l) + norm p (map g l).
Proof.
  intros A p f g l Hp Hf Hg.
  set (a := norm p (map f l)). set (b := norm p (map g l)).
  assert (Ha : 0 <= a) by apply norm_nonneg. assert (Hb : 0 <= b) by apply norm_nonneg.
  destruct (Req_dec a 0) as [Ea|Ea].
  { rewrite Ea, Rplus_0_l. unfold b. right. f_equal. apply map_ext_in. intros x Hx.
    apply norm_zero in Ea; [|lra]. rewrite Forall_forall in Ea. rewrite (Ea (f x)) by (apply in_map; assumption). ring. }
  destruct (Req_dec b 0) as [Eb|Eb].
  { rewrite Eb, Rplus_0_r. unfold a. right. f_equal. apply map_ext_in. intros x Hx.
    apply norm_zero in Eb; [|lra]. rewrite Forall_forall in Eb. rewrite (Eb (g x)) by (apply in_map; assumption). ring. }
  assert (S : 0 < a + b) by lra.
  rewrite <- (power_inv (a + b) p) by lra. unfold norm at 1.
  apply power_le; [split; [apply rsum_powers_nonneg|] | apply Rdiv_lt_0_compat; lra].
  assert (Pa : power a p = rsum (map (fun x => power (f x) p) l)).
  { unfold a. rewrite norm_power by lra. rewrite map_map. reflexivity. }
  assert (Pb : power b p = rsum (map (fun x => power (g x) p) l)).
  { unfold b. rewrite norm_power by lra. rewrite map_map. reflexivity. }
  pose proof (power_gt0 a p ltac:(lra)) as PA. pose proof (power_gt0 b p ltac:(lra)) as PB.
  pose proof (power_gt0 (a + b) p ltac:(lra)) as PS.
  set (k := a / (a + b)).
  assert (K : 0 <= k <= 1).
  { unfold k. split; [apply div_nonneg; lra|]. apply (Rmult_le_reg_r (a + b)); [lra|].
    unfold Rdiv. rewrite Rmult_assoc, Rinv_l by lra. lra. }
  assert (E : rsum (map (fun v => power v p) (map (fun x => f x + g x) l)) <=
              rsum (map (fun x => power (a + b) p * k / power a p * power (f x) p
                                  + power (a + b) p * (1 - k) / power b p * power (g x) p) l)).
  { rewrite map_map. apply rsum_le. intros x _.
    assert (X : f x + g x = (a + b) * (k * (f x / a) + (1 - k) * (g x / b))) by (unfold k; field; lra).
    rewrite X, power_mult_distr; [| lra |].
    - pose proof (power_convex (f x / a) (g x / b) k p ltac:(apply div_nonneg; [apply Hf|lra])
                    ltac:(apply div_nonneg; [apply Hg|lra]) K Hp) as C.
      assert (F : power (f x / a) p = power (f x) p / power a p).
      { apply (Rmult_eq_reg_r (power a p)); [|lra]. rewrite <- power_mult_distr;
          [| apply div_nonneg; [apply Hf|lra] | lra].
        replace (f x / a * a) with (f x) by (field; assumption). field. lra. }
      assert (G : power (g x / b) p = power (g x) p / power b p).
      { apply (Rmult_eq_reg_r (power b p)); [|lra]. rewrite <- power_mult_distr;
          [| apply div_nonneg; [apply Hg|lra] | lra].
        replace (g x / b * b) with (g x) by (field; assumption). field. lra. }
      rewrite F, G in C. apply (Rmult_le_compat_l (power (a + b) p)) in C; [|lra].
      eapply Rle_trans; [exact C|]. right. field. lra.
    - apply Rplus_le_le_0_compat; apply Rmult_le_pos; try lra; apply div_nonneg; try lra; [apply Hf|apply Hg]. }
  eapply Rle_trans; [exact E|].
  rewrite rsum_map_plus, !rsum_map_scale, <- Pa, <- Pb. right. field. lra.
Qed.

(** ** Lists *)
Lemma nth_error_upd_eq : forall A (l : list A) i a, (i < List.length l)%nat -> nth_error (upd i a l) i = Some a.
Proof.
  intros A l. induction l as [|x l IH]; intros [|i] a H; cbn in *; try lia; [reflexivity|]. apply IH. lia.
Qed.
Lemma nth_error_upd_neq : forall A (l : list A) i j a, i <> j -> nth_error (upd i a l) j = nth_error l j.
Proof.
  intros A l. induction l as [|x l IH]; intros [|i] [|j] a H; cbn; try reflexivity; [congruence|]. apply IH. congruence.
Qed.
Lemma nth_error_ext : forall A (l l' : list A), (forall i, nth_error l i = nth_error l' i) -> l = l'.
Proof.
  intros A l. induction l as [|x l IH]; intros [|y l'] H; [reflexivity|discriminate (H 0%nat)|discriminate (H 0%nat)|].
  f_equal; [now injection (H 0%nat)|]. apply IH. intros i. exact (H (S i)).
Qed.
