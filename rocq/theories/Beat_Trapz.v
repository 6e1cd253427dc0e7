(** Error of the cumulative trapezoidal rule. *)
From Coquelicot Require Import Coquelicot.
From Coq Require Import List Bool ZArith Reals Lra Lia.
Import ListNotations.
From Verif Require Import Base ListLemmas RLists Np_Model Beat_Model.
Local Open Scope R_scope.

Lemma deriv_bound : forall (u v u' v' : R -> R) a b, a <= b -> u a = 0 -> v a = 0 ->
  (forall s : R, a <= s <= b -> is_derive u s (u' s)) ->
  (forall s : R, a <= s <= b -> is_derive v s (v' s)) ->
  (forall s : R, a <= s <= b -> Rabs (u' s) <= v' s) ->
  forall s, a <= s <= b -> Rabs (u s) <= v s.
Proof.
  intros u v u' v' a b Hab Hu Hv Du Dv Hb s Hs.
  assert (Mono : forall (w w' : R -> R), w a = 0 -> (forall x : R, a <= x <= b -> is_derive w x (w' x)) ->
    (forall x : R, a <= x <= b -> 0 <= w' x) -> 0 <= w s).
  { intros w w' W0 Dw Pw. destruct (Req_dec s a) as [->|Ne]; [lra|].
    destruct (MVT_gen w a s w') as (c & Hc & E).
    - intros x Hx. rewrite Rmin_left, Rmax_right in Hx by lra. apply Dw. lra.
    - intros x Hx. rewrite Rmin_left, Rmax_right in Hx by lra.
      apply continuity_pt_filterlim. apply @ex_derive_continuous. exists (w' x). apply Dw. lra.
    - rewrite Rmin_left, Rmax_right in Hc by lra. specialize (Pw c ltac:(lra)). nra. }
  apply Rabs_le. split.
  - enough (0 <= v s + u s) by lra.
    apply (Mono (fun x => v x + u x) (fun x => v' x + u' x)); [lra| |].
    + intros x Hx. apply (is_derive_plus v u x (v' x) (u' x)); auto.
    + intros x Hx. specialize (Hb x Hx). pose proof (Rle_abs (- u' x)). rewrite Rabs_Ropp in H. lra.
  - enough (0 <= v s - u s) by lra.
    apply (Mono (fun x => v x - u x) (fun x => v' x - u' x)); [lra| |].
    + intros x Hx. apply (is_derive_minus v u x (v' x) (u' x)); auto.
    + intros x Hx. specialize (Hb x Hx). pose proof (Rle_abs (u' x)). lra.
Qed.

(** One step of the trapezoidal rule. *)
Lemma trapz_step : forall (F f g h : R -> R) a b M, a <= b ->
  (forall s : R, a <= s <= b -> is_derive F s (f s)) ->
  (forall s : R, a <= s <= b -> is_derive f s (g s)) ->
  (forall s : R, a <= s <= b -> is_derive g s (h s)) ->
  (forall s : R, a <= s <= b -> Rabs (h s) <= M) ->
  Rabs ((b - a) * (f b + f a) / 2 - (F b - F a)) <= M * (b - a) ^ 3 / 12.
Proof.
  intros F f g h a b M Hab DF Df Dg Hh.
  pose (E1 := fun s => (f s - f a) / 2 - (s - a) * g s / 2).
  assert (B1 : forall s, a <= s <= b -> Rabs (E1 s) <= M * (s - a) ^ 2 / 4).
  { apply (deriv_bound E1 (fun s => M * (s - a) ^ 2 / 4) (fun s => - ((s - a) * h s / 2))
             (fun s => M * (s - a) / 2)); auto.
    - unfold E1. lra.
    - simpl. lra.
    - intros s Hs. unfold E1. specialize (Df s Hs). specialize (Dg s Hs).
      auto_derive; [repeat split; eexists; eassumption|].
      rewrite (is_derive_unique (fun x : R => f x) _ _ Df), (is_derive_unique (fun x : R => g x) _ _ Dg). field.
    - intros s Hs. auto_derive; [auto|]. field.
    - intros s Hs. rewrite Rabs_Ropp. unfold Rdiv. rewrite !Rabs_mult, (Rabs_right (/ 2)) by lra.
      rewrite (Rabs_right (s - a)) by lra. specialize (Hh s Hs).
      assert (0 <= (s - a)) by lra. nra. }
  pose (E0 := fun s => F s - F a - (s - a) * (f a + f s) / 2).
  assert (B0 : forall s, a <= s <= b -> Rabs (E0 s) <= M * (s - a) ^ 3 / 12).
  { apply (deriv_bound E0 (fun s => M * (s - a) ^ 3 / 12) E1 (fun s => M * (s - a) ^ 2 / 4)); auto.
    - unfold E0. lra.
    - simpl. lra.
    - intros s Hs. unfold E0, E1. specialize (DF s Hs). specialize (Df s Hs).
      auto_derive; [repeat split; eexists; eassumption|].
      rewrite (is_derive_unique (fun x : R => F x) _ _ DF), (is_derive_unique (fun x : R => f x) _ _ Df). field.
    - intros s Hs. auto_derive; [auto|]. field. }
  specialize (B0 b ltac:(lra)). unfold E0 in B0.
  rewrite <- Rabs_Ropp. replace (- ((b - a) * (f b + f a) / 2 - (F b - F a)))
    with (F b - F a - (b - a) * (f a + f b) / 2) by lra. exact B0.
Qed.

Inductive grid (h : R) : R -> list R -> Prop :=
| grid_nil : forall x, grid h x []
| grid_cons : forall x y l, x <= y <= x + h -> grid h y l -> grid h x (y :: l).

Lemma cumtrapz_from_err : forall (F f g d : R -> R) T M h, 0 <= M ->
  (forall s : R, 0 <= s <= T -> is_derive F s (f s)) ->
  (forall s : R, 0 <= s <= T -> is_derive f s (g s)) ->
  (forall s : R, 0 <= s <= T -> is_derive g s (d s)) ->
  (forall s : R, 0 <= s <= T -> Rabs (d s) <= M) ->
  forall ts x acc, 0 <= x -> grid h x ts -> Forall (fun t => t <= T) ts ->
    Rabs (acc - (F x - F 0)) <= M * h ^ 2 * x / 12 ->
    forall k, (k < List.length ts)%nat ->
      0 <= nth k ts 0 /\
      Rabs (nth k (cumtrapz_from acc (f x) x (map f ts) ts) 0 - (F (nth k ts 0) - F 0))
      <= M * h ^ 2 * nth k ts 0 / 12.
Proof.
  intros F f g d T M h HM DF Df Dg Hd. induction ts as [|y ts IH]; intros x acc Hx G Ft Ha k Hk; [simpl in Hk; lia|].
  inversion G as [|? ? ? Hy Gy]; subst. inversion Ft as [|? ? Fy Fts]; subst.
  assert (St : Rabs (acc + (y - x) * (f y + f x) / 2 - (F y - F 0)) <= M * h ^ 2 * y / 12).
  { assert (Tr := trapz_step F f g d x y M ltac:(lra)).
    assert (Tr' : Rabs ((y - x) * (f y + f x) / 2 - (F y - F x)) <= M * (y - x) ^ 3 / 12)
      by (apply Tr; intros s Hs; try apply DF; try apply Df; try apply Dg; try apply Hd; lra).
    replace (acc + (y - x) * (f y + f x) / 2 - (F y - F 0))
      with ((acc - (F x - F 0)) + ((y - x) * (f y + f x) / 2 - (F y - F x))) by ring.
    eapply Rle_trans; [apply Rabs_triang|].
    assert ((y - x) ^ 3 <= h ^ 2 * (y - x)).
    { assert (0 <= y - x <= h) by lra. simpl. rewrite !Rmult_1_r.
      assert ((y - x) * (y - x) <= h * h) by nra. nra. }
    assert (M * (y - x) ^ 3 <= M * (h ^ 2 * (y - x))) by (apply Rmult_le_compat_l; lra).
    lra. }
  destruct k as [|k].
  - simpl. split; [lra|]. exact St.
  - simpl map. cbn [cumtrapz_from nth]. apply IH; auto; [lra|simpl in Hk; lia].
Qed.

Lemma cumtrapz_err : forall (F f g d : R -> R) T M h ts, 0 <= M ->
  (forall s : R, 0 <= s <= T -> is_derive F s (f s)) ->
  (forall s : R, 0 <= s <= T -> is_derive f s (g s)) ->
  (forall s : R, 0 <= s <= T -> is_derive g s (d s)) ->
  (forall s : R, 0 <= s <= T -> Rabs (d s) <= M) ->
  grid h 0 ts -> Forall (fun t => t <= T) (0 :: ts) ->
    forall k, (k < S (List.length ts))%nat ->
      0 <= nth k (0 :: ts) 0 /\
      Rabs (nth k (cumtrapz (map f (0 :: ts)) (0 :: ts)) 0 - (F (nth k (0 :: ts) 0) - F 0))
      <= M * h ^ 2 * nth k (0 :: ts) 0 / 12.
Proof.
  intros F f g d T M h ts HM DF Df Dg Hd G Ft k Hk. inversion Ft; subst.
  destruct k as [|k].
  - simpl. split; [lra|]. replace (0 - (F 0 - F 0)) with 0 by ring. rewrite Rabs_R0. lra.
  - cbn [map cumtrapz nth].
    apply (cumtrapz_from_err F f g d T M h HM DF Df Dg Hd ts 0 0); auto; try lra; try lia.
    replace (0 - (F 0 - F 0)) with 0 by ring. rewrite Rabs_R0. lra.
Qed.

Lemma cos_lipschitz : forall x y, Rabs (cos x - cos y) <= Rabs (x - y).
Proof.
  assert (P : forall x y, x <= y -> Rabs (cos y - cos x) <= y - x).
  { intros x y H. destruct (Req_dec x y) as [->|].
    - replace (cos y - cos y) with 0 by ring. rewrite Rabs_R0. lra.
    - destruct (MVT_gen cos x y (fun c => - sin c)) as (c & _ & E).
      + intros c _. auto_derive; [auto|ring].
      + intros c _. apply continuity_cos.
      + rewrite E, Rabs_mult, Rabs_Ropp, (Rabs_right (y - x)) by lra.
        pose proof (SIN_bound c). assert (Rabs (sin c) <= 1) by (apply Rabs_le; lra). nra. }
  intros x y. destruct (Rle_lt_dec x y) as [H|H].
  - specialize (P x y H). rewrite (Rabs_minus_sym (cos x)), (Rabs_minus_sym x), (Rabs_right (y - x)) by lra. exact P.
  - specialize (P y x ltac:(lra)). rewrite (Rabs_right (x - y)) by lra. exact P.
Qed.
