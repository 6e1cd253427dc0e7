(** Sums over lists of real numbers. *)
From Coq Require Import List Reals Lra Lia Permutation ZArith.
Import ListNotations.
Local Open Scope R_scope.

(** [np.sum]. *)
Definition rsum (l : list R) : R := fold_right Rplus 0 l.

Lemma rsum_app : forall l l', rsum (l ++ l') = rsum l + rsum l'.
Proof. induction l; intros; simpl; [lra|]. rewrite IHl. lra. Qed.

Lemma rsum_perm : forall l l', Permutation l l' -> rsum l = rsum l'.
Proof. induction 1; simpl; lra. Qed.

Lemma rsum_scale : forall c l, rsum (map (fun v => c * v) l) = c * rsum l.
Proof. induction l; simpl; [lra|]. rewrite IHl. lra. Qed.

Lemma rsum_map_ext : forall A (f g : A -> R) l,
  (forall x, In x l -> f x = g x) -> rsum (map f l) = rsum (map g l).
Proof.
  induction l; intros H; simpl; auto. rewrite H by (simpl; auto).
  rewrite IHl; auto. intros; apply H; simpl; auto.
Qed.

Lemma rsum_map_plus : forall A (f g : A -> R) l,
  rsum (map (fun x => f x + g x) l) = rsum (map f l) + rsum (map g l).
Proof. induction l; simpl; [lra|]. rewrite IHl. lra. Qed.

Lemma rsum_map_scale : forall A c (f : A -> R) l,
  rsum (map (fun x => c * f x) l) = c * rsum (map f l).
Proof. induction l; simpl; [lra|]. rewrite IHl. lra. Qed.

Lemma rsum_zero : forall A (f : A -> R) l,
  (forall x, In x l -> f x = 0) -> rsum (map f l) = 0.
Proof.
  induction l; intros H; simpl; auto. rewrite H by (simpl; auto).
  rewrite IHl; [lra|]. intros; apply H; simpl; auto.
Qed.

Lemma rsum_nonneg : forall A (f : A -> R) l,
  (forall x, In x l -> 0 <= f x) -> 0 <= rsum (map f l).
Proof.
  induction l; intros H; simpl; [lra|].
  pose proof (H a (or_introl eq_refl)).
  assert (0 <= rsum (map f l)) by (apply IHl; intros; apply H; simpl; auto). lra.
Qed.

Lemma rsum_le : forall A (f g : A -> R) l,
  (forall x, In x l -> f x <= g x) -> rsum (map f l) <= rsum (map g l).
Proof.
  induction l; intros H; simpl; [lra|].
  pose proof (H a (or_introl eq_refl)).
  assert (rsum (map f l) <= rsum (map g l)) by (apply IHl; intros; apply H; simpl; auto). lra.
Qed.

Lemma rsum_abs : forall A (f : A -> R) l,
  Rabs (rsum (map f l)) <= rsum (map (fun x => Rabs (f x)) l).
Proof.
  induction l; simpl; [rewrite Rabs_R0; lra|].
  eapply Rle_trans; [apply Rabs_triang|]. lra.
Qed.

(** [wsum g o l] is the sum of [l_j * g (o + j)]. *)
Fixpoint wsum (g : Z -> R) (o : Z) (l : list R) : R :=
  match l with
  | [] => 0
  | v :: l' => v * g o + wsum g (o + 1)%Z l'
  end.

Lemma wsum_app : forall g l l' o,
  wsum g o (l ++ l') = wsum g o l + wsum g (o + Z.of_nat (length l))%Z l'.
Proof.
  induction l; intros; simpl length; cbn [wsum app].
  - rewrite Z.add_0_r. lra.
  - rewrite IHl. replace (o + 1 + Z.of_nat (length l))%Z
      with (o + Z.of_nat (S (length l)))%Z by lia. lra.
Qed.

Lemma wsum_repeat0 : forall g n o, wsum g o (repeat 0 n) = 0.
Proof. induction n; intros; simpl; [lra|]. rewrite IHn. lra. Qed.

Lemma wsum_shift : forall g h l o o',
  (forall j, (0 <= j < Z.of_nat (length l))%Z -> g (o + j)%Z = h (o' + j)%Z) ->
  wsum g o l = wsum h o' l.
Proof.
  induction l; intros o o' H; simpl; auto.
  f_equal.
  - f_equal. specialize (H 0%Z). rewrite !Z.add_0_r in H. apply H. simpl. lia.
  - apply IHl. intros j Hj. rewrite <- !Z.add_assoc. apply H. simpl length. lia.
Qed.

Lemma wsum_seq : forall g l o,
  wsum g o l =
  rsum (map (fun i => nth i l 0 * g (o + Z.of_nat i)%Z) (seq 0 (length l))).
Proof.
  induction l; intros; simpl; auto. rewrite <- seq_shift, map_map, IHl.
  f_equal; [now rewrite Z.add_0_r|]. apply rsum_map_ext. intros i _.
  replace (o + Z.of_nat (S i))%Z with (o + 1 + Z.of_nat i)%Z by lia. reflexivity.
Qed.

Lemma wsum_rev : forall g l o,
  wsum g o (rev l) = wsum (fun z => g (2 * o + Z.of_nat (length l) - 1 - z)%Z) o l.
Proof.
  induction l; intros; cbn [rev wsum length]; auto.
  rewrite wsum_app, IHl, rev_length. cbn [wsum].
  rewrite Rplus_0_r, Rplus_comm. f_equal.
  - f_equal. f_equal. lia.
  - apply wsum_shift. intros j Hj. f_equal. lia.
Qed.

Lemma wsum_opp : forall g l o, wsum (fun z => - g z) o l = - wsum g o l.
Proof. induction l; intros; simpl; [lra|]. rewrite IHl. lra. Qed.
