(** General facts about lists used by several proofs. *)
From Coq Require Import List Arith ZArith QArith Lia Bool Permutation.
Import ListNotations.
From Verif Require Import Base.

Lemma upd_length : forall A (l : list A) i a, length (upd i a l) = length l.
Proof. induction l; destruct i; simpl; intros; auto. Qed.

Lemma nth_upd_eq : forall A (l : list A) i a d,
  (i < length l)%nat -> nth i (upd i a l) d = a.
Proof. induction l; destruct i; simpl; intros; try lia; auto. apply IHl; lia. Qed.

Lemma nth_upd_neq : forall A (l : list A) i j a d,
  i <> j -> nth j (upd i a l) d = nth j l d.
Proof.
  induction l; destruct i; destruct j; simpl; intros; try congruence; auto.
Qed.

Lemma upd_app_mid : forall A (l1 l2 : list A) x a,
  upd (length l1) a (l1 ++ x :: l2) = l1 ++ a :: l2.
Proof. induction l1; simpl; intros; congruence. Qed.

Lemma upd_split : forall A (l : list A) i a d, (i < length l)%nat ->
  exists l1 l2, l = l1 ++ nth i l d :: l2 /\ upd i a l = l1 ++ a :: l2
                /\ length l1 = i.
Proof.
  induction l; destruct i; simpl; intros; try lia.
  - exists [], l; auto.
  - destruct (IHl i a0 d) as (l1 & l2 & E1 & E2 & E3); [lia|].
    exists (a :: l1), l2. simpl. rewrite E2, E3. split; [congruence|auto].
Qed.

Lemma remove_nth_app : forall A (l1 l2 : list A) x,
  remove_nth (length l1) (l1 ++ x :: l2) = l1 ++ l2.
Proof. induction l1; simpl; intros; congruence. Qed.

Lemma nth_repeat_lt : forall A (a d : A) n i, (i < n)%nat -> nth i (repeat a n) d = a.
Proof. induction n; destruct i; simpl; intros; try lia; auto. apply IHn; lia. Qed.

Lemma foldM_app : forall A B (f : B -> A -> res B) l1 l2 b,
  foldM f b (l1 ++ l2) = bind (foldM f b l1) (fun b' => foldM f b' l2).
Proof.
  induction l1; simpl; intros; auto.
  destruct (f b a); simpl; auto.
Qed.

Lemma foldM_ok_ind : forall A B (f : B -> A -> res B) (P : B -> Prop) l b b',
  P b -> (forall x a y, In a l -> P x -> f x a = Ok y -> P y) ->
  foldM f b l = Ok b' -> P b'.
Proof.
  induction l; simpl; intros.
  - congruence.
  - destruct (f b a) eqn:E; try discriminate.
    eapply IHl; [| |eassumption]; eauto.
Qed.

Lemma filter_ext_In : forall A (f g : A -> bool) l,
  (forall a, In a l -> f a = g a) -> filter f l = filter g l.
Proof.
  induction l; simpl; intros; auto.
  rewrite H by auto. rewrite IHl; auto.
Qed.

Lemma filter_rev : forall A (f : A -> bool) l, filter f (rev l) = rev (filter f l).
Proof.
  induction l; simpl; auto.
  rewrite filter_app, IHl. simpl. destruct (f a); simpl; auto. now rewrite app_nil_r.
Qed.

Lemma filter_map : forall A B (f : B -> bool) (g : A -> B) l,
  filter f (map g l) = map g (filter (fun a => f (g a)) l).
Proof. induction l; simpl; auto. destruct (f (g a)); simpl; congruence. Qed.

Lemma NoDup_filter' : forall A (f : A -> bool) l, NoDup l -> NoDup (filter f l).
Proof. intros; now apply NoDup_filter. Qed.

Lemma seq_S_last : forall n, seq 0 (S n) = seq 0 n ++ [n].
Proof. intros. rewrite seq_S. reflexivity. Qed.

Lemma map_nth_seq : forall A (l : list A) d,
  map (fun i => nth i l d) (seq 0 (length l)) = l.
Proof.
  intros. apply nth_ext with (d := d) (d' := d).
  - now rewrite map_length, seq_length.
  - intros n Hn. rewrite map_length, seq_length in Hn.
    rewrite nth_indep with (d' := nth 0 l d) by now rewrite map_length, seq_length.
    rewrite map_nth with (f := fun i => nth i l d). now rewrite seq_nth.
Qed.

Lemma Forall2_length' : forall A B (R : A -> B -> Prop) l l',
  Forall2 R l l' -> length l = length l'.
Proof. induction 1; simpl; congruence. Qed.

Lemma Forall2_impl' : forall A B (R S : A -> B -> Prop) l l',
  (forall a b, R a b -> S a b) -> Forall2 R l l' -> Forall2 S l l'.
Proof. induction 2; constructor; auto. Qed.

Lemma Forall2_app_l : forall A B (R : A -> B -> Prop) l1 l2 l',
  Forall2 R (l1 ++ l2) l' ->
  exists l1' l2', l' = l1' ++ l2' /\ Forall2 R l1 l1' /\ Forall2 R l2 l2'.
Proof.
  intros. apply Forall2_app_inv_l in H. destruct H as (a & b & H1 & H2 & H3).
  exists a, b; auto.
Qed.

Lemma skipn_length_app : forall A (l1 l2 : list A), skipn (length l1) (l1 ++ l2) = l2.
Proof. induction l1; simpl; auto. Qed.

Lemma firstn_length_app : forall A (l1 l2 : list A), firstn (length l1) (l1 ++ l2) = l1.
Proof. induction l1; simpl; intros; congruence. Qed.

Lemma last_nth : forall A (l : list A) d, last l d = nth (length l - 1) l d.
Proof.
  induction l; simpl; auto. intros. rewrite IHl. destruct l; simpl; auto.
  now rewrite Nat.sub_0_r.
Qed.

Lemma Qltb_true : forall x y, Qltb x y = true <-> (x < y)%Q.
Proof.
  unfold Qltb. intros. rewrite negb_true_iff. split; intro.
  - apply Qnot_le_lt. intro. apply Qle_bool_iff in H0. congruence.
  - destruct (Qle_bool y x) eqn:E; auto. apply Qle_bool_iff in E.
    exfalso. eapply Qlt_not_le; eauto.
Qed.

Lemma Qltb_false : forall x y, Qltb x y = false <-> (y <= x)%Q.
Proof.
  intros. split; intro.
  - destruct (Qlt_le_dec x y); auto. apply Qltb_true in q. congruence.
  - destruct (Qltb x y) eqn:E; auto. apply Qltb_true in E.
    exfalso. eapply Qlt_not_le; eauto.
Qed.
