(** Lemmas about python slices and indexing. *)
From Coq Require Import List ZArith Bool Lia.
Import ListNotations.
From Verif Require Import Base Py.
Local Open Scope Z_scope.

Lemma zlen_nonneg : forall A (l : list A), 0 <= zlen l.
Proof. unfold zlen; lia. Qed.

Lemma zlen_app : forall A (l l' : list A), zlen (l ++ l') = zlen l + zlen l'.
Proof. intros. unfold zlen. rewrite app_length. lia. Qed.

Lemma zlen_repeat : forall A (v : A) n, zlen (repeat v n) = Z.of_nat n.
Proof. intros. unfold zlen. now rewrite repeat_length. Qed.

Lemma slice_bound_pos : forall n i, 0 <= i <= n -> slice_bound n i = i.
Proof. intros. unfold slice_bound. destruct (Z.ltb_spec i 0); lia. Qed.

Lemma slice_bound_neg : forall n i, 0 < i <= n -> slice_bound n (- i) = n - i.
Proof. intros. unfold slice_bound. destruct (Z.ltb_spec (- i) 0); lia. Qed.

Lemma slice_length : forall A lo hi (l : list A),
  List.length (slice lo hi l) =
  (hi_bound (zlen l) hi - lo_bound (zlen l) lo)%nat.
Proof.
  intros. unfold slice. rewrite firstn_length, skipn_length.
  assert (hi_bound (zlen l) hi <= List.length l)%nat; [|lia].
  unfold hi_bound, zlen, slice_bound.
  destruct hi as [i|]; [destruct (Z.ltb_spec i 0)|]; lia.
Qed.

Lemma nth_firstn_lt : forall A (d : A) n i l, (i < n)%nat ->
  nth i (firstn n l) d = nth i l d.
Proof.
  induction n; intros i l H; [lia|]. destruct l; [now destruct i|].
  destruct i; simpl; auto. apply IHn. lia.
Qed.

Lemma nth_skipn_add : forall A (d : A) n i l, nth i (skipn n l) d = nth (n + i) l d.
Proof.
  induction n; intros; simpl; auto. destruct l; [now destruct i|]. apply IHn.
Qed.

Lemma slice_nth : forall A (d : A) lo hi l i,
  (i < List.length (slice lo hi l))%nat ->
  nth i (slice lo hi l) d = nth (lo_bound (zlen l) lo + i) l d.
Proof.
  intros. rewrite slice_length in H. unfold slice.
  rewrite nth_firstn_lt by lia. apply nth_skipn_add.
Qed.

Lemma nth_combine : forall A B (da : A) (db : B) l l' i,
  (i < List.length l)%nat -> (i < List.length l')%nat ->
  nth i (combine l l') (da, db) = (nth i l da, nth i l' db).
Proof.
  induction l; intros l' i H H'; destruct l'; simpl in *; try lia.
  destruct i; auto. apply IHl; lia.
Qed.

Lemma nth_map_lt : forall A B (f : A -> B) (da : A) (db : B) l i,
  (i < List.length l)%nat -> nth i (map f l) db = f (nth i l da).
Proof.
  induction l; intros i H; simpl in *; [lia|]. destruct i; auto. apply IHl. lia.
Qed.

Lemma nth_ge : forall A (d : A) l i, (List.length l <= i)%nat -> nth i l d = d.
Proof. intros. now apply nth_overflow. Qed.

Lemma getitem_ok : forall A (d : A) l i, 0 <= i < zlen l ->
  getitem l i = Ok (nth (Z.to_nat i) l d).
Proof.
  intros A d l i H. unfold getitem. unfold zlen in *.
  destruct (Z.ltb_spec i 0); [lia|].
  destruct (Z.leb_spec 0 i); [|lia]. destruct (Z.ltb_spec i (Z.of_nat (List.length l))); [|lia].
  simpl. rewrite (nth_error_nth' l d) by lia. reflexivity.
Qed.

Lemma mapM_ok : forall A B (f : A -> res B) l l',
  Forall2 (fun x y => f x = Ok y) l l' -> mapM f l = Ok l'.
Proof. induction 1; simpl; auto. rewrite H. simpl. rewrite IHForall2. reflexivity. Qed.

Lemma mapM_inv : forall A B (f : A -> res B) l l',
  mapM f l = Ok l' -> Forall2 (fun x y => f x = Ok y) l l'.
Proof.
  induction l; simpl; intros l' H. { inversion H. constructor. }
  destruct (f a) eqn:E; simpl in H; [|discriminate].
  destruct (mapM f l) eqn:E'; simpl in H; [|discriminate].
  inversion H; subst. constructor; auto.
Qed.

Lemma set_slice_exact : forall A lo hi (src l : list A) a b,
  lo_bound (zlen l) lo = a -> hi_bound (zlen l) hi = b -> (a <= b)%nat ->
  List.length src = (b - a)%nat ->
  set_slice lo hi src l = Ok (firstn a l ++ src ++ skipn b l).
Proof.
  intros. unfold set_slice. rewrite H, H0, H2, Nat.eqb_refl.
  now rewrite Nat.max_r by lia.
Qed.

Lemma firstn_repeat : forall A (v : A) n m,
  firstn n (repeat v m) = repeat v (Nat.min n m).
Proof.
  induction n; intros; simpl; auto. destruct m; simpl; auto. now rewrite IHn.
Qed.
Lemma skipn_repeat : forall A (v : A) n m,
  skipn n (repeat v m) = repeat v (m - n).
Proof.
  induction n; intros; simpl. { now rewrite Nat.sub_0_r. }
  destruct m; simpl; auto.
Qed.
