(** Lemmas for [Bank_Props]. *)
From Coq Require Import List Bool ZArith Reals Lra Lia Sorted.
Import ListNotations.
From Verif Require Import Base Py PyLemmas ListLemmas RLists Np_Model Np_Lemmas Dsp_Model
  Dsp_Proofs Sample_Model Bank_Model.
Local Open Scope R_scope.

Lemma Rceil_spec : forall x, x <= IZR (Rceil x) < x + 1.
Proof.
  intro x. unfold Rceil. rewrite minus_IZR. pose proof (archimed (- x)). lra.
Qed.

(** ** Triangles *)

Definition tri (l c r x : R) : R := Rmax 0 (Rmin ((x - l) / (c - l)) ((r - x) / (r - c))).

Lemma div_le_1 : forall a b, 0 < b -> a <= b -> a / b <= 1.
Proof. intros a b Hb H. apply (Rmult_le_reg_r b); auto. field_simplify; lra. Qed.
Lemma div_nonneg : forall a b, 0 < b -> 0 <= a -> 0 <= a / b.
Proof. intros a b Hb H. apply Rmult_le_pos; auto. left. now apply Rinv_0_lt_compat. Qed.
Lemma div_nonpos : forall a b, 0 < b -> a <= 0 -> a / b <= 0.
Proof. intros a b Hb H. replace (a / b) with (- ((- a) / b)) by (field; lra).
  pose proof (div_nonneg (- a) b Hb). lra. Qed.
Lemma div_ge_1 : forall a b, 0 < b -> b <= a -> 1 <= a / b.
Proof. intros a b Hb H. apply (Rmult_le_reg_r b); auto. field_simplify; lra. Qed.

Lemma tri_left : forall l c r x, l < c < r -> x <= l -> tri l c r x = 0.
Proof.
  intros. unfold tri. apply Rmax_left. eapply Rle_trans; [apply Rmin_l|]. apply div_nonpos; lra.
Qed.
Lemma tri_right : forall l c r x, l < c < r -> r <= x -> tri l c r x = 0.
Proof.
  intros. unfold tri. apply Rmax_left. eapply Rle_trans; [apply Rmin_r|]. apply div_nonpos; lra.
Qed.
Lemma tri_up : forall l c r x, l < c < r -> l <= x <= c -> tri l c r x = (x - l) / (c - l).
Proof.
  intros l c r x H Hx. unfold tri. rewrite Rmin_left.
  - apply Rmax_right. apply div_nonneg; lra.
  - eapply Rle_trans; [apply div_le_1; lra|]. apply div_ge_1; lra.
Qed.
Lemma tri_down : forall l c r x, l < c < r -> c <= x <= r -> tri l c r x = (r - x) / (r - c).
Proof.
  intros l c r x H Hx. unfold tri. rewrite Rmin_right.
  - apply Rmax_right. apply div_nonneg; lra.
  - eapply Rle_trans; [apply div_le_1; lra|]. apply div_ge_1; lra.
Qed.

Lemma interp3_tri : forall l c r x, l < c < r -> interp3 l c r x = tri l c r x.
Proof.
  intros l c r x H. unfold interp3.
  destruct (Rlt_dec r x); [rewrite tri_right; lra|].
  destruct (Rlt_dec x l); [rewrite tri_left; lra|].
  destruct (Rlt_dec x c).
  - rewrite tri_up by lra. destruct (Req_EM_T l x) as [->|]; [field; lra|]. field. lra.
  - destruct (Rlt_dec x r).
    + rewrite tri_down by lra. destruct (Req_EM_T c x) as [->|]; field; lra.
    + rewrite tri_right by lra. reflexivity.
Qed.

Lemma tri_range : forall l c r x, l < c < r -> 0 <= tri l c r x <= 1.
Proof.
  intros l c r x H. split; [apply Rmax_l|].
  destruct (Rle_lt_dec x l); [rewrite tri_left; lra|].
  destruct (Rle_lt_dec r x); [rewrite tri_right; lra|].
  destruct (Rle_lt_dec x c).
  - rewrite tri_up by lra. apply div_le_1; lra.
  - rewrite tri_down by lra. apply div_le_1; lra.
Qed.
Lemma tri_nonzero : forall l c r x, l < c < r -> tri l c r x <> 0 -> l < x < r.
Proof.
  intros l c r x H N. split.
  - destruct (Rle_lt_dec x l) as [L|L]; auto. elim N. now apply tri_left.
  - destruct (Rle_lt_dec r x) as [L|L]; auto. elim N. now apply tri_right.
Qed.

(** ** Sum of overlapping triangles *)

Fixpoint tris (l : list R) (x : R) : list R :=
  match l with
  | a :: ((b :: c :: _) as l') => tri a b c x :: tris l' x
  | _ => []
  end.
Definition last2 (l : list R) : R := nth (List.length l - 2) l 0.

Lemma tris_before : forall l x, StronglySorted Rlt l -> x <= hd 0 l -> rsum (tris l x) = 0.
Proof.
  induction l as [|a l IH]; intros x S H; [reflexivity|].
  destruct l as [|b [|c l]]; try reflexivity.
  inversion_clear S as [|? ? S' F]. inversion_clear S' as [|? ? S'' F'].
  inversion_clear F as [|? ? Hab _]. inversion_clear F' as [|? ? Hbc _].
  change (rsum (tris (a :: b :: c :: l) x)) with (tri a b c x + rsum (tris (b :: c :: l) x)).
  simpl in H. rewrite tri_left by lra. rewrite IH; [lra| |simpl; lra].
  constructor; auto. constructor; auto. inversion S''; subst. eapply Forall_impl; [|eassumption]. intros; simpl in *; lra.
Qed.
Lemma tris_first : forall a b c l x, StronglySorted Rlt (a :: b :: c :: l) -> a <= x <= b ->
  rsum (tris (a :: b :: c :: l) x) = (x - a) / (b - a).
Proof.
  intros a b c l x S H. inversion_clear S as [|? ? S' F]. inversion_clear F as [|? ? Hab _].
  inversion S' as [|? ? S'' F']; subst. inversion_clear F' as [|? ? Hbc _].
  change (rsum (tris (a :: b :: c :: l) x)) with (tri a b c x + rsum (tris (b :: c :: l) x)).
  rewrite tri_up by lra. rewrite tris_before; auto; simpl; lra.
Qed.
Lemma tris_one : forall l a b x, StronglySorted Rlt (a :: b :: l) -> l <> [] ->
  b <= x <= last2 (a :: b :: l) -> rsum (tris (a :: b :: l) x) = 1.
Proof.
  induction l as [|c l IH]; intros a b x S Hl Hx; [congruence|].
  inversion S as [|? ? S' F]; subst. inversion F as [|? ? Hab F2]; subst.
  inversion S' as [|? ? S'' F']; subst. inversion F' as [|? ? Hbc _]; subst.
  change (rsum (tris (a :: b :: c :: l) x)) with (tri a b c x + rsum (tris (b :: c :: l) x)).
  destruct l as [|d l].
  - unfold last2 in Hx. simpl in Hx. replace x with b by lra. rewrite tri_up by lra. simpl. field. lra.
  - destruct (Rle_lt_dec x c) as [L|L].
    + rewrite tri_down by lra. rewrite tris_first by (auto; lra). field. lra.
    + rewrite tri_right by lra. rewrite Rplus_0_l. apply IH; [exact S'|discriminate|]. split; [lra|].
      destruct Hx as [_ Hx]. unfold last2 in *. simpl in *. exact Hx.
Qed.

Lemma tris_nth : forall l x i, (i < List.length l - 2)%nat ->
  nth i (tris l x) 0 = tri (nth i l 0) (nth (i + 1) l 0) (nth (i + 2) l 0) x.
Proof.
  induction l as [|a l IH]; intros x i H; [simpl in H; lia|].
  destruct l as [|b [|c l]]; simpl in H; try lia.
  destruct i as [|i]; [reflexivity|].
  change (nth (S i) (tris (a :: b :: c :: l) x) 0) with (nth i (tris (b :: c :: l) x) 0).
  rewrite IH by (simpl; lia). reflexivity.
Qed.
Lemma tris_length : forall l x, List.length (tris l x) = (List.length l - 2)%nat.
Proof.
  induction l as [|a l IH]; intro x; [reflexivity|].
  destruct l as [|b [|c l]]; try reflexivity.
  change (List.length (tris (a :: b :: c :: l) x)) with (S (List.length (tris (b :: c :: l) x))).
  rewrite IH. simpl. lia.
Qed.
Lemma list_eq_nth : forall A (d : A) l l', List.length l = List.length l' ->
  (forall i, (i < List.length l)%nat -> nth i l d = nth i l' d) -> l = l'.
Proof.
  intros A d. induction l as [|a l IH]; intros [|b l'] H E; try discriminate; auto. f_equal.
  - exact (E 0%nat ltac:(simpl; lia)).
  - apply IH; [simpl in H; lia|]. intros i Hi. exact (E (S i) ltac:(simpl; lia)).
Qed.

Lemma ssorted_nth : forall l i j, StronglySorted Rlt l -> (i < j < List.length l)%nat ->
  nth i l 0 < nth j l 0.
Proof.
  induction l as [|a l IH]; intros i j S H; [simpl in H; lia|]. inversion_clear S as [|? ? S' F].
  destruct j as [|j]; [lia|]. destruct i as [|i]; simpl.
  - rewrite Forall_forall in F. apply F, nth_In. simpl in H. lia.
  - apply IH; auto. simpl in H. lia.
Qed.
Lemma ssorted_of_nth : forall l,
  (forall i j, (i < j < List.length l)%nat -> nth i l 0 < nth j l 0) -> StronglySorted Rlt l.
Proof.
  induction l as [|a l IH]; intro H; constructor.
  - apply IH. intros i j Hij. apply (H (S i) (S j)). simpl. lia.
  - apply Forall_forall. intros v Hv. destruct (In_nth l v 0 Hv) as (k & Hk & <-).
    apply (H 0%nat (S k)). simpl. lia.
Qed.

Lemma mapM_seq_ok : forall A (f : nat -> res A) (g : nat -> A) n,
  (forall i, (i < n)%nat -> f i = Ok (g i)) -> mapM f (seq 0 n) = Ok (map g (seq 0 n)).
Proof.
  intros A f g n H. assert (G : forall l, (forall i, In i l -> f i = Ok (g i)) -> mapM f l = Ok (map g l)).
  { induction l as [|i l IH]; intro E; [reflexivity|]. simpl. rewrite E by (simpl; auto). cbn [bind].
    rewrite IH; [reflexivity|]. intros; apply E; simpl; auto. }
  apply G. intros i Hi. apply in_seq in Hi. apply H. lia.
Qed.

Lemma slice_2 : forall (l : list R), (2 <= List.length l)%nat ->
  List.length (slice None (Some (-2)%Z) l) = (List.length l - 2)%nat /\
  List.length (slice (Some 1%Z) (Some (-1)%Z) l) = (List.length l - 2)%nat /\
  List.length (slice (Some 2%Z) None l) = (List.length l - 2)%nat /\
  forall i, (i < List.length l - 2)%nat ->
    nth i (slice None (Some (-2)%Z) l) 0 = nth i l 0 /\
    nth i (slice (Some 1%Z) (Some (-1)%Z) l) 0 = nth (i + 1) l 0 /\
    nth i (slice (Some 2%Z) None l) 0 = nth (i + 2) l 0.
Proof.
  intros l H. unfold slice, lo_bound, hi_bound.
  assert (E2 : Z.to_nat (slice_bound (zlen l) (-2)) = (List.length l - 2)%nat)
    by (unfold slice_bound, zlen; cbn [Z.ltb Z.compare]; lia).
  assert (E1 : Z.to_nat (slice_bound (zlen l) (-1)) = (List.length l - 1)%nat)
    by (unfold slice_bound, zlen; cbn [Z.ltb Z.compare]; lia).
  assert (E1' : Z.to_nat (slice_bound (zlen l) 1) = 1%nat) by (unfold slice_bound, zlen; cbn [Z.ltb Z.compare]; lia).
  assert (E2' : Z.to_nat (slice_bound (zlen l) 2) = 2%nat) by (unfold slice_bound, zlen; cbn [Z.ltb Z.compare]; lia).
  assert (En : Z.to_nat (zlen l) = List.length l) by (unfold zlen; lia).
  rewrite E1, E2, E1', E2', En. rewrite !firstn_length, !skipn_length.
  split; [lia|]. split; [lia|]. split; [lia|]. intros i Hi.
  rewrite !nth_firstn_lt by lia. rewrite !nth_skipn_add. repeat split; f_equal; lia.
Qed.

Lemma filterbank_corners : forall freqs flim fwd inv, StronglySorted Rlt flim ->
  (3 <= List.length flim)%nat ->
  mel_triangular_filterbank freqs None None (Some flim) fwd inv =
  Ok (map (fun i => map (tri (nth i flim 0) (nth (i + 1) flim 0) (nth (i + 2) flim 0)) freqs)
          (seq 0 (List.length flim - 2)),
      map (fun i => nth (i + 1) flim 0) (seq 0 (List.length flim - 2))).
Proof.
  intros freqs flim fwd inv S H. unfold mel_triangular_filterbank. cbn [bind].
  destruct (Z.leb_spec (zlen flim - 2) 0) as [L|L]; [unfold zlen in L; lia|].
  destruct (slice_2 flim ltac:(lia)) as (L1 & L2 & L3 & N).
  replace (Z.to_nat (zlen flim - 2)) with (List.length flim - 2)%nat by (unfold zlen; lia).
  rewrite (mapM_seq_ok _ _ (fun i => map (tri (nth i flim 0) (nth (i + 1) flim 0) (nth (i + 2) flim 0)) freqs)).
  - cbn [bind]. f_equal. f_equal. apply (list_eq_nth _ 0).
    + rewrite L2, map_length, seq_length. reflexivity.
    + intros i Hi. rewrite L2 in Hi. destruct (N i Hi) as (_ & -> & _).
      rewrite (nth_map_lt _ _ _ 0%nat) by (rewrite seq_length; lia). rewrite seq_nth by lia. reflexivity.
  - intros i Hi. destruct (N i Hi) as (E1 & E2 & E3).
    rewrite (getitem_ok _ 0) by (unfold zlen; rewrite L1; lia). cbn [bind].
    rewrite (getitem_ok _ 0) by (unfold zlen; rewrite L2; lia). cbn [bind].
    rewrite (getitem_ok _ 0) by (unfold zlen; rewrite L3; lia). cbn [bind].
    rewrite !Nat2Z.id, E1, E2, E3. f_equal. apply map_ext. intro x. apply interp3_tri.
    split; apply ssorted_nth; auto; lia.
Qed.

(** ** Equally spaced points *)

Lemma linspace_ok : forall a b n, (2 <= n)%Z ->
  exists l, linspace a b n = Ok l /\ List.length l = Z.to_nat n /\
    forall i, (i < Z.to_nat n)%nat -> nth i l 0 = a + INR i * ((b - a) / IZR (n - 1)).
Proof.
  intros a b n H. unfold linspace. destruct (Z.ltb_spec n 0); [lia|]. eexists. split; [reflexivity|].
  rewrite map_length, seq_length. split; [reflexivity|]. intros i Hi.
  rewrite (nth_map_lt _ _ _ 0%nat) by (rewrite seq_length; lia). rewrite seq_nth by lia. reflexivity.
Qed.
