(** Lemmas for the residuals of the beat regressions. *)
From Coquelicot Require Import Coquelicot.
From Coq Require Import String List Bool ZArith Reals Lra Lia Permutation Sorted.
Import ListNotations.
From Verif Require Import Base Py PyLemmas ListLemmas RLists Np_Model Np_Lemmas Dsp_Model Dsp_Proofs Sample_Model
  Psycho_Model Psycho_Proofs Bank_Model Bank_Proofs Beat_Model Beat_Proofs Beat_Props Gamma_Model Resid_Model.
Local Open Scope R_scope.

(** ** Interpolation *)

Lemma interp_from_grid : forall fs (e : nat -> R) t, 0 < fs -> forall n k, INR k / fs <= t ->
  let v := interp_from (INR k / fs) (e k) (map (fun i => INR i / fs) (seq (S k) n)) (map e (seq (S k) n)) t in
  (INR (k + n) / fs <= t -> v = e (k + n)%nat) /\
  (forall j, (k <= j)%nat -> (j + 1 <= k + n)%nat -> INR j / fs <= t <= INR (j + 1) / fs ->
     v = e j + (t * fs - INR j) * (e (j + 1)%nat - e j)).
Proof.
  intros fs e t Hf.
  assert (Le : forall i j, (i <= j)%nat -> INR i / fs <= INR j / fs).
  { intros i j H. apply le_INR in H. apply Rmult_le_compat_r; [|exact H].
    apply Rlt_le, Rinv_0_lt_compat, Hf. }
  induction n as [|n IH]; intros k Hk; cbv zeta; cbn [seq map interp_from].
  - rewrite Nat.add_0_r. split; [reflexivity|]. intros j H1 H2. lia.
  - destruct (Rlt_dec t (INR (S k) / fs)) as [Ht|Ht].
    + split.
      * intros H. specialize (Le (S k) (k + S n)%nat ltac:(lia)). lra.
      * intros j H1 H2 H3. assert (j = k).
        { destruct (Nat.eq_dec j k) as [|Hne]; [auto|]. specialize (Le (S k) j ltac:(lia)). lra. }
        subst j. replace (k + 1)%nat with (S k) by lia. rewrite S_INR. field. lra.
    + apply Rnot_lt_le in Ht. destruct (IH (S k) Ht) as [I1 I2]. split.
      * intros H. replace (k + S n)%nat with (S k + n)%nat in * by lia. apply I1, H.
      * intros j H1 H2 H3. destruct (Nat.eq_dec j k) as [->|Hne]; [|apply I2; [lia|lia|exact H3]].
        replace (k + 1)%nat with (S k) in * by lia.
        assert (E : t = INR (S k) / fs) by lra.
        assert (V : interp_from (INR (S k) / fs) (e (S k)) (map (fun i => INR i / fs) (seq (S (S k)) n)) (map e (seq (S (S k)) n)) t = e (S k)).
        { destruct n as [|n']; [reflexivity|].
          rewrite (I2 (S k)); [|lia|lia|].
          - rewrite E. replace (INR (S k) / fs * fs - INR (S k)) with 0 by (field; lra). ring.
          - split; [lra|]. rewrite E. apply Le. lia. }
        rewrite V. rewrite E, S_INR. field. lra.
Qed.

(** The interpolated values on the axis of the model. *)
Lemma interp_grid : forall fs (e : R -> R) N t, 0 < fs ->
  exists v, interp (map (fun i => INR i / fs) (seq 0 (S N))) (map e (map (fun i => INR i / fs) (seq 0 (S N)))) t = Ok v /\
  (t <= 0 -> v = e 0) /\
  (INR N / fs <= t -> v = e (INR N / fs)) /\
  (forall j, (j < N)%nat -> INR j / fs <= t <= INR (S j) / fs ->
     v = e (INR j / fs) + (t * fs - INR j) * (e (INR (S j) / fs) - e (INR j / fs))).
Proof.
  intros fs e N t Hf. rewrite map_map. cbn [seq map interp].
  assert (Z0 : INR 0 / fs = 0) by (simpl; field; lra).
  eexists. split; [reflexivity|]. destruct (Rlt_dec t (INR 0 / fs)) as [Ht|Ht].
  - rewrite Z0 in *. split; [reflexivity|].
    assert (P : forall i, 0 <= INR i / fs).
    { intros i. apply Rmult_le_pos; [apply pos_INR|apply Rlt_le, Rinv_0_lt_compat, Hf]. }
    split; [intros H; specialize (P N); lra|]. intros j _ [H _]. specialize (P j). lra.
  - apply Rnot_lt_le in Ht.
    destruct (interp_from_grid fs (fun i => e (INR i / fs)) t Hf N 0 Ht) as [I1 I2]. cbv zeta in I1, I2.
    rewrite Z0 in *. split; [|split].
    + intros H. assert (t = 0) by lra. subst t. destruct N as [|N']; [cbn [seq map interp_from]; reflexivity|].
      rewrite (I2 0%nat); [|lia|lia|].
      * rewrite Z0. simpl INR. ring.
      * rewrite Z0. split; [lra|]. apply Rmult_le_pos; [apply pos_INR|apply Rlt_le, Rinv_0_lt_compat, Hf].
    + intros H. cbn [Nat.add] in I1. rewrite I1 by exact H. reflexivity.
    + intros j Hj H. replace (S j) with (j + 1)%nat in * by lia. apply I2; [lia|lia|exact H].
Qed.

(** ** Sorting and quantiles *)

Lemma insert_perm : forall v l, Permutation (v :: l) (insert v l).
Proof.
  intros v l. induction l as [|w l IH]; [apply Permutation_refl|]. cbn [insert].
  destruct (Rle_dec v w); [apply Permutation_refl|].
  eapply perm_trans; [apply perm_swap|]. now apply perm_skip.
Qed.
Lemma sort_perm : forall l, Permutation l (sort l).
Proof.
  intros l. induction l as [|v l IH]; [apply Permutation_refl|]. cbn [sort fold_right]. fold (sort l).
  eapply perm_trans; [apply perm_skip, IH|]. apply insert_perm.
Qed.
Lemma insert_sorted : forall v l, StronglySorted Rle l -> StronglySorted Rle (insert v l).
Proof.
  intros v l H. induction H as [|w l S IH F]; [repeat constructor|]. cbn [insert].
  destruct (Rle_dec v w) as [Hv|Hv].
  - constructor; [constructor; auto|]. constructor; [exact Hv|].
    rewrite Forall_forall in *. intros x Hx. specialize (F x Hx). lra.
  - constructor; [exact IH|]. rewrite Forall_forall in *. intros x Hx.
    apply (Permutation_in _ (Permutation_sym (insert_perm v l))) in Hx. destruct Hx as [<-|Hx]; [lra|auto].
Qed.
Lemma sort_sorted : forall l, StronglySorted Rle (sort l).
Proof.
  intros l. induction l as [|v l IH]; [constructor|]. cbn [sort fold_right]. fold (sort l). now apply insert_sorted.
Qed.
Lemma sort_length : forall l, List.length (sort l) = List.length l.
Proof. intros l. symmetry. apply Permutation_length, sort_perm. Qed.
Lemma sorted_nth : forall l i j, StronglySorted Rle l -> (i <= j)%nat -> (j < List.length l)%nat ->
  nth i l 0 <= nth j l 0.
Proof.
  intros l i j H. revert i j. induction H as [|w l S IH F]; intros i j Hij Hj; [simpl in Hj; lia|].
  destruct j as [|j]; [replace i with 0%nat by lia; lra|]. destruct i as [|i].
  - cbn [nth]. rewrite Forall_forall in F. apply F, nth_In. simpl in Hj. lia.
  - cbn [nth]. apply IH; [lia|simpl in Hj; lia].
Qed.

Lemma Rfloor_spec : forall x, IZR (Rfloor x) <= x < IZR (Rfloor x) + 1.
Proof. intros x. unfold Rfloor. rewrite minus_IZR. destruct (archimed x). lra. Qed.
Lemma Rfloor_eq : forall x z, IZR z <= x < IZR z + 1 -> Rfloor x = z.
Proof.
  intros x z H. pose proof (Rfloor_spec x) as S.
  assert (IZR (Rfloor x) < IZR z + 1 /\ IZR z < IZR (Rfloor x) + 1) as [A B] by lra.
  rewrite <- (plus_IZR z 1) in A. rewrite <- (plus_IZR (Rfloor x) 1) in B. apply lt_IZR in A, B. lia.
Qed.
Lemma Rfloor_nat : forall x, 0 <= x -> IZR (Rfloor x) = INR (Z.to_nat (Rfloor x)).
Proof.
  intros x H. pose proof (Rfloor_spec x) as S.
  assert (0 <= Rfloor x)%Z.
  { assert (-1 < IZR (Rfloor x)) as A by lra. apply lt_IZR in A. lia. }
  rewrite INR_IZR_INZ, Z2Nat.id by auto. reflexivity.
Qed.

(** A quantile lies on the line between the two neighbours of its position. *)
Lemma quantile_spec : forall l q, l <> [] -> 0 <= q <= 1 ->
  exists v, quantile l q = Ok v /\
  forall j g, (j < List.length l)%nat -> 0 <= g < 1 -> INR j + g = q * INR (List.length l - 1) ->
    v = if Nat.eqb (S j) (List.length l) then nth j (sort l) 0
        else (1 - g) * nth j (sort l) 0 + g * nth (S j) (sort l) 0.
Proof.
  intros l q Hl Hq. unfold quantile. destruct l as [|a l']; [congruence|]. set (l := a :: l') in *.
  eexists. split; [reflexivity|]. intros j g Hj Hg E. cbv zeta. rewrite <- E.
  assert (F : Z.to_nat (Rfloor (INR j + g)) = j).
  { rewrite (Rfloor_eq _ (Z.of_nat j)); [apply Nat2Z.id|]. rewrite <- INR_IZR_INZ. lra. }
  rewrite F.
  destruct (Nat.eqb_spec (S j) (List.length l)) as [L|L].
  - rewrite (nth_overflow _ (nth j (sort l) 0)) by (rewrite sort_length; lia). ring.
  - rewrite (nth_indep (sort l) (nth j (sort l) 0) 0) by (rewrite sort_length; lia). ring.
Qed.

(** The position of a quantile. *)
Lemma quantile_pos : forall n q, (0 < n)%nat -> 0 <= q <= 1 ->
  exists j g, (j < n)%nat /\ 0 <= g < 1 /\ INR j + g = q * INR (n - 1).
Proof.
  intros n q Hn Hq. set (pos := q * INR (n - 1)).
  assert (P0 : 0 <= pos) by (apply Rmult_le_pos; [lra|apply pos_INR]).
  exists (Z.to_nat (Rfloor pos)), (pos - IZR (Rfloor pos)). pose proof (Rfloor_spec pos) as S.
  pose proof (Rfloor_nat pos P0) as E. split; [|split; [lra|rewrite <- E; lra]].
  assert (INR (Z.to_nat (Rfloor pos)) <= INR (n - 1)).
  { rewrite <- E. assert (0 <= INR (n - 1)) by apply pos_INR. unfold pos in *. nra. }
  apply INR_le in H. lia.
Qed.

Lemma quantile_bounds : forall l q v, l <> [] -> 0 <= q <= 1 -> quantile l q = Ok v ->
  (forall x, (forall y, In y l -> x <= y) -> x <= v) /\ (forall x, (forall y, In y l -> y <= x) -> v <= x).
Proof.
  intros l q v Hl Hq E. destruct (quantile_spec l q Hl Hq) as (v' & E' & H). rewrite E in E'. injection E' as <-.
  assert (Hn : (0 < List.length l)%nat) by (destruct l; [congruence|simpl; lia]).
  destruct (quantile_pos (List.length l) q Hn Hq) as (j & g & Hj & Hg & EE). rewrite (H j g Hj Hg EE).
  assert (IN : forall i, (i < List.length l)%nat -> In (nth i (sort l) 0) l).
  { intros i Hi. apply (Permutation_in _ (Permutation_sym (sort_perm l))), nth_In. rewrite sort_length. exact Hi. }
  split; intros x Hx; destruct (Nat.eqb_spec (S j) (List.length l)); try (apply Hx, IN; lia);
    pose proof (Hx _ (IN j Hj)); pose proof (Hx _ (IN (S j) ltac:(lia))); nra.
Qed.

(** Quantiles are monotone in the position. *)
Lemma quantile_mono : forall l q q' v v', l <> [] -> 0 <= q -> q <= q' -> q' <= 1 ->
  quantile l q = Ok v -> quantile l q' = Ok v' -> v <= v'.
Proof.
  intros l q q' v v' Hl H0 Hqq H1 E E'.
  destruct (quantile_spec l q Hl ltac:(lra)) as (w & F & H). rewrite E in F. injection F as <-.
  destruct (quantile_spec l q' Hl ltac:(lra)) as (w & F & H'). rewrite E' in F. injection F as <-.
  assert (Hn : (0 < List.length l)%nat) by (destruct l; [congruence|simpl; lia]).
  destruct (quantile_pos (List.length l) q Hn ltac:(lra)) as (j & g & Hj & Hg & EE). rewrite (H j g Hj Hg EE).
  destruct (quantile_pos (List.length l) q' Hn ltac:(lra)) as (j' & g' & Hj' & Hg' & EE'). rewrite (H' j' g' Hj' Hg' EE').
  assert (P : INR j + g <= INR j' + g').
  { rewrite EE, EE'. apply Rmult_le_compat_r; [apply pos_INR|exact Hqq]. }
  assert (Hjj : (j <= j')%nat).
  { assert (INR j < INR (S j')) as A by (rewrite S_INR; lra). apply INR_lt in A. lia. }
  pose proof (sort_sorted l) as SS. pose proof (sort_length l) as SL.
  assert (M : forall a b, (a <= b)%nat -> (b < List.length l)%nat -> nth a (sort l) 0 <= nth b (sort l) 0).
  { intros a b Hab Hb. apply sorted_nth; [exact SS|exact Hab|lia]. }
  destruct (Nat.eq_dec j j') as [<-|Hne].
  - destruct (Nat.eqb_spec (S j) (List.length l)); [lra|]. pose proof (M j (S j) ltac:(lia) ltac:(lia)). nra.
  - destruct (Nat.eqb_spec (S j) (List.length l)); [lia|].
    pose proof (M (S j) j' ltac:(lia) ltac:(lia)). pose proof (M j (S j) ltac:(lia) ltac:(lia)).
    destruct (Nat.eqb_spec (S j') (List.length l)).
    + nra.
    + pose proof (M j' (S j') ltac:(lia) ltac:(lia)). nra.
Qed.
