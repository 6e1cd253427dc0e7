(** Lemmas for C116: windows, comparisons and sums of doubles, NaN and infinities included. *)
From Coq Require Import String ZArith Reals Lra Lia Bool Permutation List.
From Flocq Require Import Core IEEE754.BinarySingleNaN.
Import ListNotations.
From Verif Require Import Base Py PyLemmas ListLemmas RLists Np_Model Np_Lemmas Double_Model Double_Float Peak_Model Peak_Round
  Peak_Proofs Clock_Model Clock_Proofs Stft_Model Onset_Proofs Dsp_Model Level_Model Level_Proofs Rise_Model Kernel_Model Attack_Model.
Local Open Scope R_scope.
Notation z := (f64_of 0 0).

Lemma ge_le : forall a b : f64_num, d_ge a b = @Bleb 53 1024 b a.
Proof.
  intros a b. unfold d_ge, fgt, Bltb, Bleb, Beqb, SpecFloat.SFltb, SpecFloat.SFleb, SpecFloat.SFeqb.
  pose proof (Bcompare_swap 53 1024 b a) as W. unfold Bcompare in W. rewrite W.
  destruct (SpecFloat.SFcompare (B2SF b) (B2SF a)) as [[| |]|]; reflexivity.
Qed.
Lemma le_trans_ : forall a b c : f64_num, @Bleb 53 1024 a b = true -> @Bleb 53 1024 b c = true -> @Bleb 53 1024 a c = true.
Proof.
  intros a b c H1 H2.
  destruct (is_finite a) eqn:Fa, (is_finite b) eqn:Fb, (is_finite c) eqn:Fc.
  { rewrite Bleb_correct in * by assumption. destruct (Rle_bool_spec (B2R a) (B2R b)) as [A|A]; [|discriminate H1].
    destruct (Rle_bool_spec (B2R b) (B2R c)) as [B|B]; [|discriminate H2]. apply Rle_bool_true. lra. }
  all: destruct a as [[|]|[|]| |[|] ? ? ?]; try discriminate Fa; try discriminate H1; destruct b as [[|]|[|]| |[|] ? ? ?]; try discriminate Fb; try discriminate H1; try discriminate H2;
    destruct c as [[|]|[|]| |[|] ? ? ?]; try discriminate Fc; try discriminate H2; reflexivity.
Qed.
Lemma le_total_ : forall a b : f64_num, a <> B754_nan -> b <> B754_nan -> @Bleb 53 1024 a b = false -> @Bleb 53 1024 b a = true.
Proof.
  intros a b Na Nb H. destruct (is_finite a) eqn:Fa, (is_finite b) eqn:Fb.
  { rewrite Bleb_correct in * by assumption. destruct (Rle_bool_spec (B2R a) (B2R b)) as [A|A]; [discriminate H|]. apply Rle_bool_true. lra. }
  all: destruct a as [[|]|[|]| |[|] ? ? ?]; try congruence; try discriminate Fa; try discriminate H; destruct b as [[|]|[|]| |[|] ? ? ?]; try congruence; try discriminate Fb; try discriminate H; reflexivity.
Qed.
(** A number is not below the maximum of others exactly if it is not below each of them; a NaN is comparable with nothing. *)
Lemma ge_maximum : forall x a b : f64_num, d_ge x (f_maximum a b) = d_ge x a && d_ge x b.
Proof.
  assert (NL : forall v : f64_num, @Bleb 53 1024 B754_nan v = false) by (intros [[|]|[|]| |[|] ? ? ?]; reflexivity).
  intros x a b. rewrite !ge_le. unfold f_maximum. destruct (is_nan a) eqn:Na; cbn [orb].
  - destruct a; try discriminate Na. rewrite NL. reflexivity.
  - destruct (@Bleb 53 1024 b a) eqn:E.
    + destruct (@Bleb 53 1024 a x) eqn:A; [|reflexivity]. rewrite (le_trans_ b a x E A). reflexivity.
    + destruct (@Bleb 53 1024 b x) eqn:B; [|now rewrite andb_false_r]. rewrite andb_true_r. symmetry. apply le_trans_ with b; [|exact B].
      apply le_total_; [|intros ->; discriminate Na|exact E]. intros ->. rewrite NL in B. discriminate B.
Qed.
Lemma ge_max : forall x l m, f_max l = Ok m -> (d_ge x m = true <-> forall v, In v l -> d_ge x v = true).
Proof.
  intros x [|v l] m E; [discriminate E|]. cbn [f_max] in E. injection E as <-. revert v. induction l as [|u l IH]; intros v; cbn [fold_left].
  - split; [intros H w [<-|[]]; exact H|intros H; apply H; now left].
  - rewrite IH. split.
    + intros H w Hw. assert (M := H _ (or_introl eq_refl)). rewrite ge_maximum, andb_true_iff in M. destruct Hw as [<-|[<-|Hw]]; try tauto. apply H. now right.
    + intros H w [<-|Hw]; [|apply H; now right; right]. rewrite ge_maximum, andb_true_iff. split; apply H; [now left|right; now left].
Qed.

(** Windows of doubles. *)
Lemma win_cells : forall a w h, (1 <= w)%nat -> (1 <= h)%nat -> (w <= List.length a)%nat ->
  exists rows, overlapping_windows a (Z.of_nat w) (Some (Z.of_nat h)) = Ok rows /\
    mapM (mapM k_cell) rows = Ok (map (fun i => map (fun j => nth (i * h + j) a z) (seq 0 w)) (seq 0 (S ((List.length a - w) / h)))).
Proof.
  intros a w h Hw Hh Ha. unfold overlapping_windows, n_windows.
  destruct (Z.eqb_spec (Z.of_nat h) 0) as [|_]; [lia|]. cbn [bind].
  assert (E : (1 + (zlen a - Z.of_nat w) / Z.of_nat h)%Z = Z.of_nat (S ((List.length a - w) / h))).
  { unfold zlen. rewrite Nat2Z.inj_succ, Nat2Z.inj_div, Nat2Z.inj_sub by lia. lia. }
  rewrite E. destruct (Z.ltb_spec (Z.of_nat (S ((List.length a - w) / h))) 0); [lia|]. destruct (Z.ltb_spec (Z.of_nat w) 0); [lia|]. cbn [orb].
  eexists. split; [reflexivity|]. unfold zrange at 2. rewrite Nat2Z.id, map_map. apply mapM_map_ok. intros i Hi. apply in_seq in Hi.
  unfold zrange. rewrite Nat2Z.id, map_map. apply mapM_map_ok. intros j Hj. apply in_seq in Hj. unfold cell.
  destruct (Z.ltb_spec (Z.of_nat i * Z.of_nat h + Z.of_nat j) 0); [lia|].
  replace (Z.to_nat (Z.of_nat i * Z.of_nat h + Z.of_nat j)) with (i * h + j)%nat by lia. rewrite (nth_error_nth' a z); [reflexivity|].
  assert (i * h <= List.length a - w)%nat; [|lia]. apply Nat.le_trans with (((List.length a - w) / h) * h)%nat.
  - apply Nat.mul_le_mono_r. lia.
  - rewrite Nat.mul_comm. apply Nat.mul_div_le. lia.
Qed.
Definition d_max (l : list f64_num) : f64_num := match f_max l with Ok m => m | Err _ => z end.
Definition d_key (x : list f64_num) (key : option (list f64_num)) : list f64_num := match key with None => x | Some k => k end.

(** [local_maxima]; the proof is the one for real numbers. *)
Lemma a_local_maxima_ok : forall x w key la out, (1 <= w)%nat -> (2 * w + 1 <= List.length x)%nat ->
  (List.length x <= List.length (d_key x key))%nat -> List.length out = List.length x ->
  exists r, a_local_maxima x (Z.of_nat w) key la out = Ok r /\ List.length r = List.length x /\
    forall i, (i < List.length x)%nat ->
      (nth i r false = true <-> (w <= i /\ i + w < List.length x)%nat /\
       (forall j, (i <= j + w /\ j <= i + w)%nat -> d_ge (nth i x z) (nth j (d_key x key) z) = true) /\ (la = true -> nth i out false = true)).
Proof.
  intros x w key la out Hw Hn Hk Ho. unfold a_local_maxima. cbv zeta. set (n := List.length x) in *.
  set (k := match key with None => x | Some k => slice None (Some (zlen x)) k end).
  assert (Lk : List.length k = n).
  { unfold k. destruct key; [|reflexivity]. rewrite slice_length. simpl in *. unfold zlen. rewrite bound_nat. fold n. lia. }
  assert (Ek : forall j, (j < n)%nat -> nth j k z = nth j (d_key x key) z).
  { intros j Hj. unfold k. destruct key; [|reflexivity]. rewrite slice_nth; [reflexivity|]. fold (zlen x). revert Lk. unfold k. intros ->. auto. }
  assert (Ew : (2 * Z.of_nat w + 1)%Z = Z.of_nat (2 * w + 1)) by lia. rewrite Ew. change 1%Z with (Z.of_nat 1).
  destruct (win_cells k (2 * w + 1) 1) as (rows & R1 & R2); try lia. rewrite R1. cbn [bind]. rewrite R2. cbn [bind].
  set (win := fun i => map (fun j => nth (i * 1 + j) k z) (seq 0 (2 * w + 1))). set (mxf := fun i => d_max (win i)).
  assert (NE : forall i, f_max (win i) = Ok (mxf i)).
  { intros i. unfold mxf, d_max, win. replace (2 * w + 1)%nat with (S (2 * w)) by lia. cbn [seq map f_max]. reflexivity. }
  assert (RM : mapM f_max (map win (seq 0 (S ((List.length k - (2 * w + 1)) / 1)))) = Ok (map mxf (seq 0 (n - 2 * w)))).
  { rewrite Lk, Nat.div_1_r. replace (S (n - (2 * w + 1))) with (n - 2 * w)%nat by lia. apply mapM_map_ok. intros i _. apply NE. }
  rewrite RM. cbn [bind]. assert (Lo : List.length out = n) by auto.
  assert (Fx : slice (Some (Z.of_nat w)) (Some (- Z.of_nat w)%Z) x = map (fun i => nth (w + i) x z) (seq 0 (n - 2 * w))).
  { rewrite slice_mid by (fold n; lia). fold n. apply (list_by_nth _ z).
    - rewrite firstn_length, skipn_length. fold n. lia.
    - intros i Hi. rewrite nth_firstn_lt by lia. apply nth_skipn_add. }
  assert (Fo : slice (Some (Z.of_nat w)) (Some (- Z.of_nat w)%Z) out = map (fun i => nth (w + i) out false) (seq 0 (n - 2 * w))).
  { rewrite slice_mid by lia. rewrite Lo. apply (list_by_nth _ false).
    - rewrite firstn_length, skipn_length. lia.
    - intros i Hi. rewrite nth_firstn_lt by lia. apply nth_skipn_add. }
  rewrite Fx, Fo. set (midf := fun i => d_ge (nth (w + i) x z) (mxf i) && (if la then nth (w + i) out false else true)).
  assert (Emid : (if la then
               do mx <- ufunc2 d_ge (map (fun i => nth (w + i) x z) (seq 0 (n - 2 * w))) (map mxf (seq 0 (n - 2 * w))) (List.length (map mxf (seq 0 (n - 2 * w))));
               ufunc2 andb mx (map (fun i => nth (w + i) out false) (seq 0 (n - 2 * w))) (List.length (map (fun i => nth (w + i) out false) (seq 0 (n - 2 * w))))
             else ufunc2 d_ge (map (fun i => nth (w + i) x z) (seq 0 (n - 2 * w))) (map mxf (seq 0 (n - 2 * w)))
                    (List.length (map (fun i => nth (w + i) out false) (seq 0 (n - 2 * w))))) = Ok (map midf (seq 0 (n - 2 * w)))).
  { assert (Comb : forall (f g : nat -> f64_num) l, map (fun p : f64_num * f64_num => d_ge (fst p) (snd p)) (combine (map f l) (map g l)) = map (fun i => d_ge (f i) (g i)) l).
    { intros f g l. induction l; simpl; congruence. }
    assert (Comb2 : forall (f g : nat -> bool) l, map (fun p : bool * bool => fst p && snd p) (combine (map f l) (map g l)) = map (fun i => f i && g i) l).
    { intros f g l. induction l; simpl; congruence. }
    destruct la.
    - rewrite ufunc2_eq by (rewrite !map_length; auto). cbn [bind]. rewrite Comb. rewrite ufunc2_eq by (rewrite !map_length; auto). rewrite Comb2. reflexivity.
    - rewrite ufunc2_eq by (rewrite !map_length; auto). rewrite Comb. f_equal. apply map_ext. intro i. unfold midf. now rewrite andb_true_r. }
  rewrite Emid. cbn [bind]. rewrite set_mid by (rewrite ?map_length, ?seq_length; lia). cbn [bind].
  set (o1 := firstn w out ++ map midf (seq 0 (n - 2 * w)) ++ skipn (List.length out - w) out).
  assert (L1 : List.length o1 = n) by (unfold o1; rewrite !app_length, firstn_length, skipn_length, map_length, seq_length; lia).
  rewrite set_head by lia. cbn [bind]. assert (Lf : List.length (firstn w out) = w) by (rewrite firstn_length; lia).
  assert (S1 : skipn w o1 = map midf (seq 0 (n - 2 * w)) ++ skipn (List.length out - w) out) by (unfold o1; rewrite <- Lf at 1; apply skipn_length_app).
  rewrite S1. set (o2 := repeat false w ++ map midf (seq 0 (n - 2 * w)) ++ skipn (List.length out - w) out).
  assert (L2 : List.length o2 = n) by (unfold o2; rewrite !app_length, repeat_length, skipn_length, map_length, seq_length; lia).
  rewrite set_tail by lia. eexists. split; [reflexivity|].
  assert (S2 : firstn (List.length o2 - w) o2 = repeat false w ++ map midf (seq 0 (n - 2 * w))).
  { unfold o2 at 2. rewrite app_assoc. replace (List.length o2 - w)%nat with (List.length (repeat false w ++ map midf (seq 0 (n - 2 * w)))).
    - apply firstn_length_app.
    - rewrite app_length, repeat_length, map_length, seq_length, L2. lia. }
  rewrite S2. split. { rewrite !app_length, !repeat_length, map_length, seq_length. lia. }
  intros i Hi. destruct (Nat.lt_ge_cases i w) as [Ci|Ci].
  { rewrite <- app_assoc, app_nth1 by (rewrite repeat_length; lia). rewrite nth_repeat_lt by lia. split; [discriminate|]. intros (H & _). lia. }
  destruct (Nat.lt_ge_cases (i + w) n) as [Cj|Cj].
  2: { rewrite app_nth2; rewrite app_length, repeat_length, map_length, seq_length; [|lia]. rewrite nth_repeat_lt by lia. split; [discriminate|]. intros (H & _). lia. }
  rewrite app_nth1 by (rewrite app_length, repeat_length, map_length, seq_length; lia).
  rewrite app_nth2 by (rewrite repeat_length; lia). rewrite repeat_length. rewrite (nth_map_lt _ _ _ 0%nat) by (rewrite seq_length; lia).
  rewrite seq_nth by lia. unfold midf. rewrite andb_true_iff. replace (0 + (i - w))%nat with (i - w)%nat by lia. replace (w + (i - w))%nat with i by lia.
  assert (Mx : d_ge (nth i x z) (mxf (i - w)%nat) = true <-> (forall j, (i <= j + w /\ j <= i + w)%nat -> d_ge (nth i x z) (nth j (d_key x key) z) = true)).
  { rewrite (ge_max _ _ _ (NE (i - w)%nat)). split.
    - intros H j Hj. rewrite <- Ek by lia. apply H. apply in_map_iff. exists (j - (i - w))%nat. split; [f_equal; lia|]. apply in_seq. lia.
    - intros H v Hv. apply in_map_iff in Hv. destruct Hv as (j & <- & Hj). apply in_seq in Hj. rewrite Ek by lia. apply H. lia. }
  rewrite Mx. destruct la; split; intuition.
Qed.

(** [_onset_selection_m]. *)
Lemma a_onset_m_ok : forall S x w m delta out, (1 <= w)%nat -> ((m + 1) * w + 1 <= List.length x)%nat -> List.length out = List.length x ->
  exists r, a_onset_m S x (Z.of_nat w) (Z.of_nat m) delta out = Ok r /\ List.length r = List.length x /\
    forall i, (i + w < List.length x)%nat ->
      nth i r z = fadd (if Nat.ltb i (m * w) then z else l_mean S (map (fun j => nth (i - m * w + j) x z) (seq 0 ((m + 1) * w + 1)))) delta.
Proof.
  intros S x w m delta out Hw Hn Ho. unfold a_onset_m.
  replace ((Z.of_nat m + 1) * Z.of_nat w + 1)%Z with (Z.of_nat ((m + 1) * w + 1)) by lia. change 1%Z with (Z.of_nat 1).
  destruct (win_cells x ((m + 1) * w + 1) 1) as (rows & R1 & R2); try lia. rewrite R1. cbn [bind]. rewrite R2. cbn [bind].
  replace (Z.of_nat m * Z.of_nat w)%Z with (Z.of_nat (m * w)) by lia. set (n := List.length x) in *.
  rewrite Nat.div_1_r. replace (1 + (n - ((m + 1) * w + 1)))%nat with (n - (m + 1) * w)%nat by lia.
  rewrite set_head by lia. cbn [bind]. rewrite set_tail by (rewrite app_length, repeat_length, skipn_length; lia). cbn [bind].
  set (o1 := repeat z (m * w) ++ skipn (m * w) out). assert (L1 : List.length o1 = n) by (unfold o1; rewrite app_length, repeat_length, skipn_length; lia).
  set (o2 := firstn (List.length o1 - w) o1 ++ repeat z w). assert (L2 : List.length o2 = n) by (unfold o2; rewrite app_length, repeat_length, firstn_length; lia).
  rewrite slice_length.
  assert (Eb : (hi_bound (zlen o2) (Some (- Z.of_nat w)%Z) - lo_bound (zlen o2) (Some (Z.of_nat (m * w))))%nat = (n - (m + 1) * w)%nat).
  { simpl. unfold zlen. rewrite L2, bound_nat, bound_neg by lia. lia. }
  rewrite Eb, map_length, seq_length.
  replace (Datatypes.S (n - ((m + 1) * w + 1)))%nat with (n - (m + 1) * w)%nat by lia. rewrite Nat.eqb_refl.
  rewrite set_mid by (rewrite ?map_length, ?seq_length; lia). cbn [bind]. eexists. split; [reflexivity|]. split.
  { rewrite map_length, !app_length, firstn_length, skipn_length, !map_length, seq_length. lia. }
  intros i Hi. rewrite (nth_map_lt _ _ _ z) by (rewrite !app_length, firstn_length, skipn_length, !map_length, seq_length; lia).
  f_equal. destruct (Nat.ltb_spec i (m * w)) as [C|C].
  - rewrite app_nth1 by (rewrite firstn_length; lia). rewrite nth_firstn_lt by lia.
    unfold o2. rewrite app_nth1 by (rewrite firstn_length; lia). rewrite nth_firstn_lt by lia.
    unfold o1. rewrite app_nth1 by (rewrite repeat_length; lia). apply nth_repeat_lt. lia.
  - rewrite app_nth2 by (rewrite firstn_length; lia). rewrite firstn_length, L2. replace (Nat.min (m * w) n) with (m * w)%nat by lia.
    rewrite app_nth1 by (rewrite !map_length, seq_length; lia). rewrite map_map, (nth_map_lt _ _ _ 0%nat) by (rewrite seq_length; lia).
    rewrite seq_nth by lia. f_equal. apply map_ext. intro j. f_equal. lia.
Qed.

(** Sums with a NaN, and with an infinity. *)
Lemma adds_nan : forall l s, adds l s -> In B754_nan l -> s = B754_nan.
Proof.
  assert (A1 : forall v, fadd B754_nan v = B754_nan) by (intros [c|c| |c m e B]; reflexivity). assert (A2 : forall v, fadd v B754_nan = B754_nan) by (intros [c|c| |c m e B]; reflexivity).
  intros l s D. induction D as [x|l r x y _ IH1 _ IH2|b l x _ IH|l r x P _ IH]; intros H.
  - destruct H as [<-|[]]. reflexivity.
  - apply in_app_or in H. destruct H as [H|H]; [rewrite (IH1 H)|rewrite (IH2 H)]; auto.
  - rewrite (IH H). auto.
  - apply IH. eapply Permutation_in; [apply Permutation_sym; eassumption|exact H].
Qed.
Lemma adds_inf : forall l s c, adds l s -> In (B754_infinity c) l -> s = B754_infinity c \/ s = B754_nan.
Proof.
  intros l s c D. induction D as [x|l r x y _ IH1 _ IH2|b l x _ IH|l r x P _ IH]; intros H.
  - destruct H as [<-|[]]. now left.
  - apply in_app_or in H. destruct H as [H|H].
    + destruct (IH1 H) as [->| ->]; destruct c, y as [[|]|[|]| |[|] ? ? ?]; cbn; auto.
    + destruct (IH2 H) as [->| ->]; destruct c, x as [[|]|[|]| |[|] ? ? ?]; cbn; auto.
  - destruct (IH H) as [->| ->]; cbn; auto.
  - apply IH. eapply Permutation_in; [apply Permutation_sym; eassumption|exact H].
Qed.
