(** Lemmas for local maxima and onset selection. *)
From Coq Require Import List Bool ZArith Reals Lra Lia.
Import ListNotations.
From Verif Require Import Base Py PyLemmas ListLemmas RLists Np_Model Np_Lemmas
  Stft_Model Stft_Proofs Dsp_Model Dsp_Proofs.
Local Open Scope R_scope.

(** ** Windows of real arrays *)

Lemma mapM_map_ok : forall A B C (f : B -> res C) (g : A -> B) (h : A -> C) l,
  (forall x, In x l -> f (g x) = Ok (h x)) -> mapM f (map g l) = Ok (map h l).
Proof.
  induction l; intros H; simpl; auto. rewrite H by (simpl; auto). cbn [bind].
  rewrite IHl by (intros; apply H; simpl; auto). reflexivity.
Qed.

Lemma win_values : forall a w h, (1 <= w)%nat -> (1 <= h)%nat -> (w <= List.length a)%nat ->
  exists rows, overlapping_windows a (Z.of_nat w) (Some (Z.of_nat h)) = Ok rows /\
    window_values rows =
    Ok (map (fun i => map (fun j => nth (i * h + j) a 0) (seq 0 w))
            (seq 0 (S ((List.length a - w) / h)))).
Proof.
  intros a w h Hw Hh Ha. unfold overlapping_windows, n_windows.
  destruct (Z.eqb_spec (Z.of_nat h) 0) as [|_]; [lia|]. cbn [bind].
  assert (E : (1 + (zlen a - Z.of_nat w) / Z.of_nat h)%Z
              = Z.of_nat (S ((List.length a - w) / h))).
  { unfold zlen. rewrite Nat2Z.inj_succ, Nat2Z.inj_div, Nat2Z.inj_sub by lia. lia. }
  rewrite E.
  destruct (Z.ltb_spec (Z.of_nat (S ((List.length a - w) / h))) 0); [lia|].
  destruct (Z.ltb_spec (Z.of_nat w) 0); [lia|]. cbn [orb].
  eexists. split; [reflexivity|].
  unfold window_values. unfold zrange at 2. rewrite Nat2Z.id, map_map.
  apply mapM_map_ok. intros i Hi. apply in_seq in Hi.
  unfold zrange. rewrite Nat2Z.id, map_map. apply mapM_map_ok.
  intros j Hj. apply in_seq in Hj. unfold cell.
  destruct (Z.ltb_spec (Z.of_nat i * Z.of_nat h + Z.of_nat j) 0); [lia|].
  replace (Z.to_nat (Z.of_nat i * Z.of_nat h + Z.of_nat j)) with (i * h + j)%nat by lia.
  rewrite (nth_error_nth' a 0); [reflexivity|].
  assert (i * h <= List.length a - w)%nat; [|lia].
  apply Nat.le_trans with (((List.length a - w) / h) * h)%nat.
  - apply Nat.mul_le_mono_r. lia.
  - rewrite Nat.mul_comm. apply Nat.mul_div_le. lia.
Qed.

(** ** Slices *)

Lemma bound_nat : forall (n k : nat), slice_bound (Z.of_nat n) (Z.of_nat k) = Z.of_nat (Nat.min k n).
Proof. intros. unfold slice_bound. destruct (Z.ltb_spec (Z.of_nat k) 0); lia. Qed.
Lemma bound_neg : forall (n k : nat), (1 <= k <= n)%nat ->
  slice_bound (Z.of_nat n) (- Z.of_nat k) = Z.of_nat (n - k).
Proof. intros. unfold slice_bound. destruct (Z.ltb_spec (- Z.of_nat k) 0); lia. Qed.

Lemma set_slice_fill : forall A lo hi (v : A) l a b,
  lo_bound (zlen l) lo = a -> hi_bound (zlen l) hi = b -> (a <= b)%nat ->
  set_slice lo hi [v] l = Ok (firstn a l ++ repeat v (b - a) ++ skipn b l).
Proof.
  intros A lo hi v l a b Ha Hb H. unfold set_slice. rewrite Ha, Hb.
  replace (Nat.max a b) with b by lia.
  destruct (Nat.eqb_spec (List.length [v]) (b - a)) as [E|_]; [|reflexivity].
  rewrite <- E. reflexivity.
Qed.

(** [l[:w]], [l[-w:]] and [l[a:-w]]. *)
Lemma set_head : forall A (v : A) l w, (w <= List.length l)%nat ->
  set_slice None (Some (Z.of_nat w)) [v] l = Ok (repeat v w ++ skipn w l).
Proof.
  intros A v l w H. rewrite (set_slice_fill _ _ _ _ _ 0 w); [|reflexivity| |lia].
  - simpl. now rewrite Nat.sub_0_r.
  - simpl. unfold zlen. rewrite bound_nat. lia.
Qed.
Lemma set_tail : forall A (v : A) l w, (1 <= w <= List.length l)%nat ->
  set_slice (Some (- Z.of_nat w)%Z) None [v] l
  = Ok (firstn (List.length l - w) l ++ repeat v w).
Proof.
  intros A v l w H.
  rewrite (set_slice_fill _ _ _ _ _ (List.length l - w)%nat (List.length l)).
  - rewrite skipn_all, app_nil_r. replace (List.length l - (List.length l - w))%nat with w by lia.
    reflexivity.
  - simpl. unfold zlen. rewrite bound_neg by lia. lia.
  - simpl. unfold zlen. lia.
  - lia.
Qed.
Lemma set_mid : forall A (src l : list A) a w, (1 <= w)%nat ->
  (a + List.length src + w = List.length l)%nat ->
  set_slice (Some (Z.of_nat a)) (Some (- Z.of_nat w)%Z) src l
  = Ok (firstn a l ++ src ++ skipn (List.length l - w) l).
Proof.
  intros A src l a w Hw H. apply set_slice_exact; try lia.
  - simpl. unfold zlen. rewrite bound_nat. lia.
  - simpl. unfold zlen. rewrite bound_neg by lia. lia.
Qed.
Lemma slice_mid : forall A (l : list A) a w, (1 <= w)%nat -> (a + w <= List.length l)%nat ->
  slice (Some (Z.of_nat a)) (Some (- Z.of_nat w)%Z) l
  = firstn (List.length l - w - a) (skipn a l).
Proof.
  intros A l a w Hw H. unfold slice. simpl. unfold zlen. rewrite bound_nat, bound_neg by lia.
  rewrite !Nat2Z.id. now rewrite Nat.min_l by lia.
Qed.

Lemma ufunc2_eq : forall A B C (op : A -> B -> C) a b n,
  List.length a = n -> List.length b = n ->
  ufunc2 op a b n = Ok (map (fun p => op (fst p) (snd p)) (combine a b)).
Proof.
  intros A B C op a b n Ha Hb. unfold ufunc2, fit.
  rewrite Ha, Hb, Nat.eqb_refl. reflexivity.
Qed.

Lemma Rleb_true : forall x y, Rleb x y = true <-> x <= y.
Proof. intros. unfold Rleb. destruct Rle_lt_dec; split; intros; auto; try discriminate; lra. Qed.

(** A list is determined by its elements. *)
Lemma list_by_nth : forall A (d : A) l f n, List.length l = n ->
  (forall i, (i < n)%nat -> nth i l d = f i) -> l = map f (seq 0 n).
Proof.
  intros A d l f n Hn H. apply (nth_ext _ _ d (f 0%nat)).
  - now rewrite map_length, seq_length.
  - intros i Hi. rewrite H by lia. rewrite (nth_map_lt _ _ _ 0%nat) by (rewrite seq_length; lia).
    now rewrite seq_nth by lia.
Qed.

(** ** Local maxima *)

Definition key_of (x : list R) (key : option (list R)) : list R :=
  match key with None => x | Some k => k end.

Definition is_max (x key : list R) (w i : nat) : Prop :=
  forall j, (i <= j + w /\ j <= i + w)%nat -> nth j key 0 <= nth i x 0.

Lemma local_maxima_ok : forall x w key la out,
  (1 <= w)%nat -> (2 * w + 1 <= List.length x)%nat ->
  (List.length x <= List.length (key_of x key))%nat ->
  List.length out = List.length x ->
  exists r, local_maxima x (Z.of_nat w) key la out = Ok r /\
    List.length r = List.length x /\
    forall i, (i < List.length x)%nat ->
      (nth i r false = true <->
       (w <= i /\ i + w < List.length x)%nat /\ is_max x (key_of x key) w i /\
       (la = true -> nth i out false = true)).
Proof.
  intros x w key la out Hw Hn Hk Ho. unfold local_maxima. cbv zeta.
  set (n := List.length x) in *.
  set (k := match key with None => x | Some k => slice None (Some (zlen x)) k end).
  assert (Lk : List.length k = n).
  { unfold k. destruct key; [|reflexivity]. rewrite slice_length. simpl in *.
    unfold zlen. rewrite bound_nat. fold n. lia. }
  assert (Ek : forall j, (j < n)%nat -> nth j k 0 = nth j (key_of x key) 0).
  { intros j Hj. unfold k. destruct key; [|reflexivity].
    rewrite slice_nth; [reflexivity|]. fold (zlen x). revert Lk. unfold k. intros ->. auto. }
  assert (Ew : (2 * Z.of_nat w + 1)%Z = Z.of_nat (2 * w + 1)) by lia.
  rewrite Ew. change 1%Z with (Z.of_nat 1).
  destruct (win_values k (2 * w + 1) 1) as (rows & R1 & R2); try lia.
  rewrite R1. cbn [bind]. rewrite R2. cbn [bind].
  set (mxf := fun i => max_of (map (fun j => nth (i * 1 + j) k 0) (seq 0 (2 * w + 1)))).
  assert (RM : mapM amax (map (fun i => map (fun j => nth (i * 1 + j) k 0) (seq 0 (2 * w + 1)))
            (seq 0 (S ((List.length k - (2 * w + 1)) / 1))))
     = Ok (map mxf (seq 0 (n - 2 * w)))).
  { rewrite Lk, Nat.div_1_r. replace (S (n - (2 * w + 1))) with (n - 2 * w)%nat by lia.
    apply mapM_map_ok. intros i _. unfold mxf, max_of.
    destruct (amax_ok (map (fun j => nth (i * 1 + j) k 0) (seq 0 (2 * w + 1)))) as (p & -> & _).
    - replace (2 * w + 1)%nat with (S (2 * w)) by lia. simpl. congruence.
    - reflexivity. }
  rewrite RM. cbn [bind].
  assert (Lo : List.length out = n) by auto.
  assert (Fx : slice (Some (Z.of_nat w)) (Some (- Z.of_nat w)%Z) x
               = map (fun i => nth (w + i) x 0) (seq 0 (n - 2 * w))).
  { rewrite slice_mid by (fold n; lia). fold n. apply (list_by_nth _ 0).
    - rewrite firstn_length, skipn_length. fold n. lia.
    - intros i Hi. rewrite nth_firstn_lt by lia. apply nth_skipn_add. }
  assert (Fo : slice (Some (Z.of_nat w)) (Some (- Z.of_nat w)%Z) out
               = map (fun i => nth (w + i) out false) (seq 0 (n - 2 * w))).
  { rewrite slice_mid by lia. rewrite Lo. apply (list_by_nth _ false).
    - rewrite firstn_length, skipn_length. lia.
    - intros i Hi. rewrite nth_firstn_lt by lia. apply nth_skipn_add. }
  rewrite Fx, Fo.
  set (midf := fun i => Rleb (mxf i) (nth (w + i) x 0) &&
                        (if la then nth (w + i) out false else true)).
  assert (Emid : (if la then
               do mx <- ufunc2 (fun a b => Rleb b a)
                          (map (fun i => nth (w + i) x 0) (seq 0 (n - 2 * w)))
                          (map mxf (seq 0 (n - 2 * w)))
                          (List.length (map mxf (seq 0 (n - 2 * w))));
               ufunc2 andb mx (map (fun i => nth (w + i) out false) (seq 0 (n - 2 * w)))
                 (List.length (map (fun i => nth (w + i) out false) (seq 0 (n - 2 * w))))
             else ufunc2 (fun a b => Rleb b a)
                          (map (fun i => nth (w + i) x 0) (seq 0 (n - 2 * w)))
                          (map mxf (seq 0 (n - 2 * w)))
                    (List.length (map (fun i => nth (w + i) out false) (seq 0 (n - 2 * w)))))
     = Ok (map midf (seq 0 (n - 2 * w)))).
  { assert (Comb : forall (f : nat -> R) (g : nat -> R) l,
      map (fun p : R * R => Rleb (snd p) (fst p)) (combine (map f l) (map g l))
      = map (fun i => Rleb (g i) (f i)) l).
    { intros f g l. induction l; simpl; congruence. }
    assert (Comb2 : forall (f : nat -> bool) (g : nat -> bool) l,
      map (fun p : bool * bool => fst p && snd p) (combine (map f l) (map g l))
      = map (fun i => f i && g i) l).
    { intros f g l. induction l; simpl; congruence. }
    destruct la.
    - rewrite ufunc2_eq by (rewrite !map_length; auto). cbn [bind]. rewrite Comb.
      rewrite ufunc2_eq by (rewrite !map_length; auto). rewrite Comb2. reflexivity.
    - rewrite ufunc2_eq by (rewrite !map_length; auto). rewrite Comb. f_equal.
      apply map_ext. intro i. unfold midf. now rewrite andb_true_r. }
  rewrite Emid. cbn [bind].
  rewrite set_mid by (rewrite ?map_length, ?seq_length; lia). cbn [bind].
  set (o1 := firstn w out ++ map midf (seq 0 (n - 2 * w)) ++ skipn (List.length out - w) out).
  assert (L1 : List.length o1 = n).
  { unfold o1. rewrite !app_length, firstn_length, skipn_length, map_length, seq_length. lia. }
  rewrite set_head by lia. cbn [bind].
  assert (Lf : List.length (firstn w out) = w) by (rewrite firstn_length; lia).
  assert (S1 : skipn w o1 = map midf (seq 0 (n - 2 * w)) ++ skipn (List.length out - w) out).
  { unfold o1. rewrite <- Lf at 1. apply skipn_length_app. }
  rewrite S1.
  set (o2 := repeat false w ++ map midf (seq 0 (n - 2 * w)) ++ skipn (List.length out - w) out).
  assert (L2 : List.length o2 = n).
  { unfold o2. rewrite !app_length, repeat_length, skipn_length, map_length, seq_length. lia. }
  rewrite set_tail by lia. eexists. split; [reflexivity|].
  assert (S2 : firstn (List.length o2 - w) o2 = repeat false w ++ map midf (seq 0 (n - 2 * w))).
  { unfold o2 at 2. rewrite app_assoc.
    replace (List.length o2 - w)%nat with
      (List.length (repeat false w ++ map midf (seq 0 (n - 2 * w)))).
    - apply firstn_length_app.
    - rewrite app_length, repeat_length, map_length, seq_length, L2. lia. }
  rewrite S2.
  split. { rewrite !app_length, !repeat_length, map_length, seq_length. lia. }
  intros i Hi.
  destruct (Nat.lt_ge_cases i w) as [Ci|Ci].
  { rewrite <- app_assoc, app_nth1 by (rewrite repeat_length; lia). rewrite nth_repeat_lt by lia.
    split; [discriminate|]. intros (H & _). lia. }
  destruct (Nat.lt_ge_cases (i + w) n) as [Cj|Cj].
  2: { rewrite app_nth2; rewrite app_length, repeat_length, map_length, seq_length; [|lia].
    rewrite nth_repeat_lt by lia. split; [discriminate|]. intros (H & _). lia. }
  rewrite app_nth1 by (rewrite app_length, repeat_length, map_length, seq_length; lia).
  rewrite app_nth2 by (rewrite repeat_length; lia). rewrite repeat_length.
  rewrite (nth_map_lt _ _ _ 0%nat) by (rewrite seq_length; lia).
  rewrite seq_nth by lia. unfold midf. rewrite andb_true_iff, Rleb_true.
  replace (w + (0 + (i - w)))%nat with i by lia.
  assert (Mx : mxf (i - w)%nat <= nth i x 0 <-> is_max x (key_of x key) w i).
  { unfold mxf, max_of. replace (0 + (i - w))%nat with (i - w)%nat by lia.
    destruct (amax_ok (map (fun j => nth ((i - w) * 1 + j) k 0) (seq 0 (2 * w + 1))))
      as (p & -> & Pin & Pmax).
    { replace (2 * w + 1)%nat with (S (2 * w)) by lia. simpl. congruence. }
    split.
    - intros H j Hj. rewrite <- Ek by lia. eapply Rle_trans; [|exact H]. apply Pmax.
      apply in_map_iff. exists (j - (i - w))%nat. split; [f_equal; lia|]. apply in_seq. lia.
    - intros H. apply in_map_iff in Pin. destruct Pin as (j & <- & Hj). apply in_seq in Hj.
      rewrite Ek by lia. apply H. lia. }
  replace (0 + (i - w))%nat with (i - w)%nat by lia. rewrite Mx.
  destruct la; split; intuition.
Qed.

(** ** Onset selection *)

(** The filter: [filt (S i)] is its value after sample [i]. *)
Fixpoint filt (alpha : R) (x : nat -> R) (i : nat) : R :=
  match i with
  | O => 0
  | S i' => Rmax (x i') (alpha * filt alpha x i' + (1 - alpha) * x i')
  end.
Lemma onset_g_nth : forall alpha x i f k, (i < List.length x)%nat ->
  (forall j, (j < List.length x)%nat -> nth j x 0 = f (k + j)%nat) ->
  nth i (onset_g alpha (filt alpha f k) x) 0 = filt alpha f (S (k + i)).
Proof.
  intros alpha x. induction x as [|v x IH]; intros i f k Hi H; [simpl in Hi; lia|].
  cbn [onset_g].
  assert (E : Rmax v (alpha * filt alpha f k + (1 - alpha) * v) = filt alpha f (S k)).
  { simpl. specialize (H 0%nat ltac:(simpl; lia)). simpl in H. rewrite Nat.add_0_r in H. now rewrite H. }
  rewrite E. destruct i as [|i].
  - cbn [nth]. now rewrite Nat.add_0_r.
  - cbn [nth]. replace (S (k + S i)) with (S (S k + i)) by lia. apply IH; [simpl in Hi; lia|].
    intros j Hj. specialize (H (S j) ltac:(simpl; lia)). cbn [nth] in H.
    rewrite H. f_equal. lia.
Qed.
Lemma onset_g_length : forall alpha x g, List.length (onset_g alpha g x) = List.length x.
Proof. induction x; intros; simpl; auto. Qed.

Definition local_mean (x : list R) (w m i : nat) : R :=
  mean (map (fun j => nth (i - m * w + j) x 0) (seq 0 ((m + 1) * w + 1))).
Lemma onset_m_ok : forall x w m delta out, (1 <= w)%nat ->
  ((m + 1) * w + 1 <= List.length x)%nat -> List.length out = List.length x ->
  exists r, onset_m x (Z.of_nat w) (Z.of_nat m) delta out = Ok r /\
    List.length r = List.length x /\
    forall i, (i + w < List.length x)%nat ->
      nth i r 0 = (if Nat.ltb i (m * w) then 0 else local_mean x w m i) + delta.
Proof.
  intros x w m delta out Hw Hn Ho. unfold onset_m.
  replace ((Z.of_nat m + 1) * Z.of_nat w + 1)%Z with (Z.of_nat ((m + 1) * w + 1)) by lia.
  change 1%Z with (Z.of_nat 1).
  destruct (win_values x ((m + 1) * w + 1) 1) as (rows & R1 & R2); try lia.
  rewrite R1. cbn [bind]. rewrite R2. cbn [bind].
  replace (Z.of_nat m * Z.of_nat w)%Z with (Z.of_nat (m * w)) by lia.
  set (n := List.length x) in *.
  rewrite Nat.div_1_r. replace (S (n - ((m + 1) * w + 1))) with (n - (m + 1) * w)%nat by lia.
  rewrite set_head by lia. cbn [bind].
  rewrite set_tail by (rewrite app_length, repeat_length, skipn_length; lia). cbn [bind].
  set (o1 := repeat 0 (m * w) ++ skipn (m * w) out).
  assert (L1 : List.length o1 = n).
  { unfold o1. rewrite app_length, repeat_length, skipn_length. lia. }
  set (o2 := firstn (List.length o1 - w) o1 ++ repeat 0 w).
  assert (L2 : List.length o2 = n).
  { unfold o2. rewrite app_length, repeat_length, firstn_length. lia. }
  rewrite slice_length.
  assert (Eb : (hi_bound (zlen o2) (Some (- Z.of_nat w)%Z) - lo_bound (zlen o2) (Some (Z.of_nat (m * w))))%nat
     = (n - (m + 1) * w)%nat).
  { simpl. unfold zlen. rewrite L2, bound_nat, bound_neg by lia. lia. }
  rewrite Eb, map_length, seq_length, Nat.eqb_refl.
  rewrite set_mid by (rewrite ?map_length, ?seq_length; lia). cbn [bind].
  eexists. split; [reflexivity|]. split.
  { rewrite map_length, !app_length, firstn_length, skipn_length, !map_length, seq_length. lia. }
  intros i Hi.
  rewrite (nth_map_lt _ _ _ 0)
    by (rewrite !app_length, firstn_length, skipn_length, !map_length, seq_length; lia).
  f_equal. destruct (Nat.ltb_spec i (m * w)) as [C|C].
  - rewrite app_nth1 by (rewrite firstn_length; lia). rewrite nth_firstn_lt by lia.
    unfold o2. rewrite app_nth1 by (rewrite firstn_length; lia). rewrite nth_firstn_lt by lia.
    unfold o1. rewrite app_nth1 by (rewrite repeat_length; lia). apply nth_repeat_lt. lia.
  - rewrite app_nth2 by (rewrite firstn_length; lia). rewrite firstn_length, L2.
    replace (Nat.min (m * w) n) with (m * w)%nat by lia.
    rewrite app_nth1 by (rewrite !map_length, seq_length; lia).
    rewrite map_map, (nth_map_lt _ _ _ 0%nat) by (rewrite seq_length; lia).
    rewrite seq_nth by lia. unfold local_mean. f_equal. apply map_ext. intro j. f_equal. lia.
Qed.

Definition rms_value (x : list R) (i : nat) : R := (nth i x 0 - mean x) / rms_scale x.

Lemma onset_selection_ok : forall junk junk_b x w m alpha delta,
  (1 <= w)%nat -> (2 * w + 1 <= List.length x)%nat -> ((m + 1) * w + 1 <= List.length x)%nat ->
  exists r, onset_selection junk junk_b x (Z.of_nat w) (Z.of_nat m) alpha delta = Ok r /\
    List.length r = List.length x /\
    forall i, (i < List.length x)%nat ->
      (nth i r false = true <->
       (w <= i /\ i + w < List.length x)%nat /\ is_max x x w i /\
       filt alpha (rms_value x) i <= rms_value x i /\
       (if Nat.ltb i (m * w) then 0
        else mean (map (rms_value x) (seq (i - m * w) ((m + 1) * w + 1)))) + delta
         <= rms_value x i).
Proof.
  intros junk junk_b x w m alpha delta Hw H2 Hm. unfold onset_selection.
  rewrite (call_computes _ _ _ _ _ normalize_rms_ok I). cbn [bind].
  set (xn := map (fun v => (v - mean x) / rms_scale x) x).
  assert (Lx : List.length xn = List.length x) by apply map_length.
  assert (Vx : forall i, (i < List.length x)%nat -> nth i xn 0 = rms_value x i).
  { intros i Hi. unfold xn. rewrite (nth_map_lt _ _ _ 0) by auto. reflexivity. }
  set (n := List.length x) in *. rewrite Lx.
  set (ons0 := map junk_b (seq 0 n)).
  assert (L0 : List.length ons0 = n) by (unfold ons0; now rewrite map_length, seq_length).
  assert (Sl1 : forall A (l : list A), List.length l = n -> slice (Some 1%Z) None l = skipn 1 l).
  { intros A l Hl. unfold slice. simpl lo_bound. simpl hi_bound. unfold zlen. rewrite Hl.
    replace (slice_bound (Z.of_nat n) 1) with 1%Z by (rewrite slice_bound_pos; lia).
    rewrite Nat2Z.id. apply firstn_all2. rewrite skipn_length, Hl. lia. }
  assert (Sl2 : forall l : list R, List.length l = n -> slice None (Some (-1)%Z) l = firstn (n - 1) l).
  { intros l Hl. unfold slice. simpl lo_bound. simpl hi_bound. unfold zlen. rewrite Hl.
    change (-1)%Z with (- Z.of_nat 1)%Z. rewrite bound_neg by lia. rewrite Nat2Z.id, Nat.sub_0_r.
    reflexivity. }
  set (g := onset_g alpha 0 xn).
  assert (Lg : List.length g = n) by (unfold g; now rewrite onset_g_length).
  assert (Vg : forall i, (i < n)%nat -> nth i g 0 = filt alpha (rms_value x) (S i)).
  { intros i Hi. unfold g. apply (onset_g_nth alpha xn i (rms_value x) 0); [lia|].
    intros j Hj. apply Vx. lia. }
  rewrite !Sl1, Sl2 by auto.
  rewrite ufunc2_eq by (rewrite ?skipn_length, ?firstn_length; lia). cbn [bind].
  set (c1 := map (fun p : R * R => Rleb (snd p) (fst p)) (combine (skipn 1 xn) (firstn (n - 1) g))).
  assert (Lc1 : List.length c1 = (n - 1)%nat).
  { unfold c1. rewrite map_length, combine_length, skipn_length, firstn_length. lia. }
  rewrite (set_slice_exact _ _ _ _ _ 1 n); cycle 1.
  { simpl. unfold zlen. rewrite L0. rewrite slice_bound_pos; lia. }
  { simpl. unfold zlen. lia. }
  { lia. }
  { lia. }
  cbn [bind].
  destruct (onset_m_ok xn w m delta g) as (t & T1 & T2 & T3); try lia.
  rewrite T1. cbn [bind].
  rewrite ufunc2_eq by lia. cbn [bind].
  set (c2 := map (fun p : R * R => Rleb (snd p) (fst p)) (combine xn t)).
  assert (Lc2 : List.length c2 = n) by (unfold c2; rewrite map_length, combine_length; lia).
  set (ons1 := firstn 1 ons0 ++ c1 ++ skipn n ons0).
  assert (L1 : List.length ons1 = n).
  { unfold ons1. rewrite !app_length, firstn_length, skipn_length. lia. }
  rewrite ufunc2_eq by lia. cbn [bind].
  set (ons2 := map (fun p : bool * bool => fst p && snd p) (combine ons1 c2)).
  assert (L2 : List.length ons2 = n) by (unfold ons2; rewrite map_length, combine_length; lia).
  destruct (local_maxima_ok x w None true ons2) as (r & R1 & R2 & R3); auto; try (simpl; fold n; lia).
  exists r. split; [exact R1|]. split; [exact R2|].
  intros i Hi. rewrite R3 by auto. cbn [key_of]. fold n.
  assert (Onset : (w <= i /\ i + w < n)%nat ->
    (nth i ons2 false = true <->
     filt alpha (rms_value x) i <= rms_value x i /\
       (if Nat.ltb i (m * w) then 0
        else mean (map (rms_value x) (seq (i - m * w) ((m + 1) * w + 1)))) + delta
         <= rms_value x i)).
  { intros Hb. unfold ons2.
    rewrite (nth_map_lt _ _ _ (false, false)) by (rewrite combine_length; lia).
    rewrite nth_combine by lia. cbn [fst snd]. rewrite andb_true_iff.
    assert (O1 : nth i ons1 false = true <-> filt alpha (rms_value x) i <= rms_value x i).
    { unfold ons1. rewrite app_nth2 by (rewrite firstn_length; lia).
      rewrite firstn_length. replace (Nat.min 1 (List.length ons0)) with 1%nat by lia.
      rewrite app_nth1 by lia. unfold c1.
      rewrite (nth_map_lt _ _ _ (0, 0)) by (rewrite combine_length, skipn_length, firstn_length; lia).
      rewrite nth_combine by (rewrite ?skipn_length, ?firstn_length; lia). cbn [fst snd].
      rewrite nth_skipn_add, nth_firstn_lt by lia. rewrite Rleb_true.
      replace (1 + (i - 1))%nat with i by lia. rewrite Vx, Vg by lia.
      replace (S (i - 1)) with i by lia. tauto. }
    assert (O2 : nth i c2 false = true <-> nth i t 0 <= nth i xn 0).
    { unfold c2. rewrite (nth_map_lt _ _ _ (0, 0)) by (rewrite combine_length; lia).
      rewrite nth_combine by lia. cbn [fst snd]. apply Rleb_true. }
    rewrite O1, O2, T3, Vx by lia.
    assert (EM : (if Nat.ltb i (m * w) then 0 else local_mean xn w m i) =
      (if Nat.ltb i (m * w) then 0
        else mean (map (rms_value x) (seq (i - m * w) ((m + 1) * w + 1))))).
    { destruct (Nat.ltb_spec i (m * w)); [reflexivity|]. unfold local_mean. f_equal.
      clear - Vx Hb H Lx. assert (G : forall k l, (i - m * w + k + l <= i + w + 1)%nat ->
        map (fun j => nth (i - m * w + j) xn 0) (seq k l) = map (rms_value x) (seq (i - m * w + k) l)).
      { intros k l. revert k. induction l as [|l IH]; intros k Hk; [reflexivity|].
        simpl. rewrite Vx by lia. rewrite IH by lia. do 2 f_equal. f_equal. lia. }
      specialize (G 0%nat ((m + 1) * w + 1)%nat ltac:(nia)). rewrite Nat.add_0_r in G. exact G. }
    rewrite EM. tauto. }
  intuition.
Qed.
