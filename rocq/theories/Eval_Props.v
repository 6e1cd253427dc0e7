(** C47: losses; C48: random generation of beats. *)
From Coq Require Import String List Bool ZArith Reals Lra Lia Permutation.
Import ListNotations.
From Verif Require Import Base Py Dict RLists ListLemmas Utils_Model Sample_Model Eval_Model Eval_Proofs.
Local Open Scope R_scope.

(** ** C47: distances *)

Definition same_shape (x y : arr) : Prop := a_rows x = a_rows y /\ a_cols x = a_cols y.
(** Equal numbers at equal places. *)
Definition same_values (x y : arr) : Prop :=
  forall i j, (i < a_rows x)%nat -> (j < a_cols x)%nat -> a_at x i j = a_at y i j.

Definition gaps (x y : arr) : list R :=
  map (fun ij => Rabs (a_at x (fst ij) (snd ij) - a_at y (fst ij) (snd ij))) (indices x).

Lemma in_indices : forall x ij, In ij (indices x) <-> (fst ij < a_rows x)%nat /\ (snd ij < a_cols x)%nat.
Proof.
  intros x [i j]. unfold indices. rewrite in_prod_iff, !in_seq. cbn [fst snd]. lia.
Qed.
Lemma gaps_nonneg : forall x y, Forall (fun v => 0 <= v) (gaps x y).
Proof. intros x y. apply Forall_map, Forall_forall. intros ij _. apply Rabs_pos. Qed.

Lemma lp_same_shape : forall x y p, same_shape x y -> 0 < p -> lp_distance x y p = Ok (norm p (gaps x y)).
Proof.
  intros x y p [Hr Hc] Hp. unfold lp_distance, fits. rewrite Hr, Hc, !Nat.eqb_refl. cbn [orb andb].
  rewrite map_map.
  assert (E : map (fun ij => Rabs (a_at x (fst ij) (snd ij) -
                a_at y (bcast (a_rows y) (fst ij)) (bcast (a_cols y) (snd ij)))) (indices x) = gaps x y).
  { apply map_ext_in. intros ij H. apply in_indices in H. destruct H as [H1 H2].
    assert (B : forall n i, (i < n)%nat -> bcast n i = i).
    { intros n i Hi. unfold bcast. destruct (Nat.eqb_spec n 1); [lia|reflexivity]. }
    rewrite !B by lia. reflexivity. }
  rewrite E. destruct (Req_EM_T p 1) as [-> | Hp1].
  - rewrite norm_1 by apply gaps_nonneg. reflexivity.
  - destruct (Req_EM_T p 0); [lra|]. destruct (Rlt_dec p 0); [lra|]. reflexivity.
Qed.
Lemma gaps_sym : forall x y, same_shape x y -> gaps x y = gaps y x.
Proof.
  intros x y [Hr Hc]. unfold gaps, indices. rewrite Hr, Hc. apply map_ext. intros ij. apply Rabs_minus_sym.
Qed.
Lemma gaps_zero : forall x y, Forall (fun v => v = 0) (gaps x y) <-> same_values x y.
Proof.
  intros x y. unfold gaps. rewrite Forall_map, Forall_forall. split.
  - intros H i j Hi Hj. specialize (H (i, j)). cbn [fst snd] in H.
    assert (E : Rabs (a_at x i j - a_at y i j) = 0) by (apply H, in_indices; split; assumption).
    revert E. unfold Rabs. destruct (Rcase_abs (a_at x i j - a_at y i j)); lra.
  - intros H ij Hi. apply in_indices in Hi. rewrite (H (fst ij) (snd ij)) by apply Hi.
    rewrite Rminus_diag_eq by reflexivity. apply Rabs_R0.
Qed.

(** For every exponent the distance of arrays of the same shape is a
    non-negative number, the same in both directions, and zero exactly when the
    arrays are equal. *)
Theorem c47_distance : forall x y p, same_shape x y -> 0 < p ->
  exists d, lp_distance x y p = Ok d /\ lp_distance y x p = Ok d /\ 0 <= d /\ (d = 0 <-> same_values x y).
Proof.
  intros x y p H Hp. exists (norm p (gaps x y)).
  split; [apply lp_same_shape; assumption|]. split.
  { rewrite (gaps_sym x y H). apply lp_same_shape; [|assumption]. destruct H. split; symmetry; assumption. }
  split; [apply norm_nonneg|]. rewrite norm_zero by assumption. apply gaps_zero.
Qed.
Print Assumptions c47_distance.

(** Triangle inequality for every exponent from 1 on. *)
Theorem c47_triangle : forall x y z p a b c, same_shape x y -> same_shape y z -> 1 <= p ->
  lp_distance x y p = Ok a -> lp_distance y z p = Ok b -> lp_distance x z p = Ok c -> c <= a + b.
Proof.
  intros x y z p a b c Hxy Hyz Hp Ha Hb Hc.
  assert (Hxz : same_shape x z) by (destruct Hxy, Hyz; split; congruence).
  rewrite lp_same_shape in Ha, Hb, Hc by (assumption || lra).
  injection Ha as <-. injection Hb as <-. injection Hc as <-.
  assert (E : gaps y z = map (fun ij => Rabs (a_at y (fst ij) (snd ij) - a_at z (fst ij) (snd ij))) (indices x)).
  { unfold gaps, indices. destruct Hxy as [-> ->]. reflexivity. }
  rewrite E. unfold gaps. eapply Rle_trans; [|apply minkowski; [assumption| |]; intros ij; apply Rabs_pos].
  apply norm_mono; [lra|]. clear E. induction (indices x) as [|ij l IH]; [constructor|].
  cbn [map]. constructor; [|exact IH].
  split; [apply Rabs_pos|].
  replace (a_at x (fst ij) (snd ij) - a_at z (fst ij) (snd ij))
    with ((a_at x (fst ij) (snd ij) - a_at y (fst ij) (snd ij)) + (a_at y (fst ij) (snd ij) - a_at z (fst ij) (snd ij)))
    by ring.
  apply Rabs_triang.
Qed.
Print Assumptions c47_triangle.

(** A row of numbers. *)
Definition row (l : list R) : arr := mkArr 1 (List.length l) (fun _ j => nth j l 0).

(** Finding: below 1 the triangle inequality fails. *)
Theorem c47_triangle_refuted : exists x y z a b c, same_shape x y /\ same_shape y z /\
  lp_distance x y (1 / 2) = Ok a /\ lp_distance y z (1 / 2) = Ok b /\ lp_distance x z (1 / 2) = Ok c /\ a + b < c.
Proof.
  exists (row [1; 0]), (row [0; 0]), (row [0; 1]).
  assert (S1 : same_shape (row [1; 0]) (row [0; 0])) by (split; reflexivity).
  assert (S2 : same_shape (row [0; 0]) (row [0; 1])) by (split; reflexivity).
  assert (S3 : same_shape (row [1; 0]) (row [0; 1])) by (split; reflexivity).
  do 3 eexists. split; [assumption|]. split; [assumption|].
  split; [apply lp_same_shape; [assumption|lra]|]. split; [apply lp_same_shape; [assumption|lra]|].
  split; [apply lp_same_shape; [assumption|lra]|].
  assert (G1 : gaps (row [1; 0]) (row [0; 0]) = [1; 0]).
  { cbn. rewrite !Rminus_0_r, Rabs_R1, Rabs_R0. reflexivity. }
  assert (G2 : gaps (row [0; 0]) (row [0; 1]) = [0; 1]).
  { cbn. rewrite !Rminus_0_r, Rabs_R0. f_equal. f_equal. rewrite Rminus_0_l, Rabs_Ropp. apply Rabs_R1. }
  assert (G3 : gaps (row [1; 0]) (row [0; 1]) = [1; 1]).
  { cbn. rewrite !Rminus_0_r, Rabs_R1. f_equal. f_equal. rewrite Rminus_0_l, Rabs_Ropp. apply Rabs_R1. }
  rewrite G1, G2, G3. unfold norm. cbn [map rsum fold_right]. rewrite !power_0, !power_one.
  rewrite !Rplus_0_r, !Rplus_0_l. replace (1 / (1 / 2)) with 2 by lra.
  rewrite !power_2 by lra. lra.
Qed.
Print Assumptions c47_triangle_refuted.

(** The sum of the moduli for exponent 1, the Euclidean distance for 2. *)
Theorem c47_values : forall x y, same_shape x y ->
  let diff := map (fun ij => a_at x (fst ij) (snd ij) - a_at y (fst ij) (snd ij))
                  (list_prod (seq 0 (a_rows x)) (seq 0 (a_cols x))) in
  lp_distance x y 1 = Ok (rsum (map Rabs diff)) /\
  lp_distance x y 2 = Ok (sqrt (rsum (map (fun v => v * v) diff))).
Proof.
  intros x y H diff. rewrite !lp_same_shape by (assumption || lra). split.
  - rewrite norm_1 by apply gaps_nonneg. unfold diff. rewrite map_map. reflexivity.
  - unfold norm. rewrite power_half by apply rsum_powers_nonneg.
    f_equal. f_equal. unfold gaps, diff. rewrite !map_map. apply rsum_map_ext. intros ij _.
    rewrite power_2 by apply Rabs_pos. rewrite <- Rabs_mult. apply Rabs_pos_eq.
    apply Rle_0_sqr.
Qed.
Print Assumptions c47_values.

(** Scaling both arrays scales the distance. *)
Theorem c47_scale : forall x y p k d, same_shape x y -> 0 < p -> lp_distance x y p = Ok d ->
  lp_distance (mkArr (a_rows x) (a_cols x) (fun i j => k * a_at x i j))
              (mkArr (a_rows y) (a_cols y) (fun i j => k * a_at y i j)) p = Ok (Rabs k * d).
Proof.
  intros x y p k d H Hp Hd. rewrite lp_same_shape in Hd by assumption. injection Hd as <-.
  rewrite lp_same_shape by (destruct H; try assumption; split; assumption).
  rewrite <- norm_scale; [| assumption | apply Rabs_pos | apply gaps_nonneg].
  f_equal. f_equal. unfold gaps, indices. cbn [a_rows a_cols a_at]. rewrite map_map. apply map_ext. intros ij.
  rewrite <- Rmult_minus_distr_l. apply Rabs_mult.
Qed.
Print Assumptions c47_scale.

Example c47_distance_example :
  lp_distance (row [3; 0]) (row [0; 4]) 1 = Ok 7 /\ lp_distance (row [3; 0]) (row [0; 4]) 2 = Ok 5.
Proof.
  assert (S : same_shape (row [3; 0]) (row [0; 4])) by (split; reflexivity).
  destruct (c47_values _ _ S) as [E1 E2]. rewrite E1, E2. cbn. split; f_equal.
  - rewrite Rminus_0_r, Rminus_0_l, Rabs_Ropp, !Rabs_pos_eq by lra. ring.
  - replace ((3 - 0) * (3 - 0) + ((0 - 4) * (0 - 4) + 0)) with (5 * 5) by ring. apply sqrt_square. lra.
Qed.

(** A second array with one row, or one column, counts as if it were repeated
    along that axis. *)
Theorem c47_broadcast : forall x y y' p, 
  a_rows y = a_rows x \/ a_rows y = 1%nat -> a_cols y = a_cols x \/ a_cols y = 1%nat -> same_shape x y' ->
  (forall i j, (i < a_rows x)%nat -> (j < a_cols x)%nat ->
     a_at y' i j = a_at y (Nat.min i (a_rows y - 1)) (Nat.min j (a_cols y - 1))) ->
  lp_distance x y p = lp_distance x y' p.
Proof.
  intros x y y' p Hr Hc [Hr' Hc'] H. unfold lp_distance, fits. rewrite <- Hr', <- Hc', !Nat.eqb_refl.
  replace (Nat.eqb (a_rows y) (a_rows x) || Nat.eqb (a_rows y) 1) with true.
  2:{ symmetry. apply orb_true_iff. rewrite !Nat.eqb_eq. exact Hr. }
  replace (Nat.eqb (a_cols y) (a_cols x) || Nat.eqb (a_cols y) 1) with true.
  2:{ symmetry. apply orb_true_iff. rewrite !Nat.eqb_eq. exact Hc. }
  cbn [orb andb]. rewrite !(map_map _ Rabs).
  assert (E : map (fun ij => Rabs (a_at x (fst ij) (snd ij) -
                a_at y (bcast (a_rows y) (fst ij)) (bcast (a_cols y) (snd ij)))) (indices x) =
              map (fun ij => Rabs (a_at x (fst ij) (snd ij) -
                a_at y' (bcast (a_rows x) (fst ij)) (bcast (a_cols x) (snd ij)))) (indices x)).
  { apply map_ext_in. intros ij Hi. apply in_indices in Hi. destruct Hi as [Hi Hj].
    assert (B : forall n i, (i < n)%nat -> bcast n i = i).
    { intros n i Hi'. unfold bcast. destruct (Nat.eqb_spec n 1); [lia|reflexivity]. }
    assert (C : forall n m i, n = m \/ n = 1%nat -> (i < m)%nat -> bcast n i = Nat.min i (n - 1)).
    { intros n m i [-> | ->] Hi'; [rewrite B by assumption; lia|]. unfold bcast. cbn. lia. }
    rewrite (B (a_rows x)), (B (a_cols x)), H by assumption.
    rewrite (C _ _ _ Hr Hi), (C _ _ _ Hc Hj). reflexivity. }
  rewrite E. reflexivity.
Qed.
Print Assumptions c47_broadcast.

Example c47_broadcast_example :
  lp_distance (mkArr 2 2 (fun i j => INR (2 * i + j))) (row [0; 5]) 1 =
  lp_distance (mkArr 2 2 (fun i j => INR (2 * i + j))) (mkArr 2 2 (fun i j => nth j [0; 5] 0)) 1.
Proof.
  apply c47_broadcast; [right; reflexivity|left; reflexivity|split; reflexivity|].
  intros [|[|i]] [|[|j]] Hi Hj; cbn in *; try lia; reflexivity.
Qed.

(** Finding: the second array is broadcast to the shape of the first one, so
    that a recording with one frame can be compared in one direction only. *)
Theorem c47_shape_refuted : exists x y d,
  lp_distance x y 1 = Ok d /\ lp_distance y x 1 = Err ValueError.
Proof.
  exists (row [1; 2]), (row [1]). eexists. unfold lp_distance. cbn. split; [|reflexivity].
  destruct (Req_EM_T 1 1); [reflexivity|lra].
Qed.
Print Assumptions c47_shape_refuted.

(** Finding: the distance of unsigned integers wraps around and depends on the
    direction. *)
Theorem c47_unsigned_refuted :
  lp_distance_unsigned 8 [0%Z] [1%Z] = Ok 255%Z /\ lp_distance_unsigned 8 [1%Z] [0%Z] = Ok 1%Z.
Proof. split; reflexivity. Qed.
Print Assumptions c47_unsigned_refuted.

(** ** C47: spectral loss *)

(** A short-time transform whose shape and exceptions depend only on the size
    of the audio (and on the window). *)
Definition regular (stft : list R -> Z -> Z -> list R -> res arr) : Prop :=
  forall w n o x y, List.length x = List.length y ->
  match stft w n o x, stft w n o y with
  | Ok a, Ok b => same_shape a b
  | Err e, Err f => e = f
  | _, _ => False
  end.

(** The loss in terms of the two arrays of moduli. *)
Definition spectral (l : lparams) (a b : arr) : R :=
  norm (l_norm_p l) (gaps a b) +
  match l_alpha l with None => 1 / Rmax 1 (- l_floor_db l) | Some a => a end *
  norm (l_norm_p l) (gaps (amap (level (l_floor_db l)) a) (amap (level (l_floor_db l)) b)).
Definition analysis get_window (stft : list R -> Z -> Z -> list R -> res arr) (l : lparams) (x : list R) : res arr :=
  do w <- match l_w l with
          | Some w => Ok w
          | None => get_window (l_wtype l) (match l_wsize l with None => l_n l | Some s => s end)
          end;
  stft w (l_n l) (Rtrunc (l_olap l * INR (List.length w))) x.

Lemma lin_log_spec : forall get_window stft l x y, regular stft -> List.length x = List.length y -> 0 < l_norm_p l ->
  match analysis get_window stft l x, analysis get_window stft l y with
  | Ok a, Ok b => same_shape a b /\ lin_log_spectral_loss get_window stft l x y = Ok (spectral l a b)
  | Err e, Err f => e = f /\ lin_log_spectral_loss get_window stft l x y = Err e
  | _, _ => False
  end.
Proof.
  intros get_window stft l x y Hs Hxy Hp. unfold analysis, lin_log_spectral_loss.
  destruct (match l_w l with
            | Some w => Ok w
            | None => get_window (l_wtype l) (match l_wsize l with None => l_n l | Some s => s end)
            end) as [w|e]; cbn [bind]; [|split; reflexivity].
  specialize (Hs w (l_n l) (Rtrunc (l_olap l * INR (List.length w))) x y Hxy).
  destruct (stft w (l_n l) _ x) as [a|e]; destruct (stft w (l_n l) _ y) as [b|f]; cbn [bind]; try contradiction.
  - split; [assumption|]. rewrite lp_same_shape by assumption. cbn [bind].
    rewrite lp_same_shape by assumption. reflexivity.
  - split; [assumption|reflexivity].
Qed.
Lemma analysis_spec : forall get_window stft l x y, regular stft -> List.length x = List.length y ->
  match analysis get_window stft l x, analysis get_window stft l y with
  | Ok a, Ok b => same_shape a b
  | Err e, Err f => e = f
  | _, _ => False
  end.
Proof.
  intros get_window stft l x y Hs Hxy. unfold analysis.
  destruct (match l_w l with Some w => Ok w | None => _ end) as [w|e]; cbn [bind]; [|reflexivity].
  apply Hs, Hxy.
Qed.
Lemma level_values : forall fl a b, same_values a b -> same_values (amap (level fl) a) (amap (level fl) b).
Proof. intros fl a b H i j Hi Hj. cbn. f_equal. apply H; assumption. Qed.
Definition alpha_of (l : lparams) : R := match l_alpha l with None => 1 / Rmax 1 (- l_floor_db l) | Some a => a end.
Lemma alpha_nonneg : forall l, match l_alpha l with Some a => 0 <= a | None => True end -> 0 <= alpha_of l.
Proof.
  intros l H. unfold alpha_of. destruct (l_alpha l) as [a|]; [assumption|].
  apply div_nonneg; [lra|]. pose proof (Rmax_l 1 (- l_floor_db l)). lra.
Qed.

(** For recordings of the same size: the loss is the same in both directions (or
    the same exception is raised); it is not negative unless a negative weight
    was given; it is zero exactly when the two magnitude spectrograms are
    equal. *)
Theorem c47_spectral_loss : forall get_window stft l x y, regular stft -> List.length x = List.length y ->
  0 < l_norm_p l -> match l_alpha l with Some a => 0 <= a | None => True end ->
  lin_log_spectral_loss get_window stft l x y = lin_log_spectral_loss get_window stft l y x /\
  (forall d, lin_log_spectral_loss get_window stft l x y = Ok d -> 0 <= d /\
     exists w a b,
       match l_w l with
       | Some w' => w = w'
       | None => get_window (l_wtype l) (match l_wsize l with None => l_n l | Some s => s end) = Ok w
       end /\
       stft w (l_n l) (Rtrunc (l_olap l * INR (List.length w))) x = Ok a /\
       stft w (l_n l) (Rtrunc (l_olap l * INR (List.length w))) y = Ok b /\
       (d = 0 <-> same_values a b)).
Proof.
  intros get_window stft l x y Hs Hxy Hp Ha.
  pose proof (lin_log_spec get_window stft l x y Hs Hxy Hp) as E1.
  pose proof (lin_log_spec get_window stft l y x Hs (eq_sym Hxy) Hp) as E2.
  apply alpha_nonneg in Ha.
  destruct (analysis get_window stft l x) as [a|e] eqn:Ea; destruct (analysis get_window stft l y) as [b|f] eqn:Eb;
    try contradiction.
  - destruct E1 as [S E1], E2 as [S' E2]. rewrite E1, E2. split.
    + f_equal. unfold spectral. rewrite (gaps_sym a b) by assumption.
      rewrite (gaps_sym (amap _ a)) by assumption. reflexivity.
    + intros d [= <-]. fold (alpha_of l) in *. unfold spectral. fold (alpha_of l).
      set (n1 := norm (l_norm_p l) (gaps a b)).
      set (n2 := norm (l_norm_p l) (gaps (amap (level (l_floor_db l)) a) (amap (level (l_floor_db l)) b))).
      assert (0 <= n1) by apply norm_nonneg. assert (0 <= n2) by apply norm_nonneg.
      assert (0 <= alpha_of l * n2) by (apply Rmult_le_pos; assumption).
      split; [lra|].
      unfold analysis in Ea, Eb.
      destruct (match l_w l with Some w => Ok w | None => _ end) as [w|] eqn:Ew; cbn [bind] in Ea, Eb; [|discriminate].
      exists w, a, b. split; [destruct (l_w l); [congruence|assumption]|]. split; [assumption|]. split; [assumption|].
      split.
      * intros E. apply gaps_zero, (norm_zero (l_norm_p l)); [assumption|]. fold n1. lra.
      * intros E. assert (N1 : n1 = 0) by (apply norm_zero, gaps_zero; assumption).
        assert (N2 : n2 = 0) by (apply norm_zero, gaps_zero, level_values; assumption).
        rewrite N1, N2. ring.
  - destruct E1 as [-> E1], E2 as [_ E2]. rewrite E1, E2. split; [reflexivity|]. intros d [=].
Qed.
Print Assumptions c47_spectral_loss.

(** Equal recordings have no loss. *)
Theorem c47_equal_zero : forall get_window stft l x d, regular stft -> 0 < l_norm_p l ->
  lin_log_spectral_loss get_window stft l x x = Ok d -> d = 0.
Proof.
  intros get_window stft l x d Hs Hp H.
  pose proof (lin_log_spec get_window stft l x x Hs eq_refl Hp) as E.
  destruct (analysis get_window stft l x) as [a|e]; [|destruct E as [_ E]; congruence].
  destruct E as [_ E]. rewrite E in H. injection H as <-. unfold spectral.
  assert (N : forall b, norm (l_norm_p l) (gaps b b) = 0).
  { intros b. apply norm_zero; [assumption|]. apply gaps_zero. intros i j _ _. reflexivity. }
  rewrite !N. ring.
Qed.
Print Assumptions c47_equal_zero.

(** Triangle inequality of the loss. *)
Theorem c47_loss_triangle : forall get_window stft l x y z a b c, regular stft ->
  List.length x = List.length y -> List.length y = List.length z -> 1 <= l_norm_p l ->
  match l_alpha l with Some a => 0 <= a | None => True end ->
  lin_log_spectral_loss get_window stft l x y = Ok a -> lin_log_spectral_loss get_window stft l y z = Ok b ->
  lin_log_spectral_loss get_window stft l x z = Ok c -> c <= a + b.
Proof.
  intros get_window stft l x y z a b c Hs Hxy Hyz Hp Ha E1 E2 E3.
  pose proof (lin_log_spec get_window stft l x y Hs Hxy ltac:(lra)) as S1.
  pose proof (lin_log_spec get_window stft l y z Hs Hyz ltac:(lra)) as S2.
  pose proof (lin_log_spec get_window stft l x z Hs (eq_trans Hxy Hyz) ltac:(lra)) as S3.
  apply alpha_nonneg in Ha.
  destruct (analysis get_window stft l x) as [u|e]; destruct (analysis get_window stft l y) as [v|f];
    try contradiction; [|destruct S1 as [_ S1]; congruence].
  destruct (analysis get_window stft l z) as [w|g]; [|contradiction].
  destruct S1 as [T1 S1], S2 as [T2 S2], S3 as [T3 S3].
  rewrite S1 in E1. rewrite S2 in E2. rewrite S3 in E3.
  injection E1 as <-. injection E2 as <-. injection E3 as <-. unfold spectral. fold (alpha_of l).
  assert (P : 0 < l_norm_p l) by lra.
  assert (D : forall p q r, same_shape p q -> same_shape q r ->
            norm (l_norm_p l) (gaps p r) <= norm (l_norm_p l) (gaps p q) + norm (l_norm_p l) (gaps q r)).
  { intros p q r H1 H2. assert (H3 : same_shape p r) by (destruct H1, H2; split; congruence).
    apply (c47_triangle p q r (l_norm_p l)); try assumption; apply lp_same_shape; assumption. }
  pose proof (D u v w T1 T2).
  pose proof (D (amap (level (l_floor_db l)) u) (amap (level (l_floor_db l)) v) (amap (level (l_floor_db l)) w) T1 T2).
  nra.
Qed.
Print Assumptions c47_loss_triangle.

(** A transform for the examples: one window, no overlap, moduli of the samples. *)
Definition toy_stft (w : list R) (n o : Z) (x : list R) : res arr := Ok (row (map Rabs x)).
Lemma toy_regular : regular toy_stft.
Proof. intros w n o x y H. split; [reflexivity|]. cbn [row a_cols]. rewrite !map_length. exact H. Qed.

(** Finding (phase): different recordings with the same magnitudes have no loss. *)
Theorem c47_phase_refuted : exists stft x y, regular stft /\ x <> y /\
  forall get_window l, l_w l <> None -> 0 < l_norm_p l ->
  lin_log_spectral_loss get_window stft l x y = Ok 0.
Proof.
  exists toy_stft, [1], [-1]. split; [apply toy_regular|]. split; [intros [=]; lra|].
  intros get_window l Hw Hp.
  pose proof (lin_log_spec get_window toy_stft l [1] [-1] toy_regular eq_refl Hp) as E.
  unfold analysis in E. destruct (l_w l) as [w|]; [|congruence]. cbn [bind toy_stft] in E.
  destruct E as [_ E]. rewrite E. f_equal. unfold spectral.
  assert (V : map Rabs [1] = map Rabs [-1]).
  { cbn. f_equal. change (-1) with (- (1)). symmetry. apply Rabs_Ropp. }
  rewrite V.
  assert (N : forall b, norm (l_norm_p l) (gaps b b) = 0).
  { intros b. apply norm_zero; [assumption|]. apply gaps_zero. intros i j _ _. reflexivity. }
  rewrite !N. ring.
Qed.
Print Assumptions c47_phase_refuted.

(** Level in decibels of a modulus that is not below a floor. *)
Definition decibels (floor_db v : R) : R :=
  if Rle_dec v (Rpower 10 (floor_db / 20)) then floor_db else 20 * (ln v / ln 10).
Lemma level_decibels : forall fl v, level fl v = decibels fl v.
Proof.
  intros fl v. assert (L : 0 < ln 10) by (rewrite <- ln_1; apply ln_increasing; lra).
  unfold level, decibels, a2db, db2a, log10. destruct (Rle_dec v (Rpower 10 (fl / 20))) as [H|H].
  - rewrite Rmax_right by assumption. unfold Rpower. rewrite ln_exp. field. lra.
  - rewrite Rmax_left by lra. reflexivity.
Qed.

(** With exponent 1 the loss is the sum of the differences of the moduli plus
    the weighted sum of the differences of their levels; levels below the floor
    count as the floor. *)
Theorem c47_loss_value : forall get_window stft l x y d, regular stft -> List.length x = List.length y ->
  l_norm_p l = 1 -> lin_log_spectral_loss get_window stft l x y = Ok d ->
  exists w a b,
    match l_w l with
    | Some w' => w = w'
    | None => get_window (l_wtype l) (match l_wsize l with None => l_n l | Some s => s end) = Ok w
    end /\
    stft w (l_n l) (Rtrunc (l_olap l * INR (List.length w))) x = Ok a /\
    stft w (l_n l) (Rtrunc (l_olap l * INR (List.length w))) y = Ok b /\
    d = rsum (map (fun ij => Rabs (a_at a (fst ij) (snd ij) - a_at b (fst ij) (snd ij))) 
                  (list_prod (seq 0 (a_rows a)) (seq 0 (a_cols a)))) +
        match l_alpha l with None => 1 / Rmax 1 (- l_floor_db l) | Some al => al end *
        rsum (map (fun ij => Rabs (decibels (l_floor_db l) (a_at a (fst ij) (snd ij)) -
                                   decibels (l_floor_db l) (a_at b (fst ij) (snd ij))))
                  (list_prod (seq 0 (a_rows a)) (seq 0 (a_cols a)))).
Proof.
  intros get_window stft l x y d Hs Hxy Hp Hd.
  pose proof (lin_log_spec get_window stft l x y Hs Hxy ltac:(lra)) as E. unfold analysis in E.
  destruct (l_w l) as [w|].
  - cbn [bind] in E. exists w.
    destruct (stft w (l_n l) _ x) as [a|e]; destruct (stft w (l_n l) _ y) as [b|f]; try contradiction.
    + exists a, b. destruct E as [_ E]. rewrite E in Hd. injection Hd as <-.
      repeat split. unfold spectral. rewrite Hp, !norm_1 by apply gaps_nonneg.
      unfold gaps, indices, amap. cbn [a_rows a_cols a_at]. f_equal. f_equal. apply rsum_map_ext.
      intros ij _. rewrite !level_decibels. reflexivity.
    + destruct E as [_ E]. congruence.
  - destruct (get_window (l_wtype l) _) as [w|e] eqn:G; cbn [bind] in E.
    + exists w.
      destruct (stft w (l_n l) _ x) as [a|e]; destruct (stft w (l_n l) _ y) as [b|f]; try contradiction.
      * exists a, b. destruct E as [_ E]. rewrite E in Hd. injection Hd as <-.
        repeat split. unfold spectral. rewrite Hp, !norm_1 by apply gaps_nonneg.
        unfold gaps, indices, amap. cbn [a_rows a_cols a_at]. f_equal. f_equal. apply rsum_map_ext.
        intros ij _. rewrite !level_decibels. reflexivity.
      * destruct E as [_ E]. congruence.
    + destruct E as [_ E]. congruence.
Qed.
Print Assumptions c47_loss_value.

(** By default windows are Hamming windows of 2048 samples that share 1536, the
    distances are sums of moduli, levels below -60 dB count as -60 dB and the
    distance of the levels has a weight of a sixtieth. *)
Theorem c47_loss_default : forall get_window stft x y w a b, regular stft -> List.length x = List.length y ->
  get_window "hamming"%string 2048%Z = Ok w -> List.length w = Z.to_nat 2048 ->
  stft w 2048%Z 1536%Z x = Ok a -> stft w 2048%Z 1536%Z y = Ok b ->
  lin_log_spectral_loss get_window stft l_default x y
  = Ok (rsum (gaps a b) + / 60 * rsum (gaps (amap (level (-60)) a) (amap (level (-60)) b))).
Proof.
  intros get_window stft x y w a b Hs Hxy Hw Lw Ha Hb.
  assert (N : Rtrunc (75 / 100 * INR (List.length w)) = 1536%Z).
  { rewrite Lw, INR_IZR_INZ, Z2Nat.id by lia. unfold Rtrunc. destruct (Rle_lt_dec _ _) as [L|L]; [|lra].
    destruct (base_Int_part (75 / 100 * IZR 2048)) as [I1 I2]. set (k := Int_part _) in *.
    assert (1535 < k)%Z by (apply lt_IZR; lra). assert (k < 1537)%Z by (apply lt_IZR; lra). lia. }
  pose proof (lin_log_spec get_window stft l_default x y Hs Hxy ltac:(cbn; lra)) as E.
  unfold analysis in E. cbn [l_default l_w l_wtype l_wsize l_n l_olap] in E. rewrite Hw in E. cbn [bind] in E.
  rewrite N, Ha, Hb in E. destruct E as [_ E]. fold l_default in E. rewrite E. f_equal. unfold spectral.
  cbn [l_default l_alpha l_norm_p l_floor_db]. rewrite !norm_1 by apply gaps_nonneg.
  replace (- (-60)) with 60 by lra. rewrite Rmax_right by lra. unfold Rdiv. rewrite Rmult_1_l. reflexivity.
Qed.
Print Assumptions c47_loss_default.

(** With the default parameters the loss of an impulse against silence: the
    modulus, and a sixtieth of its level above -60 dB. *)
Example c47_spectral_example :
  lin_log_spectral_loss (fun _ _ => Ok [1]) toy_stft l_default [1] [0] = Ok 2.
Proof.
  pose proof (lin_log_spec (fun _ _ => Ok [1]) toy_stft l_default [1] [0] toy_regular eq_refl ltac:(cbn; lra)) as E.
  cbn [analysis l_default l_w bind toy_stft] in E. unfold analysis in E. cbn [l_default l_w bind toy_stft] in E.
  destruct E as [_ E]. rewrite E. f_equal. unfold spectral.
  rewrite !norm_1 by apply gaps_nonneg. cbn [l_default l_alpha l_norm_p l_floor_db].
  unfold gaps, indices, amap, row. cbn [map a_rows a_cols a_at List.length seq list_prod app fst snd nth rsum fold_right].
  rewrite Rabs_R1, Rabs_R0. rewrite !Rminus_0_r, Rabs_R1.
  assert (L : 0 < ln 10) by (rewrite <- ln_1; apply ln_increasing; lra).
  assert (Z : db2a (- 60) = / 1000).
  { unfold db2a. replace (- 60 / 20) with (- (3)) by lra. rewrite Rpower_Ropp. f_equal.
    replace 3 with (INR 3) by (cbn; ring). rewrite Rpower_pow by lra. cbn. ring. }
  unfold level. rewrite Z, (Rmax_left 1 (/ 1000)), (Rmax_right 0 (/ 1000)) by lra.
  unfold a2db, log10. rewrite ln_1. rewrite ln_Rinv by lra.
  assert (T : ln 1000 = INR 3 * ln 10).
  { replace 1000 with (10 ^ 3) by ring. rewrite <- Rpower_pow by lra. unfold Rpower. apply ln_exp. }
  rewrite T.
  replace (20 * (0 / ln 10) - 20 * (- (INR 3 * ln 10) / ln 10)) with 60 by (cbn [INR]; field; lra).
  rewrite (Rabs_pos_eq 60) by lra. replace (- -60) with 60 by lra. rewrite Rmax_right by lra. lra.
Qed.

(** ** C47: several scales *)

Lemma pool_run_spec : forall A (jobs : list (unit -> A)) order, Permutation order (seq 0 (List.length jobs)) ->
  pool_run jobs order = map (fun j => Some (j tt)) jobs.
Proof.
  intros A jobs order H. unfold pool_run.
  assert (G : forall order t, List.length t = List.length jobs ->
    let r := fold_left (fun t i => match nth_error jobs i with Some j => upd i (Some (j tt)) t | None => t end) order t in
    List.length r = List.length jobs /\
    forall i, nth_error r i = if in_dec Nat.eq_dec i order
                              then match nth_error jobs i with Some j => Some (Some (j tt)) | None => nth_error t i end
                              else nth_error t i).
  { clear order H. induction order as [|k order IH]; intros t Ht; cbv zeta; cbn [fold_left]; [split; [assumption|reflexivity]|].
    set (t1 := match nth_error jobs k with Some j => upd k (Some (j tt)) t | None => t end).
    assert (L1 : List.length t1 = List.length jobs).
    { unfold t1. destruct (nth_error jobs k); [rewrite upd_length|]; assumption. }
    destruct (IH t1 L1) as [L2 N]. split; [exact L2|]. intros i. rewrite N.
    assert (T : nth_error t1 i = if Nat.eq_dec i k then match nth_error jobs i with Some j => Some (Some (j tt)) | None => nth_error t i end
                                 else nth_error t i).
    { unfold t1. destruct (Nat.eq_dec i k) as [-> |Hik].
      - destruct (nth_error jobs k) as [j|] eqn:E; [|reflexivity].
        apply nth_error_upd_eq. rewrite Ht. apply nth_error_Some. congruence.
      - destruct (nth_error jobs k) as [j|]; [|reflexivity]. apply nth_error_upd_neq. congruence. }
    rewrite T. destruct (in_dec Nat.eq_dec i (k :: order)) as [J|J].
    - destruct (in_dec Nat.eq_dec i order) as [I|I]; destruct (Nat.eq_dec i k) as [K|K];
        try reflexivity; try (destruct (nth_error jobs i); reflexivity).
      exfalso. destruct J as [J|J]; [congruence|tauto].
    - destruct (in_dec Nat.eq_dec i order) as [I|I]; [exfalso; apply J; right; assumption|].
      destruct (Nat.eq_dec i k) as [K|K]; [exfalso; apply J; left; congruence|reflexivity]. }
  destruct (G order (repeat None (List.length jobs)) (repeat_length _ _)) as [L N]. cbv zeta in N.
  apply nth_error_ext. intros i. rewrite N, nth_error_map.
  destruct (in_dec Nat.eq_dec i order) as [I|I].
  - destruct (nth_error jobs i) eqn:E; [reflexivity|]. cbn.
    apply nth_error_None. rewrite repeat_length. apply nth_error_None. assumption.
  - assert (B : (List.length jobs <= i)%nat).
    { destruct (Nat.le_gt_cases (List.length jobs) i); [assumption|]. exfalso. apply I.
      apply (Permutation_in i (Permutation_sym H)), in_seq. lia. }
    rewrite (proj2 (nth_error_None jobs i) B). apply nth_error_None. rewrite repeat_length. assumption.
Qed.
Lemma sum_calls_all : forall rs vs acc, map (fun r => r tt) rs = map (@Ret R) vs ->
  sum_calls acc rs = Ret (acc + rsum vs).
Proof.
  induction rs as [|r rs IH]; intros [|v vs] acc H; cbn [map] in H; try discriminate.
  - cbn. f_equal. ring.
  - injection H as H1 H2. cbn [sum_calls]. rewrite H1, (IH vs) by assumption. f_equal. change (rsum (v :: vs)) with (v + rsum vs). ring.
Qed.
Lemma sum_calls_raise : forall pre r post vs e m acc, map (fun r => r tt) pre = map (@Ret R) vs -> r tt = Raise e m ->
  sum_calls acc (pre ++ r :: post) = Raise e m.
Proof.
  induction pre as [|q pre IH]; intros r post [|v vs] e m acc H Hr; cbn [map] in H; try discriminate.
  - cbn. rewrite Hr. reflexivity.
  - injection H as H1 H2. cbn [sum_calls app]. rewrite H1. apply (IH r post vs); assumption.
Qed.

(** Any way to run the scales: one after the other, in a given pool, or in a new
    pool with a positive number of processes; [order] is the order in which the
    pool runs the jobs. *)
Definition runs (n : nat) (order : list nat) (pool : bool) (njobs : option Z) : Prop :=
  Permutation order (seq 0 n) /\
  (pool = true \/ match njobs with None => True | Some k => (1 <= k)%Z end).
Lemma multiscale_calls : forall loss stfts order pool njobs kwargs, runs (List.length stfts) order pool njobs ->
  multiscale loss stfts order pool njobs kwargs =
  sum_calls 0 (map (fun kw (_ : unit) => loss (dupdate kw kwargs)) stfts).
Proof.
  intros loss stfts order pool njobs kwargs [Ho Hn]. unfold multiscale.
  set (funcs := map (fun kw (_ : unit) => loss (dupdate kw kwargs)) stfts).
  assert (P : map pool_get (pool_run funcs order) = map (fun kw (_ : unit) => loss (dupdate kw kwargs)) stfts).
  { rewrite pool_run_spec by (unfold funcs; rewrite map_length; assumption).
    unfold funcs. rewrite !map_map. reflexivity. }
  rewrite P. fold funcs. destruct pool; [reflexivity|]. destruct njobs as [k|]; [|reflexivity].
  destruct Hn as [|Hn]; [discriminate|]. destruct (Z.ltb_spec k 1); [lia|reflexivity].
Qed.

(** The loss is the sum of the losses of the scales, however they are run. *)
Theorem c47_multiscale : forall loss stfts order pool njobs kwargs vs,
  runs (List.length stfts) order pool njobs ->
  map (fun kw => loss (dupdate kw kwargs)) stfts = map (@Ret R) vs ->
  multiscale loss stfts order pool njobs kwargs = Ret (rsum vs).
Proof.
  intros loss stfts order pool njobs kwargs vs Hr H. rewrite multiscale_calls by assumption.
  rewrite (sum_calls_all _ vs).
  - f_equal. ring.
  - rewrite map_map. exact H.
Qed.
Print Assumptions c47_multiscale.

(** If a scale fails, the exception of the first one (in the order of the
    scales) is raised, however they are run. *)
Theorem c47_multiscale_raises : forall loss pre kw post order pool njobs kwargs vs e m,
  runs (List.length (pre ++ kw :: post)) order pool njobs ->
  map (fun kw => loss (dupdate kw kwargs)) pre = map (@Ret R) vs ->
  loss (dupdate kw kwargs) = Raise e m ->
  multiscale loss (pre ++ kw :: post) order pool njobs kwargs = Raise e m.
Proof.
  intros loss pre kw post order pool njobs kwargs vs e m Hr H He.
  rewrite multiscale_calls by assumption. rewrite map_app. cbn [map].
  apply (sum_calls_raise _ _ _ vs); [|exact He]. rewrite map_map. exact H.
Qed.
Print Assumptions c47_multiscale_raises.

(** A number of processes below one is a ValueError. *)
Theorem c47_multiscale_processes : forall loss stfts order kwargs k, (k < 1)%Z ->
  exists m, multiscale loss stfts order false (Some k) kwargs = Raise ValueError m.
Proof.
  intros. unfold multiscale. destruct (Z.ltb_spec k 1); [|lia]. eexists. reflexivity.
Qed.
Print Assumptions c47_multiscale_processes.

(** Finding: a keyword argument of the call replaces the one of every scale: if
    a size is given, all scales have this size. *)
Theorem c47_override : forall (loss : base_loss) sizes order pool njobs n v,
  runs (List.length sizes) order pool njobs ->
  loss [("n"%string, VInt n)] = Ret v ->
  multiscale loss (map (fun z => [("n"%string, VInt z)]) sizes) order pool njobs [("n"%string, VInt n)] =
  Ret (INR (List.length sizes) * v).
Proof.
  intros loss sizes order pool njobs n v Hr H.
  rewrite (c47_multiscale _ _ _ _ _ _ (map (fun _ => v) sizes)).
  - f_equal. induction sizes as [|z sizes IH]; [cbn; ring|].
    cbn [map rsum fold_right]. change (fold_right Rplus 0 (map (fun _ => v) sizes)) with (rsum (map (fun _ : Z => v) sizes)).
    assert (E : rsum (map (fun _ : Z => v) sizes) = INR (List.length sizes) * v).
    { clear. induction sizes as [|z sizes IH]; [cbn; ring|].
      cbn [map List.length]. rewrite S_INR. cbn [rsum fold_right].
      fold (rsum (map (fun _ : Z => v) sizes)). rewrite IH. ring. }
    rewrite E. cbn [List.length]. rewrite S_INR. ring.
  - rewrite map_length. exact Hr.
  - rewrite !map_map. apply map_ext. intros z. exact H.
Qed.
Print Assumptions c47_override.

Example c47_multiscale_example :
  let loss kw := match dget "n"%string kw with Some (VInt z) => Ret (IZR z) | _ => Raise TypeError "n"%string end in
  let stfts := [[("n"%string, VInt 64)]; [("n"%string, VInt 128)]] in
  multiscale loss stfts [1%nat; 0%nat] true None [] = Ret 192 /\
  multiscale loss stfts [] false None [] = Ret 192 /\
  multiscale loss stfts [] false None [("n"%string, VInt 1)] = Ret 2.
Proof. cbn. repeat split; f_equal; ring. Qed.

(** The loss on cochleagrams: the same for arrays of the same shape. *)
Theorem c47_cochleagram : forall cochleagram p x y a b, 0 < p ->
  cochleagram x = Ok a -> cochleagram y = Ok b -> same_shape a b ->
  exists d, cochleagram_loss cochleagram p x y = Ok d /\ cochleagram_loss cochleagram p y x = Ok d /\
    0 <= d /\ (d = 0 <-> same_values a b) /\ cochleagram_loss cochleagram p x x = Ok 0.
Proof.
  intros cochleagram p x y a b Hp Ha Hb S. unfold cochleagram_loss. rewrite Ha, Hb. cbn [bind].
  destruct (c47_distance a b p S Hp) as (d & E1 & E2 & D & Z). exists d.
  repeat (split; [assumption|]).
  destruct (c47_distance a a p (conj eq_refl eq_refl) Hp) as (d' & E & _ & _ & Z').
  rewrite E. f_equal. apply Z'. intros i j _ _. reflexivity.
Qed.
Print Assumptions c47_cochleagram.
Example c47_cochleagram_example :
  exists d, cochleagram_loss (fun x => Ok (row (map Rabs x))) 2 [1; -2] [1; 2] = Ok d /\ d = 0.
Proof.
  destruct (c47_cochleagram (fun x => Ok (row (map Rabs x))) 2 [1; -2] [1; 2] _ _ ltac:(lra) eq_refl eq_refl
              (conj eq_refl eq_refl)) as (d & E & _ & _ & Z & _).
  exists d. split; [exact E|]. apply Z. intros i j Hi Hj. cbn in *.
  destruct j as [|[|j]]; [reflexivity| |lia]. change (-2) with (- (2)). apply Rabs_Ropp.
Qed.

(** ** C48: random generation of beats *)

(** A generator whose draws are in the ranges of their distributions. *)
Definition valid_rng {G} (r : rng G) : Prop :=
  (forall a b g, 0 <= fst (r_beta r a b g) <= 1) /\
  (forall l h g, l <= h -> l <= fst (r_uniform r l h g) <= h) /\
  (forall s g, 0 <= s -> 0 <= fst (r_exponential r s g)).

Lemma Rabs_le_inv : forall x a, Rabs x <= a -> - a <= x <= a.
Proof. intros x a. unfold Rabs. destruct (Rcase_abs x); lra. Qed.
Lemma s_bind_ok : forall G A B (m : sampler G A) (k : A -> sampler G B) g b g',
  s_bind m k g = Ok (b, g') -> exists a g1, m g = Ok (a, g1) /\ k a g1 = Ok (b, g').
Proof.
  intros G A B m k g b g' H. unfold s_bind in H. destruct (m g) as [[a g1]|e]; [|discriminate].
  exists a, g1. split; [reflexivity|exact H].
Qed.
Lemma s_repeat_ok : forall G A (m : sampler G A) (P : A -> Prop), (forall g a g', m g = Ok (a, g') -> P a) ->
  forall n g l g', s_repeat n m g = Ok (l, g') -> List.length l = n /\ Forall P l.
Proof.
  intros G A m P HP n. induction n as [|n IH]; intros g l g' H; cbn [s_repeat] in H.
  - injection H as <- _. split; [reflexivity|constructor].
  - apply s_bind_ok in H. destruct H as (a & g1 & Ha & H).
    apply s_bind_ok in H. destruct H as (l1 & g2 & Hl & H). injection H as <- _.
    apply IH in Hl. destruct Hl as [L F]. split; [cbn; now rewrite L|]. constructor; [|exact F].
    exact (HP _ _ _ Ha).
Qed.
Lemma s_repeat_total : forall G A (f : G -> A * G) n g, exists l g', s_repeat n (draw f) g = Ok (l, g').
Proof.
  intros G A f n. induction n as [|n IH]; intros g; [exists [], g; reflexivity|].
  cbn [s_repeat]. unfold s_bind at 1. unfold draw at 1. destruct (f g) as [a g1].
  destruct (IH g1) as (l & g2 & E). exists (a :: l), g2. unfold s_bind. rewrite E. reflexivity.
Qed.

Lemma beta_twosides_ok : forall G (r : rng G) a b left right positive g x g', valid_rng r ->
  beta_twosides r a b left right positive g = Ok (x, g') ->
  exists t s, 0 <= t <= 1 /\ (s = 1 \/ s = -1) /\ (1 <= positive -> s = 1) /\ x = (t * (right - left) + left) * s.
Proof.
  intros G r a b left right positive g x g' (Vb & Vu & _) H. unfold beta_twosides in H.
  apply s_bind_ok in H. destruct H as (t & g1 & Ht & H).
  apply s_bind_ok in H. destruct H as (u & g2 & Hu & H). injection H as <- _.
  assert (T : 0 <= t <= 1) by (unfold draw in Ht; injection Ht as Ht; specialize (Vb a b g); rewrite Ht in Vb; exact Vb).
  assert (U : 0 <= u <= 1).
  { unfold draw in Hu. injection Hu as Hu. specialize (Vu 0 1 g1 ltac:(lra)). rewrite Hu in Vu. exact Vu. }
  exists t. destruct (Rle_lt_dec u positive) as [P|P].
  - exists 1. split; [exact T|]. split; [left; reflexivity|]. split; [reflexivity|]. ring.
  - exists (-1). split; [exact T|]. split; [right; reflexivity|]. split; [lra|]. ring.
Qed.
Lemma beta_twosides_total : forall G (r : rng G) a b left right positive g,
  exists x g', beta_twosides r a b left right positive g = Ok (x, g').
Proof.
  intros. unfold beta_twosides, s_bind, draw. destruct (r_beta r a b g) as [x g1].
  destruct (r_uniform r 0 1 g1) as [u g2]. eexists. eexists. reflexivity.
Qed.

(** The Bark scale. *)
Lemma bark_incr : forall x y, -1960 < x -> x <= y -> bark x <= bark y.
Proof.
  intros x y Hx Hxy. unfold bark. apply Rplus_le_compat_r.
  assert (0 < (1960 + x) * (1960 + y)) by (apply Rmult_lt_0_compat; lra).
  apply (Rmult_le_reg_r ((1960 + x) * (1960 + y))); [assumption|].
  replace (2681 / 100 * x / (1960 + x) * ((1960 + x) * (1960 + y))) with (2681 / 100 * x * (1960 + y)) by (field; lra).
  replace (2681 / 100 * y / (1960 + y) * ((1960 + x) * (1960 + y))) with (2681 / 100 * y * (1960 + x)) by (field; lra).
  nra.
Qed.
Lemma bark_lt : forall x, -1960 < x -> bark x < 2628 / 100.
Proof.
  intros x Hx. unfold bark. apply Rplus_lt_reg_r with (53 / 100).
  apply (Rmult_lt_reg_r (1960 + x)); [lra|].
  replace ((2681 / 100 * x / (1960 + x) - 53 / 100 + 53 / 100) * (1960 + x)) with (2681 / 100 * x) by (field; lra). lra.
Qed.
Lemma hz_bark : forall x, -1960 < x -> hz (bark x) = x.
Proof.
  intros x Hx. unfold hz, bark. field. split; [lra|].
  replace (2628 * (100 * (1960 + x)) - 100 * (2681 * x) + 100 * (1960 + x) * 53) with (525476000) by ring. lra.
Qed.
Lemma hz_incr : forall a b, b < 2628 / 100 -> a <= b -> hz a <= hz b.
Proof.
  intros a b Hb Hab. unfold hz. apply Rmult_le_compat_r; [lra|].
  assert (0 < (2628 / 100 - a) * (2628 / 100 - b)) by (apply Rmult_lt_0_compat; lra).
  apply (Rmult_le_reg_r ((2628 / 100 - a) * (2628 / 100 - b))); [assumption|].
  replace ((53 / 100 + a) / (2628 / 100 - a) * ((2628 / 100 - a) * (2628 / 100 - b)))
    with ((53 / 100 + a) * (2628 / 100 - b)) by (field; lra).
  replace ((53 / 100 + b) / (2628 / 100 - b) * ((2628 / 100 - a) * (2628 / 100 - b)))
    with ((53 / 100 + b) * (2628 / 100 - a)) by (field; lra).
  nra.
Qed.
(** Between the limits in Bark is between the limits in Hz. *)
Lemma hz_between : forall lo hi b, -1960 < lo -> -1960 < hi -> bark lo <= b <= bark hi -> lo <= hz b <= hi.
Proof.
  intros lo hi b Hlo Hhi [H1 H2]. pose proof (bark_lt hi Hhi).
  pose proof (hz_incr (bark lo) b ltac:(lra) H1) as I1. pose proof (hz_incr b (bark hi) ltac:(lra) H2) as I2.
  rewrite hz_bark in I1, I2 by assumption. lra.
Qed.

(** Limits that the parameters of a generator must respect. *)
Definition beat_limits (c : beats) : Prop := 0 < beat_min c <= beat_max c.
Definition within (c : beats) (f : R) : Prop := f_min c <= f <= f_max c.

Lemma twosides_range : forall t s left right, 0 <= t <= 1 -> s = 1 \/ s = -1 -> 0 <= left <= right ->
  left <= Rabs ((t * (right - left) + left) * s) <= right.
Proof.
  intros t s left right Ht Hs Hl.
  assert (B : left <= t * (right - left) + left <= right) by nra.
  destruct Hs as [-> | ->].
  - rewrite Rmult_1_r, Rabs_pos_eq by lra. exact B.
  - replace ((t * (right - left) + left) * -1) with (- (t * (right - left) + left)) by ring.
    rewrite Rabs_Ropp, Rabs_pos_eq by lra. exact B.
Qed.
Lemma inv_f_ok : forall G x (g : G), x <> 0 -> inv_f x g = Ok (1 / x, g).
Proof. intros G x g H. unfold inv_f. destruct (Req_EM_T x 0); [congruence|reflexivity]. Qed.
Lemma inv_range : forall x lo hi, 0 < lo -> lo <= hi -> 1 / hi <= Rabs x <= 1 / lo -> x <> 0 /\ lo <= Rabs (1 / x) <= hi.
Proof.
  intros x lo hi Hlo Hhi [H1 H2].
  assert (I : 0 < 1 / hi) by (apply Rdiv_lt_0_compat; lra).
  assert (X : 0 < Rabs x) by lra.
  assert (X0 : x <> 0) by (intros ->; rewrite Rabs_R0 in X; lra).
  split; [exact X0|]. unfold Rdiv. rewrite Rmult_1_l, Rabs_inv.
  split.
  - apply (Rmult_le_reg_r (Rabs x)); [exact X|]. rewrite Rinv_l by lra.
    apply (Rmult_le_compat_l lo) in H2; [|lra].
    replace (lo * (1 / lo)) with 1 in H2 by (field; lra). lra.
  - apply (Rmult_le_reg_r (Rabs x)); [exact X|]. rewrite Rinv_l by lra.
    apply (Rmult_le_compat_l hi) in H1; [|lra].
    replace (hi * (1 / hi)) with 1 in H1 by (field; lra). lra.
Qed.

(** Three frequencies: two that beat and one that is [delta] Bark away from the
    first.  The difference of the beating ones is in its limits, the distance in
    Bark is in its limits, and all of them are in the limits of the frequencies
    whenever some frequency can be placed with this beat and this distance. *)
Theorem c48_freqs : forall G (r : rng G) c g fr g', valid_rng r -> beat_limits c ->
  0 <= delta_min c <= delta_max c -> -1960 < f_min c - beat_max c -> f_min c <= f_max c ->
  freqs1 r c g = Ok (fr, g') ->
  exists b beat delta, fr = [hz b; hz b + beat; hz (b + delta)] /\
    beat_min c <= Rabs beat <= beat_max c /\ delta_min c <= Rabs delta <= delta_max c /\
    ((exists f, within c f /\ within c (f + beat) /\
                bark (f_min c) <= bark f + delta <= bark (f_max c)) ->
     Forall (within c) fr).
Proof.
  intros G r c g fr g' V [B1 B2] D F1 F2 H. unfold freqs1 in H.
  apply s_bind_ok in H. destruct H as (left & g1 & Hl & H). rewrite inv_f_ok in Hl by lra. injection Hl as <- <-.
  apply s_bind_ok in H. destruct H as (right & g1 & Hr & H). rewrite inv_f_ok in Hr by lra. injection Hr as <- <-.
  apply s_bind_ok in H. destruct H as (x & g1 & Hx & H).
  apply beta_twosides_ok in Hx; [|exact V]. destruct Hx as (t & s & Ht & Hs & _ & ->).
  assert (I : 0 <= 1 / beat_max c <= 1 / beat_min c).
  { split; [apply div_nonneg; lra|]. unfold Rdiv. apply Rmult_le_compat_l; [lra|]. apply Rinv_le_contravar; lra. }
  pose proof (twosides_range t s _ _ Ht Hs I) as R1.
  destruct (inv_range _ _ _ B1 B2 R1) as [X0 R2]. clear R1.
  set (x := (t * (1 / beat_min c - 1 / beat_max c) + 1 / beat_max c) * s) in *.
  apply s_bind_ok in H. destruct H as (beat & g2 & Hb & H). rewrite inv_f_ok in Hb by exact X0. injection Hb as <- <-.
  set (beat := 1 / x) in *.
  apply s_bind_ok in H. destruct H as (delta & g3 & Hd & H).
  apply beta_twosides_ok in Hd; [|exact V]. destruct Hd as (t2 & s2 & Ht2 & Hs2 & _ & ->).
  pose proof (twosides_range t2 s2 _ _ Ht2 Hs2 D) as R3.
  set (delta := (t2 * (delta_max c - delta_min c) + delta_min c) * s2) in *.
  apply s_bind_ok in H. destruct H as (b & g4 & Hf & H).
  apply beta_twosides_ok in Hf; [|exact V]. destruct Hf as (t3 & s3 & Ht3 & _ & Hs3 & ->).
  rewrite (Hs3 ltac:(lra)), Rmult_1_r in H. clear s3 Hs3. rewrite !Rplus_0_r in H.
  set (b := t3 * (b_right c beat delta - b_left c beat delta) + b_left c beat delta) in *.
  injection H as <- _. exists b, beat, delta. split; [reflexivity|]. split; [exact R2|]. split; [exact R3|].
  intros (f & [W1 W2] & [W3 W4] & W5 & W6).
  assert (AB : - beat_max c <= beat <= beat_max c) by (apply Rabs_le_inv, R2).
  (* any possible frequency is in the interval *)
  assert (L : b_left c beat delta <= bark f).
  { unfold b_left, min3.
    assert (bark (f_min c - beat) <= bark f) by (apply bark_incr; lra).
    assert (bark (f_min c) <= bark f) by (apply bark_incr; lra).
    unfold Rmin. repeat destruct (Rle_dec _ _); lra. }
  assert (Rr : bark f <= b_right c beat delta).
  { unfold b_right, max3.
    assert (bark f <= bark (f_max c - beat)) by (apply bark_incr; lra).
    assert (bark f <= bark (f_max c)) by (apply bark_incr; lra).
    unfold Rmax. repeat destruct (Rle_dec _ _); lra. }
  assert (Bb : b_left c beat delta <= b <= b_right c beat delta) by (unfold b; nra).
  assert (BL : bark (f_min c) <= b /\ bark (f_min c - beat) <= b /\ bark (f_min c) <= b + delta).
  { destruct Bb as [Bb _]. revert Bb. unfold b_left, min3, Rmin. repeat destruct (Rle_dec _ _); lra. }
  assert (BR : b <= bark (f_max c) /\ b <= bark (f_max c - beat) /\ b + delta <= bark (f_max c)).
  { destruct Bb as [_ Bb]. revert Bb. unfold b_right, max3, Rmax. repeat destruct (Rle_dec _ _); lra. }
  destruct BL as (BL1 & BL2 & BL3). destruct BR as (BR1 & BR2 & BR3).
  constructor; [|constructor; [|constructor; [|constructor]]].
  - apply hz_between; lra.
  - pose proof (hz_between (f_min c - beat) (f_max c - beat) b ltac:(lra) ltac:(lra) ltac:(lra)). unfold within. lra.
  - apply hz_between; lra.
Qed.
Print Assumptions c48_freqs.

(** A limit of zero for the beats raises ZeroDivisionError, before anything is
    drawn. *)
Theorem c48_freqs_zero : forall G (r : rng G) c g, beat_max c = 0 \/ beat_min c = 0 ->
  freqs1 r c g = Err ZeroDivisionError.
Proof.
  intros G r c g H. unfold freqs1, s_bind at 1, inv_f at 1. destruct (Req_EM_T (beat_max c) 0) as [E|E]; [reflexivity|].
  unfold s_ret at 1, s_bind at 1, inv_f at 1. destruct (Req_EM_T (beat_min c) 0) as [E'|E']; [reflexivity|]. tauto.
Qed.
Print Assumptions c48_freqs_zero.

(** Frequencies can always be sampled if the limits of the beats are positive. *)
Theorem c48_freqs_total : forall G (r : rng G) c g, valid_rng r -> beat_limits c ->
  exists fr g', freqs1 r c g = Ok (fr, g') /\ List.length fr = 3%nat.
Proof.
  intros G r c g V [B1 B2]. unfold freqs1. unfold s_bind at 1. rewrite inv_f_ok by lra.
  unfold s_bind at 1. rewrite inv_f_ok by lra. unfold s_bind at 1.
  destruct (beta_twosides_total G r (beat_a c) (beat_b c) (1 / beat_max c) (1 / beat_min c) (1 / 2) g) as (x & g1 & E).
  rewrite E. apply beta_twosides_ok in E; [|exact V]. destruct E as (t & s & Ht & Hs & _ & Ex).
  assert (I : 0 <= 1 / beat_max c <= 1 / beat_min c).
  { split; [apply div_nonneg; lra|]. unfold Rdiv. apply Rmult_le_compat_l; [lra|]. apply Rinv_le_contravar; lra. }
  pose proof (twosides_range t s _ _ Ht Hs I) as R1. rewrite <- Ex in R1.
  destruct (inv_range _ _ _ B1 B2 R1) as [X0 _].
  unfold s_bind at 1. rewrite inv_f_ok by exact X0.
  set (beat := 1 / x). unfold s_bind at 1.
  destruct (beta_twosides_total G r (delta_a c) (delta_b c) (delta_min c) (delta_max c) (1 / 2) g1) as (y & g2 & E).
  rewrite E. unfold s_bind at 1.
  destruct (beta_twosides_total G r (f_a c) (f_b c) (b_left c beat y) (b_right c beat y) 1 g2) as (z & g3 & E').
  rewrite E'. eexists. eexists. split; reflexivity.
Qed.
Print Assumptions c48_freqs_total.

(** With the default parameters the three frequencies are always in the limits. *)
Theorem c48_default : forall G (r : rng G) g, valid_rng r ->
  exists fr g', freqs1 r default_beats g = Ok (fr, g') /\ Forall (fun f => 200 <= f <= 2000) fr.
Proof.
  intros G r g V.
  destruct (c48_freqs_total G r default_beats g V ltac:(unfold beat_limits; cbn; lra)) as (fr & g' & E & _).
  exists fr, g'. split; [exact E|].
  destruct (c48_freqs G r default_beats g fr g' V) as (b & beat & delta & _ & Hb & Hd & Hw); try assumption;
    try (unfold beat_limits; cbn; lra).
  cbn in Hb, Hd. apply Hw. exists 700. unfold within. cbn [default_beats f_min f_max].
  destruct Hb as [_ Hb]. destruct Hd as [_ Hd]. apply Rabs_le_inv in Hb. apply Rabs_le_inv in Hd.
  split; [lra|]. split; [lra|]. unfold bark. lra.
Qed.
Print Assumptions c48_default.

(** A generator that always draws the middle. *)
Definition middle : rng unit :=
  mkRng unit (fun _ _ g => (1 / 2, g)) (fun l h g => ((l + h) / 2, g)) (fun s g => (s, g)) (fun _ g => (0, g)).
Lemma middle_valid : valid_rng middle.
Proof. repeat split; cbn; intros; lra. Qed.

(** Finding: with a frequency range that is too narrow for the beat and the
    distance, frequencies outside of the limits are returned without notice. *)
Theorem c48_narrow_refuted : exists c fr g',
  beat_limits c /\ 0 <= delta_min c <= delta_max c /\ 0 < f_min c < f_max c /\ beat_max c < f_max c - f_min c /\
  freqs1 middle c tt = Ok (fr, g') /\ ~ Forall (within c) fr.
Proof.
  exists (mkBeats 200 210 2 2 (- 10) (1 / 2) 1 false 2 2 2 2 2 2 2 4 45).
  unfold beat_limits, within. cbn [beat_min beat_max delta_min delta_max f_min f_max].
  unfold freqs1. cbn [beat_min beat_max delta_min delta_max f_min f_max f_a f_b beat_a beat_b delta_a delta_b].
  unfold s_bind at 1. rewrite inv_f_ok by lra. unfold s_bind at 1. rewrite inv_f_ok by lra.
  assert (T : forall a b left right p, 1 / 2 <= p ->
            beta_twosides middle a b left right p tt = Ok ((left + right) / 2, tt)).
  { intros a b left right p Hp. unfold beta_twosides, s_bind, draw, middle. cbn [r_beta r_uniform].
    unfold s_ret. destruct (Rle_lt_dec ((0 + 1) / 2) p); [|lra]. f_equal. f_equal. lra. }
  unfold s_bind at 1. rewrite T by lra. replace ((1 / 2 + 1 / 2) / 2) with (1 / 2) by lra.
  unfold s_bind at 1. rewrite inv_f_ok by lra. replace (1 / (1 / 2)) with 2 by lra.
  unfold s_bind at 1. rewrite T by lra. replace ((2 + 2) / 2) with 2 by lra.
  unfold s_bind at 1. rewrite T by lra.
  do 2 eexists. split; [lra|]. split; [lra|]. split; [lra|]. split; [lra|]. split; [reflexivity|].
  intros H. apply Forall_inv in H. destruct H as [H _]. rewrite Rplus_0_r in H.
  unfold b_left, b_right, min3, max3 in H. cbn [f_min f_max] in H.
  assert (E1 : Rmin (Rmin (bark 200 - bark (200 - 2)) 2) 0 = 0).
  { apply Rmin_right. apply Rmin_glb; [|lra]. unfold bark. lra. }
  assert (E2 : Rmax (Rmax (bark 210 - bark (210 - 2)) 2) 0 = 2).
  { rewrite (Rmax_right _ 2) by (unfold bark; lra). apply Rmax_left. lra. }
  rewrite E1, E2 in H.
  set (b := (bark 200 - 0 + (bark 210 - 2)) / 2) in H.
  assert (Bb : b < 2) by (unfold b, bark; lra).
  assert (Bc : hz b < 200).
  { apply Rlt_le_trans with (hz (bark 190)).
    - assert (b < bark 190) by (unfold b, bark; lra).
      destruct (hz_incr b (bark 190)) as [L|L]; [unfold bark; lra|lra|exact L|].
      exfalso. assert (Q : bark (hz b) = b).
      { unfold hz, bark. field. split; [lra|].
        replace (1960 * (2628 - 100 * b) + (53 + 100 * b) * 1960) with (5254760) by ring. lra. }
      rewrite L, hz_bark in Q by lra. lra.
    - rewrite hz_bark by lra. lra. }
  lra.
Qed.
Print Assumptions c48_narrow_refuted.

(** Decays: three values that are not below the minimum; an expected value below
    the minimum is a ValueError. *)
Theorem c48_decays : forall G (r : rng G) c g, valid_rng r ->
  (decay_min c <= decay c ->
   exists d g', decays1 r c g = Ok (d, g') /\ List.length d = 3%nat /\ Forall (fun v => decay_min c <= v) d) /\
  (decay c < decay_min c -> decays1 r c g = Err ValueError).
Proof.
  intros G r c g (_ & _ & Ve). unfold decays1. split; intros H.
  - destruct (Rlt_dec (decay c - decay_min c) 0); [lra|].
    destruct (s_repeat_total G R (r_exponential r (decay c - decay_min c)) 3 g) as (l & g' & E).
    unfold s_bind. rewrite E. eexists. eexists. split; [reflexivity|].
    apply (s_repeat_ok _ _ _ (fun v => 0 <= v)) in E.
    + destruct E as [L F]. rewrite map_length. split; [exact L|].
      apply Forall_map. eapply Forall_impl; [|exact F]. cbn. intros; lra.
    + intros g0 a g1 Ha. injection Ha as Ha. specialize (Ve (decay c - decay_min c) g0 ltac:(lra)).
      rewrite Ha in Ve. exact Ve.
  - destruct (Rlt_dec (decay c - decay_min c) 0); [reflexivity|lra].
Qed.
Print Assumptions c48_decays.

Lemma snr_amp_pos : forall c, 0 < snr_amp c.
Proof. intros c. apply exp_pos. Qed.

(** Amplitude of noise and of sinusoids: positive, with sum 1 and the given
    ratio. *)
Theorem c48_noise : forall c, 0 < noise_amp c /\ 0 < sine_amp c /\ noise_amp c + sine_amp c = 1 /\
  sine_amp c / noise_amp c = Rpower 10 (snr c / 20).
Proof.
  intros c. pose proof (snr_amp_pos c). unfold noise_amp, sine_amp.
  split; [apply Rdiv_lt_0_compat; lra|]. split; [apply Rdiv_lt_0_compat; lra|].
  split; [field; lra|]. change (Rpower 10 (snr c / 20)) with (snr_amp c). field. lra.
Qed.
Print Assumptions c48_noise.

(** Amplitudes: three values that are not negative with the amplitude of the
    sinusoids as sum; the third one is zero exactly when only the beat is asked
    for. *)
Theorem c48_amps : forall G (r : rng G) c g, exists a1 a2 a3 g', amps1 r c g = Ok ([a1; a2; a3], g') /\
  0 < a1 /\ 0 < a2 /\ 0 <= a3 /\ (a3 = 0 <-> onlybeat c = true) /\ a1 + a2 + a3 = sine_amp c.
Proof.
  intros G r c g. unfold amps1.
  destruct (s_repeat_total G R (r_uniform r (amp_min c) 0) 3 g) as (l & g' & E).
  unfold s_bind. rewrite E.
  apply (s_repeat_ok _ _ _ (fun _ => True)) in E; [|trivial]. destruct E as [L _].
  destruct l as [|x1 [|x2 [|x3 [|? ?]]]]; try discriminate.
  destruct (c48_noise c) as (_ & S & _).
  assert (P : forall x, 0 < db2a x) by (intros; apply exp_pos).
  pose proof (P x1). pose proof (P x2). pose proof (P x3).
  destruct (onlybeat c); cbn [map upd rsum fold_right];
    (eexists; eexists; eexists; eexists; split; [reflexivity|]).
  - assert (0 < sine_amp c / (db2a x1 + (db2a x2 + (0 + 0)))) by (apply Rdiv_lt_0_compat; lra).
    split; [apply Rmult_lt_0_compat; lra|]. split; [apply Rmult_lt_0_compat; lra|].
    rewrite Rmult_0_l. split; [lra|]. split; [split; reflexivity|]. field. lra.
  - assert (0 < sine_amp c / (db2a x1 + (db2a x2 + (db2a x3 + 0)))) by (apply Rdiv_lt_0_compat; lra).
    assert (0 < db2a x3 * (sine_amp c / (db2a x1 + (db2a x2 + (db2a x3 + 0))))) by (apply Rmult_lt_0_compat; lra).
    split; [apply Rmult_lt_0_compat; lra|]. split; [apply Rmult_lt_0_compat; lra|].
    split; [lra|]. split; [split; [lra|discriminate]|]. field. lra.
Qed.
Print Assumptions c48_amps.

(** [size=n] gives the list of [n] single samples drawn one after the other;
    zero and negative numbers give no sample. *)
Theorem c48_size : forall G A (m : sampler G A) n g,
  ((n <= 0)%Z -> repeated_samples m (Some n) g = Ok (Many [], g)) /\
  ((0 <= n)%Z ->
   repeated_samples m (Some (n + 1)%Z) g =
   match repeated_samples m None g with
   | Ok (One a, g1) =>
     match repeated_samples m (Some n) g1 with
     | Ok (Many l, g2) => Ok (Many (a :: l), g2)
     | Ok (One _, _) => Err TypeError
     | Err e => Err e
     end
   | Ok (Many _, _) => Err TypeError
   | Err e => Err e
   end).
Proof.
  intros G A m n g. split; intros H.
  - unfold repeated_samples. replace (Z.to_nat n) with 0%nat by lia. reflexivity.
  - unfold repeated_samples. replace (Z.to_nat (n + 1)) with (S (Z.to_nat n)) by lia.
    change (Z.to_nat 1) with 1%nat. cbn [s_repeat]. unfold s_bind.
    destruct (m g) as [[a g1]|e]; [|reflexivity].
    cbn [s_ret]. unfold s_ret. destruct (s_repeat (Z.to_nat n) m g1) as [[l g2]|e]; reflexivity.
Qed.
Print Assumptions c48_size.

Lemma nth_map_in : forall A B (f : A -> B) l i d d', (i < List.length l)%nat -> nth i (map f l) d' = f (nth i l d).
Proof.
  intros A B f l i d d' H. rewrite (nth_indep _ d' (f d)) by (rewrite map_length; exact H). apply map_nth.
Qed.
Lemma repeated_one : forall G A (m : sampler G A) g s g', repeated_samples m None g = Ok (s, g') ->
  exists a, s = One a /\ m g = Ok (a, g').
Proof.
  intros G A m g s g' H. unfold repeated_samples in H. change (Z.to_nat 1) with 1%nat in H. cbn [s_repeat] in H.
  unfold s_bind, s_ret in H. destruct (m g) as [[a g1]|e]; [|discriminate].
  injection H as <- <-. exists a. split; reflexivity.
Qed.

(** [int]: a number without its fraction. *)
Definition truncated (x : R) (n : Z) : Prop :=
  Rabs (IZR n) <= Rabs x < Rabs (IZR n) + 1 /\ 0 <= IZR n * x.
Lemma Rtrunc_truncated : forall x, truncated x (Rtrunc x).
Proof.
  assert (P : forall x, 0 <= x -> 0 <= IZR (Int_part x) <= x /\ x < IZR (Int_part x) + 1).
  { intros x H. destruct (base_Int_part x) as [H1 H2].
    assert (-1 < Int_part x)%Z by (apply lt_IZR; lra). assert (0 <= Int_part x)%Z as H3 by lia.
    apply IZR_le in H3. lra. }
  intros x. unfold truncated, Rtrunc. destruct (Rle_lt_dec 0 x) as [L|L].
  - destruct (P x L) as [H1 H2]. rewrite !Rabs_pos_eq by lra. split; [lra|]. apply Rmult_le_pos; lra.
  - destruct (P (- x) ltac:(lra)) as [H1 H2]. rewrite opp_IZR, Rabs_Ropp, (Rabs_left x L), Rabs_pos_eq by lra.
    split; [lra|]. replace (- IZR (Int_part (- x)) * x) with (IZR (Int_part (- x)) * - x) by ring. apply Rmult_le_pos; lra.
Qed.

(** The audio is the sum of the three partials with the parameters that are
    returned and of noise, sampled at [int(dur * fs)] times. *)
Theorem c48_audio : forall G (r : rng G) c dur fs g x fs' fr dc am ph g', valid_rng r ->
  beat_limits c -> audio1 r c dur fs g = Ok (x, fs', (fr, dc, am, ph), g') ->
  fs' = fs /\ List.length fr = 3%nat /\ List.length dc = 3%nat /\ List.length am = 3%nat /\ List.length ph = 3%nat /\
  rsum am = sine_amp c /\ Forall (fun v => decay_min c <= v) dc /\ Forall (fun v => 0 <= v <= 2 * PI) ph /\
  exists n z, truncated (match dur with None => decay c * 3 | Some d => d end * fs) n /\ (0 <= n)%Z /\
    List.length z = Z.to_nat n /\ List.length x = Z.to_nat n /\
    forall i, (i < Z.to_nat n)%nat ->
      let t := INR i / fs in
      nth i x 0 = rsum (map (fun k => nth k am 0 * exp (-2 * t / nth k dc 0) * cos (2 * PI * nth k fr 0 * t + nth k ph 0)) [0; 1; 2]%nat)
                  + nth i z 0.
Proof.
  intros G r c dur fs g x fs' fr dc am ph g' V B H. unfold audio1 in H.
  set (n := Rtrunc (match dur with None => decay c * 3 | Some d => d end * fs)) in *.
  apply s_bind_ok in H. destruct H as (fr1 & g1 & Hf & H).
  apply s_bind_ok in H. destruct H as (dc1 & g2 & Hd & H).
  apply s_bind_ok in H. destruct H as (am1 & g3 & Ha & H).
  apply s_bind_ok in H. destruct H as (ph1 & g4 & Hp & H).
  apply repeated_one in Hf. destruct Hf as (fr2 & -> & Hf).
  apply repeated_one in Hd. destruct Hd as (dc2 & -> & Hd).
  apply repeated_one in Ha. destruct Ha as (am2 & -> & Ha).
  destruct (additive_synth _ _ _ _ _ _ _) as [y|e] eqn:Es; [|discriminate].
  apply s_bind_ok in H. destruct H as (z & g5 & Hz & H).
  injection H as <- <- <- <- <- <- _.
  destruct (c48_freqs_total G r c g V B) as (fr' & gf & Ef & Lf). rewrite Ef in Hf. injection Hf as -> ->.
  destruct (c48_amps G r c g2) as (a1 & a2 & a3 & ga & Ea & _ & _ & _ & _ & Sa). rewrite Ea in Ha. injection Ha as <- <-.
  assert (Dd : decay_min c <= decay c).
  { destruct (Rle_lt_dec (decay_min c) (decay c)) as [L|L]; [exact L|].
    destruct (c48_decays G r c g1 V) as [_ E]. rewrite (E L) in Hd. discriminate. }
  destruct (c48_decays G r c g1 V) as [E _]. destruct (E Dd) as (d & gd & Ed & Ld & Fd). clear E.
  rewrite Ed in Hd. injection Hd as -> ->.
  apply (s_repeat_ok _ _ _ (fun v => 0 <= v <= 2 * PI)) in Hp.
  2:{ intros g0 a g6 E. injection E as E. destruct V as (_ & Vu & _).
      specialize (Vu 0 (2 * PI) g0). rewrite E in Vu. apply Vu. pose proof PI_RGT_0. lra. }
  destruct Hp as [Lp Fp].
  split; [reflexivity|]. split; [exact Lf|]. split; [exact Ld|]. split; [reflexivity|]. split; [exact Lp|].
  split; [cbn; lra|]. split; [exact Fd|]. split; [exact Fp|].
  unfold noise1 in Hz. destruct (Z.ltb_spec n 0) as [N|N]; [discriminate|].
  apply (s_repeat_ok _ _ _ (fun _ => True)) in Hz; [|trivial]. destruct Hz as [Lz _].
  exists n, z. split; [apply Rtrunc_truncated|]. split; [exact N|]. split; [exact Lz|].
  unfold additive_synth in Es. cbn [bind] in Es. destruct (_ && _)%bool; [|discriminate]. injection Es as <-.
  split; [rewrite map_length, combine_length, !map_length, seq_length, Lz; lia|].
  intros i Hi t.
  destruct fr2 as [|f1 [|f2 [|f3 [|? ?]]]]; try discriminate Lf.
  destruct dc2 as [|d1 [|d2 [|d3 [|? ?]]]]; try discriminate Ld.
  destruct ph1 as [|p1 [|p2 [|p3 [|? ?]]]]; try discriminate Lp.
  rewrite (nth_map_in _ _ _ _ i (0, 0)) by (rewrite combine_length, !map_length, seq_length, Lz; lia).
  rewrite combine_nth by (rewrite !map_length, seq_length, Lz; reflexivity). cbn [fst snd]. f_equal.
  rewrite (nth_map_in _ _ _ _ i 0) by (rewrite map_length, seq_length; lia).
  rewrite (nth_map_in _ _ _ _ i 0%nat) by (rewrite seq_length; lia). rewrite seq_nth by lia. cbn [Nat.add].
  fold t. cbn [sum4 map rsum fold_right nth]. unfold partial_at.
  assert (E : forall d, t * (-2 / d) = -2 * t / d) by (intros; unfold Rdiv; ring).
  assert (P : forall f p, 2 * PI * t * f + p = 2 * PI * f * t + p) by (intros; ring).
  rewrite !E, !P. ring.
Qed.
Print Assumptions c48_audio.

(** The default parameters with a generator that draws the middle. *)
Example c48_example :
  (exists fr g', freqs1 middle default_beats tt = Ok (fr, g') /\ Forall (fun f => 200 <= f <= 2000) fr) /\
  (exists d g', decays1 middle default_beats tt = Ok (d, g') /\ d = [1; 1; 1]) /\
  (exists a g', amps1 middle default_beats tt = Ok (a, g') /\ rsum a = sine_amp default_beats).
Proof.
  split; [exact (c48_default unit middle tt middle_valid)|]. split.
  - unfold decays1. destruct (Rlt_dec _ 0) as [L|L]; [cbn in L; lra|].
    eexists. eexists. split; [reflexivity|]. cbn. repeat f_equal; lra.
  - destruct (c48_amps unit middle default_beats tt) as (a1 & a2 & a3 & g' & E & _ & _ & _ & _ & S).
    exists [a1; a2; a3], g'. split; [exact E|]. cbn [rsum fold_right]. lra.
Qed.

Lemma Rtrunc_nonneg : forall x, 0 <= x -> (0 <= Rtrunc x)%Z /\ IZR (Rtrunc x) <= x < IZR (Rtrunc x) + 1.
Proof.
  intros x H. unfold Rtrunc. destruct (Rle_lt_dec 0 x); [|lra].
  destruct (base_Int_part x) as [H1 H2]. split; [|lra].
  assert (-1 < Int_part x)%Z by (apply lt_IZR; lra). lia.
Qed.

(** Audio can always be generated for a duration that is not negative (and
    there is none in less than a sample of negative time, which is an empty one). *)
Theorem c48_audio_total : forall G (r : rng G) c dur fs g, valid_rng r -> beat_limits c -> decay_min c <= decay c ->
  -1 < match dur with None => decay c * 3 | Some d => d end * fs ->
  exists x fr dc am ph g', audio1 r c dur fs g = Ok (x, fs, (fr, dc, am, ph), g').
Proof.
  intros G r c dur fs g V B D H. unfold audio1.
  set (n := Rtrunc (match dur with None => decay c * 3 | Some d => d end * fs)).
  assert (N : (0 <= n)%Z).
  { destruct (Rtrunc_truncated (match dur with None => decay c * 3 | Some d => d end * fs)) as [[T1 T2] T3]. fold n in T1, T2, T3.
    destruct (Z_lt_le_dec n 0) as [L|L]; [|exact L]. exfalso. assert (n <= -1)%Z as L' by lia. apply IZR_le in L'.
    rewrite (Rabs_left (IZR n)) in T1, T2 by lra. revert H T1 T2 T3.
    generalize (match dur with None => decay c * 3 | Some d => d end * fs). intros y H T1 T2 T3.
    destruct (Rle_lt_dec 0 y) as [Y|Y].
    - rewrite Rabs_pos_eq in T1, T2 by exact Y. nra.
    - rewrite Rabs_left in T1, T2 by exact Y. lra. }
  assert (One_ : forall A (m : sampler G A) g a g1, m g = Ok (a, g1) -> repeated_samples m None g = Ok (One a, g1)).
  { intros A m g0 a g1 E. unfold repeated_samples. change (Z.to_nat 1) with 1%nat. cbn [s_repeat].
    unfold s_bind, s_ret. rewrite E. reflexivity. }
  destruct (c48_freqs_total G r c g V B) as (fr & g1 & Ef & Lf).
  destruct (c48_decays G r c g1 V) as [Hd _]. destruct (Hd D) as (dc & g2 & Ed & Ld & _).
  destruct (c48_amps G r c g2) as (a1 & a2 & a3 & g3 & Ea & _).
  destruct (s_repeat_total G R (r_uniform r 0 (2 * PI)) 3 g3) as (ph & g4 & Ep).
  pose proof Ep as Lp. apply (s_repeat_ok _ _ _ (fun _ => True)) in Lp; [|trivial]. destruct Lp as [Lp _].
  destruct (s_repeat_total G R (r_normal r (noise_amp c)) (Z.to_nat n) g4) as (z & g5 & Ez).
  unfold s_bind at 1. rewrite (One_ _ _ _ _ _ Ef). unfold s_bind at 1. rewrite (One_ _ _ _ _ _ Ed).
  unfold s_bind at 1. rewrite (One_ _ _ _ _ _ Ea). unfold s_bind at 1. rewrite Ep.
  unfold additive_synth. cbn [bind]. rewrite Lf, Ld, Lp. cbn [List.length Nat.eqb andb].
  unfold s_bind at 1. unfold noise1. destruct (Z.ltb_spec n 0); [lia|]. rewrite Ez.
  do 6 eexists. reflexivity.
Qed.
Print Assumptions c48_audio_total.
Example c48_audio_example : exists x fr dc am ph g',
  audio1 middle default_beats None 44100 tt = Ok (x, 44100, (fr, dc, am, ph), g').
Proof.
  apply c48_audio_total; [exact middle_valid | | |]; try (unfold beat_limits; cbn; lra); cbn; lra.
Qed.
