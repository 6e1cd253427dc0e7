(** Lemmas about sample/sample.py. *)
From Coq Require Import String List Bool ZArith Reals Permutation Sorted Lra Lia.
Import ListNotations.
From Verif Require Import Base Py PyLemmas RLists Sample_Model Sample_Spec.
Local Open Scope R_scope.

(** *** Preprocessing *)

Fixpoint present_idx (k : nat) (l : list (option R)) : list nat :=
  match l with
  | [] => []
  | Some _ :: l' => k :: present_idx (S k) l'
  | None :: l' => present_idx (S k) l'
  end.

Lemma present_idx_ge : forall l k i, In i (present_idx k l) -> (k <= i)%nat.
Proof.
  induction l as [|[v|] l IH]; intros k i H; simpl in *; [tauto| |].
  - destruct H; [lia|]. apply IH in H. lia.
  - apply IH in H. lia.
Qed.

Lemma present_idx_sorted : forall l k, StronglySorted lt (present_idx k l).
Proof.
  induction l as [|[v|] l IH]; intros k; simpl; [constructor| |auto].
  constructor; auto. apply Forall_forall. intros i Hi. apply present_idx_ge in Hi. lia.
Qed.

Lemma present_idx_iff : forall l k i,
  In (k + i)%nat (present_idx k l) <-> exists v, has_value l i v.
Proof.
  unfold has_value. induction l as [|o l IH]; intros k i.
  - simpl. split; [tauto|]. intros (v & H). now destruct i.
  - destruct i as [|i].
    + rewrite Nat.add_0_r. simpl. destruct o as [v|]; simpl.
      * split; eauto.
      * split; [|intros (v & H); discriminate].
        intros H. apply present_idx_ge in H. lia.
    + specialize (IH (S k) i). simpl nth_error. rewrite <- IH.
      replace (S k + i)%nat with (k + S i)%nat by lia.
      destruct o; simpl; [|tauto]. split; [|tauto]. intros [H|H]; [lia|auto].
Qed.

Lemma mask_idx : forall A (d : A) (ms : list (option R)) (v : list A),
  List.length v = List.length ms ->
  mask (map notnan ms) v = map (fun i => nth i v d) (present_idx 0 ms).
Proof.
  intros A d ms v L.
  assert (G : forall ms v k pre, List.length v = List.length ms -> List.length pre = k ->
    mask (map notnan ms) v = map (fun i => nth i (pre ++ v) d) (present_idx k ms)).
  { clear. induction ms as [|o ms IH]; intros v k pre L Lp.
    - destruct v; [reflexivity|discriminate].
    - destruct v as [|x v]; [discriminate|]. simpl in L.
      specialize (IH v (S k) (pre ++ [x])). rewrite <- app_assoc in IH.
      simpl in IH. rewrite app_length in IH. simpl in IH.
      unfold mask in *. destruct o; simpl.
      + rewrite IH by lia. f_equal. rewrite app_nth2 by lia.
        replace (k - List.length pre)%nat with 0%nat by lia. reflexivity.
      + apply IH; lia. }
  apply (G ms v 0%nat []); auto.
Qed.

Lemma preprocess_ok : forall c nx t, aligned t ->
  exists idx fs ms,
    preprocess_track c nx t =
      (map (fun i => frame_time c nx (r_start t + Z.of_nat i)) idx,
       map Some fs, map Some ms) /\
    StronglySorted lt idx /\
    (forall i, In i idx <-> exists v, has_value (r_mag t) i v) /\
    Forall2 (fun i f => has_value (r_freq t) i f) idx fs /\
    Forall2 (fun i m => has_value (r_mag t) i (m - 20 * (ln 2 / ln 10))) idx ms.
Proof.
  intros c nx t (H2 & Lf & Al).
  set (idx := present_idx 0 (r_mag t)).
  assert (Hidx : forall i, In i idx <-> exists v, has_value (r_mag t) i v).
  { intro i. apply (present_idx_iff (r_mag t) 0 i). }
  assert (Fv : forall l, (forall i, In i idx -> exists v, has_value l i v) ->
    forall add, exists vs, map (option_map (fun v => v + add)) (map (fun i => nth i l None) idx) = map Some vs /\
      Forall2 (fun i v => has_value l i (v - add)) idx vs).
  { intros l. clear Hidx. induction idx as [|i idx' IH]; intros H add.
    - exists []. split; [reflexivity|constructor].
    - destruct (IH (fun j Hj => H j (or_intror Hj)) add) as (vs & E & F).
      destruct (H i (or_introl eq_refl)) as (v & Hv).
      exists ((v + add) :: vs). split.
      + simpl. unfold has_value in Hv. rewrite (nth_error_nth l i None Hv). simpl.
        now rewrite E.
      + constructor; auto. now replace (v + add - add) with v by ring. }
  destruct (Fv (r_freq t) (fun i Hi => proj2 (Al i) (proj1 (Hidx i) Hi)) 0) as (fs & Ef & Ff).
  destruct (Fv (r_mag t) (fun i Hi => proj1 (Hidx i) Hi) double_db) as (ms & Em & Fm).
  exists idx, fs, ms.
  split; [|split; [apply present_idx_sorted|split; [exact Hidx|split]]].
  - unfold preprocess_track, filter_field.
    rewrite Lf. destruct (Nat.eqb_spec (List.length (r_mag t)) 1); [lia|].
    rewrite (mask_idx _ 0) by (rewrite map_length, seq_length; auto).
    rewrite !(mask_idx _ None) by auto. fold idx. rewrite Em.
    f_equal; f_equal.
    + assert (N : forall i, In i idx -> nth i (map INR (seq 0 (List.length (r_mag t)))) 0 = INR i).
      { intros i Hi. apply Hidx in Hi. destruct Hi as (v & Hv). unfold has_value in Hv.
        assert (nth_error (r_mag t) i <> None) by congruence. apply nth_error_Some in H.
        rewrite (nth_map_lt _ _ _ 0%nat) by (rewrite seq_length; auto).
        now rewrite seq_nth by auto. }
      rewrite (map_ext_in _ _ _ N).
      assert (Time : forall i, INR i + IZR (r_start t) = IZR (r_start t + Z.of_nat i)).
      { intros i. rewrite plus_IZR, INR_IZR_INZ. ring. }
      assert (Div : forall a, a / (a_fs c / a_h c) = a * a_h c / a_fs c).
      { intro a. unfold Rdiv. rewrite Rinv_mult, Rinv_inv. ring. }
      assert (Half : / 2 * a_wsize c / a_fs c = a_wsize c / (2 * a_fs c)).
      { unfold Rdiv. rewrite Rinv_mult. ring. }
      unfold frame_time. destruct (a_padded c), (a_rev c); rewrite !map_map;
        apply map_ext; intros i; rewrite Time, Div, ?Half; ring.
    + rewrite <- Ef. rewrite map_map. apply map_ext. intros i.
      destruct (nth i (r_freq t) None); simpl; [f_equal; ring|reflexivity].
  - clear -Ff. induction Ff; constructor; auto. now rewrite Rminus_0_r in H.
  - exact Fm.
Qed.

Lemma frame_time_monotone : forall c nx g g', 0 < a_fs c -> 0 < a_h c -> (g < g')%Z ->
  (a_rev c = false -> frame_time c nx g < frame_time c nx g') /\
  (a_rev c = true -> frame_time c nx g' < frame_time c nx g).
Proof.
  intros c nx g g' Hf Hh Hg. apply IZR_lt in Hg.
  assert (IZR g * a_h c / a_fs c < IZR g' * a_h c / a_fs c).
  { unfold Rdiv. apply Rmult_lt_compat_r; [now apply Rinv_0_lt_compat|].
    now apply Rmult_lt_compat_r. }
  unfold frame_time. split; intros ->; destruct (a_padded c); lra.
Qed.

Lemma frame_spacing : forall c nx g,
  frame_time c nx (g + 1) - frame_time c nx g =
  (if a_rev c then -1 else 1) * (a_h c / a_fs c).
Proof.
  intros. unfold frame_time. rewrite plus_IZR. unfold Rdiv.
  destruct (a_rev c), (a_padded c); ring.
Qed.

(** Difference between the time assigned to a frame and the time of the sample
    the zero-phase spectrum refers to. *)
Lemma time_offset : forall fs nx (h w g : Z) (padded reverse : bool),
  fs <> 0 ->
  let s := (if padded then g * h - w mod 2 else g * h + w / 2)%Z in
  let true_time := (if reverse then nx - 1 - IZR s else IZR s) / fs in
  frame_time (mkACfg fs (IZR h) (IZR w) padded reverse) nx g - true_time =
  (match padded, reverse with
   | false, false => IZR (w mod 2) / 2
   | true, false => IZR (w mod 2)
   | false, true => 1 - IZR (w mod 2) / 2
   | true, true => 1 - IZR (w mod 2)
   end) / fs.
Proof.
  intros fs nx h w g padded reverse Hf s true_time. unfold frame_time, true_time, s. simpl.
  assert (W : IZR w = 2 * IZR (w / 2) + IZR (w mod 2)).
  { rewrite <- mult_IZR, <- plus_IZR. f_equal. apply Z.div_mod. lia. }
  destruct padded, reverse; rewrite ?minus_IZR, ?plus_IZR, ?mult_IZR;
    try rewrite W at 1; field; auto.
Qed.

(** *** Decay and amplitude *)

Lemma ln10_pos : 0 < ln 10.
Proof. rewrite <- ln_1. apply ln_increasing; lra. Qed.

Lemma log10_exp1 : log10 (exp 1) = / ln 10.
Proof. unfold log10. rewrite ln_exp. unfold Rdiv. ring. Qed.

Lemma a2db_db2a : forall q, a2db (db2a q) = q.
Proof.
  intros. unfold a2db, db2a, log10, Rpower. rewrite ln_exp.
  pose proof ln10_pos. field. lra.
Qed.

Lemma db2a_a2db : forall a, 0 < a -> db2a (a2db a) = a.
Proof.
  intros a Ha. unfold a2db, db2a, log10, Rpower.
  pose proof ln10_pos.
  replace (20 * (ln a / ln 10) / 20 * ln 10) with (ln a) by (field; lra).
  now apply exp_ln.
Qed.

Lemma envelope_db : forall a d t, 0 < a -> d <> 0 ->
  a2db (envelope a d t) = d2k_const / d * t + a2db a.
Proof.
  intros a d t Ha Hd. unfold envelope, a2db, d2k_const, log10.
  rewrite ln_mult by (auto; apply exp_pos). rewrite !ln_exp.
  pose proof ln10_pos. field. lra.
Qed.

Lemma recovery : forall a d, 0 < a -> d <> 0 ->
  exists k q, (forall t, a2db (envelope a d t) = k * t + q) /\
    track_decay k = d /\ track_amp q = a.
Proof.
  intros a d Ha Hd. exists (d2k_const / d), (a2db a).
  split; [|split].
  - intro t. now apply envelope_db.
  - unfold track_decay. assert (d2k_const <> 0).
    { unfold d2k_const. rewrite log10_exp1. pose proof ln10_pos.
      apply Rmult_integral_contrapositive. split; [lra|]. apply Rinv_neq_0_compat. lra. }
    field. auto.
  - now apply db2a_a2db.
Qed.

Lemma line_unique : forall k q k' q',
  (forall t, k * t + q = k' * t + q') -> k = k' /\ q = q'.
Proof. intros. pose proof (H 0). pose proof (H 1). lra. Qed.

Lemma recovery_unique : forall a d k q, 0 < a -> d <> 0 ->
  (forall t, a2db (envelope a d t) = k * t + q) ->
  track_decay k = d /\ track_amp q = a.
Proof.
  intros a d k q Ha Hd H. destruct (recovery a d Ha Hd) as (k' & q' & H' & D & A).
  destruct (line_unique k q k' q') as [-> ->]; auto.
  intro t. now rewrite <- H, H'.
Qed.

Lemma resynthesis : forall k q t, k <> 0 ->
  0 < envelope (track_amp q) (track_decay k) t /\
  a2db (envelope (track_amp q) (track_decay k) t) = k * t + q.
Proof.
  intros k q t Hk. assert (A : 0 < track_amp q) by apply exp_pos.
  assert (C : d2k_const <> 0).
  { unfold d2k_const. rewrite log10_exp1. pose proof ln10_pos.
    apply Rmult_integral_contrapositive. split; [lra|]. apply Rinv_neq_0_compat. lra. }
  split. { unfold envelope. apply Rmult_lt_0_compat; auto. apply exp_pos. }
  assert (Hd : track_decay k <> 0).
  { unfold track_decay, Rdiv. apply Rmult_integral_contrapositive. split; auto.
    now apply Rinv_neq_0_compat. }
  rewrite envelope_db by auto. unfold track_amp. rewrite a2db_db2a. f_equal. f_equal.
  unfold track_decay. field. auto.
Qed.

Lemma decay_positive : forall k, k < 0 -> 0 < track_decay k.
Proof.
  intros. unfold track_decay, d2k_const. rewrite log10_exp1.
  assert (0 < / ln 10) by (apply Rinv_0_lt_compat, ln10_pos).
  unfold Rdiv. assert (/ k < 0) by now apply Rinv_lt_0_compat. nra.
Qed.

Lemma double_amp : forall a, 0 < a -> a2db a + double_db = a2db (2 * a).
Proof.
  intros. unfold a2db, double_db, log10. rewrite ln_mult by lra.
  pose proof ln10_pos. field. lra.
Qed.

(** *** Parameter matrix *)

Definition finite3 (p : fl * fl * fl) : bool :=
  isfinite (fst (fst p)) && isfinite (snd (fst p)) && isfinite (snd p).

Lemma finite3_iff : forall p, finite3 p = true <-> all_finite p.
Proof.
  intros [[f d] a]. unfold finite3, all_finite. simpl.
  rewrite !andb_true_iff. split.
  - intros [[F D] A]. destruct f, d, a; try discriminate. eauto.
  - intros (? & ? & ? & E). inversion E; subst. auto.
Qed.

Lemma mask_map : forall A B (f : A -> bool) (g : A -> B) l,
  mask (map f l) (map g l) = map g (filter f l).
Proof.
  intros. unfold mask. induction l; simpl; auto. destruct (f a); simpl; now rewrite IHl.
Qed.

Lemma matrix_ok : forall results,
  param_matrix results = transpose3 (filter finite3 (concat results)).
Proof.
  intros. unfold param_matrix. generalize (concat results). intros ps. clear results.
  assert (E : match ps with [] => [[]; []; []] | _ => transpose3 ps end = transpose3 ps).
  { now destruct ps. }
  rewrite E. clear E. unfold ncols. simpl hd. rewrite map_length.
  assert (V : map (fun j => forallb isfinite (column (transpose3 ps) j)) (seq 0 (List.length ps))
              = map finite3 ps).
  { assert (G : forall j, (j < List.length ps)%nat ->
      forallb isfinite (column (transpose3 ps) j) = finite3 (nth j ps (NaN, NaN, NaN))).
    { intros j Hj. unfold column, transpose3. simpl.
      rewrite !(nth_map_lt _ _ _ (NaN, NaN, NaN)) by auto.
      unfold finite3. now rewrite andb_true_r, andb_assoc. }
    clear -G. apply nth_ext with (d := false) (d' := false).
    - now rewrite !map_length, seq_length.
    - intros j Hj. rewrite map_length, seq_length in Hj.
      rewrite (nth_map_lt _ _ _ 0%nat) by (rewrite seq_length; auto).
      rewrite (nth_map_lt _ _ _ (NaN, NaN, NaN)) by auto.
      rewrite seq_nth by auto. now apply G. }
  rewrite V. unfold transpose3. simpl. now rewrite !mask_map.
Qed.

(** *** Mode ordering *)

Lemma feature_known : forall m order, same_size m -> known_order order ->
  exists keys, feature m order = Ok keys /\
    List.length keys = List.length (m_freqs m) /\
    forall i, nth i keys 0 = feature_of m order i.
Proof.
  intros m order [Ld La] K. unfold feature, feature_of.
  destruct (String.eqb order "energies") eqn:E1.
  { exists (energies m). split; [reflexivity|].
    assert (L : List.length (energies m) = List.length (m_freqs m)).
    { unfold energies. rewrite map_length, combine_length. lia. }
    split; [exact L|]. intros i.
    destruct (Nat.lt_ge_cases i (List.length (m_freqs m))).
    - unfold energies. rewrite (nth_map_lt _ _ _ (0, 0)) by (rewrite combine_length; lia).
      rewrite nth_combine by lia. unfold modal_energy. simpl. field.
    - rewrite !nth_overflow by lia. field. }
  destruct (String.eqb order "freqs") eqn:E2; [eexists; repeat split; auto|].
  destruct (String.eqb order "amps") eqn:E3; [eexists; repeat split; auto|].
  destruct (String.eqb order "decays") eqn:E4; [eexists; repeat split; auto|].
  apply eqb_neq in E1, E2, E3, E4. unfold known_order in K. intuition congruence.
Qed.

Lemma SSorted_rev : forall A (Q : A -> A -> Prop) l,
  StronglySorted Q l -> StronglySorted (fun x y => Q y x) (rev l).
Proof.
  induction 1; simpl; [constructor|].
  assert (G : forall l1, StronglySorted (fun x y => Q y x) l1 ->
    Forall (Q a) l1 -> StronglySorted (fun x y => Q y x) (l1 ++ [a])).
  { clear. induction 1; intros F; simpl.
    - repeat constructor.
    - inversion F; subst. constructor; auto. apply Forall_app. split; auto. }
  apply G; auto. apply Forall_rev. auto.
Qed.

Lemma argsort_modes : forall argsort m order reverse, is_argsort argsort ->
  same_size m -> known_order order ->
  exists ord, mode_argsort argsort m order reverse = Ok ord /\
    Permutation ord (seq 0 (List.length (m_freqs m))) /\
    StronglySorted (fun i j => if reverse : bool
                               then feature_of m order j <= feature_of m order i
                               else feature_of m order i <= feature_of m order j) ord.
Proof.
  intros argsort m order reverse HA HS HK. unfold mode_argsort.
  destruct (feature_known m order HS HK) as (keys & -> & L & F). cbn [bind].
  destruct (HA keys) as [P S]. rewrite L in P.
  assert (S' : StronglySorted (fun i j => feature_of m order i <= feature_of m order j) (argsort keys)).
  { clear -S F. induction S; constructor; auto. eapply Forall_impl; [|exact H].
    intros j. now rewrite !F. }
  eexists. split; [reflexivity|]. destruct reverse.
  - split; [now rewrite <- Permutation_rev|]. apply SSorted_rev in S'. exact S'.
  - split; auto.
Qed.

Lemma sum4_pick : forall g fs ds as_ ps idx,
  sum4 g (pick idx fs) (pick idx ds) (pick idx as_) (pick idx ps) =
  rsum (map (fun i => g (nth i fs 0) (nth i ds 0) (nth i as_ 0) (nth i ps 0)) idx).
Proof. induction idx; simpl; auto. now rewrite IHidx. Qed.

Lemma pick_seq : forall l, pick (seq 0 (List.length l)) l = l.
Proof.
  intros. unfold pick. induction l; simpl; auto.
  f_equal. rewrite <- seq_shift, map_map. exact IHl.
Qed.

Lemma sum4_all : forall g fs ds as_ ps,
  List.length ds = List.length fs -> List.length as_ = List.length fs ->
  List.length ps = List.length fs ->
  sum4 g fs ds as_ ps =
  rsum (map (fun i => g (nth i fs 0) (nth i ds 0) (nth i as_ 0) (nth i ps 0))
            (seq 0 (List.length fs))).
Proof.
  intros g fs ds as_ ps L1 L2 L3.
  rewrite <- (pick_seq fs) at 1. rewrite <- (pick_seq ds), <- (pick_seq as_), <- (pick_seq ps) at 1.
  rewrite L1, L2, L3. apply sum4_pick.
Qed.

Lemma partial_super : forall osc t f d a p,
  partial_at osc t f d a p = a * exp (-2 * t / d) * osc (2 * PI * f * t + p).
Proof.
  intros. unfold partial_at.
  replace (t * (-2 / d)) with (-2 * t / d) by (unfold Rdiv; ring).
  replace (2 * PI * t * f + p) with (2 * PI * f * t + p) by ring. ring.
Qed.

Lemma synth_ok : forall osc draw x fs ds as_ ps,
  List.length ds = List.length fs -> List.length as_ = List.length fs ->
  List.length ps = List.length fs ->
  additive_synth osc draw x fs ds as_ (PArr ps) =
  Ok (map (superposition osc fs ds as_ ps) x).
Proof.
  intros osc draw x fs ds as_ ps L1 L2 L3. unfold additive_synth. cbn [bind].
  rewrite L1, L2, L3, !Nat.eqb_refl. simpl. f_equal. apply map_ext. intro t.
  rewrite sum4_all by auto. unfold superposition. apply rsum_map_ext.
  intros i _. apply partial_super.
Qed.

Lemma synth_none : forall osc draw x fs ds as_,
  additive_synth osc draw x fs ds as_ PNone =
  additive_synth osc draw x fs ds as_ (PArr (map (fun _ => 0) fs)).
Proof. reflexivity. Qed.

Lemma synth_random : forall osc draw x fs ds as_,
  additive_synth osc draw x fs ds as_ (PStr "random") =
  additive_synth osc draw x fs ds as_ (PArr (draw (List.length fs))).
Proof. reflexivity. Qed.

Lemma synth_bad_string : forall osc draw x fs ds as_ s, s <> "random"%string ->
  additive_synth osc draw x fs ds as_ (PStr s) = Err ValueError.
Proof.
  intros. unfold additive_synth. apply eqb_neq in H. rewrite H. reflexivity.
Qed.

Lemma pick_length : forall idx l, List.length (pick idx l) = List.length idx.
Proof. intros. apply map_length. Qed.

Lemma super_pick : forall osc fs ds as_ ps idx t,
  superposition osc (pick idx fs) (pick idx ds) (pick idx as_) (pick idx ps) t =
  rsum (map (fun i => nth i as_ 0 * exp (-2 * t / nth i ds 0)
                      * osc (2 * PI * nth i fs 0 * t + nth i ps 0)) idx).
Proof.
  intros. unfold superposition. rewrite pick_length. unfold pick.
  induction idx as [|i idx IH]; [reflexivity|]. simpl length. simpl seq.
  rewrite <- seq_shift. simpl map. rewrite map_map. simpl rsum. now rewrite <- IH.
Qed.

Lemma super_perm : forall osc fs ds as_ ps idx t,
  Permutation idx (seq 0 (List.length fs)) ->
  superposition osc (pick idx fs) (pick idx ds) (pick idx as_) (pick idx ps) t =
  superposition osc fs ds as_ ps t.
Proof.
  intros. rewrite super_pick. unfold superposition. apply rsum_perm.
  now apply Permutation_map.
Qed.

Lemma seq_shift_n : forall k n, map (fun i => (k + i)%nat) (seq 0 n) = seq k n.
Proof.
  induction k; intros; simpl. { apply map_id. }
  rewrite <- seq_shift, <- IHk, map_map. reflexivity.
Qed.

Lemma super_app : forall osc fs ds as_ ps fs' ds' as' ps' t,
  List.length ds = List.length fs -> List.length as_ = List.length fs ->
  List.length ps = List.length fs ->
  superposition osc (fs ++ fs') (ds ++ ds') (as_ ++ as') (ps ++ ps') t =
  superposition osc fs ds as_ ps t + superposition osc fs' ds' as' ps' t.
Proof.
  intros osc fs ds as_ ps fs' ds' as' ps' t L1 L2 L3. unfold superposition.
  rewrite app_length, seq_app, map_app, rsum_app. f_equal.
  - apply rsum_map_ext. intros i Hi. apply in_seq in Hi.
    rewrite !app_nth1 by lia. reflexivity.
  - simpl. rewrite <- (seq_shift_n (List.length fs)). 
    rewrite map_map. apply rsum_map_ext. intros i _.
    rewrite !app_nth2 by lia.
    replace (List.length fs + i - List.length as_)%nat with i by lia.
    replace (List.length fs + i - List.length ds)%nat with i by lia.
    replace (List.length fs + i - List.length fs)%nat with i by lia.
    replace (List.length fs + i - List.length ps)%nat with i by lia. reflexivity.
Qed.

(** *** Prediction *)

Lemma take_pick : forall idx l, take 0 idx l = pick idx l.
Proof. reflexivity. Qed.

Lemma slice_top : forall A (l : list A) k,
  slice None (Some k) l = firstn (Z.to_nat (slice_bound (zlen l) k)) l.
Proof. intros. unfold slice, lo_bound, hi_bound. simpl. now rewrite Nat.sub_0_r. Qed.

Lemma SSorted_split : forall A (Q : A -> A -> Prop) l l',
  StronglySorted Q (l ++ l') -> forall x y, In x l -> In y l' -> Q x y.
Proof.
  induction l; simpl; intros l' H x y Hx Hy; [tauto|]. inversion H; subst.
  destruct Hx; [subst|eauto]. rewrite Forall_forall in H3. apply H3, in_app_iff. auto.
Qed.

Lemma NoDup_app_l : forall A (l l' : list A), NoDup (l ++ l') -> NoDup l.
Proof.
  induction l; intros l' H; [constructor|]. inversion H; subst.
  constructor; eauto. intro. apply H2, in_app_iff. auto.
Qed.

(** Number of modes that are played. *)
Definition n_played (max_n_modes n_modes : option Z) (n : Z) : Z :=
  slice_bound n (match n_modes with
                 | Some k => k
                 | None => match max_n_modes with None => n | Some k => k end
                 end).

Lemma predict_top : forall argsort osc draw mx m x nm order reverse ph,
  is_argsort argsort -> same_size m -> known_order order ->
  exists idx,
    (forall ps, ph = None -> ps = map (fun _ => 0) (m_freqs m) ->
       predict argsort osc draw mx m x nm order reverse ph =
       Ok (map (superposition osc (pick idx (m_freqs m)) (pick idx (m_decays m))
                              (pick idx (m_amps m)) (pick idx ps)) x)) /\
    (forall ps, ph = Some (PArr ps) -> List.length ps = List.length (m_freqs m) ->
       predict argsort osc draw mx m x nm order reverse ph =
       Ok (map (superposition osc (pick idx (m_freqs m)) (pick idx (m_decays m))
                              (pick idx (m_amps m)) (pick idx ps)) x)) /\
    NoDup idx /\
    (forall i, In i idx -> (i < List.length (m_freqs m))%nat) /\
    Z.of_nat (List.length idx) = n_played mx nm (zlen (m_freqs m)) /\
    (forall i j, In i idx -> (j < List.length (m_freqs m))%nat -> ~ In j idx ->
       if reverse : bool then feature_of m order j <= feature_of m order i
       else feature_of m order i <= feature_of m order j).
Proof.
  intros argsort osc draw mx m x nm order reverse ph HA HS HK.
  destruct (argsort_modes argsort m order reverse HA HS HK) as (ord & E & P & S).
  assert (Lo : List.length ord = List.length (m_freqs m)).
  { rewrite (Permutation_length P). apply seq_length. }
  set (k := match nm with Some k => k
            | None => match mx with None => zlen (m_freqs m) | Some k => k end end).
  assert (Hk : n_played mx nm (zlen (m_freqs m)) = slice_bound (zlen ord) k).
  { unfold n_played, k, zlen. now rewrite Lo. }
  set (idx := firstn (Z.to_nat (slice_bound (zlen ord) k)) ord).
  assert (SP : ord = idx ++ skipn (Z.to_nat (slice_bound (zlen ord) k)) ord)
    by (symmetry; apply firstn_skipn).
  assert (ND : NoDup ord).
  { eapply Permutation_NoDup; [symmetry; exact P|apply seq_NoDup]. }
  assert (IN : forall i, In i ord <-> (i < List.length (m_freqs m))%nat).
  { intro i. split; intro H.
    - apply (Permutation_in _ P), in_seq in H. lia.
    - apply (Permutation_in _ (Permutation_sym P)), in_seq. lia. }
  assert (INi : forall i, In i idx -> (i < List.length (m_freqs m))%nat).
  { intros i H. apply IN. rewrite SP. apply in_app_iff. auto. }
  assert (B : (0 <= slice_bound (zlen ord) k <= zlen ord)%Z).
  { unfold slice_bound. assert (0 <= zlen ord)%Z by (unfold zlen; lia).
    destruct (k <? 0)%Z eqn:K; [apply Z.ltb_lt in K|apply Z.ltb_ge in K]; lia. }
  exists idx. split; [|split; [|split; [|split; [|split]]]].
  - intros ps -> ->. unfold predict. fold k. rewrite E. cbn [bind].
    rewrite slice_top. fold idx. rewrite synth_none, !take_pick.
    rewrite synth_ok by (unfold take, pick; rewrite ?map_length; auto). f_equal. f_equal. f_equal.
    unfold pick. rewrite map_map. apply map_ext_in. intros i Hi.
    rewrite (nth_map_lt _ _ _ 0) by auto. reflexivity.
  - intros ps -> Lp. unfold predict. fold k. rewrite E. cbn [bind].
    rewrite slice_top. fold idx.
    assert (F : forallb (fun i => Nat.ltb i (List.length ps)) idx = true).
    { apply forallb_forall. intros i Hi. apply Nat.ltb_lt. rewrite Lp. auto. }
    rewrite F. cbn [bind]. rewrite !take_pick.
    now rewrite synth_ok by (unfold take, pick; rewrite ?map_length; auto).
  - rewrite SP in ND. now apply NoDup_app_l in ND.
  - exact INi.
  - rewrite Hk. unfold idx. rewrite firstn_length. unfold zlen in *. lia.
  - intros i j Hi Hj Hn. rewrite SP in S. apply (SSorted_split _ _ _ _ S); auto.
    apply IN in Hj. rewrite SP in Hj. apply in_app_iff in Hj. tauto.
Qed.

Lemma perm_of_all : forall idx n, NoDup idx -> (forall i, In i idx -> (i < n)%nat) ->
  List.length idx = n -> Permutation idx (seq 0 n).
Proof.
  intros idx n ND H L. apply NoDup_Permutation_bis; auto.
  - rewrite seq_length. lia.
  - intros i Hi. apply in_seq. apply H in Hi. lia.
Qed.

Lemma predict_all : forall argsort osc draw mx m x nm order reverse ps,
  is_argsort argsort -> same_size m -> known_order order ->
  List.length ps = List.length (m_freqs m) ->
  n_played mx nm (zlen (m_freqs m)) = zlen (m_freqs m) ->
  predict argsort osc draw mx m x nm order reverse (Some (PArr ps)) =
  Ok (map (superposition osc (m_freqs m) (m_decays m) (m_amps m) ps) x).
Proof.
  intros argsort osc draw mx m x nm order reverse ps HA HS HK Lp N.
  destruct (predict_top argsort osc draw mx m x nm order reverse (Some (PArr ps)) HA HS HK)
    as (idx & _ & E & ND & IN & L & _).
  rewrite (E ps eq_refl Lp). f_equal. apply map_ext. intro t. apply super_perm.
  apply perm_of_all; auto. rewrite N in L. unfold zlen in L. lia.
Qed.

(** *** Bounds *)

Lemma super_bound : forall osc fs ds as_ ps t,
  List.length ds = List.length fs ->
  (forall v, Rabs (osc v) <= 1) -> 0 <= t -> Forall (fun d => 0 < d) ds ->
  Rabs (superposition osc fs ds as_ ps t) <=
  rsum (map (fun i => Rabs (nth i as_ 0)) (seq 0 (List.length fs))).
Proof.
  intros osc fs ds as_ ps t L HO Ht HD. unfold superposition.
  eapply Rle_trans; [apply rsum_abs|]. apply rsum_le. intros i Hi.
  apply in_seq in Hi. rewrite Forall_forall in HD.
  assert (0 < nth i ds 0) by (apply HD, nth_In; lia).
  rewrite !Rabs_mult. rewrite <- (Rmult_1_r (Rabs (nth i as_ 0))) at 2.
  rewrite Rmult_assoc. apply Rmult_le_compat_l; [apply Rabs_pos|].
  assert (E : 0 < exp (-2 * t / nth i ds 0) <= 1).
  { split; [apply exp_pos|]. replace 1 with (exp 0) by apply exp_0.
    destruct (Req_dec t 0) as [->|].
    - right. f_equal. unfold Rdiv. ring.
    - left. apply exp_increasing. unfold Rdiv.
      assert (0 < / nth i ds 0) by now apply Rinv_0_lt_compat. nra. }
  rewrite (Rabs_right (exp _)) by lra.
  pose proof (HO (2 * PI * nth i fs 0 * t + nth i ps 0)).
  pose proof (Rabs_pos (osc (2 * PI * nth i fs 0 * t + nth i ps 0))). nra.
Qed.

Lemma cos_bound : forall v, Rabs (cos v) <= 1.
Proof. intro. apply Rabs_le. pose proof (COS_bound v). lra. Qed.
Lemma sin_bound : forall v, Rabs (sin v) <= 1.
Proof. intro. apply Rabs_le. pose proof (SIN_bound v). lra. Qed.

(** *** SDT export *)

Lemma sdt_ok : forall argsort mx m order reverse, is_argsort argsort ->
  same_size m -> known_order order -> m_freqs m <> [] ->
  exists ord, Permutation ord (seq 0 (List.length (m_freqs m))) /\
    StronglySorted (fun i j => if reverse : bool
                               then feature_of m order j <= feature_of m order i
                               else feature_of m order i <= feature_of m order j) ord /\
    exists s, sdt_params argsort mx m order reverse = Ok s /\
      s_nmodes s = zlen (m_freqs m) /\
      s_active s = match mx with None => zlen (m_freqs m)
                   | Some k => Z.min k (zlen (m_freqs m)) end /\
      s_freqs s = pick ord (m_freqs m) /\
      s_decays s = pick ord (m_decays m) /\
      s_gains s = pick ord (m_amps m) /\
      List.length (s_weights s) = List.length (m_freqs m) /\
      (forall w, In w (s_weights s) -> w = 1 / IZR (zlen (m_freqs m))) /\
      rsum (s_weights s) = 1.
Proof.
  intros argsort mx m order reverse HA HS HK HN.
  destruct (argsort_modes argsort m order reverse HA HS HK) as (ord & E & P & S).
  exists ord. split; [exact P|]. split; [exact S|].
  unfold sdt_params. rewrite E. cbn [bind].
  assert (Hn : (0 < zlen (m_freqs m))%Z).
  { unfold zlen. destruct (m_freqs m); [congruence|simpl; lia]. }
  destruct (Z.eqb_spec (zlen (m_freqs m)) 0); [lia|].
  eexists. split; [reflexivity|]. cbn [s_nmodes s_active s_freqs s_decays s_gains s_weights].
  repeat (split; [reflexivity|]).
  split; [rewrite repeat_length; unfold zlen; lia|].
  split; [intros w Hw; now apply repeat_spec in Hw|].
  assert (G : forall v k, rsum (repeat v k) = INR k * v).
  { induction k; [simpl; ring|]. rewrite S_INR. simpl. rewrite IHk. ring. }
  rewrite G, INR_IZR_INZ, Z2Nat.id by lia. field.
  apply not_0_IZR. lia.
Qed.

Lemma sdt_empty : forall argsort mx m order reverse, is_argsort argsort ->
  same_size m -> known_order order -> m_freqs m = [] ->
  sdt_params argsort mx m order reverse = Err ZeroDivisionError.
Proof.
  intros argsort mx m order reverse HA HS HK HN.
  destruct (argsort_modes argsort m order reverse HA HS HK) as (ord & E & _).
  unfold sdt_params. rewrite E, HN. reflexivity.
Qed.

(** *** A sorting function exists *)

Lemma exists_argsort : {argsort | is_argsort argsort}.
Proof.
  assert (ins : forall (keys : list R) (a : nat) (l : list nat),
    StronglySorted (fun i j => nth i keys 0 <= nth j keys 0) l ->
    {o | Permutation o (a :: l) /\ StronglySorted (fun i j => nth i keys 0 <= nth j keys 0) o}).
  { intros keys a l. induction l as [|b l' IH]; intros S.
    - exists [a]. split; [auto|repeat constructor].
    - assert (S' : StronglySorted (fun i j => nth i keys 0 <= nth j keys 0) l') by (inversion S; auto).
      assert (F : Forall (fun j => nth b keys 0 <= nth j keys 0) l') by (inversion S; auto).
      destruct (Rle_lt_dec (nth a keys 0) (nth b keys 0)).
      + exists (a :: b :: l'). split; auto. constructor; auto.
        constructor; auto. eapply Forall_impl; [|exact F]. simpl. intros; lra.
      + destruct (IH S') as (o & P & So). exists (b :: o). split.
        * rewrite P. apply perm_swap.
        * constructor; auto. eapply Permutation_Forall; [symmetry; exact P|].
          constructor; auto. lra. }
  assert (srt : forall (keys : list R) (l : list nat),
    {o | Permutation o l /\ StronglySorted (fun i j => nth i keys 0 <= nth j keys 0) o}).
  { intros keys. induction l as [|a l (o & P & S)]; [exists []; split; constructor|].
    destruct (ins keys a o S) as (o' & P' & S'). exists o'. split; auto.
    rewrite P'. now constructor. }
  exists (fun keys => proj1_sig (srt keys (seq 0 (List.length keys)))).
  intro keys. destruct (srt keys (seq 0 (List.length keys))) as (o & P & S). simpl.
  split; auto.
Qed.

Lemma synth_inv : forall osc draw x fs ds as_ ps y,
  additive_synth osc draw x fs ds as_ (PArr ps) = Ok y ->
  List.length ds = List.length fs /\ List.length as_ = List.length fs /\
  List.length ps = List.length fs /\ y = map (superposition osc fs ds as_ ps) x.
Proof.
  intros osc draw x fs ds as_ ps y H.
  destruct (Nat.eq_dec (List.length ds) (List.length fs)) as [E1|E1];
  [destruct (Nat.eq_dec (List.length as_) (List.length fs)) as [E2|E2];
   [destruct (Nat.eq_dec (List.length ps) (List.length fs)) as [E3|E3]|]|].
  - rewrite synth_ok in H by auto. inversion H. auto.
  - unfold additive_synth in H. cbn [bind] in H. apply Nat.eqb_neq in E3.
    rewrite E3, !andb_false_r in H. discriminate.
  - unfold additive_synth in H. cbn [bind] in H. apply Nat.eqb_neq in E2.
    rewrite E2, !andb_false_r in H. discriminate.
  - unfold additive_synth in H. cbn [bind] in H. apply Nat.eqb_neq in E1.
    rewrite E1 in H. discriminate.
Qed.
