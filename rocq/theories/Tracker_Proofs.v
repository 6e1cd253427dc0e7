(** Property-level lemmas about the trackers. *)
From Coq Require Import String List Arith ZArith QArith Qabs Qround Lia Lqa Bool Permutation.
Import ListNotations.
From Verif Require Import Base ListLemmas Tracker_Model Tracker_Spec Tracker_Step
  Tracker_Run Tracker_Modal.
Local Open Scope nat_scope.

(** ** C01, C03, C05 *)

Lemma active_bounded : forall c deact hist st, valid_hist hist ->
  run c deact hist = Ok st ->
  (Z.of_nat (length (active st)) <= Z.max 0 (c_max c))%Z.
Proof.
  intros c deact hist st V H. destruct (run_inv_exists c hist V) as (E & A & I).
  rewrite (ri_run _ _ _ _ I) in H. destruct (foldM deact [] (map fst E)); [|discriminate].
  injection H as <-. simpl. rewrite map_length. pose proof (ri_max _ _ _ _ I). lia.
Qed.

Lemma step_described : forall c deact st fr ord st', sorts_desc fr ord ->
  step c deact st (fr, ord) = Ok st' ->
  exists M, greedy_matching c (active st) fr M /\
    foldM deact (saved st) (rev (dying (active st) M)) = Ok (saved st') /\
    active st' = surviving (active st) fr M ++
      born c (nframe st) fr M (length (surviving (active st) fr M)) /\
    nframe st' = S (nframe st).
Proof.
  intros c deact [sv act n] fr ord st' HS H.
  destruct (step_spec c act fr ord HS) as (M & G & E). exists M. split; auto.
  rewrite E in H. cbn [saved active nframe] in *.
  destruct (foldM deact sv (rev (dying act M))); cbn [bind] in H; [|discriminate].
  injection H as <-. auto.
Qed.

Lemma no_refusal : forall c deact st fr ord st', sorts_desc fr ord ->
  step c deact st (fr, ord) = Ok st' ->
  exists M news, greedy_matching c (active st) fr M /\
    active st' = surviving (active st) fr M ++ news /\
    (length news = length (free_peaks fr M) \/
     (c_max c <= Z.of_nat (length (active st')))%Z).
Proof.
  intros c deact st fr ord st' HS H.
  destruct (step_described _ _ _ _ _ _ HS H) as (M & G & _ & E & _).
  exists M. eexists. split; [exact G|]. split; [exact E|]. rewrite E, app_length.
  unfold born. rewrite map_length, firstn_length. unfold room. lia.
Qed.

Lemma active_contiguous : forall c deact hist st, valid_hist hist ->
  run c deact hist = Ok st ->
  nframe st = length hist /\
  Forall (fun t => t_freq t <> [] /\ length (t_mag t) = length (t_freq t) /\
                   length (t_ph t) = length (t_freq t) /\
                   t_start t + length (t_freq t) = length hist) (active st).
Proof.
  intros c deact hist st V H. destruct (run_inv_exists c hist V) as (E & A & I).
  rewrite (ri_run _ _ _ _ I) in H. destruct (foldM deact [] (map fst E)); [|discriminate].
  injection H as <-. simpl. split; auto.
  apply Forall_forall. intros t Ht. apply in_map_iff in Ht. destruct Ht as ([t' lab] & <- & Hin).
  pose proof (ri_A _ _ _ _ I) as IA. pose proof (ri_end _ _ _ _ I) as Ie.
  rewrite Forall_forall in IA, Ie. specialize (IA _ Hin). specialize (Ie _ Hin).
  pose proof (wf_lab _ _ IA) as (W1 & W2 & W3). destruct IA as (L1 & _). simpl in *.
  repeat split; auto. lia.
Qed.

(** Uniqueness of the greedy matching when no two peaks are equally loud. *)
Local Open Scope Q_scope.
Lemma greedy_unique_half : forall c ts fr M M',
  (forall p q, (p < length fr)%nat -> (q < length fr)%nat -> p <> q ->
     ~ pk_m (nth p fr no_peak) == pk_m (nth q fr no_peak)) ->
  greedy_matching c ts fr M -> greedy_matching c ts fr M' ->
  forall N p i, (length (filter (fun q => Qltb (pk_m (nth p fr no_peak)) (pk_m (nth q fr no_peak)))
                   (seq 0 (length fr))) < N)%nat ->
  (In (i, p) M -> In (i, p) M') /\ (In (i, p) M' -> In (i, p) M).
Proof.
  intros c ts fr M M' D G G'. induction N as [|N IH]; intros p i HN; [lia|].
  (* louder peaks agree *)
  assert (L : forall q, (q < length fr)%nat -> pk_m (nth p fr no_peak) < pk_m (nth q fr no_peak) ->
     forall j, (In (j, q) M -> In (j, q) M') /\ (In (j, q) M' -> In (j, q) M)).
  { intros q Hq Hlt j. apply IH.
    assert (Hlen : (length (filter (fun r => Qltb (pk_m (nth q fr no_peak)) (pk_m (nth r fr no_peak))) (seq 0 (length fr)))
       < length (filter (fun r => Qltb (pk_m (nth p fr no_peak)) (pk_m (nth r fr no_peak))) (seq 0 (length fr))))%nat).
    { assert (HIN : In q (seq 0 (length fr))) by (apply in_seq; lia).
      clear -Hlt HIN. induction (seq 0 (length fr)) as [|a l IHl]; [destruct HIN|].
      simpl.
      assert (Hmono : (length (filter (fun r => Qltb (pk_m (nth q fr no_peak)) (pk_m (nth r fr no_peak))) l)
         <= length (filter (fun r => Qltb (pk_m (nth p fr no_peak)) (pk_m (nth r fr no_peak))) l))%nat).
      { clear -Hlt. induction l; simpl; auto.
        destruct (Qltb (pk_m (nth q fr no_peak)) (pk_m (nth a fr no_peak))) eqn:E1;
        destruct (Qltb (pk_m (nth p fr no_peak)) (pk_m (nth a fr no_peak))) eqn:E2; simpl; try lia.
        apply Qltb_true in E1. apply Qltb_false in E2. exfalso. lra. }
      destruct HIN as [->|HIN].
      - rewrite Qltb_irr. assert (E : Qltb (pk_m (nth p fr no_peak)) (pk_m (nth q fr no_peak)) = true)
          by now apply Qltb_true. rewrite E. simpl. lia.
      - specialize (IHl HIN).
        destruct (Qltb (pk_m (nth q fr no_peak)) (pk_m (nth a fr no_peak))) eqn:E1;
        destruct (Qltb (pk_m (nth p fr no_peak)) (pk_m (nth a fr no_peak))) eqn:E2; simpl; try lia.
        apply Qltb_true in E1. apply Qltb_false in E2. exfalso. lra. }
    lia. }
  assert (STR : forall q, (p < length fr)%nat -> (q < length fr)%nat -> p <> q ->
      pk_m (nth p fr no_peak) <= pk_m (nth q fr no_peak) ->
      pk_m (nth p fr no_peak) < pk_m (nth q fr no_peak)).
  { intros q H1 H2 H3 H4. specialize (D p q H1 H2 H3). lra. }
  assert (FI : forall (M : list (nat * nat)) i p q, NoDup (map fst M) -> In (i, p) M -> In (i, q) M -> p = q).
  { clear. intros M i p q ND H1 H2. apply partner_some in H1; auto. apply partner_some in H2; auto. congruence. }
  assert (HALF : forall N1 N2, greedy_matching c ts fr N1 -> greedy_matching c ts fr N2 ->
     (forall q, (q < length fr)%nat -> pk_m (nth p fr no_peak) < pk_m (nth q fr no_peak) ->
        forall j, (In (j, q) N1 -> In (j, q) N2) /\ (In (j, q) N2 -> In (j, q) N1)) ->
     In (i, p) N1 -> In (i, p) N2).
  { intros N1 N2 G1 G2 HL Hin.
    destruct (gm_range _ _ _ _ G1 _ _ Hin) as [Hi Hp].
    destruct (in_dec Nat.eq_dec p (map snd N2)) as [Hy|Hn].
    - apply snd_in in Hy. destruct Hy as [i' Hi'].
      destruct (Nat.eq_dec i i') as [<-|NE]; auto. exfalso.
      destruct (gm_range _ _ _ _ G2 _ _ Hi') as [Hi'r _].
      set (d := dist (nth i ts no_track) (nth p fr no_peak)).
      set (d' := dist (nth i' ts no_track) (nth p fr no_peak)).
      assert (C : (d < d' \/ (d == d' /\ (i < i')%nat)) \/ (d' < d \/ (d' == d /\ (i' < i)%nat))).
      { destruct (Qlt_le_dec d d'); [left; left; auto|].
        destruct (Qlt_le_dec d' d); [right; left; auto|].
        assert (d == d') by lra. destruct (lt_dec i i'); [left; right; auto|].
        right. right. split; [lra|lia]. }
      destruct C as [C|C].
      + destruct (gm_nearest _ _ _ _ G2 i' p i Hi' Hi C) as (q & Hq & Hm).
        destruct (gm_range _ _ _ _ G2 _ _ Hq) as [_ Hqr].
        assert (p <> q).
        { intros <-. apply NE. eapply nodup_snd_inj; eauto. apply (gm_peak_once _ _ _ _ G2). }
        specialize (STR q Hp Hqr H Hm). apply (HL q Hqr STR) in Hq.
        apply H. eapply FI; [apply (gm_track_once _ _ _ _ G1)| |]; eauto.
      + destruct (gm_nearest _ _ _ _ G1 i p i' Hin Hi'r C) as (q & Hq & Hm).
        destruct (gm_range _ _ _ _ G1 _ _ Hq) as [_ Hqr].
        assert (p <> q).
        { intros <-. apply NE. eapply nodup_snd_inj; eauto. apply (gm_peak_once _ _ _ _ G1). }
        specialize (STR q Hp Hqr H Hm). apply (HL q Hqr STR) in Hq.
        apply H. eapply FI; [apply (gm_track_once _ _ _ _ G2)| |]; eauto.
    - exfalso.
      destruct (gm_free _ _ _ _ G2 p i Hp Hn Hi (gm_threshold _ _ _ _ G1 _ _ Hin)) as (q & Hq & Hm).
      destruct (gm_range _ _ _ _ G2 _ _ Hq) as [_ Hqr].
      assert (p <> q). { intros <-. apply Hn. eapply in_snd; eauto. }
      specialize (STR q Hp Hqr H Hm). apply (HL q Hqr STR) in Hq.
      apply H. eapply FI; [apply (gm_track_once _ _ _ _ G1)| |]; eauto. }
  split.
  - apply HALF; auto.
  - apply HALF; auto. intros q Hq Hlt j. destruct (L q Hq Hlt j). auto.
Qed.

Lemma greedy_unique : forall c ts fr M M',
  (forall p q, (p < length fr)%nat -> (q < length fr)%nat -> p <> q ->
     ~ pk_m (nth p fr no_peak) == pk_m (nth q fr no_peak)) ->
  greedy_matching c ts fr M -> greedy_matching c ts fr M' ->
  forall i p, In (i, p) M <-> In (i, p) M'.
Proof.
  intros c ts fr M M' D G G' i p.
  destruct (greedy_unique_half c ts fr M M' D G G' _ p i (Nat.lt_succ_diag_r _)). split; auto.
Qed.
Local Open Scope nat_scope.

(** ** C04 *)

Lemma sine_fold : forall c l sv,
  foldM (sine_deact c) sv l = Ok (sv ++ map numpy_track (filter (sine_ok c) l)).
Proof.
  induction l as [|t l IH]; intro sv; simpl.
  - now rewrite app_nil_r.
  - rewrite IH. destruct (sine_ok c t); simpl; auto. now rewrite <- app_assoc.
Qed.

Lemma log_fold : forall l sv, foldM log_deact sv l = Ok (sv ++ map numpy_track l).
Proof.
  induction l as [|t l IH]; intro sv; simpl.
  - now rewrite app_nil_r.
  - rewrite IH. now rewrite <- app_assoc.
Qed.

Definition long_enoughb (c : cfg) (t : strack) : bool :=
  Z.leb (min_sine_len c) (Z.of_nat (length (s_freq t))).

Lemma long_enoughb_iff : forall c t, long_enoughb c t = true <-> long_enough c t.
Proof.
  intros. unfold long_enoughb, long_enough, min_sine_len, frame_rate.
  rewrite Z.leb_le, Z.max_lub_iff, Qceiling_le_iff. intuition lia.
Qed.

Lemma long_numpy : forall c t, long_enoughb c (numpy_track t) = sine_ok c t.
Proof. intros. unfold long_enoughb, sine_ok. simpl. now rewrite map_length. Qed.

Lemma filter_long_numpy : forall c l,
  filter (long_enoughb c) (map numpy_track l) = map numpy_track (filter (sine_ok c) l).
Proof. intros. rewrite filter_map. f_equal. apply filter_ext. intro. apply long_numpy. Qed.

Lemma sine_reported : forall c hist, valid_hist hist ->
  exists st lg keep, run c (sine_deact c) hist = Ok st /\ run c log_deact hist = Ok lg /\
    active st = active lg /\
    (forall t, keep t = true <-> long_enough c t) /\
    saved st = filter keep (saved lg) /\
    all_tracks (sine_ok c) st =
      filter keep (saved lg ++ map numpy_track (active lg)).
Proof.
  intros c hist V. destruct (run_inv_exists c hist V) as (E & A & I).
  pose proof (ri_run _ _ _ _ I (sine_deact c)) as H1. rewrite sine_fold in H1. simpl in H1.
  pose proof (ri_run _ _ _ _ I log_deact) as H2. rewrite log_fold in H2. simpl in H2.
  eexists _, _, (long_enoughb c). split; [exact H1|]. split; [exact H2|]. simpl.
  split; auto. split; [apply long_enoughb_iff|]. split; [now rewrite filter_long_numpy|].
  unfold all_tracks. simpl. now rewrite filter_app, !filter_long_numpy.
Qed.

Lemma run_app : forall c deact h1 h2,
  run c deact (h1 ++ h2) = do st <- run c deact h1; foldM (step c deact) st h2.
Proof. intros. unfold run. apply foldM_app. Qed.

Lemma sine_monotone_step : forall c st fo st', sorts_desc (fst fo) (snd fo) ->
  step c (sine_deact c) st fo = Ok st' -> exists l, saved st' = saved st ++ l.
Proof.
  intros c st [fr ord] st' HS H.
  destruct (step_described _ _ _ _ _ _ HS H) as (M & _ & E & _).
  rewrite sine_fold in E. injection E as E. eexists. symmetry. exact E.
Qed.

Lemma sine_monotone : forall c h1 h2 st1 st2, valid_hist (h1 ++ h2) ->
  run c (sine_deact c) h1 = Ok st1 -> run c (sine_deact c) (h1 ++ h2) = Ok st2 ->
  exists l, saved st2 = saved st1 ++ l.
Proof.
  intros c h1 h2 st1 st2 V H1 H2. rewrite run_app, H1 in H2. simpl in H2.
  apply Forall_app in V. destruct V as [_ V].
  revert st1 H1 H2. 
  assert (G : forall h st, Forall (fun fo => sorts_desc (fst fo) (snd fo)) h ->
     foldM (step c (sine_deact c)) st h = Ok st2 -> exists l, saved st2 = saved st ++ l).
  { induction h as [|fo h IH]; simpl; intros st V' H.
    - injection H as ->. exists []. now rewrite app_nil_r.
    - inversion V'; subst. destruct (step c (sine_deact c) st fo) as [st'|] eqn:E; [|discriminate].
      destruct (sine_monotone_step _ _ _ _ H2 E) as [l1 E1].
      destruct (IH st' H3 H) as [l2 E2]. exists (l1 ++ l2). rewrite E2, E1. now rewrite app_assoc. }
  intros st1 _ H. eapply G; eauto.
Qed.

(** ** C06, C07 *)

Lemma modal_groups : forall m hist st lg, valid_hist hist ->
  run (m_base m) (modal_deact m) hist = Ok st ->
  run (m_base m) log_deact hist = Ok lg ->
  exists ended kept dropped groups,
    saved lg = map numpy_track ended /\
    Forall wf_track ended /\
    Permutation ended (kept ++ dropped) /\
    Forall (meets_criteria m) kept /\
    Forall (fun t => ~ meets_criteria m t) dropped /\
    Forall2 made_of (saved st) groups /\
    Permutation (concat groups) kept.
Proof.
  intros m hist st lg V H1 H2. destruct (run_inv_exists (m_base m) hist V) as (E & A & I).
  rewrite (ri_run _ _ _ _ I) in H1, H2. rewrite log_fold in H2. simpl in H2. injection H2 as <-.
  destruct (foldM (modal_deact m) [] (map fst E)) as [sv|] eqn:EF; [|discriminate].
  injection H1 as <-. simpl.
  assert (W : Forall (fun tx : track * list nat => wf_track (fst tx)) E).
  { eapply Forall_impl; [|exact (ri_E _ _ _ _ I)]. intros a Ha. eapply wf_lab; eauto. }
  destruct (grouping _ m E sv W EF) as (g & F & P).
  exists (map fst E), (map fst (filter (fun tx => modal_ok m (fst tx)) E)),
    (map fst (filter (fun tx => negb (modal_ok m (fst tx))) E)), (map (map fst) g).
  rewrite Forall_forall in W.
  split; auto. split. { apply Forall_forall. intros t Ht. apply in_map_iff in Ht.
    destruct Ht as (tx & <- & Htx). auto. }
  split.
  { rewrite <- map_app. apply Permutation_map. clear.
    induction E as [|a E IH]; simpl; auto. destruct (modal_ok m (fst a)); simpl.
    - now constructor.
    - rewrite <- Permutation_middle. now constructor. }
  split. { apply Forall_forall. intros t Ht. apply in_map_iff in Ht.
    destruct Ht as (tx & <- & Htx). apply filter_In in Htx. destruct Htx as [Hin Hok].
    apply modal_ok_iff; auto. }
  split. { apply Forall_forall. intros t Ht. apply in_map_iff in Ht.
    destruct Ht as (tx & <- & Htx). apply filter_In in Htx. destruct Htx as [Hin Hok].
    intro C. apply modal_ok_iff in C; auto. rewrite C in Hok. discriminate. }
  split. { clear -F. induction F; simpl; constructor; auto. }
  rewrite <- concat_map. now apply Permutation_map.
Qed.

(** ** C02 *)

Definition seg_strack (t : track) : strack := numpy_track t.

Lemma labels_ok_app : forall hist s f1 f2 m1 m2 p1 p2 lab1 lab2,
  labels_ok hist (mkSTrack s f1 m1 p1) lab1 ->
  labels_ok hist (mkSTrack (s + length lab1) f2 m2 p2) lab2 ->
  labels_ok hist (mkSTrack s (f1 ++ f2) (m1 ++ m2) (p1 ++ p2)) (lab1 ++ lab2).
Proof.
  unfold labels_ok. simpl. intros hist s f1 f2 m1 m2 p1 p2 lab1 lab2 (A1 & A2 & A3 & A4) (B1 & B2 & B3 & B4).
  rewrite !app_length. repeat split; try lia.
  intros k Hk. destruct (lt_dec k (length lab1)) as [L|L].
  - specialize (A4 k L). rewrite !app_nth1 by lia. exact A4.
  - rewrite !app_nth2 by lia. rewrite A1, A2, A3.
    specialize (B4 (k - length lab1)).
    replace (s + length lab1 + (k - length lab1)) with (s + k) in B4 by lia.
    apply B4. lia.
Qed.

Lemma used_app : forall s f1 f2 m1 m2 p1 p2 f m p lab1 lab2,
  used (mkSTrack s f m p, lab1 ++ lab2) =
  used (mkSTrack s f1 m1 p1, lab1) ++ used (mkSTrack (s + length lab1) f2 m2 p2, lab2).
Proof.
  intros. unfold used. simpl. rewrite app_length, seq_app.
  rewrite <- flat_map_app. f_equal.
  generalize (seq (s + length lab1) (length lab2)). intro l2.
  generalize s. induction lab1; simpl; intros; auto. f_equal. apply IHlab1.
Qed.

Lemma nth_repeat_None : forall A k n, nth k (repeat (@None A) n) None = None.
Proof. induction k; destruct n; simpl; auto. Qed.

Lemma labels_ok_pad : forall hist s n,
  labels_ok hist (mkSTrack s (repeat None n) (repeat None n) (repeat None n)) (repeat None n).
Proof.
  intros. unfold labels_ok. simpl. rewrite !repeat_length. repeat split; auto.
  intros. rewrite !nth_repeat_None. auto.
Qed.

Lemma used_pad : forall s f m p n, used (mkSTrack s f m p, repeat None n) = [].
Proof.
  intros. unfold used. simpl. rewrite repeat_length. revert s. induction n; simpl; auto.
Qed.

Lemma labels_ok_seg : forall hist t lab, wit hist (t, lab) ->
  labels_ok hist (numpy_track t) (map Some lab).
Proof.
  intros hist t lab (L1 & L2 & L3 & L4 & L5). unfold labels_ok. simpl. rewrite !map_length.
  repeat split; auto. intros k Hk.
  assert (exists p, nth_error lab k = Some p) as [p Hp].
  { destruct (nth_error lab k) eqn:E; eauto. apply nth_error_None in E. lia. }
  rewrite (nth_error_nth _ _ _ (map_nth_error Some _ _ Hp)).
  destruct (L5 k p Hp) as (q & P1 & P2 & P3 & P4). exists q. split; auto.
  rewrite (nth_error_nth _ _ _ (map_nth_error Some _ _ P2)).
  rewrite (nth_error_nth _ _ _ (map_nth_error Some _ _ P3)).
  rewrite (nth_error_nth _ _ _ (map_nth_error Some _ _ P4)). auto.
Qed.

Lemma used_seg : forall t lab, used (numpy_track t, map Some lab) = usedt (t, lab).
Proof.
  intros. unfold used, usedt. simpl. rewrite map_length. generalize (t_start t).
  induction lab; simpl; intros; auto. f_equal. apply IHlab.
Qed.

Lemma group_labels : forall hist g t, made_of t (map fst g) -> Forall (wit hist) g ->
  exists lab, labels_ok hist t lab /\ used (t, lab) = flat_map usedt g.
Proof.
  intros hist. induction g as [|[s lab] [|[s' lab'] g] IH]; intros t H W.
  - destruct H as (NE & _). simpl in NE. congruence.
  - destruct H as (_ & _ & H0 & H1 & H2 & H3). simpl in *. inversion W; subst.
    exists (map Some lab). destruct t as [s0 f0 m0 p0]. simpl in *. subst.
    split; [apply (labels_ok_seg hist s lab); auto|].
    rewrite app_nil_r. apply (used_seg s lab).
  - destruct H as (_ & SE & H0 & H1 & H2 & H3). inversion W as [|? ? W1 W2]; subst.
    simpl map in *. simpl hd in H0.
    change (spliced t_freq (s :: s' :: map fst g)) with
      (map Some (t_freq s) ++ repeat None (t_start s' - (t_start s + length (t_freq s)))
        ++ spliced t_freq (s' :: map fst g)) in H1.
    change (spliced t_mag (s :: s' :: map fst g)) with
      (map Some (t_mag s) ++ repeat None (t_start s' - (t_start s + length (t_mag s)))
        ++ spliced t_mag (s' :: map fst g)) in H2.
    change (spliced t_ph (s :: s' :: map fst g)) with
      (map Some (t_ph s) ++ repeat None (t_start s' - (t_start s + length (t_ph s)))
        ++ spliced t_ph (s' :: map fst g)) in H3.
    destruct SE as [S1 S2].
    destruct (IH (mkSTrack (t_start s') (spliced t_freq (s' :: map fst g))
       (spliced t_mag (s' :: map fst g)) (spliced t_ph (s' :: map fst g)))) as (lr & Lr & Ur).
    { split; [discriminate|]. split; [exact S2|]. simpl. auto. }
    { exact W2. }
    pose proof W1 as (L1 & L2 & L3 & L4 & _).
    rewrite L1 in H1. rewrite L2 in H2, S1. rewrite L3 in H3.
    set (pad := t_start s' - (t_start s + length lab)) in *.
    exists (map Some lab ++ repeat None pad ++ lr).
    destruct t as [s0 f0 m0 p0]. simpl in H0, H1, H2, H3. subst.
    split.
    + apply labels_ok_app; [apply (labels_ok_seg hist s lab); auto|].
      apply labels_ok_app; [apply labels_ok_pad|].
      rewrite map_length, repeat_length.
      replace (t_start s + length lab + pad) with (t_start s') by (unfold pad; lia). exact Lr.
    + erewrite used_app with (f1 := map Some (t_freq s)) (m1 := map Some (t_mag s)) (p1 := map Some (t_ph s)).
      erewrite used_app.
      rewrite used_pad. rewrite map_length, repeat_length.
      replace (t_start s + length lab + pad) with (t_start s') by (unfold pad; lia).
      rewrite Ur. pose proof (used_seg s lab) as US. unfold numpy_track in US. rewrite US.
      reflexivity.
      Unshelve. all: exact [].
Qed.

Lemma NoDup_flat_filter : forall A B (f : A -> list B) g l1 l2,
  NoDup (flat_map f (l1 ++ l2)) -> NoDup (flat_map f (filter g l1 ++ l2)).
Proof.
  intros A B f g. induction l1 as [|a l1 IH]; simpl; intros l2 H; auto.
  assert (H' : NoDup (flat_map f (l1 ++ l2))).
  { revert H. induction (f a); simpl; auto. intro H. inversion H; auto. }
  destruct (g a); simpl; auto.
  assert (sub : forall x, In x (flat_map f (filter g l1 ++ l2)) -> In x (flat_map f (l1 ++ l2))).
  { intros x Hx. apply in_flat_map in Hx. destruct Hx as (y & Hy & Hx). apply in_flat_map.
    exists y. split; auto. apply in_or_app. apply in_app_or in Hy. destruct Hy as [Hy|Hy]; auto.
    apply filter_In in Hy. tauto. }
  apply NoDup_app_intro; auto.
  - clear -H. induction (f a); simpl in *; [constructor|]. inversion H; subst. constructor; auto.
    intro. apply H2. apply in_or_app; auto.
  - intros x Hx Hy. apply sub in Hy. clear -H Hx Hy. induction (f a); simpl in *; [tauto|].
    inversion H; subst. destruct Hx as [->|Hx]; auto. apply H2. apply in_or_app; auto.
Qed.

Lemma groups_labels : forall hist sv (g : list (list lt_track)),
  Forall2 (fun t g => made_of t (map fst g)) sv g -> Forall (Forall (wit hist)) g ->
  exists labs, Forall2 (labels_ok hist) sv labs /\
    flat_map used (combine sv labs) = flat_map usedt (concat g).
Proof.
  intros hist sv g F. induction F; intro W.
  - exists []. split; auto.
  - inversion W; subst. destruct (IHF H3) as (labs & L & U).
    destruct (group_labels hist y x H H2) as (lab & La & Ua).
    exists (lab :: labs). split; [constructor; auto|]. simpl. rewrite Ua, U.
    now rewrite flat_map_app.
Qed.

Lemma made_of_single : forall t, made_of (numpy_track t) [t].
Proof. intro. repeat split; auto. discriminate. Qed.

Lemma labelled_tail : forall hist A, Forall (wit hist) A ->
  Forall2 (labels_ok hist) (map numpy_track (map fst A)) (map (map Some) (map snd A)) /\
  flat_map used (combine (map numpy_track (map fst A)) (map (map Some) (map snd A)))
  = flat_map usedt A.
Proof.
  intros hist A W. induction W as [|[t lab] A Wt W [IH1 IH2]]; simpl.
  - split; auto.
  - split.
    + constructor; auto. apply (labels_ok_seg hist t lab); auto.
    + rewrite IH2. f_equal. apply (used_seg t lab).
Qed.

Lemma combine_app : forall A B (a1 a2 : list A) (b1 b2 : list B), length a1 = length b1 ->
  combine (a1 ++ a2) (b1 ++ b2) = combine a1 b1 ++ combine a2 b2.
Proof. induction a1; destruct b1; simpl; intros; try discriminate; auto. f_equal. auto. Qed.

Lemma peaks_modal : forall m hist st, valid_hist hist ->
  run (m_base m) (modal_deact m) hist = Ok st ->
  exists labs,
    Forall2 (labels_ok hist) (saved st ++ map numpy_track (active st)) labs /\
    NoDup (flat_map used (combine (saved st ++ map numpy_track (active st)) labs)).
Proof.
  intros m hist st V H. destruct (run_inv_exists (m_base m) hist V) as (E & A & I).
  rewrite (ri_run _ _ _ _ I) in H.
  destruct (foldM (modal_deact m) [] (map fst E)) as [sv|] eqn:EF; [|discriminate].
  injection H as <-. simpl.
  pose proof (ri_E _ _ _ _ I) as WE. pose proof (ri_A _ _ _ _ I) as WA.
  assert (W : Forall (fun tx : track * list nat => wf_track (fst tx)) E).
  { eapply Forall_impl; [|exact WE]. intros a Ha. eapply wf_lab; eauto. }
  destruct (grouping _ m E sv W EF) as (g & F & P).
  assert (Wg : Forall (Forall (wit hist)) g).
  { apply Forall_forall. intros x Hx. apply Forall_forall. intros tl Htl.
    rewrite Forall_forall in WE. apply WE.
    assert (Hc : In tl (concat g)) by (apply in_concat; eauto).
    apply (Permutation_in _ P) in Hc. apply filter_In in Hc. tauto. }
  destruct (groups_labels hist sv g F Wg) as (labs & L & U).
  destruct (labelled_tail hist A WA) as [TL TU].
  exists (labs ++ map (map Some) (map snd A)). split.
  - apply Forall2_app; auto.
  - rewrite combine_app by (eapply Forall2_length'; eauto).
    rewrite flat_map_app, U, TU.
    eapply Permutation_NoDup with (l := flat_map usedt (filter (fun tx => modal_ok m (fst tx)) E ++ A)).
    + rewrite flat_map_app. apply Permutation_app_tail. apply Permutation_flat_map.
      now symmetry.
    + apply NoDup_flat_filter. exact (ri_nodup _ _ _ _ I).
Qed.

Lemma peaks_sine : forall c hist st, valid_hist hist ->
  run c (sine_deact c) hist = Ok st ->
  exists labs,
    Forall2 (labels_ok hist) (saved st ++ map numpy_track (active st)) labs /\
    Forall (Forall (fun l => l <> None)) labs /\
    NoDup (flat_map used (combine (saved st ++ map numpy_track (active st)) labs)).
Proof.
  intros c hist st V H. destruct (run_inv_exists c hist V) as (E & A & I).
  rewrite (ri_run _ _ _ _ I) in H. rewrite sine_fold in H. injection H as <-. simpl.
  pose proof (ri_E _ _ _ _ I) as WE. pose proof (ri_A _ _ _ _ I) as WA.
  set (E' := filter (fun tx => sine_ok c (fst tx)) E).
  assert (EE : filter (sine_ok c) (map fst E) = map fst E').
  { unfold E'. rewrite filter_map. reflexivity. }
  assert (W' : Forall (wit hist) (E' ++ A)).
  { apply Forall_app. split; auto. apply Forall_forall. intros x Hx. rewrite Forall_forall in WE.
    apply filter_In in Hx. apply WE. tauto. }
  destruct (labelled_tail hist _ W') as [TL TU].
  exists (map (map Some) (map snd (E' ++ A))).
  rewrite EE. rewrite <- map_app, <- map_app. split; auto. split.
  - apply Forall_forall. intros x Hx. apply in_map_iff in Hx. destruct Hx as (y & <- & _).
    apply Forall_forall. intros z Hz. apply in_map_iff in Hz. destruct Hz as (w & <- & _). discriminate.
  - rewrite TU. unfold E'. apply NoDup_flat_filter. exact (ri_nodup _ _ _ _ I).
Qed.

(** ** C08 *)

Lemma min_key_Some : forall A (l : list A) (key : A -> option Q) (key' : A -> Q),
  (forall i, In i l -> key i = Some (key' i)) ->
  min_key nan_ltb l key = option_map (fun p => (fst p, Some (snd p))) (min_key Qltb l key').
Proof.
  intros A l key key'. unfold min_key.
  assert (G : forall acc, (forall i, In i l -> key i = Some (key' i)) ->
     fold_left (fun acc i => let x := key i in match acc with None => Some (i, x)
        | Some (_, x_) => if nan_ltb x x_ then Some (i, x) else acc end) l
        (option_map (fun p => (fst p, Some (snd p))) acc) =
     option_map (fun p => (fst p, Some (snd p)))
      (fold_left (fun acc i => let x := key' i in match acc with None => Some (i, x)
        | Some (_, x_) => if Qltb x x_ then Some (i, x) else acc end) l acc)).
  { induction l as [|a l IH]; simpl; intros acc H; auto.
    rewrite <- IH by auto. f_equal. rewrite H by auto.
    destruct acc as [[j x]|]; simpl; auto. destruct (Qltb (key' a) x); auto. }
  intro H. exact (G None H).
Qed.

Lemma spliced_tail : forall fld ss, ss <> [] ->
  exists l, spliced fld ss = l ++ map Some (fld (last ss no_track)).
Proof.
  intros fld. induction ss as [|s [|s' ss] IH]; intro NE; [congruence| |].
  - exists []. reflexivity.
  - destruct IH as [l E]; [discriminate|].
    change (last (s :: s' :: ss) no_track) with (last (s' :: ss) no_track).
    change (spliced fld (s :: s' :: ss)) with
      (map Some (fld s) ++ repeat None (t_start s' - (t_start s + length (fld s)))
        ++ spliced fld (s' :: ss)). rewrite E.
    exists (map Some (fld s) ++ repeat None (t_start s' - (t_start s + length (fld s))) ++ l).
    now rewrite <- !app_assoc.
Qed.

Lemma present_app : forall A (l1 l2 : list (option A)), present (l1 ++ l2) = present l1 ++ present l2.
Proof. intros. unfold present. apply flat_map_app. Qed.
Lemma present_Some : forall A (l : list A), present (map Some l) = l.
Proof. induction l; simpl; congruence. Qed.

Lemma last_app_ne : forall A (l1 l2 : list A) d, l2 <> [] -> last (l1 ++ l2) d = last l2 d.
Proof.
  induction l1; simpl; intros; auto. rewrite <- (IHl1 l2 d H).
  destruct (l1 ++ l2) eqn:E; auto. destruct l1; simpl in E; [congruence|discriminate].
Qed.
Lemma last_map : forall A B (f : A -> B) l d, l <> [] -> forall d', last (map f l) d' = f (last l d).
Proof.
  induction l as [|a [|b l] IH]; intros; [congruence|reflexivity|].
  change (last (map f (a :: b :: l)) d') with (last (map f (b :: l)) d').
  change (last (a :: b :: l) d) with (last (b :: l) d). apply IH. discriminate.
Qed.

Lemma saved_wf_tail : forall u ss, made_of u ss -> Forall wf_track ss ->
  exists l f, f <> [] /\ s_freq u = l ++ map Some f.
Proof.
  intros u ss (NE & _ & _ & E & _) W. destruct (spliced_tail t_freq ss NE) as [l El].
  exists l, (t_freq (last ss no_track)). split.
  - rewrite Forall_forall in W. apply (W _ (last_In _ ss no_track NE)).
  - congruence.
Qed.

Lemma diff_dist : forall (single : bool) u ss t, made_of u ss -> Forall wf_track ss -> wf_track t ->
  (if single then diff_single u (numpy_track t) else diff_avg u (numpy_track t)) =
  Some (strategy_dist single u t).
Proof.
  intros single u ss t Mu W (Wt & _).
  destruct (saved_wf_tail u ss Mu W) as (l & f & Hf & E).
  unfold strategy_dist, diff_single, diff_avg. destruct single.
  - rewrite E. rewrite last_app_ne by (destruct f; [congruence|discriminate]).
    rewrite (last_map _ _ _ f 0%Q Hf). rewrite present_app, present_Some.
    rewrite last_app_ne by auto. simpl. destruct (t_freq t) as [|a r]; [congruence|]. reflexivity.
  - unfold nanmean. simpl. rewrite present_Some.
    destruct (t_freq t) as [|a r] eqn:Et; [congruence|].
    destruct (present (s_freq u)) as [|b v] eqn:Eu.
    + exfalso. rewrite E, present_app, present_Some in Eu. apply app_eq_nil in Eu. tauto.
    + reflexivity.
Qed.

Lemma modal_deact_spec : forall m sv t (single : bool),
  wf_track t -> saved_wf sv -> meets_criteria m t ->
  m_strategy m = strategy_name single ->
  exists sv', modal_deact m sv t = Ok sv' /\
  ((exists i u ss, earlier sv t i /\ nth_error sv i = Some u /\ made_of u ss /\
      Forall wf_track ss /\
      (strategy_dist single u t
         < c_off (m_base m) + c_slope (m_base m) * hd 0 (t_freq t))%Q /\
      (forall j, earlier sv t j ->
         (strategy_dist single u t <= strategy_dist single (nth j sv no_strack) t)%Q) /\
      (forall j, earlier sv t j -> j < i ->
         (strategy_dist single u t < strategy_dist single (nth j sv no_strack) t)%Q) /\
      exists before after u',
        sv = before ++ u :: after /\ List.length before = i /\
        sv' = before ++ u' :: after /\ made_of u' (ss ++ [t]))
   \/ ((forall j, earlier sv t j ->
         (c_off (m_base m) + c_slope (m_base m) * hd 0 (t_freq t)
            <= strategy_dist single (nth j sv no_strack) t)%Q) /\
       sv' = sv ++ [numpy_track t])).
Proof.
  intros m sv t single Wt Wsv Hc Hs.
  assert (Hok : modal_ok m t = true) by (apply modal_ok_iff; auto).
  unfold modal_deact. rewrite Hok.
  assert (HF : freq_diff_function m = Ok (if single then diff_single else diff_avg)).
  { unfold freq_diff_function. rewrite Hs. destruct single; reflexivity. }
  rewrite HF.
  match goal with |- context [filter ?f (seq 0 (List.length sv))] =>
    set (l := filter f (seq 0 (List.length sv))) end.
  assert (Hl : forall i, In i l <-> earlier sv t i).
  { intro i. unfold l. rewrite filter_In, in_seq, Nat.ltb_lt. unfold earlier. simpl. intuition lia. }
  assert (Hw : forall i, earlier sv t i -> exists ss, made_of (nth i sv no_strack) ss /\ Forall wf_track ss).
  { intros i [Hi _]. unfold saved_wf in Wsv. rewrite Forall_forall in Wsv. apply Wsv. now apply nth_In. }
  rewrite (min_key_Some _ l _ (fun i => strategy_dist single (nth i sv no_strack) t)).
  2: { intros i Hi. apply Hl in Hi. destruct (Hw i Hi) as (ss & M1 & M2).
       rewrite <- (diff_dist single _ ss t M1 M2 Wt). destruct single; reflexivity. }
  pose proof (min_key_spec Qltb (fun i => strategy_dist single (nth i sv no_strack) t)
     Qltb_irr Qltb_trans Qltb_neg_trans l) as MK.
  destruct (min_key Qltb l _) as [[i d]|] eqn:EM; simpl option_map; cbv iota beta.
  - simpl in MK. destruct MK as (l1 & l2 & El & Ed & Hl1 & Hmin).
    assert (Hi : earlier sv t i). { apply Hl. rewrite El. apply in_or_app. simpl. auto. }
    assert (Hmin' : forall j, earlier sv t j -> (d <= strategy_dist single (nth j sv no_strack) t)%Q).
    { intros j Hj. apply Hl in Hj. specialize (Hmin j Hj). apply Qltb_false in Hmin. exact Hmin. }
    simpl fst. simpl snd. unfold nan_ltb.
    destruct (Qltb d (df (m_base m) (hd 0%Q (t_freq t)))) eqn:ET.
    + apply Qltb_true in ET. eexists. split; [reflexivity|]. left.
      destruct (Hw i Hi) as (ss & M1 & M2).
      destruct Hi as [Hi1 Hi2].
      exists i, (nth i sv no_strack), ss. split; [split; auto|].
      split; [apply nth_error_nth'; auto|]. split; auto. split; auto.
      rewrite <- Ed. split; [exact ET|]. split; [exact Hmin'|]. split.
      * intros j Hj Hji. apply Qltb_true. apply Hl1.
        pose proof Hj as Hj'. apply Hl in Hj. unfold l in El. destruct Hj' as [Hj1 Hj2].
        eapply seq_filter_split; [exact El|exact Hji| |exact Hj1].
        apply Nat.ltb_lt. exact Hj2.
      * destruct (upd_split _ sv i (glue1 (nth i sv no_strack) (numpy_track t)) no_strack Hi1)
          as (b & a & E1 & E2 & E3).
        exists b, a, (glue1 (nth i sv no_strack) (numpy_track t)).
        split; auto. split; auto. split; auto.
        apply made_of_glue; auto.
    + apply Qltb_false in ET. eexists. split; [reflexivity|]. right. split; auto.
      intros j Hj. eapply Qle_trans; [exact ET|]. auto.
  - eexists. split; [reflexivity|]. right. split; auto.
    intros j Hj. apply Hl in Hj. simpl in MK. rewrite MK in Hj. destruct Hj.
Qed.

(** ** C09 *)

Lemma le_Qceiling_iff : forall x z, (z <= Qceiling x)%Z <-> (inject_Z z - 1 < x)%Q.
Proof.
  intros x z. split; intro H.
  - assert (Hx := Qceiling_lt x). eapply Qle_lt_trans; [|exact Hx].
    unfold Z.sub. rewrite inject_Z_plus.
    assert (inject_Z z <= inject_Z (Qceiling x))%Q by (rewrite <- Zle_Qle; auto).
    change (inject_Z (- (1))) with (-(1))%Q. lra.
  - destruct (Z_le_gt_dec z (Qceiling x)) as [|G]; auto. exfalso.
    assert (Hx := Qle_ceiling x).
    assert (HH : (Qceiling x <= z - 1)%Z) by lia. rewrite Zle_Qle in HH.
    unfold Z.sub in HH. rewrite inject_Z_plus in HH. change (inject_Z (- (1))) with (-(1))%Q in HH. lra.
Qed.

Lemma strip_spec : forall m st,
  match m_strip m with
  | None => modal_all_tracks m st = all_tracks (modal_ok m) st
  | Some s => exists keep,
      modal_all_tracks m st = filter keep (all_tracks (modal_ok m) st) /\
      forall t, keep t = true <->
        (inject_Z (onset m st t) - 1 < s * (c_fs (m_base m) / inject_Z (Zpos (c_h (m_base m)))))%Q
  end.
Proof.
  intros m st. unfold modal_all_tracks, strip_n. destruct (m_strip m) as [s|]; auto.
  eexists. split; [reflexivity|]. intro t. cbv zeta.
  rewrite Z.leb_le. unfold frame_rate. rewrite le_Qceiling_iff. reflexivity.
Qed.

(** ** C10 *)

Lemma unknown_strategy_fold : forall m l,
  m_strategy m <> "single"%string -> m_strategy m <> "average"%string ->
  Forall wf_track l ->
  (Exists (meets_criteria m) l /\ foldM (modal_deact m) [] l = Err KeyError) \/
  (Forall (fun t => ~ meets_criteria m t) l /\ foldM (modal_deact m) [] l = Ok []).
Proof.
  intros m l N1 N2. induction l as [|t l IH]; intro W; simpl; auto.
  inversion W; subst.
  unfold modal_deact at 1 3. destruct (modal_ok m t) eqn:E.
  - left. split.
    + constructor. apply modal_ok_iff; auto.
    + unfold freq_diff_function. apply String.eqb_neq in N1, N2. now rewrite N1, N2.
  - destruct (IH H2) as [[A B]|[A B]].
    + left. split; auto.
    + right. split; auto. constructor; auto. intro C. apply modal_ok_iff in C; auto. congruence.
Qed.

Lemma unknown_strategy : forall m hist lg, valid_hist hist ->
  m_strategy m <> "single"%string -> m_strategy m <> "average"%string ->
  run (m_base m) log_deact hist = Ok lg ->
  exists ended, saved lg = map numpy_track ended /\ Forall wf_track ended /\
  ((Exists (meets_criteria m) ended /\
    run (m_base m) (modal_deact m) hist = Err KeyError) \/
   (Forall (fun t => ~ meets_criteria m t) ended /\
    exists st, run (m_base m) (modal_deact m) hist = Ok st /\ saved st = [] /\
               active st = active lg)).
Proof.
  intros m hist lg V N1 N2 H. destruct (run_inv_exists (m_base m) hist V) as (E & A & I).
  rewrite (ri_run _ _ _ _ I) in H. rewrite log_fold in H. simpl in H. injection H as <-.
  assert (W : Forall wf_track (map fst E)).
  { apply Forall_forall. intros t Ht. apply in_map_iff in Ht. destruct Ht as (tl & <- & Hin).
    pose proof (ri_E _ _ _ _ I) as IE. rewrite Forall_forall in IE. eapply wf_lab; eauto. }
  exists (map fst E). split; auto. split; auto.
  pose proof (ri_run _ _ _ _ I (modal_deact m)) as R.
  destruct (unknown_strategy_fold m (map fst E) N1 N2 W) as [[X Y]|[X Y]]; rewrite Y in R.
  - left. auto.
  - right. split; auto. eexists. split; [exact R|]. auto.
Qed.

(** With a known strategy the tracker never raises. *)
Lemma modal_total : forall m hist, valid_hist hist ->
  (m_strategy m = "single"%string \/ m_strategy m = "average"%string) ->
  exists st, run (m_base m) (modal_deact m) hist = Ok st.
Proof.
  intros m hist V HS. destruct (run_inv_exists (m_base m) hist V) as (E & A & I).
  rewrite (ri_run _ _ _ _ I).
  assert (T : forall l sv, exists sv', foldM (modal_deact m) sv l = Ok sv').
  { induction l as [|t l IH]; intro sv; simpl; eauto.
    unfold modal_deact at 1. destruct (modal_ok m t); auto.
    assert (exists d, freq_diff_function m = Ok d) as [d ->].
    { unfold freq_diff_function. destruct HS as [-> | ->]; simpl; eauto. }
    destruct (min_key nan_ltb _ _) as [[i x]|]; auto. destruct (nan_ltb x _); auto. }
  destruct (T (map fst E) []) as [sv' ->]. simpl. eauto.
Qed.

(** ** C12 *)

Lemma min_key_first_min : forall A (it : list A) (key : A -> Q),
  match min_key Qltb it key with
  | None => it = []
  | Some (i, x) =>
    exists l1 l2, it = l1 ++ i :: l2 /\ x = key i /\
      (forall j, In j l1 -> (x < key j)%Q) /\ (forall j, In j it -> (x <= key j)%Q)
  end.
Proof.
  intros. pose proof (min_key_spec Qltb key Qltb_irr Qltb_trans Qltb_neg_trans it) as H.
  destruct (min_key Qltb it key) as [[i x]|]; simpl in H; auto.
  destruct H as (l1 & l2 & E & Ex & H1 & H2). exists l1, l2. split; auto. split; auto. split.
  - intros j Hj. apply Qltb_true. auto.
  - intros j Hj. apply Qltb_false. auto.
Qed.

Lemma min_key_nan_first : forall A (a : A) it (key : A -> option Q),
  key a = None -> min_key nan_ltb (a :: it) key = Some (a, None).
Proof.
  intros A a it key H. unfold min_key. simpl. rewrite H.
  induction it as [|b it IH]; simpl; auto. destruct (key b); simpl; auto.
Qed.

(** ** Trailing silence *)

Lemma silence_step : forall c deact st, step c deact st ([], []) =
  do sv <- foldM deact (saved st) (rev (active st)); Ok (mkState sv [] (S (nframe st))).
Proof.
  intros c deact [sv act n].
  assert (HS : sorts_desc [] []) by (split; constructor).
  destruct (step_spec c act [] [] HS) as (M & G & E). rewrite E. simpl saved. simpl active.
  assert (EM : M = []).
  { destruct M as [|[i p] M]; auto. destruct (gm_range _ _ _ _ G i p) as [_ H]; simpl; auto.
    simpl in H. lia. }
  subst M.
  assert (ED : dying act [] = act).
  { unfold dying. unfold partner. simpl. rewrite flat_map_concat_map.
    rewrite <- (map_map (fun i => nth i act no_track) (fun t => [t])), map_nth_seq.
    clear. induction act; simpl; congruence. }
  assert (ES : surviving act [] [] = []).
  { unfold surviving, partner. simpl. induction (seq 0 (length act)); auto. }
  rewrite ED, ES. unfold born, free_peaks. simpl. rewrite firstn_nil. reflexivity.
Qed.

Lemma sine_silence : forall c hist st st', valid_hist hist ->
  run c (sine_deact c) hist = Ok st ->
  run c (sine_deact c) (hist ++ [([], [])]) = Ok st' ->
  Permutation (all_tracks (sine_ok c) st') (all_tracks (sine_ok c) st).
Proof.
  intros c hist st st' V H H'. rewrite run_snoc, H in H'. cbn [bind] in H'.
  rewrite silence_step, sine_fold in H'. cbn [bind] in H'. injection H' as <-.
  unfold all_tracks. simpl. rewrite app_nil_r. apply Permutation_app_head.
  rewrite filter_rev, map_rev. symmetry. apply Permutation_rev.
Qed.

(** ** Every frame has a sorting order *)

Lemma ins_desc_perm : forall key i l, Permutation (ins_desc key i l) (i :: l).
Proof.
  intros key i. induction l as [|j l IH]; simpl; auto.
  destruct (Qle_bool (key j) (key i)); auto.
  rewrite IH. apply perm_swap.
Qed.

Lemma ins_desc_sorted : forall key i l,
  Sorted.StronglySorted (fun a b => key b <= key a)%Q l ->
  Sorted.StronglySorted (fun a b => key b <= key a)%Q (ins_desc key i l).
Proof.
  intros key i. induction l as [|j l IH]; simpl; intro S.
  - constructor; constructor.
  - inversion S as [|? ? S' F]; subst. rewrite Forall_forall in F.
    destruct (Qle_bool (key j) (key i)) eqn:E.
    + apply Qle_bool_iff in E. constructor; auto. constructor; auto.
      apply Forall_forall. intros x Hx. eapply Qle_trans; [apply F; auto|auto].
    + assert (E' : (key i < key j)%Q).
      { apply Qnot_le_lt. intro C. apply Qle_bool_iff in C. congruence. }
      constructor; auto. apply Forall_forall. intros x Hx.
      apply (Permutation_in _ (ins_desc_perm key i l)) in Hx. destruct Hx as [<-|Hx]; auto.
      lra.
Qed.

Lemma argsort_desc_sorts : forall fr, sorts_desc fr (argsort_desc fr).
Proof.
  intro fr. unfold argsort_desc, sorts_desc. set (key := fun i => pk_m (nth i fr no_peak)).
  split.
  - induction (seq 0 (List.length fr)); simpl; auto. rewrite ins_desc_perm. now constructor.
  - induction (seq 0 (List.length fr)); simpl; [constructor|]. now apply ins_desc_sorted.
Qed.

Lemma with_order_valid : forall frames, valid_hist (map with_order frames).
Proof.
  intro frames. apply Forall_forall. intros x Hx. apply in_map_iff in Hx.
  destruct Hx as (fr & <- & _). apply argsort_desc_sorts.
Qed.

Lemma saved_wf_reachable : forall m hist st, valid_hist hist ->
  run (m_base m) (modal_deact m) hist = Ok st -> saved_wf (saved st).
Proof.
  intros m hist st V H.
  destruct (run_inv_exists (m_base m) hist V) as (E & A & I).
  pose proof (ri_run _ _ _ _ I log_deact) as R. rewrite log_fold in R. simpl in R.
  destruct (modal_groups m hist st _ V H R) as (ended & kept & dropped & groups & _ & W & P & _ & _ & F & PG).
  unfold saved_wf.
  assert (Wg : Forall (Forall wf_track) groups).
  { apply Forall_forall. intros g Hg. apply Forall_forall. intros s Hs.
    rewrite Forall_forall in W. apply W. apply (Permutation_in _ (Permutation_sym P)).
    apply in_or_app. left. apply (Permutation_in _ PG). apply in_concat. eauto. }
  clear -F Wg. induction F; constructor.
  - inversion Wg; subst. eauto.
  - inversion Wg; subst. auto.
Qed.
