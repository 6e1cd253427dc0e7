(** Property-level lemmas about the trackers over arbitrary arithmetic. *)
From Coq Require Import ZArith String List Arith Lia Bool Permutation.
Import ListNotations.
From Verif Require Import Base ListLemmas Tracker_Model Tracker_Spec Tracker_Step Tracker_Run
  Tracker_Modal Tracker_Proofs Double_Model Double_Spec Double_Step Double_Run.
Local Open Scope nat_scope.
Notation length := List.length.

Section Proofs.
Context {Ar : arith}.
Notation peak := (dpeak Ar).
Notation track := (dtrack Ar).
Notation frame := (dframe Ar).
Notation cfg := (dcfg Ar).
Notation lt_track := (dtrack Ar * list nat)%type.

Lemma d_active_bounded : forall (c : cfg) deact hist st, d_hist_ok hist ->
  d_run c deact hist = Ok st ->
  (Z.of_nat (length (d_active st)) <= Z.max 0 (dc_max c))%Z.
Proof.
  intros c deact hist st V H. destruct (d_run_inv_exists c hist V) as (E & A & I).
  rewrite (dri_run _ _ _ _ I) in H. destruct (foldM deact [] (map fst E)); [|discriminate].
  injection H as <-. cbn [d_active]. rewrite map_length. pose proof (dri_max _ _ _ _ I). lia.
Qed.

Lemma d_wf_lab : forall hist (tl : lt_track), d_wit hist tl -> d_wf (fst tl).
Proof.
  intros hist [t lab] (H1 & H2 & H3 & H4 & _). simpl. repeat split; try congruence.
  intro E. rewrite E in H1. destruct lab; simpl in *; congruence.
Qed.

Lemma d_active_contiguous : forall (c : cfg) deact hist st, d_hist_ok hist ->
  d_run c deact hist = Ok st ->
  d_nframe st = length hist /\
  Forall (fun t => d_wf t /\ dt_start t + length (dt_freq t) = length hist) (d_active st).
Proof.
  intros c deact hist st V H. destruct (d_run_inv_exists c hist V) as (E & A & I).
  rewrite (dri_run _ _ _ _ I) in H. destruct (foldM deact [] (map fst E)); [|discriminate].
  injection H as <-. cbn [d_active d_nframe]. split; auto.
  apply Forall_forall. intros t Ht. apply in_map_iff in Ht. destruct Ht as ([t' lab] & <- & Hin).
  pose proof (dri_A _ _ _ _ I) as IA. pose proof (dri_end _ _ _ _ I) as Ie.
  rewrite Forall_forall in IA, Ie. specialize (IA _ Hin). specialize (Ie _ Hin).
  pose proof (d_wf_lab _ _ IA) as W. destruct IA as (L1 & _). simpl in *.
  split; [exact W|lia].
Qed.

(** ** The sine tracker *)

Definition d_long (n : Z) (t : track) : bool := Z.leb n (Z.of_nat (length (dt_freq t))).

Lemma d_sine_fold : forall (c : cfg) n l sv, d_min_sine_len c = Ok n ->
  foldM (d_sine_deact c) sv l = Ok (sv ++ filter (d_long n) l).
Proof.
  intros c n l sv E. revert sv. induction l as [|t l IH]; intro sv; cbn [foldM filter].
  - now rewrite app_nil_r.
  - unfold d_sine_deact at 1, d_sine_ok. rewrite E. cbn [bind]. fold (d_long n t).
    rewrite IH. destruct (d_long n t); simpl; auto. now rewrite <- app_assoc.
Qed.

Lemma d_log_fold : forall (l sv : list track), foldM d_log_deact sv l = Ok (sv ++ l).
Proof.
  induction l as [|t l IH]; intro sv; simpl.
  - now rewrite app_nil_r.
  - rewrite IH. now rewrite <- app_assoc.
Qed.

Lemma d_filterM_sine : forall (c : cfg) n l, d_min_sine_len c = Ok n ->
  d_filterM (d_sine_ok c) l = Ok (filter (d_long n) l).
Proof.
  intros c n l E. induction l as [|t l IH]; cbn [d_filterM filter]; auto.
  unfold d_sine_ok at 1. rewrite E. cbn [bind]. fold (d_long n t).
  rewrite IH. reflexivity.
Qed.

Lemma d_sine_reported : forall (c : cfg) n hist, d_hist_ok hist -> d_min_sine_len c = Ok n ->
  exists st lg, d_run c (d_sine_deact c) hist = Ok st /\ d_run c d_log_deact hist = Ok lg /\
    d_active st = d_active lg /\
    d_saved st = filter (d_long n) (d_saved lg) /\
    d_all_tracks (d_sine_ok c) st =
      Ok (filter (d_long n) (d_saved lg ++ d_active lg)).
Proof.
  intros c n hist V EN. destruct (d_run_inv_exists c hist V) as (E & A & I).
  pose proof (dri_run _ _ _ _ I (d_sine_deact c)) as H1. rewrite (d_sine_fold c n) in H1 by auto.
  cbn [bind app] in H1.
  pose proof (dri_run _ _ _ _ I d_log_deact) as H2. rewrite d_log_fold in H2. cbn [bind app] in H2.
  eexists _, _. split; [exact H1|]. split; [exact H2|]. cbn [d_active d_saved].
  split; auto. split; auto. unfold d_all_tracks. cbn [d_active d_saved].
  rewrite (d_filterM_sine c n) by auto. cbn [bind]. now rewrite filter_app.
Qed.

(** ** Merging *)

Lemma d_spliced_len : forall (fld : track -> list (num Ar)) ss,
  ss <> [] -> d_separated ss ->
  (forall s, In s ss -> length (fld s) = length (dt_mag s)) ->
  dt_start (hd d_notrack ss) + length (d_spliced fld ss) =
  dt_start (last ss d_notrack) + length (fld (last ss d_notrack)).
Proof.
  intros fld. induction ss as [|s [|s' ss] IH]; intros NE SE HL; [congruence| |].
  - reflexivity.
  - destruct SE as [S1 S2].
    assert (IH' := IH ltac:(discriminate) S2 (fun x Hx => HL x (or_intror Hx))).
    change (last (s :: s' :: ss) d_notrack) with (last (s' :: ss) d_notrack).
    rewrite <- IH'. simpl hd.
    change (d_spliced fld (s :: s' :: ss)) with
      (fld s ++ repeat (nan Ar) (dt_start s' - (dt_start s + length (fld s)))
        ++ d_spliced fld (s' :: ss)).
    rewrite !app_length, repeat_length.
    rewrite (HL s) by (left; auto). lia.
Qed.

Lemma d_spliced_snoc : forall (fld : track -> list (num Ar)) t ss, ss <> [] ->
  d_spliced fld (ss ++ [t]) =
  d_spliced fld ss ++
  repeat (nan Ar) (dt_start t - (dt_start (last ss d_notrack) + length (fld (last ss d_notrack))))
  ++ fld t.
Proof.
  intros fld t. induction ss as [|s [|s' ss] IH]; intro NE; [congruence| |].
  - reflexivity.
  - change (last (s :: s' :: ss) d_notrack) with (last (s' :: ss) d_notrack).
    change ((s :: s' :: ss) ++ [t]) with (s :: (s' :: ss) ++ [t]).
    assert (IH' := IH ltac:(discriminate)).
    change (d_spliced fld (s :: (s' :: ss) ++ [t])) with
      (fld s ++ repeat (nan Ar) (dt_start s' - (dt_start s + length (fld s)))
        ++ d_spliced fld ((s' :: ss) ++ [t])).
    rewrite IH'.
    change (d_spliced fld (s :: s' :: ss)) with
      (fld s ++ repeat (nan Ar) (dt_start s' - (dt_start s + length (fld s)))
        ++ d_spliced fld (s' :: ss)).
    now rewrite <- !app_assoc.
Qed.

Lemma d_separated_snoc : forall (t : track) ss, ss <> [] -> d_separated ss ->
  (dt_start (last ss d_notrack) + length (dt_mag (last ss d_notrack)) < dt_start t) ->
  d_separated (ss ++ [t]).
Proof.
  intros t. induction ss as [|s [|s' ss] IH]; intros NE SE H; [congruence| |].
  - simpl. auto.
  - destruct SE as [S1 S2]. change (d_separated ((s :: s' :: ss) ++ [t])) with
      (dt_start s + length (dt_mag s) < dt_start s' /\ d_separated ((s' :: ss) ++ [t])).
    split; auto. apply IH; auto. discriminate.
Qed.

Lemma d_made_of_glue : forall (u : track) ss t,
  d_made_of u ss -> Forall d_wf ss -> d_wf t ->
  dt_start u + length (dt_mag u) < dt_start t ->
  d_made_of (d_glue u t) (ss ++ [t]).
Proof.
  intros u ss t (NE & SE & H0 & H1 & H2 & H3) W Wt HE.
  rewrite Forall_forall in W.
  assert (Lm := d_spliced_len dt_mag ss NE SE (fun s _ => eq_refl)).
  assert (HE2 : dt_start (last ss d_notrack) + length (dt_mag (last ss d_notrack)) < dt_start t).
  { rewrite <- Lm. rewrite <- H0, <- H2. lia. }
  assert (Hl := last_In _ ss d_notrack NE). pose proof (W _ Hl) as (_ & W2 & W3).
  assert (Epad : dt_start t - dt_start u - length (dt_mag u) =
     dt_start t - (dt_start (last ss d_notrack) + length (dt_mag (last ss d_notrack)))).
  { rewrite <- Lm, <- H0, <- H2. simpl. lia. }
  unfold d_glue. rewrite Epad. unfold d_made_of. cbn [dt_start dt_freq dt_mag dt_ph].
  split. { destruct ss; discriminate. }
  split. { apply d_separated_snoc; auto. }
  split. { rewrite H0. destruct ss; [congruence|reflexivity]. }
  rewrite !d_spliced_snoc by auto. rewrite <- H1, <- H2, <- H3. rewrite W3, <- W2. auto.
Qed.

Lemma d_modal_deact_cases : forall m sv (t : track) sv', d_modal_deact m sv t = Ok sv' ->
  (d_modal_ok m t = Ok false /\ sv' = sv) \/
  (d_modal_ok m t = Ok true /\ sv' = sv ++ [t]) \/
  (d_modal_ok m t = Ok true /\ exists i, i < length sv /\
     dt_start (nth i sv d_notrack) + length (dt_mag (nth i sv d_notrack)) < dt_start t /\
     sv' = upd i (d_glue (nth i sv d_notrack) t) sv).
Proof.
  intros m sv t sv' H. unfold d_modal_deact in H.
  destruct (d_modal_ok m t) as [[|]|]; cbn [bind] in H; [|left; split; congruence|discriminate].
  destruct (d_diff_function m) as [diff|]; cbn [bind] in H; [|discriminate].
  match type of H with context [min_key _ ?l ?k] =>
    pose proof (min_key_in (lt Ar) k l) as MK; destruct (min_key (lt Ar) l k) as [[i d]|] end.
  - destruct MK as [MK _]. apply filter_In in MK. destruct MK as [G1 G2].
    apply in_seq in G1. apply Nat.ltb_lt in G2. cbv zeta in G2.
    destruct (lt Ar d _).
    + right. right. split; auto. exists i. split; [lia|]. split; auto. congruence.
    + right. left. split; congruence.
  - right. left. split; congruence.
Qed.

Definition d_kept (m : dmcfg Ar) (t : track) : bool :=
  match d_modal_ok m t with Ok b => b | Err _ => false end.

Lemma d_grouping : forall X m (E : list (track * X)) sv,
  Forall (fun tx => d_wf (fst tx)) E ->
  foldM (d_modal_deact m) [] (map fst E) = Ok sv ->
  exists groups : list (list (track * X)),
    Forall2 (fun t g => d_made_of t (map fst g)) sv groups /\
    Permutation (concat groups) (filter (fun tx => d_kept m (fst tx)) E) /\
    Forall (fun tx => d_modal_ok m (fst tx) = Ok (d_kept m (fst tx))) E.
Proof.
  intros X m E. induction E as [|[t x] E IH] using rev_ind; intros sv W H.
  - simpl in H. injection H as <-. exists []. repeat split; constructor.
  - apply Forall_app in W. destruct W as [W Wt]. inversion Wt as [|? ? Wt' _]; subst. simpl in Wt'.
    rewrite map_app, foldM_app in H.
    destruct (foldM (d_modal_deact m) [] (map fst E)) as [sv0|] eqn:E0; [|discriminate].
    cbn [bind map fst foldM] in H.
    destruct (d_modal_deact m sv0 t) as [sv1|] eqn:E1; [|discriminate].
    injection H as <-.
    destruct (IH sv0 W eq_refl) as (g & F & P & D). clear IH.
    rewrite filter_snoc. cbn [fst].
    assert (DD : d_modal_ok m t = Ok (d_kept m t)).
    { unfold d_kept. destruct (d_modal_deact_cases _ _ _ _ E1) as [[O _]|[[O _]|(O & _)]];
      rewrite O; reflexivity. }
    assert (D' : Forall (fun tx => d_modal_ok m (fst tx) = Ok (d_kept m (fst tx))) (E ++ [(t, x)])).
    { apply Forall_app. split; auto. }
    destruct (d_modal_deact_cases _ _ _ _ E1) as [[O ->]|[[O ->]|(O & i & Hi & He & ->)]];
      rewrite O in DD; injection DD as DD; rewrite <- DD.
    + exists g. rewrite app_nil_r. auto.
    + exists (g ++ [[(t, x)]]). split; [|split; auto].
      * apply Forall2_app; auto. constructor; [|constructor]. simpl.
        repeat split; auto; discriminate.
      * rewrite concat_app. simpl. now apply Permutation_app_tail.
    + exists (upd i (nth i g [] ++ [(t, x)]) g).
      pose proof (Forall2_length' _ _ _ _ _ F) as HL.
      split; [|split; auto].
      * eapply Forall2_upd with (dA := d_notrack) (dB := []); eauto.
        intro Hm. rewrite map_app. simpl. apply d_made_of_glue; auto.
        apply Forall_forall. intros s Hs. apply in_map_iff in Hs. destruct Hs as (tx & <- & Htx).
        rewrite Forall_forall in W. apply W.
        assert (Hc : In tx (concat g)).
        { apply in_concat. exists (nth i g []). split; auto. apply nth_In. lia. }
        apply (Permutation_in _ P) in Hc. apply filter_In in Hc. tauto.
      * rewrite concat_upd_snoc by lia. now apply Permutation_app_tail.
Qed.

Lemma d_modal_groups : forall m hist st lg, d_hist_ok hist ->
  d_run (dm_base m) (d_modal_deact m) hist = Ok st ->
  d_run (dm_base m) d_log_deact hist = Ok lg ->
  exists kept dropped groups,
    Permutation (d_saved lg) (kept ++ dropped) /\
    Forall (fun t => d_modal_ok m t = Ok true) kept /\
    Forall (fun t => d_modal_ok m t = Ok false) dropped /\
    Forall2 (@d_made_of Ar) (d_saved st) groups /\
    Permutation (concat groups) kept /\
    d_active st = d_active lg.
Proof.
  intros m hist st lg V H1 H2. destruct (d_run_inv_exists (dm_base m) hist V) as (E & A & I).
  rewrite (dri_run _ _ _ _ I) in H1, H2. rewrite d_log_fold in H2. cbn [bind app] in H2.
  injection H2 as <-.
  destruct (foldM (d_modal_deact m) [] (map fst E)) as [sv|] eqn:EF; [|discriminate].
  cbn [bind] in H1. injection H1 as <-. cbn [d_saved d_active].
  assert (W : Forall (fun tx : track * list nat => d_wf (fst tx)) E).
  { eapply Forall_impl; [|exact (dri_E _ _ _ _ I)]. intros a Ha. eapply d_wf_lab; eauto. }
  destruct (d_grouping _ m E sv W EF) as (g & F & P & D).
  exists (map fst (filter (fun tx => d_kept m (fst tx)) E)),
    (map fst (filter (fun tx => negb (d_kept m (fst tx))) E)), (map (map fst) g).
  rewrite Forall_forall in D.
  split.
  { rewrite <- map_app. apply Permutation_map. clear.
    induction E as [|a E IH]; simpl; auto. destruct (d_kept m (fst a)); simpl.
    - now constructor.
    - rewrite <- Permutation_middle. now constructor. }
  split. { apply Forall_forall. intros t Ht. apply in_map_iff in Ht.
    destruct Ht as (tx & <- & Htx). apply filter_In in Htx. destruct Htx as [Hin Hok].
    rewrite (D _ Hin), Hok. reflexivity. }
  split. { apply Forall_forall. intros t Ht. apply in_map_iff in Ht.
    destruct Ht as (tx & <- & Htx). apply filter_In in Htx. destruct Htx as [Hin Hok].
    apply negb_true_iff in Hok. rewrite (D _ Hin), Hok. reflexivity. }
  split. { clear -F. induction F; simpl; constructor; auto. }
  split; auto. rewrite <- concat_map. now apply Permutation_map.
Qed.

(** ** Where samples come from *)

Lemma d_labels_ok_app : forall hist s (f1 f2 m1 m2 p1 p2 : list (num Ar)) lab1 lab2,
  d_labels_ok hist (mkDTrack s f1 m1 p1) lab1 ->
  d_labels_ok hist (mkDTrack (s + length lab1) f2 m2 p2) lab2 ->
  d_labels_ok hist (mkDTrack s (f1 ++ f2) (m1 ++ m2) (p1 ++ p2)) (lab1 ++ lab2).
Proof.
  unfold d_labels_ok. cbn [dt_start dt_freq dt_mag dt_ph].
  intros hist s f1 f2 m1 m2 p1 p2 lab1 lab2 (A1 & A2 & A3 & A4) (B1 & B2 & B3 & B4).
  rewrite !app_length. repeat split; try lia.
  intros k Hk. destruct (lt_dec k (length lab1)) as [L|L].
  - specialize (A4 k L). rewrite app_nth1 by lia. rewrite !nth_error_app1 by lia. exact A4.
  - rewrite app_nth2 by lia. rewrite !nth_error_app2 by lia. rewrite A1, A2, A3.
    specialize (B4 (k - length lab1)).
    replace (s + length lab1 + (k - length lab1)) with (s + k) in B4 by lia.
    apply B4. lia.
Qed.

Lemma d_used_app : forall s (f1 f2 m1 m2 p1 p2 f m p : list (num Ar)) lab1 lab2,
  d_used (mkDTrack s f m p, lab1 ++ lab2) =
  d_used (mkDTrack s f1 m1 p1, lab1) ++ d_used (mkDTrack (s + length lab1) f2 m2 p2, lab2).
Proof.
  intros. unfold d_used. simpl. rewrite app_length, seq_app.
  rewrite <- flat_map_app. f_equal.
  generalize (seq (s + length lab1) (length lab2)). intro l2.
  generalize s. induction lab1; simpl; intros; auto. f_equal. apply IHlab1.
Qed.

Lemma nth_error_repeat : forall X (x : X) n k, k < n -> nth_error (repeat x n) k = Some x.
Proof. induction n; destruct k; simpl; intros; try lia; auto. apply IHn. lia. Qed.

Lemma d_labels_ok_pad : forall hist s n,
  d_labels_ok hist (mkDTrack s (repeat (nan Ar) n) (repeat (nan Ar) n) (repeat (nan Ar) n))
    (repeat None n).
Proof.
  intros. unfold d_labels_ok. cbn [dt_start dt_freq dt_mag dt_ph]. rewrite !repeat_length.
  repeat split; auto. intros. rewrite nth_repeat_None. rewrite !nth_error_repeat by auto. auto.
Qed.

Lemma d_used_pad : forall s (f m p : list (num Ar)) n, d_used (mkDTrack s f m p, repeat None n) = [].
Proof.
  intros. unfold d_used. simpl. rewrite repeat_length. revert s. induction n; simpl; auto.
Qed.

Lemma d_labels_ok_seg : forall hist (t : track) lab, d_wit hist (t, lab) ->
  d_labels_ok hist t (map Some lab).
Proof.
  intros hist t lab (L1 & L2 & L3 & L4 & L5). unfold d_labels_ok. rewrite !map_length.
  repeat split; auto. intros k Hk.
  assert (exists p, nth_error lab k = Some p) as [p Hp].
  { destruct (nth_error lab k) eqn:E; eauto. apply nth_error_None in E. lia. }
  rewrite (nth_error_nth _ _ _ (map_nth_error Some _ _ Hp)).
  destruct (L5 k p Hp) as (q & P1 & P2 & P3 & P4). exists q. auto.
Qed.

Lemma d_used_seg : forall (t : track) lab, d_used (t, map Some lab) = d_usedt (t, lab).
Proof.
  intros. unfold d_used, d_usedt. simpl. rewrite map_length. generalize (dt_start t).
  induction lab; simpl; intros; auto. f_equal. apply IHlab.
Qed.

Lemma d_group_labels : forall hist g (t : track), d_made_of t (map fst g) ->
  Forall (d_wit hist) g ->
  exists lab, d_labels_ok hist t lab /\ d_used (t, lab) = flat_map d_usedt g.
Proof.
  intros hist. induction g as [|[s lab] [|[s' lab'] g] IH]; intros t H W.
  - destruct H as (NE & _). simpl in NE. congruence.
  - destruct H as (_ & _ & H0 & H1 & H2 & H3). simpl in *. inversion W; subst.
    exists (map Some lab). destruct t as [s0 f0 m0 p0], s as [s1 f1 m1 p1]. simpl in *. subst.
    split; [apply (d_labels_ok_seg hist _ lab); auto|].
    rewrite app_nil_r. apply (d_used_seg _ lab).
  - destruct H as (_ & SE & H0 & H1 & H2 & H3). inversion W as [|? ? W1 W2]; subst.
    simpl map in *. simpl hd in H0.
    change (d_spliced dt_freq (s :: s' :: map fst g)) with
      (dt_freq s ++ repeat (nan Ar) (dt_start s' - (dt_start s + length (dt_freq s)))
        ++ d_spliced dt_freq (s' :: map fst g)) in H1.
    change (d_spliced dt_mag (s :: s' :: map fst g)) with
      (dt_mag s ++ repeat (nan Ar) (dt_start s' - (dt_start s + length (dt_mag s)))
        ++ d_spliced dt_mag (s' :: map fst g)) in H2.
    change (d_spliced dt_ph (s :: s' :: map fst g)) with
      (dt_ph s ++ repeat (nan Ar) (dt_start s' - (dt_start s + length (dt_ph s)))
        ++ d_spliced dt_ph (s' :: map fst g)) in H3.
    destruct SE as [S1 S2].
    destruct (IH (mkDTrack (dt_start s') (d_spliced dt_freq (s' :: map fst g))
       (d_spliced dt_mag (s' :: map fst g)) (d_spliced dt_ph (s' :: map fst g)))) as (lr & Lr & Ur).
    { split; [discriminate|]. split; [exact S2|]. simpl. auto. }
    { exact W2. }
    pose proof W1 as (L1 & L2 & L3 & L4 & _).
    rewrite L1 in H1. rewrite L2 in H2, S1. rewrite L3 in H3.
    set (pad := dt_start s' - (dt_start s + length lab)) in *.
    exists (map Some lab ++ repeat None pad ++ lr).
    destruct t as [s0 f0 m0 p0]. simpl in H0, H1, H2, H3. subst.
    split.
    + apply d_labels_ok_app.
      { pose proof (d_labels_ok_seg hist s lab W1) as X. destruct s; exact X. }
      apply d_labels_ok_app; [apply d_labels_ok_pad|].
      rewrite map_length, repeat_length.
      replace (dt_start s + length lab + pad) with (dt_start s') by (unfold pad; lia). exact Lr.
    + erewrite d_used_app with (f1 := dt_freq s) (m1 := dt_mag s) (p1 := dt_ph s).
      erewrite d_used_app.
      rewrite d_used_pad. rewrite map_length, repeat_length.
      replace (dt_start s + length lab + pad) with (dt_start s') by (unfold pad; lia).
      rewrite Ur. pose proof (d_used_seg s lab) as US. destruct s as [x1 x2 x3 x4]; cbn [dt_start dt_freq dt_mag dt_ph].
      rewrite US. reflexivity.
      Unshelve. all: exact [].
Qed.

Lemma d_groups_labels : forall hist sv (g : list (list lt_track)),
  Forall2 (fun t g => d_made_of t (map fst g)) sv g -> Forall (Forall (d_wit hist)) g ->
  exists labs, Forall2 (d_labels_ok hist) sv labs /\
    flat_map d_used (combine sv labs) = flat_map d_usedt (concat g).
Proof.
  intros hist sv g F. induction F; intro W.
  - exists []. split; auto.
  - inversion W; subst. destruct (IHF H3) as (labs & L & U).
    destruct (d_group_labels hist y x H H2) as (lab & La & Ua).
    exists (lab :: labs). split; [constructor; auto|]. simpl. rewrite Ua, U.
    now rewrite flat_map_app.
Qed.

Lemma d_labelled_tail : forall hist (A : list lt_track), Forall (d_wit hist) A ->
  Forall2 (d_labels_ok hist) (map fst A) (map (map Some) (map snd A)) /\
  flat_map d_used (combine (map fst A) (map (map Some) (map snd A)))
  = flat_map d_usedt A.
Proof.
  intros hist A W. induction W as [|[t lab] A Wt W [IH1 IH2]]; simpl.
  - split; auto.
  - split.
    + constructor; auto. apply (d_labels_ok_seg hist t lab); auto.
    + rewrite IH2. f_equal. apply (d_used_seg t lab).
Qed.

Lemma d_peaks_modal : forall m hist st, d_hist_ok hist ->
  d_run (dm_base m) (d_modal_deact m) hist = Ok st ->
  exists labs,
    Forall2 (@d_labels_ok Ar hist) (d_saved st ++ d_active st) labs /\
    NoDup (flat_map d_used (combine (d_saved st ++ d_active st) labs)).
Proof.
  intros m hist st V H. destruct (d_run_inv_exists (dm_base m) hist V) as (E & A & I).
  rewrite (dri_run _ _ _ _ I) in H.
  destruct (foldM (d_modal_deact m) [] (map fst E)) as [sv|] eqn:EF; [|discriminate].
  cbn [bind] in H. injection H as <-. cbn [d_saved d_active].
  pose proof (dri_E _ _ _ _ I) as WE. pose proof (dri_A _ _ _ _ I) as WA.
  assert (W : Forall (fun tx : track * list nat => d_wf (fst tx)) E).
  { eapply Forall_impl; [|exact WE]. intros a Ha. eapply d_wf_lab; eauto. }
  destruct (d_grouping _ m E sv W EF) as (g & F & P & _).
  assert (Wg : Forall (Forall (d_wit hist)) g).
  { apply Forall_forall. intros x Hx. apply Forall_forall. intros tl Htl.
    rewrite Forall_forall in WE. apply WE.
    assert (Hc : In tl (concat g)) by (apply in_concat; eauto).
    apply (Permutation_in _ P) in Hc. apply filter_In in Hc. tauto. }
  destruct (d_groups_labels hist sv g F Wg) as (labs & L & U).
  destruct (d_labelled_tail hist A WA) as [TL TU].
  exists (labs ++ map (map Some) (map snd A)). split.
  - apply Forall2_app; auto.
  - rewrite combine_app by (eapply Forall2_length'; eauto).
    rewrite flat_map_app, U, TU.
    eapply Permutation_NoDup with (l := flat_map d_usedt (filter (fun tx => d_kept m (fst tx)) E ++ A)).
    + rewrite flat_map_app. apply Permutation_app_tail. apply Permutation_flat_map.
      now symmetry.
    + apply NoDup_flat_filter. exact (dri_nodup _ _ _ _ I).
Qed.

Lemma d_peaks_sine : forall (c : cfg) hist st, d_hist_ok hist ->
  d_run c (d_sine_deact c) hist = Ok st ->
  exists labs,
    Forall2 (@d_labels_ok Ar hist) (d_saved st ++ d_active st) labs /\
    Forall (Forall (fun l => l <> None)) labs /\
    NoDup (flat_map d_used (combine (d_saved st ++ d_active st) labs)).
Proof.
  intros c hist st V H. destruct (d_run_inv_exists c hist V) as (E & A & I).
  rewrite (dri_run _ _ _ _ I) in H.
  assert (HE : exists f, foldM (d_sine_deact c) [] (map fst E) = Ok (filter f (map fst E)) /\
             d_saved st = filter f (map fst E) /\ d_active st = map fst A).
  { destruct (d_min_sine_len c) as [n|e] eqn:EN.
    - exists (d_long n). rewrite (d_sine_fold c n) in H |- * by auto. cbn [bind app] in H.
      injection H as <-. auto.
    - destruct E as [|[t l] E].
      + exists (fun _ => true). cbn in H. injection H as <-. auto.
      + exfalso. cbn [map fst foldM] in H. unfold d_sine_deact, d_sine_ok in H.
        rewrite EN in H. discriminate. }
  destruct HE as (f & _ & -> & ->).
  pose proof (dri_E _ _ _ _ I) as WE. pose proof (dri_A _ _ _ _ I) as WA.
  set (E' := filter (fun tx => f (fst tx)) E).
  assert (EE : filter f (map fst E) = map fst E').
  { unfold E'. rewrite filter_map. reflexivity. }
  assert (W' : Forall (d_wit hist) (E' ++ A)).
  { apply Forall_app. split; auto. apply Forall_forall. intros x Hx. rewrite Forall_forall in WE.
    apply filter_In in Hx. apply WE. tauto. }
  destruct (d_labelled_tail hist _ W') as [TL TU].
  exists (map (map Some) (map snd (E' ++ A))).
  rewrite EE. rewrite <- map_app. split; auto. split.
  - apply Forall_forall. intros x Hx. apply in_map_iff in Hx. destruct Hx as (y & <- & _).
    apply Forall_forall. intros z Hz. apply in_map_iff in Hz. destruct Hz as (w & <- & _). discriminate.
  - rewrite TU. unfold E'. apply NoDup_flat_filter. exact (dri_nodup _ _ _ _ I).
Qed.
End Proofs.
