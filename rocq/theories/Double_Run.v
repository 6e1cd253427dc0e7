(** Invariants of the trackers over whole histories, for any arithmetic. *)
From Coq Require Import ZArith List Arith Lia Bool Permutation.
Import ListNotations.
From Verif Require Import Base ListLemmas Tracker_Model Tracker_Spec Tracker_Step Tracker_Run
  Double_Model Double_Spec Double_Step.
Local Open Scope nat_scope.

Section Run.
Context {Ar : arith}.
Notation peak := (dpeak Ar).
Notation track := (dtrack Ar).
Notation frame := (dframe Ar).
Notation cfg := (dcfg Ar).
Notation lt_track := (dtrack Ar * list nat)%type.

Definition d_wit (hist : list (frame * list nat)) (tl : lt_track) : Prop :=
  let (t, lab) := tl in
  length (dt_freq t) = length lab /\ length (dt_mag t) = length lab /\
  length (dt_ph t) = length lab /\ lab <> [] /\
  forall k p, nth_error lab k = Some p ->
    exists q, d_peak_at hist (dt_start t + k) p q /\
      nth_error (dt_freq t) k = Some (dp_f q) /\
      nth_error (dt_mag t) k = Some (dp_m q) /\
      nth_error (dt_ph t) k = Some (dp_p q).

Definition d_usedt (tl : lt_track) : list (nat * nat) :=
  combine (seq (dt_start (fst tl)) (length (snd tl))) (snd tl).

Lemma d_peak_at_app : forall (hist h : list (frame * list nat)) x p q, d_peak_at hist x p q -> d_peak_at (hist ++ h) x p q.
Proof.
  intros hist h x p q (fr & ord & H1 & H2). exists fr, ord. split; auto.
  rewrite nth_error_app1; auto. apply nth_error_Some. congruence.
Qed.

Lemma d_wit_app : forall (hist h : list (frame * list nat)) tl, d_wit hist tl -> d_wit (hist ++ h) tl.
Proof.
  intros hist h [t lab] (H1 & H2 & H3 & H4 & H5). repeat split; auto.
  intros k p Hk. destruct (H5 k p Hk) as (q & Hq & Hr). exists q. split; auto.
  now apply d_peak_at_app.
Qed.

(** Labelled versions of the specification of one frame. *)
Definition d_dyingL (A : list lt_track) (M : list (nat * nat)) (l : list nat) : list lt_track :=
  flat_map (fun i => match partner M i with Some _ => [] | None => [nth i A (d_notrack, [])] end) l.
Definition d_survL (A : list lt_track) (fr : frame) (M : list (nat * nat)) (l : list nat) : list lt_track :=
  flat_map (fun i => match partner M i with
                     | Some p => [(d_push (fst (nth i A (d_notrack, []))) (nth p fr d_nopeak),
                                   snd (nth i A (d_notrack, [])) ++ [p])]
                     | None => [] end) l.
Definition d_bornL (n : nat) (fr : frame) (ps : list nat) : list lt_track :=
  map (fun p => (d_newborn n (nth p fr d_nopeak), [p])) ps.

Lemma d_nth_map_fst : forall (A : list lt_track) i,
  nth i (map fst A) d_notrack = fst (nth i A (d_notrack, [])).
Proof. intros. exact (map_nth fst A (d_notrack, []) i). Qed.

Lemma d_dyingL_fst : forall A M,
  map fst (d_dyingL A M (seq 0 (length A))) = d_dying (map fst A) M.
Proof.
  intros. unfold d_dyingL, d_dying. rewrite map_length.
  induction (seq 0 (length A)); simpl; auto.
  rewrite map_app, IHl. f_equal. destruct (partner M a); simpl; auto.
  now rewrite d_nth_map_fst.
Qed.

Lemma d_survL_fst : forall A fr M,
  map fst (d_survL A fr M (seq 0 (length A))) = d_surviving (map fst A) fr M.
Proof.
  intros. unfold d_survL, d_surviving. rewrite map_length.
  induction (seq 0 (length A)); simpl; auto.
  rewrite map_app, IHl. f_equal. destruct (partner M a); simpl; auto.
  now rewrite d_nth_map_fst.
Qed.

Lemma d_bornL_fst : forall n (fr : frame) ps,
  map fst (d_bornL n fr ps) = map (fun p => d_newborn n (nth p fr d_nopeak)) ps.
Proof. intros. unfold d_bornL. now rewrite map_map. Qed.


Lemma d_usedt_push : forall (t : track) lab q p,
  d_usedt (d_push t q, lab ++ [p]) = d_usedt (t, lab) ++ [(dt_start t + length lab, p)].
Proof.
  intros. unfold d_usedt. simpl. rewrite app_length. simpl. rewrite Nat.add_1_r, seq_S.
  apply combine_snoc. now rewrite seq_length.
Qed.

Lemma d_used_perm : forall A fr M n l,
  (forall i, In i l -> dt_start (fst (nth i A (d_notrack, []))) + length (snd (nth i A (d_notrack, []))) = n) ->
  Permutation (flat_map d_usedt (d_dyingL A M l) ++ flat_map d_usedt (d_survL A fr M l))
    (flat_map d_usedt (map (fun i => nth i A (d_notrack, [])) l) ++ map (pair n) (matched M l)).
Proof.
  intros A fr M n l. induction l as [|i l IH]; intro H; simpl; auto.
  rewrite !flat_map_app.
  assert (IH' := IH (fun j Hj => H j (or_intror Hj))). clear IH.
  specialize (H i (or_introl eq_refl)).
  destruct (partner M i) as [p|]; simpl; rewrite ?app_nil_r.
  - destruct (nth i A (d_notrack, [])) as [t lab] eqn:E. simpl in *.
    rewrite d_usedt_push. rewrite H.
    rewrite <- !app_assoc. simpl.
    transitivity (d_usedt (t, lab) ++ (n, p) :: (flat_map d_usedt (d_dyingL A M l) ++
       flat_map d_usedt (d_survL A fr M l))).
    + rewrite (app_assoc (flat_map d_usedt (d_dyingL A M l))).
      rewrite (Permutation_app_comm (flat_map d_usedt (d_dyingL A M l)) (d_usedt (t, lab))).
      rewrite <- app_assoc. apply Permutation_app_head.
      symmetry. apply Permutation_middle.
    + rewrite IH'. apply Permutation_app_head.
      change ((n, p) :: flat_map d_usedt (map (fun i0 => nth i0 A (d_notrack, [])) l) ++
         map (pair n) (matched M l)) with
        (((n, p) :: flat_map d_usedt (map (fun i0 => nth i0 A (d_notrack, [])) l)) ++
         map (pair n) (matched M l)).
      simpl. apply Permutation_middle.
  - rewrite <- !app_assoc. now apply Permutation_app_head.
Qed.



Lemma d_matched_NoDup : forall (c : cfg) ts fr M l, d_matching c ts fr M -> NoDup l ->
  NoDup (matched M l).
Proof.
  intros c ts fr M l G ND. unfold matched. apply NoDup_flat_opt; auto.
  intros i j p Hi Hj. apply partner_some in Hi; [|apply (dm_track_once _ _ _ _ G)].
  apply partner_some in Hj; [|apply (dm_track_once _ _ _ _ G)].
  eapply nodup_snd_inj; eauto. apply (dm_peak_once _ _ _ _ G).
Qed.

Lemma d_matched_in : forall (c : cfg) ts fr M l p, d_matching c ts fr M ->
  In p (matched M l) -> In p (map snd M).
Proof.
  intros c ts fr M l p G H. unfold matched in H. apply in_flat_map in H.
  destruct H as (i & Hi & Hp). destruct (partner M i) eqn:E; [|destruct Hp].
  destruct Hp as [->|[]]. apply partner_some in E; [|apply (dm_track_once _ _ _ _ G)].
  eapply in_snd; eauto.
Qed.

Lemma d_free_peaks_spec : forall (fr : frame) M p, In p (d_free_peaks fr M) <->
  (p < length fr)%nat /\ ~ In p (map snd M).
Proof.
  intros. unfold d_free_peaks. rewrite filter_In, in_seq, negb_true_iff.
  assert (E : existsb (Nat.eqb p) (map snd M) = false <-> ~ In p (map snd M)).
  { split; intro H.
    - intro Hin. assert (existsb (Nat.eqb p) (map snd M) = true); [|congruence].
      apply existsb_exists. exists p. split; auto. apply Nat.eqb_refl.
    - destruct (existsb (Nat.eqb p) (map snd M)) eqn:E; auto. exfalso. apply H.
      apply existsb_exists in E. destruct E as (q & Hq & Eq). apply Nat.eqb_eq in Eq. now subst. }
  rewrite E. intuition lia.
Qed.




(** The whole history. *)
Record d_run_inv (c : cfg) (hist : list (frame * list nat))
    (E A : list lt_track) : Prop := {
  dri_run : forall deact, d_run c deact hist =
    do sv <- foldM deact [] (map fst E); Ok (mkDState sv (map fst A) (length hist));
  dri_E : Forall (d_wit hist) E;
  dri_A : Forall (d_wit hist) A;
  dri_end : Forall (fun tl => dt_start (fst tl) + length (snd tl) = length hist) A;
  dri_past : Forall (fun tl => dt_start (fst tl) + length (snd tl) < length hist) E;
  dri_nodup : NoDup (flat_map d_usedt (E ++ A));
  dri_max : (length A <= Z.to_nat (dc_max c))%nat
}.

Lemma d_run_snoc : forall (c : cfg) deact hist fo,
  d_run c deact (hist ++ [fo]) = do st <- d_run c deact hist; d_step c deact st fo.
Proof.
  intros. unfold d_run. rewrite foldM_app. destruct (foldM (d_step c deact) d_reset hist); simpl; auto.
  destruct (d_step c deact a fo); auto.
Qed.

Lemma d_usedt_lt : forall (tl : lt_track) n x p, dt_start (fst tl) + length (snd tl) <= n ->
  In (x, p) (d_usedt tl) -> x < n.
Proof.
  intros [t lab] n x p H Hin. unfold d_usedt in Hin. simpl in *.
  apply in_combine_l in Hin. apply in_seq in Hin. lia.
Qed.

Lemma d_survL_In : forall A fr M l tl, In tl (d_survL A fr M l) ->
  exists i p, In i l /\ partner M i = Some p /\
    tl = (d_push (fst (nth i A (d_notrack, []))) (nth p fr d_nopeak),
          snd (nth i A (d_notrack, [])) ++ [p]).
Proof.
  intros. unfold d_survL in H. apply in_flat_map in H. destruct H as (i & Hi & H).
  destruct (partner M i) eqn:E; [|destruct H]. destruct H as [<-|[]]. eauto 8.
Qed.

Lemma d_dyingL_In : forall A M l tl, In tl (d_dyingL A M l) ->
  exists i, In i l /\ partner M i = None /\ tl = nth i A (d_notrack, []).
Proof.
  intros. unfold d_dyingL in H. apply in_flat_map in H. destruct H as (i & Hi & H).
  destruct (partner M i) eqn:E; [destruct H|]. destruct H as [<-|[]]. eauto 8.
Qed.

Lemma d_survL_length : forall A fr M l, (length (d_survL A fr M l) <= length l)%nat.
Proof.
  induction l; simpl; auto. rewrite app_length. destruct (partner M a); simpl; lia.
Qed.



Lemma d_run_inv_exists : forall (c : cfg) hist, d_hist_ok hist -> exists E A, d_run_inv c hist E A.
Proof.
  intros c hist. induction hist as [|[fr ord] hist IH] using rev_ind; intro V.
  - exists [], []. constructor; simpl; auto; try constructor. lia.
  - apply Forall_app in V. destruct V as [V1 V2]. inversion V2 as [|? ? HS _]; subst.
    destruct (IH V1) as (E & A & I). clear IH.
    destruct I as [IR IE IA Iend Ipast Ind Imax].
    destruct (d_step_spec c (map fst A) fr ord HS) as (M & G & _ & HSt).
    set (n := length hist) in *.
    set (l := seq 0 (length A)).
    set (ps := firstn (d_room c (length (d_surviving (map fst A) fr M))) (d_free_peaks fr M)).
    exists (E ++ rev (d_dyingL A M l)), (d_survL A fr M l ++ d_bornL n fr ps).
    assert (HAi : forall i, In i l -> In (nth i A (d_notrack, [])) A).
    { intros i Hi. apply in_seq in Hi. apply nth_In. lia. }
    rewrite Forall_forall in IA, IE, Iend, Ipast.
    assert (Hpeak : forall p, (p < length fr)%nat ->
        d_peak_at (hist ++ [(fr, ord)]) n p (nth p fr d_nopeak)).
    { intros p Hp. exists fr, ord. split.
      - apply nth_error_snoc_eq.
      - apply nth_error_nth'. auto. }
    constructor.
    + intro deact. rewrite d_run_snoc, IR. rewrite map_app, foldM_app.
      destruct (foldM deact [] (map fst E)) as [sv|e]; cbn [bind]; auto.
      rewrite HSt. rewrite map_rev, d_dyingL_fst.
      destruct (foldM deact sv (rev (d_dying (map fst A) M))); cbn [bind]; auto.
      rewrite map_app, d_survL_fst, d_bornL_fst. rewrite app_length. simpl.
      rewrite Nat.add_1_r. reflexivity.
    + apply Forall_app. split; apply Forall_forall; intros tl Hin.
      * apply d_wit_app. auto.
      * apply in_rev in Hin. apply d_dyingL_In in Hin.
        destruct Hin as (i & Hi & _ & ->). apply d_wit_app. auto.
    + apply Forall_app. split; apply Forall_forall; intros tl Hin.
      * apply d_survL_In in Hin. destruct Hin as (i & p & Hi & Hp & ->).
        specialize (HAi i Hi). pose proof (IA _ HAi) as W. pose proof (Iend _ HAi) as HE.
        apply partner_some in Hp; [|apply (dm_track_once _ _ _ _ G)].
        destruct (dm_range _ _ _ _ G _ _ Hp) as [_ Hpr].
        destruct (nth i A (d_notrack, [])) as [t lab]. simpl in *.
        destruct W as (L1 & L2 & L3 & L4 & L5).
        rewrite !app_length, L1, L2, L3. simpl. repeat split; auto.
        { destruct lab; discriminate. }
        intros k q Hk. apply nth_error_snoc in Hk. destruct Hk as [Hk|[-> ->]].
        -- destruct (L5 k q Hk) as (pk & P1 & P2 & P3 & P4). exists pk.
           assert (Hk' : (k < length lab)%nat) by (apply nth_error_Some; congruence).
           rewrite !nth_error_app1 by lia. split; auto. now apply d_peak_at_app.
        -- exists (nth p fr d_nopeak). split.
           ++ rewrite HE. auto.
           ++ rewrite <- L1 at 1. rewrite nth_error_snoc_eq.
              rewrite <- L2 at 1. rewrite nth_error_snoc_eq.
              rewrite <- L3 at 1. rewrite nth_error_snoc_eq. auto.
      * unfold d_bornL in Hin. apply in_map_iff in Hin. destruct Hin as (p & <- & Hp).
        apply firstn_In in Hp. apply d_free_peaks_spec in Hp. destruct Hp as [Hp _].
        simpl. repeat split; auto; try discriminate.
        intros k q Hk. destruct k as [|[|k]]; simpl in Hk; try discriminate.
        injection Hk as <-. exists (nth p fr d_nopeak). simpl. rewrite Nat.add_0_r. auto.
    + rewrite app_length. simpl. fold n.
      apply Forall_app. split; apply Forall_forall; intros tl Hin.
      * apply d_survL_In in Hin. destruct Hin as (i & p & Hi & Hp & ->). simpl.
        rewrite app_length. simpl. specialize (Iend _ (HAi i Hi)). lia.
      * unfold d_bornL in Hin. apply in_map_iff in Hin. destruct Hin as (p & <- & Hp).
        simpl. lia.
    + rewrite app_length. simpl. fold n.
      apply Forall_app. split; apply Forall_forall; intros tl Hin.
      * specialize (Ipast _ Hin). simpl in Ipast. lia.
      * apply in_rev in Hin. apply d_dyingL_In in Hin.
        destruct Hin as (i & Hi & _ & ->). specialize (Iend _ (HAi i Hi)). lia.
    + assert (HP : Permutation (flat_map d_usedt ((E ++ rev (d_dyingL A M l)) ++ d_survL A fr M l ++ d_bornL n fr ps))
         (flat_map d_usedt (E ++ A) ++ map (pair n) (matched M l ++ ps))).
      { rewrite !flat_map_app. rewrite <- !app_assoc. apply Permutation_app_head.
        rewrite (Permutation_flat_map d_usedt (Permutation_sym (Permutation_rev (d_dyingL A M l)))).
        rewrite app_assoc. rewrite (d_used_perm A fr M n l).
        - rewrite <- app_assoc. unfold l. rewrite map_nth_seq. apply Permutation_app_head.
          rewrite map_app. apply Permutation_app_head.
          unfold d_bornL. clear. induction ps; simpl; auto.
        - intros i Hi. apply Iend. auto. }
      eapply Permutation_NoDup; [apply Permutation_sym; exact HP|].
      assert (NDnew : NoDup (matched M l ++ ps)).
      { assert (D : forall p, In p (matched M l) -> In p ps -> False).
        { intros p H1 H2. apply (d_matched_in _ _ _ _ _ _ G) in H1.
          apply firstn_In in H2. apply d_free_peaks_spec in H2. tauto. }
        assert (N1 : NoDup (matched M l)) by (eapply d_matched_NoDup; eauto; apply seq_NoDup).
        assert (N2 : NoDup ps).
        { apply firstn_NoDup. unfold d_free_peaks. apply NoDup_filter. apply seq_NoDup. }
        apply NoDup_app_intro; auto. }
      assert (Hold : forall x p, In (x, p) (flat_map d_usedt (E ++ A)) -> x < n).
      { intros x p Hin. apply in_flat_map in Hin. destruct Hin as (tl & Htl & Hin).
        eapply d_usedt_lt; [|exact Hin]. apply in_app_or in Htl. destruct Htl as [Htl|Htl].
        - specialize (Ipast _ Htl). simpl in Ipast. lia.
        - specialize (Iend _ Htl). simpl in Iend. lia. }
      apply NoDup_app_intro; auto.
      * apply FinFun.Injective_map_NoDup; auto. intros a b Eab. congruence.
      * intros [x p] Hx Hy. apply in_map_iff in Hy. destruct Hy as (q & Eq & _).
        injection Eq as <- <-. apply Hold in Hx. lia.
    + rewrite app_length. unfold d_bornL, ps. rewrite map_length.
      pose proof (d_survL_length A fr M l) as HL. unfold l in HL at 2. rewrite seq_length in HL.
      pose proof (firstn_le_length (d_room c (length (d_surviving (map fst A) fr M))) (d_free_peaks fr M)) as HF.
      rewrite <- d_survL_fst, map_length in HF |- *. fold l in HF |- *.
      unfold d_room in *.
      pose proof (firstn_length (Z.to_nat (dc_max c - Z.of_nat (length (d_survL A fr M l)))) (d_free_peaks fr M)).
      lia.
Qed.
End Run.
