(** Invariants of the trackers over whole histories. *)
From Coq Require Import List Arith ZArith QArith Qabs Lia Bool Permutation.
Import ListNotations.
From Verif Require Import Base ListLemmas Tracker_Model Tracker_Spec Tracker_Step.
Local Open Scope nat_scope.

Notation lt_track := (track * list nat)%type.

Definition wit (hist : list (frame * list nat)) (tl : lt_track) : Prop :=
  let (t, lab) := tl in
  length (t_freq t) = length lab /\ length (t_mag t) = length lab /\
  length (t_ph t) = length lab /\ lab <> [] /\
  forall k p, nth_error lab k = Some p ->
    exists q, peak_at hist (t_start t + k) p q /\
      nth_error (t_freq t) k = Some (pk_f q) /\
      nth_error (t_mag t) k = Some (pk_m q) /\
      nth_error (t_ph t) k = Some (pk_p q).

Definition usedt (tl : lt_track) : list (nat * nat) :=
  combine (seq (t_start (fst tl)) (length (snd tl))) (snd tl).

Lemma peak_at_app : forall hist h x p q, peak_at hist x p q -> peak_at (hist ++ h) x p q.
Proof.
  intros hist h x p q (fr & ord & H1 & H2). exists fr, ord. split; auto.
  rewrite nth_error_app1; auto. apply nth_error_Some. congruence.
Qed.

Lemma wit_app : forall hist h tl, wit hist tl -> wit (hist ++ h) tl.
Proof.
  intros hist h [t lab] (H1 & H2 & H3 & H4 & H5). repeat split; auto.
  intros k p Hk. destruct (H5 k p Hk) as (q & Hq & Hr). exists q. split; auto.
  now apply peak_at_app.
Qed.

(** Labelled versions of the specification of one frame. *)
Definition dyingL (A : list lt_track) (M : list (nat * nat)) (l : list nat) : list lt_track :=
  flat_map (fun i => match partner M i with Some _ => [] | None => [nth i A (no_track, [])] end) l.
Definition survL (A : list lt_track) (fr : frame) (M : list (nat * nat)) (l : list nat) : list lt_track :=
  flat_map (fun i => match partner M i with
                     | Some p => [(push (fst (nth i A (no_track, []))) (nth p fr no_peak),
                                   snd (nth i A (no_track, [])) ++ [p])]
                     | None => [] end) l.
Definition bornL (n : nat) (fr : frame) (ps : list nat) : list lt_track :=
  map (fun p => (newborn n (nth p fr no_peak), [p])) ps.
Definition matched (M : list (nat * nat)) (l : list nat) : list nat :=
  flat_map (fun i => match partner M i with Some p => [p] | None => [] end) l.

Lemma nth_map_fst : forall (A : list lt_track) i,
  nth i (map fst A) no_track = fst (nth i A (no_track, [])).
Proof. intros. exact (map_nth fst A (no_track, []) i). Qed.

Lemma dyingL_fst : forall A M,
  map fst (dyingL A M (seq 0 (length A))) = dying (map fst A) M.
Proof.
  intros. unfold dyingL, dying. rewrite map_length.
  induction (seq 0 (length A)); simpl; auto.
  rewrite map_app, IHl. f_equal. destruct (partner M a); simpl; auto.
  now rewrite nth_map_fst.
Qed.

Lemma survL_fst : forall A fr M,
  map fst (survL A fr M (seq 0 (length A))) = surviving (map fst A) fr M.
Proof.
  intros. unfold survL, surviving. rewrite map_length.
  induction (seq 0 (length A)); simpl; auto.
  rewrite map_app, IHl. f_equal. destruct (partner M a); simpl; auto.
  now rewrite nth_map_fst.
Qed.

Lemma bornL_fst : forall n fr ps,
  map fst (bornL n fr ps) = map (fun p => newborn n (nth p fr no_peak)) ps.
Proof. intros. unfold bornL. now rewrite map_map. Qed.

Lemma combine_snoc : forall A B (l : list A) (l' : list B) a b,
  length l = length l' -> combine (l ++ [a]) (l' ++ [b]) = combine l l' ++ [(a, b)].
Proof. induction l; destruct l'; simpl; intros; try discriminate; auto. now rewrite IHl by lia. Qed.

Lemma usedt_push : forall t lab q p,
  usedt (push t q, lab ++ [p]) = usedt (t, lab) ++ [(t_start t + length lab, p)].
Proof.
  intros. unfold usedt. simpl. rewrite app_length. simpl. rewrite Nat.add_1_r, seq_S.
  apply combine_snoc. now rewrite seq_length.
Qed.

Lemma used_perm : forall A fr M n l,
  (forall i, In i l -> t_start (fst (nth i A (no_track, []))) + length (snd (nth i A (no_track, []))) = n) ->
  Permutation (flat_map usedt (dyingL A M l) ++ flat_map usedt (survL A fr M l))
    (flat_map usedt (map (fun i => nth i A (no_track, [])) l) ++ map (pair n) (matched M l)).
Proof.
  intros A fr M n l. induction l as [|i l IH]; intro H; simpl; auto.
  rewrite !flat_map_app.
  assert (IH' := IH (fun j Hj => H j (or_intror Hj))). clear IH.
  specialize (H i (or_introl eq_refl)).
  destruct (partner M i) as [p|]; simpl; rewrite ?app_nil_r.
  - destruct (nth i A (no_track, [])) as [t lab] eqn:E. simpl in *.
    rewrite usedt_push. rewrite H.
    rewrite <- !app_assoc. simpl.
    transitivity (usedt (t, lab) ++ (n, p) :: (flat_map usedt (dyingL A M l) ++
       flat_map usedt (survL A fr M l))).
    + rewrite (app_assoc (flat_map usedt (dyingL A M l))).
      rewrite (Permutation_app_comm (flat_map usedt (dyingL A M l)) (usedt (t, lab))).
      rewrite <- app_assoc. apply Permutation_app_head.
      symmetry. apply Permutation_middle.
    + rewrite IH'. apply Permutation_app_head.
      change ((n, p) :: flat_map usedt (map (fun i0 => nth i0 A (no_track, [])) l) ++
         map (pair n) (matched M l)) with
        (((n, p) :: flat_map usedt (map (fun i0 => nth i0 A (no_track, [])) l)) ++
         map (pair n) (matched M l)).
      simpl. apply Permutation_middle.
  - rewrite <- !app_assoc. now apply Permutation_app_head.
Qed.

Lemma NoDup_flat_opt : forall (f : nat -> option nat) l, NoDup l ->
  (forall i j p, f i = Some p -> f j = Some p -> i = j) ->
  NoDup (flat_map (fun i => match f i with Some p => [p] | None => [] end) l).
Proof.
  intros f l ND Inj. induction ND; simpl; [constructor|].
  destruct (f x) eqn:E; simpl; auto. constructor; auto.
  intro Hin. apply in_flat_map in Hin. destruct Hin as (j & Hj & Hp).
  destruct (f j) eqn:Ej; [|destruct Hp]. destruct Hp as [->|[]].
  apply H. rewrite (Inj x j n); auto.
Qed.

Lemma nodup_snd_inj : forall (M : list (nat * nat)) i j p,
  NoDup (map snd M) -> In (i, p) M -> In (j, p) M -> i = j.
Proof.
  induction M as [|[a b] M IH]; simpl; intros i j p ND Hi Hj; [tauto|].
  inversion ND; subst.
  destruct Hi as [Hi|Hi]; destruct Hj as [Hj|Hj]; try congruence; eauto.
  - injection Hi as -> ->. exfalso. apply H1. eapply in_snd; eauto.
  - injection Hj as -> ->. exfalso. apply H1. eapply in_snd; eauto.
Qed.

Lemma matched_NoDup : forall c ts fr M l, greedy_matching c ts fr M -> NoDup l ->
  NoDup (matched M l).
Proof.
  intros c ts fr M l G ND. unfold matched. apply NoDup_flat_opt; auto.
  intros i j p Hi Hj. apply partner_some in Hi; [|apply (gm_track_once _ _ _ _ G)].
  apply partner_some in Hj; [|apply (gm_track_once _ _ _ _ G)].
  eapply nodup_snd_inj; eauto. apply (gm_peak_once _ _ _ _ G).
Qed.

Lemma matched_in : forall c ts fr M l p, greedy_matching c ts fr M ->
  In p (matched M l) -> In p (map snd M).
Proof.
  intros c ts fr M l p G H. unfold matched in H. apply in_flat_map in H.
  destruct H as (i & Hi & Hp). destruct (partner M i) eqn:E; [|destruct Hp].
  destruct Hp as [->|[]]. apply partner_some in E; [|apply (gm_track_once _ _ _ _ G)].
  eapply in_snd; eauto.
Qed.

Lemma free_peaks_spec : forall fr M p, In p (free_peaks fr M) <->
  (p < length fr)%nat /\ ~ In p (map snd M).
Proof.
  intros. unfold free_peaks. rewrite filter_In, in_seq, negb_true_iff.
  assert (E : existsb (Nat.eqb p) (map snd M) = false <-> ~ In p (map snd M)).
  { split; intro H.
    - intro Hin. assert (existsb (Nat.eqb p) (map snd M) = true); [|congruence].
      apply existsb_exists. exists p. split; auto. apply Nat.eqb_refl.
    - destruct (existsb (Nat.eqb p) (map snd M)) eqn:E; auto. exfalso. apply H.
      apply existsb_exists in E. destruct E as (q & Hq & Eq). apply Nat.eqb_eq in Eq. now subst. }
  rewrite E. intuition lia.
Qed.

Lemma firstn_In : forall A n (l : list A) x, In x (firstn n l) -> In x l.
Proof.
  induction n; destruct l; simpl; intros; try tauto. destruct H; auto.
Qed.

Lemma firstn_NoDup : forall A n (l : list A), NoDup l -> NoDup (firstn n l).
Proof.
  induction n; destruct l; simpl; intros; auto; try constructor.
  - inversion H; subst. intro Hin. apply H2. eapply firstn_In; eauto.
  - inversion H; auto.
Qed.

Lemma NoDup_app_intro : forall A (l1 l2 : list A), NoDup l1 -> NoDup l2 ->
  (forall x, In x l1 -> In x l2 -> False) -> NoDup (l1 ++ l2).
Proof.
  induction l1; simpl; intros l2 N1 N2 D; auto.
  inversion N1; subst. constructor.
  - intro H. apply in_app_or in H. destruct H; auto. eapply D; eauto.
  - apply IHl1; auto. intros x Hx Hy. apply (D x); auto.
Qed.

(** The whole history. *)
Record run_inv (c : cfg) (hist : list (frame * list nat))
    (E A : list lt_track) : Prop := {
  ri_run : forall deact, run c deact hist =
    do sv <- foldM deact [] (map fst E); Ok (mkState sv (map fst A) (length hist));
  ri_E : Forall (wit hist) E;
  ri_A : Forall (wit hist) A;
  ri_end : Forall (fun tl => t_start (fst tl) + length (snd tl) = length hist) A;
  ri_past : Forall (fun tl => t_start (fst tl) + length (snd tl) < length hist) E;
  ri_nodup : NoDup (flat_map usedt (E ++ A));
  ri_max : (length A <= Z.to_nat (c_max c))%nat
}.

Lemma run_snoc : forall c deact hist fo,
  run c deact (hist ++ [fo]) = do st <- run c deact hist; step c deact st fo.
Proof.
  intros. unfold run. rewrite foldM_app. destruct (foldM (step c deact) reset hist); simpl; auto.
  destruct (step c deact a fo); auto.
Qed.

Lemma usedt_lt : forall tl n x p, t_start (fst tl) + length (snd tl) <= n ->
  In (x, p) (usedt tl) -> x < n.
Proof.
  intros [t lab] n x p H Hin. unfold usedt in Hin. simpl in *.
  apply in_combine_l in Hin. apply in_seq in Hin. lia.
Qed.

Lemma survL_In : forall A fr M l tl, In tl (survL A fr M l) ->
  exists i p, In i l /\ partner M i = Some p /\
    tl = (push (fst (nth i A (no_track, []))) (nth p fr no_peak),
          snd (nth i A (no_track, [])) ++ [p]).
Proof.
  intros. unfold survL in H. apply in_flat_map in H. destruct H as (i & Hi & H).
  destruct (partner M i) eqn:E; [|destruct H]. destruct H as [<-|[]]. eauto 8.
Qed.

Lemma dyingL_In : forall A M l tl, In tl (dyingL A M l) ->
  exists i, In i l /\ partner M i = None /\ tl = nth i A (no_track, []).
Proof.
  intros. unfold dyingL in H. apply in_flat_map in H. destruct H as (i & Hi & H).
  destruct (partner M i) eqn:E; [destruct H|]. destruct H as [<-|[]]. eauto 8.
Qed.

Lemma survL_length : forall A fr M l, (length (survL A fr M l) <= length l)%nat.
Proof.
  induction l; simpl; auto. rewrite app_length. destruct (partner M a); simpl; lia.
Qed.

Lemma nth_error_snoc : forall A (l : list A) a k x,
  nth_error (l ++ [a]) k = Some x ->
  nth_error l k = Some x \/ (k = length l /\ x = a).
Proof.
  intros. destruct (lt_dec k (length l)).
  - rewrite nth_error_app1 in H by auto. auto.
  - rewrite nth_error_app2 in H by lia. right.
    destruct (k - length l) eqn:E; simpl in H.
    + split; [lia|congruence].
    + destruct n0; discriminate.
Qed.

Lemma nth_error_snoc_eq : forall A (l : list A) a, nth_error (l ++ [a]) (length l) = Some a.
Proof. intros. rewrite nth_error_app2 by lia. now rewrite Nat.sub_diag. Qed.

Lemma run_inv_exists : forall c hist, valid_hist hist -> exists E A, run_inv c hist E A.
Proof.
  intros c hist. induction hist as [|[fr ord] hist IH] using rev_ind; intro V.
  - exists [], []. constructor; simpl; auto; try constructor. lia.
  - apply Forall_app in V. destruct V as [V1 V2]. inversion V2 as [|? ? HS _]; subst.
    destruct (IH V1) as (E & A & I). clear IH.
    destruct I as [IR IE IA Iend Ipast Ind Imax].
    destruct (step_spec c (map fst A) fr ord HS) as (M & G & HSt).
    set (n := length hist) in *.
    set (l := seq 0 (length A)).
    set (ps := firstn (room c (length (surviving (map fst A) fr M))) (free_peaks fr M)).
    exists (E ++ rev (dyingL A M l)), (survL A fr M l ++ bornL n fr ps).
    assert (HAi : forall i, In i l -> In (nth i A (no_track, [])) A).
    { intros i Hi. apply in_seq in Hi. apply nth_In. lia. }
    rewrite Forall_forall in IA, IE, Iend, Ipast.
    assert (Hpeak : forall p, (p < length fr)%nat ->
        peak_at (hist ++ [(fr, ord)]) n p (nth p fr no_peak)).
    { intros p Hp. exists fr, ord. split.
      - apply nth_error_snoc_eq.
      - apply nth_error_nth'. auto. }
    constructor.
    + intro deact. rewrite run_snoc, IR. rewrite map_app, foldM_app.
      destruct (foldM deact [] (map fst E)) as [sv|e]; cbn [bind]; auto.
      rewrite HSt. rewrite map_rev, dyingL_fst.
      destruct (foldM deact sv (rev (dying (map fst A) M))); cbn [bind]; auto.
      rewrite map_app, survL_fst, bornL_fst. rewrite app_length. simpl.
      rewrite Nat.add_1_r. reflexivity.
    + apply Forall_app. split; apply Forall_forall; intros tl Hin.
      * apply wit_app. auto.
      * apply in_rev in Hin. apply dyingL_In in Hin.
        destruct Hin as (i & Hi & _ & ->). apply wit_app. auto.
    + apply Forall_app. split; apply Forall_forall; intros tl Hin.
      * apply survL_In in Hin. destruct Hin as (i & p & Hi & Hp & ->).
        specialize (HAi i Hi). pose proof (IA _ HAi) as W. pose proof (Iend _ HAi) as HE.
        apply partner_some in Hp; [|apply (gm_track_once _ _ _ _ G)].
        destruct (gm_range _ _ _ _ G _ _ Hp) as [_ Hpr].
        destruct (nth i A (no_track, [])) as [t lab]. simpl in *.
        destruct W as (L1 & L2 & L3 & L4 & L5).
        rewrite !app_length, L1, L2, L3. simpl. repeat split; auto.
        { destruct lab; discriminate. }
        intros k q Hk. apply nth_error_snoc in Hk. destruct Hk as [Hk|[-> ->]].
        -- destruct (L5 k q Hk) as (pk & P1 & P2 & P3 & P4). exists pk.
           assert (Hk' : (k < length lab)%nat) by (apply nth_error_Some; congruence).
           rewrite !nth_error_app1 by lia. split; auto. now apply peak_at_app.
        -- exists (nth p fr no_peak). split.
           ++ rewrite HE. auto.
           ++ rewrite <- L1 at 1. rewrite nth_error_snoc_eq.
              rewrite <- L2 at 1. rewrite nth_error_snoc_eq.
              rewrite <- L3 at 1. rewrite nth_error_snoc_eq. auto.
      * unfold bornL in Hin. apply in_map_iff in Hin. destruct Hin as (p & <- & Hp).
        apply firstn_In in Hp. apply free_peaks_spec in Hp. destruct Hp as [Hp _].
        simpl. repeat split; auto; try discriminate.
        intros k q Hk. destruct k as [|[|k]]; simpl in Hk; try discriminate.
        injection Hk as <-. exists (nth p fr no_peak). simpl. rewrite Nat.add_0_r. auto.
    + rewrite app_length. simpl. fold n.
      apply Forall_app. split; apply Forall_forall; intros tl Hin.
      * apply survL_In in Hin. destruct Hin as (i & p & Hi & Hp & ->). simpl.
        rewrite app_length. simpl. specialize (Iend _ (HAi i Hi)). lia.
      * unfold bornL in Hin. apply in_map_iff in Hin. destruct Hin as (p & <- & Hp).
        simpl. lia.
    + rewrite app_length. simpl. fold n.
      apply Forall_app. split; apply Forall_forall; intros tl Hin.
      * specialize (Ipast _ Hin). simpl in Ipast. lia.
      * apply in_rev in Hin. apply dyingL_In in Hin.
        destruct Hin as (i & Hi & _ & ->). specialize (Iend _ (HAi i Hi)). lia.
    + assert (HP : Permutation (flat_map usedt ((E ++ rev (dyingL A M l)) ++ survL A fr M l ++ bornL n fr ps))
         (flat_map usedt (E ++ A) ++ map (pair n) (matched M l ++ ps))).
      { rewrite !flat_map_app. rewrite <- !app_assoc. apply Permutation_app_head.
        rewrite (Permutation_flat_map usedt (Permutation_sym (Permutation_rev (dyingL A M l)))).
        rewrite app_assoc. rewrite (used_perm A fr M n l).
        - rewrite <- app_assoc. unfold l. rewrite map_nth_seq. apply Permutation_app_head.
          rewrite map_app. apply Permutation_app_head.
          unfold bornL. clear. induction ps; simpl; auto.
        - intros i Hi. apply Iend. auto. }
      eapply Permutation_NoDup; [apply Permutation_sym; exact HP|].
      assert (NDnew : NoDup (matched M l ++ ps)).
      { assert (D : forall p, In p (matched M l) -> In p ps -> False).
        { intros p H1 H2. apply (matched_in _ _ _ _ _ _ G) in H1.
          apply firstn_In in H2. apply free_peaks_spec in H2. tauto. }
        assert (N1 : NoDup (matched M l)) by (eapply matched_NoDup; eauto; apply seq_NoDup).
        assert (N2 : NoDup ps).
        { apply firstn_NoDup. unfold free_peaks. apply NoDup_filter. apply seq_NoDup. }
        apply NoDup_app_intro; auto. }
      assert (Hold : forall x p, In (x, p) (flat_map usedt (E ++ A)) -> x < n).
      { intros x p Hin. apply in_flat_map in Hin. destruct Hin as (tl & Htl & Hin).
        eapply usedt_lt; [|exact Hin]. apply in_app_or in Htl. destruct Htl as [Htl|Htl].
        - specialize (Ipast _ Htl). simpl in Ipast. lia.
        - specialize (Iend _ Htl). simpl in Iend. lia. }
      apply NoDup_app_intro; auto.
      * apply FinFun.Injective_map_NoDup; auto. intros a b Eab. congruence.
      * intros [x p] Hx Hy. apply in_map_iff in Hy. destruct Hy as (q & Eq & _).
        injection Eq as <- <-. apply Hold in Hx. lia.
    + rewrite app_length. unfold bornL, ps. rewrite map_length.
      pose proof (survL_length A fr M l) as HL. unfold l in HL at 2. rewrite seq_length in HL.
      pose proof (firstn_le_length (room c (length (surviving (map fst A) fr M))) (free_peaks fr M)) as HF.
      rewrite <- survL_fst, map_length in HF |- *. fold l in HF |- *.
      unfold room in *.
      pose proof (firstn_length (Z.to_nat (c_max c - Z.of_nat (length (survL A fr M l)))) (free_peaks fr M)).
      lia.
Qed.
