(** One frame of tracking meets its specification. *)
From Coq Require Import List Arith ZArith QArith Qabs Lia Bool Permutation Sorting.Sorted.
Import ListNotations.
From Verif Require Import Base ListLemmas Tracker_Model Tracker_Spec.
Local Open Scope Q_scope.

(** ** min_key *)

Section MinKey.
  Context {A K : Type} (lt : K -> K -> bool) (key : A -> K).
  Hypothesis lt_irr : forall x, lt x x = false.
  Hypothesis lt_trans : forall x y z, lt x y = true -> lt y z = true -> lt x z = true.
  Hypothesis lt_neg_trans : forall x y z, lt x y = false -> lt y z = false -> lt x z = false.

  Definition is_first_min (it : list A) (r : option (A * K)) : Prop :=
    match r with
    | None => it = []
    | Some (i, x) =>
      exists l1 l2, it = l1 ++ i :: l2 /\ x = key i /\
        (forall j, In j l1 -> lt x (key j) = true) /\
        (forall j, In j it -> lt (key j) x = false)
    end.

  Definition mk_step (acc : option (A * K)) (i : A) : option (A * K) :=
    let x := key i in
    match acc with
    | None => Some (i, x)
    | Some (_, x_) => if lt x x_ then Some (i, x) else acc
    end.

  Lemma min_key_spec : forall it, is_first_min it (min_key lt it key).
  Proof.
    assert (G : forall l2 l1 acc, is_first_min l1 acc ->
              is_first_min (l1 ++ l2) (fold_left mk_step l2 acc)).
    { induction l2 as [|i l2 IH]; intros l1 acc H; simpl.
      - now rewrite app_nil_r.
      - replace (l1 ++ i :: l2) with ((l1 ++ [i]) ++ l2) by now rewrite <- app_assoc.
        apply IH. unfold mk_step. destruct acc as [[a x]|]; simpl in H.
        + destruct H as (u & v & E & Ex & Hu & Hmin).
          destruct (lt (key i) x) eqn:L; simpl.
          * exists l1, []. rewrite app_nil_r || idtac.
            split; [reflexivity|]. split; [reflexivity|]. split.
            -- intros j Hj. specialize (Hmin j Hj).
               destruct (lt (key i) (key j)) eqn:Q; auto.
               exfalso. pose proof (lt_neg_trans _ _ _ Q Hmin). congruence.
            -- intros j Hj. apply in_app_or in Hj. destruct Hj as [Hj|[<-|[]]]; auto.
               destruct (lt (key j) (key i)) eqn:Q; auto.
               exfalso. pose proof (lt_trans _ _ _ Q L).
               rewrite (Hmin j Hj) in H. discriminate.
          * exists u, (v ++ [i]). rewrite E, <- app_assoc. simpl.
            split; [reflexivity|]. split; [exact Ex|]. split; [exact Hu|].
            intros j Hj. apply in_app_or in Hj. destruct Hj as [Hj|Hj].
            -- apply Hmin. rewrite E. apply in_or_app. now left.
            -- destruct Hj as [<-|Hj].
               ++ rewrite Ex. apply lt_irr.
               ++ apply in_app_or in Hj. destruct Hj as [Hj|[<-|[]]]; auto.
                  apply Hmin. rewrite E. apply in_or_app. right. now right.
        + subst l1. simpl. exists [], []. simpl.
          repeat split; auto; try tauto. intros j [<-|[]]. apply lt_irr. }
    intro it. exact (G it [] None eq_refl).
  Qed.
End MinKey.

Lemma Qltb_irr : forall x, Qltb x x = false.
Proof. intro. apply Qltb_false. apply Qle_refl. Qed.
Lemma Qltb_trans : forall x y z, Qltb x y = true -> Qltb y z = true -> Qltb x z = true.
Proof. intros x y z. rewrite !Qltb_true. apply Qlt_trans. Qed.
Lemma Qltb_neg_trans : forall x y z, Qltb x y = false -> Qltb y z = false -> Qltb x z = false.
Proof. intros x y z. rewrite !Qltb_false. intros. eapply Qle_trans; eauto. Qed.

(** ** The matching loop *)

Lemma partner_none : forall M i, partner M i = None <-> ~ In i (map fst M).
Proof.
  unfold partner. induction M as [|[a b] M IH]; simpl; intro i.
  - split; auto.
  - destruct (Nat.eqb_spec a i); simpl.
    + split; [discriminate|]. intro H; exfalso; apply H; now left.
    + rewrite IH. split; intros H.
      * intros [?|?]; [congruence|auto].
      * intro; apply H; now right.
Qed.

Lemma partner_some : forall M i p, NoDup (map fst M) ->
  (partner M i = Some p <-> In (i, p) M).
Proof.
  unfold partner. induction M as [|[a b] M IH]; simpl; intros i p ND.
  - split; [discriminate|tauto].
  - inversion ND; subst. destruct (Nat.eqb_spec a i); simpl.
    + subst. split; intro H.
      * left. congruence.
      * destruct H as [H|H]; [congruence|].
        exfalso. apply H1. now apply (in_map fst) in H.
    + rewrite IH by auto. split; intro H; [now right|].
      destruct H as [H|H]; [congruence|auto].
Qed.

Record loop_inv (c : cfg) (ts0 : list track) (fr : frame)
    (done : list nat) (M : list (nat * nat))
    (ts : list track) (ft fp : list bool) : Prop := {
  li_len : List.length ts = List.length ts0;
  li_lft : List.length ft = List.length ts0;
  li_lfp : List.length fp = List.length fr;
  li_range : forall i p, In (i, p) M ->
    (i < List.length ts0)%nat /\ (p < List.length fr)%nat;
  li_nd1 : NoDup (map fst M);
  li_nd2 : NoDup (map snd M);
  li_done : forall p, In p (map snd M) -> In p done;
  li_ts : forall i, nth i ts no_track =
    match partner M i with
    | Some p => push (nth i ts0 no_track) (nth p fr no_peak)
    | None => nth i ts0 no_track
    end;
  li_ft : forall i, (i < List.length ts0)%nat ->
    (nth i ft false = true <-> ~ In i (map fst M));
  li_fp : forall p, (p < List.length fr)%nat ->
    (nth p fp false = true <-> ~ In p (map snd M));
  li_thr : forall i p, In (i, p) M ->
    within c (nth i ts0 no_track) (nth p fr no_peak);
  li_near : forall i p j, In (i, p) M -> (j < List.length ts0)%nat ->
    (dist (nth j ts0 no_track) (nth p fr no_peak)
       < dist (nth i ts0 no_track) (nth p fr no_peak)
     \/ (dist (nth j ts0 no_track) (nth p fr no_peak)
           == dist (nth i ts0 no_track) (nth p fr no_peak) /\ (j < i)%nat)) ->
    exists q, In (j, q) M /\
      pk_m (nth p fr no_peak) <= pk_m (nth q fr no_peak);
  li_free : forall p j, In p done -> ~ In p (map snd M) ->
    (j < List.length ts0)%nat ->
    within c (nth j ts0 no_track) (nth p fr no_peak) ->
    exists q, In (j, q) M /\
      pk_m (nth p fr no_peak) <= pk_m (nth q fr no_peak)
}.

Definition louder (fr : frame) (a b : nat) : Prop :=
  pk_m (nth b fr no_peak) <= pk_m (nth a fr no_peak).

Lemma existsb_nth_false : forall (l : list bool) i,
  existsb (fun b => b) l = false -> nth i l false = false.
Proof.
  induction l; destruct i; simpl; intros; auto;
  apply orb_false_iff in H; destruct H; auto.
Qed.

Lemma in_snd : forall (M : list (nat * nat)) i p, In (i, p) M -> In p (map snd M).
Proof. intros. now apply (in_map snd) in H. Qed.
Lemma in_fst : forall (M : list (nat * nat)) i p, In (i, p) M -> In i (map fst M).
Proof. intros. now apply (in_map fst) in H. Qed.
Lemma fst_in : forall (M : list (nat * nat)) i, In i (map fst M) -> exists p, In (i, p) M.
Proof. intros. apply in_map_iff in H. destruct H as [[a b] [E H]]. simpl in E. subst. eauto. Qed.
Lemma snd_in : forall (M : list (nat * nat)) p, In p (map snd M) -> exists i, In (i, p) M.
Proof. intros. apply in_map_iff in H. destruct H as [[a b] [E H]]. simpl in E. subst. eauto. Qed.

Lemma seq_filter_split : forall f n l1 i l2,
  filter f (seq 0 n) = l1 ++ i :: l2 ->
  forall j, (j < i)%nat -> f j = true -> (j < n)%nat -> In j l1.
Proof.
  intros f n l1 i l2 E j Hj Hf Hn.
  assert (Hin : In j (filter f (seq 0 n))).
  { apply filter_In. split; auto. apply in_seq. lia. }
  rewrite E in Hin. apply in_app_or in Hin. destruct Hin as [|Hin]; auto.
  exfalso.
  assert (S : StronglySorted lt (filter f (seq 0 n))).
  { clear. generalize 0%nat. induction n; intros; simpl; [constructor|].
    destruct (f n0); auto. constructor; auto.
    apply Forall_forall. intros x Hx. apply filter_In in Hx. destruct Hx as [Hx _].
    apply in_seq in Hx. lia. }
  rewrite E in S.
  assert (S2 : StronglySorted lt (i :: l2)).
  { clear -S. induction l1; simpl in S; auto. inversion S; auto. }
  destruct Hin as [->|Hin]; [lia|].
  inversion S2; subst. rewrite Forall_forall in H2. specialize (H2 _ Hin). lia.
Qed.

Lemma match_loop_spec : forall c ts0 fr rest done M ts ft fp,
  (forall p, In p (done ++ rest) -> (p < List.length fr)%nat) ->
  NoDup (done ++ rest) ->
  (forall a b, In a done -> In b rest -> louder fr a b) ->
  StronglySorted (louder fr) rest ->
  loop_inv c ts0 fr done M ts ft fp ->
  exists M' ts' ft' fp',
    match_loop c fr rest ts ft fp = (ts', ft', fp') /\
    loop_inv c ts0 fr (done ++ rest) M' ts' ft' fp'.
Proof.
  induction rest as [|p rest IH]; intros done M ts ft fp HR ND HL HS I; simpl.
  - exists M, ts, ft, fp. rewrite app_nil_r. auto.
  - assert (Hp : (p < List.length fr)%nat) by (apply HR; apply in_or_app; simpl; auto).
    assert (Hpd : ~ In p done).
    { apply NoDup_remove_2 in ND. intro. apply ND. apply in_or_app; auto. }
    assert (HpM : ~ In p (map snd M)) by (intro Q; apply Hpd; eapply li_done; eauto).
    inversion HS as [|? ? HS' HF]; subst. rewrite Forall_forall in HF.
    (* facts for the recursive calls *)
    assert (HR' : forall q, In q ((done ++ [p]) ++ rest) -> (q < List.length fr)%nat).
    { intros q. rewrite <- app_assoc. simpl. apply HR. }
    assert (ND' : NoDup ((done ++ [p]) ++ rest)) by (rewrite <- app_assoc; exact ND).
    assert (HL' : forall a b, In a (done ++ [p]) -> In b rest -> louder fr a b).
    { intros a b Ha Hb. apply in_app_or in Ha. destruct Ha as [Ha|[<-|[]]].
      - apply HL; simpl; auto.
      - apply HF; auto. }
    destruct (existsb (fun b => b) ft) eqn:EF; simpl.
    + (* some free track *)
      assert (SK : loop_inv c ts0 fr (done ++ [p]) M ts ft fp ->
        exists M' ts' ft' fp',
          match_loop c fr rest ts ft fp = (ts', ft', fp') /\
          loop_inv c ts0 fr (done ++ p :: rest) M' ts' ft' fp').
      { intro I'. destruct (IH (done ++ [p]) M ts ft fp HR' ND' HL' HS' I')
          as (M' & ts' & ft' & fp' & E & I2).
        rewrite <- app_assoc in I2. simpl in I2. eauto 8. }
      pose proof (min_key_spec Qltb
         (fun i => Qabs (last_freq (nth i ts no_track) - pk_f (nth p fr no_peak)))
         Qltb_irr Qltb_trans Qltb_neg_trans
         (filter (fun i => nth i ft false) (seq 0 (List.length ts)))) as MK.
      destruct (min_key Qltb _ _) as [[ti d]|] eqn:EM.
      2: { exfalso. simpl in MK. apply existsb_exists in EF. destruct EF as [b [Hb Eb]].
           subst b. apply In_nth with (d := false) in Hb. destruct Hb as [k [Hk Ek]].
           rewrite (li_lft _ _ _ _ _ _ _ _ I), <- (li_len _ _ _ _ _ _ _ _ I) in Hk.
           assert (In k []) as []. rewrite <- MK. apply filter_In. split; auto.
           apply in_seq. lia. }
      simpl in MK. destruct MK as (l1 & l2 & El & Ed & Hl1 & Hmin).
      assert (Hti : In ti (filter (fun i => nth i ft false) (seq 0 (List.length ts)))).
      { rewrite El. apply in_or_app; simpl; auto. }
      apply filter_In in Hti. destruct Hti as [Hti1 Hti2]. apply in_seq in Hti1.
      rewrite (li_len _ _ _ _ _ _ _ _ I) in Hti1.
      assert (HtiM : ~ In ti (map fst M)).
      { apply (li_ft _ _ _ _ _ _ _ _ I ti); auto. lia. }
      assert (Hfree : forall j, (j < List.length ts0)%nat -> ~ In j (map fst M) ->
                nth j ts no_track = nth j ts0 no_track).
      { intros j _ Hj. rewrite (li_ts _ _ _ _ _ _ _ _ I j).
        apply partner_none in Hj. now rewrite Hj. }
      assert (Ed' : d = dist (nth ti ts0 no_track) (nth p fr no_peak)).
      { rewrite Ed. rewrite Hfree by (auto; lia). reflexivity. }
      assert (Hmin' : forall j, (j < List.length ts0)%nat -> ~ In j (map fst M) ->
                d <= dist (nth j ts0 no_track) (nth p fr no_peak)).
      { intros j Hj HjM. assert (Hin : In j (filter (fun i => nth i ft false)
            (seq 0 (List.length ts)))).
        { apply filter_In. split; [apply in_seq; rewrite (li_len _ _ _ _ _ _ _ _ I); lia|].
          apply (li_ft _ _ _ _ _ _ _ _ I j); auto. }
        specialize (Hmin j Hin). rewrite Hfree in Hmin by auto.
        apply Qltb_false in Hmin. exact Hmin. }
      assert (Hmin2 : forall j, (j < ti)%nat -> ~ In j (map fst M) ->
                d < dist (nth j ts0 no_track) (nth p fr no_peak)).
      { intros j Hj HjM. assert (Hj0 : (j < List.length ts0)%nat) by lia.
        assert (Hin : In j l1).
        { eapply seq_filter_split; eauto.
          - apply (li_ft _ _ _ _ _ _ _ _ I j); auto.
          - rewrite (li_len _ _ _ _ _ _ _ _ I); auto. }
        specialize (Hl1 j Hin). apply Qltb_true in Hl1. rewrite Hfree in Hl1 by auto.
        exact Hl1. }
      assert (Hlouder : forall q, In q (map snd M) -> pk_m (nth p fr no_peak)
                 <= pk_m (nth q fr no_peak)).
      { intros q Hq. apply (HL q p). { eapply li_done; eauto. } simpl; auto. }
      destruct (Qltb d (df c (pk_f (nth p fr no_peak)))) eqn:ET.
      * (* match *)
        apply Qltb_true in ET.
        destruct (IH (done ++ [p]) ((ti, p) :: M)
                   (upd ti (push (nth ti ts no_track) (nth p fr no_peak)) ts)
                   (upd ti false ft) (upd p false fp) HR' ND' HL' HS')
          as (M' & ts' & ft' & fp' & E & I2).
        { destruct I. constructor; simpl.
          - now rewrite upd_length.
          - now rewrite upd_length.
          - now rewrite upd_length.
          - intros i q [E|Hin]; [injection E as <- <-; lia|eauto].
          - constructor; auto.
          - constructor; auto.
          - intros q [<-|Hq]; apply in_or_app; simpl; auto.
          - intro i. unfold partner. simpl. destruct (Nat.eqb_spec ti i).
            + subst i. simpl. rewrite nth_upd_eq by lia.
              rewrite Hfree by (auto; lia). reflexivity.
            + rewrite nth_upd_neq by auto. exact (li_ts0 i).
          - intros i Hi. destruct (Nat.eq_dec ti i).
            + subst i. rewrite nth_upd_eq by lia. split; [discriminate|].
              intro Q; exfalso; apply Q; auto.
            + rewrite nth_upd_neq by auto. rewrite li_ft0 by auto.
              split; intros Q; [intros [?|?]; auto|]. intro; apply Q; auto.
          - intros q Hq. destruct (Nat.eq_dec p q).
            + subst q. rewrite nth_upd_eq by lia. split; [discriminate|].
              intro Q; exfalso; apply Q; auto.
            + rewrite nth_upd_neq by auto. rewrite li_fp0 by auto.
              split; intros Q; [intros [?|?]; auto|]. intro; apply Q; auto.
          - intros i q [E|Hin]; [|eauto]. injection E as <- <-.
            unfold within. rewrite <- Ed'. exact ET.
          - intros i q j [E|Hin] Hj HD.
            + injection E as <- <-. rewrite <- Ed' in HD.
              destruct (in_dec Nat.eq_dec j (map fst M)) as [Hy|Hn].
              * destruct (fst_in _ _ Hy) as [q Hq]. exists q. split; auto.
                apply Hlouder. eapply in_snd; eauto.
              * exfalso. destruct HD as [HD|[HD1 HD2]].
                -- apply (Qlt_not_le _ _ HD). apply Hmin'; auto.
                -- specialize (Hmin2 j HD2 Hn). rewrite HD1 in Hmin2.
                   apply Qlt_irrefl in Hmin2. auto.
            + destruct (li_near0 i q j Hin Hj HD) as (q' & Hq' & Hm).
              exists q'. auto.
          - intros q j Hq Hqn Hj HW.
            apply in_app_or in Hq. destruct Hq as [Hq|[<-|[]]].
            + destruct (li_free0 q j Hq) as (q' & Hq' & Hm); auto.
              exists q'; auto.
            + exfalso. apply Hqn. auto. }
        exists M', ts', ft', fp'. rewrite <- app_assoc in I2. auto.
      * (* no match *)
        apply Qltb_false in ET.
        apply SK. destruct I. constructor; auto.
        -- intros q Hq. apply in_or_app; auto.
        -- intros q j Hq Hqn Hj HW.
           apply in_app_or in Hq. destruct Hq as [Hq|[<-|[]]]; [eauto|].
           destruct (in_dec Nat.eq_dec j (map fst M)) as [Hy|Hn].
           ++ destruct (fst_in _ _ Hy) as [q Hq]. exists q. split; auto.
              apply Hlouder. eapply in_snd; eauto.
           ++ exfalso. unfold within in HW. specialize (Hmin' j Hj Hn).
              apply (Qlt_not_le _ _ HW). eapply Qle_trans; [exact ET|exact Hmin'].
    + (* break *)
      exists M, ts, ft, fp. split; auto. destruct I. constructor; auto.
      * intros q Hq. apply in_or_app; auto.
      * intros q j Hq Hqn Hj HW.
        apply in_app_or in Hq. destruct Hq as [Hq|Hq]; [eauto|].
        assert (Hy : In j (map fst M)).
        { destruct (in_dec Nat.eq_dec j (map fst M)) as [|Hn]; auto.
          apply li_ft0 in Hn; auto. rewrite existsb_nth_false in Hn by auto. discriminate. }
        destruct (fst_in _ _ Hy) as [q' Hq']. exists q'. split; auto.
        apply (HL q' q); auto. apply li_done0. eapply in_snd; eauto.
Qed.

Lemma loop_inv_init : forall c ts fr,
  loop_inv c ts fr [] [] ts (repeat true (List.length ts)) (repeat true (List.length fr)).
Proof.
  intros. constructor; simpl; try rewrite repeat_length; auto; try tauto;
    try constructor; auto.
  - intros _. now apply nth_repeat_lt.
  - intros _. now apply nth_repeat_lt.
Qed.

(** ** The deactivation loop *)

Lemma deact_loop_gen : forall (deact : deactivator) f tail ts sv,
  foldM
    (fun st ti =>
       match deact (fst st) (nth ti (snd st) no_track) with
       | Ok sv' => Ok (sv', remove_nth ti (snd st))
       | Err e => Err e
       end)
    (sv, ts ++ tail)
    (filter f (rev (seq 0 (List.length ts)))) =
  do sv' <- foldM deact sv
              (rev (map (fun i => nth i ts no_track)
                        (filter f (seq 0 (List.length ts)))));
  Ok (sv', map (fun i => nth i ts no_track)
               (filter (fun i => negb (f i)) (seq 0 (List.length ts))) ++ tail).
Proof.
  intros deact f tail ts. revert tail. induction ts as [|t ts IH] using rev_ind; intros tail sv.
  - reflexivity.
  - rewrite app_length. simpl. rewrite Nat.add_1_r, seq_S_last, rev_app_distr.
    simpl. rewrite !filter_app. simpl.
    assert (Hmap : forall g, map (fun i => nth i (ts ++ [t]) no_track)
        (filter g (seq 0 (List.length ts))) =
        map (fun i => nth i ts no_track) (filter g (seq 0 (List.length ts)))).
    { intro g. apply map_ext_in. intros a Ha. apply filter_In in Ha. destruct Ha as [Ha _].
      apply in_seq in Ha. apply app_nth1. lia. }
    assert (Hlast : forall tl, nth (List.length ts) ((ts ++ [t]) ++ tl) no_track = t).
    { intro tl. rewrite <- app_assoc. simpl. apply nth_middle. }
    assert (Hlast0 : nth (List.length ts) (ts ++ [t]) no_track = t) by apply nth_middle.
    destruct (f (List.length ts)) eqn:F; simpl.
    + rewrite !map_app, !Hmap. simpl. rewrite Hlast0, Hlast. rewrite rev_app_distr. simpl.
      rewrite app_nil_r. destruct (deact sv t) eqn:D; simpl; auto.
      rewrite <- app_assoc. simpl. rewrite remove_nth_app.
      apply IH.
    + rewrite !map_app, !Hmap. simpl. rewrite Hlast0. rewrite app_nil_r.
      rewrite <- !app_assoc. simpl. apply IH.
Qed.

Lemma deact_loop_spec : forall (deact : deactivator) ft sv ts,
  deact_loop deact ft sv ts =
  do sv' <- foldM deact sv
              (rev (map (fun i => nth i ts no_track)
                        (filter (fun i => nth i ft false) (seq 0 (List.length ts)))));
  Ok (sv', map (fun i => nth i ts no_track)
               (filter (fun i => negb (nth i ft false)) (seq 0 (List.length ts)))).
Proof.
  intros. unfold deact_loop.
  pose proof (deact_loop_gen deact (fun i => nth i ft false) [] ts sv) as H.
  rewrite app_nil_r in H. rewrite H.
  destruct (foldM deact sv _); simpl; auto. now rewrite app_nil_r.
Qed.

(** ** The activation loop *)

Lemma activate_loop_spec : forall c n fr ps ts,
  activate_loop c n fr ps ts =
  ts ++ map (fun p => newborn n (nth p fr no_peak))
            (firstn (room c (List.length ts)) ps).
Proof.
  induction ps as [|p ps IH]; intros ts; simpl.
  - rewrite firstn_nil. simpl. now rewrite app_nil_r.
  - destruct (Z.leb_spec (c_max c) (Z.of_nat (List.length ts))) as [H|H].
    + unfold room. rewrite Z2Nat.inj_sub by lia. rewrite Nat2Z.id.
      replace (Z.to_nat (c_max c) - List.length ts)%nat with 0%nat by lia.
      simpl. now rewrite app_nil_r.
    + rewrite IH. rewrite app_length. simpl. rewrite <- app_assoc.
      replace (room c (List.length ts)) with (S (room c (List.length ts + 1)))
        by (unfold room; lia).
      reflexivity.
Qed.

(** ** The whole frame *)

Lemma flat_map_if : forall A (f : nat -> bool) (g : nat -> A) l,
  flat_map (fun i => if f i then [g i] else []) l = map g (filter f l).
Proof. induction l; simpl; auto. rewrite IHl. destruct (f a); auto. Qed.

Lemma flat_map_ext_in : forall A B (f g : A -> list B) l,
  (forall a, In a l -> f a = g a) -> flat_map f l = flat_map g l.
Proof. induction l; simpl; intros; auto. rewrite H, IHl; auto. Qed.

Theorem step_spec : forall c (act : list track) fr ord,
  sorts_desc fr ord ->
  exists M, greedy_matching c act fr M /\
    forall deact sv0 n,
    step c deact (mkState sv0 act n) (fr, ord) =
    do sv <- foldM deact sv0 (rev (dying act M));
    Ok (mkState sv
          (surviving act fr M ++
           born c n fr M (List.length (surviving act fr M)))
          (S n)).
Proof.
  intros c act fr ord [HP HS].
  destruct (match_loop_spec c act fr ord [] [] act
     (repeat true (List.length act)) (repeat true (List.length fr)))
    as (M & ts & ft & fp & E & I).
  - simpl. intros p Hp. apply (Permutation_in _ HP) in Hp. apply in_seq in Hp. lia.
  - simpl. eapply Permutation_NoDup; [apply Permutation_sym; exact HP|apply seq_NoDup].
  - intros ? ? [].
  - exact HS.
  - apply loop_inv_init.
  - simpl in I. exists M. split.
    + destruct I. constructor; auto.
      intros p j Hp. apply li_free0.
      apply (Permutation_in _ (Permutation_sym HP)). apply in_seq. lia.
    + assert (HL := li_len _ _ _ _ _ _ _ _ I).
      assert (Hft : forall i, In i (seq 0 (List.length act)) ->
          nth i ft false = match partner M i with Some _ => false | None => true end).
      { intros i Hi. apply in_seq in Hi.
        assert (Hi' : (i < List.length act)%nat) by lia.
        pose proof (li_ft _ _ _ _ _ _ _ _ I i Hi') as Hq.
        destruct (partner M i) eqn:EP.
        - destruct (nth i ft false) eqn:EN; auto. exfalso.
          apply Hq; auto. rewrite partner_some in EP by apply (li_nd1 _ _ _ _ _ _ _ _ I).
          eapply in_fst; eauto.
        - apply partner_none in EP. now apply Hq. }
      assert (E1 : map (fun i => nth i ts no_track)
           (filter (fun i => nth i ft false) (seq 0 (List.length ts)))
           = dying act M).
      { rewrite HL. unfold dying. rewrite <- flat_map_if.
        apply flat_map_ext_in. intros i Hi. rewrite Hft by auto.
        rewrite (li_ts _ _ _ _ _ _ _ _ I i). destruct (partner M i); auto. }
      assert (E2 : map (fun i => nth i ts no_track)
           (filter (fun i => negb (nth i ft false)) (seq 0 (List.length ts)))
           = surviving act fr M).
      { rewrite HL. unfold surviving. rewrite <- flat_map_if.
        apply flat_map_ext_in. intros i Hi. rewrite Hft by auto.
        rewrite (li_ts _ _ _ _ _ _ _ _ I i). destruct (partner M i); auto. }
      assert (E3 : filter (fun i => nth i fp false) (seq 0 (List.length fr))
                   = free_peaks fr M).
      { unfold free_peaks. apply filter_ext_In. intros p Hp. apply in_seq in Hp.
        assert (Hp' : (p < List.length fr)%nat) by lia.
        pose proof (li_fp _ _ _ _ _ _ _ _ I p Hp') as Hq.
        destruct (existsb (Nat.eqb p) (map snd M)) eqn:EX; simpl.
        - apply existsb_exists in EX. destruct EX as [q [Hin Eq]].
          apply Nat.eqb_eq in Eq. subst q.
          destruct (nth p fp false) eqn:EN; auto. exfalso. now apply Hq.
        - apply Hq. intro Hin.
          assert (existsb (Nat.eqb p) (map snd M) = true); [|congruence].
          apply existsb_exists. exists p. split; auto. apply Nat.eqb_refl. }
      intros deact sv0 n. unfold step. simpl. rewrite E. rewrite deact_loop_spec, E1, E2, E3.
      destruct (foldM deact sv0 (rev (dying act M))); simpl; auto.
      rewrite activate_loop_spec. reflexivity.
Qed.
