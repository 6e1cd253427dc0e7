(** One frame of tracking over arbitrary arithmetic. *)
From Coq Require Import ZArith List Arith Lia Bool Permutation Sorting.Sorted.
Import ListNotations.
From Verif Require Import Base ListLemmas Tracker_Model Tracker_Spec Tracker_Step
  Double_Model Double_Spec.
Local Open Scope nat_scope.

Section MinKey.
  Context {X K : Type} (lt : K -> K -> bool) (key : X -> K).

  Let step (acc : option (X * K)) (i : X) : option (X * K) :=
    let x := key i in
    match acc with
    | None => Some (i, x)
    | Some (_, x_) => if lt x x_ then Some (i, x) else acc
    end.

  (** Whatever [<] is, the result is one of the candidates with its key. *)
  Lemma min_key_in : forall it,
    match min_key lt it key with
    | None => it = []
    | Some (i, x) => In i it /\ x = key i
    end.
  Proof.
    assert (G : forall l2 l1 acc,
      match acc with None => l1 = [] | Some (i, x) => In i l1 /\ x = key i end ->
      match fold_left step l2 acc with
      | None => l1 ++ l2 = [] | Some (i, x) => In i (l1 ++ l2) /\ x = key i end).
    { induction l2 as [|a l2 IH]; intros l1 acc H; cbn [fold_left].
      - now rewrite app_nil_r.
      - replace (l1 ++ a :: l2) with ((l1 ++ [a]) ++ l2) by now rewrite <- app_assoc.
        apply IH. unfold step. destruct acc as [[i x]|].
        + destruct H as [H1 H2]. destruct (lt (key a) x).
          * split; auto. apply in_or_app; simpl; auto.
          * split; auto. apply in_or_app; auto.
        + split; auto. apply in_or_app; simpl; auto. }
    intro it. exact (G it [] None eq_refl).
  Qed.

  Variable P : K -> Prop.
  Hypothesis lt_irr : forall x, P x -> lt x x = false.
  Hypothesis lt_trans : forall x y z, P x -> P y -> P z ->
    lt x y = true -> lt y z = true -> lt x z = true.
  Hypothesis lt_neg : forall x y z, P x -> P y -> P z ->
    lt x y = false -> lt y z = false -> lt x z = false.

  (** With comparable keys it is the first minimiser. *)
  Lemma min_key_first : forall it, (forall i, In i it -> P (key i)) ->
    is_first_min lt key it (min_key lt it key).
  Proof.
    assert (G : forall l2 l1 acc, (forall i, In i (l1 ++ l2) -> P (key i)) ->
              is_first_min lt key l1 acc ->
              is_first_min lt key (l1 ++ l2) (fold_left step l2 acc)).
    { induction l2 as [|i l2 IH]; intros l1 acc HP H; cbn [fold_left].
      - now rewrite app_nil_r.
      - replace (l1 ++ i :: l2) with ((l1 ++ [i]) ++ l2) in * by now rewrite <- app_assoc.
        apply IH; [exact HP|].
        assert (Pi : P (key i)).
        { apply HP. apply in_or_app. left. apply in_or_app. simpl; auto. }
        assert (P1 : forall j, In j l1 -> P (key j)).
        { intros j Hj. apply HP. apply in_or_app. left. apply in_or_app; auto. }
        unfold step. destruct acc as [[a x]|]; simpl in H.
        + destruct H as (u & v & E & Ex & Hu & Hmin).
          assert (Pa : P x). { rewrite Ex. apply P1. rewrite E. apply in_or_app; simpl; auto. }
          destruct (lt (key i) x) eqn:L; simpl.
          * exists l1, []. split; [reflexivity|]. split; [reflexivity|]. split.
            -- intros j Hj. specialize (Hmin j Hj).
               destruct (lt (key i) (key j)) eqn:Q; auto.
               exfalso. pose proof (lt_neg _ _ _ Pi (P1 j Hj) Pa Q Hmin). congruence.
            -- intros j Hj. apply in_app_or in Hj. destruct Hj as [Hj|[<-|[]]]; auto.
               destruct (lt (key j) (key i)) eqn:Q; auto.
               exfalso. pose proof (lt_trans _ _ _ (P1 j Hj) Pi Pa Q L).
               rewrite (Hmin j Hj) in H. discriminate.
          * exists u, (v ++ [i]). rewrite E, <- app_assoc. simpl.
            split; [reflexivity|]. split; [exact Ex|]. split; [exact Hu|].
            intros j Hj. apply in_app_or in Hj. destruct Hj as [Hj|Hj].
            -- apply Hmin. rewrite E. apply in_or_app. now left.
            -- destruct Hj as [<-|Hj].
               ++ rewrite Ex. apply lt_irr. rewrite <- Ex. exact Pa.
               ++ apply in_app_or in Hj. destruct Hj as [Hj|[<-|[]]]; auto.
                  apply Hmin. rewrite E. apply in_or_app. right. now right.
        + subst l1. simpl. exists [], []. simpl.
          repeat split; auto; try tauto. intros j [<-|[]]. now apply lt_irr. }
    intros it HP. exact (G it [] None HP eq_refl).
  Qed.
End MinKey.

Section Step.
Context {A : arith}.
Notation peak := (dpeak A).
Notation track := (dtrack A).
Notation frame := (dframe A).
Notation cfg := (dcfg A).

(** The distances and thresholds of a frame are comparable. *)
Definition frame_cmp (c : cfg) (ts : list track) (fr : frame) : Prop :=
  exists P : num A -> Prop, comparable P /\
    (forall i p, i < length ts -> p < length fr ->
       P (d_gap (nth i ts d_notrack) (nth p fr d_nopeak))) /\
    (forall p, p < length fr -> P (d_df c (dp_f (nth p fr d_nopeak)))).

Notation gap_ ts i fr p := (d_gap (nth i ts d_notrack) (nth p fr d_nopeak)).
Notation mag_ fr p := (dp_m (nth p fr d_nopeak)).

Record d_loop_inv (c : cfg) (ts0 : list track) (fr : frame) (G : Prop)
    (done : list nat) (M : list (nat * nat))
    (ts : list track) (ft fp : list bool) : Prop := {
  li_len : length ts = length ts0;
  li_lft : length ft = length ts0;
  li_lfp : length fp = length fr;
  li_match : d_matching c ts0 fr M;
  li_done : forall p, In p (map snd M) -> In p done;
  li_ts : forall i, nth i ts d_notrack =
    match partner M i with
    | Some p => d_push (nth i ts0 d_notrack) (nth p fr d_nopeak)
    | None => nth i ts0 d_notrack
    end;
  li_ft : forall i, (i < length ts0)%nat ->
    (nth i ft false = true <-> ~ In i (map fst M));
  li_fp : forall p, (p < length fr)%nat ->
    (nth p fp false = true <-> ~ In p (map snd M));
  li_near : G -> forall i p j, In (i, p) M -> (j < length ts0)%nat ->
    (lt A (gap_ ts0 j fr p) (gap_ ts0 i fr p) = true
     \/ (lt A (gap_ ts0 i fr p) (gap_ ts0 j fr p) = false /\ (j < i)%nat)) ->
    exists q, In (j, q) M /\ lt A (mag_ fr q) (mag_ fr p) = false;
  li_free : G -> forall p j, In p done -> ~ In p (map snd M) ->
    (j < length ts0)%nat ->
    lt A (gap_ ts0 j fr p) (d_df c (dp_f (nth p fr d_nopeak))) = true ->
    exists q, In (j, q) M /\ lt A (mag_ fr q) (mag_ fr p) = false
}.

Definition d_louder (fr : frame) (a b : nat) : Prop :=
  lt A (mag_ fr a) (mag_ fr b) = false.

Lemma d_match_loop_spec : forall c ts0 fr (G : Prop) rest done M ts ft fp,
  (forall p, In p (done ++ rest) -> (p < length fr)%nat) ->
  NoDup (done ++ rest) ->
  (G -> frame_cmp c ts0 fr) ->
  (G -> forall a b, In a done -> In b rest -> d_louder fr a b) ->
  (G -> StronglySorted (d_louder fr) rest) ->
  d_loop_inv c ts0 fr G done M ts ft fp ->
  exists M' ts' ft' fp',
    d_match_loop c fr rest ts ft fp = (ts', ft', fp') /\
    d_loop_inv c ts0 fr G (done ++ rest) M' ts' ft' fp'.
Proof.
  induction rest as [|p rest IH]; intros done M ts ft fp HR ND HC HL HS I; cbn [d_match_loop].
  - exists M, ts, ft, fp. rewrite app_nil_r. auto.
  - assert (Hp : (p < length fr)%nat) by (apply HR; apply in_or_app; simpl; auto).
    assert (Hpd : ~ In p done).
    { apply NoDup_remove_2 in ND. intro. apply ND. apply in_or_app; auto. }
    assert (HpM : ~ In p (map snd M)) by (intro Q; apply Hpd; eapply li_done; eauto).
    assert (HS' : G -> StronglySorted (d_louder fr) rest).
    { intro g. specialize (HS g). now inversion HS. }
    assert (HF : G -> forall x, In x rest -> d_louder fr p x).
    { intro g. specialize (HS g). inversion HS as [|? ? _ HF]; subst.
      now rewrite Forall_forall in HF. }
    assert (HR' : forall q, In q ((done ++ [p]) ++ rest) -> (q < length fr)%nat).
    { intros q. rewrite <- app_assoc. simpl. apply HR. }
    assert (ND' : NoDup ((done ++ [p]) ++ rest)) by (rewrite <- app_assoc; exact ND).
    assert (HL' : G -> forall a b, In a (done ++ [p]) -> In b rest -> d_louder fr a b).
    { intros g a b Ha Hb. apply in_app_or in Ha. destruct Ha as [Ha|[<-|[]]].
      - apply (HL g); simpl; auto.
      - apply HF; auto. }
    pose proof (li_match _ _ _ _ _ _ _ _ _ I) as MM.
    destruct (existsb (fun b => b) ft) eqn:EF; cbn [negb].
    + assert (SK : d_loop_inv c ts0 fr G (done ++ [p]) M ts ft fp ->
        exists M' ts' ft' fp',
          d_match_loop c fr rest ts ft fp = (ts', ft', fp') /\
          d_loop_inv c ts0 fr G (done ++ p :: rest) M' ts' ft' fp').
      { intro I'. destruct (IH (done ++ [p]) M ts ft fp HR' ND' HC HL' HS' I')
          as (M' & ts' & ft' & fp' & E & I2).
        rewrite <- app_assoc in I2. simpl in I2. eauto 8. }
      set (cand := filter (fun i => nth i ft false) (seq 0 (length ts))).
      set (key := fun i => d_gap (nth i ts d_notrack) (nth p fr d_nopeak)).
      assert (Hfree : forall j, ~ In j (map fst M) ->
                nth j ts d_notrack = nth j ts0 d_notrack).
      { intros j Hj. rewrite (li_ts _ _ _ _ _ _ _ _ _ I j).
        apply partner_none in Hj. now rewrite Hj. }
      assert (Hcand : forall j, In j cand <-> (j < length ts0 /\ ~ In j (map fst M))).
      { intro j. unfold cand. rewrite filter_In, in_seq, (li_len _ _ _ _ _ _ _ _ _ I).
        split; intros [H1 H2].
        - split; [lia|]. apply (li_ft _ _ _ _ _ _ _ _ _ I j); auto. lia.
        - split; [lia|]. apply (li_ft _ _ _ _ _ _ _ _ _ I j); auto. }
      pose proof (min_key_in (lt A) key cand) as MK.
      assert (MF : G -> is_first_min (lt A) key cand (min_key (lt A) cand key)).
      { intro g. destruct (HC g) as (P & [C1 C2 C3] & HP & _).
        apply (min_key_first (lt A) key P C1 C2 C3).
        intros i Hi. apply Hcand in Hi. destruct Hi as [Hi1 Hi2].
        unfold key. rewrite Hfree by auto. auto. }
      destruct (min_key (lt A) cand key) as [[ti d]|] eqn:EM.
      2: { exfalso. apply existsb_exists in EF. destruct EF as [b [Hb Eb]].
           subst b. apply In_nth with (d := false) in Hb. destruct Hb as [k [Hk Ek]].
           rewrite (li_lft _ _ _ _ _ _ _ _ _ I) in Hk.
           assert (In k []) as []. rewrite <- MK. apply Hcand. split; auto.
           now apply (li_ft _ _ _ _ _ _ _ _ _ I). }
      destruct MK as [Hti Ed]. apply Hcand in Hti. destruct Hti as [Hti HtiM].
      assert (Ed' : d = gap_ ts0 ti fr p).
      { rewrite Ed. unfold key. now rewrite Hfree by auto. }
      assert (Hmin' : G -> forall j, (j < length ts0)%nat -> ~ In j (map fst M) ->
                lt A (gap_ ts0 j fr p) d = false).
      { intros g j Hj HjM. destruct (MF g) as (l1 & l2 & _ & _ & _ & Hm).
        specialize (Hm j (proj2 (Hcand j) (conj Hj HjM))). unfold key in Hm.
        rewrite Hfree in Hm by auto. exact Hm. }
      assert (Hmin2 : G -> forall j, (j < ti)%nat -> ~ In j (map fst M) ->
                lt A d (gap_ ts0 j fr p) = true).
      { intros g j Hj HjM. destruct (MF g) as (l1 & l2 & El & _ & H1 & _).
        assert (Hin : In j l1).
        { eapply seq_filter_split; eauto.
          - apply (li_ft _ _ _ _ _ _ _ _ _ I j); auto. lia.
          - rewrite (li_len _ _ _ _ _ _ _ _ _ I); lia. }
        specialize (H1 j Hin). unfold key in H1. rewrite Hfree in H1 by auto. exact H1. }
      assert (Hlouder : G -> forall q, In q (map snd M) ->
                 lt A (mag_ fr q) (mag_ fr p) = false).
      { intros g q Hq. apply (HL g q p). { eapply li_done; eauto. } simpl; auto. }
      destruct (lt A d (d_df c (dp_f (nth p fr d_nopeak)))) eqn:ET.
      * destruct (IH (done ++ [p]) ((ti, p) :: M)
                   (upd ti (d_push (nth ti ts d_notrack) (nth p fr d_nopeak)) ts)
                   (upd ti false ft) (upd p false fp) HR' ND' HC HL' HS')
          as (M' & ts' & ft' & fp' & E & I2).
        { destruct I. constructor.
          - now rewrite upd_length.
          - now rewrite upd_length.
          - now rewrite upd_length.
          - destruct MM. constructor; simpl.
            + intros i q [E|Hin]; [injection E as <- <-; lia|eauto].
            + constructor; auto.
            + constructor; auto.
            + intros i q [E|Hin]; [|eauto]. injection E as <- <-.
              rewrite <- Ed'. exact ET.
          - intros q [<-|Hq]; apply in_or_app; simpl; auto.
          - intro i. unfold partner. simpl. destruct (Nat.eqb_spec ti i).
            + subst i. simpl. rewrite nth_upd_eq by lia.
              rewrite Hfree by auto. reflexivity.
            + rewrite nth_upd_neq by auto. exact (li_ts0 i).
          - intros i Hi. simpl. destruct (Nat.eq_dec ti i).
            + subst i. rewrite nth_upd_eq by lia. split; [discriminate|].
              intro Q; exfalso; apply Q; auto.
            + rewrite nth_upd_neq by auto. rewrite li_ft0 by auto.
              split; intros Q; [intros [?|?]; auto|]. intro; apply Q; auto.
          - intros q Hq. simpl. destruct (Nat.eq_dec p q).
            + subst q. rewrite nth_upd_eq by lia. split; [discriminate|].
              intro Q; exfalso; apply Q; auto.
            + rewrite nth_upd_neq by auto. rewrite li_fp0 by auto.
              split; intros Q; [intros [?|?]; auto|]. intro; apply Q; auto.
          - intros g i q j [E|Hin] Hj HD.
            + injection E as <- <-. rewrite <- Ed' in HD.
              destruct (in_dec Nat.eq_dec j (map fst M)) as [Hy|Hn].
              * destruct (fst_in _ _ Hy) as [q Hq]. exists q. split; [now right|].
                apply (Hlouder g). eapply in_snd; eauto.
              * exfalso. destruct HD as [HD|[HD1 HD2]].
                -- rewrite (Hmin' g j Hj Hn) in HD. discriminate.
                -- rewrite (Hmin2 g j HD2 Hn) in HD1. discriminate.
            + destruct (li_near0 g i q j Hin Hj HD) as (q' & Hq' & Hm).
              exists q'. split; auto. now right.
          - intros g q j Hq Hqn Hj HW. simpl in Hqn.
            apply in_app_or in Hq. destruct Hq as [Hq|[<-|[]]].
            + destruct (li_free0 g q j Hq) as (q' & Hq' & Hm); auto.
              exists q'; split; auto. now right.
            + exfalso. apply Hqn. auto. }
        exists M', ts', ft', fp'. rewrite <- app_assoc in I2. auto.
      * apply SK. destruct I. constructor; auto.
        -- intros q Hq. apply in_or_app; auto.
        -- intros g q j Hq Hqn Hj HW.
           apply in_app_or in Hq. destruct Hq as [Hq|[<-|[]]]; [eauto|].
           destruct (in_dec Nat.eq_dec j (map fst M)) as [Hy|Hn].
           ++ destruct (fst_in _ _ Hy) as [q Hq]. exists q. split; auto.
              apply (Hlouder g). eapply in_snd; eauto.
           ++ exfalso. specialize (Hmin' g j Hj Hn).
              destruct (HC g) as (P & [C1 C2 C3] & HP & HT).
              assert (X := C3 _ _ _ (HP j p Hj Hp) (eq_ind_r P (HP ti p Hti Hp) Ed') (HT p Hp) Hmin' ET).
              rewrite X in HW. discriminate.
    + exists M, ts, ft, fp. split; auto. destruct I. constructor; auto.
      * intros q Hq. apply in_or_app; auto.
      * intros g q j Hq Hqn Hj HW.
        apply in_app_or in Hq. destruct Hq as [Hq|Hq]; [eauto|].
        assert (Hy : In j (map fst M)).
        { destruct (in_dec Nat.eq_dec j (map fst M)) as [|Hn]; auto.
          apply li_ft0 in Hn; auto. rewrite existsb_nth_false in Hn by auto. discriminate. }
        destruct (fst_in _ _ Hy) as [q' Hq']. exists q'. split; auto.
        apply (HL g q' q); auto. apply li_done0. eapply in_snd; eauto.
Qed.

Lemma d_loop_inv_init : forall c ts fr G,
  d_loop_inv c ts fr G [] [] ts (repeat true (length ts)) (repeat true (length fr)).
Proof.
  intros. constructor; try rewrite repeat_length; auto; simpl; try tauto.
  - constructor; simpl; try tauto; constructor.
  - intros i Hi. split; auto. intros _. now apply nth_repeat_lt.
  - intros i Hi. split; auto. intros _. now apply nth_repeat_lt.
Qed.

(** ** Deactivation and activation *)

Lemma d_deact_loop_gen : forall (deact : d_deactivator A) f tail ts sv,
  foldM
    (fun st ti =>
       match deact (fst st) (nth ti (snd st) d_notrack) with
       | Ok sv' => Ok (sv', remove_nth ti (snd st))
       | Err e => Err e
       end)
    (sv, ts ++ tail)
    (filter f (rev (seq 0 (length ts)))) =
  do sv' <- foldM deact sv
              (rev (map (fun i => nth i ts d_notrack)
                        (filter f (seq 0 (length ts)))));
  Ok (sv', map (fun i => nth i ts d_notrack)
               (filter (fun i => negb (f i)) (seq 0 (length ts))) ++ tail).
Proof.
  intros deact f tail ts. revert tail. induction ts as [|t ts IH] using rev_ind; intros tail sv.
  - reflexivity.
  - rewrite app_length. simpl. rewrite Nat.add_1_r, seq_S_last, rev_app_distr.
    simpl. rewrite !filter_app. simpl.
    assert (Hmap : forall g, map (fun i => nth i (ts ++ [t]) d_notrack)
        (filter g (seq 0 (length ts))) =
        map (fun i => nth i ts d_notrack) (filter g (seq 0 (length ts)))).
    { intro g. apply map_ext_in. intros a Ha. apply filter_In in Ha. destruct Ha as [Ha _].
      apply in_seq in Ha. apply app_nth1. lia. }
    assert (Hlast : forall tl, nth (length ts) ((ts ++ [t]) ++ tl) d_notrack = t).
    { intro tl. rewrite <- app_assoc. simpl. apply nth_middle. }
    assert (Hlast0 : nth (length ts) (ts ++ [t]) d_notrack = t) by apply nth_middle.
    destruct (f (length ts)) eqn:F; simpl.
    + rewrite !map_app, !Hmap. simpl. rewrite Hlast0, Hlast. rewrite rev_app_distr. simpl.
      rewrite app_nil_r. destruct (deact sv t) eqn:D; simpl; auto.
      rewrite <- app_assoc. simpl. rewrite remove_nth_app.
      apply IH.
    + rewrite !map_app, !Hmap. simpl. rewrite Hlast0. rewrite app_nil_r.
      rewrite <- !app_assoc. simpl. apply IH.
Qed.

Lemma d_deact_loop_spec : forall (deact : d_deactivator A) ft sv ts,
  d_deact_loop deact ft sv ts =
  do sv' <- foldM deact sv
              (rev (map (fun i => nth i ts d_notrack)
                        (filter (fun i => nth i ft false) (seq 0 (length ts)))));
  Ok (sv', map (fun i => nth i ts d_notrack)
               (filter (fun i => negb (nth i ft false)) (seq 0 (length ts)))).
Proof.
  intros. unfold d_deact_loop.
  pose proof (d_deact_loop_gen deact (fun i => nth i ft false) [] ts sv) as H.
  rewrite app_nil_r in H. rewrite H.
  destruct (foldM deact sv _); simpl; auto. now rewrite app_nil_r.
Qed.

Lemma d_activate_loop_spec : forall (c : cfg) n fr ps ts,
  d_activate_loop c n fr ps ts =
  ts ++ map (fun p => d_newborn n (nth p fr d_nopeak))
            (firstn (d_room c (length ts)) ps).
Proof.
  induction ps as [|p ps IH]; intros ts; simpl.
  - rewrite firstn_nil. simpl. now rewrite app_nil_r.
  - destruct (Z.leb_spec (dc_max c) (Z.of_nat (length ts))) as [H|H].
    + unfold d_room. rewrite Z2Nat.inj_sub by lia. rewrite Nat2Z.id.
      replace (Z.to_nat (dc_max c) - length ts)%nat with 0%nat by lia.
      simpl. now rewrite app_nil_r.
    + rewrite IH. rewrite app_length. simpl. rewrite <- app_assoc.
      replace (d_room c (length ts)) with (S (d_room c (length ts + 1)))
        by (unfold d_room; lia).
      reflexivity.
Qed.

(** ** The whole frame *)

Theorem d_step_spec : forall c (act : list track) fr ord,
  Permutation ord (seq 0 (length fr)) ->
  exists M, d_matching c act fr M /\
    (frame_cmp c act fr -> d_sorted fr ord -> d_greedy c act fr M) /\
    forall deact sv0 n,
    d_step c deact (mkDState sv0 act n) (fr, ord) =
    do sv <- foldM deact sv0 (rev (d_dying act M));
    Ok (mkDState sv
          (d_surviving act fr M ++
           d_born c n fr M (length (d_surviving act fr M)))
          (S n)).
Proof.
  intros c act fr ord HP.
  destruct (d_match_loop_spec c act fr (frame_cmp c act fr /\ d_sorted fr ord) ord [] [] act
     (repeat true (length act)) (repeat true (length fr)))
    as (M & ts & ft & fp & E & I).
  - simpl. intros p Hp. apply (Permutation_in _ HP) in Hp. apply in_seq in Hp. lia.
  - simpl. eapply Permutation_NoDup; [apply Permutation_sym; exact HP|apply seq_NoDup].
  - tauto.
  - intros _ ? ? [].
  - intros [_ HS]. exact HS.
  - apply d_loop_inv_init.
  - simpl in I. exists M. pose proof (li_match _ _ _ _ _ _ _ _ _ I) as MM.
    split; [exact MM|]. split.
    + intros g1 g2. constructor.
      * apply (li_near _ _ _ _ _ _ _ _ _ I). auto.
      * intros p j Hp. apply (li_free _ _ _ _ _ _ _ _ _ I); auto.
        apply (Permutation_in _ (Permutation_sym HP)). apply in_seq. lia.
    + assert (HL := li_len _ _ _ _ _ _ _ _ _ I).
      assert (Hft : forall i, In i (seq 0 (length act)) ->
          nth i ft false = match partner M i with Some _ => false | None => true end).
      { intros i Hi. apply in_seq in Hi.
        assert (Hi' : (i < length act)%nat) by lia.
        pose proof (li_ft _ _ _ _ _ _ _ _ _ I i Hi') as Hq.
        destruct (partner M i) eqn:EP.
        - destruct (nth i ft false) eqn:EN; auto. exfalso.
          apply Hq; auto. rewrite partner_some in EP by apply (dm_track_once _ _ _ _ MM).
          eapply in_fst; eauto.
        - apply partner_none in EP. now apply Hq. }
      assert (E1 : map (fun i => nth i ts d_notrack)
           (filter (fun i => nth i ft false) (seq 0 (length ts)))
           = d_dying act M).
      { rewrite HL. unfold d_dying. rewrite <- flat_map_if.
        apply flat_map_ext_in. intros i Hi. rewrite Hft by auto.
        rewrite (li_ts _ _ _ _ _ _ _ _ _ I i). destruct (partner M i); auto. }
      assert (E2 : map (fun i => nth i ts d_notrack)
           (filter (fun i => negb (nth i ft false)) (seq 0 (length ts)))
           = d_surviving act fr M).
      { rewrite HL. unfold d_surviving. rewrite <- flat_map_if.
        apply flat_map_ext_in. intros i Hi. rewrite Hft by auto.
        rewrite (li_ts _ _ _ _ _ _ _ _ _ I i). destruct (partner M i); auto. }
      assert (E3 : filter (fun i => nth i fp false) (seq 0 (length fr))
                   = d_free_peaks fr M).
      { unfold d_free_peaks. apply filter_ext_In. intros p Hp. apply in_seq in Hp.
        assert (Hp' : (p < length fr)%nat) by lia.
        pose proof (li_fp _ _ _ _ _ _ _ _ _ I p Hp') as Hq.
        destruct (existsb (Nat.eqb p) (map snd M)) eqn:EX; simpl.
        - apply existsb_exists in EX. destruct EX as [q [Hin Eq]].
          apply Nat.eqb_eq in Eq. subst q.
          destruct (nth p fp false) eqn:EN; auto. exfalso. now apply Hq.
        - apply Hq. intro Hin.
          assert (existsb (Nat.eqb p) (map snd M) = true); [|congruence].
          apply existsb_exists. exists p. split; auto. apply Nat.eqb_refl. }
      intros deact sv0 n. unfold d_step. cbn [d_active d_saved d_nframe].
      rewrite E. rewrite d_deact_loop_spec, E1, E2, E3.
      destruct (foldM deact sv0 (rev (d_dying act M))); cbn [bind]; auto.
      rewrite d_activate_loop_spec. reflexivity.
Qed.
End Step.
