(** Proofs about the modal tracker. *)
From Coq Require Import String List Arith ZArith QArith Qabs Qround Qfield Lia Lqa Bool Permutation.
Import ListNotations.
From Verif Require Import Base ListLemmas Tracker_Model Tracker_Spec Tracker_Step Tracker_Run.
Local Open Scope nat_scope.
Notation length := List.length.

(** ** Merging *)

Lemma wf_lab : forall hist tl, wit hist tl -> wf_track (fst tl).
Proof.
  intros hist [t lab] (H1 & H2 & H3 & H4 & _). simpl. repeat split; try congruence.
  intro E. rewrite E in H1. destruct lab; simpl in *; congruence.
Qed.

Lemma spliced_len : forall fld ss,
  ss <> [] -> separated ss ->
  (forall s, In s ss -> length (fld s) = length (t_mag s)) ->
  t_start (hd no_track ss) + length (spliced fld ss) =
  t_start (last ss no_track) + length (fld (last ss no_track)).
Proof.
  intros fld. induction ss as [|s [|s' ss] IH]; intros NE SE HL; [congruence| |].
  - simpl. now rewrite map_length.
  - destruct SE as [S1 S2].
    assert (IH' := IH ltac:(discriminate) S2 (fun x Hx => HL x (or_intror Hx))).
    change (last (s :: s' :: ss) no_track) with (last (s' :: ss) no_track).
    rewrite <- IH'. simpl hd.
    change (spliced fld (s :: s' :: ss)) with
      (map Some (fld s) ++ repeat None (t_start s' - (t_start s + length (fld s)))
        ++ spliced fld (s' :: ss)).
    rewrite !app_length, map_length, repeat_length.
    rewrite (HL s) by (left; auto). lia.
Qed.

Lemma spliced_snoc : forall fld t ss, ss <> [] ->
  spliced fld (ss ++ [t]) =
  spliced fld ss ++
  repeat None (t_start t - (t_start (last ss no_track) + length (fld (last ss no_track))))
  ++ map Some (fld t).
Proof.
  intros fld t. induction ss as [|s [|s' ss] IH]; intro NE; [congruence| |].
  - reflexivity.
  - change (last (s :: s' :: ss) no_track) with (last (s' :: ss) no_track).
    change ((s :: s' :: ss) ++ [t]) with (s :: (s' :: ss) ++ [t]).
    assert (IH' := IH ltac:(discriminate)).
    change (spliced fld (s :: (s' :: ss) ++ [t])) with
      (map Some (fld s) ++ repeat None (t_start s' - (t_start s + length (fld s)))
        ++ spliced fld ((s' :: ss) ++ [t])).
    rewrite IH'.
    change (spliced fld (s :: s' :: ss)) with
      (map Some (fld s) ++ repeat None (t_start s' - (t_start s + length (fld s)))
        ++ spliced fld (s' :: ss)).
    now rewrite <- !app_assoc.
Qed.

Lemma separated_snoc : forall t ss, ss <> [] -> separated ss ->
  (t_start (last ss no_track) + length (t_mag (last ss no_track)) < t_start t) ->
  separated (ss ++ [t]).
Proof.
  intros t. induction ss as [|s [|s' ss] IH]; intros NE SE H; [congruence| |].
  - simpl. auto.
  - destruct SE as [S1 S2]. change (separated ((s :: s' :: ss) ++ [t])) with
      (t_start s + length (t_mag s) < t_start s' /\ separated ((s' :: ss) ++ [t])).
    split; auto. apply IH; auto. discriminate.
Qed.

Lemma last_In : forall A (l : list A) d, l <> [] -> In (last l d) l.
Proof.
  induction l as [|a [|b l] IH]; intros d NE; [congruence|simpl; auto|].
  right. apply (IH d). discriminate.
Qed.

Lemma made_of_glue : forall u ss t,
  made_of u ss -> Forall wf_track ss -> wf_track t ->
  s_start u + length (s_mag u) < t_start t ->
  made_of (glue1 u (numpy_track t)) (ss ++ [t]).
Proof.
  intros u ss t (NE & SE & H0 & H1 & H2 & H3) W Wt HE.
  rewrite Forall_forall in W.
  assert (Lm := spliced_len t_mag ss NE SE (fun s _ => eq_refl)).
  assert (HE2 : t_start (last ss no_track) + length (t_mag (last ss no_track)) < t_start t).
  { rewrite <- Lm. rewrite <- H0, <- H2. lia. }
  assert (Hl := last_In _ ss no_track NE). pose proof (W _ Hl) as (_ & W2 & W3).
  assert (Epad : s_start (numpy_track t) - s_start u - length (s_mag u) =
     t_start t - (t_start (last ss no_track) + length (t_mag (last ss no_track)))).
  { rewrite <- Lm, <- H0, <- H2. simpl. lia. }
  unfold glue1. rewrite Epad. unfold made_of. simpl.
  split. { destruct ss; discriminate. }
  split. { apply separated_snoc; auto. }
  split. { rewrite H0. destruct ss; [congruence|reflexivity]. }
  rewrite !spliced_snoc by auto. rewrite <- H1, <- H2, <- H3. rewrite W3, <- W2. auto.
Qed.

Lemma modal_deact_cases : forall m sv t sv', modal_deact m sv t = Ok sv' ->
  (modal_ok m t = false /\ sv' = sv) \/
  (modal_ok m t = true /\ sv' = sv ++ [numpy_track t]) \/
  (modal_ok m t = true /\ exists i, i < length sv /\
     s_start (nth i sv no_strack) + length (s_mag (nth i sv no_strack)) < t_start t /\
     sv' = upd i (glue1 (nth i sv no_strack) (numpy_track t)) sv).
Proof.
  intros m sv t sv' H. unfold modal_deact in H.
  destruct (modal_ok m t); [|left; split; congruence].
  destruct (freq_diff_function m) as [diff|]; [|discriminate].
  assert (F : forall i d, min_key nan_ltb
      (filter (fun i => s_start (nth i sv no_strack) + length (s_mag (nth i sv no_strack)) <? s_start (numpy_track t))
         (seq 0 (length sv)))
      (fun i => diff (nth i sv no_strack) (numpy_track t)) = Some (i, d) ->
     i < length sv /\ s_start (nth i sv no_strack) + length (s_mag (nth i sv no_strack)) < t_start t).
  { set (l := filter _ _). set (key := fun i => _).
    intros i d Hk.
    assert (G : forall l2 acc r, (match acc with Some (j, _) => In j l | None => True end) ->
       (forall j, In j l2 -> In j l) ->
       fold_left (fun acc i => let x := key i in match acc with None => Some (i, x)
          | Some (_, x_) => if nan_ltb x x_ then Some (i, x) else acc end) l2 acc = Some r ->
       In (fst r) l).
    { induction l2 as [|a l2 IH]; simpl; intros acc r Ha HI E.
      - subst acc. destruct r; auto.
      - eapply IH; [| |exact E].
        + destruct acc as [[j x]|]; [destruct (nan_ltb (key a) x)|]; auto.
        + auto. }
    specialize (G l None (i, d) Logic.I (fun j Hj => Hj) Hk). simpl in G.
    unfold l in G. apply filter_In in G. destruct G as [G1 G2].
    apply in_seq in G1. apply Nat.ltb_lt in G2. simpl in G2. split; [lia|exact G2]. }
  destruct (min_key nan_ltb _ _) as [[i d]|] eqn:EM.
  - destruct (F i d eq_refl) as [F1 F2].
    destruct (nan_ltb d _).
    + right. right. split; auto. exists i. split; auto. split; auto. congruence.
    + right. left. split; congruence.
  - right. left. split; congruence.
Qed.

Lemma Forall2_upd : forall A B (R : A -> B -> Prop) l l' i a b dA dB,
  Forall2 R l l' -> i < length l -> (R (nth i l dA) (nth i l' dB) -> R a b) ->
  Forall2 R (upd i a l) (upd i b l').
Proof.
  intros A B R l l' i a b dA dB H. revert i. induction H; intros i Hi HR; simpl in *; [lia|].
  destruct i; constructor; auto. apply IHForall2; auto. lia.
Qed.

Lemma Forall2_nth' : forall A B (R : A -> B -> Prop) l l' i dA dB,
  Forall2 R l l' -> i < length l -> R (nth i l dA) (nth i l' dB).
Proof.
  intros A B R l l' i dA dB H. revert i. induction H; simpl; intros; [lia|].
  destruct i; auto. apply IHForall2. lia.
Qed.

Lemma concat_upd_snoc : forall A (g : list (list A)) i a, i < length g ->
  Permutation (concat (upd i (nth i g [] ++ [a]) g)) (concat g ++ [a]).
Proof.
  induction g as [|x g IH]; simpl; intros i a Hi; [lia|]. destruct i; simpl.
  - rewrite <- !app_assoc. apply Permutation_app_head. apply Permutation_app_comm.
  - rewrite <- app_assoc. apply Permutation_app_head. apply IH. lia.
Qed.

Lemma filter_snoc : forall A (f : A -> bool) l a,
  filter f (l ++ [a]) = filter f l ++ (if f a then [a] else []).
Proof. intros. rewrite filter_app. simpl. destruct (f a); auto. Qed.

Lemma map_upd : forall A B (f : A -> B) l i a, map f (upd i a l) = upd i (f a) (map f l).
Proof. induction l; destruct i; simpl; intros; congruence. Qed.

Lemma grouping : forall X m (E : list (track * X)) sv,
  Forall (fun tx => wf_track (fst tx)) E ->
  foldM (modal_deact m) [] (map fst E) = Ok sv ->
  exists groups : list (list (track * X)),
    Forall2 (fun t g => made_of t (map fst g)) sv groups /\
    Permutation (concat groups) (filter (fun tx => modal_ok m (fst tx)) E).
Proof.
  intros X m E. induction E as [|[t x] E IH] using rev_ind; intros sv W H.
  - simpl in H. injection H as <-. exists []. split; constructor.
  - apply Forall_app in W. destruct W as [W Wt]. inversion Wt as [|? ? Wt' _]; subst. simpl in Wt'.
    rewrite map_app, foldM_app in H.
    destruct (foldM (modal_deact m) [] (map fst E)) as [sv0|] eqn:E0; [|discriminate].
    simpl in H. destruct (modal_deact m sv0 t) as [sv1|] eqn:E1; [|discriminate].
    injection H as <-.
    destruct (IH sv0 W eq_refl) as (g & F & P). clear IH.
    rewrite filter_snoc. simpl.
    destruct (modal_deact_cases _ _ _ _ E1) as [[O ->]|[[O ->]|(O & i & Hi & He & ->)]]; rewrite O.
    + exists g. rewrite app_nil_r. auto.
    + exists (g ++ [[(t, x)]]). split.
      * apply Forall2_app; auto. constructor; [|constructor]. simpl.
        repeat split; auto; discriminate.
      * rewrite concat_app. simpl. now apply Permutation_app_tail.
    + exists (upd i (nth i g [] ++ [(t, x)]) g). 
      pose proof (Forall2_length' _ _ _ _ _ F) as HL.
      split.
      * eapply Forall2_upd with (dA := no_strack) (dB := []); eauto.
        intro Hm. rewrite map_app. simpl. apply made_of_glue; auto.
        apply Forall_forall. intros s Hs. apply in_map_iff in Hs. destruct Hs as (tx & <- & Htx).
        rewrite Forall_forall in W. apply W.
        assert (Hc : In tx (concat g)).
        { apply in_concat. exists (nth i g []). split; auto. apply nth_In. lia. }
        apply (Permutation_in _ P) in Hc. apply filter_In in Hc. tauto.
      * rewrite concat_upd_snoc by lia. now apply Permutation_app_tail.
Qed.

(** ** Least squares *)

Local Open Scope Q_scope.

Lemma Qsum_ext : forall A (f g : A -> Q) l, (forall a, In a l -> f a == g a) ->
  Qsum (map f l) == Qsum (map g l).
Proof.
  induction l; simpl; intros; [reflexivity|].
  rewrite H by auto. rewrite IHl by auto. reflexivity.
Qed.

Lemma Qsum_plus : forall A (f g : A -> Q) l,
  Qsum (map (fun a => f a + g a) l) == Qsum (map f l) + Qsum (map g l).
Proof. induction l; simpl; [reflexivity|]. rewrite IHl. ring. Qed.

Lemma Qsum_scale : forall A (f : A -> Q) k l,
  Qsum (map (fun a => k * f a) l) == k * Qsum (map f l).
Proof. induction l; simpl; [ring|]. rewrite IHl. ring. Qed.

Lemma Qsum_const : forall A (k : Q) (l : list A),
  Qsum (map (fun _ => k) l) == k * Qlen l.
Proof.
  induction l; unfold Qlen in *; simpl List.length.
  - simpl. ring.
  - simpl map. simpl Qsum. rewrite IHl.
    rewrite Nat2Z.inj_succ. unfold Z.succ. rewrite inject_Z_plus. ring.
Qed.

Lemma combine_fst : forall A B (xs : list A) (ys : list B), length xs = length ys ->
  map fst (combine xs ys) = xs.
Proof. induction xs; destruct ys; simpl; intros; try discriminate; auto. f_equal; auto. Qed.
Lemma combine_snd : forall A B (xs : list A) (ys : list B), length xs = length ys ->
  map snd (combine xs ys) = ys.
Proof. induction xs; destruct ys; simpl; intros; try discriminate; auto. f_equal; auto. Qed.

Section OLS.
  Variables (xs ys : list Q).
  Hypothesis HL : length xs = length ys.
  Hypothesis HN : xs <> [].
  Let n := Qlen xs.
  Let l := combine xs ys.
  Let Sx := Qsum xs.
  Let Sy := Qsum ys.
  Let Sxx := Qsum (map (fun xy => fst xy * fst xy) l).
  Let Sxy := Qsum (map (fun xy => fst xy * snd xy) l).
  Let Syy := Qsum (map (fun xy => snd xy * snd xy) l).

  Lemma n_pos : 0 < n.
  Proof.
    unfold n, Qlen. destruct xs; [congruence|]. simpl List.length.
    unfold Qlt, inject_Z. simpl. lia.
  Qed.

  Lemma Sx_l : Sx == Qsum (map fst l).
  Proof. unfold Sx, l. rewrite combine_fst by auto. reflexivity. Qed.
  Lemma Sy_l : Sy == Qsum (map snd l).
  Proof. unfold Sy, l. rewrite combine_snd by auto. reflexivity. Qed.
  Lemma n_l : n == Qlen l.
  Proof. unfold n, Qlen, l. rewrite combine_length, <- HL, Nat.min_id. reflexivity. Qed.

  Lemma ssr_expand : forall k q, ssr xs ys k q ==
    Syy - 2 * k * Sxy - 2 * q * Sy + k * k * Sxx + 2 * k * q * Sx + q * q * n.
  Proof.
    intros k q. rewrite Sx_l, Sy_l, n_l. unfold ssr. change (fold_right Qplus 0) with Qsum.
    fold l. unfold Sxx, Sxy, Syy. clear.
    induction l as [|[x y] l' IH]; cbn [map Qsum fold_right fst snd].
    - unfold Qlen. simpl. ring.
    - unfold Qlen in *. change (fold_right Qplus 0) with Qsum in *. rewrite IH. simpl List.length.
      rewrite Nat2Z.inj_succ. unfold Z.succ. rewrite inject_Z_plus. ring.
  Qed.

  Lemma mean_x : Qmean xs == Sx / n. Proof. reflexivity. Qed.
  Lemma mean_y : Qmean ys == Sy / n.
  Proof. unfold Qmean, Sy, n, Qlen. now rewrite HL. Qed.

  Let cxx := Qsum (map (fun x => (x - Qmean xs) * (x - Qmean xs)) xs).
  Let cxy := Qsum (map (fun xy => (fst xy - Qmean xs) * (snd xy - Qmean ys)) l).

  Lemma cxx_raw : cxx == Sxx - Sx * Sx / n.
  Proof.
    unfold cxx, Sxx.
    assert (E : Qsum (map (fun x => (x - Qmean xs) * (x - Qmean xs)) xs) ==
       Qsum (map (fun xy => fst xy * fst xy + ((-(2) * (Sx / n)) * fst xy + (Sx / n) * (Sx / n))) l)).
    { transitivity (Qsum (map (fun x => (x - Qmean xs) * (x - Qmean xs)) (map fst l))).
      - unfold l. rewrite combine_fst by auto. reflexivity.
      - rewrite map_map. apply Qsum_ext. intros. rewrite mean_x. ring. }
    rewrite E. rewrite Qsum_plus, Qsum_plus, Qsum_scale, Qsum_const.
    rewrite <- Sx_l, <- n_l. field. pose proof n_pos. lra.
  Qed.

  Lemma cxy_raw : cxy == Sxy - Sx * Sy / n.
  Proof.
    unfold cxy, Sxy.
    assert (E : Qsum (map (fun xy => (fst xy - Qmean xs) * (snd xy - Qmean ys)) l) ==
       Qsum (map (fun xy => fst xy * snd xy + ((-(Sy / n)) * fst xy + ((-(Sx / n)) * snd xy + (Sx / n) * (Sy / n)))) l)).
    { apply Qsum_ext. intros. rewrite mean_x, mean_y. ring. }
    rewrite E. rewrite !Qsum_plus, !Qsum_scale, Qsum_const.
    rewrite <- Sx_l, <- n_l, <- Sy_l. field. pose proof n_pos. lra.
  Qed.

  Hypothesis HX : 0 < cxx.

  Let k0 := ols_coef xs ys.
  Let q0 := ols_intercept xs ys.

  Lemma k0_eq : k0 == cxy / cxx. Proof. reflexivity. Qed.
  Lemma q0_eq : q0 == Sy / n - (cxy / cxx) * (Sx / n).
  Proof. unfold q0, ols_intercept. rewrite mean_y, mean_x. reflexivity. Qed.

  Lemma ssr_decomp : forall k q, ssr xs ys k q ==
    ssr xs ys k0 q0 + cxx * ((k - k0) * (k - k0))
    + n * ((q - q0 + (k - k0) * (Sx / n)) * (q - q0 + (k - k0) * (Sx / n))).
  Proof.
    intros k q. rewrite !ssr_expand. rewrite q0_eq, k0_eq.
    pose proof n_pos as Hn.
    assert (Exx : Sxx == cxx + Sx * Sx / n) by (rewrite cxx_raw; ring).
    assert (Exy : Sxy == cxy + Sx * Sy / n) by (rewrite cxy_raw; ring).
    rewrite Exx, Exy. clearbody cxx cxy Sx Sy Syy n. clear -Hn HX.
    field. split; lra.
  Qed.

  Lemma sq_nonneg : forall a : Q, 0 <= a * a.
  Proof. intro a. nra. Qed.

  Lemma ols_is_min : least_squares_line xs ys k0 q0.
  Proof.
    intros k q. rewrite (ssr_decomp k q).
    pose proof (sq_nonneg (k - k0)). pose proof (sq_nonneg (q - q0 + (k - k0) * (Sx / n))).
    pose proof n_pos.
    assert (0 <= cxx * ((k - k0) * (k - k0))) by (apply Qmult_le_0_compat; lra).
    assert (0 <= n * ((q - q0 + (k - k0) * (Sx / n)) * (q - q0 + (k - k0) * (Sx / n))))
      by (apply Qmult_le_0_compat; lra).
    lra.
  Qed.

  Lemma ols_unique : forall k q, least_squares_line xs ys k q -> k == k0 /\ q == q0.
  Proof.
    intros k q H. specialize (H k0 q0). rewrite (ssr_decomp k q) in H.
    pose proof (sq_nonneg (k - k0)) as A. pose proof (sq_nonneg (q - q0 + (k - k0) * (Sx / n))) as B.
    pose proof n_pos as Hn.
    assert (HA : 0 <= cxx * ((k - k0) * (k - k0))) by (apply Qmult_le_0_compat; lra).
    assert (HB : 0 <= n * ((q - q0 + (k - k0) * (Sx / n)) * (q - q0 + (k - k0) * (Sx / n))))
      by (apply Qmult_le_0_compat; lra).
    assert (Z1 : cxx * ((k - k0) * (k - k0)) == 0) by lra.
    assert (Z2 : n * ((q - q0 + (k - k0) * (Sx / n)) * (q - q0 + (k - k0) * (Sx / n))) == 0) by lra.
    apply Qmult_integral in Z1. destruct Z1 as [Z1|Z1]; [lra|].
    assert (K : k - k0 == 0) by (apply Qmult_integral in Z1; tauto).
    apply Qmult_integral in Z2. destruct Z2 as [Z2|Z2]; [lra|].
    rewrite K in Z2. ring_simplify in Z2.
    split; [lra|].
    assert (D : (q - q0) * (q - q0) == 0) by (rewrite <- Z2; ring).
    apply Qmult_integral in D. destruct D; lra.
  Qed.
End OLS.

Lemma lm_x_playback : forall r n, lm_x r n = playback r n.
Proof.
  intros r n. unfold lm_x, playback. destruct r.
  - rewrite <- map_rev.
    assert (E : rev (seq 0 n) = map (fun i => (n - 1 - i)%nat) (seq 0 n)).
    { induction n; auto. rewrite seq_S_last at 1. rewrite rev_app_distr. simpl rev.
      rewrite IHn. simpl. f_equal; [lia|]. rewrite <- seq_shift, map_map.
      apply map_ext_in. intros a Ha. apply in_seq in Ha. lia. }
    rewrite E, map_map. reflexivity.
  - reflexivity.
Qed.

Lemma playback_len : forall r n, length (playback r n) = n.
Proof. intros. unfold playback. now rewrite map_length, seq_length. Qed.

Lemma Qsum_nonneg : forall l, (forall x, In x l -> 0 <= x) -> 0 <= Qsum l.
Proof.
  induction l; simpl; intros; [lra|].
  pose proof (H a (or_introl eq_refl)). assert (0 <= Qsum l) by auto. lra.
Qed.

Lemma Qsum_pos_two : forall l x, (forall x, In x l -> 0 <= x) -> In x l -> 0 < x -> 0 < Qsum l.
Proof.
  induction l; simpl; intros x H Hin Hx; [tauto|].
  pose proof (H a (or_introl eq_refl)).
  assert (0 <= Qsum l) by (apply Qsum_nonneg; auto).
  destruct Hin as [->|Hin]; [lra|]. specialize (IHl x (fun y Hy => H y (or_intror Hy)) Hin Hx). lra.
Qed.

Lemma playback_var : forall r n, (2 <= n)%nat ->
  0 < Qsum (map (fun x => (x - Qmean (playback r n)) * (x - Qmean (playback r n))) (playback r n)).
Proof.
  intros r n Hn. set (mu := Qmean (playback r n)).
  assert (H01 : In 0 (playback r n) /\ In 1 (playback r n)).
  { unfold playback. split; apply in_map_iff.
    - exists (if r then n - 1 else 0)%nat. split.
      + destruct r; [replace (n - 1 - (n - 1))%nat with 0%nat by lia|]; reflexivity.
      + apply in_seq. destruct r; lia.
    - exists (if r then n - 2 else 1)%nat. split.
      + destruct r; [replace (n - 1 - (n - 2))%nat with 1%nat by lia|]; reflexivity.
      + apply in_seq. destruct r; lia. }
  destruct H01 as [H0 H1].
  set (g := fun x => (x - mu) * (x - mu)).
  assert (NN : forall x, In x (map g (playback r n)) -> 0 <= x).
  { intros x Hx. apply in_map_iff in Hx. destruct Hx as (y & <- & _). unfold g. apply sq_nonneg. }
  destruct (Qlt_le_dec 0 (g 0)) as [P|P].
  - eapply Qsum_pos_two; [exact NN|apply in_map; exact H0|exact P].
  - eapply Qsum_pos_two with (x := g 1); [exact NN|apply in_map; exact H1|].
    assert (Z : g 0 == 0).
    { assert (0 <= g 0) by (apply NN; now apply in_map). lra. }
    unfold g in *. assert (mu == 0).
    { assert (D : mu * mu == 0) by (rewrite <- Z; ring).
      apply Qmult_integral in D. tauto. }
    rewrite H. lra.
Qed.

Lemma Qceiling_le_iff : forall x z, (Qceiling x <= z)%Z <-> x <= inject_Z z.
Proof.
  intros. split; intro H.
  - eapply Qle_trans; [apply Qle_ceiling|]. rewrite <- Zle_Qle. exact H.
  - rewrite <- (Qceiling_Z z). apply Qceiling_resp_le. exact H.
Qed.

Lemma sine_ok_iff : forall c t, sine_ok c t = true <->
  (2 <= length (t_freq t))%nat /\
  c_dur c * (c_fs c / inject_Z (Zpos (c_h c))) <= inject_Z (Z.of_nat (length (t_freq t))).
Proof.
  intros. unfold sine_ok, min_sine_len, frame_rate. rewrite Z.leb_le, Z.max_lub_iff.
  rewrite Qceiling_le_iff. intuition lia.
Qed.

Lemma modal_ok_iff : forall m t, wf_track t -> (modal_ok m t = true <-> meets_criteria m t).
Proof.
  intros m t (W1 & W2 & W3). unfold modal_ok, meets_criteria.
  destruct (sine_ok (m_base m) t) eqn:S; simpl negb; cbv iota.
  2: { split; [discriminate|]. intros (C1 & C2 & _). exfalso.
       assert (sine_ok (m_base m) t = true) by (apply sine_ok_iff; auto). congruence. }
  apply sine_ok_iff in S. destruct S as [S1 S2].
  rewrite lm_x_playback. rewrite W2.
  change Qmean with mean.
  set (mf := mean (t_freq t)). set (n := length (t_freq t)).
  assert (HL : length (playback (m_rev m) n) = length (t_mag t)) by (rewrite playback_len; auto).
  assert (HN : playback (m_rev m) n <> []).
  { intro E. apply (f_equal (@List.length Q)) in E. rewrite playback_len in E. simpl in E. unfold n in E. lia. }
  assert (HX := playback_var (m_rev m) n S1).
  assert (OM := ols_is_min _ _ HL HN HX). assert (OU := ols_unique _ _ HL HN HX).
  set (k0 := ols_coef _ _) in *. set (q0 := ols_intercept _ _) in *.
  assert (B1 : (match m_fmin m with Some b => Qltb mf b | None => false end) = false <->
     (forall b, m_fmin m = Some b -> b <= mf)).
  { destruct (m_fmin m) as [b|].
    - rewrite Qltb_false. split; intros H; [intros b0 E; injection E as <-; auto|auto].
    - split; auto. intros _ b E; discriminate. }
  assert (B2 : (match m_fmax m with Some b => Qltb b mf | None => false end) = false <->
     (forall b, m_fmax m = Some b -> mf <= b)).
  { destruct (m_fmax m) as [b|].
    - rewrite Qltb_false. split; intros H; [intros b0 E; injection E as <-; auto|auto].
    - split; auto. intros _ b E; discriminate. }
  destruct (match m_fmin m with Some b => Qltb mf b | None => false end).
  { split; [discriminate|]. intros (_ & _ & C & _). apply B1 in C. discriminate. }
  destruct (match m_fmax m with Some b => Qltb b mf | None => false end).
  { split; [discriminate|]. intros (_ & _ & _ & C & _). apply B2 in C. discriminate. }
  destruct (Qltb 0 k0) eqn:EK.
  { split; [discriminate|]. intros (_ & _ & _ & _ & k & q & L & K & T).
    destruct (OU k q L) as [EK' _]. apply Qltb_true in EK. exfalso. lra. }
  destruct (Qltb q0 (m_thr m)) eqn:EQ.
  { split; [discriminate|]. intros (_ & _ & _ & _ & k & q & L & K & T).
    destruct (OU k q L) as [_ EQ']. apply Qltb_true in EQ. exfalso. lra. }
  split; [intros _|auto].
  apply Qltb_false in EK. apply Qltb_false in EQ.
  split; auto. split; auto. split; [apply B1; auto|]. split; [apply B2; auto|].
  exists k0, q0. auto.
Qed.
