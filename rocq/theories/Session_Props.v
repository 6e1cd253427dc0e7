(** C74: what is played and saved as resynthesis.
    C75: one analysis at a time.
    C76: loading audio.
    C77: reloading the GUI.
    C78: launching the GUI. *)
From Coq Require Import String Ascii List Bool ZArith QArith Qabs Floats.SpecFloat Lia Psatz Lqa.
Import ListNotations.
From Verif Require Import Base Py PyLemmas ListLemmas Dict Gui_Model Gui_Props Changelog_Model Session_Model Session_Proofs.
Local Open Scope list_scope.
Local Open Scope Z_scope.

(** ** C74 *)

(** [w] is the number from -1 to 1 that is nearest to [v]; NaN stays. *)
Definition clamped (v w : pfloat) : Prop :=
  match v with
  | PNan => w = PNan
  | PInf pos => exists r, w = PFin r /\ (r == if pos then 1 else -1)%Q
  | PFin q => exists r, w = PFin r /\ (-1 <= r <= 1)%Q /\ forall t, (-1 <= t <= 1 -> Qabs (r - q) <= Qabs (t - q))%Q
  end.
(** Samples of an array or of a number. *)
Definition samples (a : arr) : list pfloat := match a with Arr x => x | Num v => [v] end.
(** The times of [n] samples at the rate [sr]. *)
Definition axis (n : nat) (sr : Z) (t : list Q) : Prop :=
  List.length t = n /\ forall k, (k < n)%nat -> (nth k t 0 == inject_Z (Z.of_nat k) / inject_Z sr)%Q.
(** The resynthesis of [n] samples at the rate [sr] for the parameters [p]. *)
Definition resynthesis {K P J} (L : lib K P J) (p : P) (n : nat) (sr : Z) (y : arr) : Prop :=
  exists t, axis n sr t /\ Forall2 clamped (l_predict L p t) (samples y).

Lemma times_axis : forall n sr, axis n sr (times n sr).
Proof.
  intros n sr. unfold axis, times. rewrite map_length, seq_length. split; [reflexivity|]. intros k H.
  rewrite (nth_map_lt _ _ _ 0%nat 0%Q) by now rewrite seq_length.
  rewrite seq_nth by exact H. reflexivity.
Qed.
Lemma clip1_clamped : forall v, clamped v (clip1 v).
Proof.
  intros [q|[|]|]; unfold clip1, clamped; cbn [p_lt pz].
  - destruct (Qltb q (inject_Z (-1))) eqn:A.
    + apply Qltb_true in A. change (inject_Z (-1)) with (-1)%Q in *. exists (-1)%Q. split; [reflexivity|]. split; [lra|]. intros t Ht.
      rewrite !Qabs_pos by lra. lra.
    + apply Qltb_false in A. change (inject_Z (-1)) with (-1)%Q in A. destruct (Qltb (inject_Z 1) q) eqn:B.
      * apply Qltb_true in B. change (inject_Z 1) with 1%Q in *. exists 1%Q. split; [reflexivity|]. split; [lra|]. intros t Ht.
        rewrite !Qabs_neg by lra. lra.
      * apply Qltb_false in B. change (inject_Z 1) with 1%Q in B. exists q. split; [reflexivity|]. split; [lra|]. intros t Ht.
        setoid_replace (q - q)%Q with 0%Q by lra. apply Qabs_nonneg.
  - exists 1%Q. split; [reflexivity|lra].
  - exists (-1)%Q. split; [reflexivity|lra].
  - reflexivity.
Qed.
Lemma clip_clamped : forall l, Forall2 clamped l (samples (clip (squeeze l))).
Proof.
  assert (H : forall l, Forall2 clamped l (map clip1 l)) by (induction l; constructor; auto using clip1_clamped).
  intros [|v [|w l]]; [constructor|constructor; [apply clip1_clamped|constructor]|exact (H (v :: w :: l))].
Qed.
Lemma resynth_spec : forall K P J (L : lib K P J) s p st n sr, r_obj s = Some (Some p, st) ->
  exists y, resynth L s n sr = Ok y /\ resynthesis L p n sr y.
Proof.
  intros K P J L s p st n sr E. unfold resynth. rewrite E. eexists. split; [reflexivity|]. exists (times n sr).
  split; [apply times_axis|apply clip_clamped].
Qed.

(** The sounds of a session that are resynthesis come from an analysis. *)
Section Sounds.
  Context {K P J : Type} (L : lib K P J).
  Definition analysed (p : P) : Prop := exists kw sr x, l_fit L kw sr x = Fitted p.
  Definition some_resynthesis (y : arr) : Prop := exists p n sr, analysed p /\ resynthesis L p n sr y.
  Definition sound_state (s : root K P) : Prop :=
    (forall p st, r_obj s = Some (Some p, st) -> analysed p) /\ (forall y, r_res s = Some y -> some_resynthesis y).
  Definition sound_obs (o : obs J) : Prop := match o with SaveWav _ _ y => some_resynthesis y | _ => True end.

  Lemma resynth_sound : forall s n sr y, sound_state s -> resynth L s n sr = Ok y -> some_resynthesis y.
  Proof.
    intros s n sr y [H _] E. destruct (r_obj s) as [[[p|] st]|] eqn:O; try (unfold resynth in E; rewrite O in E; discriminate).
    destruct (resynth_spec _ _ _ L s p st n sr O) as (y' & E' & R). assert (y' = y) by congruence. subst y'. exists p, n, sr. split; [now apply (H p st)|exact R].
  Qed.
  Lemma get_audio_sound : forall s, sound_state s -> sound_state (fst (fst (get_audio L s true))) /\
    Forall sound_obs (snd (fst (get_audio L s true))) /\ forall y sr, snd (get_audio L s true) = Some (y, sr) -> some_resynthesis y.
  Proof.
    intros s H. unfold get_audio. destruct (region s) as [[x sr]|]; [|cbn; repeat split; try apply H; repeat constructor; discriminate]. cbn [negb].
    destruct (r_res s) as [y|] eqn:R.
    - cbn. repeat split; try apply H; [constructor|]. intros y' sr' E. injection E as <- <-. now apply H.
    - destruct (resynth L s (List.length x) sr) as [y|e] eqn:E.
      + assert (Y := resynth_sound _ _ _ _ H E). cbn. repeat split; try apply H; [|constructor|].
        * intros y' E'. injection E' as <-. exact Y.
        * intros y' sr' E'. injection E' as <- <-. exact Y.
      + cbn. repeat split; try apply H; [intros; discriminate|repeat constructor|intros; discriminate].
  Qed.
  Lemma update_sound : forall s, sound_state s -> sound_state (fst (update_plot L s)) /\ Forall sound_obs (snd (update_plot L s)).
  Proof.
    intros s H. assert (X : forall o, sound_obs o -> sound_state s /\ Forall sound_obs [o]) by (intros; split; [exact H|constructor; auto]).
    unfold update_plot. destruct (r_obj s) as [[[p|] st]|] eqn:O; try (apply X; exact I); try (destruct st; apply X; exact I).
    destruct (region s) as [[x sr]|]; [|apply X; exact I]. destruct (r_res s); [apply X; exact I|].
    destruct (resynth L s (List.length x) sr) as [y|e] eqn:E; [|apply X; exact I].
    assert (Y := resynth_sound _ _ _ _ H E). cbn [fst snd]. split; [|constructor; [exact I|constructor]].
    split; [exact (proj1 H)|]. cbn. intros y' E'. injection E' as <-. exact Y.
  Qed.
  Lemma same_sound : forall s s' : root K P, r_obj s' = r_obj s -> r_res s' = r_res s -> sound_state s -> sound_state s'.
  Proof. intros s s' E1 E2 [H1 H2]. split; [now rewrite E1|now rewrite E2]. Qed.

  Lemma run_sound' : forall l, Forall (fun e => forall s, sound_state s -> sound_state (fst (step L e s)) /\ Forall sound_obs (snd (step L e s))) l ->
    forall s, sound_state s -> sound_state (fst (run L l s)) /\ Forall sound_obs (snd (run L l s)).
  Proof.
    induction 1 as [|e l He Hl IH]; intros s H; [split; [exact H|constructor]|]. cbn [run]. destruct (He s H) as [H1 O1].
    destruct (step L e s) as [s1 o1]. cbn [fst snd] in *. destruct (IH s1 H1) as [H2 O2]. destruct (run L l s1) as [s2 o2]. cbn [fst snd] in *.
    split; [exact H2|]. apply Forall_app. auto.
  Qed.
  Lemma step_sound : forall e s, sound_state s -> sound_state (fst (step L e s)) /\ Forall sound_obs (snd (step L e s)).
  Proof.
    induction e as [f c|g|kw|d IH| |o|f err|f err] using event_ind'; intros s H.
    - cbn [step]. unfold load_cbk. destruct f as [f|]; [|split; [exact H|constructor]].
      destruct c as [[sr w]|e]; [|split; [exact H|repeat constructor]]. destruct (read_samples w) as [x|e]; [|split; [exact H|repeat constructor]].
      destruct (gstep _ _) as [t [e|]]; (split; [exact H|repeat constructor]).
    - cbn [step]. unfold trim_cbk. destruct g; try (split; [exact H|constructor]); destruct (gstep _ _) as [t' [e'|]]; (split; [exact H|repeat constructor]).
    - split; [exact H|constructor].
    - rewrite step_analyse. destruct (region s) as [[x sr]|]; [|split; [exact H|repeat constructor]].
      destruct (r_lock s); [split; [exact H|repeat constructor]|].
      assert (A : sound_state (fst (analysis L d (with_lock s true) x sr)) /\ Forall sound_obs (snd (analysis L d (with_lock s true) x sr))).
      { unfold analysis. destruct (l_build L _ sr); [split; [exact H|repeat constructor]|]. unfold fitting.
        destruct (run_sound' d IH (with_obj (with_lock s true) (Some (None, false)))) as [H1 O1].
        { split; [cbn; discriminate|exact (proj2 H)]. }
        destruct (run L d _) as [s1 o1]. cbn [fst snd] in *. destruct (l_fit L (r_kwargs (with_lock s true)) sr x) as [p|e st] eqn:F.
        - split; [|exact O1]. split; [|exact (proj2 H1)]. cbn. intros p' st' E. injection E as <- <-. eexists _, _, _. exact F.
        - split; [|apply Forall_app; split; [exact O1|repeat constructor]]. split; [cbn; intros; discriminate|exact (proj2 H1)]. }
      destruct (analysis L d (with_lock s true) x sr) as [s1 o1]. cbn [fst snd] in A. destruct A as [H1 O1].
      unfold finish. destruct (update_sound (with_res s1 None)) as [H2 O2]; [split; [exact (proj1 H1)|cbn; discriminate]|].
      destruct (update_plot L (with_res s1 None)) as [s2 o2]. cbn [fst snd] in *. split; [exact H2|]. apply Forall_app. auto.
    - cbn [step]. unfold play_tab. destruct (region s) as [[x sr]|]; (split; [exact H|repeat constructor]).
    - cbn [step]. unfold play_cbk. destruct o; cbn [negb].
      + unfold get_audio. destruct (region s) as [[x sr]|]; cbn; (split; [exact H|repeat constructor]).
      + destruct (get_audio_sound s H) as (H1 & O1 & Y). destruct (get_audio L s true) as [[s1 o1] [[y sr]|]]; cbn [fst snd] in *; [|split; [exact H1|exact O1]].
        split; [exact H1|]. apply Forall_app. split; [exact O1|]. unfold play. destruct y; repeat constructor.
    - cbn [step]. unfold wav_export_cbk. destruct (get_audio_sound s H) as (H1 & O1 & Y).
      destruct (get_audio L s true) as [[s1 o1] [[y sr]|]]; cbn [fst snd] in *; [|split; [exact H1|exact O1]]. specialize (Y y sr eq_refl).
      destruct f as [f|]; cbn [fst snd].
      + split; [exact H1|]. apply Forall_app. split; [exact O1|]. constructor; [exact I|]. destruct err, y; cbn; constructor; try exact I; try exact Y; repeat constructor.
      + split; [exact H1|]. apply Forall_app. split; [exact O1|repeat constructor].
    - cbn [step]. unfold export_cbk. destruct (r_obj s) as [[[p|] st]|] eqn:O; try (split; [exact H|repeat constructor]).
      destruct (l_json L p) as [j|e]; [|destruct e; (split; [exact H|repeat constructor])].
      destruct f as [f|]; cbn [fst snd]; (split; [exact H|]); constructor; try exact I; [destruct err|]; repeat constructor.
  Qed.
  Lemma run_sound : forall l s, sound_state s -> sound_state (fst (run L l s)) /\ Forall sound_obs (snd (run L l s)).
  Proof. intros l. apply run_sound'. apply Forall_forall. intros e _. apply step_sound. Qed.
End Sounds.

(** Whatever the user does after the start of the GUI: every WAV file that is
    saved, and everything that the resynthesis button plays, is the resynthesis
    of the parameters of some analysis, with samples from -1 to 1. *)
Theorem c74_resynthesis : forall K P J (L : lib K P J) (s : root K P) h, r_obj s = None -> r_res s = None ->
  let '(s', o) := run L h s in
  (forall f sr y, In (SaveWav f sr y) o -> exists kw sr0 x p n sr1, l_fit L kw sr0 x = Fitted p /\ resynthesis L p n sr1 y) /\
  (forall sr y, In (Play y sr) (snd (step L (EPlay false) s')) -> exists kw sr0 x p n sr1, l_fit L kw sr0 x = Fitted p /\ resynthesis L p n sr1 y).
Proof.
  intros K P J L s h E1 E2. destruct (run_sound L h s) as [H O]; [split; [rewrite E1; discriminate|rewrite E2; discriminate]|].
  destruct (run L h s) as [s' o]. cbn [fst snd] in *.
  assert (U : forall y, some_resynthesis L y -> exists kw sr0 x p n sr1, l_fit L kw sr0 x = Fitted p /\ resynthesis L p n sr1 y).
  { intros y (p & n & sr & (kw & sr0 & x & F) & R). exists kw, sr0, x, p, n, sr. auto. }
  split.
  - intros f sr y I. apply U. rewrite Forall_forall in O. exact (O _ I).
  - intros sr y I. apply U. cbn [step] in I. unfold play_cbk in I. cbn [negb] in I. destruct (get_audio_sound L s' H) as (H1 & O1 & Y).
    assert (N : forall q r, ~ In (Play q r) (snd (fst (get_audio L s' true)))).
    { unfold get_audio. intros q r. destruct (region s') as [[x' sr']|]; [|cbn; intuition discriminate]. cbn [negb].
      destruct (r_res s'); [cbn; tauto|]. destruct (resynth _ _ _ _); cbn; intuition discriminate. }
    destruct (get_audio L s' true) as [[s1 o1] [[y' sr']|]]; cbn [fst snd] in *.
    + apply in_app_or in I. destruct I as [I|I]; [now apply N in I|]. unfold play in I. destruct y' as [l|v]; cbn in I; [|intuition discriminate].
      destruct I as [I|[]]. injection I as <- <-. exact (Y _ _ eq_refl).
    + now apply N in I.
Qed.
Print Assumptions c74_resynthesis.

(** An action that leaves audio, region and model alone. *)
Definition quiet {K} (e : event K) : Prop :=
  match e with ELoad _ _ | ETrim _ | EAnalyse _ => False | _ => True end.

Lemma quiet_keep : forall K P J (L : lib K P J) e (s : root K P) y, quiet e -> r_res s = Some y -> region s <> None ->
  let s' := fst (step L e s) in r_res s' = Some y /\ region s' = region s /\ r_obj s' = r_obj s.
Proof.
  intros K P J L e s y Q R Rg. destruct (region s) as [[x sr]|] eqn:E; [clear Rg|congruence].
  destruct e as [f c|g|kw|d| |o|f err|f err]; cbn [quiet] in Q; try contradiction; cbn [step].
  - unfold region in *. cbn. auto.
  - unfold play_tab. rewrite E. cbn. auto.
  - unfold play_cbk, get_audio. rewrite E, R. destruct o; cbn; auto.
  - unfold wav_export_cbk, get_audio. rewrite E, R. cbn. destruct f; cbn; auto.
  - unfold export_cbk. destruct (r_obj s) as [[[p|] st]|] eqn:O; try (cbn; auto; fail). destruct (l_json L p) as [j|e]; [destruct f; cbn; auto|].
    destruct e; cbn; auto.
Qed.
Lemma quiet_run : forall K P J (L : lib K P J) h (s : root K P) y, Forall quiet h -> r_res s = Some y -> region s <> None ->
  let s' := fst (run L h s) in r_res s' = Some y /\ region s' = region s /\ r_obj s' = r_obj s.
Proof.
  intros K P J L h s y F. revert s. induction F as [|e h Q F IH]; intros s R Rg; [cbn; auto|]. cbn [run].
  destruct (quiet_keep K P J L e s y Q R Rg) as (R1 & G1 & O1). destruct (step L e s) as [s1 o1]. cbn [fst] in *.
  destruct (IH s1 R1) as (R2 & G2 & O2); [congruence|]. destruct (run L h s1) as [s2 o2]. cbn [fst] in *. repeat split; congruence.
Qed.

(** State after an analysis that succeeds, whatever happens during it. *)
Lemma analyse_ok : forall K P J (L : lib K P J) (s : root K P) d x sr p,
  r_lock s = false -> region s = Some (x, sr) -> l_build L (r_kwargs s) sr = None -> l_fit L (r_kwargs s) sr x = Fitted p ->
  let '(s', o) := step L (EAnalyse d) s in
  exists x' sr' y, region s' = Some (x', sr') /\ r_obj s' = Some (Some p, true) /\ r_res s' = Some y /\ r_lock s' = false /\
    resynth L s' (List.length x') sr' = Ok y /\
    exists o1, o = o1 ++ [Draw x' y] /\ o1 = snd (run L d (with_obj (with_lock s true) (Some (None, false)))) /\
    region s' = region (fst (run L d (with_obj (with_lock s true) (Some (None, false))))).
Proof.
  intros K P J L s d x sr p Lk R B F. rewrite step_analyse, R, Lk. unfold analysis, fitting. cbn [r_kwargs with_lock]. rewrite B.
  set (s0 := with_obj (with_lock s true) (Some (None, false))).
  assert (Ld0 : loaded (r_trim s0) <> None). { change (loaded (r_trim s) <> None). apply (proj1 (region_loaded s)). congruence. }
  pose proof (run_loaded L d s0 eq_refl Ld0) as Ld. destruct (run L d s0) as [s1 o1]. cbn [fst snd] in *. rewrite F.
  unfold finish, update_plot. cbn [with_res with_obj r_obj r_res].
  change (region (with_res (with_obj s1 (Some (Some p, true))) None)) with (region s1).
  destruct (region s1) as [[x1 sr1]|] eqn:R1; [|exfalso; now apply (proj2 (region_loaded s1)) in Ld].
  unfold resynth at 1. cbn [r_obj with_res with_obj].
  exists x1, sr1, (clip (squeeze (l_predict L p (times (List.length x1) sr1)))).
  split; [exact R1|]. split; [reflexivity|]. split; [reflexivity|]. split; [reflexivity|]. split; [reflexivity|].
  exists o1. split; [reflexivity|]. split; [reflexivity|]. unfold region in *. cbn. exact R1.
Qed.

(** After an analysis that succeeds, the resynthesis button plays the resynthesis
    of the new parameters, as many samples as the region has, at the rate of the
    audio, and saving writes the same; until audio, region or model change. *)
Theorem c74_fresh : forall K P J (L : lib K P J) (s : root K P) during h x sr p,
  r_lock s = false -> region s = Some (x, sr) -> l_build L (r_kwargs s) sr = None -> l_fit L (r_kwargs s) sr x = Fitted p ->
  (forall t, List.length (l_predict L p t) = List.length t) -> Forall quiet h ->
  let s1 := fst (run L (EAnalyse during :: h) s) in
  exists x1 sr1, region s1 = Some (x1, sr1) /\
  (List.length x1 <> 1%nat -> exists y, List.length y = List.length x1 /\ resynthesis L p (List.length x1) sr1 (Arr y) /\
     snd (step L (EPlay false) s1) = [Play (Arr y) sr1] /\
     forall f, exists ask, snd (step L (EWav (Some f) None) s1) = [ask; SaveWav f sr1 (Arr y); Info]).
Proof.
  intros K P J L s d h x sr p Lk R B F N Q. cbn [run]. pose proof (analyse_ok K P J L s d x sr p Lk R B F) as A.
  destruct (step L (EAnalyse d) s) as [s1 o1]. destruct A as (x1 & sr1 & y & R1 & O1 & Y1 & _ & Sy & _).
  pose proof (quiet_run K P J L h s1 y Q Y1 ltac:(congruence)) as (Y2 & R2 & O2). destruct (run L h s1) as [s2 o2]. cbn [fst] in *.
  exists x1, sr1. split; [congruence|]. intros N1.
  destruct (resynth_spec K P J L s1 p true (List.length x1) sr1 O1) as (y' & E & Rs). assert (y' = y) by congruence. subst y'.
  assert (A : exists l, y = Arr l /\ List.length l = List.length x1).
  { unfold resynth in Sy. rewrite O1 in Sy. injection Sy as Sy.
    assert (Ll : List.length (l_predict L p (times (List.length x1) sr1)) = List.length x1) by (rewrite N; unfold times; now rewrite map_length, seq_length).
    destruct (l_predict L p (times (List.length x1) sr1)) as [|a [|b l]]; cbn in Sy, Ll; [|congruence|].
    - exists []. split; [now symmetry|exact Ll].
    - eexists. split; [symmetry; exact Sy|]. cbn. now rewrite map_length. }
  destruct A as (l & -> & Ll). exists l. split; [exact Ll|]. split; [exact Rs|].
  cbn [step]. unfold play_cbk, wav_export_cbk, get_audio. rewrite R2, R1, Y2. cbn. split; [reflexivity|]. intros f. eexists. reflexivity.
Qed.
Print Assumptions c74_fresh.

(** Playing the original plays the samples of the region, in both tabs. *)
Theorem c74_original : forall K P J (L : lib K P J) (s : root K P) a b,
  t_size (r_trim s) = Some (zlen (r_x s)) -> t_start (r_trim s) = Some a -> t_stop (r_trim s) = Some b -> 0 <= a < b -> b <= zlen (r_x s) ->
  exists y, step L (EPlay true) s = (s, [Play (Arr y) (t_sr (r_trim s))]) /\ step L EPlayTab s = (s, [Play (Arr y) (t_sr (r_trim s))]) /\
  zlen y = b - a /\ forall i, 0 <= i < b - a -> nth (Z.to_nat i) y PNan = nth (Z.to_nat (a + i)) (r_x s) PNan.
Proof.
  intros K P J L s a b En Ea Eb H1 H2. exists (slice (Some a) (Some b) (r_x s)).
  assert (R : region s = Some (slice (Some a) (Some b) (r_x s), t_sr (r_trim s))) by (unfold region, loaded; now rewrite En, Ea, Eb).
  cbn [step]. unfold play_cbk, play_tab, get_audio. rewrite R. cbn [negb app play wav_write].
  split; [reflexivity|]. split; [reflexivity|].
  assert (B1 : lo_bound (zlen (r_x s)) (Some a) = Z.to_nat a) by (unfold lo_bound; rewrite slice_bound_pos; lia).
  assert (B2 : hi_bound (zlen (r_x s)) (Some b) = Z.to_nat b) by (unfold hi_bound; rewrite slice_bound_pos; lia).
  unfold slice. rewrite B1, B2. unfold zlen in *. rewrite firstn_length, skipn_length. split; [lia|].
  intros i Hi. rewrite nth_firstn_lt by lia. rewrite nth_skipn_add. f_equal. lia.
Qed.
Print Assumptions c74_original.

(** Without audio, and without a fitted model, the buttons show an error; nothing
    is played, saved or changed. *)
Theorem c74_no_audio : forall K P J (L : lib K P J) (s : root K P) o f err, region s = None ->
  step L (EPlay o) s = (s, [Error "No audio"]) /\ step L (EWav f err) s = (s, [Error "No audio"]) /\ step L EPlayTab s = (s, []).
Proof.
  intros K P J L s o f err R. cbn [step]. unfold play_cbk, wav_export_cbk, play_tab, get_audio. rewrite R. auto.
Qed.
Print Assumptions c74_no_audio.

Theorem c74_not_analysed : forall K P J (L : lib K P J) (s : root K P) f err, region s <> None -> r_res s = None ->
  (forall p st, r_obj s <> Some (Some p, st)) ->
  step L (EPlay false) s = (s, [Error "Not analyzed"]) /\ step L (EWav f err) s = (s, [Error "Not analyzed"]) /\
  step L (EJson f err) s = (s, [Error "Not analyzed"]).
Proof.
  intros K P J L s f err R E N. destruct (region s) as [[x sr]|] eqn:Rg; [clear R|congruence].
  assert (A : with_res s None = s) by (destruct s; cbn in *; subst; reflexivity).
  cbn [step]. unfold play_cbk, wav_export_cbk, export_cbk, get_audio, resynth. rewrite Rg, E. cbn [negb].
  destruct (r_obj s) as [[[p|] st]|]; [now destruct (N p st)| |]; rewrite A; auto.
Qed.
Print Assumptions c74_not_analysed.

(** Exports that fail: a file that cannot be written, or a model without parameters
    to export, gives an error box and nothing is saved. *)
Definition saves {J} (o : obs J) : Prop := match o with SaveWav _ _ _ | SaveJson _ _ => True | _ => False end.
Theorem c74_export_errors : forall K P J (L : lib K P J) (s : root K P) p st, r_obj s = Some (Some p, st) ->
  (forall f err, l_json L p = Err AttributeError -> step L (EJson f err) s = (s, [Error "Not analyzed"])) /\
  (forall j f err, l_json L p = Ok j ->
    snd (step L (EJson (Some f) (Some err)) s) = snd (step L (EJson None None) s) ++ [Error "save"]) /\
  (forall f err, region s <> None ->
    snd (step L (EWav (Some f) (Some err)) s) = snd (step L (EWav None None) s) ++ [Error "save"]) /\
  forall o, In o (snd (step L (EJson None None) s) ++ snd (step L (EWav None None) s)) -> ~ saves o.
Proof.
  intros K P J L s p st O. cbn [step]. unfold export_cbk. rewrite O. split; [|split; [|split]].
  - intros f err ->. reflexivity.
  - intros j f err ->. reflexivity.
  - intros f err R. unfold wav_export_cbk, get_audio. destruct (region s) as [[x sr]|]; [clear R|congruence]. cbn [negb].
    destruct (r_res s) as [y|]; [reflexivity|].
    destruct (resynth_spec K P J L s p st (List.length x) sr O) as (y & -> & _). reflexivity.
  - intros o Ho. apply in_app_or in Ho. destruct Ho as [Ho|Ho].
    + destruct (l_json L p) as [j|e]; [destruct Ho as [<-|[]]; tauto|]. destruct e; destruct Ho as [<-|[]]; tauto.
    + unfold wav_export_cbk, get_audio in Ho. destruct (region s) as [[x sr]|]; [|destruct Ho as [<-|[]]; tauto]. cbn [negb] in Ho.
      destruct (r_res s) as [y|]; [destruct Ho as [<-|[]]; tauto|].
      destruct (resynth_spec K P J L s p st (List.length x) sr O) as (y & E & _). rewrite E in Ho. destruct Ho as [<-|[]]; tauto.
Qed.
Print Assumptions c74_export_errors.

(** *** A concrete library: the parameters are the mean of the region and its
    size, the prediction is constant. *)
Definition demo : lib nat Q nat :=
  mkLib (fun _ => [0]) (fun kw _ => if Nat.eqb kw 7 then Some ValueError else None)
    (fun kw _ x => if Nat.eqb kw 9 then Failed ValueError true
                   else match x with PFin q :: _ => Fitted q | _ => Failed TypeError false end)
    (fun p t => map (fun _ => PFin p) t)
    (fun p => if Qeq_bool p 0 then Err ZeroDivisionError else Ok 1%nat).
Definition start : root nat Q := mkRoot None None (mkTrim None 0 None None None) [] 0%nat None None false.
Definition wav_a : res (Z * wav) := Ok (4, Mono I16 [16384; 100; 200; 300]).
Definition wav_b : res (Z * wav) := Ok (2, Mono I16 [-8192; 100]).
Definition half : pfloat := PFin (inject_Z 16384 / inject_Z 32768).

(** The resynthesis is kept when another file is loaded: it is played at the
    rate of the new file. *)
Theorem c74_stale_refuted : exists (h : list (event nat)) x sr,
  let s := fst (run demo h start) in
  region s = Some (x, sr) /\ sr = 2 /\ List.length x = 2%nat /\
  snd (step demo (EPlay false) s) = [Play (Arr (repeat half 4)) 2] /\
  ~ exists p, r_obj s = Some (Some p, true) /\ resynthesis demo p (List.length x) sr (Arr (repeat half 4)).
Proof.
  exists [ELoad (Some (txt "/a.wav")) wav_a; EAnalyse []; ELoad (Some (txt "/b.wav")) wav_b].
  eexists _, _. cbv zeta. split; [vm_compute; reflexivity|]. split; [reflexivity|]. split; [reflexivity|]. split; [vm_compute; reflexivity|].
  intros (p & _ & t & (Lt & _) & F). apply Forall2_length' in F. cbn in F. rewrite map_length in F. cbn in Lt. lia.
Qed.
Print Assumptions c74_stale_refuted.

(** It is also kept when the region is moved. *)
Theorem c74_stale_region_refuted : exists (h : list (event nat)) x sr,
  let s := fst (run demo h start) in
  region s = Some (x, sr) /\ List.length x = 2%nat /\ snd (step demo (EPlay false) s) = [Play (Arr (repeat half 4)) 4].
Proof.
  exists [ELoad (Some (txt "/a.wav")) wav_a; EAnalyse []; ETrim (Type_ false (Some (f_div (f_of_int 1) (f_of_int 2))))].
  eexists _, _. cbv zeta. split; [vm_compute; reflexivity|]. split; vm_compute; reflexivity.
Qed.
Print Assumptions c74_stale_region_refuted.

(** The resynthesis of a region of one sample cannot be played or saved. *)
Theorem c74_one_sample_refuted : exists (h : list (event nat)) x sr,
  let s := fst (run demo h start) in
  region s = Some ([x], sr) /\ (exists p, r_obj s = Some (Some p, true)) /\
  snd (step demo (EPlay false) s) = [Traceback IndexError] /\
  forall f, exists ask, snd (step demo (EWav (Some f) None) s) = [ask; Error "save"].
Proof.
  exists [ELoad (Some (txt "/a.wav")) wav_a; ETrim (Type_ false (Some (f_div (f_of_int 1) (f_of_int 4)))); EAnalyse []].
  eexists _, _. cbv zeta. split; [vm_compute; reflexivity|]. split; [eexists; vm_compute; reflexivity|]. split; [vm_compute; reflexivity|].
  intros f. eexists. vm_compute. reflexivity.
Qed.
Print Assumptions c74_one_sample_refuted.

(** The hypotheses of the theorems above hold: an analysis with a change of the
    region during it and a save after it. *)
Example c74_example :
  let s := fst (run demo [ELoad (Some (txt "/a.wav")) wav_a] start) in
  let d := [ETrim (Type_ false (Some (f_div (f_of_int 3) (f_of_int 4)))); EAnalyse []] in
  (exists x, r_lock s = false /\ region s = Some (x, 4) /\ List.length x = 4%nat /\ l_build demo (r_kwargs s) 4 = None /\
     l_fit demo (r_kwargs s) 4 x = Fitted (inject_Z 16384 / inject_Z 32768)%Q) /\
  Forall quiet [EPlayTab; @ESettings nat 3%nat; EJson None None] /\
  snd (run demo [EAnalyse d; EPlayTab; ESettings 3%nat; EJson None None; EWav (Some (txt "/x/y.wav")) None] s) =
  [Warning; Draw [half; PFin (inject_Z 100 / inject_Z 32768); PFin (inject_Z 200 / inject_Z 32768)] (Arr [half; half; half]);
   Play (Arr [half; PFin (inject_Z 100 / inject_Z 32768); PFin (inject_Z 200 / inject_Z 32768)]) 4;
   Ask (Some (txt "/")) (txt "a"); Ask (Some (txt "/")) (txt "a_resynth"); SaveWav (txt "/x/y.wav") 4 (Arr [half; half; half]); Info].
Proof.
  cbv zeta. split; [|split; [repeat constructor|vm_compute; reflexivity]].
  eexists. split; [reflexivity|]. split; [vm_compute; reflexivity|]. split; [reflexivity|]. split; [reflexivity|]. vm_compute. reflexivity.
Qed.

(** ** C75 *)

(** No action leaves the lock taken, also if an exception is raised: after any
    history the next analysis is not refused. *)
Theorem c75_released : forall K P J (L : lib K P J) h (s : root K P), r_lock s = false ->
  ~ In Warning (snd (step L (EAnalyse []) (fst (run L h s)))).
Proof.
  intros K P J L h s Lk. pose proof (run_lock L h s) as E. destruct (run L h s) as [s1 o1]. cbn [fst] in *. rewrite Lk in E.
  rewrite step_analyse. destruct (region s1) as [[x sr]|]; [|cbn; intuition discriminate]. rewrite E.
  assert (A : ~ In Warning (snd (analysis L [] (with_lock s1 true) x sr))).
  { unfold analysis. destruct (l_build _ _ _); [cbn; intuition discriminate|]. unfold fitting. cbn [run]. destruct (l_fit _ _ _ _); cbn; intuition discriminate. }
  destruct (analysis L [] (with_lock s1 true) x sr) as [s2 o2]. cbn [snd] in A.
  assert (B : ~ In Warning (snd (finish L s2))).
  { unfold finish, update_plot. cbn [with_res r_obj r_res]. destruct (r_obj s2) as [[[p|] [|]]|]; try (cbn; intuition discriminate);
      (destruct (region _) as [[x' sr']|]; [|cbn; intuition discriminate]; destruct (resynth _ _ _ _); cbn; intuition discriminate). }
  destruct (finish L s2) as [s3 o3]. cbn [snd] in *. intros I. apply in_app_or in I. tauto.
Qed.
Print Assumptions c75_released.

(** Analyses that are asked for during an analysis change nothing; each gives one
    warning.  All other actions are done. *)
Definition is_analyse {K} (e : event K) : bool := match e with EAnalyse _ => true | _ => false end.
Definition is_warning {J} (o : obs J) : bool := match o with Warning => true | _ => false end.

Lemma filter_nil : forall A (f : A -> bool) l, Forall (fun x => f x = false) l -> filter f l = [].
Proof. induction 1 as [|x l E F IH]; [reflexivity|]. cbn. now rewrite E. Qed.
Lemma simple_warning : forall K P J (L : lib K P J) e (s : root K P), is_analyse e = false ->
  filter is_warning (snd (step L e s)) = [].
Proof.
  intros K P J L e s N. assert (G : forall s re, filter is_warning (snd (fst (get_audio L s re))) = []).
  { intros s0 re. unfold get_audio. destruct (region s0) as [[x sr]|]; [|reflexivity]. destruct (negb re); [reflexivity|].
    destruct (r_res s0); [reflexivity|]. destruct (resynth _ _ _ _); reflexivity. }
  destruct e as [f c|g|kw|d| |o|f err|f err]; try discriminate; cbn [step].
  - unfold load_cbk. destruct f as [f|]; [|reflexivity]. destruct c as [[sr w]|e]; [|reflexivity].
    destruct (read_samples w) as [x|e]; [|reflexivity]. destruct (gstep _ _) as [t [e|]]; reflexivity.
  - unfold trim_cbk. destruct g; try reflexivity; destruct (gstep _ _) as [t' [e'|]]; reflexivity.
  - reflexivity.
  - unfold play_tab. destruct (region s) as [[x sr]|]; reflexivity.
  - unfold play_cbk. specialize (G s (negb o)). destruct (get_audio L s (negb o)) as [[s1 o1] [[y sr]|]]; cbn [fst snd] in *; [|exact G].
    rewrite filter_app, G. unfold play. destruct (wav_write y); reflexivity.
  - unfold wav_export_cbk. specialize (G s true). destruct (get_audio L s true) as [[s1 o1] [[y sr]|]]; cbn [fst snd] in *; [|exact G].
    destruct f; cbn [snd]; rewrite filter_app, G; [|reflexivity]. cbn. destruct err, (wav_write y); reflexivity.
  - unfold export_cbk. destruct (r_obj s) as [[[p|] st]|]; try reflexivity. destruct (l_json L p) as [j|e]; [destruct f; [destruct err|]; reflexivity|].
    destruct e; reflexivity.
Qed.
Lemma warning_only : forall J (o : list (obs J)), filter is_warning o = [] -> filter (fun x => negb (is_warning x)) o = o.
Proof.
  induction o as [|a o IH]; intros H; [reflexivity|]. cbn in *. destruct (is_warning a); [discriminate|]. cbn. now rewrite IH.
Qed.
Lemma run_drop : forall K P J (L : lib K P J) d (s : root K P), r_lock s = true -> loaded (r_trim s) <> None ->
  let '(s1, o1) := run L d s in
  let '(s2, o2) := run L (filter (fun e => negb (is_analyse e)) d) s in
  s1 = s2 /\ filter (fun x => negb (is_warning x)) o1 = o2 /\
  List.length (filter is_warning o1) = List.length (filter is_analyse d).
Proof.
  intros K P J L. induction d as [|e d IH]; intros s Lk H; [cbn; auto|].
  destruct (is_analyse e) eqn:A.
  - destruct e as [f c|g|kw|d'| |o|f err|f err]; try discriminate. cbn [run filter is_analyse negb]. rewrite locked_analyse by assumption.
    specialize (IH s Lk H). destruct (run L d s) as [s1 o1]. destruct (run L _ s) as [s2 o2]. destruct IH as (E1 & E2 & E3).
    cbn [app filter is_warning negb List.length]. auto.
  - cbn [run filter]. rewrite A. cbn [negb run].
    assert (N : forall d, e <> EAnalyse d) by (intros d0 ->; discriminate A).
    pose proof (simple_lock L e s N) as Lk1. pose proof (simple_loaded L e s N H) as H1. pose proof (simple_warning K P J L e s A) as W.
    destruct (step L e s) as [s1 o1]. cbn [fst snd] in *. specialize (IH s1 ltac:(congruence) H1).
    destruct (run L d s1) as [s2 o2]. destruct (run L _ s1) as [s3 o3]. destruct IH as (E1 & E2 & E3).
    split; [exact E1|]. rewrite !filter_app, W. cbn [app]. split; [|exact E3]. rewrite warning_only by exact W. now rewrite E2.
Qed.

Lemma finish_warning : forall K P J (L : lib K P J) (s : root K P), filter is_warning (snd (finish L s)) = [].
Proof.
  intros K P J L s0. unfold finish, update_plot. cbn [with_res r_obj r_res].
  destruct (r_obj s0) as [[[p|] [|]]|]; try reflexivity;
    (destruct (region (with_res s0 None)) as [[x' sr']|]; [|reflexivity]; destruct (resynth _ _ _ _); reflexivity).
Qed.

Theorem c75_one_at_a_time : forall K P J (L : lib K P J) (s : root K P) during, r_lock s = false -> region s <> None ->
  l_build L (r_kwargs s) (t_sr (r_trim s)) = None ->
  let '(s1, o1) := step L (EAnalyse during) s in
  let '(s2, o2) := step L (EAnalyse (filter (fun e => negb (is_analyse e)) during)) s in
  s1 = s2 /\ filter (fun x => negb (is_warning x)) o1 = o2 /\
  List.length (filter is_warning o1) = List.length (filter is_analyse during).
Proof.
  intros K P J L s d Lk R B. rewrite !step_analyse. destruct (region s) as [[x sr]|] eqn:E; [|congruence]. rewrite Lk.
  assert (Esr : sr = t_sr (r_trim s)) by (unfold region in E; destruct (loaded (r_trim s)) as [[[n a] b]|]; congruence).
  assert (Ld : loaded (r_trim s) <> None) by (apply (proj1 (region_loaded s)); congruence).
  unfold analysis. cbn [r_kwargs with_lock]. rewrite Esr, B, <- Esr. unfold fitting.
  pose proof (run_drop K P J L d (with_obj (with_lock s true) (Some (None, false))) eq_refl Ld) as D.
  destruct (run L d _) as [s1 o1]. destruct (run L (filter _ d) _) as [s2 o2]. destruct D as (<- & E2 & E3).
  pose proof (finish_warning K P J L) as W.
  destruct (l_fit L _ sr x) as [p|e st].
  - specialize (W (with_obj s1 (Some (Some p, true)))). destruct (finish L (with_obj s1 (Some (Some p, true)))) as [s3 o3]. cbn [snd] in W.
    split; [reflexivity|]. rewrite !filter_app, W, app_nil_r. rewrite (warning_only _ o3 W), E2. auto.
  - specialize (W (with_obj s1 (Some (None, st)))). destruct (finish L (with_obj s1 (Some (None, st)))) as [s3 o3]. cbn [snd] in W.
    split; [reflexivity|]. rewrite !filter_app, W. cbn [filter is_warning negb app]. rewrite !app_nil_r, (warning_only _ o3 W), E2. auto.
Qed.
Print Assumptions c75_one_at_a_time.

(** Whatever the user does during the analysis (loading other audio, moving the
    region, other settings): the new model is that of the region, the rate and
    the settings when the button was pressed. *)
Theorem c75_model : forall K P J (L : lib K P J) (s : root K P) during x sr p j,
  r_lock s = false -> region s = Some (x, sr) -> l_build L (r_kwargs s) sr = None -> l_fit L (r_kwargs s) sr x = Fitted p -> l_json L p = Ok j ->
  let s1 := fst (step L (EAnalyse during) s) in
  forall h f, Forall quiet h -> exists ask, snd (step L (EJson (Some f) None) (fst (run L h s1))) = [ask; SaveJson f j; Info].
Proof.
  intros K P J L s d x sr p j Lk R B F Ej. cbv zeta. pose proof (analyse_ok K P J L s d x sr p Lk R B F) as A.
  destruct (step L (EAnalyse d) s) as [s1 o1]. destruct A as (x1 & sr1 & y & R1 & O1 & Y1 & _). cbn [fst]. intros h f Q.
  destruct (quiet_run K P J L h s1 y Q Y1 ltac:(congruence)) as (_ & _ & O2). destruct (run L h s1) as [s2 o2]. cbn [fst] in *.
  cbn [step]. unfold export_cbk. rewrite O2, O1, Ej. eexists. reflexivity.
Qed.
Print Assumptions c75_model.

(** The figure shows the samples of the region and a resynthesis of the new
    parameters for as many samples; it is the last thing that happens. *)
Theorem c75_figure : forall K P J (L : lib K P J) (s : root K P) during x sr p,
  r_lock s = false -> region s = Some (x, sr) -> l_build L (r_kwargs s) sr = None -> l_fit L (r_kwargs s) sr x = Fitted p ->
  let '(s1, o) := step L (EAnalyse during) s in
  exists x1 sr1 y o1, region s1 = Some (x1, sr1) /\ o = o1 ++ [Draw x1 y] /\ resynthesis L p (List.length x1) sr1 y /\
    (during = [] -> x1 = x /\ sr1 = sr /\ o1 = []).
Proof.
  intros K P J L s d x sr p Lk R B F. pose proof (analyse_ok K P J L s d x sr p Lk R B F) as A.
  destruct (step L (EAnalyse d) s) as [s1 o]. destruct A as (x1 & sr1 & y & R1 & O1 & Y1 & _ & Sy & o1 & Eo & Eo1 & Rg).
  exists x1, sr1, y, o1. split; [exact R1|]. split; [exact Eo|]. split.
  - destruct (resynth_spec K P J L s1 p true (List.length x1) sr1 O1) as (y' & E & Rs). congruence.
  - intros ->. cbn [run fst snd] in *. assert (X : Some (x1, sr1) = Some (x, sr)) by (rewrite <- R1, Rg, <- R; reflexivity).
    injection X as -> ->. auto.
Qed.
Print Assumptions c75_figure.

(** An analysis whose fit fails: an error is shown, then drawing raises an
    exception; the model from before and its resynthesis are lost. *)
Theorem c75_failed : forall K P J (L : lib K P J) (s : root K P) during x sr e st,
  r_lock s = false -> region s = Some (x, sr) -> l_build L (r_kwargs s) sr = None -> l_fit L (r_kwargs s) sr x = Failed e st ->
  let '(s1, o) := step L (EAnalyse during) s in
  (exists o1, o = o1 ++ [Error "fit"; Traceback (if st then AttributeError else KeyError)]) /\
  snd (step L (EPlay false) s1) = [Error "Not analyzed"] /\ r_lock s1 = false /\
  (forall f err, snd (step L (EWav f err) s1) = [Error "Not analyzed"]) /\
  forall f err, snd (step L (EJson f err) s1) = [Error "Not analyzed"].
Proof.
  intros K P J L s d x sr e st Lk R B F. rewrite step_analyse, R, Lk. unfold analysis, fitting. cbn [r_kwargs with_lock]. rewrite B.
  set (s0 := with_obj (with_lock s true) (Some (None, false))).
  assert (Ld0 : loaded (r_trim s0) <> None). { change (loaded (r_trim s) <> None). apply (proj1 (region_loaded s)). congruence. }
  pose proof (run_loaded L d s0 eq_refl Ld0) as Ld. destruct (run L d s0) as [s1 o1]. cbn [fst snd] in *. rewrite F.
  set (s2 := with_lock (with_res (with_obj s1 (Some (None, st))) None) false).
  assert (U : finish L (with_obj s1 (Some (None, st))) = (with_res (with_obj s1 (Some (None, st))) None, [Traceback (if st then AttributeError else KeyError)])).
  { unfold finish, update_plot. cbn [r_obj with_res with_obj]. destruct st; reflexivity. }
  rewrite U. change (with_lock (with_res (with_obj s1 (Some (None, st))) None) false) with s2.
  assert (N : forall f err, step L (EPlay false) s2 = (s2, [Error "Not analyzed"]) /\ step L (EWav f err) s2 = (s2, [Error "Not analyzed"]) /\
    step L (EJson f err) s2 = (s2, [Error "Not analyzed"])).
  { intros f err. apply c74_not_analysed; [|reflexivity|cbn; intros; discriminate]. apply (proj2 (region_loaded s2)). exact Ld. }
  split; [exists o1; now rewrite <- app_assoc|]. split; [now rewrite (proj1 (N None None))|]. split; [reflexivity|]. split.
  - intros f err. now rewrite (proj1 (proj2 (N f err))).
  - intros f err. now rewrite (proj2 (proj2 (N f err))).
Qed.
Print Assumptions c75_failed.

(** So a failed analysis does not keep what there was: a sound that could be
    played before cannot be played after it. *)
Theorem c75_failed_refuted : exists (h : list (event nat)) kw y sr,
  let s := fst (run demo h start) in
  snd (step demo (EPlay false) s) = [Play y sr] /\
  snd (run demo [ESettings kw; EAnalyse []] s) = [Error "fit"; Traceback AttributeError] /\
  snd (step demo (EPlay false) (fst (run demo [ESettings kw; EAnalyse []] s))) = [Error "Not analyzed"].
Proof.
  exists [ELoad (Some (txt "/a.wav")) wav_a; EAnalyse []], 9%nat, (Arr (repeat half 4)), 4. cbv zeta. split; [vm_compute; reflexivity|].
  split; vm_compute; reflexivity.
Qed.
Print Assumptions c75_failed_refuted.

(** If already building the model fails, the model from before stays, and it is
    drawn and played as the new one would be. *)
Theorem c75_build : forall K P J (L : lib K P J) (s : root K P) during x sr e p st,
  r_lock s = false -> region s = Some (x, sr) -> l_build L (r_kwargs s) sr = Some e -> r_obj s = Some (Some p, st) ->
  let '(s1, o) := step L (EAnalyse during) s in
  r_obj s1 = Some (Some p, st) /\ region s1 = region s /\ r_lock s1 = false /\
  exists y, o = [Error "fit"; Draw x y] /\ resynthesis L p (List.length x) sr y.
Proof.
  intros K P J L s d x sr e p st Lk R B O. rewrite step_analyse, R, Lk. unfold analysis. cbn [r_kwargs with_lock]. rewrite B.
  unfold finish, update_plot. cbn [with_res with_lock r_obj r_res]. rewrite O.
  change (region (with_res (with_lock s true) None)) with (region s). rewrite R.
  destruct (resynth_spec K P J L (with_res (with_lock s true) None) p st (List.length x) sr O) as (y & E & Rs). rewrite E.
  split; [exact O|]. split; [exact R|]. split; [reflexivity|]. exists y. split; [reflexivity|exact Rs].
Qed.
Print Assumptions c75_build.

(** Without audio the analysis shows an error and does nothing. *)
Theorem c75_no_audio : forall K P J (L : lib K P J) (s : root K P) during, region s = None ->
  step L (EAnalyse during) s = (s, [Error "No audio"]).
Proof. intros K P J L s d R. now rewrite step_analyse, R. Qed.
Print Assumptions c75_no_audio.

(** Loading another file, changing the settings and asking for another analysis
    during the analysis: the model is that of the first file. *)
Example c75_example :
  let s := fst (run demo [ELoad (Some (txt "/a.wav")) wav_a] start) in
  let d := [ELoad (Some (txt "/b.wav")) wav_b; EAnalyse []; ESettings 9%nat; EAnalyse []] in
  r_lock s = false /\ region s <> None /\ l_build demo (r_kwargs s) (t_sr (r_trim s)) = None /\
  l_json demo (inject_Z 16384 / inject_Z 32768)%Q = Ok 1%nat /\
  snd (step demo (EAnalyse d) s) =
  [Warning; Warning; Draw [PFin (inject_Z (-8192) / inject_Z 32768); PFin (inject_Z 100 / inject_Z 32768)] (Arr [half; half])] /\
  snd (run demo [ESettings 7%nat; EAnalyse []] (fst (step demo (EAnalyse []) s))) =
  [Error "fit"; Draw [half; PFin (inject_Z 100 / inject_Z 32768); PFin (inject_Z 200 / inject_Z 32768); PFin (inject_Z 300 / inject_Z 32768)] (Arr (repeat half 4))].
Proof. cbv zeta. repeat split; try (vm_compute; reflexivity). vm_compute. discriminate. Qed.

(** ** C76 *)

(** Number of bits of the integer types that are centred at zero. *)
Definition bits (dt : dtype) : option Z :=
  match dt with I16 => Some 16 | I32 => Some 32 | I64 => Some 64 | _ => None end.
Definition in_type (b v : Z) : Prop := - 2 ^ (b - 1) <= v < 2 ^ (b - 1).

Lemma bits_min : forall dt b, bits dt = Some b -> iinfo_min dt = Ok (- 2 ^ (b - 1)) /\ 0 < 2 ^ (b - 1).
Proof. intros dt b E. destruct dt; inversion E; subst; split; reflexivity. Qed.
Lemma np_div_fin : forall v d, 0 < d -> np_div v d = PFin (inject_Z v / inject_Z d)%Q.
Proof. intros v d H. unfold np_div. destruct (Z.eqb_spec d 0); [lia|reflexivity]. Qed.
Lemma inject_pos : forall d, 0 < d -> (0 < inject_Z d)%Q.
Proof. intros d H. change 0%Q with (inject_Z 0). rewrite <- Zlt_Qlt. exact H. Qed.
Lemma ratio_range : forall v d, 0 < d -> - d <= v < d -> (-1 <= inject_Z v / inject_Z d < 1)%Q.
Proof.
  intros v d H [H1 H2]. pose proof (inject_pos d H) as D. split.
  - apply Qle_shift_div_l; [exact D|]. rewrite Zle_Qle in H1. rewrite inject_Z_opp in H1. lra.
  - apply Qlt_shift_div_r; [exact D|]. rewrite Zlt_Qlt in H2. lra.
Qed.

(** One channel of 16, 32 or 64 bits: sample [v] becomes [v / 2^(bits - 1)], a
    number from -1 (included) to 1 (excluded). *)
Theorem c76_mono : forall dt b x, bits dt = Some b -> Forall (in_type b) x ->
  exists y, read_samples (Mono dt x) = Ok y /\ List.length y = List.length x /\
  forall i, (i < List.length x)%nat -> exists q, nth i y PNan = PFin q /\ (q == inject_Z (nth i x 0%Z) / inject_Z (2 ^ (b - 1)))%Q /\ (-1 <= q < 1)%Q.
Proof.
  intros dt b x E F. destruct (bits_min dt b E) as [M D]. cbn [read_samples]. rewrite M. cbn [bind]. eexists. split; [reflexivity|].
  rewrite map_length. split; [reflexivity|]. intros i H. rewrite (nth_map_lt _ _ _ 0) by exact H. rewrite Z.opp_involutive, np_div_fin by exact D.
  eexists. split; [reflexivity|]. split; [reflexivity|]. apply ratio_range; [exact D|]. rewrite Forall_forall in F. apply F. now apply nth_In.
Qed.
Print Assumptions c76_mono.

(** Several channels: the mean of the channels. *)
Definition zsum (l : list Z) : Z := fold_right Z.add 0 l.
Lemma mean_fin : forall d l a, 0 < d -> exists q, fold_left p_add (map (fun v => np_div v d) l) (PFin a) = PFin q /\ (q == a + inject_Z (zsum l) / inject_Z d)%Q.
Proof.
  intros d l a D. pose proof (inject_pos d D) as P. revert a. induction l as [|v l IH]; intros a.
  - cbn. exists a. split; [reflexivity|]. field. lra.
  - cbn [map fold_left]. rewrite np_div_fin by exact D. cbn [p_add]. destruct (IH (a + inject_Z v / inject_Z d)%Q) as (q & E & H).
    exists q. split; [exact E|]. rewrite H. cbn [zsum fold_right]. rewrite inject_Z_plus. unfold zsum. field. lra.
Qed.
Lemma zsum_range : forall b l, Forall (in_type b) l -> - (Z.of_nat (List.length l) * 2 ^ (b - 1)) <= zsum l <= Z.of_nat (List.length l) * (2 ^ (b - 1) - 1).
Proof.
  intros b l. unfold in_type. set (M := 2 ^ (b - 1)). induction 1 as [|v l H F IH]; [cbn; lia|].
  cbn [zsum fold_right List.length] in *. unfold zsum in IH. rewrite Nat2Z.inj_succ. nia.
Qed.
Theorem c76_channels : forall dt b x, bits dt = Some b -> Forall (fun f => f <> [] /\ Forall (in_type b) f) x ->
  exists y, read_samples (Multi dt x) = Ok y /\ List.length y = List.length x /\
  forall i, (i < List.length x)%nat -> let f := nth i x [] in
    exists q, nth i y PNan = PFin q /\ (q == inject_Z (zsum f) / (inject_Z (zlen f) * inject_Z (2 ^ (b - 1))))%Q /\ (-1 <= q < 1)%Q.
Proof.
  intros dt b x E F. destruct (bits_min dt b E) as [M D]. cbn [read_samples]. rewrite M. cbn [bind]. eexists. split; [reflexivity|].
  rewrite map_length. split; [reflexivity|]. intros i H. cbv zeta. rewrite (nth_map_lt _ _ _ []) by exact H. rewrite Z.opp_involutive.
  rewrite Forall_forall in F. destruct (F (nth i x []) (nth_In _ _ H)) as [N Fr]. set (f := nth i x []) in *. clearbody f.
  unfold np_mean. destruct (mean_fin (2 ^ (b - 1)) f 0%Q D) as (q & Eq & Hq). rewrite Eq. cbn [p_over]. rewrite map_length.
  assert (Lf : (0 < List.length f)%nat) by (destruct f; [congruence|cbn; lia]). destruct (Nat.eqb_spec (List.length f) 0); [lia|].
  eexists. split; [reflexivity|]. fold (zlen f). assert (Pn : (0 < inject_Z (zlen f))%Q) by (apply inject_pos; unfold zlen; lia).
  pose proof (inject_pos _ D) as Pd.
  assert (Eq2 : (q / inject_Z (zlen f) == inject_Z (zsum f) / (inject_Z (zlen f) * inject_Z (2 ^ (b - 1))))%Q) by (rewrite Hq; field; split; lra).
  split; [exact Eq2|]. rewrite Eq2. rewrite <- inject_Z_mult. apply ratio_range; [unfold zlen; nia|].
  pose proof (zsum_range b f Fr) as Z. unfold zlen. nia.
Qed.
Print Assumptions c76_channels.
Example c76_types_example : bits I16 = Some 16 /\ Forall (fun f => f <> [] /\ Forall (in_type 16) f) [[-32768; 32767]; [1; 2]] /\
  exists y, read_samples (Multi I16 [[-32768; 32767]; [1; 2]]) = Ok y /\ List.length y = 2%nat.
Proof.
  split; [reflexivity|]. split; [|eexists; split; reflexivity].
  repeat (constructor; [split; [discriminate|]; repeat (constructor; [unfold in_type; lia|]); constructor|]). constructor.
Qed.

(** Files of 8 bits (unsigned) are divided by zero; those with floating point
    samples raise an exception that is not shown, and nothing is loaded. *)
Theorem c76_u8_refuted : read_samples (Mono U8 [128; 0; 255]) = Ok [PInf true; PNan; PInf true].
Proof. reflexivity. Qed.
Print Assumptions c76_u8_refuted.

Theorem c76_float_refuted : forall K P J (L : lib K P J) (s : root K P) dt f sr x, dt = F32 \/ dt = F64 ->
  let '(s', o) := step L (ELoad (Some f) (Ok (sr, Mono dt x))) s in
  o = [Traceback ValueError] /\ r_x s' = r_x s /\ r_trim s' = r_trim s /\ r_file s' = Some f.
Proof. intros K P J L s dt f sr x [-> | ->]; cbn; auto. Qed.
Print Assumptions c76_float_refuted.

(** A file that cannot be read, and a dialog that is cancelled, leave the audio,
    the region, the model and the resynthesis alone. *)
Theorem c76_unreadable : forall K P J (L : lib K P J) (s : root K P) f c, (f = None \/ exists e, c = Err e) ->
  let '(s', o) := step L (ELoad f c) s in
  region s' = region s /\ r_x s' = r_x s /\ r_obj s' = r_obj s /\ r_res s' = r_res s /\ o = match f with None => [] | Some _ => [Error "load"] end.
Proof. intros K P J L s f c [-> | [e ->]]; [cbn; auto|]. destruct f; cbn; auto. Qed.
Print Assumptions c76_unreadable.

Lemma set_trim_sr : forall t v d, t_sr (fst (set_trim t v d)) = t_sr t.
Proof.
  intros t v d. unfold set_trim. destruct (loaded t) as [[[n a] b]|]; [|reflexivity]. destruct v; [|reflexivity].
  destruct (f_int _); [|reflexivity]. destruct d; reflexivity.
Qed.
Lemma refresh_sr : forall t, t_sr (refresh t) = t_sr t.
Proof.
  intros t. unfold refresh. destruct (loaded t) as [[[n a] b]|]; [|reflexivity]. destruct (t_stop _); rewrite ?set_trim_sr; reflexivity.
Qed.

(** A file that can be read, with at least one onset: the new audio and its rate
    replace the old ones and the region is a part of the new audio. *)
Theorem c76_loaded : forall K P J (L : lib K P J) (s : root K P) f sr w y,
  read_samples w = Ok y -> good_event (Load (zlen y) sr (l_onset L y)) ->
  let '(s', o) := step L (ELoad (Some f) (Ok (sr, w))) s in
  o = [] /\ r_x s' = y /\ t_size (r_trim s') = Some (zlen y) /\ t_sr (r_trim s') = sr /\ valid (r_trim s') /\
  r_file s' = Some f /\ r_obj s' = r_obj s.
Proof.
  intros K P J L s f sr w y E G. cbn [step]. unfold load_cbk. rewrite E. cbn [r_trim gstep].
  destruct G as (N & So & Fo). set (t := mkTrim _ _ _ _ _). destruct (auto_valid t (zlen y) (l_onset L y) eq_refl N So Fo) as (V1 & E1 & S1).
  assert (Sr : t_sr (fst (auto_trim t (zlen y) (l_onset L y))) = sr).
  { unfold auto_trim. destruct (l_onset L y ++ [zlen y]) as [|a [|b l]]; reflexivity. }
  destruct (auto_trim t (zlen y) (l_onset L y)) as [t' [e|]]; cbn [fst snd] in *; [discriminate|].
  destruct (refresh_valid t' V1) as [V2 S2].
  assert (Sr2 : t_sr (refresh t') = sr) by (rewrite refresh_sr; exact Sr).
  cbn [r_x r_trim r_file r_obj]. repeat split; auto. congruence.
Qed.
Print Assumptions c76_loaded.
Example c76_loaded_example : exists y, read_samples (Mono I16 [16384; 100; 200; 300]) = Ok y /\
  good_event (Load (zlen y) 4 (l_onset demo y)).
Proof.
  eexists. split; [reflexivity|]. cbn. split; [discriminate|]. split; repeat constructor; lia.
Qed.

(** The dialogs propose the name of the file without directories and extension,
    and open in the directory of the file saved last. *)
Definition has_slash (t : text) : Prop := In "/"%char t.
Lemma cut_slash_none : forall t, ~ has_slash t -> cut_slash t = ([], t).
Proof.
  induction t as [|c t IH]; intros N; [reflexivity|]. cbn [cut_slash]. rewrite IH by (intros I; apply N; now right).
  destruct (Ascii.eqb_spec c "/") as [->|]; [|reflexivity]. exfalso. apply N. now left.
Qed.
Lemma cut_slash_app : forall d t, ~ has_slash t -> cut_slash (d ++ "/"%char :: t) = (d ++ ["/"%char], t).
Proof.
  induction d as [|c d IH]; intros t N.
  - cbn [app cut_slash]. rewrite cut_slash_none by exact N. reflexivity.
  - cbn [app cut_slash]. rewrite IH by exact N. destruct d; reflexivity.
Qed.
Lemma last_dot_none : forall t, ~ In "."%char t -> last_dot t = None.
Proof.
  induction t as [|c t IH]; intros N; [reflexivity|]. cbn [last_dot]. rewrite IH by (intros I; apply N; now right).
  destruct (Ascii.eqb_spec c ".") as [->|]; [|reflexivity]. exfalso. apply N. now left.
Qed.
Lemma last_dot_app : forall b e, ~ In "."%char e -> last_dot (b ++ "."%char :: e) = Some (b, e).
Proof.
  induction b as [|c b IH]; intros e N.
  - cbn [app last_dot]. rewrite last_dot_none by exact N. reflexivity.
  - cbn [app last_dot]. rewrite IH by exact N. reflexivity.
Qed.
Lemma suggest : forall d b e, ~ has_slash b -> ~ has_slash e -> ~ In "."%char e -> (exists c, In c b /\ c <> "."%char) ->
  basename (splitext_root (d ++ "/"%char :: b ++ "."%char :: e)) = b.
Proof.
  intros d b e Nb Ne De (c & Ic & Nc).
  assert (N : ~ has_slash (b ++ "."%char :: e)) by (intros I; apply in_app_or in I; destruct I as [I|[I|I]]; [tauto|discriminate|tauto]).
  unfold splitext_root. rewrite cut_slash_app by exact N. cbn [fst snd]. unfold stem. rewrite last_dot_app by exact De.
  destruct (forallb (fun c => Ascii.eqb c ".") b) eqn:A.
  - rewrite forallb_forall in A. specialize (A c Ic). apply Ascii.eqb_eq in A. congruence.
  - unfold basename. rewrite <- app_assoc. cbn [app]. now rewrite cut_slash_app by exact Nb.
Qed.
Theorem c76_names : forall K P J (L : lib K P J) (s : root K P) d b e y j p st,
  r_file s = Some (d ++ "/"%char :: b ++ "."%char :: e) -> ~ has_slash b -> ~ has_slash e -> ~ In "."%char e -> (exists c, In c b /\ c <> "."%char) ->
  region s <> None -> r_res s = Some y -> r_obj s = Some (Some p, st) -> l_json L p = Ok j ->
  snd (step L (EWav None None) s) = [Ask (r_dir_save s) (b ++ txt "_resynth")] /\
  snd (step L (EJson None None) s) = [Ask (r_dir_save s) b] /\
  forall d' b' err, ~ has_slash b' -> (exists c0 c1, d' = c0 ++ [c1] /\ c1 <> "/"%char) ->
    r_dir_save (fst (step L (EWav (Some (d' ++ "/"%char :: b')) err) s)) = Some d' /\
    r_dir_save (fst (step L (EJson (Some (d' ++ "/"%char :: b')) err) s)) = Some d'.
Proof.
  intros K P J L s d b e y j p st Ef Nb Ne De C Rg R O Ej. destruct (region s) as [[x sr]|] eqn:E; [|congruence].
  pose proof (suggest d b e Nb Ne De C) as Sg. cbn [step]. unfold wav_export_cbk, export_cbk, get_audio, file_safe. rewrite E, R, O, Ej. cbn [negb].
  rewrite Ef, Sg. cbn [app snd]. split; [reflexivity|]. split; [reflexivity|]. intros d' b' err N' (c0 & c1 & -> & Nc).
  cbn [fst with_dir_save r_dir_save].
  assert (Dn : dirname ((c0 ++ [c1]) ++ "/"%char :: b') = c0 ++ [c1]).
  { unfold dirname. rewrite cut_slash_app by exact N'. cbn [fst]. rewrite !forallb_app. cbn [forallb is_slash]. unfold is_slash at 2.
    destruct (Ascii.eqb_spec c1 "/"); [congruence|]. cbn [andb]. rewrite andb_false_r. cbn [andb]. rewrite !rev_app_distr. cbn [rev app dropwhile is_slash].
    replace (is_slash c1) with false by (unfold is_slash; destruct (Ascii.eqb_spec c1 "/"); [congruence|reflexivity]).
    cbn. now rewrite rev_involutive. }
  rewrite Dn. auto.
Qed.
Print Assumptions c76_names.
Example c76_names_example :
  let s := fst (run demo [ELoad (Some (txt "/home/u/bell.one.wav")) wav_a; EAnalyse []] start) in
  r_file s = Some (txt "/home/u" ++ "/"%char :: txt "bell.one" ++ "."%char :: txt "wav") /\
  snd (step demo (EWav None None) s) = [Ask (Some (txt "/home/u")) (txt "bell.one_resynth")] /\
  r_dir_save (fst (step demo (EWav (Some (txt "/tmp/o.wav")) None) s)) = Some (txt "/tmp").
Proof. cbv zeta. repeat split; vm_compute; reflexivity. Qed.

(** The name of a file that could not be loaded is proposed, though the audio is
    that of another file. *)
Theorem c76_failed_name_refuted : exists (h : list (event nat)) x,
  let s := fst (run demo h start) in
  region s = Some (x, 4) /\ (exists h0, h = ELoad (Some (txt "/a.wav")) wav_a :: h0 /\ ~ In (ELoad (Some (txt "/a.wav")) wav_a) h0) /\
  snd (step demo (EWav None None) s) = [Ask (Some (txt "/")) (txt "b_resynth")].
Proof.
  exists [ELoad (Some (txt "/a.wav")) wav_a; EAnalyse []; ELoad (Some (txt "/b.txt")) (Err ValueError)]. eexists. cbv zeta.
  split; [vm_compute; reflexivity|]. split; [|vm_compute; reflexivity]. eexists. split; [reflexivity|]. intros [H|[H|[]]]; discriminate H.
Qed.
Print Assumptions c76_failed_name_refuted.

(** ** C77 *)

(** A session with a valid region is the same after a reload: samples and rate;
    the region too if its bounds convert to seconds and back.  The cache is
    gone afterwards. *)
Theorem c77_reload : forall K P (s : root K P) onset a b,
  t_size (r_trim s) = Some (zlen (r_x s)) -> t_start (r_trim s) = Some a -> t_stop (r_trim s) = Some b -> 0 <= a < b -> b <= zlen (r_x s) ->
  exists t, startup onset (Some (save_cache s)) = (t, r_x s, None, None) /\
  t_size t = Some (zlen (r_x s)) /\ t_sr t = t_sr (r_trim s) /\ valid t /\
  (converts_back (t_sr t) a -> converts_back (t_sr t) b -> t_start t = Some a /\ t_stop t = Some b).
Proof.
  intros K P s onset a b En Ea Eb H1 H2. unfold save_cache. rewrite En. unfold startup. cbn [c_x c_sr c_start c_stop]. rewrite Ea, Eb.
  set (t := mkTrim _ _ _ _ _). exists (refresh t). split; [reflexivity|].
  assert (V : valid t) by (exists (zlen (r_x s)), a, b; cbn; repeat split; auto; lia). destruct (refresh_valid t V) as [V2 S2].
  assert (Sr2 : t_sr (refresh t) = t_sr (r_trim s)) by (rewrite refresh_sr; reflexivity).
  split; [exact S2|]. split; [exact Sr2|]. split; [exact V2|]. rewrite Sr2. intros Ca Cb.
  rewrite (refresh_exact t (zlen (r_x s)) a b eq_refl H1 H2 Ca Cb). split; reflexivity.
Qed.
Print Assumptions c77_reload.
Example c77_reload_example : let t := mkTrim (Some 44100) 44100 (Some 100) (Some 22050) None in
  converts_back (t_sr t) 100 /\ converts_back (t_sr t) 22050.
Proof. vm_compute. auto. Qed.

(** The region can move by the reload. *)
Theorem c77_region_refuted : exists (s : root nat Q) onset t, valid (r_trim s) /\ t_size (r_trim s) = Some (zlen (r_x s)) /\
  startup onset (Some (save_cache s)) = (t, r_x s, None, None) /\ t_start (r_trim s) = Some 15 /\ t_start t = Some 14.
Proof.
  exists (mkRoot None None (mkTrim (Some 44) 44100 (Some 15) (Some 44) None) (repeat (PFin 0) 44) 0%nat None None false), (fun _ => []).
  eexists. split; [exists 44, 15, 44; cbn; repeat split; lia|]. split; [reflexivity|]. split; [reflexivity|]. split; [reflexivity|]. vm_compute. reflexivity.
Qed.
Print Assumptions c77_region_refuted.

(** Audio without onsets has no region: after a reload with it the GUI raises an
    exception at the start, does not delete the cache, and does the same at every
    start from then on. *)
Fixpoint starts (onset : list pfloat -> list Z) (n : nat) (c : option cache) : list (option exn) :=
  match n with
  | O => []
  | S n => let '(_, c, e) := startup onset c in e :: starts onset n c
  end.
Theorem c77_crash_refuted : forall (L : lib nat Q nat) sr x y, read_samples (Mono I16 x) = Ok y -> l_onset L y = [] ->
  let s := fst (run L [ELoad (Some (txt "/a.wav")) (Ok (sr, Mono I16 x))] start) in
  forall n, starts (l_onset L) n (Some (save_cache s)) = repeat (Some ValueError) n.
Proof.
  intros L sr x y E N. cbv zeta.
  assert (C : save_cache (fst (run L [ELoad (Some (txt "/a.wav")) (Ok (sr, Mono I16 x))] start)) = mkCache (Some y) (Some sr) None None).
  { cbn [run step]. unfold load_cbk. rewrite E. unfold gstep. rewrite N. reflexivity. }
  rewrite C. induction n as [|n IH]; [reflexivity|].
  assert (St : exists t, startup (l_onset L) (Some (mkCache (Some y) (Some sr) None None)) = (t, y, Some (mkCache (Some y) (Some sr) None None), Some ValueError)).
  { unfold startup. cbn [c_x c_sr c_start c_stop]. rewrite N. eexists. reflexivity. }
  destruct St as [t St]. cbn [starts]. rewrite St, IH. reflexivity.
Qed.
Print Assumptions c77_crash_refuted.
Example c77_crash_example : let L := mkLib (fun _ => []) (fun _ _ => None) (fun _ _ _ => Failed ValueError true) (fun _ _ => []) (fun _ => Ok 0%nat) : lib nat Q nat in
  exists y, read_samples (Mono I16 [0; 0; 0]) = Ok y /\ l_onset L y = [].
Proof. eexists. split; reflexivity. Qed.

(** The theme: if settings can be read, the theme is one of the supported ones:
    that of the settings if it is supported, else the default of the system.
    A file that is no JSON object is an exception (at every start). *)
Theorem c77_theme : forall themes linux valid f t, In "radiance"%string themes -> In "arc"%string themes ->
  get_theme themes linux valid f = Ok t ->
  In t themes /\
  ((valid = true /\ exists d, f = Object d /\ dget "gui_theme" d = Some (Some t)) \/
   ((t = if linux then "radiance" else "arc")%string /\
    (valid = false \/ f = Missing \/ exists d, f = Object d /\ forall u, dget "gui_theme" d = Some (Some u) -> ~ In u themes))).
Proof.
  intros themes linux valid f t H1 H2 E.
  assert (D : In (default_theme linux) themes) by (unfold default_theme; destruct linux; assumption).
  unfold get_theme in E. destruct valid; cbn [negb] in E.
  - destruct f as [|e| |d]; try discriminate.
    + injection E as <-. split; [exact D|]. right. split; [reflexivity|auto].
    + destruct (dget "gui_theme" d) as [[u|]|] eqn:G.
      * destruct (existsb (String.eqb u) themes) eqn:X.
        -- injection E as <-. apply existsb_exists in X. destruct X as (v & Iv & Ev). apply String.eqb_eq in Ev. subst v.
           split; [exact Iv|]. left. split; [reflexivity|]. exists d. auto.
        -- injection E as <-. split; [exact D|]. right. split; [reflexivity|]. right. right. exists d. split; [reflexivity|].
           intros v Ev Iv. assert (v = u) by congruence. subst v. assert (existsb (String.eqb u) themes = true); [|congruence].
           apply existsb_exists. exists u. split; [exact Iv|apply String.eqb_refl].
      * injection E as <-. split; [exact D|]. right. split; [reflexivity|]. right. right. exists d. split; [reflexivity|]. intros v Ev. discriminate (eq_trans (eq_sym G) Ev).
      * injection E as <-. split; [exact D|]. right. split; [reflexivity|]. right. right. exists d. split; [reflexivity|]. intros v Ev. discriminate (eq_trans (eq_sym G) Ev).
  - injection E as <-. split; [exact D|]. right. auto.
Qed.
Print Assumptions c77_theme.
Theorem c77_theme_total : forall themes linux valid f,
  (exists t, get_theme themes linux valid f = Ok t) <-> (valid = false \/ f = Missing \/ exists d, f = Object d).
Proof.
  intros themes linux valid f. unfold get_theme. destruct valid; cbn [negb].
  - destruct f as [|e| |d]; split.
    + auto.
    + intros _. eexists. reflexivity.
    + intros [t E]; discriminate.
    + intros [H|[H|[d H]]]; discriminate.
    + intros [t E]; discriminate.
    + intros [H|[H|[d H]]]; discriminate.
    + intros _. right. right. now exists d.
    + intros _. destruct (dget "gui_theme" d) as [[u|]|]; eexists; reflexivity.
  - split; [auto|]. intros _. eexists. reflexivity.
Qed.
Print Assumptions c77_theme_total.
Example c77_theme_example :
  get_theme ["radiance"; "arc"; "blue"]%string true true (Object [("gui_theme", Some "blue")])%string = Ok "blue"%string /\
  get_theme ["radiance"; "arc"; "blue"]%string true true (Object [("gui_theme", Some "red")])%string = Ok "radiance"%string /\
  get_theme ["radiance"; "arc"; "blue"]%string false true NoObject = Err AttributeError.
Proof. auto. Qed.

(** A file has a valid path if directory and name are neither missing nor empty. *)
Theorem c77_valid : forall dir sub, file_valid dir sub = true <-> (exists d s, dir = Some d /\ sub = Some s /\ d <> [] /\ s <> []).
Proof.
  intros dir sub. unfold file_valid, path_valid. split.
  - destruct dir as [[|c d]|], sub as [[|c' s]|]; try discriminate. intros _. exists (c :: d), (c' :: s). repeat split; discriminate.
  - intros (d & s & -> & -> & Nd & Ns). destruct d, s; try congruence. reflexivity.
Qed.
Print Assumptions c77_valid.

(** ** C78 *)

(** The launcher stops after launch [n] iff that launch is the first one that
    puts False into the queue. *)
Theorem c78_launches : forall l n, launcher [] l = Some n <->
  (0 < n)%nat /\ nth_error l (n - 1) = Some (Some false) /\ forall k, (k < n - 1)%nat -> nth_error l k <> Some (Some false).
Proof.
  assert (G : forall l n, launcher [] l = Some n <-> (0 < n)%nat /\ nth_error l (n - 1) = Some (Some false) /\ forall k, (k < n - 1)%nat -> nth_error l k <> Some (Some false)).
  2: exact G.
  assert (T : forall l, launcher [true] l = launcher [] l) by (destruct l; reflexivity).
  assert (F : forall l, launcher [false] l = Some 0%nat) by (destruct l; reflexivity).
  induction l as [|o l IH]; intros n.
  - cbn. split; [discriminate|]. intros (_ & E & _). destruct (n - 1)%nat; discriminate.
  - cbn [launcher app]. destruct o as [[|]|].
    + rewrite T. destruct n as [|n]; [split; [destruct (launcher [] l); discriminate|lia]|].
      assert (X : option_map S (launcher [] l) = Some (S n) <-> launcher [] l = Some n) by (destruct (launcher [] l); cbn; split; congruence).
      rewrite X, IH. replace (S n - 1)%nat with n by lia. split.
      * intros (P & E & M). replace n with (S (n - 1)) by lia. split; [lia|]. split; [exact E|]. intros [|k] H; [discriminate|]. apply M. lia.
      * intros (P & E & M). destruct n as [|n]; [discriminate|]. replace (S n - 1)%nat with n by lia. split; [lia|]. split; [exact E|].
        intros k H. apply (M (S k)). lia.
    + rewrite F. cbn. split.
      * intros E. injection E as <-. split; [lia|]. split; [reflexivity|]. lia.
      * intros (P & E & M). destruct n as [|[|n]]; [lia|reflexivity|]. exfalso. apply (M 0%nat); [lia|reflexivity].
    + destruct n as [|n]; [split; [destruct (launcher [] l); discriminate|lia]|].
      assert (X : option_map S (launcher [] l) = Some (S n) <-> launcher [] l = Some n) by (destruct (launcher [] l); cbn; split; congruence).
      rewrite X, IH. replace (S n - 1)%nat with n by lia. split.
      * intros (P & E & M). replace n with (S (n - 1)) by lia. split; [lia|]. split; [exact E|]. intros [|k] H; [discriminate|]. apply M. lia.
      * intros (P & E & M). destruct n as [|n]; [discriminate|]. replace (S n - 1)%nat with n by lia. split; [lia|]. split; [exact E|].
        intros k H. apply (M (S k)). lia.
Qed.
Print Assumptions c78_launches.
Example c78_example : launcher [] [None; Some true; Some false; None] = Some 3%nat.
Proof. reflexivity. Qed.

(** A GUI that always ends without closing its window, for example by a crash at
    the start (c77_crash_refuted), is launched again and again. *)
Theorem c78_crash_refuted : forall n, launcher [] (repeat None n) = None.
Proof. induction n as [|n IH]; [reflexivity|]. cbn [repeat launcher app]. now rewrite IH. Qed.
Print Assumptions c78_crash_refuted.
