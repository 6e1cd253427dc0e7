(** Lemmas about sessions of the GUI. *)
From Coq Require Import String Ascii List Bool ZArith QArith Lia Psatz.
Import ListNotations.
From Verif Require Import Base Py PyLemmas ListLemmas Dict Gui_Model Changelog_Model Session_Model.
Local Open Scope list_scope.
Local Open Scope Z_scope.

Section Induction.
  Context {K : Type} (Q : event K -> Prop).
  Hypothesis Hload : forall f c, Q (ELoad f c).
  Hypothesis Htrim : forall g, Q (ETrim g).
  Hypothesis Hset : forall kw, Q (ESettings kw).
  Hypothesis Hana : forall d, Forall Q d -> Q (EAnalyse d).
  Hypothesis Htab : Q EPlayTab.
  Hypothesis Hplay : forall o, Q (EPlay o).
  Hypothesis Hwav : forall f e, Q (EWav f e).
  Hypothesis Hjson : forall f e, Q (EJson f e).
  Fixpoint event_ind' (e : event K) : Q e :=
    match e with
    | ELoad f c => Hload f c
    | ETrim g => Htrim g
    | ESettings kw => Hset kw
    | EAnalyse d => Hana d ((fix go l : Forall Q l := match l with [] => Forall_nil _ | e :: l => Forall_cons _ (event_ind' e) (go l) end) d)
    | EPlayTab => Htab
    | EPlay o => Hplay o
    | EWav f e => Hwav f e
    | EJson f e => Hjson f e
    end.
End Induction.

Section Facts.
  Context {K P J : Type} (L : lib K P J).
  Notation root := (root K P).
  Notation obs := (obs J).

  (** The part of an analysis after the lock was taken. *)
  Definition fitting (during : list (event K)) (s : root) (x : list pfloat) (sr : Z) : root * list obs :=
    let kw := r_kwargs s in
    let '(s, o) := run L during (with_obj s (Some (None, false))) in
    match l_fit L kw sr x with
    | Fitted p => (with_obj s (Some (Some p, true)), o)
    | Failed _ st => (with_obj s (Some (None, st)), o ++ [Error "fit"])
    end.
  Definition analysis (during : list (event K)) (s : root) (x : list pfloat) (sr : Z) : root * list obs :=
    match l_build L (r_kwargs s) sr with
    | Some _ => (s, [Error "fit"])
    | None => fitting during s x sr
    end.
  Lemma step_analyse : forall d s,
    step L (EAnalyse d) s =
    match region s with
    | None => (s, [Error "No audio"])
    | Some (x, sr) =>
      if r_lock s then (s, [Warning])
      else let '(s, o) := analysis d (with_lock s true) x sr in
           let '(s, o') := finish L s in (with_lock s false, o ++ o')
    end.
  Proof.
    intros d s. cbn [step]. destruct (region s) as [[x sr]|]; [|reflexivity]. destruct (r_lock s); [reflexivity|].
    unfold analysis, fitting. cbn [r_kwargs with_lock]. destruct (l_build L (r_kwargs s) sr); [reflexivity|].
    match goal with |- context [?f d (with_obj (with_lock s true) (Some (None, false)))] =>
      match f with run _ => fail 1 | _ => assert (E : forall l s, f l s = run L l s) end end.
    { induction l as [|e l IH]; intros s0; [reflexivity|]. cbn [run].
      destruct (step L e s0) as [s1 o1]. rewrite IH. reflexivity. }
    rewrite E. reflexivity.
  Qed.

  Lemma run_app : forall l1 l2 s, run L (l1 ++ l2) s =
    let '(s1, o1) := run L l1 s in let '(s2, o2) := run L l2 s1 in (s2, o1 ++ o2).
  Proof.
    induction l1 as [|e l1 IH]; intros l2 s.
    - cbn [app run]. destruct (run L l2 s); reflexivity.
    - cbn [app run]. destruct (step L e s) as [s1 o1]. rewrite IH. destruct (run L l1 s1) as [s2 o2].
      destruct (run L l2 s2) as [s3 o3]. now rewrite app_assoc.
  Qed.

  (** The lock. *)
  Lemma get_audio_lock : forall s re, r_lock (fst (fst (get_audio L s re))) = r_lock s.
  Proof.
    intros s re. unfold get_audio. destruct (region s) as [[x sr]|]; [|reflexivity]. destruct (negb re); [reflexivity|].
    destruct (r_res s); [reflexivity|]. destruct (resynth L s (List.length x) sr); reflexivity.
  Qed.
  Lemma update_lock : forall s, r_lock (fst (update_plot L s)) = r_lock s.
  Proof.
    intros s. unfold update_plot. destruct (r_obj s) as [[[p|] [|]]|]; try reflexivity;
      (destruct (region s) as [[x sr]|]; [|reflexivity]; destruct (r_res s); [reflexivity|]; destruct (resynth _ _ _ _); reflexivity).
  Qed.
  Lemma simple_lock : forall e s, (forall d, e <> EAnalyse d) -> r_lock (fst (step L e s)) = r_lock s.
  Proof.
    intros e s N. destruct e as [f c|g|kw|d| |o|f err|f err]; cbn [step].
    - unfold load_cbk. destruct f as [f|]; [|reflexivity]. destruct c as [[sr w]|e]; [|reflexivity].
      destruct (read_samples w) as [x|e]; [|reflexivity]. destruct (gstep _ _) as [t [e|]]; reflexivity.
    - unfold trim_cbk. destruct g; try reflexivity; destruct (gstep _ _) as [t' [e'|]]; reflexivity.
    - reflexivity.
    - now destruct (N d).
    - unfold play_tab. destruct (region s) as [[x sr]|]; reflexivity.
    - unfold play_cbk. pose proof (get_audio_lock s (negb o)) as H. destruct (get_audio L s (negb o)) as [[s1 o1] [[x sr]|]]; exact H.
    - unfold wav_export_cbk. pose proof (get_audio_lock s true) as H. destruct (get_audio L s true) as [[s1 o1] [[x sr]|]]; [|exact H].
      destruct f; exact H.
    - unfold export_cbk. destruct (r_obj s) as [[[p|] st]|]; try reflexivity. destruct (l_json L p) as [j|e]; [destruct f; reflexivity|].
      destruct e; reflexivity.
  Qed.
  Lemma step_lock : forall e s, r_lock (fst (step L e s)) = r_lock s.
  Proof.
    intros e. destruct e as [f c|g|kw|d| |o|f err|f err]; intros s; try (apply simple_lock; discriminate).
    rewrite step_analyse. destruct (region s) as [[x sr]|]; [|reflexivity].
    destruct (r_lock s) eqn:Lk; [exact Lk|]. destruct (analysis d (with_lock s true) x sr) as [s1 o]. destruct (finish L s1) as [s2 o2]. reflexivity.
  Qed.
  Lemma run_lock : forall l s, r_lock (fst (run L l s)) = r_lock s.
  Proof.
    induction l as [|e l IH]; intros s; [reflexivity|]. cbn [run]. pose proof (step_lock e s) as H. destruct (step L e s) as [s1 o1].
    specialize (IH s1). destruct (run L l s1) as [s2 o2]. cbn [fst] in *. congruence.
  Qed.

  (** Audio that was loaded stays loaded; settings and models are changed by
      their own actions only. *)
  Lemma get_audio_keep : forall s re, let s' := fst (fst (get_audio L s re)) in
    r_trim s' = r_trim s /\ r_x s' = r_x s /\ r_obj s' = r_obj s /\ r_kwargs s' = r_kwargs s /\ r_file s' = r_file s /\ r_dir_save s' = r_dir_save s.
  Proof.
    intros s re. unfold get_audio. destruct (region s) as [[x sr]|]; [|cbn; tauto]. destruct (negb re); [cbn; tauto|].
    destruct (r_res s); [cbn; tauto|]. destruct (resynth L s (List.length x) sr); cbn; tauto.
  Qed.
  Lemma update_keep : forall s, let s' := fst (update_plot L s) in
    r_trim s' = r_trim s /\ r_x s' = r_x s /\ r_obj s' = r_obj s /\ r_kwargs s' = r_kwargs s /\ r_file s' = r_file s /\ r_dir_save s' = r_dir_save s.
  Proof.
    intros s. unfold update_plot. destruct (r_obj s) as [[[p|] [|]]|] eqn:O; try (cbn; tauto);
      (destruct (region s) as [[x sr]|]; [|cbn; tauto]; destruct (r_res s); [cbn; tauto|]; destruct (resynth _ _ _ _); cbn; tauto).
  Qed.

  Lemma set_trim_loaded : forall t v d, loaded t <> None -> loaded (fst (set_trim t v d)) <> None.
  Proof.
    intros t v d H. unfold set_trim. destruct (loaded t) as [[[n a] b]|] eqn:E; [|congruence].
    assert (X : t_size t = Some n /\ t_start t = Some a /\ t_stop t = Some b).
    { unfold loaded in E. destruct (t_size t), (t_start t), (t_stop t); try discriminate. injection E as -> -> ->. auto. }
    destruct X as (E1 & E2 & E3). destruct v as [v|]; cbn [fst]; [|congruence].
    destruct (f_int _); cbn [fst]; [|congruence]. destruct d; cbn [fst]; unfold loaded, with_start, with_stop; cbn; rewrite E1; try rewrite E2; try rewrite E3; discriminate.
  Qed.
  Lemma refresh_loaded : forall t, loaded t <> None -> loaded (refresh t) <> None.
  Proof.
    intros t H. unfold refresh. destruct (loaded t) as [[[n a] b]|] eqn:E; [|congruence].
    match goal with |- context [set_trim t ?v true] => pose proof (set_trim_loaded t v true) as H1 end. rewrite E in H1. specialize (H1 ltac:(discriminate)).
    destruct (t_stop _) eqn:T; [|exact H1]. now apply set_trim_loaded.
  Qed.
  Lemma gstep_loaded : forall t g, loaded t <> None -> loaded (fst (gstep t g)) <> None.
  Proof.
    intros t g H. destruct g as [d v|tb x|tb x|n sr onsets]; cbn [gstep].
    - now apply set_trim_loaded.
    - destruct tb; [exact H|]. destruct (loaded t) as [[[n a] b]|] eqn:E; [|congruence]. destruct (t_side t); [cbn; congruence|].
      destruct x as [v|]; [|cbn; congruence]. destruct (f_int _); cbn [fst]; [|congruence]. unfold with_side, loaded in *. cbn. congruence.
    - destruct tb; [exact H|]. destruct (loaded t) as [[[n a] b]|] eqn:E; [|congruence]. destruct (t_side t) as [d|]; [|cbn; congruence].
      pose proof (set_trim_loaded t x d ltac:(congruence)) as H1. destruct (set_trim t x d) as [t' [e|]]; cbn [fst] in *; [exact H1|].
      pose proof (refresh_loaded t' H1) as H2. unfold with_side, loaded in *. cbn. exact H2.
    - unfold auto_trim. destruct (onsets ++ [n]) as [|a [|b l]] eqn:E.
      + cbn [fst]. unfold loaded in *. cbn. destruct (t_size t), (t_start t), (t_stop t); congruence.
      + cbn [fst]. unfold loaded in *. cbn. destruct (t_size t), (t_start t), (t_stop t); congruence.
      + cbn [fst]. apply refresh_loaded. unfold loaded. cbn. discriminate.
  Qed.

  Lemma region_loaded : forall s : root, region s <> None <-> loaded (r_trim s) <> None.
  Proof. intros s. unfold region. destruct (loaded (r_trim s)) as [[[n a] b]|]; split; intros; congruence. Qed.

  Lemma simple_loaded : forall e s, (forall d, e <> EAnalyse d) -> loaded (r_trim s) <> None -> loaded (r_trim (fst (step L e s))) <> None.
  Proof.
    intros e s N H. destruct e as [f c|g|kw|d| |o|f err|f err]; cbn [step].
    - unfold load_cbk. destruct f as [f|]; [|exact H]. destruct c as [[sr w]|e]; [|exact H].
      destruct (read_samples w) as [x|e]; [|exact H]. cbn [r_trim].
      pose proof (gstep_loaded (r_trim s) (Load (zlen x) sr (l_onset L x)) H) as H1.
      destruct (gstep _ _) as [t [e|]]; exact H1.
    - unfold trim_cbk. destruct g; try exact H;
        match goal with |- context [gstep ?t ?g] => pose proof (gstep_loaded t g H) as H1; destruct (gstep t g) as [t' [e'|]] end; exact H1.
    - exact H.
    - now destruct (N d).
    - unfold play_tab. destruct (region s) as [[x sr]|]; exact H.
    - unfold play_cbk. pose proof (get_audio_keep s (negb o)) as (E & _). destruct (get_audio L s (negb o)) as [[s1 o1] [[x sr]|]]; cbn [fst] in *; congruence.
    - unfold wav_export_cbk. pose proof (get_audio_keep s true) as (E & _). destruct (get_audio L s true) as [[s1 o1] [[x sr]|]]; [|cbn [fst] in *; congruence].
      destruct f; cbn [fst] in *; unfold with_dir_save; cbn [r_trim]; congruence.
    - unfold export_cbk. destruct (r_obj s) as [[[p|] st]|]; try exact H. destruct (l_json L p) as [j|e]; [destruct f; exact H|].
      destruct e; exact H.
  Qed.

  (** While the lock is taken an analysis does nothing. *)
  Lemma locked_analyse : forall d s, r_lock s = true -> loaded (r_trim s) <> None -> step L (EAnalyse d) s = (s, [Warning]).
  Proof.
    intros d s Lk H. rewrite step_analyse. destruct (region s) as [[x sr]|] eqn:R; [now rewrite Lk|].
    exfalso. now apply (proj2 (region_loaded s)) in H.
  Qed.

  Lemma simple_obj : forall e s, (forall d, e <> EAnalyse d) -> r_obj (fst (step L e s)) = r_obj s.
  Proof.
    intros e s N. destruct e as [f c|g|kw|d| |o|f err|f err]; cbn [step].
    - unfold load_cbk. destruct f as [f|]; [|reflexivity]. destruct c as [[sr w]|e]; [|reflexivity].
      destruct (read_samples w) as [x|e]; [|reflexivity]. destruct (gstep _ _) as [t [e|]]; reflexivity.
    - unfold trim_cbk. destruct g; try reflexivity; destruct (gstep _ _) as [t' [e'|]]; reflexivity.
    - reflexivity.
    - now destruct (N d).
    - unfold play_tab. destruct (region s) as [[x sr]|]; reflexivity.
    - unfold play_cbk. pose proof (get_audio_keep s (negb o)) as H. destruct (get_audio L s (negb o)) as [[s1 o1] [[x sr]|]]; cbn [fst] in *; tauto.
    - unfold wav_export_cbk. pose proof (get_audio_keep s true) as H. destruct (get_audio L s true) as [[s1 o1] [[x sr]|]]; [|cbn [fst] in *; tauto].
      destruct f; cbn [fst] in *; unfold with_dir_save; cbn [r_obj]; tauto.
    - unfold export_cbk. destruct (r_obj s) as [[[p|] st]|] eqn:O; try (cbn; exact O). destruct (l_json L p) as [j|e]; [destruct f; cbn; exact O|].
      destruct e; cbn; exact O.
  Qed.

  Lemma run_loaded : forall l s, r_lock s = true -> loaded (r_trim s) <> None -> loaded (r_trim (fst (run L l s))) <> None.
  Proof.
    induction l as [|e l IH]; intros s Lk H; [exact H|]. cbn [run].
    assert (H1 : loaded (r_trim (fst (step L e s))) <> None).
    { destruct e; try (apply simple_loaded; [discriminate|exact H]). rewrite locked_analyse; assumption. }
    pose proof (step_lock e s) as Lk1. destruct (step L e s) as [s1 o1]. cbn [fst] in *.
    specialize (IH s1 ltac:(congruence) H1). destruct (run L l s1) as [s2 o2]. exact IH.
  Qed.
  Lemma run_obj : forall l s, r_lock s = true -> loaded (r_trim s) <> None -> r_obj (fst (run L l s)) = r_obj s.
  Proof.
    induction l as [|e l IH]; intros s Lk H; [reflexivity|]. cbn [run].
    assert (H1 : loaded (r_trim (fst (step L e s))) <> None).
    { destruct e; try (apply simple_loaded; [discriminate|exact H]). rewrite locked_analyse; assumption. }
    assert (H2 : r_obj (fst (step L e s)) = r_obj s).
    { destruct e; try (apply simple_obj; discriminate). rewrite locked_analyse; auto. }
    pose proof (step_lock e s) as Lk1. destruct (step L e s) as [s1 o1]. cbn [fst] in *.
    specialize (IH s1 ltac:(congruence) H1). destruct (run L l s1) as [s2 o2]. cbn [fst] in *. congruence.
  Qed.
End Facts.
