(** Properties of fitting and of the training contexts: C11, C25, C26. *)
From Coq Require Import String List Bool ZArith QArith Lia Sorted Permutation.
Import ListNotations.
From Verif Require Import Base Py PyLemmas ListLemmas Dict StrLemmas Utils_Model Utils_Props Stft_Model
  Tracker_Model Tracker_Spec Tracker_Props Train_Model.
Local Open Scope string_scope.
Local Open Scope list_scope.

Lemma mapM_size : forall A B (f : A -> res B) l r, mapM f l = Ok r -> List.length r = List.length l.
Proof.
  intros A B f l. induction l as [|a l IH]; intros r H; cbn [mapM] in H; [injection H as <-; reflexivity|].
  destruct (f a); [|discriminate]. cbn [bind] in H. destruct (mapM f l); [|discriminate]. cbn [bind] in H.
  injection H as <-. simpl. now rewrite (IH _ eq_refl).
Qed.

(** ** C11: a fit does not depend on earlier fits *)

Section C11.
  Variable dft : Z -> list Q -> list (option Q) -> res (list Q * list Q).
  Variable argsort : frame -> list nat.

  (** Whatever tracks, active tracks, frames, windows and storages are left over:
      two objects with the same parameters give the same outcome and storage,
      and unless the parameters were rejected the same object. *)
  Theorem c11_refit : forall x k o o',
    sm_params o = sm_params o' -> s_save (sm_store o) = s_save (sm_store o') -> k_store k = None ->
    snd (sm_fit dft argsort x k o) = snd (sm_fit dft argsort x k o') /\
    sm_store (fst (sm_fit dft argsort x k o)) = sm_store (fst (sm_fit dft argsort x k o')) /\
    ((exists p, k_params k (sm_params o) = Ok p) ->
     sm_tracks (fst (sm_fit dft argsort x k o)) = sm_tracks (fst (sm_fit dft argsort x k o')) /\
     fst (sm_fit dft argsort x k o) = fst (sm_fit dft argsort x k o')).
  Proof.
    intros x k [p st s w] [p' st' s' w'] P S K. cbn [sm_params sm_store] in *. subst p'.
    unfold sm_fit, set_params. cbn [sm_params sm_store sm_w_ sm_state]. unfold st_reset. rewrite S, K.
    destruct (k_params k p) as [q|e].
    - cbn [sm_params sm_store sm_w_ sm_state].
      destruct (time_frames _ _ _ _) as [frames|e]; [|auto].
      destruct (fit_loop _ _ _ _ _ _) as [[s1 st1] r]. auto.
    - cbn [fst snd sm_store]. split; [reflexivity|]. split; [reflexivity|]. intros [q [=]].
  Qed.

  (** Any history of earlier fits, also failed ones, against a new instance
      with the current parameters. *)
  Definition fits (h : list (list Q * skwargs)) (o : smodel) : smodel :=
    fold_left (fun o h => fst (sm_fit dft argsort (fst h) (snd h) o)) h o.
  Theorem c11_history : forall h o x,
    let o1 := fits h o in
    let r := sm_fit dft argsort x no_kwargs o1 in
    let r' := sm_fit dft argsort x no_kwargs (fresh_model (sm_params o1) (s_save (sm_store o1))) in
    snd r = snd r' /\ sm_tracks (fst r) = sm_tracks (fst r') /\ sm_store (fst r) = sm_store (fst r').
  Proof.
    intros h o x. cbv zeta. set (o1 := fits h o).
    destruct (c11_refit x no_kwargs o1 (fresh_model (sm_params o1) (s_save (sm_store o1))) eq_refl eq_refl eq_refl)
      as (A & B & C).
    destruct C as [C _]; [now exists (sm_params o1)|]. auto.
  Qed.

  (** What a successful fit leaves behind: the tracker has seen exactly the
      frames of the input, in order, from its initial state, and the storage
      holds exactly them. *)
  Definition stored (s : storage) (key : string) (l : list val) : Prop :=
    st_getitem s key = match l with [] => Raise KeyError key | _ => Ret l end.
  Lemma fit_loop_ok : forall p frames s st s' st',
    s_save s = true ->
    fit_loop (dft (p_n p) (normalized_window (p_w p))) argsort p frames s st = (s', st', Ok tt) ->
    exists F P,
      mapM (dft (p_n p) (normalized_window (p_w p))) frames = Ok F /\
      mapM (fun f => peak_detect_interp (fst f) (snd f) (p_t p)) F = Ok P /\
      foldM (step (t_cfg (p_tracker p)) (t_deact (p_tracker p))) st
        (map (fun ps => let fr := to_frame (c_fs (t_cfg (p_tracker p))) (p_n p) ps in (fr, argsort fr)) P) = Ok st' /\
      s' = st_run s (flat_map (fun fp => [OAppend "stft" (enc_frame (fst fp)) None; OAppend "peaks" (enc_peaks (snd fp)) None])
                       (combine F P)).
  Proof.
    intros p frames. induction frames as [|x frames IH]; intros s st s' st' Hs H; cbn [fit_loop] in H.
    - injection H as <- <-. exists [], []. repeat split.
    - destruct (dft (p_n p) (normalized_window (p_w p)) x) as [f|e] eqn:Ef; [|discriminate].
      destruct (peak_detect_interp (fst f) (snd f) (p_t p)) as [ps|e] eqn:Ep; [|discriminate].
      set (fr := to_frame (c_fs (t_cfg (p_tracker p))) (p_n p) ps) in *.
      destruct (step (t_cfg (p_tracker p)) (t_deact (p_tracker p)) st (fr, argsort fr)) as [st1|e] eqn:Es; [|discriminate].
      apply IH in H; [|now rewrite !st_append_save]. destruct H as (F & P & EF & EP & ES & EQ).
      exists (f :: F), (ps :: P). cbn [mapM bind]. rewrite Ef. cbn [bind]. rewrite EF. cbn [bind].
      split; [reflexivity|]. rewrite Ep. cbn [bind]. rewrite EP. cbn [bind]. split; [reflexivity|].
      cbn [map foldM]. fold fr. rewrite Es. split; [exact ES|]. rewrite EQ. reflexivity.
  Qed.
  Lemma recorded_frames : forall (F : list (list Q * list Q)) (P : list (list (Q * Q * Q))) acc1 acc2,
    List.length F = List.length P ->
    let h := flat_map (fun fp => [OAppend "stft" (enc_frame (fst fp)) None; OAppend "peaks" (enc_peaks (snd fp)) None])
                       (combine F P) in
    recorded "stft" acc1 h = match F with [] => acc1 | _ => Some (match acc1 with Some l => l | None => [] end ++ map enc_frame F) end /\
    recorded "peaks" acc2 h = match P with [] => acc2 | _ => Some (match acc2 with Some l => l | None => [] end ++ map enc_peaks P) end.
  Proof.
    induction F as [|f F IH]; intros [|p P] acc1 acc2 L; cbv zeta; try discriminate; [now split|].
    cbn [combine flat_map fst snd app]. injection L as L.
    destruct (IH P (Some (match acc1 with Some l => l | None => [] end ++ [enc_frame f]))
                   (Some (match acc2 with Some l => l | None => [] end ++ [enc_peaks p])) L) as [A B].
    split.
    - cbn [recorded String.eqb Ascii.eqb eqb]. rewrite A.
      destruct F; [reflexivity|]. now rewrite <- app_assoc.
    - cbn [recorded String.eqb Ascii.eqb eqb]. rewrite B.
      destruct P; [reflexivity|]. now rewrite <- app_assoc.
  Qed.
  Theorem c11_fit_result : forall x k o o',
    sm_fit dft argsort x k o = (o', Ok tt) -> s_save (sm_store o') = true -> k_store k = None ->
    let p := sm_params o' in
    let t := p_tracker p in
    exists frames F P st,
      time_frames (p_padded p) (zlen (p_w p)) (Zpos (c_h (t_cfg t))) (if t_reverse t then rev x else x) = Ok frames /\
      mapM (dft (p_n p) (map (fun v => v / Qsum (p_w p))%Q (p_w p))) frames = Ok F /\
      mapM (fun f => peak_detect_interp (fst f) (snd f) (p_t p)) F = Ok P /\
      run (t_cfg t) (t_deact t)
        (map (fun ps => let fr := to_frame (c_fs (t_cfg t)) (p_n p) ps in (fr, argsort fr)) P) = Ok st /\
      sm_tracks o' = Ok (t_all t st) /\
      stored (sm_store o') "stft" (map enc_frame F) /\ stored (sm_store o') "peaks" (map enc_peaks P).
  Proof.
    intros x k o o' H Hs K. unfold sm_fit, set_params in H. cbn [sm_params sm_store sm_w_ sm_state] in H. rewrite K in H.
    destruct (k_params k (sm_params o)) as [p|e]; [|discriminate].
    set (s0 := match k_save k with Some b => mkStorage b (s_cache (st_reset (sm_store o))) | None => st_reset (sm_store o) end) in *.
    assert (C0 : s_cache s0 = None) by (unfold s0; destruct (k_save k); reflexivity).
    cbn [sm_params sm_store sm_w_ sm_state] in H.
    destruct (time_frames _ _ _ _) as [frames|e] eqn:EF; [|discriminate].
    destruct (fit_loop _ _ _ _ _ _) as [[s1 st1] r] eqn:EL.
    injection H as <- ->. cbn [sm_params sm_store sm_w_ sm_state sm_tracks] in *. cbv zeta.
    assert (S0 : s_save s0 = true).
    { destruct (s_save s0) eqn:E0; [reflexivity|]. exfalso.
      assert (G : forall frames s st s' st' r, s_save s = false ->
        fit_loop (dft (p_n p) (normalized_window (p_w p))) argsort p frames s st = (s', st', r) -> s_save s' = false).
      { clear. induction frames as [|x frames IH]; intros s st s' st' r Hs H; cbn [fit_loop] in H; [congruence|].
        destruct (dft _ _ _); [|congruence]. destruct (peak_detect_interp _ _ _).
        - destruct (step _ _ _ _).
          + apply IH in H; [exact H|now rewrite !st_append_save].
          + injection H as <- _ _. now rewrite !st_append_save.
        - injection H as <- _ _. now rewrite !st_append_save. }
      specialize (G _ _ _ _ _ _ E0 EL). congruence. }
    destruct (fit_loop_ok p frames s0 reset s1 st1 S0 EL) as (F & P & A & B & C & D).
    exists frames, F, P, st1. repeat split; auto.
    - unfold stored. replace s0 with (mkStorage true None) in D by (destruct s0; cbn in *; congruence). rewrite D.
      rewrite c27_records by (apply Forall_forall; intros op Hin; apply in_flat_map in Hin; destruct Hin as (fp & _ & [<-|[<-|[]]]); reflexivity).
      assert (L : List.length F = List.length P) by (apply mapM_size in B; congruence).
      destruct (recorded_frames F P None None L) as [E _]. rewrite E. destruct F; reflexivity.
    - unfold stored. replace s0 with (mkStorage true None) in D by (destruct s0; cbn in *; congruence). rewrite D.
      rewrite c27_records by (apply Forall_forall; intros op Hin; apply in_flat_map in Hin; destruct Hin as (fp & _ & [<-|[<-|[]]]); reflexivity).
      assert (L : List.length F = List.length P) by (apply mapM_size in B; congruence).
      destruct (recorded_frames F P None None L) as [_ E]. rewrite E. destruct P; reflexivity.
  Qed.
End C11.
Print Assumptions c11_refit.
Print Assumptions c11_history.
Print Assumptions c11_fit_result.

(** After a fit the model reports exactly, in order, the tracks among all those
    that were started (the log of a tracker that keeps all of them) that are
    long enough. *)
Theorem c11_reported : forall dft argsort x k o o' c,
  (forall fr, sorts_desc fr (argsort fr)) ->
  sm_fit dft argsort x k o = (o', Ok tt) -> s_save (sm_store o') = true -> k_store k = None ->
  p_tracker (sm_params o') = Sine c ->
  exists peaks lg keep ts,
    run c log_deact (map (fun fr => (fr, argsort fr)) peaks) = Ok lg /\
    (forall t, keep t = true <-> long_enough c t) /\
    sm_tracks o' = Ok ts /\ ts = filter keep (saved lg ++ map numpy_track (active lg)) /\
    Forall (long_enough c) ts.
Proof.
  intros dft argsort x k o o' c A H S K T.
  destruct (c11_fit_result dft argsort x k o o' H S K) as (frames & F & P & st & _ & _ & _ & R & E & _).
  rewrite T in R, E. cbn [t_cfg t_deact t_all] in R, E.
  set (g := to_frame (c_fs c) (p_n (sm_params o'))) in R. cbv zeta in R.
  exists (map g P). rewrite map_map.
  assert (V : valid_hist (map (fun ps => (g ps, argsort (g ps))) P)).
  { apply Forall_forall. intros fo I. apply in_map_iff in I. destruct I as (ps & <- & _). cbn. apply A. }
  destruct (c04_reported_iff_long c _ V) as (st' & lg & keep & R' & L & _ & Kp & _ & W).
  assert (st' = st) as -> by congruence. exists lg, keep, (all_tracks (sine_ok c) st).
  split; [exact L|]. split; [exact Kp|]. split; [exact E|]. split; [exact W|].
  rewrite W. apply Forall_forall. intros t I. apply filter_In in I. apply Kp, I.
Qed.
Print Assumptions c11_reported.
(** The tracks of a model that was never fitted cannot be asked for; a fit makes
    them available even if it raises later on, but not if the parameters are
    refused. *)
Theorem c11_unfitted : forall dft argsort x k p save,
  let o := fresh_model p save in
  let r := sm_fit dft argsort x k o in
  sm_tracks o = Err AttributeError /\
  ((exists e, k_params k p = Err e /\ snd r = Err e /\ sm_tracks (fst r) = Err AttributeError) \/
   (exists p' ts, k_params k p = Ok p' /\ sm_tracks (fst r) = Ok ts)).
Proof.
  intros dft argsort x k p save. cbv zeta. split; [reflexivity|]. unfold sm_fit, set_params.
  cbn [fresh_model sm_params sm_store sm_w_ sm_state]. destruct (k_params k p) as [p'|e]; [right; exists p'|left; exists e; auto].
  cbn [sm_params sm_store sm_w_ sm_state].
  destruct (time_frames _ _ _ _) as [frames|e]; [|eexists; split; [reflexivity|]; reflexivity].
  destruct (fit_loop _ _ _ _ _ _) as [[s st] r]. eexists. split; reflexivity.
Qed.
Print Assumptions c11_unfitted.

(** Two fits of the same object: one frame with a peak per sample. *)
Definition toy_dft (n : Z) (w : list Q) (x : list (option Q)) : res (list Q * list Q) :=
  match x with
  | [Some v] => Ok ([0; v; 0; 0], [0; 0; 0; 0])%Q
  | _ => Err ValueError
  end.
Definition toy_params : sparams := mkSparams [1%Q] 4 (Some 0%Q) false (Sine (mkCfg 4 1 10 (1 # 8) 20 0)).
Definition toy_model : smodel := fresh_model toy_params true.
Example c11_example :
  let o := fst (sm_fit toy_dft argsort_desc [1; 2; 0; 3; 3]%Q no_kwargs toy_model) in
  let '(o', r) := sm_fit toy_dft argsort_desc [5; 7]%Q no_kwargs o in
  r = Ok tt /\
  match sm_tracks o with Ok ts => map (fun t => map (option_map Qred) (s_mag t)) ts | Err _ => [] end = [[Some 1; Some 2]; [Some 3; Some 3]]%Q /\
  match sm_tracks o' with Ok ts => map (fun t => map (option_map Qred) (s_mag t)) ts | Err _ => [] end = [[Some 5; Some 7]]%Q /\
  match st_getitem (sm_store o') "stft" with Ret l => List.length l | Raise _ _ => 0%nat end = 2%nat.
Proof. vm_compute. repeat split; reflexivity. Qed.

(** Independence fails for a storage that is given to [fit]: it is installed
    after the reset, so what it contains stays in front of the new frames. *)
Theorem c11_given_storage_refuted : exists x k o o',
  sm_params o = sm_params o' /\ s_save (sm_store o) = s_save (sm_store o') /\
  (* the same call on a new instance, with an empty storage *)
  k_params k = k_params no_kwargs /\
  st_getitem (sm_store (fst (sm_fit toy_dft argsort_desc x k o))) "stft" <>
  st_getitem (sm_store (fst (sm_fit toy_dft argsort_desc x no_kwargs o'))) "stft".
Proof.
  exists [5%Q], (mkSkwargs (fun p => Ok p) None (Some (mkStorage true (Some [("stft", [VInt 3])]))) None), toy_model, toy_model.
  split; [reflexivity|]. split; [reflexivity|]. split; [reflexivity|]. vm_compute. discriminate.
Qed.
Print Assumptions c11_given_storage_refuted.

(** ... and for the decisions recorded by BeatsDROP: nothing resets the storage
    of the decisor, so a fit with fewer tracks leaves old decisions behind. *)
Theorem c11_decisions_refuted : exists (first second : list (job unit)),
  snd (serial_jobs (mkStorage true None) first) = Ret [tt; tt] /\ snd (serial_jobs (mkStorage true None) second) = Ret [tt] /\
  st_getitem (fst (serial_jobs (fst (serial_jobs (mkStorage true None) first)) second)) "decision" <>
  st_getitem (fst (serial_jobs (mkStorage true None) second)) "decision".
Proof.
  exists [decision_job 0 (VInt 1) true tt; decision_job 1 (VInt 2) false tt], [decision_job 0 (VInt 3) false tt].
  split; [reflexivity|]. split; [reflexivity|]. vm_compute. discriminate.
Qed.
Print Assumptions c11_decisions_refuted.

(** ** C25: parallel and serial fitting *)

(** Whatever the schedule, the consumer of the parallel starmap gets what the
    consumer of the serial one gets: the same results in the same order, or
    the same (first) exception. *)
Theorem c25_results : forall A B (f : A -> outcome B) args tot ready fuel es r,
  parallel_starmap ready fuel f args tot = Some (es, r) ->
  r = snd (serial_starmap f args tot) /\
  (forall l, r = Ret l <-> map f args = map Ret l) /\
  (forall e m, r = Raise e m <-> exists args1 a args2 l, args = args1 ++ a :: args2 /\ map f args1 = map Ret l /\ f a = Raise e m).
Proof.
  intros A B f args tot ready fuel es r H. unfold parallel_starmap in H.
  destruct (poll_loop _ _ _ _ _) as [es'|]; [|discriminate]. injection H as H.
  assert (R : r = snd (collect (map f args))).
  { unfold starmap_progress in H. destruct (collect (map f args)) as [n r']. cbn. now injection H as _ ->. }
  split; [|split].
  - rewrite R. unfold serial_starmap, starmap_progress. destruct (collect (map f args)). reflexivity.
  - intro l. rewrite R. clear. revert l. induction args as [|a args IH]; intro l.
    + cbn. split; [intros [= <-]; reflexivity|]. destruct l; [reflexivity|discriminate].
    + cbn [map collect]. destruct (f a) as [b|e m].
      * destruct (collect (map f args)) as [n [l'|e m]] eqn:E; cbn [snd] in *.
        -- split.
           ++ intros [= <-]. cbn [map]. f_equal. now apply IH.
           ++ destruct l as [|b' l0]; [discriminate|]. cbn [map]. intros [= -> Hl].
              apply IH in Hl. congruence.
        -- split; [discriminate|]. destruct l as [|b' l0]; [discriminate|]. cbn [map]. intros [= -> Hl].
           apply IH in Hl. discriminate.
      * cbn. split; [discriminate|]. destruct l; discriminate.
  - intros e m. rewrite R. clear. induction args as [|a args IH].
    + cbn. split; [discriminate|]. intros (a1 & a & a2 & l & E & _). destruct a1; discriminate.
    + cbn [map collect]. destruct (f a) as [b|e' m'] eqn:Fa.
      * destruct (collect (map f args)) as [n r'] eqn:E. cbn [snd] in *. split.
        -- destruct r' as [l'|e' m']; [discriminate|]. intros [= -> ->].
           destruct (proj1 IH eq_refl) as (a1 & x & a2 & l & -> & Hl & Hx).
           exists (a :: a1), x, a2, (b :: l). split; [reflexivity|]. split; [|exact Hx]. cbn [map]. now rewrite Hl, Fa.
        -- intros (a1 & x & a2 & l & Eq & Hl & Hx). destruct a1 as [|y a1].
           ++ injection Eq as -> ->. congruence.
           ++ injection Eq as -> ->. destruct l as [|b' l]; [discriminate|]. cbn [map] in Hl. injection Hl as _ Hl.
              destruct r' as [l'|e' m'].
              ** assert (Q : Ret l' = Raise e m) by (apply IH; exists a1, x, a2, l; auto). discriminate.
              ** assert (Q : Raise e' m' = @Raise (list B) e m) by (apply IH; exists a1, x, a2, l; auto). congruence.
      * cbn [snd]. split.
        -- intros [= -> ->]. exists [], a, args, []. auto.
        -- intros (a1 & x & a2 & l & Eq & Hl & Hx). destruct a1 as [|y a1].
           ++ injection Eq as -> ->. congruence.
           ++ injection Eq as -> ->. destruct l; [discriminate|]. cbn [map] in Hl. injection Hl as Hl _. congruence.
Qed.
Print Assumptions c25_results.

(** If every job gets ready and stays ready, the waiting loop ends. *)
Theorem c25_terminates : forall A B (f : A -> outcome B) args tot ready,
  (forall r, (r < List.length args)%nat -> exists k0, forall k, (k0 <= k)%nat -> ready k r = true) ->
  exists fuel, forall fuel', (fuel <= fuel')%nat -> exists x, parallel_starmap ready fuel' f args tot = Some x.
Proof.
  intros A B f args tot ready H.
  assert (K : exists K, forall r k, (r < List.length args)%nat -> (K <= k)%nat -> ready k r = true).
  { revert H. generalize (List.length args). clear. induction n as [|n IH]; intro H; [exists 0%nat; intros; lia|].
    destruct IH as [K HK]; [intros r Hr; apply H; lia|]. destruct (H n) as [k0 Hk]; [lia|].
    exists (Nat.max K k0). intros r k Hr Hle. destruct (Nat.eq_dec r n) as [->|]; [apply Hk; lia|apply HK; lia]. }
  destruct K as [K HK].
  assert (G : forall fuel k l, (forall r, In r l -> (r < List.length args)%nat) -> (K + 2 <= fuel + k)%nat -> (1 <= fuel)%nat ->
    exists es, poll_loop ready fuel k (List.length args) l = Some es).
  { induction fuel as [|fuel IH]; intros k l Hl Hf H1; [lia|].
    destruct l as [|r l]; [now exists []|]. cbn [poll_loop].
    set (l' := filter (fun r => negb (ready k r)) (r :: l)).
    assert (Hl' : forall r, In r l' -> (r < List.length args)%nat) by (intros r' Hr; apply filter_In in Hr; apply Hl; tauto).
    destruct (Nat.le_gt_cases K k) as [Hk|Hk].
    - assert (E : l' = []).
      { destruct l' as [|r' l0] eqn:E; [reflexivity|]. exfalso.
        assert (I : In r' l') by (rewrite E; now left). apply filter_In in I. destruct I as [I N].
        rewrite HK in N; [discriminate|now apply Hl|exact Hk]. }
      rewrite E. destruct fuel; cbn [poll_loop]; eexists; reflexivity.
    - destruct (IH (S k) l' Hl') as [es Es]; [lia|lia|]. rewrite Es. eexists; reflexivity. }
  exists (K + 2)%nat. intros fuel' Hf. unfold parallel_starmap.
  destruct (G fuel' 0%nat (seq 0 (List.length args))) as [es ->]; [intros r Hr; apply in_seq in Hr; lia|lia|lia|].
  eexists; reflexivity.
Qed.
Print Assumptions c25_terminates.

(** The waiting loop reports the number of jobs found ready so far: it starts
    at 0, never decreases and stays below the number of jobs. *)
Theorem c25_progress : forall A B (f : A -> outcome B) args ready fuel es r,
  parallel_starmap ready fuel f args None = Some (es, r) ->
  exists vs n, es = map (fun v => EUpdate (Some v)) vs ++ repeat (EUpdate None) n /\
    StronglySorted Z.le vs /\ Forall (fun v => (0 <= v < zlen args)%Z) vs /\
    (args <> [] -> hd_error vs = Some 0%Z) /\
    (n <= List.length args)%nat /\ ((exists l, r = Ret l) -> n = List.length args).
Proof.
  intros A B f args ready fuel es r H. unfold parallel_starmap in H.
  assert (G : forall fuel k l es, (List.length l <= List.length args)%nat ->
    poll_loop ready fuel k (List.length args) l = Some es ->
    exists vs, es = map (fun v => EUpdate (Some v)) vs /\ StronglySorted Z.le vs /\
      Forall (fun v => (zlen args - zlen l <= v < zlen args)%Z) vs /\ (l <> [] -> hd_error vs = Some (zlen args - zlen l)%Z)).
  { clear. induction fuel as [|fuel IH]; intros k l es Hl H; destruct l as [|x l].
    - injection H as <-. exists []. repeat split; try constructor. congruence.
    - discriminate.
    - injection H as <-. exists []. repeat split; try constructor. congruence.
    - cbn [poll_loop] in H. set (l' := filter (fun r => negb (ready k r)) (x :: l)) in *.
      destruct (poll_loop ready fuel (S k) (List.length args) l') as [es'|] eqn:E; [|discriminate].
      assert (L : (List.length l' <= List.length (x :: l))%nat).
      { unfold l'. clear. generalize (x :: l). intro q. induction q as [|y q IH]; simpl; [lia|].
        destruct (negb (ready k y)); simpl; lia. }
      apply IH in E; [|lia]. destruct E as (vs & -> & S & F & _).
      injection H as <-. exists ((zlen args - zlen (x :: l))%Z :: vs). split; [reflexivity|].
      split; [|split].
      + constructor; [exact S|]. eapply Forall_impl; [|exact F]. intros v Hv. unfold zlen in *. lia.
      + constructor.
        * unfold zlen in *. cbn [List.length] in *. lia.
        * eapply Forall_impl; [|exact F]. intros v Hv. unfold zlen in *. lia.
      + reflexivity. }
  destruct (poll_loop _ _ _ _ _) as [es'|] eqn:E; [|discriminate]. injection H as H.
  apply G in E; [|rewrite seq_length; lia]. destruct E as (vs & -> & S & F & Hd).
  unfold starmap_progress in H. destruct (collect (map f args)) as [n r'] eqn:C.
  injection H as <- <-. exists vs, n. split; [now rewrite app_nil_r|]. split; [exact S|].
  split; [|split; [|split]].
  - eapply Forall_impl; [|exact F]. intros v Hv. unfold zlen in *. rewrite seq_length in Hv. lia.
  - intro N. rewrite Hd; [unfold zlen; rewrite seq_length; f_equal; lia|]. destruct args; [congruence|discriminate].
  - revert n r' C. clear. induction args as [|a args IH]; intros n r' C; cbn in C; [injection C as <- _; lia|].
    destruct (f a); [|injection C as <- _; simpl; lia]. destruct (collect (map f args)) as [n' r''].
    injection C as <- _. simpl. specialize (IH _ _ eq_refl). lia.
  - intros [l ->]. revert n l C. clear. induction args as [|a args IH]; intros n l C; cbn in C; [injection C as <- _; reflexivity|].
    destruct (f a); [|discriminate]. destruct (collect (map f args)) as [n' r''].
    injection C as <- C. destruct r'' as [l'|]; [|discriminate]. simpl. f_equal. now apply (IH n' l').
Qed.
Print Assumptions c25_progress.

(** Three jobs that finish in the order 2, 0, 1. *)
Definition ready_210 (k r : nat) : bool :=
  match r with 2%nat => Nat.leb 1 k | 0%nat => Nat.leb 2 k | _ => Nat.leb 4 k end.
Example c25_example :
  parallel_starmap ready_210 10 (fun z : Z => Ret (z * z)%Z) [5; 6; 7]%Z (Some 3%Z) =
  Some ([EStart 3 0] ++ map (fun v => EUpdate (Some v)) [0; 0; 1; 2; 2]%Z ++ [EUpdate None; EUpdate None; EUpdate None; EStop],
        Ret [25; 36; 49]%Z).
Proof. reflexivity. Qed.

(** In the GUI the count is not bounded by the number of jobs: after the
    waiting loop every delivered result counts once more, so that the bar is
    moved beyond its maximum. *)
Theorem c25_gui_progress_refuted : exists (args : list Z) ready es r,
  parallel_starmap ready 10 (fun z => Ret z) args (Some (zlen args)) = Some (es, r) /\
  exists v m, In (v, m) (gui_run (0, 0)%Z es) /\ (m < v)%Z.
Proof.
  exists [5; 6; 7]%Z, ready_210. eexists. eexists. split; [reflexivity|]. exists 5%Z, 3%Z.
  split; [|reflexivity]. vm_compute. tauto.
Qed.
Print Assumptions c25_gui_progress_refuted.
(** In serial mode the bar stays within its limits and moves one job at a time. *)
Theorem c25_gui_serial : forall A B (f : A -> outcome B) args,
  let bar := gui_run (0, 0)%Z (fst (serial_starmap f args (Some (zlen args)))) in
  exists n, (n <= List.length args)%nat /\
    bar = map (fun i => (Z.of_nat i, zlen args)) (seq 0 (S n)) ++
          (match snd (serial_starmap f args (Some (zlen args))) with Ret _ => [(1, 1)%Z] | Raise _ _ => [] end).
Proof.
  intros A B f args. cbv zeta. unfold serial_starmap, starmap_progress.
  destruct (collect (map f args)) as [n r] eqn:C. cbn [fst snd]. exists n.
  assert (L : (n <= List.length args)%nat).
  { revert n r C. clear. induction args as [|a args IH]; intros n r' C; cbn in C; [injection C as <- _; lia|].
    destruct (f a); [|injection C as <- _; simpl; lia]. destruct (collect (map f args)) as [n' r''].
    injection C as <- _. simpl. specialize (IH _ _ eq_refl). lia. }
  split; [exact L|]. cbn [app gui_run gui_step seq map]. f_equal.
  generalize (zlen args). intro M. clear.
  assert (G : forall n i, gui_run (Z.of_nat i, M) (repeat (EUpdate None) n ++ match r with Ret _ => [EStop] | Raise _ _ => [] end) =
    map (fun i => (Z.of_nat i, M)) (seq (S i) n) ++ match r with Ret _ => [(1, 1)%Z] | Raise _ _ => [] end).
  { induction n0 as [|k IH]; intro i.
    - cbn. destruct r; reflexivity.
    - cbn [repeat app gui_run gui_step fst snd seq map]. replace (Z.of_nat i + 1)%Z with (Z.of_nat (S i)) by lia.
      f_equal. apply IH. }
  apply (G n 0%nat).
Qed.
Print Assumptions c25_gui_serial.

(** *** The storage of the decisor *)

Lemma puts_puts : forall s ops, puts s ops = st_puts s ops.
Proof. reflexivity. Qed.
Lemma puts_app : forall s a b, puts s (a ++ b) = puts (puts s a) b.
Proof. intros. unfold puts. apply fold_left_app. Qed.
Lemma serial_ok : forall B (js : list (job B)) s l,
  map snd js = map Ret l -> serial_jobs s js = (puts s (concat (map fst js)), Ret l).
Proof.
  intros B js. induction js as [|[ops r] js IH]; intros s l H; destruct l as [|b l]; try discriminate; [reflexivity|].
  cbn [map snd] in H. injection H as -> H. cbn [serial_jobs map fst concat]. rewrite (IH _ l H), puts_app. reflexivity.
Qed.
Lemma collect_ret : forall B (l : list B), collect (map Ret l) = (List.length l, Ret l).
Proof. intros B l. induction l as [|b l IH]; [reflexivity|]. cbn [map collect List.length]. now rewrite IH. Qed.

(** If no job raises, any order in which the workers make their appends gives
    the records of the serial run, provided that different appends go to
    different places. *)
Theorem c25_storage : forall B (js : list (job B)) l s tr,
  map snd js = map Ret l -> NoDup (map fst (concat (map fst js))) -> Permutation (concat (map fst js)) tr ->
  forall key, st_getitem (puts s tr) key = st_getitem (fst (serial_jobs s js)) key.
Proof.
  intros B js l s tr H N P key. rewrite (serial_ok B js s l H). cbn [fst]. symmetry.
  rewrite !puts_puts. now apply c27_any_order.
Qed.
Print Assumptions c25_storage.

(** If a job raises, the serial fit raises that exception of the first such
    job, like the parallel one; the records are those of the jobs up to it. *)
Theorem c25_serial_raises : forall B (before after : list (job B)) ops e m l s,
  map snd before = map Ret l ->
  let js := before ++ (ops, Raise e m) :: after in
  serial_jobs s js = (puts s (concat (map fst before) ++ ops), Raise e m) /\
  snd (collect (map snd js)) = Raise e m.
Proof.
  intros B before after ops e m. cbv zeta. induction before as [|[o r] before IH]; intros l s H; destruct l as [|b l]; try discriminate.
  - split; reflexivity.
  - cbn [map snd] in H. injection H as -> H. cbn [app serial_jobs map fst snd concat collect].
    destruct (IH l (puts s o) H) as [E C]. rewrite E. split.
    + now rewrite <- app_assoc, <- puts_app.
    + destruct (collect _) as [n r]. cbn [snd] in *. now rewrite C.
Qed.
Print Assumptions c25_serial_raises.
Example c25_serial_example :
  let js := [([("a", 0%nat, VBool true)], Ret 5%nat); ([("a", 1%nat, VBool false)], Raise ValueError "x"); ([("a", 2%nat, VNone)], Ret 6%nat)] in
  snd (serial_jobs (mkStorage true None) js) = Raise ValueError "x" /\
  st_getitem (fst (serial_jobs (mkStorage true None) js)) "a" = Ret [VBool true; VBool false].
Proof. split; reflexivity. Qed.

(** This is the case for the decisor: every track writes at its own index. *)
Lemma decision_jobs_distinct : forall B (ts : list (val * bool * B)),
  NoDup (map fst (concat (map fst (map (fun it => decision_job (fst it) (fst (fst (snd it))) (snd (fst (snd it))) (snd (snd it)))
                                        (combine (seq 0 (List.length ts)) ts))))).
Proof.
  intros B ts.
  assert (G : forall (ts : list (val * bool * B)) i,
    let ops := map fst (concat (map fst (map (fun it => decision_job (fst it) (fst (fst (snd it))) (snd (fst (snd it))) (snd (snd it)))
                                        (combine (seq i (List.length ts)) ts)))) in
    NoDup ops /\ forall k j, In (k, j) ops -> (i <= j)%nat).
  { clear. induction ts as [|t ts IH]; intro i; cbv zeta; [split; [constructor|easy]|].
    cbn [List.length seq combine map concat decision_job fst snd app].
    destruct (IH (S i)) as [N L]. split.
    - constructor; [|constructor; [|exact N]].
      + intros [H|H]; [discriminate|]. apply L in H. lia.
      + intro H. apply L in H. lia.
    - intros k j [H|[H|H]]; [injection H as _ <-; lia|injection H as _ <-; lia|]. apply L in H. lia. }
  apply (G ts 0%nat).
Qed.

(** Without atomic appends it is not true: two first appends can interleave so
    that a record is lost. *)
Theorem c25_append_race_refuted : exists t u schedule c,
  th_pc t = HasCache /\ th_pc u = HasCache /\ th_key t = "decision" /\ th_key u = "decision" /\ th_index t <> th_index u /\
  (let '(c', t', u') := th_run None t u schedule in c = c' /\ th_pc t' = Done /\ th_pc u' = Done) /\
  forall l, dget "decision" (match c with Some d => d | None => [] end) = Some l ->
    ~ In (th_val t) l.
Proof.
  exists (mkThread HasCache "decision" (VBool true) 0), (mkThread HasCache "decision" (VBool false) 1).
  exists [true; true; true; false; false; true; true; true; true; false; false; false; false; false].
  eexists. repeat (split; [try reflexivity; try discriminate|]).
  - vm_compute. repeat split; reflexivity.
  - intros l H. vm_compute in H. injection H as <-. vm_compute. intuition discriminate.
Qed.
Print Assumptions c25_append_race_refuted.
(** One after the other they give the serial record. *)
Fixpoint th_iter (n : nat) (ct : option (dict (list val)) * thread) : option (dict (list val)) * thread :=
  match n with O => ct | S n' => th_iter n' (th_step (fst ct) (snd ct)) end.
Lemma th_iter_add : forall n m ct, th_iter (n + m) ct = th_iter m (th_iter n ct).
Proof. induction n as [|n IH]; intros m ct; [reflexivity|]. cbn [Nat.add th_iter]. apply IH. Qed.
Lemma th_iter_done : forall n c t, th_pc t = Done -> th_iter n (c, t) = (c, t).
Proof.
  induction n as [|n IH]; intros c t H; [reflexivity|]. cbn [th_iter fst snd]. unfold th_step at 1. rewrite H. now apply IH.
Qed.
Definition cache_get (c : option (dict (list val))) (k : string) : option (list val) :=
  dget k (match c with Some d => d | None => [] end).
(** Nor is a record safe if the other thread writes another one. *)
Theorem c25_cache_race_refuted : exists t u schedule c,
  th_pc t = HasCache /\ th_pc u = HasCache /\ th_key t = "test" /\ th_key u = "decision" /\
  (let '(c', t', u') := th_run None t u schedule in c = c' /\ th_pc t' = Done /\ th_pc u' = Done) /\
  cache_get c "test" = None /\ cache_get c "decision" <> None.
Proof.
  exists (mkThread HasCache "test" (VBool true) 0), (mkThread HasCache "decision" (VBool false) 0).
  exists [true; false; true; true; true; true; true; true; false; false; false; false; false; false].
  eexists. split; [reflexivity|]. split; [reflexivity|]. split; [reflexivity|]. split; [reflexivity|]. split.
  - vm_compute. repeat split; reflexivity.
  - vm_compute. split; [reflexivity|discriminate].
Qed.
Print Assumptions c25_cache_race_refuted.
Lemma put_grown : forall l i v, (List.length l <= i)%nat -> put l i v = upd i v (l ++ repeat VNone (S i - List.length l)).
Proof. reflexivity. Qed.
Lemma put_short : forall l i v, (i < List.length l)%nat -> put l i v = upd i v l.
Proof. intros l i v H. unfold put. replace (S i - List.length l)%nat with 0%nat by lia. cbn [repeat]. now rewrite app_nil_r. Qed.
Lemma append_from_key : forall d key v i,
  let '(c', t') := th_iter 5 (Some d, mkThread HasKey key v i) in
  th_pc t' = Done /\
  forall k, cache_get c' k = if String.eqb key k then Some (put (match dget key d with Some l => l | None => [] end) i v) else dget k d.
Proof.
  intros d key v i. 
  assert (F : forall d l, dget key d = Some l ->
    let '(c', t') := th_iter 3 (Some d, mkThread Enough key v i) in
    th_pc t' = Done /\ forall k, cache_get c' k = if String.eqb key k then Some (put l i v) else dget k d).
  { clear d. intros d l E. change 3%nat with (1 + (1 + 1))%nat. rewrite !th_iter_add.
    replace (th_iter 1 (Some d, mkThread Enough key v i))
      with (Some d, mkThread (if Nat.leb (List.length l) i then Extend else Assign) key v i)
      by (cbn; rewrite E; reflexivity).
    destruct (Nat.leb_spec (List.length l) i) as [L|L].
    - replace (th_iter 1 (Some d, mkThread Extend key v i))
        with (Some (dset key (l ++ repeat VNone (S i - List.length l)) d), mkThread Assign key v i)
        by (cbn [th_iter th_step th_pc th_key th_val th_index th_goto fst snd]; rewrite E; reflexivity).
      cbn [th_iter th_step th_pc th_key th_val th_index th_goto fst snd]. rewrite dget_dset, String.eqb_refl.
      split; [reflexivity|]. intro k. unfold cache_get. rewrite !dget_dset. destruct (String.eqb key k); reflexivity.
    - replace (th_iter 1 (Some d, mkThread Assign key v i))
        with (Some (dset key (upd i v l) d), mkThread Done key v i)
        by (cbn [th_iter th_step th_pc th_key th_val th_index th_goto fst snd]; rewrite E; reflexivity).
      rewrite th_iter_done by reflexivity. split; [reflexivity|]. intro k. unfold cache_get. rewrite dget_dset.
      destruct (String.eqb key k); [now rewrite put_short|reflexivity]. }
  destruct (dget key d) as [l|] eqn:E.
  - change 5%nat with (1 + (3 + 1))%nat. rewrite !th_iter_add.
    replace (th_iter 1 (Some d, mkThread HasKey key v i)) with (Some d, mkThread Enough key v i)
      by (cbn [th_iter th_step th_pc th_key th_val th_index th_goto fst snd]; rewrite E; reflexivity).
    specialize (F d l E). destruct (th_iter 3 (Some d, mkThread Enough key v i)) as [c' t']. destruct F as [A B].
    rewrite th_iter_done by exact A. now split.
  - change 5%nat with (1 + (1 + 3))%nat. rewrite !th_iter_add.
    replace (th_iter 1 (Some d, mkThread HasKey key v i)) with (Some d, mkThread NewKey key v i)
      by (cbn [th_iter th_step th_pc th_key th_val th_index th_goto fst snd]; rewrite E; reflexivity).
    replace (th_iter 1 (Some d, mkThread NewKey key v i)) with (Some (dset key [] d), mkThread Enough key v i) by reflexivity.
    specialize (F (dset key [] d) []). rewrite dget_dset, String.eqb_refl in F. specialize (F eq_refl).
    destruct (th_iter 3 (Some (dset key [] d), mkThread Enough key v i)) as [c' t']. destruct F as [A B].
    split; [exact A|]. intro k. rewrite B, dget_dset. destruct (String.eqb key k); reflexivity.
Qed.
Lemma one_append : forall c key v i,
  let '(c', t') := th_iter 7 (c, mkThread HasCache key v i) in
  th_pc t' = Done /\
  forall k, cache_get c' k = if String.eqb key k then Some (put (match cache_get c key with Some l => l | None => [] end) i v)
                             else cache_get c k.
Proof.
  intros [d|] key v i.
  - change 7%nat with (1 + (5 + 1))%nat. rewrite !th_iter_add.
    replace (th_iter 1 (Some d, mkThread HasCache key v i)) with (Some d, mkThread HasKey key v i) by reflexivity.
    pose proof (append_from_key d key v i) as F. destruct (th_iter 5 (Some d, mkThread HasKey key v i)) as [c' t'].
    destruct F as [A B]. rewrite th_iter_done by exact A. now split.
  - change 7%nat with (2 + 5)%nat. rewrite !th_iter_add.
    replace (th_iter 2 (None, mkThread HasCache key v i)) with (Some (@nil (string * list val)), mkThread HasKey key v i) by reflexivity.
    exact (append_from_key [] key v i).
Qed.
Lemma th_run_true : forall n c t u sch, th_run c t u (repeat true n ++ sch) =
  let '(c', t') := th_iter n (c, t) in th_run c' t' u sch.
Proof.
  induction n as [|n IH]; intros c t u sch; [reflexivity|]. cbn [repeat app th_run th_iter fst snd].
  destruct (th_step c t) as [c1 t1]. apply IH.
Qed.
Lemma th_run_false : forall n c t u, th_run c t u (repeat false n) =
  let '(c', u') := th_iter n (c, u) in (c', t, u').
Proof.
  induction n as [|n IH]; intros c t u; [reflexivity|]. cbn [repeat th_run th_iter fst snd].
  destruct (th_step c u) as [c1 t1]. apply IH.
Qed.
Theorem c25_append_serial : forall c v1 v2 i1 i2 key,
  let '(c', t', u') := th_run c (mkThread HasCache key v1 i1) (mkThread HasCache key v2 i2) (repeat true 7 ++ repeat false 7) in
  th_pc t' = Done /\ th_pc u' = Done /\
  forall k, st_getitem (mkStorage true c') k = st_getitem (puts (mkStorage true c) [(key, i1, v1); (key, i2, v2)]) k.
Proof.
  intros c v1 v2 i1 i2 key. rewrite th_run_true.
  pose proof (one_append c key v1 i1) as H1. destruct (th_iter 7 (c, mkThread HasCache key v1 i1)) as [c1 t1].
  rewrite th_run_false. pose proof (one_append c1 key v2 i2) as H2.
  destruct (th_iter 7 (c1, mkThread HasCache key v2 i2)) as [c2 t2]. destruct H1 as [A1 B1], H2 as [A2 B2].
  split; [exact A1|]. split; [exact A2|]. intro k. rewrite !st_getitem_get. unfold puts. cbn [fold_left fst snd].
  rewrite !st_append_get by (rewrite ?st_append_save; reflexivity). rewrite String.eqb_refl.
  change (st_get (mkStorage true c2) k) with (cache_get c2 k). change (st_get (mkStorage true c) k) with (cache_get c k).
  change (st_get (mkStorage true c) key) with (cache_get c key).
  rewrite B2, !B1, String.eqb_refl. destruct (String.eqb key k); reflexivity.
Qed.
Print Assumptions c25_append_serial.

(** ** C26: temporary storages are rolled back *)

(** Whatever the training does, the model has its own storages afterwards. *)
Theorem c26_restored : forall R create keys (body : body_of R) w k o,
  In k keys -> dget k (slots w) = Some o ->
  dget k (slots (fst (wrap_as_managed create keys body w))) = Some o.
Proof.
  intros R create keys body. induction keys as [|k0 keys IH]; intros w k o Hk Ho; [easy|].
  cbn [wrap_as_managed]. unfold wrap_one. destruct (dget k0 (slots w)) as [o0|] eqn:E0.
  - destruct (create o0); [exact Ho|]. cbv zeta.
    match goal with |- context [wrap_as_managed create keys body ?W] => set (w1 := W) end.
    destruct (wrap_as_managed create keys body w1) as [w2 r] eqn:E. cbn [fst].
    unfold set_slot at 1. cbn [slots]. rewrite dget_dset.
    destruct (String.eqb_spec k0 k) as [->|N]; [congruence|].
    destruct Hk as [->|Hk]; [congruence|].
    assert (S1 : dget k (slots w1) = Some o).
    { unfold w1, set_slot. cbn [slots]. rewrite dget_dset. destruct (String.eqb_spec k0 k); [congruence|exact Ho]. }
    specialize (IH w1 k o Hk S1). rewrite E in IH. cbn [fst] in IH.
    destruct r; unfold set_heap; cbn [slots]; exact IH.
  - apply IH; [|exact Ho]. destruct Hk as [->|Hk]; [congruence|exact Hk].
Qed.
Print Assumptions c26_restored.

(** A body that reaches storages only through the parameters of the model. *)
Definition through_slots {R} (body : body_of R) : Prop := forall w,
  slots (fst (body w)) = slots w /\ (tfresh w <= tfresh (fst (body w)))%nat /\
  forall o, (o < tfresh w)%nat -> (forall k, dget k (slots w) <> Some o) -> heap (fst (body w)) o = heap w o.
(** The storages of the model exist, and no two parameters share one. *)
Definition separate (w : tworld) : Prop :=
  (forall k o, dget k (slots w) = Some o -> (o < tfresh w)%nat) /\
  (forall k k' o, dget k (slots w) = Some o -> dget k' (slots w) = Some o -> k = k').

(** Exactly what happens to the storages: the body runs in a world [wb] in which
    every wrapped parameter has a new empty storage with the same settings;
    afterwards the originals hold what these recorded, or, if an exception was
    raised, what they held before.  Other storages are as the body left them. *)
Theorem c26_contents : forall R create keys (body : body_of R) w,
  NoDup keys -> separate w -> through_slots body ->
  let '(w', r) := wrap_as_managed create keys body w in
  (forall k, dget k (slots w') = dget k (slots w)) /\ (tfresh w <= tfresh w')%nat /\
  (forall o, (o < tfresh w)%nat -> (forall k, dget k (slots w) <> Some o) -> heap w' o = heap w o) /\
  match r with
  | Raise _ _ => forall k o, In k keys -> dget k (slots w) = Some o -> heap w' o = heap w o
  | Ret x => exists wb,
      snd (body wb) = Ret x /\
      (forall k o, In k keys -> dget k (slots w) = Some o -> exists m,
         dget k (slots wb) = Some m /\ (tfresh w <= m)%nat /\
         heap wb m = mkStorage (s_save (heap w o)) None /\
         s_save (heap w' o) = s_save (heap w o) /\
         forall key, st_getitem (heap w' o) key = st_getitem (heap (fst (body wb)) m) key) /\
      (forall k, ~ In k keys -> dget k (slots wb) = dget k (slots w)) /\
      (forall o, (o < tfresh w)%nat -> heap wb o = heap w o) /\
      (forall o, (o < tfresh w)%nat -> (forall k, In k keys -> dget k (slots w) <> Some o) ->
         heap w' o = heap (fst (body wb)) o)
  end.
Proof.
  intros R create keys body w N S T. revert w S. induction keys as [|k0 keys IH]; intros w S.
  - cbn [wrap_as_managed]. destruct (T w) as (T1 & T2 & T3). destruct (body w) as [w' r] eqn:E. cbn [fst] in *.
    split; [intro k; now rewrite T1|]. split; [exact T2|]. split; [exact T3|].
    destruct r as [x|e m]; [|intros k o []].
    exists w. rewrite E. cbn [fst snd]. split; [reflexivity|]. split; [intros k o []|]. auto.
  - inversion_clear N as [|? ? N0 N']. specialize (IH N').
    cbn [wrap_as_managed]. unfold wrap_one. destruct (dget k0 (slots w)) as [o0|] eqn:E0.
    + destruct (create o0).
      { split; [reflexivity|]. split; [lia|]. auto. }
      cbv zeta. set (m := tfresh w).
      match goal with |- context [wrap_as_managed create keys body ?W] => set (w1 := W) end.
      destruct S as [S1 S2].
      assert (D1 : forall k, dget k (slots w1) = if String.eqb k0 k then Some m else dget k (slots w)).
      { intro k. unfold w1, set_slot. cbn [slots]. apply dget_dset. }
      assert (H1 : forall o, heap w1 o = if Nat.eqb o m then mkStorage (s_save (heap w o0)) None else heap w o).
      { intro o. reflexivity. }
      assert (F1 : tfresh w1 = Datatypes.S m) by reflexivity.
      assert (Sep : separate w1).
      { split.
        - intros k o Hk. rewrite D1 in Hk. rewrite F1. destruct (String.eqb k0 k); [injection Hk as <-; lia|].
          apply S1 in Hk. unfold m. lia.
        - intros k k' o Hk Hk'. rewrite D1 in Hk, Hk'.
          destruct (String.eqb_spec k0 k) as [<-|], (String.eqb_spec k0 k') as [<-|].
          + reflexivity.
          + injection Hk as <-. apply S1 in Hk'. unfold m in Hk'. lia.
          + injection Hk' as <-. apply S1 in Hk. unfold m in Hk. lia.
          + now apply (S2 k k' o). }
      specialize (IH w1 Sep). destruct (wrap_as_managed create keys body w1) as [w2 r].
      destruct IH as (I1 & I2 & I3 & I4). rewrite F1 in I2, I3, I4.
      assert (O0 : (o0 < m)%nat) by (now apply (S1 k0)).
      assert (U0 : forall k, dget k (slots w1) <> Some o0).
      { intros k Hk. rewrite D1 in Hk. destruct (String.eqb_spec k0 k) as [Ek|Nk]; [injection Hk as Hk; lia|].
        apply Nk. now apply (S2 k0 k o0). }
      assert (HO : heap w2 o0 = heap w o0).
      { rewrite I3 by (auto; lia). rewrite H1. destruct (Nat.eqb_spec o0 m); [lia|reflexivity]. }
      set (w3 := match r with
                 | Ret _ => set_heap w2 o0 (mkStorage (s_save (heap w2 o0)) (Some (st_get_state (heap w2 m))))
                 | Raise _ _ => w2
                 end).
      assert (L3 : slots w3 = slots w2 /\ tfresh w3 = tfresh w2 /\ forall o, o <> o0 -> heap w3 o = heap w2 o).
      { unfold w3. destruct r; unfold set_heap; cbn [slots tfresh heap]; repeat split; auto.
        intros o Ho. destruct (Nat.eqb_spec o o0); [congruence|reflexivity]. }
      destruct L3 as (L31 & L32 & L33).
      split; [|split; [|split]].
      * intro k. unfold set_slot. cbn [slots]. rewrite dget_dset, L31, I1, D1.
        destruct (String.eqb_spec k0 k) as [<-|]; [now rewrite E0|reflexivity].
      * unfold set_slot. cbn [tfresh]. rewrite L32. unfold m in *. lia.
      * intros o Ho U. unfold set_slot. cbn [heap]. rewrite L33 by (intros ->; now apply (U k0)).
        rewrite I3; [|unfold m in *; lia|].
        -- rewrite H1. destruct (Nat.eqb_spec o m); [unfold m in *; lia|reflexivity].
        -- intro k. rewrite D1. destruct (String.eqb_spec k0 k); [intros [= Em]; unfold m in *; lia|apply U].
      * destruct r as [x|e msg].
        -- destruct I4 as (wb & B & C & D & E & G). exists wb. split; [exact B|].
           assert (M2 : heap w2 m = heap (fst (body wb)) m).
           { apply G; [lia|]. intros k Hk. rewrite D1. destruct (String.eqb_spec k0 k) as [<-|]; [congruence|].
             intro Hm. apply S1 in Hm. unfold m in Hm. lia. }
           split; [|split; [|split]].
           ++ intros k o Hk Ho. destruct (String.eqb_spec k0 k) as [<-|Nk].
              ** assert (o = o0) by congruence. subst o. exists m. split; [|split; [|split; [|split]]].
                 --- rewrite D by exact N0. rewrite D1, String.eqb_refl. reflexivity.
                 --- unfold m. lia.
                 --- rewrite E by lia. rewrite H1, Nat.eqb_refl. reflexivity.
                 --- unfold set_slot, w3, set_heap. cbn [heap]. rewrite Nat.eqb_refl. cbn [s_save]. now rewrite HO.
                 --- intro key. unfold set_slot, w3, set_heap. cbn [heap]. rewrite Nat.eqb_refl, <- M2.
                     unfold st_getitem. cbn [s_cache]. reflexivity.
              ** destruct Hk as [->|Hk]; [congruence|].
                 assert (Ho' : dget k (slots w1) = Some o).
                 { rewrite D1. destruct (String.eqb_spec k0 k); [congruence|exact Ho]. }
                 assert (No : o <> o0) by (intros ->; now apply (U0 k)).
                 destruct (C k o Hk Ho') as (m' & A1 & A2 & A3 & A4 & A5). exists m'.
                 assert (Hw : heap w1 o = heap w o).
                 { rewrite H1. apply S1 in Ho. destruct (Nat.eqb_spec o m); [unfold m in *; lia|reflexivity]. }
                 rewrite Hw in A3, A4. split; [exact A1|]. split; [unfold m in *; lia|]. split; [exact A3|].
                 unfold set_slot. cbn [heap]. rewrite L33 by exact No. split; [exact A4|exact A5].
           ++ intros k Hk. rewrite D by (intro H; apply Hk; now right). rewrite D1.
              destruct (String.eqb_spec k0 k) as [->|]; [exfalso; apply Hk; now left|reflexivity].
           ++ intros o Ho. rewrite E by (unfold m in *; lia). rewrite H1.
              destruct (Nat.eqb_spec o m); [unfold m in *; lia|reflexivity].
           ++ intros o Ho U. unfold set_slot. cbn [heap].
              rewrite L33 by (intros ->; apply (U k0); [now left|exact E0]).
              apply G; [unfold m in *; lia|]. intros k Hk. rewrite D1. destruct (String.eqb_spec k0 k) as [<-|].
              ** congruence.
              ** apply U. now right.
        -- intros k o Hk Ho. unfold set_slot. cbn [heap].
           destruct (Nat.eq_dec o o0) as [->|No].
           ++ unfold w3. exact HO.
           ++ rewrite L33 by exact No.
              assert (Hw : heap w1 o = heap w o).
              { rewrite H1. apply S1 in Ho. destruct (Nat.eqb_spec o m); [unfold m in *; lia|reflexivity]. }
              rewrite <- Hw. destruct Hk as [->|Hk]; [congruence|].
              apply (I4 k); [exact Hk|]. rewrite D1. destruct (String.eqb_spec k0 k) as [->|]; [congruence|exact Ho].
    + specialize (IH w S). destruct (wrap_as_managed create keys body w) as [w' r].
      destruct IH as (I1 & I2 & I3 & I4). split; [exact I1|]. split; [exact I2|]. split; [exact I3|].
      destruct r as [x|e msg].
      * destruct I4 as (wb & B & C & D & E & G). exists wb. split; [exact B|]. split; [|split; [|split]].
        -- intros k o [->|Hk] Ho; [congruence|]. now apply C.
        -- intros k Hk. apply D. intro H. apply Hk. now right.
        -- exact E.
        -- intros o Ho U. apply G; [exact Ho|]. intros k Hk. apply U. now right.
      * intros k o [->|Hk] Ho; [congruence|]. now apply (I4 k).
Qed.
Print Assumptions c26_contents.

(** Training programs: operations on the storages of the model, in any number,
    ended by an exception anywhere. *)
Inductive tstmt : Type := TAppend (slot key : string) (v : val) (index : option Z) | TReset (slot : string).
Definition tstep (w : tworld) (s : tstmt) : tworld :=
  match s with
  | TAppend k key v i =>
    match dget k (slots w) with Some o => set_heap w o (fst (st_append (heap w o) key v i)) | None => w end
  | TReset k => match dget k (slots w) with Some o => set_heap w o (st_reset (heap w o)) | None => w end
  end.
Definition tprogram {R} (p : list tstmt) (r : outcome R) : body_of R := fun w => (fold_left tstep p w, r).
Lemma program_through_slots : forall R p (r : outcome R), through_slots (tprogram p r).
Proof.
  intros R p r w. unfold tprogram. cbn [fst]. revert w. induction p as [|s p IH]; intro w; [auto|].
  cbn [fold_left]. destruct (IH (tstep w s)) as (A & B & C).
  assert (E : slots (tstep w s) = slots w /\ tfresh (tstep w s) = tfresh w /\
    forall o, (forall k, dget k (slots w) <> Some o) -> heap (tstep w s) o = heap w o).
  { destruct s as [k key v i|k]; cbn [tstep]; destruct (dget k (slots w)) as [o'|] eqn:G; auto;
      unfold set_heap; cbn [slots tfresh heap]; (split; [reflexivity|split; [reflexivity|]]);
      intros o U; (destruct (Nat.eqb_spec o o') as [->|]; [exfalso; now apply (U k)|reflexivity]). }
  destruct E as (E1 & E2 & E3). rewrite A, E1. split; [reflexivity|]. split; [lia|].
  intros o Ho U. rewrite C; [now apply E3|lia|]. intro k. rewrite E1. apply U.
Qed.

(** The model of the GUI (two storages, both wrapped): three records are made,
    with or without an exception afterwards. *)
Definition gui_world : tworld :=
  mkTworld (fun o => mkStorage true (match o with 0%nat => Some [("decision", [VBool true; VBool true])] | _ => None end))
    [("beat_decisor__intermediate", 0%nat); ("sinusoidal__intermediate", 1%nat)] 2 [].
Definition gui_program : list tstmt :=
  [TReset "sinusoidal__intermediate"; TAppend "sinusoidal__intermediate" "stft" (VInt 4) None;
   TAppend "sinusoidal__intermediate" "stft" (VInt 5) None; TAppend "beat_decisor__intermediate" "decision" (VBool false) (Some 0%Z)].
Example c26_example :
  separate gui_world /\ NoDup managed_keys /\
  (let w := fst (wrap_as_managed (fun _ => None) managed_keys (tprogram gui_program (Ret tt)) gui_world) in
   st_getitem (heap w 0) "decision" = Ret [VBool false] /\ st_getitem (heap w 1) "stft" = Ret [VInt 4; VInt 5]) /\
  (let w := fst (wrap_as_managed (fun _ => None) managed_keys (tprogram gui_program (Raise (A := unit) ValueError "")) gui_world) in
   st_getitem (heap w 0) "decision" = Ret [VBool true; VBool true] /\ st_getitem (heap w 1) "stft" = Raise KeyError "stft").
Proof.
  split; [|split; [|split]].
  - split.
    + intros k o H. cbn [gui_world slots dget tfresh] in *. repeat (destruct (String.eqb _ _); [injection H as <-; lia|]). discriminate.
    + intros k k' o H H'. cbn [gui_world slots dget] in *.
      destruct (String.eqb_spec "beat_decisor__intermediate" k) as [<-|], (String.eqb_spec "beat_decisor__intermediate" k') as [<-|];
      try (destruct (String.eqb_spec "sinusoidal__intermediate" k) as [<-|]);
      try (destruct (String.eqb_spec "sinusoidal__intermediate" k') as [<-|]); congruence.
  - repeat constructor; simpl; intuition discriminate.
  - vm_compute. auto.
  - vm_compute. auto.
Qed.

(** A storage shared by two parameters does not get what both recorded: the
    copy made last overwrites the other one. *)
Theorem c26_shared_refuted : exists w (p : list tstmt),
  dget "beat_decisor__intermediate" (slots w) = dget "sinusoidal__intermediate" (slots w) /\
  let w' := fst (wrap_as_managed (fun _ => None) managed_keys (tprogram p (Ret tt)) w) in
  st_getitem (heap (fst (tprogram p (Ret tt) w)) 0) "stft" = Ret [VInt 4] /\
  st_getitem (heap w' 0) "stft" = Raise KeyError "stft".
Proof.
  exists (mkTworld (fun _ => mkStorage true None) [("beat_decisor__intermediate", 0%nat); ("sinusoidal__intermediate", 0%nat)] 1 []).
  exists [TAppend "sinusoidal__intermediate" "stft" (VInt 4) None; TAppend "beat_decisor__intermediate" "decision" (VBool true) (Some 0%Z)].
  split; [reflexivity|]. vm_compute. auto.
Qed.
Print Assumptions c26_shared_refuted.

(** Whatever the training does and however it ends, the context closes exactly
    the resources it opened: a manager unless one was given, a pool unless one
    was given, and none if it does not work in parallel.  The training runs
    while they are open. *)
Definition keeps_open {R} (body : body_of R) : Prop := forall w, opened (fst (body w)) = opened w.
Lemma wrap_keeps_open : forall R create keys (body : body_of R), keeps_open body -> keeps_open (wrap_as_managed create keys body).
Proof.
  intros R create keys body K. induction keys as [|k keys IH]; [exact K|]. intro w. cbn [wrap_as_managed]. unfold wrap_one.
  destruct (dget k (slots w)) as [o|]; [|apply IH]. destruct (create o); [reflexivity|]. cbv zeta.
  match goal with |- context [wrap_as_managed create keys body ?W] => set (w1 := W); pose proof (IH w1) as E end.
  destruct (wrap_as_managed create keys body w1) as [w2 r]. cbn [fst] in *. unfold set_slot. cbn [opened].
  destruct r; exact E.
Qed.
(** The outcome of the context is that of a run of the body, or an error of the
    manager or of the pool before the body could run. *)
Lemma wrap_runs : forall R create keys (body : body_of R) w,
  exists wb, (snd (wrap_as_managed create keys body w) = snd (body wb) \/
              exists o e, create o = Some e /\ snd (wrap_as_managed create keys body w) = Raise e "manager") /\
    opened wb = opened w.
Proof.
  intros R create keys body. induction keys as [|k keys IH]; intro w; [exists w; auto|]. cbn [wrap_as_managed]. unfold wrap_one.
  destruct (dget k (slots w)) as [o|]; [|apply IH]. destruct (create o) as [e|] eqn:E.
  - exists w. split; [right; exists o, e; auto|reflexivity].
  - cbv zeta. match goal with |- context [wrap_as_managed create keys body ?W] => set (w1 := W); destruct (IH w1) as (wb & H & O) end.
    exists wb. destruct (wrap_as_managed create keys body w1) as [w2 r]. cbn [snd] in *. split; [exact H|exact O].
Qed.
Theorem c26_resources : forall R create n_jobs manager pool (body : bool -> body_of R) w,
  (forall b, keeps_open (body b)) ->
  let '(w', r) := training_context create n_jobs manager pool body w in
  opened w' = opened w /\
  ((exists parallel wb, r = snd (body parallel wb) /\
      (if parallel then pool = true \/ n_jobs <> Some 0%Z else pool = false /\ n_jobs = Some 0%Z) /\
      opened wb = (if parallel then (if pool then [] else [RPool n_jobs]) ++ (if manager then [] else [RManager]) else []) ++ opened w) \/
   (exists o e, create o = Some e /\ r = Raise e "manager") \/
   (pool = false /\ (exists n, n_jobs = Some n /\ (n < 0)%Z) /\ exists m, r = Raise ValueError m)).
Proof.
  intros R create n_jobs manager pool body w K. unfold training_context.
  destruct (negb pool && match n_jobs with Some n => Z.eqb n 0 | None => false end) eqn:Sm.
  - pose proof (K false w) as E. destruct (body false w) as [w' r] eqn:B. cbn [fst] in E. split; [exact E|].
    left. exists false, w. rewrite B. apply andb_true_iff in Sm. destruct Sm as [P N]. destruct pool; [discriminate|].
    destruct n_jobs as [n|]; [|discriminate]. apply Z.eqb_eq in N. subst n. auto.
  - assert (Par : pool = true \/ n_jobs <> Some 0%Z).
    { destruct pool; [now left|right]. intros ->. discriminate. }
    set (managed := wrap_as_managed create managed_keys (body true)).
    assert (KM : keeps_open managed) by (apply wrap_keeps_open, K).
    set (pooled := if pool then managed else with_pool n_jobs managed).
    assert (P : forall w, let '(w', r) := pooled w in opened w' = opened w /\
      ((exists wb, r = snd (body true wb) /\ opened wb = (if pool then [] else [RPool n_jobs]) ++ opened w) \/
       (exists o e, create o = Some e /\ r = Raise e "manager") \/
       (pool = false /\ (exists n, n_jobs = Some n /\ (n < 0)%Z) /\ exists m, r = Raise ValueError m))).
    { intro v. unfold pooled. destruct pool.
      - pose proof (KM v) as E. destruct (wrap_runs R create managed_keys (body true) v) as (wb & H & O). fold managed in H.
        destruct (managed v) as [w' r]. cbn [fst snd] in *. split; [exact E|]. destruct H as [H|H]; [left; exists wb; auto|right; left; exact H].
      - unfold with_pool. destruct n_jobs as [n|].
        + destruct (Z.ltb_spec n 1).
          * split; [reflexivity|]. right. right. split; [reflexivity|]. split; [|eexists; reflexivity].
            exists n. split; [reflexivity|]. destruct Par as [|Par]; [discriminate|]. assert (n <> 0%Z) by congruence. lia.
          * unfold with_resource. set (v1 := set_opened v (RPool (Some n) :: opened v)).
            pose proof (KM v1) as E. destruct (wrap_runs R create managed_keys (body true) v1) as (wb & H1 & O). fold managed in H1.
            destruct (managed v1) as [w' r]. cbn [fst snd] in *. cbn [set_opened opened]. rewrite E. split; [reflexivity|].
            destruct H1 as [H1|H1]; [left; exists wb; auto|right; left; exact H1].
        + unfold with_resource. set (v1 := set_opened v (RPool None :: opened v)).
          pose proof (KM v1) as E. destruct (wrap_runs R create managed_keys (body true) v1) as (wb & H1 & O). fold managed in H1.
          destruct (managed v1) as [w' r]. cbn [fst snd] in *. cbn [set_opened opened]. rewrite E. split; [reflexivity|].
          destruct H1 as [H1|H1]; [left; exists wb; auto|right; left; exact H1]. }
    destruct manager.
    + specialize (P w). destruct (pooled w) as [w' r]. destruct P as [E [H|H]]; (split; [exact E|]); [left|right; exact H].
      destruct H as (wb & -> & O). exists true, wb. rewrite app_nil_r. auto.
    + unfold with_resource. specialize (P (set_opened w (RManager :: opened w))).
      destruct (pooled (set_opened w (RManager :: opened w))) as [w' r]. destruct P as [E H].
      cbn [set_opened opened] in *. rewrite E. split; [reflexivity|]. destruct H as [H|H]; [left|right; exact H].
      destruct H as (wb & -> & O). exists true, wb. split; [reflexivity|]. split; [exact Par|].
      rewrite O, <- app_assoc. reflexivity.
Qed.
Print Assumptions c26_resources.
Lemma program_keeps_open : forall R p (r : outcome R), keeps_open (tprogram p r).
Proof.
  intros R p r w. unfold tprogram. cbn [fst]. revert w. induction p as [|s p IH]; intro w; [reflexivity|].
  cbn [fold_left]. rewrite IH. destruct s as [k key v i|k]; cbn [tstep]; destruct (dget k (slots w)); reflexivity.
Qed.
Example c26_resources_example :
  (forall b, keeps_open ((fun _ : bool => tprogram gui_program (Ret tt)) b)) /\
  snd (training_context (fun _ => None) (Some 2%Z) false false
         (fun par w => (w, Ret (par, opened w))) gui_world) = Ret (true, [RPool (Some 2%Z); RManager]).
Proof. split; [intro; apply program_keeps_open|reflexivity]. Qed.

(** *** Fitting in parallel and in serial, with the storages *)

(** If nothing was recorded before and no job raises, a parallel fit (with any
    number of processes, given or created manager and pool, and any order of
    the appends) returns the results of the serial one and leaves the same
    records in the model's own storage. *)
Theorem c25_fit : forall B (js : list (job B)) l tr w o n_jobs manager pool,
  map snd js = map Ret l -> NoDup (map fst (concat (map fst js))) -> Permutation (concat (map fst js)) tr ->
  separate w -> dget "beat_decisor__intermediate" (slots w) = Some o -> s_cache (heap w o) = None ->
  (pool = true \/ (n_jobs = None \/ exists n, n_jobs = Some n /\ (0 < n)%Z)) ->
  let serial := training_context (fun _ => None) (Some 0%Z) false false (fit_tracks js tr) w in
  let parallel := training_context (fun _ => None) n_jobs manager pool (fit_tracks js tr) w in
  snd parallel = Ret l /\ snd serial = Ret l /\
  (forall k, dget k (slots (fst parallel)) = dget k (slots w)) /\
  forall key, st_getitem (heap (fst parallel) o) key = st_getitem (heap (fst serial) o) key.
Proof.
  intros B js l tr w o n_jobs manager pool R N P S O C Par. cbv zeta.
  assert (Es : training_context (fun _ => None) (Some 0%Z) false false (fit_tracks js tr) w = fit_tracks js tr false w) by reflexivity.
  rewrite Es. clear Es.
  assert (Ser : fit_tracks js tr false w = (set_heap w o (puts (heap w o) (concat (map fst js))), Ret l)).
  { unfold fit_tracks. rewrite O, (serial_ok B js _ l R). reflexivity. }
  rewrite Ser. cbn [fst snd].
  set (body := fit_tracks js tr true).
  assert (Col : snd (collect (map snd js)) = Ret l) by (rewrite R, collect_ret; reflexivity).
  assert (TS : through_slots body).
  { intro v. unfold body, fit_tracks. destruct (dget "beat_decisor__intermediate" (slots v)) as [o'|] eqn:G; cbn [fst]; [|auto].
    unfold set_heap. cbn [slots tfresh heap]. repeat split; [lia|]. intros o1 _ U.
    destruct (Nat.eqb_spec o1 o') as [->|]; [exfalso; now apply (U _ G)|reflexivity]. }
  assert (W : forall v, slots v = slots w -> heap v = heap w -> tfresh v = tfresh w ->
    let r := wrap_as_managed (fun _ => None) managed_keys body v in
    snd r = Ret l /\ (forall k, dget k (slots (fst r)) = dget k (slots w)) /\
    forall key, st_getitem (heap (fst r) o) key = st_getitem (puts (heap w o) (concat (map fst js))) key).
  { intros v V1 V2 V3. cbv zeta.
    assert (Sv : separate v) by (destruct S; split; rewrite V1, ?V3; assumption).
    assert (Nk : NoDup managed_keys) by (repeat constructor; simpl; intuition discriminate).
    pose proof (c26_contents (list B) (fun _ => None) managed_keys body v Nk Sv TS) as H.
    assert (Rt : snd (wrap_as_managed (fun _ => None) managed_keys body v) = Ret l).
    { destruct (wrap_runs (list B) (fun _ => None) managed_keys body v) as (wb & [E|(o' & e & [=] & _)] & _).
      rewrite E. unfold body, fit_tracks. destruct (dget "beat_decisor__intermediate" (slots wb)); exact Col. }
    destruct (wrap_as_managed (fun _ => None) managed_keys body v) as [w' r]. cbn [fst snd] in *. subst r.
    destruct H as (H1 & _ & _ & wb & _ & H4 & _). split; [reflexivity|]. split; [intro k; rewrite H1; now rewrite V1|].
    destruct (H4 "beat_decisor__intermediate" o) as (m & A1 & _ & A3 & _ & A5); [now left|now rewrite V1|].
    intro key. rewrite A5. unfold body, fit_tracks. rewrite A1. cbn [fst]. unfold set_heap. cbn [heap]. rewrite Nat.eqb_refl, A3, V2.
    replace (mkStorage (s_save (heap w o)) None) with (heap w o) by (destruct (heap w o); cbn in *; congruence).
    symmetry. rewrite !puts_puts. now apply c27_any_order. }
  assert (Fin : forall (r : tworld * outcome (list B)) f, (forall v, heap (f v) = heap v /\ slots (f v) = slots v) ->
    (snd r = Ret l /\ (forall k, dget k (slots (fst r)) = dget k (slots w)) /\
     forall key, st_getitem (heap (fst r) o) key = st_getitem (puts (heap w o) (concat (map fst js))) key) ->
    snd (f (fst r), snd r) = Ret l /\ (forall k, dget k (slots (fst (f (fst r), snd r))) = dget k (slots w)) /\
    forall key, st_getitem (heap (fst (f (fst r), snd r)) o) key = st_getitem (puts (heap w o) (concat (map fst js))) key).
  { intros r f F H. cbn [fst snd]. destruct (F (fst r)) as [-> ->]. exact H. }
  assert (Goal : forall v, slots v = slots w -> heap v = heap w -> tfresh v = tfresh w ->
    let r := (if pool then wrap_as_managed (fun _ => None) managed_keys body else with_pool n_jobs (wrap_as_managed (fun _ => None) managed_keys body)) v in
    snd r = Ret l /\ (forall k, dget k (slots (fst r)) = dget k (slots w)) /\
    forall key, st_getitem (heap (fst r) o) key = st_getitem (puts (heap w o) (concat (map fst js))) key).
  { intros v V1 V2 V3. cbv zeta. destruct pool; [now apply W|]. unfold with_pool.
    replace (match n_jobs with Some n => (n <? 1)%Z | None => false end) with false
      by (destruct Par as [Par|[-> |(n & -> & Hn)]]; [discriminate|reflexivity|symmetry; apply Z.ltb_ge; lia]).
    unfold with_resource. set (v1 := set_opened v (RPool n_jobs :: opened v)).
    specialize (W v1 V1 V2 V3). cbv zeta in W. destruct (wrap_as_managed (fun _ => None) managed_keys body v1) as [w' r].
    apply (Fin (w', r) (fun w' => set_opened w' (tl (opened w')))); [now split|exact W]. }
  assert (Eq : st_getitem (heap (set_heap w o (puts (heap w o) (concat (map fst js)))) o) = st_getitem (puts (heap w o) (concat (map fst js))))
    by (unfold set_heap; cbn [heap]; now rewrite Nat.eqb_refl).
  rewrite Eq. unfold training_context.
  replace (negb pool && match n_jobs with Some n => (n =? 0)%Z | None => false end) with false.
  2: { destruct pool; [reflexivity|]. destruct Par as [Par|[-> |(n & -> & Hn)]]; [discriminate|reflexivity|].
       symmetry. cbn [negb andb]. apply Z.eqb_neq. lia. }
  fold body. destruct manager.
  - destruct (Goal w eq_refl eq_refl eq_refl) as (A & B0 & D). auto.
  - unfold with_resource. set (v1 := set_opened w (RManager :: opened w)).
    specialize (Goal v1 eq_refl eq_refl eq_refl). cbv zeta in Goal.
    destruct ((if pool then wrap_as_managed (fun _ => None) managed_keys body else with_pool n_jobs (wrap_as_managed (fun _ => None) managed_keys body)) v1) as [w' r].
    destruct (Fin (w', r) (fun w' => set_opened w' (tl (opened w')))) as (A & B0 & D); [now split|exact Goal|].
    cbn [fst snd] in *. auto.
Qed.
Print Assumptions c25_fit.

(** With records of an earlier fit the two modes differ: the serial fit keeps
    the decisions of tracks that no longer exist, the parallel fit does not. *)
Theorem c25_refit_refuted : exists w (js : list (job unit)) tr,
  separate w /\ Permutation (concat (map fst js)) tr /\ map snd js = map Ret [tt] /\
  let serial := training_context (fun _ => None) (Some 0%Z) false false (fit_tracks js tr) w in
  let parallel := training_context (fun _ => None) (Some 2%Z) false false (fit_tracks js tr) w in
  st_getitem (heap (fst serial) 0) "decision" <> st_getitem (heap (fst parallel) 0) "decision".
Proof.
  exists gui_world, [decision_job 0 (VInt 3) false tt]. eexists. split; [apply c26_example|]. split; [apply Permutation_refl|].
  split; [reflexivity|]. vm_compute. discriminate.
Qed.
Print Assumptions c25_refit_refuted.

(** A storage that is switched off has a [cache_] after a parallel fit, but not
    after a serial one. *)
Theorem c25_inactive_cache_refuted : exists w (js : list (job unit)) tr,
  s_save (heap w 0) = false /\
  let serial := training_context (fun _ => None) (Some 0%Z) false false (fit_tracks js tr) w in
  let parallel := training_context (fun _ => None) (Some 2%Z) false false (fit_tracks js tr) w in
  s_cache (heap (fst serial) 0) = None /\ s_cache (heap (fst parallel) 0) = Some [].
Proof.
  exists (mkTworld (fun _ => mkStorage false None) [("beat_decisor__intermediate", 0%nat)] 1 []), [], [].
  vm_compute. auto.
Qed.
Print Assumptions c25_inactive_cache_refuted.
Example c25_fit_example :
  let js := [decision_job 0 (VInt 1) true 10%Z; decision_job 1 (VInt 2) false 20%Z] in
  let w := mkTworld (fun _ => mkStorage true None) [("beat_decisor__intermediate", 0%nat)] 1 [] in
  let tr := [("test", 1%nat, VInt 2); ("test", 0%nat, VInt 1); ("decision", 1%nat, VBool false); ("decision", 0%nat, VBool true)] in
  Permutation (concat (map fst js)) tr /\
  let r := training_context (fun _ => None) (Some 2%Z) false false (fit_tracks js tr) w in
  snd r = Ret [10; 20]%Z /\ st_getitem (heap (fst r) 0) "decision" = Ret [VBool true; VBool false].
Proof.
  cbv zeta. split; [|vm_compute; auto]. cbn [map fst concat decision_job app].
  apply Permutation_trans with [("test", 0%nat, VInt 1); ("decision", 0%nat, VBool true); ("test", 1%nat, VInt 2); ("decision", 1%nat, VBool false)];
    [apply Permutation_refl|].
  set (a := ("test", 0%nat, VInt 1)). set (b := ("decision", 0%nat, VBool true)). set (c := ("test", 1%nat, VInt 2)).
  set (d := ("decision", 1%nat, VBool false)).
  apply Permutation_trans with [a; c; b; d]; [apply perm_skip, perm_swap|].
  apply Permutation_trans with [c; a; b; d]; [apply perm_swap|]. apply perm_skip, perm_skip, perm_swap.
Qed.
