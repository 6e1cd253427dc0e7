(** Louder and quieter recordings: C92. *)
From Coquelicot Require Import Coquelicot.
From Coq Require Import String List Bool ZArith Reals Lra Lia Permutation Sorted.
Import ListNotations.
From Verif Require Import Base Py PyLemmas ListLemmas RLists Stft_Model Dft_Model Dft_Proofs Tracker_Model
  Tracker_Proofs Dsp_Model Sample_Model Sample_Spec Sample_Proofs Sample_Props Bank_Model Bank_Proofs Beat_Model
  Np_Model Hinge_Props Pipe_Model Pipe_Spec Pipe_Proofs Pipe_Agree Pipe_Props.
Local Open Scope R_scope.

(** ** Spec *)

(** The recording multiplied by [g]; [g] in decibels. *)
Definition amplified (g : R) (x : list R) : list R := map (Rmult g) x.
Definition gain_db (g : R) : R := 20 * (ln g / ln 10).
(** A peak and a track whose levels are [s] dB higher. *)
Definition louder_peak (s : R) (p : rpeak) : rpeak := mkRPeak (rp_f p) (rp_m p + s) (rp_p p).
Definition raise (s : R) (l : list (option R)) : list (option R) := map (option_map (fun v => v + s)) l.
Definition louder (s : R) (t : rtrack) : rtrack := mkRTrack (r_start t) (r_freq t) (raise s (r_mag t)) (r_ph t).
(** The model with its two thresholds [s] dB higher. *)
Definition raised_modal (s : R) (m : rmcfg) : rmcfg :=
  mkRMCfg (g_base m) (g_fmin m) (g_fmax m) (g_thr m + s) (g_rev m) (g_strategy m) (g_strip m).
Definition raised_tracker (s : R) (t : rtracker) : rtracker :=
  match t with
  | RSine c => RSine c
  | RModal m => RModal (raised_modal s m)
  end.
Definition raised (s : R) (o : rmodel) : rmodel :=
  mkRModel (rm_w o) (rm_n o) (option_map (fun v => v + s) (rm_t o)) (rm_padded o) (raised_tracker s (rm_tracker o)).
(** Phases do not depend on gain; the order of the peaks neither. *)
Definition phase_of_direction (phase : list R -> R -> R) : Prop :=
  forall g x loc, 0 < g -> phase (amplified g x) loc = phase x loc.
Definition order_of_levels (argsort : list rpeak -> list nat) : Prop :=
  forall s fr, argsort (map (louder_peak s) fr) = argsort fr.

(** ** Tracker *)

Definition louder_track (s : R) (t : ltrack) : ltrack :=
  mkLTrack (l_start t) (l_freq t) (map (fun v => v + s) (l_mag t)) (l_ph t).
Definition louder_state (s : R) (st : rstate) : rstate :=
  mkRState (map (louder s) (rsaved st)) (map (louder_track s) (ractive st)) (rnframe st).

Section Shift.
Variable s : R.
Notation LP := (louder_peak s).
Notation LT := (louder_track s).
Notation LS := (louder s).

Lemma lt_ltb : forall a b, Rltb (a + s) (b + s) = Rltb a b.
Proof.
  intros a b. destruct (Rltb a b) eqn:E.
  - apply Rltb_true in E. apply Rltb_true. lra.
  - apply Rltb_false in E. apply Rltb_false. lra.
Qed.
Lemma lt_nth : forall ts i, nth i (map LT ts) no_ltrack = LT (nth i ts no_ltrack).
Proof. intros. change no_ltrack with (LT no_ltrack) at 1. apply map_nth. Qed.
Lemma ls_nth : forall ts i, nth i (map LS ts) no_rtrack = LS (nth i ts no_rtrack).
Proof. intros. change no_rtrack with (LS no_rtrack) at 1. apply map_nth. Qed.
Lemma lp_nth : forall fr i, (i < List.length fr)%nat -> nth i (map LP fr) no_rpeak = LP (nth i fr no_rpeak).
Proof. intros. now apply nth_map_lt. Qed.
Lemma lt_numpy : forall t, rnumpy_track (LT t) = LS (rnumpy_track t).
Proof.
  intros t. unfold rnumpy_track, louder, louder_track, raise. cbn [l_start l_freq l_mag l_ph r_start r_freq r_mag r_ph].
  now rewrite !map_map.
Qed.
Lemma lt_push : forall t p, rpush (LT t) (LP p) = LT (rpush t p).
Proof.
  intros t p. unfold rpush, louder_track, louder_peak. cbn [l_start l_freq l_mag l_ph rp_f rp_m rp_p]. now rewrite map_app.
Qed.

Lemma lt_match : forall c fr order, Forall (fun i => (i < List.length fr)%nat) order -> forall ts ft fp,
  rmatch_loop c (map LP fr) order (map LT ts) ft fp =
  let '(ts', ft', fp') := rmatch_loop c fr order ts ft fp in (map LT ts', ft', fp').
Proof.
  intros c fr order HO. induction HO as [|pi rest Hp HO IH]; intros ts ft fp; cbn [rmatch_loop]; [reflexivity|].
  destruct (negb (existsb (fun b => b) ft)); [reflexivity|].
  rewrite map_length, lp_nth by exact Hp.
  set (it := filter (fun i => nth i ft false) (seq 0 (List.length ts))).
  rewrite (agree_min_key _ _ _ Rltb Rltb (fun v => v) it
    (fun i => Rabs (rlast_freq (nth i ts no_ltrack) - rp_f (nth pi fr no_rpeak)))).
  2:{ reflexivity. }
  2:{ intros i. rewrite lt_nth. reflexivity. }
  destruct (min_key Rltb it _) as [[ti d]|]; cbn [option_map fst snd]; [|apply IH].
  change (rp_f (LP (nth pi fr no_rpeak))) with (rp_f (nth pi fr no_rpeak)).
  destruct (Rltb d _); [|apply IH].
  rewrite lt_nth, lt_push, <- map_upd. apply IH.
Qed.

(** Magnitudes and frequencies of active tracks have the same length. *)
Definition wf (t : ltrack) : Prop := List.length (l_mag t) = List.length (l_freq t).
Lemma wf_nth : forall ts i, Forall wf ts -> wf (nth i ts no_ltrack).
Proof.
  intros ts i H. revert i. induction H as [|t ts Ht H IH]; intros [|i]; cbn [nth]; auto; reflexivity.
Qed.
Lemma wf_push : forall t p, wf t -> wf (rpush t p).
Proof. intros t p H. unfold wf, rpush in *. cbn [l_mag l_freq]. rewrite !app_length. cbn [List.length]. lia. Qed.
Lemma Forall_upd : forall (A : Type) (P : A -> Prop) i a l, P a -> Forall P l -> Forall P (upd i a l).
Proof. intros A P i a l Ha H. revert i. induction H; intros [|i]; cbn [upd]; constructor; auto. Qed.
Lemma Forall_remove : forall (A : Type) (P : A -> Prop) i l, Forall P l -> Forall P (remove_nth i l).
Proof. intros A P i l H. revert i. induction H; intros [|i]; cbn [remove_nth]; auto. Qed.
Lemma wf_match : forall c fr order ts ft fp, Forall wf ts ->
  let '(ts', _, _) := rmatch_loop c fr order ts ft fp in Forall wf ts'.
Proof.
  intros c fr order. induction order as [|pi rest IH]; intros ts ft fp H; cbn [rmatch_loop]; [exact H|].
  destruct (negb (existsb (fun b => b) ft)); [exact H|].
  destruct (min_key Rltb _ _) as [[ti d]|]; [|now apply IH].
  destruct (Rltb d _); [|now apply IH]. apply IH. apply Forall_upd; auto. apply wf_push. now apply wf_nth.
Qed.
Lemma wf_activate : forall c n fr ps ts, Forall wf ts -> Forall wf (ractivate_loop c n fr ps ts).
Proof.
  intros c n fr ps. induction ps as [|p ps IH]; intros ts H; cbn [ractivate_loop]; [exact H|].
  destruct (Z.leb _ _); [exact H|]. apply IH. apply Forall_app. split; [exact H|]. constructor; [reflexivity|constructor].
Qed.

Definition deact_shift (d d' : rdeactivator) : Prop :=
  forall sv t, wf t -> d' (map LS sv) (LT t) = map_res (map LS) (d sv t).
Lemma lt_sine_deact : forall c, deact_shift (rsine_deact c) (rsine_deact c).
Proof.
  intros c sv t _. unfold rsine_deact. cbn [map_res]. change (rsine_ok c (LT t)) with (rsine_ok c t).
  destruct (rsine_ok c t); [|reflexivity]. rewrite map_app. cbn [map]. now rewrite lt_numpy.
Qed.
Lemma lt_deact_loop : forall d d', deact_shift d d' -> forall ft sv ts, Forall wf ts ->
  rdeact_loop d' ft (map LS sv) (map LT ts) = map_res (fun p => (map LS (fst p), map LT (snd p))) (rdeact_loop d ft sv ts) /\
  match rdeact_loop d ft sv ts with Ok p => Forall wf (snd p) | Err _ => True end.
Proof.
  intros d d' HD ft sv ts. unfold rdeact_loop. rewrite map_length.
  generalize (filter (fun i => nth i ft false) (rev (seq 0 (List.length ts)))) as l.
  intros l. revert sv ts. induction l as [|i l IH]; intros sv ts H; [split; [reflexivity|exact H]|]. cbn [foldM fst snd].
  rewrite lt_nth, HD by now apply wf_nth.
  destruct (d sv (nth i ts no_ltrack)) as [sv'|e]; cbn [map_res]; [|split; [reflexivity|exact I]].
  rewrite <- map_remove. apply IH. now apply Forall_remove.
Qed.
Lemma lt_activate : forall c n fr ps, Forall (fun i => (i < List.length fr)%nat) ps -> forall ts,
  ractivate_loop c n (map LP fr) ps (map LT ts) = map LT (ractivate_loop c n fr ps ts).
Proof.
  intros c n fr ps HP. induction HP as [|p ps Hp HP IH]; intros ts; cbn [ractivate_loop]; [reflexivity|].
  rewrite map_length. destruct (Z.leb _ _); [reflexivity|].
  rewrite <- IH, map_app. cbn [map]. rewrite lp_nth by exact Hp. reflexivity.
Qed.
Lemma lt_step : forall c d d', deact_shift d d' -> forall st fr order, Forall (fun i => (i < List.length fr)%nat) order ->
  Forall wf (ractive st) ->
  rstep c d' (louder_state s st) (map LP fr, order) = map_res (louder_state s) (rstep c d st (fr, order)) /\
  match rstep c d st (fr, order) with Ok st' => Forall wf (ractive st') | Err _ => True end.
Proof.
  intros c d d' HD st fr order HO HW. unfold rstep, louder_state. cbn [rsaved ractive rnframe].
  rewrite !map_length, lt_match by exact HO.
  pose proof (wf_match c fr order (ractive st) (repeat true (List.length (ractive st))) (repeat true (List.length fr)) HW) as WM.
  destruct (rmatch_loop c fr order (ractive st) _ _) as [[ts ft] fp].
  destruct (lt_deact_loop d d' HD ft (rsaved st) ts WM) as [E W]. rewrite E.
  destruct (rdeact_loop d ft (rsaved st) ts) as [[sv ts1]|e]; cbn [map_res bind fst snd]; [|split; [reflexivity|exact I]].
  cbn [rsaved ractive rnframe snd] in *. split; [|now apply wf_activate]. rewrite lt_activate; [reflexivity|].
  apply Forall_forall. intros i Hi. apply filter_In in Hi. destruct Hi as [Hi _]. apply in_seq in Hi. lia.
Qed.

(** ** Modal tracker *)

Notation RM := (raised_modal s).

Lemma rsum_shift : forall l, rsum (map (fun v => v + s) l) = rsum l + INR (List.length l) * s.
Proof.
  induction l as [|a l IH]; [cbn; ring|]. cbn [map]. change (List.length (a :: l)) with (S (List.length l)).
  rewrite S_INR. repeat change (rsum (?u :: ?v)) with (u + rsum v). rewrite IH. ring.
Qed.
Lemma rmean_shift : forall l, l <> [] -> rmean (map (fun v => v + s) l) = rmean l + s.
Proof.
  intros l N. unfold rmean. rewrite rsum_shift, map_length. field. apply not_0_INR. destruct l; [easy|discriminate].
Qed.
Lemma coef_shift : forall xs ys, ys <> [] -> rols_coef xs (map (fun v => v + s) ys) = rols_coef xs ys.
Proof.
  intros xs ys N. unfold rols_coef. rewrite rmean_shift by exact N. f_equal. f_equal.
  generalize (rmean xs) (rmean ys). intros mx my. clear N. revert xs. induction ys as [|y ys IH]; intros [|x xs]; cbn [map combine fst snd]; auto.
  f_equal; [ring|apply IH].
Qed.
Lemma lt_modal_ok : forall m t, wf t -> rmodal_ok (RM m) (LT t) = rmodal_ok m t.
Proof.
  intros m t W. unfold rmodal_ok. cbn [raised_modal g_base g_fmin g_fmax g_thr g_rev].
  change (rsine_ok (g_base m) (LT t)) with (rsine_ok (g_base m) t).
  change (l_freq (LT t)) with (l_freq t). change (l_mag (LT t)) with (map (fun v => v + s) (l_mag t)). rewrite map_length.
  destruct (rsine_ok (g_base m) t) eqn:ES; [|reflexivity]. cbn [negb].
  assert (N : l_mag t <> []).
  { unfold rsine_ok, rmin_sine_len in ES. apply Z.leb_le in ES. unfold wf in W. intros E. rewrite E in W. cbn in W. lia. }
  unfold rols_intercept. rewrite coef_shift, rmean_shift by exact N.
  set (xs := rlm_x (g_rev m) (List.length (l_mag t))).
  replace (rmean (l_mag t) + s - rols_coef xs (l_mag t) * rmean xs)
    with (rmean (l_mag t) - rols_coef xs (l_mag t) * rmean xs + s) by ring.
  rewrite lt_ltb. reflexivity.
Qed.
Lemma raise_length : forall l, List.length (raise s l) = List.length l.
Proof. intros l. unfold raise. apply map_length. Qed.
Lemma ls_zlen : forall t, zlen (r_mag (LS t)) = zlen (r_mag t).
Proof. intros t. unfold zlen, louder. cbn [r_mag]. now rewrite raise_length. Qed.
Lemma ls_glue : forall u t, rglue1 (LS u) (LS t) = LS (rglue1 u t).
Proof.
  intros u t. unfold rglue1. rewrite ls_zlen. unfold louder. cbn [r_start r_freq r_mag r_ph].
  unfold raise. rewrite !map_app.
  assert (E : forall n, map (option_map (fun v : R => v + s)) (repeat None n) = repeat None n).
  { induction n as [|n IH]; [reflexivity|]. cbn [repeat map option_map]. now rewrite IH. }
  now rewrite E.
Qed.
Lemma lt_modal_deact : forall m, deact_shift (rmodal_deact m) (rmodal_deact (RM m)).
Proof.
  intros m sv t W. unfold rmodal_deact. cbv zeta. rewrite lt_modal_ok by exact W. destruct (rmodal_ok m t); [|reflexivity].
  change (rfreq_diff_function (RM m)) with (rfreq_diff_function m).
  destruct (rfreq_diff_function m) as [d|e] eqn:ED; [|reflexivity].
  assert (DS : forall u v, d (LS u) (LS v) = d u v).
  { unfold rfreq_diff_function in ED. destruct (String.eqb _ _); [|destruct (String.eqb _ _); [|discriminate]];
      injection ED as <-; reflexivity. }
  rewrite map_length, lt_numpy.
  assert (EF : filter (fun i => Z.ltb (r_start (nth i (map LS sv) no_rtrack) + zlen (r_mag (nth i (map LS sv) no_rtrack)))
                                      (r_start (LS (rnumpy_track t)))) (seq 0 (List.length sv)) =
    filter (fun i => Z.ltb (r_start (nth i sv no_rtrack) + zlen (r_mag (nth i sv no_rtrack)))
                           (r_start (rnumpy_track t))) (seq 0 (List.length sv))).
  { apply filter_ext. intros i. rewrite ls_nth, ls_zlen. reflexivity. }
  rewrite EF. set (it := filter _ _).
  rewrite (agree_min_key _ _ _ rnan_ltb rnan_ltb (fun v => v) it (fun i => d (nth i sv no_rtrack) (rnumpy_track t))).
  2:{ reflexivity. }
  2:{ intros i. rewrite ls_nth. apply DS. }
  assert (EA : map_res (map LS) (Ok (sv ++ [rnumpy_track t])) = Ok (map LS sv ++ [LS (rnumpy_track t)])).
  { cbn [map_res]. now rewrite map_app. }
  destruct (min_key rnan_ltb it _) as [[i x]|]; cbn [option_map fst snd]; [|now rewrite EA].
  cbn [raised_modal g_base]. change (l_freq (LT t)) with (l_freq t). destruct (rnan_ltb x _); [|now rewrite EA].
  cbn [map_res]. now rewrite map_upd, ls_nth, ls_glue.
Qed.

Lemma lt_all : forall tr st, Forall wf (ractive st) ->
  rt_all (raised_tracker s tr) (louder_state s st) = map LS (rt_all tr st).
Proof.
  intros tr st W.
  assert (G : forall ok ok' : ltrack -> bool, (forall t, wf t -> ok' (LT t) = ok t) ->
    rall_tracks ok' (louder_state s st) = map LS (rall_tracks ok st)).
  { intros ok ok' H. unfold rall_tracks, louder_state. cbn [rsaved ractive]. rewrite map_app. f_equal.
    induction W as [|t l Ht W IH]; [reflexivity|]. cbn [map filter]. rewrite H by exact Ht. destruct (ok t); [|exact IH].
    cbn [map]. now rewrite IH, lt_numpy. }
  destruct tr as [c|m]; cbn [rt_all raised_tracker].
  - apply G. reflexivity.
  - unfold rmodal_all_tracks. rewrite (G (rmodal_ok m) _ (lt_modal_ok m)). cbn [raised_modal g_strip g_base g_rev].
    destruct (g_strip m) as [b|]; [|reflexivity]. cbv zeta.
    assert (F : forall (f f' : rtrack -> bool) l, (forall t, f' (LS t) = f t) -> filter f' (map LS l) = map LS (filter f l)).
    { intros f f' l H. induction l as [|t l IH]; [reflexivity|]. cbn [map filter]. rewrite H. destruct (f t); [|exact IH].
      cbn [map]. now rewrite IH. }
    apply F. intros t. rewrite ls_zlen. reflexivity.
Qed.
Lemma lt_deact : forall tr, deact_shift (rt_deact tr) (rt_deact (raised_tracker s tr)).
Proof. intros [c|m]; [apply lt_sine_deact|apply lt_modal_deact]. Qed.
End Shift.

(** ** Whole analysis *)

Lemma amplified_nth : forall g x i, nth i (amplified g x) 0 = g * nth i x 0.
Proof. intros. unfold amplified. replace 0 with (g * 0) at 1 by ring. apply map_nth. Qed.
Lemma amplified_length : forall g x, List.length (amplified g x) = List.length x.
Proof. intros. apply map_length. Qed.
Lemma frame_amplified : forall w h i g x, frame_of w h i (amplified g x) = amplified g (frame_of w h i x).
Proof.
  intros. unfold frame_of. unfold amplified at 2. rewrite map_map. apply map_ext. intros j. apply amplified_nth.
Qed.
Lemma detect_amplified : forall lev lev' s n t, (0 <= n)%Z -> (forall k, (0 <= k <= n / 2)%Z -> lev' k = lev k + s) ->
  rpeak_detect (map lev' (zrange (n / 2 + 1))) (option_map (fun v => v + s) t) =
  rpeak_detect (map lev (zrange (n / 2 + 1))) t.
Proof.
  intros lev lev' s n t Hn H. apply sorted_same; try apply detect_sorted. intros k.
  rewrite !detect_iff by exact Hn. 
  assert (HP : local_peak lev' n k <-> local_peak lev n k).
  { split; [apply local_peak_shift with (s := s)|apply local_peak_shift with (s := - s)];
      intros j Hj; rewrite H by exact Hj; ring. }
  rewrite HP. split; intros [P A]; (split; [exact P|]); destruct P as (P1 & P2 & _); destruct t as [t|]; cbn in *; auto;
    rewrite H in * by lia; lra.
Qed.

(** Gain [g] and thresholds raised by the same amount: same tracks, levels raised by
    that amount. *)
Theorem c92_tracks : forall phase argsort o x g,
  phase_of_direction phase -> order_of_levels argsort -> sorts argsort -> 0 < g ->
  well_posed o x -> well_posed o (amplified g x) ->
  rtracks phase argsort (raised (gain_db g) o) (amplified g x) =
  match rtracks phase argsort o x with Ok ts => Ok (map (louder (gain_db g)) ts) | Err e => Err e end.
Proof.
  intros phase argsort o x g HP HO HS Hg (W1 & W2 & W3 & W4 & W5) (_ & _ & _ & _ & W5').
  set (s := gain_db g). set (c := rt_cfg (rm_tracker o)).
  assert (EC : rt_cfg (rm_tracker (raised s o)) = c) by (unfold raised, c; cbn [rm_tracker]; destruct (rm_tracker o); reflexivity).
  assert (ER : rt_reverse (rm_tracker (raised s o)) = rt_reverse (rm_tracker o)) by (unfold raised; cbn [rm_tracker]; destruct (rm_tracker o); reflexivity).
  assert (EA : (if rt_reverse (rm_tracker o) then rev (amplified g x) else amplified g x) = amplified g (analysed o x)).
  { unfold analysed, amplified. destruct (rt_reverse (rm_tracker o)); [symmetry; apply map_rev|reflexivity]. }
  unfold rtracks. rewrite EC, ER, EA. fold c. change (if rt_reverse (rm_tracker o) then rev x else x) with (analysed o x).
  change (rm_padded (raised s o)) with (rm_padded o). change (rm_w (raised s o)) with (rm_w o). rewrite W1.
  set (w := List.length (rm_w o)). replace (zlen (rm_w o)) with (Z.of_nat w) by reflexivity.
  replace (Zpos (g_h c)) with (Z.of_nat (hop o)) by (unfold hop, c; lia).
  assert (Hh : (1 <= hop o)%nat) by (unfold hop; lia). assert (Hw : (1 <= w)%nat) by (unfold zlen in W2; fold w in W2; lia).
  assert (LA : List.length (analysed o x) = List.length x) by (unfold analysed; destruct (rt_reverse (rm_tracker o)); [apply rev_length|reflexivity]).
  rewrite (frames_ok w (hop o) (amplified g (analysed o x))), (frames_ok w (hop o) (analysed o x));
    rewrite ?amplified_length, ?LA; auto.
  cbn [bind]. 
  replace (frame_count w (hop o) (amplified g (analysed o x))) with (frame_count w (hop o) (analysed o x))
    by (unfold frame_count; now rewrite amplified_length).
  assert (ST : forall i st, (i < frame_count w (hop o) (analysed o x))%nat -> Forall wf (ractive st) ->
    rframe_step phase argsort (raised s o) (louder_state s st) (frame_of w (hop o) i (amplified g (analysed o x))) =
    map_res (louder_state s) (rframe_step phase argsort o st (frame_of w (hop o) i (analysed o x))) /\
    match rframe_step phase argsort o st (frame_of w (hop o) i (analysed o x)) with Ok st' => Forall wf (ractive st') | Err _ => True end).
  { intros i st Hi W. unfold rframe_step. rewrite EC. fold c. change (rm_n (raised s o)) with (rm_n o).
    change (rm_w (raised s o)) with (rm_w o). change (rm_t (raised s o)) with (option_map (fun v => v + s) (rm_t o)).
    set (n := rm_n o) in *. set (f := frame_of w (hop o) i (analysed o x)).
    set (f' := frame_of w (hop o) i (amplified g (analysed o x))).
    assert (EF : f' = amplified g f) by apply frame_amplified.
    rewrite (dft_level (rm_w o) f n), (dft_level (rm_w o) f' n); try lia; try apply frame_length.
    2:{ intros k Hk. unfold f'. pose proof (W5' i k) as Q. unfold frame, frames, analysed in Q.
        assert (EA' := EA). unfold analysed in EA' |- *. rewrite EA' in Q. apply Q; [|exact Hk].
        unfold frame_count. rewrite amplified_length. exact Hi. }
    2:{ intros k Hk. now apply W5. }
    cbn [bind]. assert (N0 : (0 <= n)%Z) by lia.
    set (lev := level (rm_w o) f n). set (lev' := level (rm_w o) f' n).
    assert (SH : forall k, (0 <= k <= n / 2)%Z -> lev' k = lev k + s).
    { intros k Hk. unfold lev', lev. rewrite EF. unfold amplified. apply level_scaled; [exact Hg|].
      eapply Rlt_le_trans; [apply float_eps_pos|]. now apply (W5 i k). }
    rewrite !rpeaks_ok by exact N0. cbn [bind]. rewrite (detect_amplified lev lev' s n (rm_t o) N0 SH).
    set (ks := rpeak_detect (map lev (zrange (n / 2 + 1))) (rm_t o)).
    set (fr := map (fun k => mkRPeak (vloc lev k * g_fs c / IZR n) (vlev lev k) (phase f (vloc lev k))) ks).
    assert (EP : map (fun k => mkRPeak (vloc lev' k * g_fs c / IZR n) (vlev lev' k) (phase f' (vloc lev' k))) ks =
                 map (louder_peak s) fr).
    { unfold fr. rewrite map_map. apply map_ext_in. intros k Hk. unfold ks in Hk. apply detect_iff in Hk; [|exact N0].
      destruct Hk as [(K1 & K2 & _) _].
      assert (SHk : forall j, (k - 1 <= j <= k + 1)%Z -> lev' j = lev j + s) by (intros j Hj; apply SH; lia).
      rewrite (vloc_shift _ _ _ _ SHk), (vlev_shift _ _ _ _ SHk). unfold louder_peak. cbn [rp_f rp_m rp_p].
      rewrite EF, HP by exact Hg. reflexivity. }
    rewrite EP, HO. apply lt_step; [apply lt_deact| |exact W].
    apply Forall_forall. intros p Hp. apply (Permutation_in _ (HS fr)) in Hp. apply in_seq in Hp. lia. }
  assert (FO : forall l st, (forall i, In i l -> (i < frame_count w (hop o) (analysed o x))%nat) -> Forall wf (ractive st) ->
    foldM (rframe_step phase argsort (raised s o)) (louder_state s st) (map (fun i => frame_of w (hop o) i (amplified g (analysed o x))) l) =
    map_res (louder_state s) (foldM (rframe_step phase argsort o) st (map (fun i => frame_of w (hop o) i (analysed o x)) l)) /\
    match foldM (rframe_step phase argsort o) st (map (fun i => frame_of w (hop o) i (analysed o x)) l) with
    | Ok st' => Forall wf (ractive st') | Err _ => True end).
  { induction l as [|i l IH]; intros st HI W; [split; [reflexivity|exact W]|]. cbn [map foldM].
    destruct (ST i st (HI i (or_introl eq_refl)) W) as [E W']. rewrite E.
    destruct (rframe_step phase argsort o st _) as [st'|e]; cbn [map_res]; [|split; [reflexivity|exact I]].
    apply IH; [|exact W']. intros j Hj. apply HI. now right. }
  destruct (FO (seq 0 (frame_count w (hop o) (analysed o x))) rreset) as [E W].
  { intros i Hi. apply in_seq in Hi. lia. }
  { constructor. }
  change (louder_state s rreset) with rreset in E. rewrite E.
  destruct (foldM (rframe_step phase argsort o) rreset _) as [st|e]; cbn [map_res bind]; [|reflexivity].
  f_equal. apply lt_all. exact W.
Qed.
Print Assumptions c92_tracks.

(** ** Modes *)

(** The matrix of modes with the amplitudes (the last row) multiplied by [g]. *)
Definition times (g : R) (v : fl) : fl := match v with Fin u => Fin (g * u) | _ => v end.
Definition amplified_modes (g : R) (m : list (list fl)) : list (list fl) :=
  match m with [f; d; a] => [f; d; map (times g) a] | _ => m end.

Definition up (s : R) (c : coeffs) : coeffs := let '(a, k, q) := c in (a, k, q + s).
(** The regression and the optimiser for levels that are [s] dB lower. *)
Definition lower_linreg (s : R) (linreg : list R -> list R -> R * R) (t y : list R) : R * R :=
  (fst (linreg t (map (fun v => v + s) y)), snd (linreg t (map (fun v => v + s) y)) - s).
Definition lower_optimise (s : R) (optimise : (coeffs -> list R) -> coeffs -> coeffs * coeffs -> coeffs)
    (f : coeffs -> list R) (x0 : coeffs) (b : coeffs * coeffs) : coeffs :=
  up (- s) (optimise (fun p => f (up (- s) p)) (up s x0) (up s (fst b), up s (snd b))).

Lemma up_up : forall s c, up s (up (- s) c) = c.
Proof. intros s [[a k] q]. cbn. f_equal. ring. Qed.
Lemma up_down : forall s c, up (- s) (up s c) = c.
Proof. intros s [[a k] q]. cbn. f_equal. ring. Qed.
Lemma line_error_shift : forall s t y k q, List.length y = List.length t ->
  line_error t (map (fun v => v + s) y) k (q + s) = line_error t y k q.
Proof.
  intros s t y k q _. unfold line_error. f_equal. revert y. induction t as [|a t IH]; intros [|b y]; cbn [map combine fst snd]; auto.
  f_equal; [ring|apply IH].
Qed.
Lemma lower_fits : forall s linreg, fits_lines linreg -> fits_lines (lower_linreg s linreg).
Proof.
  intros s linreg H t y HL HU k' q'. unfold lower_linreg. cbn [fst snd].
  specialize (H t (map (fun v => v + s) y)). rewrite map_length in H. specialize (H HL HU k' (q' + s)).
  rewrite (line_error_shift s t y k' q' HL) in H.
  set (q := snd (linreg t (map (fun v => v + s) y))) in *. replace q with (q - s + s) in H by ring.
  rewrite (line_error_shift s t y _ (q - s) HL) in H. exact H.
Qed.
Lemma within_up : forall s b c, within (up s (fst b), up s (snd b)) (up s c) <-> within b c.
Proof.
  intros s [[[a0 k0] q0] [[a1 k1] q1]] [[a k] q]. cbn. split; intros (A & B & C); repeat split; lra.
Qed.
Lemma lower_minimises : forall s optimise, minimises optimise -> minimises (lower_optimise s optimise).
Proof.
  intros s optimise H f x0 b (c & Wc & Mc). unfold lower_optimise.
  set (f' := fun p => f (up (- s) p)). set (b' := (up s (fst b), up s (snd b))).
  destruct (H f' (up s x0) b') as [W M].
  { exists (up s c). split; [now apply within_up|]. intros c' Hc'. unfold f'. rewrite up_down. apply Mc.
    apply (within_up s). now rewrite up_up. }
  set (r := optimise f' (up s x0) b') in *. split.
  - apply (within_up s). now rewrite up_up.
  - intros c' Hc'. specialize (M (up s c')). unfold f' in M. rewrite up_down in M. apply M. now apply within_up.
Qed.

Lemma map2_shift : forall s a y, map2 Rminus (map (fun v => v + s) a) (map (fun v => v + s) y) = map2 Rminus a y.
Proof.
  intros s a. induction a as [|u a IH]; intros [|v y]; unfold map2; cbn [map combine fst snd]; auto. f_equal; [ring|apply IH].
Qed.
Lemma Rleb_shift : forall s a b, Rleb (a + s) (b + s) = Rleb a b.
Proof.
  intros s a b. unfold Rleb. destruct (Rle_lt_dec (a + s) (b + s)), (Rle_lt_dec a b); auto; exfalso; lra.
Qed.
Lemma hinge_shift : forall s optimise x y k q,
  hinge_fit optimise x (map (fun v => v + s) y) k q =
  map_res (up s) (hinge_fit (lower_optimise s optimise) x y k (q - s)).
Proof.
  intros s optimise x y k q. unfold hinge_fit, hinge_coeffs_init, hinge_bounds.
  destruct (amin x) as [lo|e]; cbn [bind map_res]; [|reflexivity].
  destruct (amax x) as [hi|e]; cbn [bind map_res]; [|reflexivity].
  destruct (zlen x <=? 1)%Z; cbn [bind map_res]; [reflexivity|].
  destruct (if Req_EM_T lo hi then (lo - 1, hi + 1) else (lo, hi)) as [a_min a_max].
  assert (EA : map (fun v => Rabs (v - q)) (map (fun v => v + s) y) = map (fun v => Rabs (v - (q - s))) y).
  { rewrite map_map. apply map_ext. intros v. f_equal. ring. }
  rewrite EA. destruct (amax _) as [d|e]; cbn [bind map_res]; [|reflexivity].
  set (dq := if Req_EM_T d 0 then 1 else d).
  destruct (if Req_EM_T k 0 then (-1, 1) else (if Rlt_dec k 0 then 8 * k else k, if Rlt_dec k 0 then k else 8 * k)) as [k0 k1].
  cbn [bind].
  assert (EC : ls_check ((lo + hi) / 2, k, q) (a_min, k0, q - dq, (a_max, k1, q + dq)) =
               ls_check ((lo + hi) / 2, k, q - s) (a_min, k0, q - s - dq, (a_max, k1, q - s + dq))).
  { unfold ls_check. cbn [coeffs_list combine forallb fst snd].
    rewrite <- (Rleb_shift s (q - s - dq) (q - s)), <- (Rleb_shift s (q - s) (q - s + dq)).
    replace (q - s - dq + s) with (q - dq) by ring. replace (q - s + s) with q by ring.
    replace (q - s + dq + s) with (q + dq) by ring.
    destruct (Rlt_dec (q - dq) (q + dq)), (Rlt_dec (q - s - dq) (q - s + dq)); auto; exfalso; lra. }
  rewrite EC. clear EC. destruct (ls_check _ _); cbn [map_res]; [|reflexivity]. f_equal. unfold lower_optimise.
  cbn [fst snd up]. rewrite up_up.
  replace (q - s + s) with q by ring. replace (q - s - dq + s) with (q - dq) by ring.
  replace (q - s + dq + s) with (q + dq) by ring. f_equal.
  apply FunctionalExtensionality.functional_extensionality. intros [[a k'] q']. cbn [up].
  rewrite <- (map2_shift s (map (fun v => k' * Rmin v a + (q' + - s)) x) y). f_equal. rewrite map_map. apply map_ext.
  intros v. ring.
Qed.

Lemma present_raise : forall s l, present (raise s l) = map (fun v => v + s) (present l).
Proof.
  intros s. unfold raise, present. induction l as [|[a|] l IH]; cbn [map option_map flat_map app]; [reflexivity| |exact IH].
  now rewrite IH.
Qed.
Lemma mask_map : forall (A B : Type) (f : A -> B) m v, mask m (map f v) = map f (mask m v).
Proof.
  intros A B f m. unfold mask. induction m as [|b m IH]; intros [|a v]; cbn [combine filter map fst snd]; auto.
  destruct b; cbn [map snd]; [f_equal|]; apply IH.
Qed.
Lemma preprocess_louder : forall s c nx t,
  preprocess_track c nx (louder s t) =
  let '(ts, freq, mag) := preprocess_track c nx t in (ts, freq, raise s mag).
Proof.
  intros s c nx t. unfold preprocess_track, louder. cbn [r_start r_freq r_mag].
  assert (EN : map notnan (raise s (r_mag t)) = map notnan (r_mag t)).
  { unfold raise. rewrite map_map. apply map_ext. now intros [v|]. }
  rewrite EN, raise_length. f_equal.
  assert (EF : filter_field (map notnan (r_mag t)) (raise s (r_mag t)) = raise s (filter_field (map notnan (r_mag t)) (r_mag t))).
  { unfold filter_field. rewrite raise_length. destruct (Nat.eqb _ 1); [reflexivity|]. unfold raise. apply mask_map. }
  rewrite EF. unfold raise. rewrite !map_map. apply map_ext. intros [v|]; cbn [option_map]; [f_equal; ring|reflexivity].
Qed.
Lemma amp_gain : forall g q, 0 < g -> track_amp (q + gain_db g) = g * track_amp q.
Proof.
  intros g q Hg. unfold track_amp, db2a, gain_db. pose proof ln10_pos.
  replace ((q + 20 * (ln g / ln 10)) / 20) with (ln g / ln 10 + q / 20) by (field; lra).
  rewrite Rpower_plus. f_equal. unfold Rpower. replace (ln g / ln 10 * ln 10) with (ln g) by (field; lra). now apply exp_ln.
Qed.
Definition times3 (g : R) (p : fl * fl * fl) : fl * fl * fl := (fst p, times g (snd p)).
Lemma sfit_gain : forall linreg optimise freq_reduce g ts freq mag, 0 < g ->
  sfit_track linreg optimise freq_reduce ts freq (raise (gain_db g) mag) =
  map_res (map (times3 g)) (sfit_track (lower_linreg (gain_db g) linreg) (lower_optimise (gain_db g) optimise) freq_reduce ts freq mag).
Proof.
  intros linreg optimise freq_reduce g ts freq mag Hg. unfold sfit_track, lower_linreg. rewrite present_raise.
  destruct (linreg ts (map (fun v => v + gain_db g) (present mag))) as [kl ql]. cbn [fst snd].
  rewrite hinge_shift. destruct (hinge_fit _ ts (present mag) kl (ql - gain_db g)) as [[[a k] q]|e]; cbn [map_res bind up]; [|reflexivity].
  cbn [map times3 fst snd times]. now rewrite amp_gain.
Qed.

(** Gain [g] and thresholds raised by the same amount: the modes are modes of the
    original recording with amplitudes multiplied by [g].  The linear regression and
    the least squares method for the original are determined by those for the
    amplified recording: lines and minima at lower levels. *)
Theorem c92_modes : forall linreg optimise freq_reduce phase argsort o x g,
  fits_lines linreg -> minimises optimise ->
  phase_of_direction phase -> order_of_levels argsort -> sorts argsort -> 0 < g ->
  well_posed o x -> well_posed o (amplified g x) ->
  exists linreg' optimise', fits_lines linreg' /\ minimises optimise' /\
  sample_fit linreg optimise freq_reduce phase argsort (raised (gain_db g) o) (amplified g x) =
  match sample_fit linreg' optimise' freq_reduce phase argsort o x with
  | Ok m => Ok (amplified_modes g m)
  | Err e => Err e
  end.
Proof.
  intros linreg optimise freq_reduce phase argsort o x g HL HM HP HO HS Hg W W'.
  set (s := gain_db g). exists (lower_linreg s linreg), (lower_optimise s optimise).
  split; [now apply lower_fits|]. split; [now apply lower_minimises|].
  unfold sample_fit. pose proof (c92_tracks phase argsort o x g HP HO HS Hg W W') as CT. fold s in CT. rewrite CT.
  destruct (rtracks phase argsort o x) as [ts|e]; cbn [bind]; [|reflexivity].
  assert (EC : rt_cfg (rm_tracker (raised s o)) = rt_cfg (rm_tracker o)) by (unfold raised; cbn [rm_tracker]; destruct (rm_tracker o); reflexivity).
  assert (ER : rt_reverse (rm_tracker (raised s o)) = rt_reverse (rm_tracker o)) by (unfold raised; cbn [rm_tracker]; destruct (rm_tracker o); reflexivity).
  rewrite EC, ER. change (rm_padded (raised s o)) with (rm_padded o). change (rm_w (raised s o)) with (rm_w o).
  replace (zlen (amplified g x)) with (zlen x) by (unfold zlen; now rewrite amplified_length).
  set (c := mkACfg _ _ _ _ _). set (nx := IZR (zlen x)).
  set (f := fun t => let '(t0, freq, mag) := preprocess_track c nx t in
    sfit_track (lower_linreg s linreg) (lower_optimise s optimise) freq_reduce t0 freq mag).
  set (f' := fun t => let '(t0, freq, mag) := preprocess_track c nx t in sfit_track linreg optimise freq_reduce t0 freq mag).
  assert (EF : forall t, f' (louder s t) = map_res (map (times3 g)) (f t)).
  { intros t. unfold f', f. rewrite preprocess_louder. destruct (preprocess_track c nx t) as [[t0 freq] mag].
    now apply sfit_gain. }
  assert (EM : mapM f' (map (louder s) ts) = map_res (map (map (times3 g))) (mapM f ts)).
  { clearbody f f'. clear - EF. induction ts as [|t ts IH]; [reflexivity|]. cbn [map mapM]. rewrite EF.
    destruct (f t) as [r|e]; cbn [map_res bind]; [|reflexivity]. rewrite IH.
    destruct (mapM f ts) as [rs|e]; cbn [map_res bind]; reflexivity. }
  rewrite EM. destruct (mapM f ts) as [rs|e]; cbn [map_res bind]; [|reflexivity]. f_equal.
  rewrite !matrix_ok. unfold transpose3, amplified_modes.
  assert (EX : filter finite3 (concat (map (map (times3 g)) rs)) = map (times3 g) (filter finite3 (concat rs))).
  { rewrite <- concat_map. generalize (concat rs). intros l. induction l as [|p l IH]; [reflexivity|]. cbn [map filter].
    assert (E3 : finite3 (times3 g p) = finite3 p) by (destruct p as [[? ?] []]; reflexivity).
    rewrite E3. destruct (finite3 p); [|exact IH]. cbn [map]. now rewrite IH. }
  rewrite EX, !map_map. reflexivity.
Qed.
Print Assumptions c92_modes.

(** A gain of 1 or more does not bring a recording under the floor. *)
Theorem c92_floor : forall o x g, 1 <= g -> well_posed o x -> well_posed o (amplified g x).
Proof.
  intros o x g Hg (W1 & W2 & W3 & W4 & W5). split; [exact W1|]. split; [exact W2|].
  split; [rewrite amplified_length; exact W3|]. split; [exact W4|].
  assert (EA : analysed o (amplified g x) = amplified g (analysed o x)).
  { unfold analysed, amplified. destruct (rt_reverse (rm_tracker o)); [symmetry; apply map_rev|reflexivity]. }
  intros i k Hi Hk. unfold frames, frame_count in Hi. rewrite EA, amplified_length in Hi.
  specialize (W5 i k Hi Hk). unfold frame. rewrite EA, frame_amplified. unfold amplified. rewrite magnitude_scaled by lra.
  fold (frame o x i). pose proof float_eps_pos. nra.
Qed.
Print Assumptions c92_floor.

(** The example of C91, 20 dB louder. *)
Example c92_example : forall linreg optimise freq_reduce phase argsort,
  fits_lines linreg -> minimises optimise -> reduces freq_reduce -> sorts argsort ->
  phase_of_direction phase -> order_of_levels argsort ->
  sample_fit linreg optimise freq_reduce phase argsort (raised (gain_db 10) ex_modal) (amplified 10 ex_x) =
    Ok [[Fin 1]; [Fin (2 / ln 2)]; [Fin (10 * (2 * sqrt 2))]] /\
  gain_db 10 = 20.
Proof.
  intros linreg optimise freq_reduce phase argsort HL HO HR HA HP HG. split.
  - assert (W : well_posed ex_modal ex_x) by (apply ex_well_posed; auto).
    destruct (c92_modes linreg optimise freq_reduce phase argsort ex_modal ex_x 10 HL HO HP HG HA ltac:(lra) W) as (l' & o' & Hl & Hm & E).
    { apply c92_floor; [lra|exact W]. }
    rewrite E. destruct (c91_example l' o' freq_reduce phase argsort Hl Hm HR HA) as [_ ->]. reflexivity.
  - unfold gain_db. pose proof ln10_pos. field. lra.
Qed.
(** Orders and phases as asked for exist: here the order of frequencies, and the sign
    of the first sample as phase. *)
Example c92_premises :
  sorts (fun fr => seq 0 (List.length fr)) /\ order_of_levels (fun fr => seq 0 (List.length fr)) /\
  phase_of_direction (fun x _ => if Rltb (hd 0 x) 0 then PI else 0).
Proof.
  split; [intros fr; apply Permutation_refl|]. split; [intros s fr; now rewrite map_length|].
  intros g x loc Hg. destruct x as [|a x]; cbn [amplified map hd]; [reflexivity|].
  assert (E : Rltb (g * a) 0 = Rltb a 0); [|now rewrite E].
  destruct (Rltb a 0) eqn:E; [apply Rltb_true in E; apply Rltb_true|apply Rltb_false in E; apply Rltb_false]; nra.
Qed.
