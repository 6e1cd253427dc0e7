(** The unit of time: C93. *)
From Coquelicot Require Import Coquelicot.
From Coq Require Import String List Bool ZArith Reals Lra Lia Permutation Sorted.
Import ListNotations.
From Verif Require Import Base Py PyLemmas ListLemmas RLists Stft_Model Dft_Model Dft_Proofs Tracker_Model
  Tracker_Proofs Dsp_Model Sample_Model Sample_Spec Sample_Proofs Sample_Props Bank_Model Bank_Proofs Beat_Model
  Np_Model Hinge_Props Pipe_Model Pipe_Spec Pipe_Proofs Pipe_Agree Pipe_Props Gain_Props.
Local Open Scope R_scope.

(** ** Spec *)

(** Frequencies multiplied by [r]. *)
Definition higher_peak (r : R) (p : rpeak) : rpeak := mkRPeak (r * rp_f p) (rp_m p) (rp_p p).
Definition higher (r : R) (t : rtrack) : rtrack :=
  mkRTrack (r_start t) (map (option_map (Rmult r)) (r_freq t)) (r_mag t) (r_ph t).
(** The model for a sample rate that is [r] times as high: the same parameters in
    samples and decibels, those in Hz multiplied by [r], those in seconds divided by
    [r]. *)
Definition faster_cfg (r : R) (c : rcfg) : rcfg :=
  mkRCfg (r * g_fs c) (g_h c) (g_max c) (g_dur c / r) (r * g_off c) (g_slope c).
Definition faster_modal (r : R) (m : rmcfg) : rmcfg :=
  mkRMCfg (faster_cfg r (g_base m)) (option_map (Rmult r) (g_fmin m)) (option_map (Rmult r) (g_fmax m))
          (g_thr m) (g_rev m) (g_strategy m) (option_map (fun v => v / r) (g_strip m)).
Definition faster_tracker (r : R) (t : rtracker) : rtracker :=
  match t with RSine c => RSine (faster_cfg r c) | RModal m => RModal (faster_modal r m) end.
Definition faster (r : R) (o : rmodel) : rmodel :=
  mkRModel (rm_w o) (rm_n o) (rm_t o) (rm_padded o) (faster_tracker r (rm_tracker o)).
(** The order of the peaks does not depend on their frequencies. *)
Definition order_without_pitch (argsort : list rpeak -> list nat) : Prop :=
  forall r fr, 0 < r -> argsort (map (higher_peak r) fr) = argsort fr.

(** ** Tracker *)

Definition higher_track (r : R) (t : ltrack) : ltrack :=
  mkLTrack (l_start t) (map (Rmult r) (l_freq t)) (l_mag t) (l_ph t).
Definition higher_state (r : R) (st : rstate) : rstate :=
  mkRState (map (higher r) (rsaved st)) (map (higher_track r) (ractive st)) (rnframe st).

Section Scale.
Variable r : R.
Hypothesis Hr : 0 < r.
Notation HP := (higher_peak r).
Notation HT := (higher_track r).
Notation HS := (higher r).
Notation FC := (faster_cfg r).

Lemma sc_ltb : forall a b, Rltb (r * a) (r * b) = Rltb a b.
Proof.
  intros a b. destruct (Rltb a b) eqn:E.
  - apply Rltb_true in E. apply Rltb_true. nra.
  - apply Rltb_false in E. apply Rltb_false. nra.
Qed.
Lemma sc_abs : forall a b, Rabs (r * a - r * b) = r * Rabs (a - b).
Proof. intros a b. rewrite <- Rmult_minus_distr_l, Rabs_mult, (Rabs_pos_eq r) by lra. reflexivity. Qed.
Lemma sc_df : forall c f, rdf (FC c) (r * f) = r * rdf c f.
Proof. intros c f. unfold rdf, faster_cfg. cbn [g_off g_slope]. ring. Qed.
Lemma sc_frame_rate : forall c, rframe_rate (FC c) = r * rframe_rate c.
Proof. intros c. unfold rframe_rate, faster_cfg. cbn [g_fs g_h]. unfold Rdiv. ring. Qed.
Lemma sc_min_len : forall c, rmin_sine_len (FC c) = rmin_sine_len c.
Proof.
  intros c. unfold rmin_sine_len. rewrite sc_frame_rate. cbn [faster_cfg g_dur]. do 2 f_equal. field. lra.
Qed.
Lemma sc_last : forall l, last (map (Rmult r) l) 0 = r * last l 0.
Proof.
  induction l as [|a l IH]; [cbn; ring|]. destruct l as [|b l]; [reflexivity|].
  change (last (map (Rmult r) (a :: b :: l)) 0) with (last (map (Rmult r) (b :: l)) 0).
  change (last (a :: b :: l) 0) with (last (b :: l) 0). exact IH.
Qed.
Lemma sc_lastf : forall t, rlast_freq (HT t) = r * rlast_freq t.
Proof. intros t. apply sc_last. Qed.
Lemma ht_nth : forall ts i, nth i (map HT ts) no_ltrack = HT (nth i ts no_ltrack).
Proof. intros. change no_ltrack with (HT no_ltrack) at 1. apply map_nth. Qed.
Lemma hs_nth : forall ts i, nth i (map HS ts) no_rtrack = HS (nth i ts no_rtrack).
Proof. intros. change no_rtrack with (HS no_rtrack) at 1. apply map_nth. Qed.
Lemma hp_nth : forall fr i, (i < List.length fr)%nat -> nth i (map HP fr) no_rpeak = HP (nth i fr no_rpeak).
Proof. intros. now apply nth_map_lt. Qed.
Lemma ht_numpy : forall t, rnumpy_track (HT t) = HS (rnumpy_track t).
Proof.
  intros t. unfold rnumpy_track, higher, higher_track. cbn [l_start l_freq l_mag l_ph r_start r_freq r_mag r_ph].
  now rewrite !map_map.
Qed.
Lemma ht_push : forall t p, rpush (HT t) (HP p) = HT (rpush t p).
Proof.
  intros t p. unfold rpush, higher_track, higher_peak. cbn [l_start l_freq l_mag l_ph rp_f rp_m rp_p]. now rewrite map_app.
Qed.
Lemma ht_sine_ok : forall c t, rsine_ok (FC c) (HT t) = rsine_ok c t.
Proof. intros c t. unfold rsine_ok. rewrite sc_min_len. cbn [higher_track l_freq]. now rewrite map_length. Qed.

Lemma ht_match : forall c fr order, Forall (fun i => (i < List.length fr)%nat) order -> forall ts ft fp,
  rmatch_loop (FC c) (map HP fr) order (map HT ts) ft fp =
  let '(ts', ft', fp') := rmatch_loop c fr order ts ft fp in (map HT ts', ft', fp').
Proof.
  intros c fr order HO. induction HO as [|pi rest Hp HO IH]; intros ts ft fp; cbn [rmatch_loop]; [reflexivity|].
  destruct (negb (existsb (fun b => b) ft)); [reflexivity|].
  rewrite map_length, hp_nth by exact Hp.
  set (it := filter (fun i => nth i ft false) (seq 0 (List.length ts))).
  rewrite (agree_min_key _ _ _ Rltb Rltb (Rmult r) it
    (fun i => Rabs (rlast_freq (nth i ts no_ltrack) - rp_f (nth pi fr no_rpeak)))).
  2:{ apply sc_ltb. }
  2:{ intros i. rewrite ht_nth, sc_lastf. cbn [higher_peak rp_f]. apply sc_abs. }
  destruct (min_key Rltb it _) as [[ti d]|]; cbn [option_map fst snd]; [|apply IH].
  change (rp_f (HP (nth pi fr no_rpeak))) with (r * rp_f (nth pi fr no_rpeak)). rewrite sc_df, sc_ltb.
  destruct (Rltb d _); [|apply IH].
  rewrite ht_nth, ht_push, <- map_upd. apply IH.
Qed.

Definition deact_scale (d d' : rdeactivator) : Prop :=
  forall sv t, d' (map HS sv) (HT t) = map_res (map HS) (d sv t).
Lemma ht_sine_deact : forall c, deact_scale (rsine_deact c) (rsine_deact (FC c)).
Proof.
  intros c sv t. unfold rsine_deact. cbn [map_res]. rewrite ht_sine_ok.
  destruct (rsine_ok c t); [|reflexivity]. rewrite map_app. cbn [map]. now rewrite ht_numpy.
Qed.
Lemma ht_deact_loop : forall d d', deact_scale d d' -> forall ft sv ts,
  rdeact_loop d' ft (map HS sv) (map HT ts) = map_res (fun p => (map HS (fst p), map HT (snd p))) (rdeact_loop d ft sv ts).
Proof.
  intros d d' HD ft sv ts. unfold rdeact_loop. rewrite map_length.
  generalize (filter (fun i => nth i ft false) (rev (seq 0 (List.length ts)))) as l.
  intros l. revert sv ts. induction l as [|i l IH]; intros sv ts; [reflexivity|]. cbn [foldM fst snd].
  rewrite ht_nth, HD. destruct (d sv (nth i ts no_ltrack)) as [sv'|e]; cbn [map_res]; [|reflexivity].
  rewrite <- map_remove. apply IH.
Qed.
Lemma ht_activate : forall c n fr ps, Forall (fun i => (i < List.length fr)%nat) ps -> forall ts,
  ractivate_loop (FC c) n (map HP fr) ps (map HT ts) = map HT (ractivate_loop c n fr ps ts).
Proof.
  intros c n fr ps Hps. induction Hps as [|p ps Hp Hps IH]; intros ts; cbn [ractivate_loop]; [reflexivity|].
  rewrite map_length. cbn [faster_cfg g_max]. destruct (Z.leb _ _); [reflexivity|].
  rewrite <- IH, map_app. cbn [map]. rewrite hp_nth by exact Hp. reflexivity.
Qed.
Lemma ht_step : forall c d d', deact_scale d d' -> forall st fr order, Forall (fun i => (i < List.length fr)%nat) order ->
  rstep (FC c) d' (higher_state r st) (map HP fr, order) = map_res (higher_state r) (rstep c d st (fr, order)).
Proof.
  intros c d d' HD st fr order HO. unfold rstep, higher_state. cbn [rsaved ractive rnframe].
  rewrite !map_length, ht_match by exact HO.
  destruct (rmatch_loop c fr order (ractive st) _ _) as [[ts ft] fp].
  rewrite (ht_deact_loop d d' HD ft (rsaved st) ts).
  destruct (rdeact_loop d ft (rsaved st) ts) as [[sv ts1]|e]; cbn [map_res bind fst snd]; [|reflexivity].
  cbn [rsaved ractive rnframe snd]. rewrite ht_activate; [reflexivity|].
  apply Forall_forall. intros i Hi. apply filter_In in Hi. destruct Hi as [Hi _]. apply in_seq in Hi. lia.
Qed.

(** ** Modal tracker *)

Lemma sc_rsum : forall l, rsum (map (Rmult r) l) = r * rsum l.
Proof.
  induction l as [|a l IH]; [cbn; ring|]. cbn [map]. repeat change (rsum (?u :: ?v)) with (u + rsum v). rewrite IH. ring.
Qed.
Lemma sc_rmean : forall l, rmean (map (Rmult r) l) = r * rmean l.
Proof. intros l. unfold rmean. rewrite sc_rsum, map_length. unfold Rdiv. ring. Qed.
Lemma ht_modal_ok : forall m t, rmodal_ok (faster_modal r m) (HT t) = rmodal_ok m t.
Proof.
  intros m t. unfold rmodal_ok. cbn [faster_modal g_base g_fmin g_fmax g_thr g_rev]. rewrite ht_sine_ok.
  cbn [higher_track l_freq l_mag]. rewrite sc_rmean.
  destruct (g_fmin m) as [b|], (g_fmax m) as [b'|]; cbn [option_map]; rewrite ?sc_ltb; reflexivity.
Qed.
Lemma sc_present : forall l, present (map (option_map (Rmult r)) l) = map (Rmult r) (present l).
Proof. unfold present. induction l as [|[a|] l IH]; cbn [map option_map flat_map app]; [reflexivity| |exact IH]. now rewrite IH. Qed.
Lemma sc_nanmean : forall l, rnanmean (map (option_map (Rmult r)) l) = option_map (Rmult r) (rnanmean l).
Proof.
  intros l. unfold rnanmean. rewrite sc_present. destruct (present l) as [|a v]; [reflexivity|]. cbn [option_map].
  rewrite <- sc_rmean. reflexivity.
Qed.
Lemma sc_absdiff : forall a b, rnan_absdiff (option_map (Rmult r) a) (option_map (Rmult r) b) = option_map (Rmult r) (rnan_absdiff a b).
Proof. intros [a|] [b|]; cbn [rnan_absdiff option_map]; auto. now rewrite sc_abs. Qed.
Lemma sc_nan_ltb : forall a b, rnan_ltb (option_map (Rmult r) a) (option_map (Rmult r) b) = rnan_ltb a b.
Proof. intros [a|] [b|]; cbn [rnan_ltb option_map]; auto. apply sc_ltb. Qed.
Lemma sc_last_o : forall l, last (map (option_map (Rmult r)) l) None = option_map (Rmult r) (last l None).
Proof.
  induction l as [|a l IH]; [reflexivity|]. destruct l as [|b l]; [reflexivity|].
  change (last (map (option_map (Rmult r)) (a :: b :: l)) None) with (last (map (option_map (Rmult r)) (b :: l)) None).
  change (last (a :: b :: l) None) with (last (b :: l) None). exact IH.
Qed.
Lemma hs_glue : forall u t, rglue1 (HS u) (HS t) = HS (rglue1 u t).
Proof.
  intros u t. unfold rglue1, higher. cbn [r_start r_freq r_mag r_ph]. rewrite !map_app.
  assert (E : forall n, map (option_map (Rmult r)) (repeat None n) = repeat None n).
  { induction n as [|n IH]; [reflexivity|]. cbn [repeat map option_map]. now rewrite IH. }
  now rewrite E.
Qed.
Lemma ht_modal_deact : forall m, deact_scale (rmodal_deact m) (rmodal_deact (faster_modal r m)).
Proof.
  intros m sv t. unfold rmodal_deact. cbv zeta. rewrite ht_modal_ok. destruct (rmodal_ok m t); [|reflexivity].
  change (rfreq_diff_function (faster_modal r m)) with (rfreq_diff_function m).
  destruct (rfreq_diff_function m) as [d|e] eqn:ED; [|reflexivity].
  assert (DS : forall u v, d (HS u) (HS v) = option_map (Rmult r) (d u v)).
  { unfold rfreq_diff_function in ED. destruct (String.eqb _ _); [|destruct (String.eqb _ _); [|discriminate]];
      injection ED as <-; intros u v.
    - unfold rdiff_single. cbn [higher r_freq]. rewrite sc_last_o, <- sc_absdiff. f_equal.
      destruct (r_freq v); reflexivity.
    - unfold rdiff_avg. cbn [higher r_freq]. now rewrite !sc_nanmean, sc_absdiff. }
  rewrite map_length, ht_numpy.
  assert (EF : filter (fun i => Z.ltb (r_start (nth i (map HS sv) no_rtrack) + zlen (r_mag (nth i (map HS sv) no_rtrack)))
                                      (r_start (HS (rnumpy_track t)))) (seq 0 (List.length sv)) =
    filter (fun i => Z.ltb (r_start (nth i sv no_rtrack) + zlen (r_mag (nth i sv no_rtrack)))
                           (r_start (rnumpy_track t))) (seq 0 (List.length sv))).
  { apply filter_ext. intros i. rewrite hs_nth. reflexivity. }
  rewrite EF. set (it := filter _ _).
  rewrite (agree_min_key _ _ _ rnan_ltb rnan_ltb (option_map (Rmult r)) it (fun i => d (nth i sv no_rtrack) (rnumpy_track t))).
  2:{ apply sc_nan_ltb. }
  2:{ intros i. rewrite hs_nth. apply DS. }
  assert (EA : map_res (map HS) (Ok (sv ++ [rnumpy_track t])) = Ok (map HS sv ++ [HS (rnumpy_track t)])).
  { cbn [map_res]. now rewrite map_app. }
  destruct (min_key rnan_ltb it _) as [[i x]|]; cbn [option_map fst snd]; [|now rewrite EA].
  assert (EH : hd 0 (l_freq (HT t)) = r * hd 0 (l_freq t)) by (cbn [higher_track l_freq]; destruct (l_freq t); cbn [map hd]; ring).
  cbn [faster_modal g_base]. rewrite EH, sc_df.
  change (Some (r * rdf (g_base m) (hd 0 (l_freq t)))) with (option_map (Rmult r) (Some (rdf (g_base m) (hd 0 (l_freq t))))).
  rewrite sc_nan_ltb. destruct (rnan_ltb x _); [|now rewrite EA].
  cbn [map_res]. now rewrite map_upd, hs_nth, hs_glue.
Qed.
Lemma ht_all : forall tr st, rt_all (faster_tracker r tr) (higher_state r st) = map HS (rt_all tr st).
Proof.
  intros tr st.
  assert (G : forall ok ok' : ltrack -> bool, (forall t, ok' (HT t) = ok t) ->
    rall_tracks ok' (higher_state r st) = map HS (rall_tracks ok st)).
  { intros ok ok' H. unfold rall_tracks, higher_state. cbn [rsaved ractive]. rewrite map_app. f_equal.
    induction (ractive st) as [|t l IH]; [reflexivity|]. cbn [map filter]. rewrite H. destruct (ok t); [|exact IH].
    cbn [map]. now rewrite IH, ht_numpy. }
  destruct tr as [c|m]; cbn [rt_all faster_tracker].
  - apply G. apply ht_sine_ok.
  - unfold rmodal_all_tracks. rewrite (G (rmodal_ok m) _ (ht_modal_ok m)). cbn [faster_modal g_strip g_base g_rev].
    destruct (g_strip m) as [b|]; [|reflexivity]. cbn [option_map]. cbv zeta. rewrite sc_frame_rate.
    replace (b / r * (r * rframe_rate (g_base m))) with (b * rframe_rate (g_base m)) by (field; lra).
    assert (F : forall (f f' : rtrack -> bool) l, (forall t, f' (HS t) = f t) -> filter f' (map HS l) = map HS (filter f l)).
    { intros f f' l H. induction l as [|t l IH]; [reflexivity|]. cbn [map filter]. rewrite H. destruct (f t); [|exact IH].
      cbn [map]. now rewrite IH. }
    apply F. intros t. reflexivity.
Qed.
Lemma ht_deact : forall tr, deact_scale (rt_deact tr) (rt_deact (faster_tracker r tr)).
Proof. intros [c|m]; [apply ht_sine_deact|apply ht_modal_deact]. Qed.
End Scale.

(** ** Whole analysis *)

Lemma faster_rt_cfg : forall r o, rt_cfg (rm_tracker (faster r o)) = faster_cfg r (rt_cfg (rm_tracker o)).
Proof. intros r o. cbn [faster rm_tracker]. destruct (rm_tracker o); reflexivity. Qed.
Lemma faster_rt_reverse : forall r o, rt_reverse (rm_tracker (faster r o)) = rt_reverse (rm_tracker o).
Proof. intros r o. cbn [faster rm_tracker]. destruct (rm_tracker o); reflexivity. Qed.

(** The same samples at a rate that is [r] times as high: the same tracks with
    frequencies multiplied by [r]. *)
Theorem c93_tracks : forall phase argsort o x r,
  order_without_pitch argsort -> sorts argsort -> 0 < r ->
  rtracks phase argsort (faster r o) x =
  match rtracks phase argsort o x with Ok ts => Ok (map (higher r) ts) | Err e => Err e end.
Proof.
  intros phase argsort o x r HO HS Hr. unfold rtracks. rewrite faster_rt_cfg, faster_rt_reverse.
  change (rm_padded (faster r o)) with (rm_padded o). change (rm_w (faster r o)) with (rm_w o).
  set (c := rt_cfg (rm_tracker o)). cbn [faster_cfg g_h]. cbv zeta.
  destruct (rtime_frames _ _ _ _) as [frames|e]; cbn [bind]; [|reflexivity].
  assert (ST : forall st f, rframe_step phase argsort (faster r o) (higher_state r st) f =
    map_res (higher_state r) (rframe_step phase argsort o st f)).
  { intros st f. unfold rframe_step. cbv zeta. rewrite faster_rt_cfg. fold c.
    change (rm_w (faster r o)) with (rm_w o). change (rm_n (faster r o)) with (rm_n o).
    change (rm_t (faster r o)) with (rm_t o). change (rm_tracker (faster r o)) with (faster_tracker r (rm_tracker o)).
    destruct (dft_mag _ _ _) as [mx|e]; cbn [bind]; [|reflexivity].
    unfold rpeaks. destruct (mapM _ _) as [ps|e]; cbn [bind]; [|reflexivity].
    set (fr := map (fun p => mkRPeak (fst p * g_fs c / IZR (rm_n o)) (snd p) (phase f (fst p))) ps).
    assert (EP : map (fun p => mkRPeak (fst p * g_fs (faster_cfg r c) / IZR (rm_n o)) (snd p) (phase f (fst p))) ps =
                 map (higher_peak r) fr).
    { unfold fr. rewrite map_map. apply map_ext. intros p. unfold higher_peak. cbn [rp_f rp_m rp_p faster_cfg g_fs].
      f_equal. unfold Rdiv. ring. }
    rewrite EP, HO by exact Hr. apply ht_step; [exact Hr|now apply ht_deact|].
    apply Forall_forall. intros p Hp. apply (Permutation_in _ (HS fr)) in Hp. apply in_seq in Hp. lia. }
  assert (FO : forall l st, foldM (rframe_step phase argsort (faster r o)) (higher_state r st) l =
    map_res (higher_state r) (foldM (rframe_step phase argsort o) st l)).
  { induction l as [|f l IH]; intros st; [reflexivity|]. cbn [foldM]. rewrite ST.
    destruct (rframe_step phase argsort o st f) as [st'|e]; cbn [map_res]; [|reflexivity]. apply IH. }
  specialize (FO frames rreset). change (higher_state r rreset) with rreset in FO. rewrite FO.
  destruct (foldM (rframe_step phase argsort o) rreset frames) as [st|e]; cbn [map_res bind]; [|reflexivity].
  f_equal. now apply ht_all.
Qed.
Print Assumptions c93_tracks.

(** ** Modes *)

(** The numbers of the frames of a track that have a level, the first one being
    number [i]. *)
Fixpoint heard (i : nat) (l : list (option R)) : list R :=
  match l with
  | [] => []
  | Some _ :: l => INR i :: heard (S i) l
  | None :: l => heard (S i) l
  end.
(** The levels of a track have a trend: the least squares line of the levels of its
    frames (two or more) is not horizontal. *)
Definition slanted (t : rtrack) : Prop :=
  (2 <= List.length (heard 0 (r_mag t)))%nat /\
  forall k q, least_squares_line (heard 0 (r_mag t)) (present (r_mag t)) k q -> k <> 0.
(** The reduction of frequencies does not depend on the unit. *)
Definition reduces_in_any_unit (freq_reduce : list R -> R) : Prop :=
  forall r l, 0 < r -> freq_reduce (map (Rmult r) l) = r * freq_reduce l.
(** The matrix of modes with the frequencies multiplied and the decays divided by
    [r]. *)
Definition faster_modes (r : R) (m : list (list fl)) : list (list fl) :=
  match m with [f; d; a] => [map (times r) f; map (times (/ r)) d; a] | _ => m end.

(** Coefficients of hinges, linear regression and optimiser for the other unit. *)
Definition sc (r : R) (c : coeffs) : coeffs := let '(a, k, q) := c in (a / r, k * r, q).
Definition slow_linreg (r : R) (linreg : list R -> list R -> R * R) (t y : list R) : R * R :=
  (fst (linreg (map (fun v => v / r) t) y) / r, snd (linreg (map (fun v => v / r) t) y)).
Definition slow_optimise (r : R) (optimise : (coeffs -> list R) -> coeffs -> coeffs * coeffs -> coeffs)
    (f : coeffs -> list R) (x0 : coeffs) (b : coeffs * coeffs) : coeffs :=
  sc (/ r) (optimise (fun p => f (sc (/ r) p)) (sc r x0) (sc r (fst b), sc r (snd b))).

Lemma sc_sc : forall r c, 0 < r -> sc r (sc (/ r) c) = c.
Proof. intros r [[a k] q] H. cbn. f_equal. f_equal; field; lra. Qed.
Lemma sc_cs : forall r c, 0 < r -> sc (/ r) (sc r c) = c.
Proof. intros r [[a k] q] H. cbn. f_equal. f_equal; field; lra. Qed.
Lemma line_error_scale : forall r t y k q, 0 < r ->
  line_error (map (fun v => v / r) t) y k q = line_error t y (k / r) q.
Proof.
  intros r t y k q H. unfold line_error. f_equal. revert y. induction t as [|a t IH]; intros [|b y]; cbn [map combine fst snd]; auto.
  f_equal; [field; lra|apply IH].
Qed.
Lemma slow_fits : forall r linreg, 0 < r -> fits_lines linreg -> fits_lines (slow_linreg r linreg).
Proof.
  intros r linreg Hr H t y HL (u & v & Hu & Hv & N) k' q'. unfold slow_linreg. cbn [fst snd].
  specialize (H (map (fun v => v / r) t) y). rewrite map_length in H. specialize (H HL).
  assert (D : exists u v, In u (map (fun v => v / r) t) /\ In v (map (fun v => v / r) t) /\ u <> v).
  { exists (u / r), (v / r). split; [now apply (in_map (fun v => v / r))|]. split; [now apply (in_map (fun v => v / r))|].
    intros E. apply N. apply (f_equal (fun w => w * r)) in E. unfold Rdiv in E. rewrite !Rmult_assoc, Rinv_l in E by lra. lra. }
  specialize (H D (k' * r) q'). rewrite !line_error_scale in H by exact Hr.
  replace (k' * r / r) with k' in H by (field; lra). exact H.
Qed.
Lemma within_sc : forall r b c, 0 < r -> within (sc r (fst b), sc r (snd b)) (sc r c) <-> within b c.
Proof.
  intros r [[[a0 k0] q0] [[a1 k1] q1]] [[a k] q] Hr. cbn. assert (0 < / r) by now apply Rinv_0_lt_compat.
  unfold Rdiv. assert (C : forall u v w, 0 < w -> u * w <= v * w <-> u <= v) by (intros; split; intros; nra).
  rewrite !(C _ _ (/ r)), !(C _ _ r) by lra. tauto.
Qed.
Lemma slow_minimises : forall r optimise, 0 < r -> minimises optimise -> minimises (slow_optimise r optimise).
Proof.
  intros r optimise Hr H f x0 b (c & Wc & Mc). unfold slow_optimise.
  set (f' := fun p => f (sc (/ r) p)). set (b' := (sc r (fst b), sc r (snd b))).
  destruct (H f' (sc r x0) b') as [W M].
  { exists (sc r c). split; [now apply within_sc|]. intros c' Hc'. unfold f'. rewrite sc_cs by exact Hr. apply Mc.
    apply (within_sc r); [exact Hr|]. now rewrite sc_sc. }
  set (s := optimise f' (sc r x0) b') in *. split.
  - apply (within_sc r); [exact Hr|]. now rewrite sc_sc.
  - intros c' Hc'. specialize (M (sc r c')). unfold f' in M. rewrite sc_cs in M by exact Hr. apply M. now apply within_sc.
Qed.

Lemma amin_scale : forall r t, 0 < r -> amin (map (fun v => v / r) t) = map_res (fun v => v / r) (amin t).
Proof.
  intros r [|a t] Hr; [reflexivity|]. cbn [map amin map_res]. f_equal. revert a.
  induction t as [|b t IH]; intros a; [reflexivity|]. cbn [map fold_left]. rewrite <- IH. f_equal. unfold Rdiv.
  assert (0 < / r) by now apply Rinv_0_lt_compat.
  unfold Rmin. destruct (Rle_dec (a * / r) (b * / r)), (Rle_dec a b); auto; exfalso; nra.
Qed.
Lemma amax_scale : forall r t, 0 < r -> amax (map (fun v => v / r) t) = map_res (fun v => v / r) (amax t).
Proof.
  intros r [|a t] Hr; [reflexivity|]. cbn [map amax map_res]. f_equal. revert a.
  induction t as [|b t IH]; intros a; [reflexivity|]. cbn [map fold_left]. rewrite <- IH. f_equal. unfold Rdiv.
  assert (0 < / r) by now apply Rinv_0_lt_compat.
  unfold Rmax. destruct (Rle_dec (a * / r) (b * / r)), (Rle_dec a b); auto; exfalso; nra.
Qed.
Lemma fold_min_le : forall t a, fold_left Rmin t a <= a /\ forall v, In v t -> fold_left Rmin t a <= v.
Proof.
  induction t as [|b t IH]; intros a; cbn [fold_left]; [split; [lra|easy]|].
  destruct (IH (Rmin a b)) as [H1 H2]. pose proof (Rmin_l a b). pose proof (Rmin_r a b). split; [lra|].
  intros v [<-|Hv]; [lra|now apply H2].
Qed.
Lemma fold_max_ge : forall t a, a <= fold_left Rmax t a /\ forall v, In v t -> v <= fold_left Rmax t a.
Proof.
  induction t as [|b t IH]; intros a; cbn [fold_left]; [split; [lra|easy]|].
  destruct (IH (Rmax a b)) as [H1 H2]. pose proof (Rmax_l a b). pose proof (Rmax_r a b). split; [lra|].
  intros v [<-|Hv]; [lra|now apply H2].
Qed.
Lemma distinct_extrema : forall t lo hi, amin t = Ok lo -> amax t = Ok hi -> (exists u v, In u t /\ In v t /\ u <> v) -> lo <> hi.
Proof.
  intros [|a t] lo hi H1 H2 (u & v & Hu & Hv & N) E; [easy|]. cbn [amin amax] in H1, H2. injection H1 as H1. injection H2 as H2.
  destruct (fold_min_le t a) as [A1 A2]. destruct (fold_max_ge t a) as [B1 B2].
  assert (In_ok : forall w, In w (a :: t) -> lo <= w <= hi).
  { intros w [<-|Hw]; [|specialize (A2 w Hw); specialize (B2 w Hw)]; lra. }
  apply In_ok in Hu. apply In_ok in Hv. lra.
Qed.
Lemma Rleb_scale : forall r a b, 0 < r -> Rleb (a * r) (b * r) = Rleb a b.
Proof.
  intros r a b Hr. unfold Rleb. destruct (Rle_lt_dec (a * r) (b * r)), (Rle_lt_dec a b); auto; exfalso; nra.
Qed.
Lemma hinge_scale : forall r optimise t y k q, 0 < r -> k <> 0 -> (exists u v, In u t /\ In v t /\ u <> v) ->
  hinge_fit optimise (map (fun v => v / r) t) y (k * r) q =
  map_res (sc r) (hinge_fit (slow_optimise r optimise) t y k q).
Proof.
  intros r optimise t y k q Hr Hk HD. unfold hinge_fit, hinge_coeffs_init, hinge_bounds.
  assert (Hi : 0 < / r) by now apply Rinv_0_lt_compat.
  rewrite amin_scale, amax_scale by exact Hr. unfold zlen. rewrite map_length.
  destruct (amin t) as [lo|e] eqn:E1; cbn [bind map_res]; [|reflexivity].
  destruct (amax t) as [hi|e] eqn:E2; cbn [bind map_res]; [|reflexivity].
  assert (N := distinct_extrema t lo hi E1 E2 HD).
  destruct (Z.of_nat (List.length t) <=? 1)%Z; cbn [bind map_res]; [reflexivity|].
  destruct (Req_EM_T (lo / r) (hi / r)) as [E|_].
  { exfalso. apply N. unfold Rdiv in E. apply Rmult_eq_reg_r in E; lra. }
  destruct (Req_EM_T lo hi) as [E|_]; [easy|].
  destruct (amax (map (fun v => Rabs (v - q)) y)) as [d|e]; cbn [bind map_res]; [|reflexivity].
  set (dq := if Req_EM_T d 0 then 1 else d).
  destruct (Req_EM_T (k * r) 0) as [E|_].
  { exfalso. apply Hk. apply Rmult_integral in E. lra. }
  destruct (Req_EM_T k 0) as [E|_]; [easy|].
  set (k0 := if Rlt_dec k 0 then 8 * k else k). set (k1 := if Rlt_dec k 0 then k else 8 * k).
  assert (K0 : (if Rlt_dec (k * r) 0 then 8 * (k * r) else k * r) = k0 * r).
  { unfold k0. destruct (Rlt_dec (k * r) 0), (Rlt_dec k 0); try ring; exfalso; nra. }
  assert (K1 : (if Rlt_dec (k * r) 0 then k * r else 8 * (k * r)) = k1 * r).
  { unfold k1. destruct (Rlt_dec (k * r) 0), (Rlt_dec k 0); try ring; exfalso; nra. }
  rewrite K0, K1. clearbody k0 k1. cbn [bind].
  replace ((lo / r + hi / r) / 2) with ((lo + hi) / 2 * / r) by (field; lra).
  assert (EC : ls_check ((lo + hi) / 2 * / r, k * r, q) (lo / r, k0 * r, q - dq, (hi / r, k1 * r, q + dq)) =
               ls_check ((lo + hi) / 2, k, q) (lo, k0, q - dq, (hi, k1, q + dq))).
  { unfold ls_check. cbn [coeffs_list combine forallb fst snd].
    change (lo / r) with (lo * / r). change (hi / r) with (hi * / r).
    rewrite !(Rleb_scale (/ r)), !(Rleb_scale r) by assumption.
    assert (L : forall w u v, 0 < w -> (if Rlt_dec (u * w) (v * w) then true else false) = (if Rlt_dec u v then true else false)).
    { intros w u v Hw. destruct (Rlt_dec (u * w) (v * w)), (Rlt_dec u v); auto; exfalso; nra. }
    rewrite (L (/ r)), (L r) by assumption. reflexivity. }
  rewrite EC. clear EC. destruct (ls_check _ _); cbn [map_res]; [|reflexivity]. f_equal. unfold slow_optimise.
  cbn [fst snd sc]. rewrite sc_sc by exact Hr. change ((lo + hi) / 2 * / r) with ((lo + hi) / 2 / r). f_equal.
  apply FunctionalExtensionality.functional_extensionality. intros [[a k'] q']. cbn [sc]. f_equal. rewrite map_map.
  apply map_ext. intros v. unfold Rdiv. rewrite Rinv_inv. f_equal. rewrite Rmult_assoc. f_equal.
  unfold Rmin. destruct (Rle_dec (v * / r) a) as [L|L], (Rle_dec v (a * r)) as [L'|L'].
  - ring.
  - exfalso. apply L'. apply (Rmult_le_compat_r r) in L; [|lra]. rewrite Rmult_assoc, Rinv_l in L by lra. lra.
  - exfalso. apply L. apply (Rmult_le_compat_r (/ r)) in L'; [|lra]. rewrite Rmult_assoc, Rinv_r in L' by lra. lra.
  - field. lra.
Qed.

Lemma present_plus : forall s l, present (map (option_map (fun v => v + s)) l) = map (fun v => v + s) (present l).
Proof. intros s l. exact (present_raise s l). Qed.
Lemma mask_heard : forall l i, mask (map notnan l) (map INR (seq i (List.length l))) = heard i l.
Proof.
  unfold mask. induction l as [|[a|] l IH]; intros i; cbn [List.length seq map combine filter fst snd notnan heard];
    [reflexivity| |]; cbn [map snd]; rewrite <- IH; reflexivity.
Qed.
Lemma present_mask : forall l, present (mask (map notnan l) l) = present l.
Proof.
  unfold mask, present. induction l as [|[a|] l IH]; cbn [map combine filter fst snd notnan flat_map app]; [reflexivity| |exact IH].
  cbn [map snd flat_map app]. now rewrite IH.
Qed.
Lemma heard_length : forall l i, List.length (heard i l) = List.length (present l).
Proof.
  unfold present. induction l as [|[a|] l IH]; intros i; cbn [heard flat_map app List.length]; auto.
Qed.
Lemma heard_le : forall l i, (List.length (heard i l) <= List.length l)%nat.
Proof. induction l as [|[a|] l IH]; intros i; cbn [heard List.length]; [lia| |]; specialize (IH (S i)); lia. Qed.
Lemma heard_ge : forall l i v, In v (heard i l) -> INR i <= v.
Proof.
  induction l as [|[a|] l IH]; intros i v; cbn [heard]; [easy| |]; intros H.
  - destruct H as [<-|H]; [lra|]. apply IH in H. rewrite S_INR in H. lra.
  - apply IH in H. rewrite S_INR in H. lra.
Qed.
Lemma heard_two : forall l i, (2 <= List.length (heard i l))%nat -> exists u v, In u (heard i l) /\ In v (heard i l) /\ u <> v.
Proof.
  induction l as [|[a|] l IH]; intros i; cbn [heard List.length]; intros H; [lia| |].
  - destruct (heard (S i) l) as [|v hs] eqn:E; [cbn in H; lia|]. exists (INR i), v. split; [now left|]. split; [right; now left|].
    assert (In v (heard (S i) l)) as I by (rewrite E; now left). apply heard_ge in I. rewrite S_INR in I. lra.
  - now apply IH.
Qed.

Lemma affine_error : forall A B s hs ys k q,
  line_error (map (fun v => A * v + B) hs) (map (fun v => v + s) ys) k q = line_error hs ys (k * A) (q + k * B - s).
Proof.
  intros A B s hs ys k q. unfold line_error. f_equal. revert ys.
  induction hs as [|a hs IH]; intros [|b ys]; cbn [map combine fst snd]; auto. f_equal; [ring|apply IH].
Qed.
Lemma affine_line : forall A B s hs ys k q, A <> 0 ->
  least_squares_line (map (fun v => A * v + B) hs) (map (fun v => v + s) ys) k q ->
  least_squares_line hs ys (k * A) (q + k * B - s).
Proof.
  intros A B s hs ys k q HA H k' q'. rewrite <- affine_error.
  specialize (H (k' / A) (q' - k' / A * B + s)). rewrite (affine_error A B s hs ys (k' / A)) in H.
  replace (k' / A * A) with k' in H by (field; exact HA).
  replace (q' - k' / A * B + s + k' / A * B - s) with q' in H by ring. exact H.
Qed.

(** The times and levels of a track with a trend. *)
Lemma preprocess_slanted : forall c nx t, a_fs c <> 0 -> a_h c <> 0 -> slanted t ->
  exists A B freq mag, A <> 0 /\
    preprocess_track c nx t = (map (fun v => A * v + B) (heard 0 (r_mag t)), freq, mag) /\
    present mag = map (fun v => v + double_db) (present (r_mag t)).
Proof.
  intros c nx t Hf Hh [L _]. unfold preprocess_track. rewrite mask_heard. pose proof (heard_le (r_mag t) 0) as LE.
  set (hs := heard 0 (r_mag t)). set (st := IZR (r_start t)). set (w := / 2 * a_wsize c / a_fs c).
  assert (EM : present (map (option_map (fun v => v + double_db)) (filter_field (map notnan (r_mag t)) (r_mag t))) =
               map (fun v => v + double_db) (present (r_mag t))).
  { rewrite present_plus. unfold filter_field. destruct (Nat.eqb_spec (List.length (r_mag t)) 1); [lia|].
    now rewrite present_mask. }
  set (B0 := st / (a_fs c / a_h c) + if a_padded c then 0 else w).
  exists (if a_rev c then - (a_h c / a_fs c) else a_h c / a_fs c), (if a_rev c then nx / a_fs c - B0 else B0).
  eexists. eexists. split; [|split; [|exact EM]].
  - assert (a_h c / a_fs c <> 0) by (apply Rmult_integral_contrapositive_currified; [exact Hh|now apply Rinv_neq_0_compat]).
    destruct (a_rev c); lra.
  - f_equal. f_equal. unfold B0. destruct (a_padded c), (a_rev c); rewrite !map_map; apply map_ext; intros v; field; auto.
Qed.
Lemma preprocess_higher : forall r fs h w p rv nx t, 0 < r ->
  preprocess_track (mkACfg (r * fs) h w p rv) nx (higher r t) =
  let '(ts, freq, mag) := preprocess_track (mkACfg fs h w p rv) nx t in
  (map (fun v => v / r) ts, map (option_map (Rmult r)) freq, mag).
Proof.
  intros r fs h w p rv nx t Hr. unfold preprocess_track, higher. cbn [r_start r_freq r_mag a_fs a_h a_wsize a_padded a_rev].
  f_equal. f_equal.
  - set (hs := mask _ _). destruct p, rv; rewrite !map_map; apply map_ext; intros v; unfold Rdiv;
      rewrite !Rinv_mult; ring.
  - unfold filter_field. rewrite map_length. destruct (Nat.eqb _ 1); [reflexivity|]. apply mask_map.
Qed.

Definition scale3 (r : R) (p : fl * fl * fl) : fl * fl * fl := let '(f, d, a) := p in (times r f, times (/ r) d, a).
Lemma sfit_scale : forall linreg optimise freq_reduce r ts freq mag,
  0 < r -> reduces_in_any_unit freq_reduce -> fst (linreg (map (fun v => v / r) ts) (present mag)) <> 0 ->
  (exists u v, In u ts /\ In v ts /\ u <> v) ->
  sfit_track linreg optimise freq_reduce (map (fun v => v / r) ts) (map (option_map (Rmult r)) freq) mag =
  map_res (map (scale3 r)) (sfit_track (slow_linreg r linreg) (slow_optimise r optimise) freq_reduce ts freq mag).
Proof.
  intros linreg optimise freq_reduce r ts freq mag Hr HF HK HD. unfold sfit_track, slow_linreg.
  destruct (linreg (map (fun v => v / r) ts) (present mag)) as [kl ql]. cbn [fst snd] in *.
  assert (N : kl / r <> 0) by (apply Rmult_integral_contrapositive_currified; [exact HK|apply Rinv_neq_0_compat; lra]).
  pose proof (hinge_scale r optimise ts (present mag) (kl / r) ql Hr N HD) as E.
  replace (kl / r * r) with kl in E by (field; lra). rewrite E.
  destruct (hinge_fit _ ts (present mag) (kl / r) ql) as [[[a k] q]|e]; cbn [map_res bind sc]; [|reflexivity].
  cbn [map scale3 times]. rewrite sc_present, HF by exact Hr. do 4 f_equal.
  destruct (Req_EM_T (k * r) 0) as [E0|E0], (Req_EM_T k 0) as [E1|E1]; cbn [times]; auto.
  - exfalso. apply E1. apply Rmult_integral in E0. lra.
  - exfalso. apply E0. rewrite E1. ring.
  - f_equal. unfold track_decay. field. repeat split; (exact E1 || lra).
Qed.

(** The same samples at a rate that is [r] times as high: the same modes with
    frequencies multiplied by [r], decays divided by [r] and the same amplitudes, if
    all tracks have a trend.  The linear regression and the least squares method for
    the original are those for the other rate, in the other unit. *)
Theorem c93_modes : forall linreg optimise freq_reduce phase argsort o x r,
  fits_lines linreg -> minimises optimise -> reduces_in_any_unit freq_reduce ->
  order_without_pitch argsort -> sorts argsort -> 0 < r -> 0 < rate o ->
  (forall ts t, rtracks phase argsort o x = Ok ts -> In t ts -> slanted t) ->
  exists linreg' optimise', fits_lines linreg' /\ minimises optimise' /\
  sample_fit linreg optimise freq_reduce phase argsort (faster r o) x =
  match sample_fit linreg' optimise' freq_reduce phase argsort o x with
  | Ok m => Ok (faster_modes r m)
  | Err e => Err e
  end.
Proof.
  intros linreg optimise freq_reduce phase argsort o x r HL HM HF HO HS Hr Hfs HT.
  exists (slow_linreg r linreg), (slow_optimise r optimise).
  split; [now apply slow_fits|]. split; [now apply slow_minimises|].
  unfold sample_fit. rewrite (c93_tracks phase argsort o x r HO HS Hr).
  destruct (rtracks phase argsort o x) as [ts|e]; cbn [bind]; [|reflexivity].
  rewrite faster_rt_cfg, faster_rt_reverse. change (rm_padded (faster r o)) with (rm_padded o). change (rm_w (faster r o)) with (rm_w o).
  cbn [faster_cfg g_fs g_h]. fold (rate o). set (h := IZR _). set (nx := IZR (zlen x)).
  assert (Hh : h <> 0) by (unfold h; apply not_0_IZR; lia).
  set (c := mkACfg (rate o) h (IZR (zlen (rm_w o))) (rm_padded o) (rt_reverse (rm_tracker o))).
  set (f := fun t => let '(t0, freq, mag) := preprocess_track c nx t in
    sfit_track (slow_linreg r linreg) (slow_optimise r optimise) freq_reduce t0 freq mag).
  set (c' := mkACfg _ _ _ _ _).
  set (f' := fun t => let '(t0, freq, mag) := preprocess_track c' nx t in sfit_track linreg optimise freq_reduce t0 freq mag).
  assert (EF : forall t, slanted t -> f' (higher r t) = map_res (map (scale3 r)) (f t)).
  { intros t SL. unfold f', f, c'. rewrite preprocess_higher by exact Hr. fold c.
    destruct (preprocess_slanted c nx t ltac:(cbn [c a_fs]; lra) Hh SL) as (A & B & freq & mag & HA & -> & EM).
    destruct SL as [S1 S2]. set (hs := heard 0 (r_mag t)) in *.
    assert (HD : exists u v, In u (map (fun v => A * v + B) hs) /\ In v (map (fun v => A * v + B) hs) /\ u <> v).
    { destruct (heard_two (r_mag t) 0 S1) as (u & v & Hu & Hv & N). exists (A * u + B), (A * v + B).
      split; [now apply (in_map (fun v => A * v + B))|]. split; [now apply (in_map (fun v => A * v + B))|].
      intros E. apply N. apply (Rmult_eq_reg_l A); [lra|exact HA]. }
    apply sfit_scale; auto.
    intros E0. pose proof (slow_fits r linreg Hr HL (map (fun v => A * v + B) hs) (present mag)) as Q.
    rewrite EM, !map_length in Q. unfold hs in Q at 1. rewrite heard_length in Q. specialize (Q eq_refl HD).
    unfold slow_linreg in Q. cbn [fst snd] in Q. rewrite <- EM, E0, EM in Q. apply affine_line in Q; [|exact HA].
    apply (S2 _ _ Q). unfold Rdiv. ring. }
  assert (SL : forall t, In t ts -> slanted t) by (intros t Ht; now apply (HT ts t)).
  assert (EM : mapM f' (map (higher r) ts) = map_res (map (map (scale3 r))) (mapM f ts)).
  { clearbody f f'. clear - EF SL. induction ts as [|t ts IH]; [reflexivity|]. cbn [map mapM].
    rewrite EF by (apply SL; now left). destruct (f t) as [v|e]; cbn [map_res bind]; [|reflexivity].
    rewrite IH by (intros u Hu; apply SL; now right). destruct (mapM f ts) as [rs|e]; cbn [map_res bind]; reflexivity. }
  rewrite EM. destruct (mapM f ts) as [rs|e]; cbn [map_res bind]; [|reflexivity]. f_equal.
  rewrite !matrix_ok. unfold transpose3, faster_modes.
  assert (EX : filter finite3 (concat (map (map (scale3 r)) rs)) = map (scale3 r) (filter finite3 (concat rs))).
  { rewrite <- concat_map. generalize (concat rs). intros l. induction l as [|p l IH]; [reflexivity|]. cbn [map filter].
    assert (E3 : finite3 (scale3 r p) = finite3 p) by (destruct p as [[[] []] []]; reflexivity).
    rewrite E3. destruct (finite3 p); [|exact IH]. cbn [map]. now rewrite IH. }
  rewrite EX, !map_map. f_equal; [|f_equal; [|f_equal]]; apply map_ext; intros [[a b] d]; reflexivity.
Qed.
Print Assumptions c93_modes.

Lemma heard_line : forall l i A s, (forall j m, has_value l j m -> m = A + INR (i + j) * s) ->
  present l = map (fun v => s * v + A) (heard i l).
Proof.
  unfold present. induction l as [|o l IH]; intros i A s H; [reflexivity|].
  assert (T : forall j m, has_value l j m -> m = A + INR (S i + j) * s).
  { intros j m Hj. rewrite (H (S j) m Hj). do 3 f_equal. lia. }
  destruct o as [a|]; cbn [heard flat_map app map]; [|now apply IH].
  rewrite (H 0%nat a eq_refl), Nat.add_0_r. f_equal; [ring|now apply IH].
Qed.
(** Sounds that decay uniformly have tracks with a trend. *)
Theorem c93_trend : forall phase argsort o x c, sorts argsort ->
  well_posed o x -> resolved o x -> known_strategy (rm_tracker o) -> (3 <= rmin_sine_len (rt_cfg (rm_tracker o)))%Z ->
  0 < c < 1 -> scaled_by_hop (hop o) c x ->
  forall ts t, rtracks phase argsort o x = Ok ts -> In t ts -> slanted t.
Proof.
  intros phase argsort o x c HA (W1 & W2 & W3 & W4 & W5) HS HK H3 Hc HX ts t ET Ht.
  set (g := if rt_reverse (rm_tracker o) then / c else c).
  assert (Hg : 0 < g) by (unfold g; destruct (rt_reverse _); [apply Rinv_0_lt_compat|]; lra).
  assert (HB : hop_db g <> 0).
  { assert (LC : ln c < 0) by (rewrite <- ln_1; apply ln_increasing; lra). assert (L10 := ln10_pos).
    assert (LG : ln g <> 0) by (unfold g; destruct (rt_reverse _); [rewrite ln_Rinv by lra|]; lra).
    unfold hop_db. intros E. apply LG. apply (Rmult_eq_reg_r (20 / ln 10)); [|apply Rmult_integral_contrapositive_currified; [lra|apply Rinv_neq_0_compat; lra]].
    rewrite Rmult_0_l, <- E. field. lra. }
  destruct (tracks_ok phase argsort o x g W1 ltac:(lia) ltac:(lia) W3 Hg (analysed_scaled o x c ltac:(lra) HX) W5)
    as (ts' & E & FT).
  - intros fr pi Hp. apply (Permutation_in _ (HA fr)) in Hp. apply in_seq in Hp. lia.
  - apply (resolved_peaks o x HS).
  - now apply strategies.
  - exact H3.
  - rewrite E in ET. injection ET as ->. rewrite Forall_forall in FT. destruct (FT t Ht) as (k & _ & (_ & _ & U2 & _ & _ & U5)).
    set (M := vlev _ k) in U5. set (s := hop_db g) in *.
    assert (PL : present (r_mag t) = map (fun v => s * v + (M + IZR (r_start t) * s)) (heard 0 (r_mag t))).
    { apply heard_line. intros j m Hj. rewrite (U5 j m Hj), plus_IZR, <- INR_IZR_INZ. cbn [Nat.add]. ring. }
    assert (L2 : (2 <= List.length (heard 0 (r_mag t)))%nat).
    { destruct (U2 0%nat ltac:(lia)) as (v0 & H0). destruct (U2 1%nat ltac:(lia)) as (v1 & H1).
      unfold has_value in H0, H1. destruct (r_mag t) as [|a [|b l]]; try discriminate. cbn in H0, H1.
      injection H0 as ->. injection H1 as ->. cbn [heard List.length]. lia. }
    split; [exact L2|]. intros k' q' HQ. rewrite PL in HQ.
    destruct (heard_two (r_mag t) 0 L2) as (u & v & Hu & Hv & N).
    destruct (line_exact _ _ _ _ _ u v Hu Hv N HQ) as [-> _]. exact HB.
Qed.
Print Assumptions c93_trend.

(** The example of C91 at 44100 Hz in place of 4 Hz. *)
Example c93_example : forall linreg optimise freq_reduce phase argsort,
  fits_lines linreg -> minimises optimise -> reduces freq_reduce -> reduces_in_any_unit freq_reduce ->
  sorts argsort -> order_without_pitch argsort ->
  rate (faster 11025 ex_modal) = 44100 /\
  sample_fit linreg optimise freq_reduce phase argsort (faster 11025 ex_modal) ex_x =
    Ok [[Fin 11025]; [Fin (2 / (11025 * ln 2))]; [Fin (2 * sqrt 2)]].
Proof.
  intros linreg optimise freq_reduce phase argsort HL HM HR HU HA HO. split; [unfold rate; cbn; lra|].
  destruct (c93_modes linreg optimise freq_reduce phase argsort ex_modal ex_x 11025 HL HM HU HO HA) as (l' & o' & Hl & Hm & E).
  - lra.
  - unfold rate. cbn. lra.
  - apply (c93_trend phase argsort ex_modal ex_x (1 / 2) HA).
    + apply ex_well_posed. auto.
    + apply c90_tolerance; unfold rate; cbn; lra || lia.
    + right. reflexivity.
    + unfold rmin_sine_len, rframe_rate. cbn [rm_tracker ex_modal rt_cfg g_base ex_cfg g_dur g_fs g_h].
      pose proof (Rceil_spec (3 * (4 / 4))) as [P Q]. replace (3 * (4 / 4)) with 3 in * by field.
      assert (2 < Rceil 3)%Z by (apply lt_IZR; lra). lia.
    + lra.
    + exact ex_scaled.
  - rewrite E. destruct (c91_example l' o' freq_reduce phase argsort Hl Hm HR HA) as [_ ->].
    assert (L2 : 0 < ln 2) by (rewrite <- ln_1; apply ln_increasing; lra).
    cbn [faster_modes map times]. do 2 f_equal; [do 2 f_equal; ring|]. do 3 f_equal. field. lra.
Qed.
(** Reductions and orders as asked for exist: the mean, the order of frequencies. *)
Example c93_premises :
  reduces_in_any_unit rmean /\ reduces rmean /\
  sorts (fun fr => seq 0 (List.length fr)) /\ order_without_pitch (fun fr => seq 0 (List.length fr)).
Proof.
  split; [intros r l Hr; apply sc_rmean|]. split; [exact (proj2 c90_regression)|].
  split; [intros fr; apply Permutation_refl|]. intros r fr _. now rewrite map_length.
Qed.

(** ** Tracks without a trend *)

(** The levels 0, -10, 0 (dB) at 0, 1 and 2 seconds have no trend, and the slope of
    the hinge is sought between -1 and 1 dB per second.  In a unit of time in which
    the same levels are at 0, 0.1 and 0.2 it is sought between -1 and 1 dB per 10
    seconds.  A minimum in one unit is not one in the other. *)
Definition flat_t : list R := [0; 1; 2].
Definition flat_y : list R := [0; -10; 0].
Lemma flat_error : forall P p s q, 0 <= P <= 1 -> - P <= p <= P -> (0 <= p -> p <= s) -> (p <= 0 -> 2 * p <= s) ->
  200 / 3 - 20 / 3 * P + 2 / 3 * P ^ 2 <= q ^ 2 + (q - p + 10) ^ 2 + (q - s) ^ 2.
Proof.
  intros P p s q HP Hp H1 H2.
  assert (E : q ^ 2 + (q - p + 10) ^ 2 + (q - s) ^ 2 =
    3 * (q + (10 - p - s) / 3) ^ 2 + ((10 - p) ^ 2 + s ^ 2 - (10 - p - s) ^ 2 / 3)) by field.
  rewrite E. pose proof (pow2_ge_0 (q + (10 - p - s) / 3)) as Q.
  assert (G : 200 / 3 - 20 / 3 * P + 2 / 3 * P ^ 2 <= (10 - p) ^ 2 + s ^ 2 - (10 - p - s) ^ 2 / 3); [|lra].
  destruct (Rle_lt_dec 0 p) as [Pp|Pp].
  - specialize (H1 Pp).
    assert (200 / 3 - 20 / 3 * P + 2 / 3 * P ^ 2 <= 200 / 3 - 20 / 3 * p + 2 / 3 * p ^ 2) by nra.
    assert ((10 - p) ^ 2 + s ^ 2 - (10 - p - s) ^ 2 / 3 - (200 / 3 - 20 / 3 * p + 2 / 3 * p ^ 2) =
            2 / 3 * (s - p) * (s + 10)) as F by field.
    assert (0 <= 2 / 3 * (s - p) * (s + 10)) by (apply Rmult_le_pos; lra). lra.
  - specialize (H2 ltac:(lra)).
    assert ((10 - p) ^ 2 + s ^ 2 - (10 - p - s) ^ 2 / 3 - (200 / 3 + 2 * p ^ 2) =
            2 / 3 * (s - 2 * p) * (s + p + 10)) as F by field.
    assert (0 <= 2 / 3 * (s - 2 * p) * (s + p + 10)) by (apply Rmult_le_pos; lra). nra.
Qed.
Definition flat_res (r : R) (p : coeffs) : list R :=
  let '(a, k, q) := p in map2 Rminus (map (fun v => k * Rmin v a + q) (map (fun v => v / r) flat_t)) flat_y.
Lemma flat_ssq : forall r a k q, 0 < r -> 0 <= a <= 2 / r -> 
  ssq (flat_res r (a, k, q)) = q ^ 2 + (q - - (k * Rmin (1 / r) a) + 10) ^ 2 + (q - - (k * a)) ^ 2.
Proof.
  intros r a k q Hr Ha. unfold flat_res, ssq, flat_t, flat_y, map2. cbn [map combine fst snd rsum fold_right].
  rewrite (Rmin_right (2 / r) a) by lra. rewrite (Rmin_left (0 / r) a) by (unfold Rdiv; lra). unfold Rdiv at 1. ring.
Qed.
Definition flat_bounds (r : R) : coeffs * coeffs := ((0, -1, -10), (2 / r, 1, 10 / 3)).
Definition flat_min (r : R) : coeffs := (1 / r, -1, (-10 + 2 / r) / 3).
Lemma flat_above : forall r a k q P, 0 < r -> 0 <= P <= 1 -> - P <= k / r <= P -> 0 <= a <= 2 / r ->
  200 / 3 - 20 / 3 * P + 2 / 3 * P ^ 2 <= ssq (flat_res r (a, k, q)).
Proof.
  intros r a k q P Hr HP Hk Ha. rewrite flat_ssq by assumption. assert (0 < / r) by now apply Rinv_0_lt_compat.
  unfold Rdiv in *. rewrite Rmult_1_l. set (i := / r) in *.
  assert (M : Rmin i a <= i /\ Rmin i a <= a /\ 0 <= Rmin i a /\ a <= 2 * Rmin i a).
  { unfold Rmin. destruct (Rle_dec i a); repeat split; lra. }
  destruct M as (M1 & M2 & M3 & M4). set (m := Rmin i a) in *. apply flat_error; [lra| | |].
  - destruct (Rle_lt_dec 0 k) as [C|C].
    + assert (0 <= k * m) by now apply Rmult_le_pos. assert (k * m <= k * i) by now apply Rmult_le_compat_l. lra.
    + assert (0 <= - k * m) by (apply Rmult_le_pos; lra). assert (- k * m <= - k * i) by (apply Rmult_le_compat_l; lra). lra.
  - intros C. destruct (Req_EM_T m 0) as [Z|Z]; [replace a with 0 by lra; rewrite Z; lra|].
    assert (k <= 0) by (apply (Rmult_le_reg_r m); lra).
    assert (0 <= - k * (a - m)) by (apply Rmult_le_pos; lra). lra.
  - intros C. destruct (Req_EM_T m 0) as [Z|Z]; [replace a with 0 by lra; rewrite Z; lra|].
    assert (0 <= k) by (apply (Rmult_le_reg_r m); lra).
    assert (0 <= k * (2 * m - a)) by (apply Rmult_le_pos; lra). lra.
Qed.
Lemma flat_is_minimum : forall r, 1 <= r -> is_minimum (flat_res r) (flat_bounds r) (flat_min r).
Proof.
  intros r Hr. assert (Hi : 0 < / r) by (apply Rinv_0_lt_compat; lra).
  assert (Hi1 : / r <= 1) by (rewrite <- Rinv_1; apply Rinv_le_contravar; lra).
  split.
  - unfold flat_min, flat_bounds, within, Rdiv. repeat split; lra.
  - intros [[a k] q] (A & K & Q). cbn [flat_bounds] in *.
    apply Rle_trans with (200 / 3 - 20 / 3 * / r + 2 / 3 * (/ r) ^ 2).
    + unfold flat_min. rewrite flat_ssq; [|lra|unfold Rdiv; lra]. rewrite Rmin_left by lra. unfold Rdiv. lra.
    + apply flat_above; try lra. unfold Rdiv. nra.
Qed.
Lemma flat_fit : forall r optimise, 0 < r -> minimises optimise -> 
  hinge_fit optimise (map (fun v => v / r) flat_t) flat_y 0 (- (10 / 3)) =
  Ok (optimise (flat_res r) (1 / r, 0, - (10 / 3)) (flat_bounds r)).
Proof.
  intros r optimise Hr HM. assert (Hi : 0 < / r) by (apply Rinv_0_lt_compat; lra).
  unfold hinge_fit, hinge_coeffs_init, hinge_bounds. rewrite amin_scale, amax_scale by exact Hr.
  assert (E1 : amin flat_t = Ok 0) by (unfold flat_t; cbn [amin fold_left]; rewrite (Rmin_left 0 1), (Rmin_left 0 2) by lra; reflexivity).
  assert (E2 : amax flat_t = Ok 2) by (unfold flat_t; cbn [amax fold_left]; rewrite (Rmax_right 0 1), (Rmax_right 1 2) by lra; reflexivity).
  rewrite E1, E2. cbn [map_res bind]. change (zlen (map (fun v => (v / r)%R) flat_t) <=? 1)%Z with false. cbn [bind].
  destruct (Req_EM_T (0 / r) (2 / r)) as [E|_]; [unfold Rdiv in E; lra|].
  assert (E3 : amax (map (fun v => Rabs (v - - (10 / 3))) flat_y) = Ok (20 / 3)).
  { unfold flat_y. cbn [map amax fold_left].
    rewrite (Rabs_pos_eq (0 - - (10 / 3))), (Rabs_left (-10 - - (10 / 3))) by lra.
    rewrite (Rmax_right (0 - - (10 / 3)) (- (-10 - - (10 / 3)))) by lra. rewrite Rmax_left by lra. f_equal. lra. }
  rewrite E3. cbn [bind]. destruct (Req_EM_T (20 / 3) 0); [lra|]. destruct (Req_EM_T 0 0) as [_|N]; [|easy]. cbn [bind].
  replace ((0 / r + 2 / r) / 2) with (1 / r) by (field; lra). replace (0 / r) with 0 by (field; lra).
  replace (- (10 / 3) - 20 / 3) with (-10) by field. replace (- (10 / 3) + 20 / 3) with (10 / 3) by field.
  assert (EC : ls_check (1 / r, 0, - (10 / 3)) (0, -1, -10, (2 / r, 1, 10 / 3)) = true).
  { unfold ls_check, Rleb, Rdiv. cbn [coeffs_list combine forallb fst snd].
    repeat match goal with |- context [Rlt_dec ?a ?b] => destruct (Rlt_dec a b); [|exfalso; lra] end.
    repeat match goal with |- context [Rle_lt_dec ?a ?b] => destruct (Rle_lt_dec a b); [|exfalso; lra] end. reflexivity. }
  rewrite EC. reflexivity.
Qed.
Theorem c93_flat_refuted : exists t y r k q, 0 < r /\ least_squares_line t y k q /\
  forall optimise optimise', minimises optimise -> minimises optimise' ->
  exists a1 k1 q1 a2 k2 q2,
    hinge_fit optimise t y k q = Ok (a1, k1, q1) /\
    hinge_fit optimise' (map (fun v => v / r) t) y (k * r) q = Ok (a2, k2, q2) /\
    k2 <> k1 * r.
Proof.
  exists flat_t, flat_y, 10, 0, (- (10 / 3)). split; [lra|]. split.
  { intros k' q'. unfold line_error, ssq, flat_t, flat_y. cbn [map combine fst snd rsum fold_right].
    pose proof (pow2_ge_0 (q' + k' + 10 / 3)). pose proof (pow2_ge_0 k'). nra. }
  intros optimise optimise' HM HM'. rewrite Rmult_0_l.
  pose proof (flat_fit 1 optimise ltac:(lra) HM) as F1. rewrite (map_ext (fun v => v / 1) (fun v => v)), map_id in F1 by (intros; field).
  rewrite F1, (flat_fit 10 optimise' ltac:(lra) HM').
  destruct (HM (flat_res 1) (1 / 1, 0, - (10 / 3)) (flat_bounds 1)) as [W1 M1]; [exists (flat_min 1); apply flat_is_minimum; lra|].
  destruct (HM' (flat_res 10) (1 / 10, 0, - (10 / 3)) (flat_bounds 10)) as [W2 M2]; [exists (flat_min 10); apply flat_is_minimum; lra|].
  destruct (optimise _ _ _) as [[a1 k1] q1]. destruct (optimise' _ _ _) as [[a2 k2] q2].
  exists a1, k1, q1, a2, k2, q2. split; [reflexivity|]. split; [reflexivity|]. intros E. subst k2.
  destruct W1 as (A1 & K1 & Q1). destruct W2 as (A2 & K2 & Q2).
  pose proof (flat_above 1 a1 k1 q1 (1 / 10) ltac:(lra) ltac:(lra) ltac:(lra) ltac:(lra)) as L.
  specialize (M1 (flat_min 1) (proj1 (flat_is_minimum 1 ltac:(lra)))).
  unfold flat_min in M1. rewrite (flat_ssq 1 (1 / 1)) in M1 by lra. rewrite Rmin_left in M1 by lra. lra.
Qed.
Print Assumptions c93_flat_refuted.
