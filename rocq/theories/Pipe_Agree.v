(** The peaks and trackers of [Pipe_Model.v] are those of [Stft_Model.v] and
    [Tracker_Model.v]: on rational numbers they give the same results. *)
From Coq Require Import String List Bool ZArith QArith Qround Qabs Qreals Reals Lra Lia.
Import ListNotations.
From Verif Require Import Base Py PyLemmas ListLemmas RLists Stft_Model Tracker_Model Dsp_Model Sample_Model Bank_Model
  Bank_Proofs Beat_Model Pipe_Model Pipe_Proofs.
Local Open Scope R_scope.

(** ** Numbers *)

Lemma agree_ltb : forall a b, Rltb (Q2R a) (Q2R b) = Qltb a b.
Proof.
  intros a b. destruct (Qltb a b) eqn:E.
  - apply Qltb_true in E. apply Rltb_true. now apply Qlt_Rlt.
  - apply Qltb_false in E. apply Rltb_false. now apply Qle_Rle.
Qed.
Lemma agree_abs : forall a, Q2R (Qabs a) = Rabs (Q2R a).
Proof.
  intros a. apply Qabs_case; intros H; apply Qle_Rle in H; replace (Q2R 0) with 0 in H by (unfold Q2R; cbn; lra).
  - rewrite Rabs_pos_eq; auto.
  - rewrite Q2R_opp, Rabs_left1; auto.
Qed.
Lemma agree_int : forall z, Q2R (inject_Z z) = IZR z.
Proof. intros z. unfold Q2R, inject_Z. cbn. lra. Qed.
Lemma agree_zero : Q2R 0 = 0.
Proof. apply (agree_int 0). Qed.
Lemma agree_div : forall a b, Q2R (a / b) = Q2R a / Q2R b.
Proof.
  intros a b. unfold Qdiv. rewrite Q2R_mult. unfold Rdiv. f_equal.
  destruct (Qeq_dec b 0) as [E|N]; [|now apply Q2R_inv].
  assert (EI : (/ b == 0)%Q) by (rewrite E; reflexivity).
  apply Qeq_eqR in E. apply Qeq_eqR in EI. rewrite agree_zero in E, EI. now rewrite EI, E, Rinv_0.
Qed.
Lemma agree_sum : forall l, Q2R (Qsum l) = rsum (map Q2R l).
Proof.
  induction l as [|a l IH]; [apply agree_zero|]. cbn [map]. change (rsum (?u :: ?v)) with (u + rsum v).
  change (Qsum (a :: l)) with (a + Qsum l)%Q. now rewrite Q2R_plus, IH.
Qed.
Lemma agree_mean : forall l, Q2R (Qmean l) = rmean (map Q2R l).
Proof.
  intros l. unfold Qmean, rmean, Qlen. now rewrite agree_div, agree_sum, agree_int, map_length, INR_IZR_INZ.
Qed.
Lemma agree_ceil : forall a, Rceil (Q2R a) = Qceiling a.
Proof.
  intros a. pose proof (Rceil_spec (Q2R a)) as R.
  pose proof (Qle_ceiling a) as A. pose proof (Qceiling_lt a) as B.
  apply Qle_Rle in A. apply Qlt_Rlt in B. rewrite agree_int in A, B. rewrite minus_IZR in B.
  assert (Rceil (Q2R a) < Qceiling a + 1)%Z by (apply lt_IZR; rewrite plus_IZR; lra).
  assert (Qceiling a < Rceil (Q2R a) + 1)%Z by (apply lt_IZR; rewrite plus_IZR; lra). lia.
Qed.

(** ** Data *)

Definition oreal (l : list (option Q)) : list (option R) := map (option_map Q2R) l.
Definition real_peak (p : peak) : rpeak := mkRPeak (Q2R (pk_f p)) (Q2R (pk_m p)) (Q2R (pk_p p)).
Definition real_track (t : track) : ltrack := mkLTrack (t_start t) (map Q2R (t_freq t)) (map Q2R (t_mag t)) (map Q2R (t_ph t)).
Definition real_saved (t : strack) : rtrack :=
  mkRTrack (Z.of_nat (s_start t)) (oreal (s_freq t)) (oreal (s_mag t)) (oreal (s_ph t)).
Definition real_cfg (c : cfg) : rcfg :=
  mkRCfg (Q2R (c_fs c)) (c_h c) (c_max c) (Q2R (c_dur c)) (Q2R (c_off c)) (Q2R (c_slope c)).
Definition real_mcfg (m : mcfg) : rmcfg :=
  mkRMCfg (real_cfg (m_base m)) (option_map Q2R (m_fmin m)) (option_map Q2R (m_fmax m)) (Q2R (m_thr m)) (m_rev m)
          (m_strategy m) (option_map Q2R (m_strip m)).
Definition real_state (st : state) : rstate := mkRState (map real_saved (saved st)) (map real_track (active st)) (nframe st).

Lemma nth_peak : forall fr i, nth i (map real_peak fr) no_rpeak = real_peak (nth i fr no_peak).
Proof.
  intros. replace no_rpeak with (real_peak no_peak) by (unfold real_peak, no_rpeak; cbn; now rewrite agree_zero).
  apply map_nth.
Qed.
Lemma nth_track : forall ts i, nth i (map real_track ts) no_ltrack = real_track (nth i ts no_track).
Proof. intros. change no_ltrack with (real_track no_track). apply map_nth. Qed.
Lemma nth_saved : forall ts i, nth i (map real_saved ts) no_rtrack = real_saved (nth i ts no_strack).
Proof. intros. change no_rtrack with (real_saved no_strack). apply map_nth. Qed.
Lemma map_upd : forall (A B : Type) (f : A -> B) i a l, map f (upd i a l) = upd i (f a) (map f l).
Proof.
  intros A B f i a l. revert i. induction l as [|b l IH]; intros [|i]; cbn; auto. now rewrite IH.
Qed.
Lemma map_remove : forall (A B : Type) (f : A -> B) i l, map f (remove_nth i l) = remove_nth i (map f l).
Proof. intros A B f i l. revert i. induction l as [|b l IH]; intros [|i]; cbn; auto. now rewrite IH. Qed.

Lemma agree_numpy : forall t, rnumpy_track (real_track t) = real_saved (numpy_track t).
Proof.
  intros t. unfold rnumpy_track, real_saved, numpy_track, oreal, real_track.
  cbn [l_start l_freq l_mag l_ph s_start s_freq s_mag s_ph]. now rewrite !map_map.
Qed.
Lemma agree_df : forall c f, Q2R (df c f) = rdf (real_cfg c) (Q2R f).
Proof. intros c f. unfold df, rdf. now rewrite Q2R_plus, Q2R_mult. Qed.
Lemma agree_frame_rate : forall c, Q2R (frame_rate c) = rframe_rate (real_cfg c).
Proof. intros c. unfold frame_rate, rframe_rate. now rewrite agree_div, agree_int. Qed.
Lemma agree_min_len : forall c, rmin_sine_len (real_cfg c) = min_sine_len c.
Proof.
  intros c. unfold rmin_sine_len, min_sine_len. f_equal. rewrite <- agree_ceil, Q2R_mult, agree_frame_rate. reflexivity.
Qed.
Lemma agree_sine_ok : forall c t, rsine_ok (real_cfg c) (real_track t) = sine_ok c t.
Proof. intros c t. unfold rsine_ok, sine_ok. rewrite agree_min_len. unfold real_track. cbn [l_freq]. now rewrite map_length. Qed.

Lemma agree_min_key : forall (A K L : Type) (lt : K -> K -> bool) (lt' : L -> L -> bool) (f : K -> L) (it : list A) key key',
  (forall a b, lt' (f a) (f b) = lt a b) -> (forall i, key' i = f (key i)) ->
  min_key lt' it key' = option_map (fun p => (fst p, f (snd p))) (min_key lt it key).
Proof.
  intros A K L lt lt' f it key key' HL HK. unfold min_key.
  assert (G : forall acc, fold_left (fun acc i => let x := key' i in
      match acc with None => Some (i, x) | Some (_, x_) => if lt' x x_ then Some (i, x) else acc end) it
      (option_map (fun p => (fst p, f (snd p))) acc) =
    option_map (fun p => (fst p, f (snd p))) (fold_left (fun acc i => let x := key i in
      match acc with None => Some (i, x) | Some (_, x_) => if lt x x_ then Some (i, x) else acc end) it acc)).
  { induction it as [|i it IH]; intros acc; [reflexivity|]. cbn [fold_left]. rewrite <- IH. f_equal. cbv zeta.
    destruct acc as [[j d]|]; cbn [option_map fst snd]; rewrite HK; [|reflexivity].
    rewrite HL. destruct (lt (key i) d); reflexivity. }
  apply (G None).
Qed.

(** ** Tracker *)

Lemma agree_last : forall t, rlast_freq (real_track t) = Q2R (last_freq t).
Proof.
  intros t. unfold rlast_freq, last_freq, real_track. cbn [l_freq]. induction (t_freq t) as [|a l IH].
  - symmetry. apply agree_zero.
  - cbn [map]. destruct l as [|b l]; [reflexivity|]. exact IH.
Qed.
Lemma agree_push : forall t p, rpush (real_track t) (real_peak p) = real_track (push t p).
Proof.
  intros t p. unfold rpush, real_track, push. cbn [l_start l_freq l_mag l_ph t_start t_freq t_mag t_ph].
  now rewrite !map_app.
Qed.

Lemma agree_match : forall c fr order ts ft fp,
  rmatch_loop (real_cfg c) (map real_peak fr) order (map real_track ts) ft fp =
  let '(ts', ft', fp') := match_loop c fr order ts ft fp in (map real_track ts', ft', fp').
Proof.
  intros c fr order. induction order as [|pi rest IH]; intros ts ft fp; cbn [rmatch_loop match_loop]; [reflexivity|].
  destruct (negb (existsb (fun b => b) ft)); [reflexivity|].
  rewrite map_length, nth_peak.
  set (it := filter (fun i => nth i ft false) (seq 0 (List.length ts))).
  rewrite (agree_min_key _ _ _ Qltb Rltb Q2R it (fun i => Qabs (last_freq (nth i ts no_track) - pk_f (nth pi fr no_peak)))).
  2:{ apply agree_ltb. }
  2:{ intros i. rewrite nth_track, agree_last, agree_abs, Q2R_minus. reflexivity. }
  destruct (min_key Qltb it _) as [[ti d]|]; cbn [option_map fst snd]; [|apply IH].
  change (rp_f (real_peak (nth pi fr no_peak))) with (Q2R (pk_f (nth pi fr no_peak))).
  rewrite <- agree_df, agree_ltb. destruct (Qltb d _); [|apply IH].
  rewrite nth_track, agree_push, <- map_upd. apply IH.
Qed.

(** What it means for two deactivations to agree. *)
Definition map_res {A B : Type} (f : A -> B) (r : res A) : res B := match r with Ok a => Ok (f a) | Err e => Err e end.
Definition deact_agree (d : deactivator) (d' : rdeactivator) : Prop :=
  forall sv t, d' (map real_saved sv) (real_track t) = map_res (map real_saved) (d sv t).
Lemma agree_sine_deact : forall c, deact_agree (sine_deact c) (rsine_deact (real_cfg c)).
Proof.
  intros c sv t. unfold rsine_deact, sine_deact. cbn [map_res]. rewrite agree_sine_ok. destruct (sine_ok c t); [|reflexivity].
  rewrite map_app. cbn [map]. now rewrite agree_numpy.
Qed.

Lemma agree_deact_loop : forall d d', deact_agree d d' -> forall ft sv ts,
  rdeact_loop d' ft (map real_saved sv) (map real_track ts) =
  map_res (fun p => (map real_saved (fst p), map real_track (snd p))) (deact_loop d ft sv ts).
Proof.
  intros d d' HD ft sv ts. unfold rdeact_loop, deact_loop. rewrite map_length.
  generalize (filter (fun i => nth i ft false) (rev (seq 0 (List.length ts)))) as l.
  intros l. revert sv ts. induction l as [|i l IH]; intros sv ts; [reflexivity|]. cbn [foldM fst snd].
  rewrite nth_track, HD. destruct (d sv (nth i ts no_track)) as [sv'|e]; cbn [map_res]; [|reflexivity].
  rewrite <- map_remove. apply IH.
Qed.
Lemma agree_activate : forall c n fr ps ts,
  ractivate_loop (real_cfg c) n (map real_peak fr) ps (map real_track ts) = map real_track (activate_loop c n fr ps ts).
Proof.
  intros c n fr ps. induction ps as [|p ps IH]; intros ts; cbn [ractivate_loop activate_loop]; [reflexivity|].
  rewrite map_length. cbn [g_max real_cfg]. destruct (Z.leb _ _); [reflexivity|].
  rewrite <- IH, map_app. cbn [map]. rewrite nth_peak. reflexivity.
Qed.
Lemma agree_step : forall c d d', deact_agree d d' -> forall st fr order,
  rstep (real_cfg c) d' (real_state st) (map real_peak fr, order) = map_res real_state (step c d st (fr, order)).
Proof.
  intros c d d' HD st fr order. unfold rstep, step, real_state. cbn [rsaved ractive rnframe].
  rewrite !map_length, agree_match.
  destruct (match_loop c fr order (active st) _ _) as [[ts ft] fp]. rewrite (agree_deact_loop d d' HD).
  destruct (deact_loop d ft (saved st) ts) as [[sv ts1]|e]; cbn [map_res bind fst snd]; [|reflexivity].
  unfold real_state. cbn [saved active nframe]. now rewrite agree_activate.
Qed.

(** ** Modal tracker *)

Lemma agree_ols : forall xs ys, Q2R (ols_coef xs ys) = rols_coef (map Q2R xs) (map Q2R ys) /\
  Q2R (ols_intercept xs ys) = rols_intercept (map Q2R xs) (map Q2R ys).
Proof.
  intros xs ys.
  assert (C : Q2R (ols_coef xs ys) = rols_coef (map Q2R xs) (map Q2R ys)).
  { unfold ols_coef, rols_coef. rewrite agree_div, !agree_sum, <- !agree_mean, !map_map.
    apply f_equal2; [|apply f_equal; apply map_ext; intros x; now rewrite Q2R_mult, !Q2R_minus].
    f_equal. generalize (Qmean xs) (Qmean ys). intros mx my. revert ys.
    induction xs as [|x xs IH]; intros [|y ys]; cbn [combine map fst snd]; auto.
    now rewrite Q2R_mult, !Q2R_minus, IH. }
  split; [exact C|]. unfold ols_intercept, rols_intercept. now rewrite Q2R_minus, Q2R_mult, !agree_mean, C.
Qed.
Lemma agree_lm_x : forall r n, map Q2R (lm_x r n) = rlm_x r n.
Proof.
  intros r n. unfold lm_x, rlm_x.
  assert (E : map Q2R (map (fun i => inject_Z (Z.of_nat i)) (seq 0 n)) = map INR (seq 0 n)).
  { rewrite map_map. apply map_ext. intros i. now rewrite agree_int, INR_IZR_INZ. }
  destruct r; [rewrite map_rev|]; now rewrite E.
Qed.
Lemma agree_modal_ok : forall m t, rmodal_ok (real_mcfg m) (real_track t) = modal_ok m t.
Proof.
  intros m t. unfold rmodal_ok, modal_ok. cbn [g_base real_mcfg g_fmin g_fmax g_thr g_rev]. rewrite agree_sine_ok.
  destruct (negb (sine_ok (m_base m) t)); [reflexivity|].
  unfold real_track. cbn [l_freq l_mag]. rewrite map_length, <- agree_mean, <- agree_lm_x.
  destruct (agree_ols (lm_x (m_rev m) (List.length (t_mag t))) (t_mag t)) as [<- <-].
  rewrite <- agree_zero at 1. rewrite !agree_ltb.
  destruct (m_fmin m), (m_fmax m); cbn [option_map]; rewrite ?agree_ltb; reflexivity.
Qed.
Lemma agree_present : forall l, present (oreal l) = map Q2R (present l).
Proof.
  unfold oreal, present. induction l as [|[a|] l IH]; cbn [map option_map flat_map app]; [reflexivity| |exact IH].
  now rewrite IH.
Qed.
Lemma agree_nanmean : forall l, rnanmean (oreal l) = option_map Q2R (nanmean l).
Proof.
  intros l. unfold rnanmean, nanmean. rewrite agree_present. destruct (present l) as [|a v]; [reflexivity|].
  cbn [map option_map]. f_equal. symmetry. apply (agree_mean (a :: v)).
Qed.
Lemma agree_absdiff : forall x y, rnan_absdiff (option_map Q2R x) (option_map Q2R y) = option_map Q2R (nan_absdiff x y).
Proof. intros [x|] [y|]; cbn [option_map rnan_absdiff nan_absdiff]; auto. now rewrite agree_abs, Q2R_minus. Qed.
Lemma agree_nan_ltb : forall x y, rnan_ltb (option_map Q2R x) (option_map Q2R y) = nan_ltb x y.
Proof. intros [x|] [y|]; cbn [option_map rnan_ltb nan_ltb]; auto. apply agree_ltb. Qed.
Lemma agree_diff : forall m, match freq_diff_function m, rfreq_diff_function (real_mcfg m) with
  | Ok d, Ok d' => forall t u, d' (real_saved t) (real_saved u) = option_map Q2R (d t u)
  | Err e, Err e' => e = e'
  | _, _ => False end.
Proof.
  intros m. unfold freq_diff_function, rfreq_diff_function. cbn [g_strategy real_mcfg].
  destruct (String.eqb _ "single"); [|destruct (String.eqb _ "average"); [|reflexivity]]; intros t u.
  - unfold rdiff_single, diff_single, real_saved. cbn [r_freq]. rewrite <- agree_absdiff. f_equal.
    + unfold oreal. induction (s_freq t) as [|a l IH]; [reflexivity|]. cbn [map]. destruct l; [reflexivity|exact IH].
    + unfold oreal. now destruct (s_freq u).
  - unfold rdiff_avg, diff_avg, real_saved. cbn [r_freq]. now rewrite !agree_nanmean, agree_absdiff.
Qed.
Lemma agree_glue : forall u t, rglue1 (real_saved u) (real_saved t) = real_saved (glue1 u t).
Proof.
  intros u t. unfold rglue1, real_saved, glue1, zlen, oreal. cbn [r_start r_freq r_mag r_ph s_start s_freq s_mag s_ph].
  rewrite !map_length.
  replace (Z.to_nat (Z.of_nat (s_start t) - Z.of_nat (s_start u) - Z.of_nat (List.length (s_mag u))))
    with (s_start t - s_start u - List.length (s_mag u))%nat by lia.
  rewrite !map_app.
  assert (E : forall n, map (option_map Q2R) (repeat None n) = repeat None n).
  { induction n as [|n IH]; [reflexivity|]. cbn [repeat map option_map]. now rewrite IH. }
  now rewrite E.
Qed.
Lemma agree_modal_deact : forall m, deact_agree (modal_deact m) (rmodal_deact (real_mcfg m)).
Proof.
  intros m sv t. unfold rmodal_deact, modal_deact. cbv zeta. rewrite agree_modal_ok. destruct (modal_ok m t); [|reflexivity].
  pose proof (agree_diff m) as AD.
  destruct (freq_diff_function m) as [d|e], (rfreq_diff_function (real_mcfg m)) as [d'|e']; try tauto; [|now rewrite AD].
  rewrite map_length, agree_numpy.
  assert (EF : filter (fun i => let u := nth i (map real_saved sv) no_rtrack in
      Z.ltb (r_start u + zlen (r_mag u)) (r_start (real_saved (numpy_track t)))) (seq 0 (List.length sv)) =
    filter (fun i => let u := nth i sv no_strack in
      Nat.ltb (s_start u + List.length (s_mag u)) (s_start (numpy_track t))) (seq 0 (List.length sv))).
  { apply filter_ext. intros i. cbv zeta. rewrite nth_saved. unfold real_saved, zlen, oreal. cbn [r_start r_mag].
    rewrite map_length. destruct (Nat.ltb_spec (s_start (nth i sv no_strack) + List.length (s_mag (nth i sv no_strack))) (s_start (numpy_track t)));
      [apply Z.ltb_lt|apply Z.ltb_ge]; lia. }
  cbv zeta in EF. rewrite EF. set (it := filter _ _).
  rewrite (agree_min_key _ _ _ nan_ltb rnan_ltb (option_map Q2R) it (fun i => d (nth i sv no_strack) (numpy_track t))).
  2:{ apply agree_nan_ltb. }
  2:{ intros i. rewrite nth_saved. apply AD. }
  assert (EA : map_res (map real_saved) (Ok (sv ++ [numpy_track t])) = Ok (map real_saved sv ++ [real_saved (numpy_track t)])).
  { cbn [map_res]. now rewrite map_app. }
  destruct (min_key nan_ltb it _) as [[i x]|]; cbn [option_map fst snd]; [|now rewrite EA].
  assert (EH : hd 0 (l_freq (real_track t)) = Q2R (hd 0%Q (t_freq t))).
  { unfold real_track. cbn [l_freq]. destruct (t_freq t); cbn [hd map]; [symmetry; apply agree_zero|reflexivity]. }
  cbn [g_base real_mcfg]. rewrite EH, <- agree_df.
  change (Some (Q2R (df (m_base m) (hd 0%Q (t_freq t))))) with (option_map Q2R (Some (df (m_base m) (hd 0%Q (t_freq t))))).
  rewrite agree_nan_ltb. destruct (nan_ltb x _); [|now rewrite EA].
  cbn [map_res]. now rewrite map_upd, nth_saved, agree_glue.
Qed.

(** ** Whole runs *)

(** Saved tracks after a run of the plain and of the modal tracker. *)
Theorem agree_run : forall c d d', deact_agree d d' -> forall hist st,
  foldM (rstep (real_cfg c) d') (real_state st) (map (fun h => (map real_peak (fst h), snd h)) hist) =
  map_res real_state (foldM (step c d) st hist).
Proof.
  intros c d d' HD hist. induction hist as [|[fr order] hist IH]; intros st; [reflexivity|].
  cbn [map foldM fst snd]. rewrite (agree_step c d d' HD). destruct (step c d st (fr, order)) as [st'|e]; cbn [map_res]; [apply IH|reflexivity].
Qed.
Lemma agree_all : forall ok ok' st, (forall t, ok' (real_track t) = ok t) ->
  rall_tracks ok' (real_state st) = map real_saved (all_tracks ok st).
Proof.
  intros ok ok' st H. unfold rall_tracks, all_tracks, real_state. cbn [rsaved ractive]. rewrite map_app. f_equal.
  induction (active st) as [|t l IH]; [reflexivity|]. cbn [map filter]. rewrite H. destruct (ok t); [|exact IH].
  cbn [map]. now rewrite IH, agree_numpy.
Qed.
Theorem agree_tracker : forall c hist,
  (do st <- foldM (rstep (real_cfg c) (rt_deact (RSine (real_cfg c)))) rreset
              (map (fun h => (map real_peak (fst h), snd h)) hist); Ok (rt_all (RSine (real_cfg c)) st)) =
  map_res (map real_saved) (do st <- run c (sine_deact c) hist; Ok (all_tracks (sine_ok c) st)).
Proof.
  intros c hist. change rreset with (real_state reset). unfold run. cbn [rt_deact].
  rewrite (agree_run c _ _ (agree_sine_deact c)). destruct (foldM (step c (sine_deact c)) reset hist) as [st|e]; cbn [map_res bind]; [|reflexivity].
  cbn [rt_all]. now rewrite (agree_all (sine_ok c) _ st (agree_sine_ok c)).
Qed.
Theorem agree_modal : forall m hist,
  (do st <- foldM (rstep (real_cfg (m_base m)) (rt_deact (RModal (real_mcfg m)))) rreset
              (map (fun h => (map real_peak (fst h), snd h)) hist); Ok (rt_all (RModal (real_mcfg m)) st)) =
  map_res (map real_saved) (do st <- run (m_base m) (modal_deact m) hist; Ok (modal_all_tracks m st)).
Proof.
  intros m hist. change rreset with (real_state reset). unfold run. cbn [rt_deact].
  rewrite (agree_run (m_base m) _ _ (agree_modal_deact m)). destruct (foldM (step (m_base m) (modal_deact m)) reset hist) as [st|e]; cbn [map_res bind]; [|reflexivity].
  cbn [rt_all]. unfold rmodal_all_tracks, modal_all_tracks, strip_n.
  rewrite (agree_all (modal_ok m) _ st (agree_modal_ok m)). cbn [g_strip real_mcfg g_base g_rev].
  destruct (m_strip m) as [s|]; cbn [option_map]; [|reflexivity].
  rewrite <- agree_frame_rate, <- Q2R_mult, agree_ceil. f_equal.
  assert (G : forall (f : rtrack -> bool) l, filter f (map real_saved l) = map real_saved (filter (fun t => f (real_saved t)) l)).
  { intros f l. induction l as [|t l IH]; [reflexivity|]. cbn [map filter]. destruct (f (real_saved t)); [|exact IH].
    cbn [map]. now rewrite IH. }
  rewrite G. f_equal. apply filter_ext. intros t. unfold real_saved, zlen, oreal. cbn [r_start r_mag rnframe real_state].
  now rewrite map_length.
Qed.
Print Assumptions agree_modal.

(** Peaks of a rational spectrum. *)
Lemma agree_slice : forall a b l, slice a b (map Q2R l) = map Q2R (slice a b l).
Proof.
  intros a b l. unfold slice. assert (Z : zlen (map Q2R l) = zlen l) by (unfold zlen; now rewrite map_length).
  unfold lo_bound, hi_bound. rewrite Z. now rewrite firstn_map, skipn_map || rewrite skipn_map, firstn_map.
Qed.
Theorem agree_peak_detect : forall x t, rpeak_detect (map Q2R x) (option_map Q2R t) = peak_detect x t.
Proof.
  intros x t. unfold rpeak_detect, peak_detect. rewrite !agree_slice.
  assert (G : forall a b, map (fun p => Rltb (snd p) (fst p)) (combine (map Q2R a) (map Q2R b)) =
                          map (fun p => Qltb (snd p) (fst p)) (combine a b)).
  { induction a as [|u a IH]; intros [|v b]; cbn [map combine fst snd]; auto. now rewrite agree_ltb, IH. }
  rewrite !G. destruct t as [t|]; cbn [option_map]; [|reflexivity].
  assert (G2 : map (fun v => Rltb (Q2R t) v) (map Q2R (slice (Some 1%Z) (Some (-1)%Z) x)) =
               map (fun v => Qltb t v) (slice (Some 1%Z) (Some (-1)%Z) x)).
  { rewrite map_map. apply map_ext. intros v. apply agree_ltb. }
  now rewrite G2.
Qed.
Lemma agree_getitem : forall l i, getitem (map Q2R l) i = map_res Q2R (getitem l i).
Proof.
  intros l i. unfold getitem. assert (Z : zlen (map Q2R l) = zlen l) by (unfold zlen; now rewrite map_length). rewrite ?Z.
  repeat match goal with |- context [if ?b then _ else _] => destruct b end; try reflexivity;
    rewrite ?nth_error_map; destruct (nth_error l _); reflexivity.
Qed.
Theorem agree_refine : forall mx px k,
  rrefine1 (map Q2R mx) k = map_res (fun p => (Q2R (fst (fst p)), Q2R (snd (fst p)))) (refine1 mx px k).
Proof.
  intros mx px k. unfold rrefine1, refine1. rewrite !agree_getitem.
  destruct (getitem mx (k - 1)) as [l|e]; cbn [map_res bind]; [|reflexivity].
  destruct (getitem mx k) as [c|e]; cbn [map_res bind]; [|reflexivity].
  destruct (getitem mx (k + 1)) as [r|e]; cbn [map_res bind fst snd]; [|reflexivity].
  assert (H2 : Q2R (1 # 2) = / 2) by (unfold Q2R; cbn; lra). assert (H4 : Q2R (1 # 4) = / 4) by (unfold Q2R; cbn; lra).
  assert (T2 : Q2R 2 = 2) by (unfold Q2R; cbn; lra).
  rewrite !Q2R_plus, !Q2R_minus, !Q2R_mult, !agree_div, agree_int, !Q2R_plus, !Q2R_mult, !Q2R_minus, !Q2R_mult, H2, H4, T2.
  reflexivity.
Qed.
Print Assumptions agree_refine.
