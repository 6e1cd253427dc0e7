(** Property C100: what the reports of scripts/beatsdrop/evaluation.py say. *)
From Coq Require Import String Ascii List Bool ZArith Reals Lia Lra Permutation.
Import ListNotations.
From Verif Require Import Base Py PyLemmas ListLemmas RLists Np_Model Sample_Model Sample_Proofs Beat_Model Changelog_Model Report_Model.
From Verif Require Session_Model Bank_Model.
Local Open Scope R_scope.

(** ** Arguments and folders *)

(** At most one test can be chosen; the size of the FFT is the power of two asked for. *)
Theorem c100_modes : forall d f,
  custom_parse_args d f =
    match d, f with
    | true, Some _ => Err ValueError
    | true, None => Ok TestDecision
    | false, None => Ok TestRegression
    | false, Some n => if (n <? 0)%Z then Err ValueError else Ok (TestFft (2 ^ n))
    end.
Proof.
  intros d f. destruct d, f as [n|]; try reflexivity.
  unfold custom_parse_args, shl1. destruct (n <? 0)%Z; reflexivity.
Qed.
Print Assumptions c100_modes.

Lemma cut_slash_none : forall p, ~ In "/"%char p -> Session_Model.cut_slash p = ([], p).
Proof.
  induction p as [|c p IH]; intros H; [reflexivity|]. cbn [Session_Model.cut_slash].
  rewrite IH by (intros X; apply H; right; exact X).
  destruct (Ascii.eqb_spec c "/") as [->|E]; [|reflexivity].
  exfalso. apply H. left. reflexivity.
Qed.
Lemma cut_slash_app : forall d p, ~ In "/"%char p ->
  Session_Model.cut_slash (d ++ "/"%char :: p) = (d ++ ["/"%char], p).
Proof.
  induction d as [|c d IH]; intros p H.
  - cbn [app Session_Model.cut_slash]. rewrite cut_slash_none by exact H. reflexivity.
  - cbn [app Session_Model.cut_slash]. rewrite IH by exact H. destruct d; reflexivity.
Qed.
Lemma cut_slash_some : forall p, In "/"%char p -> fst (Session_Model.cut_slash p) <> [].
Proof.
  induction p as [|c p IH]; intros H; [destruct H|]. cbn [Session_Model.cut_slash].
  destruct (Session_Model.cut_slash p) as [h t] eqn:E. cbn [fst] in IH.
  destruct h as [|h0 h].
  - destruct H as [->|H]; [cbn; discriminate|]. exfalso. exact (IH H eq_refl).
  - cbn. discriminate.
Qed.
Lemma dropwhile_nil : forall f (l : text), dropwhile f l = [] -> forallb f l = true.
Proof.
  induction l as [|c l IH]; intros H; [reflexivity|]. cbn in *.
  destruct (f c); [exact (IH H)|discriminate H].
Qed.
Lemma forallb_rev : forall A (f : A -> bool) l, forallb f (rev l) = forallb f l.
Proof.
  intros A f l. induction l as [|x l IH]; [reflexivity|]. cbn [rev].
  rewrite forallb_app, IH. cbn [forallb]. destruct (f x), (forallb f l); reflexivity.
Qed.
Lemma dirname_some : forall p, In "/"%char p -> Session_Model.dirname p <> [].
Proof.
  intros p H. pose proof (cut_slash_some p H) as N. unfold Session_Model.dirname.
  destruct (forallb Session_Model.is_slash (fst (Session_Model.cut_slash p))) eqn:E; [exact N|].
  intros X. apply (f_equal (@rev ascii)) in X. rewrite rev_involutive in X. cbn in X.
  apply dropwhile_nil in X. rewrite forallb_rev, E in X. discriminate X.
Qed.

(** An output path in a folder: the folder is made.  (The last character of the folder is
    not a slash.) *)
Theorem c100_folders : forall d c name log, ~ In "/"%char name -> c <> "/"%char ->
  prepare_folders (Some (d ++ [c] ++ "/"%char :: name)) None log = Ok [d ++ [c]].
Proof.
  intros d c name log H Hc. unfold prepare_folders, Session_Model.dirname.
  replace (d ++ [c] ++ "/"%char :: name) with ((d ++ [c]) ++ "/"%char :: name) by (rewrite <- app_assoc; reflexivity).
  rewrite cut_slash_app by exact H. cbn [fst].
  assert (S : Session_Model.is_slash c = false) by (apply Ascii.eqb_neq; exact Hc).
  rewrite !forallb_app. cbn [forallb]. rewrite S, andb_false_r. cbn [andb].
  rewrite !rev_app_distr. cbn [rev app]. cbn [dropwhile].
  change (Session_Model.is_slash "/") with true. cbv iota. rewrite S. cbn [rev].
  rewrite rev_involutive. unfold makedirs. cbn [bind].
  destruct (d ++ [c]) eqn:E; [destruct d; discriminate E|reflexivity].
Qed.
Print Assumptions c100_folders.

(** A plain file name as output path, as in [-O results]: FileNotFoundError before any
    test is made. *)
Theorem c100_plain_output_refuted : forall o wav log, ~ In "/"%char o ->
  prepare_folders (Some o) wav log = Err FileNotFoundError.
Proof.
  intros o wav log H. unfold prepare_folders, Session_Model.dirname.
  rewrite cut_slash_none by exact H. reflexivity.
Qed.
Print Assumptions c100_plain_output_refuted.

(** ** Exceptions of test cases *)

Lemma In_join : forall l name, l <> [] -> In "/"%char (path_join l name).
Proof.
  intros l name H.
  assert (E : path_join l name = if Ascii.eqb (last l "0"%char) "/" then l ++ name else l ++ "/"%char :: name)
    by (destruct l; [contradiction|reflexivity]).
  rewrite E. destruct (Ascii.eqb_spec (last l "0"%char) "/") as [M|M]; apply in_or_app.
  - left. rewrite <- M. destruct (exists_last H) as (d & z & ->). rewrite last_last.
    apply in_or_app. right. left. reflexivity.
  - right. left. reflexivity.
Qed.

(** With a folder for logs no test raises: it gives a result, or leaves a log with the
    seed and the exception of the test and counts as missing. *)
Theorem c100_logged : forall A V seed name (x : A) wav write_wav l (body : A -> res V), l <> [] ->
  let saves := match wav with None => Ok tt | Some _ => write_wav x end in
  match (do _ <- saves; body x) with
  | Ok v => fst (test_case_context seed name (Ok x) wav write_wav (Some l) body) = Ok (Some v)
            /\ forall p s e, ~ In (ELog p s e) (snd (test_case_context seed name (Ok x) wav write_wav (Some l) body))
  | Err e => fst (test_case_context seed name (Ok x) wav write_wav (Some l) body) = Ok None
             /\ In (ELog (path_join l name) seed e) (snd (test_case_context seed name (Ok x) wav write_wav (Some l) body))
  end.
Proof.
  intros A V seed name x wav write_wav l body H saves. unfold test_case_context.
  destruct (Session_Model.dirname (path_join l name)) as [|c d] eqn:D.
  { exfalso. exact (dirname_some _ (In_join l name H) D). }
  destruct wav as [w|]; cbn [fst snd] in *; unfold saves; cbn [bind].
  - destruct (write_wav x) as [[]|e]; cbn [bind].
    + destruct (body x) as [v|e].
      * split; [reflexivity|]. intros p s e [X|[]]. discriminate X.
      * cbn [makedirs fst snd]. split; [reflexivity|]. right. right. left. reflexivity.
    + cbn [makedirs fst snd]. split; [reflexivity|]. right. right. left. reflexivity.
  - destruct (body x) as [v|e].
    + split; [reflexivity|]. intros p s e [].
    + cbn [makedirs fst snd]. split; [reflexivity|]. right. left. reflexivity.
Qed.
Print Assumptions c100_logged.

(** Without one the exception of the test is raised, after the audio was written. *)
Theorem c100_raised : forall A V seed name (x : A) wav write_wav (body : A -> res V),
  fst (test_case_context seed name (Ok x) wav write_wav None body)
  = (do _ <- (match wav with None => Ok tt | Some _ => write_wav x end); do v <- body x; Ok (Some v))
  /\ snd (test_case_context seed name (Ok x) wav write_wav None body)
     = match wav with None => [] | Some w => [EWav (path_join w name)] end.
Proof.
  intros A V seed name x wav write_wav body. unfold test_case_context.
  destruct wav as [w|]; cbn [fst snd bind].
  - destruct (write_wav x) as [[]|e]; cbn [bind]; [|split; reflexivity]. destruct (body x); split; reflexivity.
  - destruct (body x); split; reflexivity.
Qed.
Print Assumptions c100_raised.

(** Errors of the generator are raised in any case. *)
Theorem c100_generator_error : forall A V seed name e wav write_wav log (body : A -> res V),
  test_case_context seed name (Err e) wav write_wav log body = (Err e, []).
Proof. reflexivity. Qed.
Print Assumptions c100_generator_error.

(** ** Selection of the track *)

Lemma nth_skip : forall A (l : list A) i j d, nth j (skipn i l) d = nth (i + j) l d.
Proof. induction l as [|x l IH]; intros [|i] j d; try reflexivity; [destruct j; reflexivity|]. cbn. apply IH. Qed.
Lemma skip_skip : forall A (l : list A) i, skipn 1 (skipn i l) = skipn (S i) l.
Proof. induction l as [|x l IH]; intros [|i]; try reflexivity. cbn [skipn] in *. apply IH. Qed.
Lemma argmax_from_spec : forall l best v i all,
  (best < i)%nat -> nth best all 0 = v -> skipn i all = l ->
  (forall j, (j < i)%nat -> nth j all 0 <= v) -> (forall j, (j < best)%nat -> nth j all 0 < v) ->
  let r := argmax_from best v i l in
  (r < i + List.length l)%nat /\ (forall j, (j < i + List.length l)%nat -> nth j all 0 <= nth r all 0) /\
  (forall j, (j < r)%nat -> nth j all 0 < nth r all 0).
Proof.
  induction l as [|x l IH]; intros best v i all Hb Hv Hs Hle Hlt; cbn [argmax_from List.length].
  - rewrite Nat.add_0_r, Hv. split; [exact Hb|]. split; assumption.
  - assert (Hx : nth i all 0 = x).
    { rewrite <- (Nat.add_0_r i). rewrite <- nth_skip. rewrite Hs. reflexivity. }
    assert (Hs' : skipn (S i) all = l).
    { rewrite <- skip_skip. rewrite Hs. reflexivity. }
    destruct (Rlt_dec v x) as [L|L].
    + destruct (IH i x (S i) all ltac:(lia) Hx Hs') as (A & B & C).
      * intros j Hj. destruct (Nat.eq_dec j i) as [->|N]; [rewrite Hx; lra|].
        specialize (Hle j ltac:(lia)). lra.
      * intros j Hj. specialize (Hle j Hj). lra.
      * split; [lia|]. split; [intros j Hj; apply B; lia|exact C].
    + destruct (IH best v (S i) all ltac:(lia) Hv Hs') as (A & B & C).
      * intros j Hj. destruct (Nat.eq_dec j i) as [->|N]; [rewrite Hx; lra|]. apply Hle. lia.
      * exact Hlt.
      * split; [lia|]. split; [intros j Hj; apply B; lia|exact C].
Qed.
Lemma argmax_spec : forall l, l <> [] -> exists r, argmax l = Ok r /\ (r < List.length l)%nat /\
  (forall j, (j < List.length l)%nat -> nth j l 0 <= nth r l 0) /\ (forall j, (j < r)%nat -> nth j l 0 < nth r l 0).
Proof.
  intros [|x l] H; [contradiction|]. cbn [argmax].
  destruct (argmax_from_spec l 0 x 1 (x :: l) ltac:(lia) eq_refl eq_refl) as (A & B & C).
  - intros j Hj. replace j with 0%nat by lia. cbn. lra.
  - intros j Hj. lia.
  - eexists. split; [reflexivity|]. split; [exact A|]. split; assumption.
Qed.

(** The parameters of a track: frequency, decay, amplitude. *)
Definition finite_result (p : R * R * R) : list (fl * fl * fl) :=
  let '(f, d, a) := p in [(Fin f, Fin d, Fin a)].
Definition track_energy (p : R * R * R) : R := let '(f, d, a) := p in a * a * d / 4.

Lemma mask_all : forall A (m : list bool) (v : list A), List.length m = List.length v -> forallb (fun b => b) m = true -> mask m v = v.
Proof.
  intros A m. unfold mask. induction m as [|b m IH]; intros [|x v] H F; try discriminate H; [reflexivity|].
  cbn in *. apply andb_prop in F. destruct F as [-> F]. cbn. rewrite IH; [reflexivity|lia|exact F].
Qed.
Lemma finite_modes : forall ps,
  matrix_modes (param_matrix (map finite_result ps))
  = mkModes (map (fun p => fst (fst p)) ps) (map (fun p => snd (fst p)) ps) (map snd ps).
Proof.
  intros ps. unfold param_matrix.
  assert (E : concat (map finite_result ps) = map (fun p => (Fin (fst (fst p)), Fin (snd (fst p)), Fin (snd p))) ps).
  { clear. induction ps as [|[[f d] a] ps IH]; [reflexivity|]. cbn. rewrite IH. reflexivity. }
  rewrite E. destruct ps as [|p ps]; [reflexivity|].
  set (q := p :: ps). set (m := match map _ q with [] => [[]; []; []] | _ => _ end).
  assert (M : m = [map (fun p => Fin (fst (fst p))) q; map (fun p => Fin (snd (fst p))) q; map (fun p => Fin (snd p)) q]).
  { unfold m, q. cbn [map]. unfold transpose3. cbn [map]. rewrite !map_map. reflexivity. }
  rewrite M.
  assert (V : forallb (fun b => b) (map (fun j => forallb isfinite (column [map (fun p => Fin (fst (fst p))) q; map (fun p => Fin (snd (fst p))) q; map (fun p => Fin (snd p)) q] j))
    (seq 0 (ncols [map (fun p => Fin (fst (fst p))) q; map (fun p => Fin (snd (fst p))) q; map (fun p => Fin (snd p)) q]))) = true).
  { apply forallb_forall. intros b Hb. apply in_map_iff in Hb. destruct Hb as (j & <- & Hj).
    unfold ncols in Hj. cbn [hd] in Hj. rewrite map_length in Hj. apply in_seq in Hj.
    unfold column. cbn [map forallb].
    rewrite !nth_indep with (d := NaN) (d' := Fin 0) by (rewrite map_length; lia).
    destruct p as [[p1 p2] p3].
    rewrite (nth_map_lt _ _ _ (0, 0, 0)) by lia. rewrite (nth_map_lt _ _ _ (0, 0, 0)) by lia.
    rewrite (nth_map_lt _ _ _ (0, 0, 0)) by lia. reflexivity. }
  unfold matrix_modes. cbn [map nth].
  rewrite !mask_all; try exact V; try (rewrite map_length, seq_length; unfold ncols; cbn [hd]; rewrite !map_length; reflexivity).
  rewrite !map_map. reflexivity.
Qed.
Lemma energies_finite : forall ps,
  energies (mkModes (map (fun p => fst (fst p)) ps) (map (fun p => snd (fst p)) ps) (map snd ps)) = map track_energy ps.
Proof.
  intros ps. unfold energies. cbn [m_amps m_decays]. induction ps as [|[[f d] a] ps IH]; [reflexivity|].
  cbn [map combine]. rewrite IH. reflexivity.
Qed.

(** If the parameters of all tracks are finite, the track that is evaluated is the first
    of those with the greatest energy. *)
Theorem c100_select : forall tracks ps, List.length ps = List.length tracks -> tracks <> [] ->
  exists i, evaluated_track tracks (map finite_result ps) = Ok (nth i tracks (mkRTrack 0 [] [] []))
    /\ (i < List.length tracks)%nat
    /\ (forall p, In p ps -> track_energy p <= track_energy (nth i ps (0, 0, 0)))
    /\ (forall j, (j < i)%nat -> track_energy (nth j ps (0, 0, 0)) < track_energy (nth i ps (0, 0, 0))).
Proof.
  intros tracks ps HL HN. unfold evaluated_track. rewrite finite_modes, energies_finite.
  assert (NE : map track_energy ps <> []) by (destruct ps, tracks; try discriminate; contradiction).
  destruct (argmax_spec _ NE) as (r & -> & Hr & Hle & Hlt). rewrite map_length in *. cbn [bind].
  exists r. rewrite (nth_error_nth' tracks (mkRTrack 0 [] [] [])) by lia.
  split; [reflexivity|]. split; [lia|]. split.
  - intros p Hp. destruct (In_nth _ _ (0, 0, 0) Hp) as (j & Hj & <-).
    specialize (Hle j Hj). rewrite !(nth_map_lt _ _ _ (0, 0, 0)) in Hle by lia. exact Hle.
  - intros j Hj. specialize (Hlt j Hj). rewrite !(nth_map_lt _ _ _ (0, 0, 0)) in Hlt by lia. exact Hlt.
Qed.
Print Assumptions c100_select.

(** No tracks: ValueError (logged or raised as above). *)
Theorem c100_no_tracks : forall tracks results, concat results = [] -> evaluated_track tracks results = Err ValueError.
Proof. intros tracks results H. unfold evaluated_track, param_matrix. rewrite H. reflexivity. Qed.
Print Assumptions c100_no_tracks.

(** If a track has an infinite decay its parameters are dropped, but its place among the
    tracks is not: here the first track is evaluated although the second one has all of
    the energy. *)
Theorem c100_select_refuted : exists t0 t1, t0 <> t1 /\
  evaluated_track [t0; t1] [[(Fin 100, NInf, Fin 1)]; finite_result (200, 1, 1)] = Ok t0.
Proof.
  exists (mkRTrack 0 [Some 100] [Some 0] [Some 0]), (mkRTrack 0 [Some 200] [Some 0] [Some 0]).
  split; [|reflexivity]. intros H. injection H as H. lra.
Qed.
Print Assumptions c100_select_refuted.

(** ** Data of the regressions *)

(** Times, levels and frequencies of the frames with a level, from the last frame of the
    (backwards) analysis to the first, 6 dB louder. *)
Definition frames_spec (rate : R) (t : rtrack) : list (R * R * option R) :=
  let n := List.length (r_mag t) in
  flat_map (fun j => match nth (n - 1 - j) (r_mag t) None with
                     | Some v => [(INR j / rate, v + 6, nth (n - 1 - j) (r_freq t) None)]
                     | None => []
                     end) (seq 0 n).

Lemma mask_frames : forall (g : nat -> R) (mag freq : list (option R)) s, List.length freq = List.length mag ->
  let iok := map notnan mag in
  let ks := seq s (List.length mag) in
  let all := flat_map (fun j => match nth (j - s) mag None with
                                | Some v => [(g j, v, nth (j - s) freq None)] | None => [] end) ks in
  mask iok (map g ks) = map (fun p => fst (fst p)) all /\
  mask iok mag = map (fun p => Some (snd (fst p))) all /\
  mask iok freq = map snd all.
Proof.
  intros g mag. induction mag as [|o mag IH]; intros freq s H; destruct freq as [|f freq]; try discriminate H.
  - cbn. repeat split.
  - cbn [List.length seq flat_map map]. rewrite Nat.sub_diag.
    assert (E : flat_map (fun j => match nth (j - s) (o :: mag) None with
                                   | Some v => [(g j, v, nth (j - s) (f :: freq) None)] | None => [] end) (seq (S s) (List.length mag))
              = flat_map (fun j => match nth (j - S s) mag None with
                                   | Some v => [(g j, v, nth (j - S s) freq None)] | None => [] end) (seq (S s) (List.length mag))).
    { rewrite !flat_map_concat_map. f_equal. apply map_ext_in. intros j Hj. apply in_seq in Hj.
      replace (j - s)%nat with (S (j - S s)) by lia. reflexivity. }
    rewrite E. cbn [nth]. destruct (IH freq (S s) ltac:(cbn in H; lia)) as (A & B & C).
    unfold mask in *. cbn [combine filter fst]. destruct o as [v|]; cbn [notnan fst map snd app].
    + rewrite A, B, C. repeat split.
    + rewrite A, B, C. repeat split.
Qed.
Theorem c100_samples : forall rate t, List.length (r_freq t) = List.length (r_mag t) ->
  track_samples rate t = (map (fun p => fst (fst p)) (frames_spec rate t),
                          map (fun p => Some (snd (fst p))) (frames_spec rate t),
                          map snd (frames_spec rate t)).
Proof.
  intros rate t H. unfold track_samples.
  pose proof (mask_frames (fun i => INR i / rate) (map (option_map (fun v => v + 6)) (rev (r_mag t))) (rev (r_freq t)) 0
    ltac:(rewrite map_length, !rev_length; exact H)) as X. cbv zeta in X.
  rewrite map_length, rev_length in X.
  assert (E : flat_map (fun j => match nth (j - 0) (map (option_map (fun v => v + 6)) (rev (r_mag t))) None with
                                 | Some v => [(INR j / rate, v, nth (j - 0) (rev (r_freq t)) None)] | None => [] end)
                (seq 0 (List.length (r_mag t))) = frames_spec rate t).
  { unfold frames_spec. rewrite !flat_map_concat_map. f_equal. apply map_ext_in. intros j Hj. apply in_seq in Hj.
    rewrite Nat.sub_0_r.
    rewrite (nth_map_lt _ _ _ None) by (rewrite rev_length; lia).
    rewrite !rev_nth by lia. rewrite H.
    replace (List.length (r_mag t) - S j)%nat with (List.length (r_mag t) - 1 - j)%nat by lia.
    destruct (nth (List.length (r_mag t) - 1 - j) (r_mag t) None); reflexivity. }
  rewrite E in X. destruct X as (A & B & C). rewrite A, B, C. reflexivity.
Qed.
Print Assumptions c100_samples.

(** Time zero of these data is the first sound of the track, not that of the recording: if
    the levels are those of an amplitude [a] with decay [d] (halved, as peaks of a real
    signal are), and the first sound of the track is at time [onset], then they are the
    levels of a smaller amplitude. *)
Theorem c100_onset : forall rate a d onset t, 0 < a ->
  (forall i, (i < List.length (r_mag t))%nat ->
     nth i (r_mag t) None
     = Some (a2db (/ 2 * (a * exp (- 2 * (onset + INR (List.length (r_mag t) - 1 - i) / rate) / d))))) ->
  let a' := a * exp (- 2 * onset / d) * (db2a 6 / 2) in
  forall p, In p (frames_spec rate t) -> snd (fst p) = a2db (a' * exp (- 2 * fst (fst p) / d)).
Proof.
  intros rate a d onset t Ha H a' p Hp. unfold frames_spec in Hp. apply in_flat_map in Hp.
  destruct Hp as (j & Hj & Hp). apply in_seq in Hj. set (n := List.length (r_mag t)) in *.
  rewrite (H (n - 1 - j)%nat ltac:(lia)) in Hp. destruct Hp as [<-|[]]. cbn [fst snd].
  replace (n - 1 - (n - 1 - j))%nat with j by lia.
  assert (P1 : 0 < exp (- 2 * onset / d)) by apply exp_pos.
  assert (P2 : 0 < exp (- 2 * (INR j / rate) / d)) by apply exp_pos.
  replace (- 2 * (onset + INR j / rate) / d) with (- 2 * onset / d + - 2 * (INR j / rate) / d) by (unfold Rdiv; ring).
  rewrite exp_plus. unfold a'.
  assert (D : 0 < db2a 6) by (unfold db2a, Rpower; apply exp_pos).
  assert (L : forall x, 0 < x -> a2db (x * db2a 6) = a2db x + 6).
  { intros x Hx. rewrite <- (a2db_db2a 6) at 2. unfold a2db, log10. rewrite ln_mult by assumption. unfold Rdiv. ring. }
  replace (a * exp (-2 * onset / d) * (db2a 6 / 2) * exp (-2 * (INR j / rate) / d))
    with ((/ 2 * (a * (exp (-2 * onset / d) * exp (-2 * (INR j / rate) / d)))) * db2a 6) by (unfold Rdiv; ring).
  rewrite L; [reflexivity|].
  apply Rmult_lt_0_compat; [lra|]. apply Rmult_lt_0_compat; [exact Ha|]. apply Rmult_lt_0_compat; assumption.
Qed.
Print Assumptions c100_onset.

(** So a regression that finds the curve exactly can have an error of amplitude of more
    than 4 dB. *)
Theorem c100_onset_refuted : exists a d onset, 0 < a /\ 0 < d /\ 0 < onset /\
  let a' := a * exp (- 2 * onset / d) * (db2a 6 / 2) in 4 < Rabs (a2db a - a2db a').
Proof.
  exists 1, 1, 1. split; [lra|]. split; [lra|]. split; [lra|]. cbv zeta.
  assert (D : 0 < db2a 6) by (unfold db2a, Rpower; apply exp_pos).
  assert (E1 : 0 < exp (- 2 * 1 / 1)) by apply exp_pos.
  assert (H10 : 0 < ln 10) by (rewrite <- ln_1; apply ln_increasing; lra).
  assert (H2 : 0 < ln 2) by (rewrite <- ln_1; apply ln_increasing; lra).
  assert (H10' : ln 10 < 4).
  { rewrite <- (ln_exp 4). apply ln_increasing; [lra|].
    replace 4 with (1 + 1 + (1 + 1)) by lra. rewrite !exp_plus.
    pose proof (exp_ineq1 1 R1_neq_R0) as X. assert (Y : 4 < exp 1 * exp 1) by nra. nra. }
  assert (X : a2db (1 * exp (-2 * 1 / 1) * (db2a 6 / 2)) = - 40 / ln 10 + 6 - 20 * (ln 2 / ln 10)).
  { unfold a2db, log10. unfold Rdiv. rewrite !ln_mult; try lra; try (apply Rmult_lt_0_compat; lra).
    rewrite ln_1, ln_exp, ln_Rinv by lra.
    assert (Y : ln (db2a 6) = 6 / 20 * ln 10) by (unfold db2a; rewrite ln_Rpower; unfold Rdiv; ring).
    rewrite Y. field. lra. }
  rewrite X. unfold a2db at 1, log10. rewrite ln_1.
  assert (Z : 10 < 40 / ln 10).
  { apply (Rmult_lt_reg_r (ln 10)); [exact H10|]. unfold Rdiv. rewrite Rmult_assoc, Rinv_l by lra. lra. }
  assert (W : 0 < ln 2 / ln 10) by (apply Rdiv_lt_0_compat; assumption).
  rewrite Rabs_right; [|unfold Rdiv in *; lra]. unfold Rdiv in *. lra.
Qed.
Print Assumptions c100_onset_refuted.

(** ** Decisions *)

Definition no_gaps (t : rtrack) : bool := forallb notnan (r_freq t).
Definition freqs_of (t : rtrack) : list R := flat_map (fun o => match o with Some v => [v] | None => [] end) (r_freq t).
Definition no_track : rtrack := mkRTrack 0 [] [] [].

Lemma first_nan_none : forall l i, (forall o, In o l -> o <> None) -> first_nan i l = None.
Proof.
  induction l as [|[v|] l IH]; intros i H; [reflexivity| |].
  - cbn. apply IH. intros o Ho. apply H. right. exact Ho.
  - exfalso. apply (H None); [left; reflexivity|reflexivity].
Qed.

Lemma decision_for_some : forall median tracks decisions f, tracks <> [] ->
  decision_for median tracks decisions f
  = do i <- argmin_nan (map (fun t => option_map (fun v => Rabs (f - v)) (nan_median median (r_freq t))) tracks);
    match nth_error decisions i with Some d => Ok d | None => Err IndexError end.
Proof. intros median [|t tracks] decisions f H; [contradiction|reflexivity]. Qed.

(** If no track has gaps, the decision for a frequency is that of the first track of those
    whose median frequency is nearest. *)
Theorem c100_decision : forall median tracks decisions f, tracks <> [] ->
  forallb no_gaps tracks = true -> List.length decisions = List.length tracks ->
  let dist i := Rabs (f - median (freqs_of (nth i tracks no_track))) in
  exists i, (i < List.length tracks)%nat /\ decision_for median tracks decisions f = Ok (nth i decisions false)
    /\ (forall j, (j < List.length tracks)%nat -> dist i <= dist j) /\ (forall j, (j < i)%nat -> dist i < dist j).
Proof.
  intros median tracks decisions f HN HG HL dist. rewrite decision_for_some by exact HN.
  set (l := map _ tracks).
  assert (EL : l = map (fun t => Some (Rabs (f - median (freqs_of t)))) tracks).
  { unfold l. apply map_ext_in. intros t Ht. rewrite forallb_forall in HG. specialize (HG t Ht).
    unfold nan_median. unfold no_gaps in HG. rewrite HG. reflexivity. }
  rewrite EL. clear l EL. unfold argmin_nan.
  rewrite first_nan_none by (intros o Ho; apply in_map_iff in Ho; destruct Ho as (t & <- & _); discriminate).
  rewrite map_map.
  assert (NE : map (fun t => - Rabs (f - median (freqs_of t))) tracks <> []) by (destruct tracks; [contradiction|discriminate]).
  destruct (argmax_spec _ NE) as (r & E & Hr & Hle & Hlt). rewrite E. rewrite map_length in *. cbn [bind].
  exists r. split; [exact Hr|].
  rewrite (nth_error_nth' decisions false) by lia. split; [reflexivity|]. split.
  - intros j Hj. specialize (Hle j Hj). rewrite !(nth_map_lt _ _ _ no_track) in Hle by lia. unfold dist. lra.
  - intros j Hj. specialize (Hlt j Hj). rewrite !(nth_map_lt _ _ _ no_track) in Hlt by lia. unfold dist. lra.
Qed.
Print Assumptions c100_decision.

(** A track with a gap (merged from two) is taken to be the nearest to every frequency:
    here the decision for the partial at 100 Hz is read from the track at 5000 Hz. *)
Theorem c100_gap_refuted : forall median, exists t0 t1,
  no_gaps t0 = true /\ freqs_of t0 = [100] /\ freqs_of t1 = [5000; 5000] /\
  decision_for median [t0; t1] [true; false] 100 = Ok false.
Proof.
  intros median.
  exists (mkRTrack 0 [Some 100] [Some 0] [Some 0]),
    (mkRTrack 0 [Some 5000; None; Some 5000] [Some 0; None; Some 0] [Some 0; None; Some 0]).
  repeat split.
Qed.
Print Assumptions c100_gap_refuted.

(** For two tracks, one nearer to the mean of the beating frequencies and the other to the
    third frequency, the decisions are those of the two tracks. *)
Theorem c100_decisions : forall median t0 t1 d0 d1 f0 f1 f2,
  no_gaps t0 = true -> no_gaps t1 = true ->
  let m0 := median (freqs_of t0) in let m1 := median (freqs_of t1) in
  Rabs ((f0 + f1) / 2 - m0) < Rabs ((f0 + f1) / 2 - m1) -> Rabs (f2 - m1) < Rabs (f2 - m0) ->
  test_decisions median [t0; t1] [d0; d1] f0 f1 f2 = Ok (d0, d1) /\
  test_decisions median [t1; t0] [d1; d0] f0 f1 f2 = Ok (d0, d1).
Proof.
  intros median t0 t1 d0 d1 f0 f1 f2 G0 G1 m0 m1 H0 H1. unfold no_gaps in *.
  unfold test_decisions, decision_for, argmin_nan. cbn [map]. unfold nan_median. rewrite G0, G1.
  cbn [option_map first_nan map argmax argmax_from]. fold (freqs_of t0). fold (freqs_of t1).
  fold m0. fold m1. split.
  - destruct (Rlt_dec _ _) as [L|L]; [exfalso; lra|]. cbn [bind nth_error].
    destruct (Rlt_dec _ _) as [M|M]; [|exfalso; lra]. reflexivity.
  - destruct (Rlt_dec _ _) as [L|L]; [|exfalso; lra]. cbn [bind nth_error].
    destruct (Rlt_dec _ _) as [M|M]; [exfalso; lra|]. reflexivity.
Qed.
Print Assumptions c100_decisions.

(** ** Larger FFT *)

(** A single mode is divided into two halves, which sound the same. *)
Theorem c100_fft_one : forall osc draw f d a x,
  two_modes (mkModes [f] [d] [a]) = mkModes [f; f] [d; d] [a / 2; a / 2] /\
  additive_synth osc draw x [f; f] [d; d] [a / 2; a / 2] PNone = additive_synth osc draw x [f] [d] [a] PNone.
Proof.
  intros osc draw f d a x. split; [reflexivity|]. unfold additive_synth. cbn [bind List.length map Nat.eqb andb sum4].
  f_equal. apply map_ext. intros t. unfold partial_at. lra.
Qed.
Print Assumptions c100_fft_one.

(** Of more modes the first two are taken, whatever their energies; without modes both
    partials have no amplitude.  There are always two. *)
Theorem c100_fft_two : forall m, List.length (m_freqs m) = List.length (m_amps m) ->
  List.length (m_decays m) = List.length (m_amps m) ->
  let r := two_modes m in
  List.length (m_freqs r) = 2%nat /\ List.length (m_decays r) = 2%nat /\ List.length (m_amps r) = 2%nat /\
  (m_amps m = [] -> m_amps r = [0; 0]) /\
  ((2 <= List.length (m_amps m))%nat -> forall i, (i < 2)%nat ->
     nth i (m_freqs r) 0 = nth i (m_freqs m) 0 /\ nth i (m_decays r) 0 = nth i (m_decays m) 0 /\
     nth i (m_amps r) 0 = nth i (m_amps m) 0).
Proof.
  intros [fs ds as_] HF HD. cbn [m_freqs m_decays m_amps] in *. unfold two_modes. cbn [m_freqs m_decays m_amps].
  destruct as_ as [|a0 [|a1 as_]]; cbn [List.length] in *.
  - cbn. repeat split; lia.
  - destruct fs as [|f [|]], ds as [|d [|]]; try discriminate HF; try discriminate HD. cbn.
    repeat split; try discriminate; lia.
  - destruct fs as [|f0 [|f1 fs]], ds as [|d0 [|d1 ds]]; try discriminate HF; try discriminate HD. cbn.
    repeat split; try discriminate; destruct i as [|[|i]]; try lia; reflexivity.
Qed.
Print Assumptions c100_fft_two.

(** So the loudest mode can be left out of the comparison. *)
Theorem c100_fft_loudest_refuted : exists m, List.length (m_freqs m) = 3%nat /\
  List.length (m_decays m) = 3%nat /\ List.length (m_amps m) = 3%nat /\
  let p := fft_params m in
  q_a0 p < nth 2 (m_amps m) 0 /\ q_a1 p < nth 2 (m_amps m) 0 /\
  q_f0 p <> nth 2 (m_freqs m) 0 /\ q_f1 p <> nth 2 (m_freqs m) 0.
Proof.
  exists (mkModes [100; 101; 400] [1; 1; 1] [1; 2; 9]). split; [reflexivity|]. split; [reflexivity|]. split; [reflexivity|].
  unfold fft_params, two_modes. cbn [m_freqs m_decays m_amps firstn nth].
  unfold sort_params, param_energies, modal_energy. cbn [q_a0 q_a1 q_d0 q_d1 fst snd].
  destruct (Rlt_dec _ _) as [L|L]; [exfalso; lra|]. cbn [xorb q_a0 q_a1 q_f0 q_f1]. repeat split; lra.
Qed.
Print Assumptions c100_fft_loudest_refuted.

(** ** Residuals *)

Lemma log10_inj : forall x y, 0 < x -> 0 < y -> log10 x = log10 y -> x = y.
Proof.
  intros x y Hx Hy H. apply ln_inv; try assumption. unfold log10 in H.
  assert (H10 : 0 < ln 10) by (rewrite <- ln_1; apply ln_increasing; lra).
  apply (Rmult_eq_reg_r (/ ln 10)); [exact H|]. apply Rinv_neq_0_compat. lra.
Qed.

(** The residual of a variable is zero exactly for the true value, if frequencies are not
    negative and amplitudes positive. *)
Theorem c100_residual : forall k m r,
  0 <= residual k m r /\
  (let x := get_var k (w_true r) in let y := get_var k (estimate m r) in
   (match k with F0 | F1 => 0 <= x /\ 0 <= y | A0 | A1 => 0 < x /\ 0 < y | _ => True end) ->
   (residual k m r = 0 <-> x = y)).
Proof.
  intros k m r. split; [apply Rabs_pos|]. intros x y H. unfold residual. fold x. fold y. split.
  - intros E. assert (Z : premap k x = premap k y).
    { destruct (Req_dec (premap k x - premap k y) 0) as [Q|Q]; [lra|]. apply Rabs_no_R0 in Q. contradiction. }
    destruct k; cbn [premap] in Z; unfold mel, a2db in Z.
    1,2: destruct H as [Hx Hy]; assert (Q : 1 + x / 700 = 1 + y / 700) by (apply log10_inj; lra); lra.
    1,2: destruct H as [Hx Hy]; apply log10_inj; lra.
    1,2: exact Z.
  - intros E. rewrite E. rewrite Rminus_diag_eq by reflexivity. apply Rabs_R0.
Qed.
Print Assumptions c100_residual.

(** Amplitude residuals are ratios: a gain of both does not matter. *)
Theorem c100_gain : forall g x y, 0 < g -> 0 < x -> 0 < y ->
  Rabs (premap A0 (g * x) - premap A0 (g * y)) = Rabs (premap A0 x - premap A0 y) /\
  Rabs (premap A1 (g * x) - premap A1 (g * y)) = Rabs (premap A1 x - premap A1 y).
Proof.
  intros g x y Hg Hx Hy. cbn [premap]. unfold a2db, log10. rewrite !ln_mult by assumption.
  split; f_equal; unfold Rdiv; ring.
Qed.
Print Assumptions c100_gain.

(** The two partials in the other order. *)
Definition exchanged (p : params) : params :=
  mkParams (q_a1 p) (q_a0 p) (q_f1 p) (q_f0 p) (q_d1 p) (q_d0 p) (q_p1 p) (q_p0 p).

(** An estimate that is exact, in either order, has no residuals if the energies of the
    true partials differ. *)
Theorem c100_exact : forall truth br dbr,
  q_a0 truth * q_a0 truth * q_d0 truth <> q_a1 truth * q_a1 truth * q_d1 truth ->
  (br = truth \/ br = exchanged truth -> forall k, residual k Br (test_result truth br dbr) = 0) /\
  (dbr = truth \/ dbr = exchanged truth -> forall k, residual k Dbr (test_result truth br dbr) = 0).
Proof.
  intros truth br dbr H.
  assert (S : forall e, e = truth \/ e = exchanged truth -> sort_params e param_energies false = sort_params truth param_energies false).
  { intros e [->| ->]; [reflexivity|]. destruct truth as [a0 a1 f0 f1 d0 d1 p0 p1].
    unfold sort_params, exchanged, param_energies, modal_energy in *.
    cbn [q_a0 q_a1 q_f0 q_f1 q_d0 q_d1 q_p0 q_p1 fst snd] in *.
    destruct (Rlt_dec (a0 * a0 * d0 / 4) (a1 * a1 * d1 / 4)) as [L|L];
      destruct (Rlt_dec (a1 * a1 * d1 / 4) (a0 * a0 * d0 / 4)) as [M|M]; cbn [xorb]; try reflexivity; exfalso; lra. }
  split; intros E k; unfold residual, test_result; cbn [w_true w_br w_dbr estimate]; rewrite (S _ E);
    rewrite Rminus_diag_eq by reflexivity; apply Rabs_R0.
Qed.
Print Assumptions c100_exact.

(** If they have the same energy, an estimate that sounds the same counts as wrong: here by
    the frequency difference. *)
Theorem c100_tie_refuted : exists truth dbr,
  0 < residual F0 Br (test_result truth (exchanged truth) dbr).
Proof.
  exists (mkParams 1 1 100 200 1 1 0 0), (mkParams 1 1 100 200 1 1 0 0).
  unfold residual, test_result. cbn [w_true w_br estimate]. unfold sort_params, exchanged, param_energies, modal_energy.
  cbn [q_a0 q_a1 q_f0 q_f1 q_d0 q_d1 q_p0 q_p1 fst snd].
  destruct (Rlt_dec _ _) as [L|L]; [exfalso; lra|]. cbn [xorb get_var q_f0 premap].
  apply Rabs_pos_lt. unfold mel. intros E.
  assert (Q : 1 + 100 / 700 = 1 + 200 / 700) by (apply log10_inj; lra). lra.
Qed.
Print Assumptions c100_tie_refuted.

(** The table that is tested has the residuals of every variable and model for every row;
    the columns have different names. *)
Theorem c100_columns : forall df,
  NoDup (map fst (pops df)) /\ List.length (pops df) = 12%nat /\
  forall k m, In (column_name k m, map (residual k m) df) (pops df).
Proof.
  intros df. split; [|split; [reflexivity|]].
  - change (map fst (pops df)) with (flat_map (fun k => map (column_name k) [Br; Dbr]) variables).
    assert (E : nodup string_dec (flat_map (fun k => map (column_name k) [Br; Dbr]) variables)
                = flat_map (fun k => map (column_name k) [Br; Dbr]) variables) by (vm_compute; reflexivity).
    rewrite <- E. apply NoDup_nodup.
  - intros k m. unfold pops. apply in_flat_map. exists k. split; [destruct k; cbn; tauto|].
    destruct m; cbn; tauto.
Qed.
Print Assumptions c100_columns.

(** ** Results of the statistical test *)

(** Without a file of results, or without an output path, the tests are made on the data,
    and with an output path they are kept. *)
Theorem c100_rank : forall RR (autorank : list (string * list R) -> res RR) (output : bool) file df,
  file = None \/ output = false ->
  rank_result autorank output file df
  = match autorank (pops df) with
    | Ok rr => Ok (rr, if output then Some rr else file)
    | Err e => Err e
    end.
Proof.
  intros RR autorank output file df [->| ->]; unfold rank_result; [destruct output|]; destruct (autorank (pops df)); reflexivity.
Qed.
Print Assumptions c100_rank.

(** A file of an earlier run is reported whatever the new data are (also with
    [--no-resume]). *)
Theorem c100_rank_stale_refuted : exists (autorank : list (string * list R) -> res R) df1 df2 rr1 rr2 file,
  rank_result autorank true None df1 = Ok (rr1, file) /\
  rank_result autorank true None df2 = Ok (rr2, Some rr2) /\ rr1 <> rr2 /\
  rank_result autorank true file df2 = Ok (rr1, file).
Proof.
  exists (fun t => Ok (INR (List.length (snd (hd ("", [])%string t))))).
  set (p := mkParams 1 1 1 1 1 1 1 1).
  exists [], [mkRow p p p], (INR 0), (INR 1), (Some (INR 0)).
  split; [reflexivity|]. split; [reflexivity|]. split; [cbn; lra|]. reflexivity.
Qed.
Print Assumptions c100_rank_stale_refuted.

(** ** Comparisons *)

(** Frequentist comparisons: with a positive critical distance, the smaller one is that
    whose mean rank is less by at least this distance, and the two questions have opposite
    answers. *)
Theorem c100_frequentist : forall meanrank cd k1 k2, 0 < cd ->
  (decision_freq meanrank (Some cd) k1 k2 = Ok Smaller <-> meanrank k1 + cd <= meanrank k2) /\
  (decision_freq meanrank (Some cd) k1 k2 = Ok Equal <-> Rabs (meanrank k1 - meanrank k2) < cd) /\
  (decision_freq meanrank (Some cd) k1 k2 = Ok Larger <-> meanrank k2 + cd <= meanrank k1) /\
  decision_freq meanrank (Some cd) k2 k1 = (do d <- decision_freq meanrank (Some cd) k1 k2; Ok (flip d)).
Proof.
  intros meanrank cd k1 k2 H. unfold decision_freq. set (a := meanrank k1). set (b := meanrank k2).
  rewrite (Rabs_minus_sym a b).
  destruct (Rlt_dec (Rabs (b - a)) cd) as [E|E].
  - assert (B : - cd < b - a < cd) by (apply Rabs_def2 in E; lra).
    destruct (Rlt_dec (Rabs (a - b)) cd) as [E'|E']; [|rewrite Rabs_minus_sym in E'; contradiction].
    repeat split; intros; try discriminate; try assumption; try reflexivity; exfalso; lra.
  - assert (E' : ~ Rabs (a - b) < cd) by (rewrite Rabs_minus_sym; exact E).
    destruct (Rlt_dec (Rabs (a - b)) cd) as [X|_]; [contradiction|].
    destruct (Rlt_dec 0 (b - a)) as [P|P]; destruct (Rlt_dec 0 (a - b)) as [Q|Q]; try (exfalso; lra).
    + assert (E2 := E). rewrite Rabs_right in E2 by lra. repeat split; intros; try discriminate; try contradiction; try reflexivity; try lra.
    + assert (E2 := E). rewrite Rabs_left in E2 by lra. repeat split; intros; try discriminate; try contradiction; try reflexivity; try lra.
    + exfalso. apply E. replace (b - a) with 0 by lra. rewrite Rabs_R0. exact H.
Qed.
Print Assumptions c100_frequentist.

(** Tests without a critical distance: TypeError.  With a distance of zero, equal ranks are
    larger than each other. *)
Theorem c100_distance_refuted :
  (forall meanrank k1 k2, decision_freq meanrank None k1 k2 = Err TypeError) /\
  exists meanrank k1 k2, decision_freq meanrank (Some 0) k1 k2 = Ok Larger /\ decision_freq meanrank (Some 0) k2 k1 = Ok Larger.
Proof.
  split; [reflexivity|]. exists (fun _ => 1), ""%string, ""%string. unfold decision_freq.
  replace (1 - 1) with 0 by lra. rewrite Rabs_R0.
  destruct (Rlt_dec 0 0) as [L|L]; [exfalso; lra|]. split; reflexivity.
Qed.
Print Assumptions c100_distance_refuted.

(** Bayesian comparisons, of which one half of the matrix is given: opposite answers too. *)
Theorem c100_bayesian : forall mat k1 k2 d, (mat k1 k2 = Some d /\ mat k2 k1 = None) \/ (mat k1 k2 = None /\ mat k2 k1 = Some (flip d)) ->
  decision_bayes mat k1 k2 = Some d /\ decision_bayes mat k2 k1 = Some (flip d).
Proof.
  intros mat k1 k2 d [[A B]|[A B]]; unfold decision_bayes; rewrite A, B; cbn [option_map]; split; try reflexivity.
  destruct d; reflexivity.
Qed.
Print Assumptions c100_bayesian.

(** The table of the report: in every row, under the heading of a model, the median and the
    interval of the residuals of this variable and model. *)
Theorem c100_table : forall X (median ci : string -> X) k j m name,
  nth_error report_models j = Some (m, name) ->
  exists cells, In (k, cells) (report_table median ci) /\
    nth_error cells j = Some (median (column_name k m), ci (column_name k m)) /\
    List.length (report_table median ci) = 6%nat.
Proof.
  intros X median ci k j m name H. unfold report_table.
  exists (map (fun q => (median (column_name k (fst q)), ci (column_name k (fst q)))) report_models).
  split; [apply in_map_iff; exists k; split; [reflexivity|destruct k; cbn; tauto]|].
  split; [|reflexivity]. rewrite nth_error_map, H. reflexivity.
Qed.
Print Assumptions c100_table.

(** The items of the report: the error of the baseline is smaller for a variable if its mean
    rank is less than that of BeatsDROP by the critical distance. *)
Theorem c100_comparison : forall meanrank cd k, 0 < cd ->
  (In (k, Ok Smaller) (report_comparison (decision_freq meanrank (Some cd)))
     <-> meanrank (var_name k ++ "_br_ar")%string + cd <= meanrank (var_name k ++ "_dbr_ar")%string) /\
  (In (k, Ok Larger) (report_comparison (decision_freq meanrank (Some cd)))
     <-> meanrank (var_name k ++ "_dbr_ar")%string + cd <= meanrank (var_name k ++ "_br_ar")%string).
Proof.
  intros meanrank cd k H.
  assert (I : forall o, In (k, Ok o) (report_comparison (decision_freq meanrank (Some cd)))
                        <-> decision_freq meanrank (Some cd) (column_name k Br) (column_name k Dbr) = Ok o).
  { intros o. unfold report_comparison. rewrite in_map_iff. split.
    - intros (k' & E & _). pose proof (f_equal fst E) as E1. pose proof (f_equal snd E) as E2. cbn [fst snd] in E1, E2.
      subst k'. exact E2.
    - intros E. exists k. split; [rewrite E; reflexivity|destruct k; cbn; tauto]. }
  destruct (c100_frequentist meanrank cd (column_name k Br) (column_name k Dbr) H) as (A & _ & B & _).
  split; rewrite I; assumption.
Qed.
Print Assumptions c100_comparison.

(** ** Decision report *)

Lemma confusion_app : forall a b c d t p, List.length a = List.length c ->
  confusion (a ++ b) (c ++ d) t p = (confusion a c t p + confusion b d t p)%nat.
Proof.
  induction a as [|x a IH]; intros b c d t p H; destruct c as [|y c]; try discriminate H; [reflexivity|].
  unfold confusion in *. cbn [app combine filter].
  destruct (Bool.eqb _ _ && Bool.eqb _ _); cbn [List.length plus]; rewrite IH; (reflexivity || (cbn in H; lia)).
Qed.
Lemma confusion_repeat : forall v l t p,
  confusion (repeat v (List.length l)) l t p = if Bool.eqb v t then count_occ bool_dec l p else 0%nat.
Proof.
  induction l as [|x l IH]; intros t p; [destruct (Bool.eqb v t); reflexivity|].
  unfold confusion in *. cbn [List.length repeat combine filter fst snd count_occ].
  specialize (IH t p). destruct (Bool.eqb v t).
  - destruct (bool_dec x p) as [->|N]; cbn [andb].
    + rewrite eqb_reflx. cbn [List.length]. rewrite IH. reflexivity.
    + rewrite (proj2 (eqb_false_iff x p) N). exact IH.
  - cbn [andb]. exact IH.
Qed.
(** The classification report counts the beats that were decided to be beats or not, and
    the same for the single partials. *)
Theorem c100_confusion : forall beat single p, List.length single = List.length beat ->
  confusion (y_true beat) (y_pred beat single) true p = count_occ bool_dec beat p /\
  confusion (y_true beat) (y_pred beat single) false p = count_occ bool_dec single p.
Proof.
  intros beat single p H. unfold y_true, y_pred. rewrite !confusion_app by (rewrite repeat_length; reflexivity).
  rewrite <- H at 2 4. rewrite !confusion_repeat. cbn [Bool.eqb]. split; [apply Nat.add_0_r|reflexivity].
Qed.
Print Assumptions c100_confusion.

(** Different features have different labels. *)
Theorem c100_labels : NoDup (map latex_name features).
Proof.
  assert (E : nodup string_dec (map latex_name features) = map latex_name features) by (vm_compute; reflexivity).
  rewrite <- E. apply NoDup_nodup.
Qed.
Print Assumptions c100_labels.

(** ** Importances *)

Lemma n_repeats_ge : forall n folds, (0 < folds)%nat -> (n <= folds * n_repeats n folds)%nat.
Proof.
  intros n folds H. unfold n_repeats, Bank_Model.Rceil.
  destruct (archimed (- (INR n / INR folds))) as [A B].
  assert (F : 0 < INR folds) by (apply lt_0_INR; exact H).
  assert (N : 0 <= INR n) by apply pos_INR.
  assert (Q : 0 <= INR n / INR folds) by (apply Rmult_le_pos; [exact N|left; apply Rinv_0_lt_compat; exact F]).
  set (z := up (- (INR n / INR folds))) in *.
  assert (Z0 : (0 <= 1 - z)%Z).
  { assert (X : (z < 2)%Z) by (apply lt_IZR; lra). lia. }
  assert (C : INR n / INR folds <= IZR (1 - z)) by (rewrite minus_IZR; lra).
  apply INR_le. rewrite mult_INR. rewrite (INR_IZR_INZ (Z.to_nat (1 - z))), Z2Nat.id by exact Z0.
  apply (Rmult_le_compat_l (INR folds)) in C; [|lra].
  replace (INR folds * (INR n / INR folds)) with (INR n) in C by (field; lra). exact C.
Qed.

Definition cell (imp : importances) (k idx : nat) : R := nth idx (nth k (i_cols imp) []) 0.
Definition shaped (nfeat size : nat) (imp : importances) : Prop :=
  List.length (i_cols imp) = nfeat /\ (forall k, (k < nfeat)%nat -> List.length (nth k (i_cols imp) []) = size) /\
  List.length (i_target imp) = size.

Lemma set_row_spec : forall nfeat size idx values t imp, shaped nfeat size imp -> List.length values = nfeat -> (idx < size)%nat ->
  shaped nfeat size (set_row idx values t imp) /\
  (forall k, (k < nfeat)%nat -> cell (set_row idx values t imp) k idx = nth k values 0) /\
  nth idx (i_target (set_row idx values t imp)) None = Some t /\
  (forall j, j <> idx -> nth j (i_target (set_row idx values t imp)) None = nth j (i_target imp) None /\
     forall k, (k < nfeat)%nat -> cell (set_row idx values t imp) k j = cell imp k j).
Proof.
  intros nfeat size idx values t imp (S1 & S2 & S3) HV HI.
  assert (K : forall k, (k < nfeat)%nat -> nth k (i_cols (set_row idx values t imp)) [] = upd idx (nth k values 0) (nth k (i_cols imp) [])).
  { intros k Hk. unfold set_row. cbn [i_cols].
    rewrite (nth_map_lt _ _ _ ([], 0)) by (rewrite combine_length; lia).
    rewrite combine_nth by lia. reflexivity. }
  split; [|split; [|split]].
  - split; [|split].
    + unfold set_row. cbn [i_cols]. rewrite map_length, combine_length. lia.
    + intros k Hk. rewrite K by exact Hk. rewrite ListLemmas.upd_length. apply S2. exact Hk.
    + unfold set_row. cbn [i_target]. rewrite ListLemmas.upd_length. exact S3.
  - intros k Hk. unfold cell. rewrite K by exact Hk. apply nth_upd_eq. rewrite S2 by exact Hk. exact HI.
  - unfold set_row. cbn [i_target]. apply nth_upd_eq. lia.
  - intros j Hj. split.
    + unfold set_row. cbn [i_target]. apply nth_upd_neq. congruence.
    + intros k Hk. unfold cell. rewrite K by exact Hk. apply nth_upd_neq. congruence.
Qed.

Lemma loop_spec : forall T nfeat n (splits : nat -> T) fit (empty : importances),
  (forall tr j, List.length (fit tr j) = nfeat) -> shaped nfeat (n * 2) empty ->
  forall m, (m <= n)%nat ->
  let r := fold_left (fun imp i => fold_left (fun imp j => set_row (2 * i + j) (fit (splits i) j) j imp) [0; 1]%nat imp) (seq 0 m) empty in
  shaped nfeat (n * 2) r /\
  forall i j, (i < m)%nat -> (j < 2)%nat -> nth (2 * i + j) (i_target r) None = Some j /\
    forall k, (k < nfeat)%nat -> cell r k (2 * i + j) = nth k (fit (splits i) j) 0.
Proof.
  intros T nfeat n splits fit empty HF HS. induction m as [|m IH]; intros Hm.
  - cbn. split; [exact HS|]. intros. lia.
  - rewrite seq_S, fold_left_app. cbn [fold_left]. destruct (IH ltac:(lia)) as [A B]. cbv zeta in A, B.
    set (r := fold_left _ (seq 0 m) empty) in *. cbn [Nat.add].
    destruct (set_row_spec nfeat (n * 2) (2 * m + 0) (fit (splits m) 0%nat) 0 r A (HF _ _) ltac:(lia)) as (A1 & B1 & C1 & D1).
    set (r1 := set_row (2 * m + 0) (fit (splits m) 0%nat) 0 r) in *.
    destruct (set_row_spec nfeat (n * 2) (2 * m + 1) (fit (splits m) 1%nat) 1 r1 A1 (HF _ _) ltac:(lia)) as (A2 & B2 & C2 & D2).
    set (r2 := set_row (2 * m + 1) (fit (splits m) 1%nat) 1 r1) in *.
    split; [exact A2|]. intros i j Hi Hj.
    destruct (Nat.eq_dec i m) as [->|N].
    + destruct j as [|[|j]]; [|split; [exact C2|exact B2]|lia].
      destruct (D2 (2 * m + 0)%nat ltac:(lia)) as [D2a D2b]. split.
      * rewrite D2a. exact C1.
      * intros k Hk. rewrite D2b by exact Hk. apply B1. exact Hk.
    + destruct (D2 (2 * i + j)%nat ltac:(lia)) as [D2a D2b]. destruct (D1 (2 * i + j)%nat ltac:(lia)) as [D1a D1b].
      destruct (B i j ltac:(lia) Hj) as [Ba Bb]. split.
      * rewrite D2a, D1a. exact Ba.
      * intros k Hk. rewrite D2b, D1b by exact Hk. apply Bb. exact Hk.
Qed.

Lemma empty_shaped : forall junk nfeat n,
  shaped nfeat (n * 2) (mkImp (map (fun k => map (junk k) (seq 0 (n * 2))) (seq 0 nfeat)) (repeat None (n * 2))).
Proof.
  intros junk nfeat n. split; [|split]; cbn [i_cols i_target].
  - rewrite map_length, seq_length. reflexivity.
  - intros k Hk. rewrite (nth_map_lt _ _ _ 0%nat) by (rewrite seq_length; exact Hk). rewrite map_length, seq_length. reflexivity.
  - apply repeat_length.
Qed.
Lemma firstn_seq : forall n m, (n <= m)%nat -> firstn n (seq 0 m) = seq 0 n.
Proof.
  intros n m H. replace m with (n + (m - n))%nat by lia. rewrite seq_app, firstn_app, seq_length, Nat.sub_diag.
  cbn [firstn]. rewrite app_nil_r. rewrite <- (seq_length n 0) at 1. apply firstn_all.
Qed.

(** With [--tqdm] the importances of the trees of every fold and target are in the table,
    whatever was in the memory before, for any numbers of rows and folds. *)
Theorem c100_importances : forall T junk rows folds n nfeat (splits : nat -> T) fit,
  (0 < folds)%nat -> (folds <= rows)%nat -> (forall tr j, List.length (fit tr j) = nfeat) ->
  exists imp, importance_table junk true rows folds n nfeat splits fit = Ok imp /\
    List.length (i_target imp) = (2 * n)%nat /\ List.length (i_cols imp) = nfeat /\
    forall i j, (i < n)%nat -> (j < 2)%nat -> nth (2 * i + j) (i_target imp) None = Some j /\
      forall k, (k < nfeat)%nat -> nth (2 * i + j) (nth k (i_cols imp) []) 0 = nth k (fit (splits i) j) 0.
Proof.
  intros T junk rows folds n nfeat splits fit H0 H1 HF. unfold importance_table.
  replace (rows <? folds)%nat with false by (symmetry; apply Nat.ltb_ge; exact H1).
  rewrite firstn_seq by (apply n_repeats_ge; exact H0).
  destruct (loop_spec T nfeat n splits fit _ HF (empty_shaped junk nfeat n) n ltac:(lia)) as [A B].
  eexists. split; [reflexivity|]. destruct A as (A1 & A2 & A3).
  split; [rewrite A3; lia|]. split; [exact A1|]. exact B.
Qed.
Print Assumptions c100_importances.

(** Without it the loop is not run: the table is what happened to be in the memory, and no
    row belongs to a target. *)
Theorem c100_importances_refuted : forall T rows folds n nfeat (splits : nat -> T) fit,
  (forall junk, exists imp, importance_table junk false rows folds n nfeat splits fit = Ok imp /\
     (forall k i, (k < nfeat)%nat -> (i < n * 2)%nat -> nth i (nth k (i_cols imp) []) 0 = junk k i) /\
     forall i, nth i (i_target imp) None = None).
Proof.
  intros T rows folds n nfeat splits fit junk. eexists. split; [reflexivity|]. split; cbn [i_cols i_target].
  - intros k i Hk Hi. rewrite (nth_map_lt _ _ _ 0%nat) by (rewrite seq_length; exact Hk).
    rewrite (nth_map_lt _ _ _ 0%nat) by (rewrite seq_length; exact Hi).
    rewrite !seq_nth by assumption. reflexivity.
  - intros i. destruct (Nat.lt_ge_cases i (n * 2)) as [L|L].
    + apply nth_repeat.
    + apply nth_overflow. rewrite repeat_length. exact L.
Qed.
Print Assumptions c100_importances_refuted.

(** And it is written to the file, which later runs read whatever their options are. *)
Theorem c100_importances_stale_refuted : forall T junk junk' rows folds n nfeat (splits : nat -> T) fit imp file,
  importances_of true None (importance_table junk false rows folds n nfeat splits fit) = Ok (imp, file) ->
  importances_of true file (importance_table junk' true rows folds n nfeat splits fit) = Ok (imp, file) /\
  forall i, nth i (i_target imp) None = None.
Proof.
  intros T junk junk' rows folds n nfeat splits fit imp file H.
  destruct (c100_importances_refuted T rows folds n nfeat splits fit junk) as (imp' & E & _ & B).
  unfold importances_of in H. rewrite E in H. cbn [bind] in H. injection H as <- <-.
  split; [reflexivity|exact B].
Qed.
Print Assumptions c100_importances_stale_refuted.

(** ** Posterior probabilities *)

Lemma map2_nth : forall (op : R -> R -> R) a b i, List.length a = List.length b -> (i < List.length a)%nat ->
  nth i (map2 op a b) 0 = op (nth i a 0) (nth i b 0).
Proof.
  intros op a b i H Hi. unfold map2. rewrite (nth_map_lt _ _ _ (0, 0)) by (rewrite combine_length; lia).
  rewrite combine_nth by exact H. reflexivity.
Qed.
Lemma map2_len : forall (op : R -> R -> R) a b, List.length a = List.length b -> List.length (map2 op a b) = List.length a.
Proof. intros op a b H. unfold map2. rewrite map_length, combine_length. lia. Qed.
Lemma totals : forall cs c nb, List.length c = nb -> (forall r, In r cs -> List.length r = nb) ->
  List.length (fold_left (map2 Rplus) cs c) = nb /\
  forall b, (b < nb)%nat -> nth b (fold_left (map2 Rplus) cs c) 0 = rsum (map (fun r => nth b r 0) (c :: cs)).
Proof.
  induction cs as [|r cs IH]; intros c nb HC HR.
  - cbn [fold_left map rsum fold_right]. split; [exact HC|]. intros b Hb. unfold rsum. cbn. lra.
  - cbn [fold_left]. assert (L : List.length r = nb) by (apply HR; left; reflexivity).
    destruct (IH (map2 Rplus c r) nb) as [A B].
    + rewrite map2_len; lia.
    + intros q Hq. apply HR. right. exact Hq.
    + split; [exact A|]. intros b Hb. rewrite B by exact Hb. unfold rsum. cbn [map fold_right].
      rewrite map2_nth by lia. lra.
Qed.

(** The probability of a label in a bin is its share of the counts of the bin; there is none
    (NaN) in an empty bin. *)
Definition share (counts : list (list R)) (row : list R) (b : nat) : option R :=
  let total := rsum (map (fun r => nth b r 0) counts) in
  if Req_EM_T total 0 then None else Some (nth b row 0 / total).

Theorem c100_posterior : forall counts nb, (2 <= List.length counts)%nat -> (forall r, In r counts -> List.length r = nb) ->
  posterior counts = map (fun row => Bars (map (share counts row) (seq 0 nb))) counts.
Proof.
  intros counts nb HL HR. destruct counts as [|c [|c' cs]]; [cbn in HL; lia|cbn in HL; lia|].
  unfold posterior. destruct (totals (c' :: cs) c nb) as [A B].
  { apply HR. left. reflexivity. }
  { intros r Hr. apply HR. right. exact Hr. }
  apply map_ext_in. intros row Hrow. f_equal.
  set (tot := fold_left (map2 Rplus) (c' :: cs) c) in *. pose proof (HR _ Hrow) as Lr.
  apply (nth_ext _ _ None None).
  - rewrite !map_length, combine_length, seq_length. lia.
  - intros i Hi. rewrite map_length, combine_length in Hi.
    rewrite (nth_map_lt _ _ _ (0, 0)) by (rewrite combine_length; lia). rewrite combine_nth by lia.
    rewrite (nth_map_lt _ _ _ 0%nat) by (rewrite seq_length; lia). rewrite seq_nth by lia. cbn [Nat.add fst snd].
    rewrite B by lia. reflexivity.
Qed.
Print Assumptions c100_posterior.

(** In a bin with counts they are probabilities: between 0 and 1, and 1 in total. *)
Lemma rsum_nonneg : forall l, (forall x, In x l -> 0 <= x) -> 0 <= rsum l.
Proof.
  induction l as [|x l IH]; intros H; [cbn; lra|]. change (rsum (x :: l)) with (x + rsum l).
  specialize (IH (fun y Hy => H y (or_intror Hy))). specialize (H x (or_introl eq_refl)). lra.
Qed.
Lemma rsum_ge : forall l x, (forall y, In y l -> 0 <= y) -> In x l -> x <= rsum l.
Proof.
  induction l as [|z l IH]; intros x H [].
  - subst z. change (rsum (x :: l)) with (x + rsum l). pose proof (rsum_nonneg l (fun y Hy => H y (or_intror Hy))). lra.
  - change (rsum (z :: l)) with (z + rsum l). specialize (IH x (fun y Hy => H y (or_intror Hy)) H0).
    pose proof (H z (or_introl eq_refl)). lra.
Qed.
Lemma rsum_scale : forall A (f : A -> R) t l, rsum (map (fun x => f x / t) l) = rsum (map f l) / t.
Proof.
  intros A f t l. induction l as [|x l IH]; [cbn; unfold Rdiv; ring|].
  cbn [map]. change (rsum (f x / t :: map (fun x => f x / t) l)) with (f x / t + rsum (map (fun x => f x / t) l)).
  change (rsum (f x :: map f l)) with (f x + rsum (map f l)). rewrite IH. unfold Rdiv. ring.
Qed.
Theorem c100_probabilities : forall counts b, (forall r, In r counts -> 0 <= nth b r 0) ->
  rsum (map (fun r => nth b r 0) counts) <> 0 ->
  exists p, (forall r, In r counts -> share counts r b = Some (p r) /\ 0 <= p r <= 1) /\ rsum (map p counts) = 1.
Proof.
  intros counts b HP HT. set (total := rsum (map (fun r => nth b r 0) counts)) in *.
  exists (fun r => nth b r 0 / total).
  assert (P : forall y, In y (map (fun r => nth b r 0) counts) -> 0 <= y).
  { intros y Hy. apply in_map_iff in Hy. destruct Hy as (r & <- & Hr). apply HP. exact Hr. }
  assert (T : 0 < total) by (pose proof (rsum_nonneg _ P); fold total in H; lra).
  split.
  - intros r Hr. unfold share. fold total. destruct (Req_EM_T total 0) as [E|E]; [contradiction|]. split; [reflexivity|].
    assert (L : nth b r 0 <= total) by (apply rsum_ge; [exact P|apply in_map_iff; exists r; split; [reflexivity|exact Hr]]).
    pose proof (HP r Hr). split.
    + apply Rmult_le_pos; [assumption|left; apply Rinv_0_lt_compat; exact T].
    + apply (Rmult_le_reg_r total); [exact T|]. unfold Rdiv. rewrite Rmult_assoc, Rinv_l by lra. lra.
  - rewrite (rsum_scale _ (fun r => nth b r 0)). fold total. field. exact HT.
Qed.
Print Assumptions c100_probabilities.

(** If all decisions are the same, the only label has all counts of every bin, but all
    bars get the same height: the share of the first bin in the data. *)
Theorem c100_posterior_refuted : exists c,
  map (share [c] c) (seq 0 2) = [Some 1; Some 1] /\ posterior [c] = [AllBars (Some (1 / 4))].
Proof.
  exists [1; 3]. split.
  - cbn [seq map]. unfold share. cbn [map nth]. unfold rsum. cbn [fold_right].
    destruct (Req_EM_T _ _) as [E|E]; [exfalso; lra|]. destruct (Req_EM_T _ _) as [E'|E']; [exfalso; lra|].
    repeat f_equal; field.
  - unfold posterior, ratio, rsum. cbn [fold_right]. destruct (Req_EM_T _ _) as [E|E]; [exfalso; lra|].
    repeat f_equal; lra.
Qed.
Print Assumptions c100_posterior_refuted.

(** ** FFT report *)

(** The report counts the cases with at least two tracks out of all cases; the percentage is
    that of the counts.  There must be one case at least. *)
Theorem c100_fft_report : forall counts n, (0 <= n)%Z -> counts <> [] ->
  exists found, fft_report counts n = Ok (found, zlen counts, IZR found * 100 / IZR (zlen counts), (2 ^ n)%Z, IZR (2 ^ n) / 44100) /\
    (0 <= found <= zlen counts)%Z /\ (found = zlen counts <-> Forall (fun c => 2 <= c)%Z counts) /\
    (found = 0%Z <-> Forall (fun c => c < 2)%Z counts) /\
    0 <= IZR found * 100 / IZR (zlen counts) <= 100.
Proof.
  intros counts n Hn HN. unfold fft_report, shl1.
  replace (n <? 0)%Z with false by (symmetry; apply Z.ltb_ge; exact Hn). cbn [bind].
  assert (T : (0 < zlen counts)%Z) by (unfold zlen; destruct counts; [contradiction|cbn [List.length]; lia]).
  replace (zlen counts =? 0)%Z with false by (symmetry; apply Z.eqb_neq; lia).
  exists (zlen (filter (fun c => (2 <=? c)%Z) counts)). split; [reflexivity|].
  assert (Q : forall l, (0 <= zlen (filter (fun c => (2 <=? c)%Z) l) <= zlen l)%Z /\
      (zlen (filter (fun c => (2 <=? c)%Z) l) = zlen l <-> Forall (fun c => 2 <= c)%Z l) /\
      (zlen (filter (fun c => (2 <=? c)%Z) l) = 0%Z <-> Forall (fun c => c < 2)%Z l)).
  { unfold zlen. induction l as [|c l (I1 & I2 & I3)].
    - cbn. repeat split; intros; try lia; constructor.
    - cbn [filter]. destruct (Z.leb_spec 2 c) as [L|L]; cbn [List.length].
      + split; [lia|]. split; split; intros X.
        * constructor; [exact L|]. apply I2. lia.
        * inversion X as [|? ? X1 X2]; subst. apply I2 in X2. lia.
        * lia.
        * inversion X as [|? ? X1 X2]; subst. lia.
      + split; [lia|]. split; split; intros X.
        * lia.
        * inversion X as [|? ? X1 X2]; subst. lia.
        * constructor; [exact L|]. apply I3. lia.
        * inversion X as [|? ? X1 X2]; subst. apply I3 in X2. lia. }
  destruct (Q counts) as (Q1 & Q2 & Q3). split; [exact Q1|]. split; [exact Q2|]. split; [exact Q3|].
  set (f := zlen (filter _ counts)) in *.
  assert (T' : 0 < IZR (zlen counts)) by (apply IZR_lt; exact T).
  assert (F0' : 0 <= IZR f) by (apply IZR_le; lia).
  assert (F1' : IZR f <= IZR (zlen counts)) by (apply IZR_le; lia).
  split.
  - apply Rmult_le_pos; [lra|left; apply Rinv_0_lt_compat; exact T'].
  - apply (Rmult_le_reg_r (IZR (zlen counts))); [exact T'|]. unfold Rdiv. rewrite Rmult_assoc, Rinv_l by lra. lra.
Qed.
Print Assumptions c100_fft_report.

(** If every test failed (and was logged) the report is a ZeroDivisionError. *)
Theorem c100_fft_report_refuted : forall n, (0 <= n)%Z -> fft_report [] n = Err ZeroDivisionError.
Proof.
  intros n H. unfold fft_report, shl1. replace (n <? 0)%Z with false by (symmetry; apply Z.ltb_ge; exact H). reflexivity.
Qed.
Print Assumptions c100_fft_report_refuted.

(** ** Examples *)

Example c100_example :
  custom_parse_args false (Some 14%Z) = Ok (TestFft 16384) /\
  custom_parse_args true (Some 14%Z) = Err ValueError /\
  prepare_folders (Some (txt "out/results")) (Some (txt "wavs")) None = Ok [txt "out"; txt "wavs"] /\
  prepare_folders (Some (txt "results")) (Some (txt "wavs")) None = Err FileNotFoundError /\
  test_case_context 7 (txt "7") (Ok tt) (Some (txt "wavs")) (fun _ => Ok tt) (Some (txt "logs")) (fun _ => @Err nat ValueError)
    = (Ok None, [EWav (txt "wavs/7"); EDir (txt "logs"); ELog (txt "logs/7") 7 ValueError]) /\
  confusion (y_true [true; true; false]) (y_pred [true; true; false] [false; true; false]) false true = 1%nat /\
  map latex_name ["f_log_delta"; "a2"; "seed"; "p_avg"]%string
    = ["$\Delta{\log{\nu}}$"; "$a_{3}$"; "$\mathrm{seed}$"; "$\overline{\phi}$"]%string /\
  map fst (pops []) = ["f0_br_ar"; "f0_dbr_ar"; "f1_br_ar"; "f1_dbr_ar"; "a0_br_ar"; "a0_dbr_ar"; "a1_br_ar"; "a1_dbr_ar";
                       "d0_br_ar"; "d0_dbr_ar"; "d1_br_ar"; "d1_dbr_ar"]%string.
Proof. repeat split; reflexivity. Qed.
(** Two seconds of decay of three frames, the middle one lost. *)
Example c100_example_samples :
  frames_spec 2 (mkRTrack 0 [Some 10; None; Some 11] [Some (-20); None; Some (-10)] [None; None; None])
  = [(INR 0 / 2, -10 + 6, Some 11); (INR 2 / 2, -20 + 6, Some 10)].
Proof. reflexivity. Qed.
