(** C94: plots of sinusoidal tracks.  C95: plots of resyntheses and comparisons of
    beat regressions. *)
From Coq Require Import String List Bool ZArith Reals Lra Lia Sorting.Sorted DecimalString DecimalZ DecimalPos.
Import ListNotations.
From Verif Require Import Base Py RLists PyLemmas ListLemmas Sample_Model Sample_Spec Sample_Proofs Plot_Model.
Local Open Scope R_scope.

(** ** Lemmas *)

Lemma nth_error_combine : forall A B (a : list A) (b : list B) i x y,
  nth_error (combine a b) i = Some (x, y) <-> nth_error a i = Some x /\ nth_error b i = Some y.
Proof.
  induction a as [|a0 a IH]; intros b i x y.
  - destruct i; cbn; split; [discriminate|intros [H _]; discriminate|discriminate|intros [H _]; discriminate].
  - destruct b as [|b0 b].
    + destruct i; cbn; (split; [discriminate|intros [_ H]; discriminate]).
    + destruct i as [|i]; cbn [combine nth_error].
      * split; [intros H; injection H as <- <-; auto|intros [H1 H2]; injection H1 as <-; injection H2 as <-; reflexivity].
      * apply IH.
Qed.
Lemma nth_error_seq : forall n i s, (i < n)%nat -> nth_error (seq s n) i = Some (s + i)%nat.
Proof.
  induction n as [|n IH]; intros i s H; [lia|]. destruct i as [|i]; cbn [seq nth_error].
  - f_equal; lia.
  - rewrite IH by lia. f_equal; lia.
Qed.
Lemma nth_error_enumerate : forall A (l : list A) i j a,
  nth_error (enumerate l) i = Some (j, a) <-> j = i /\ nth_error l i = Some a.
Proof.
  intros A l i j a. unfold enumerate. rewrite nth_error_combine. split.
  - intros [H1 H2]. assert (i < List.length l)%nat by (apply nth_error_Some; congruence).
    rewrite nth_error_seq in H1 by lia. injection H1 as <-. auto.
  - intros [-> H]. split; [|exact H]. assert (i < List.length l)%nat by (apply nth_error_Some; congruence).
    now rewrite nth_error_seq by lia.
Qed.
Lemma mapM_ok_nth : forall A B (f : A -> res B) l r, mapM f l = Ok r ->
  List.length r = List.length l /\
  forall i a, nth_error l i = Some a -> exists b, nth_error r i = Some b /\ f a = Ok b.
Proof.
  induction l as [|x l IH]; cbn [mapM]; intros r E.
  - injection E as <-. split; [reflexivity|]. intros [|i] a H; discriminate.
  - destruct (f x) as [y|] eqn:Ex; cbn [bind] in E; [|discriminate].
    destruct (mapM f l) as [ys|] eqn:El; cbn [bind] in E; [|discriminate]. injection E as <-.
    destruct (IH ys eq_refl) as [L N]. split; [cbn; lia|]. intros [|i] a H; cbn in *.
    + injection H as <-. eauto.
    + apply N; exact H.
Qed.
Lemma mapM_ok_iff : forall A B (f : A -> res B) l,
  (exists r, mapM f l = Ok r) <-> (forall a, In a l -> exists b, f a = Ok b).
Proof.
  induction l as [|x l IH]; cbn [mapM].
  - split; [intros _ a []|eauto].
  - split.
    + intros [r E] a [<-|I].
      * destruct (f x) as [y|]; [eauto|discriminate].
      * destruct (f x) as [y|]; [|discriminate]. cbn [bind] in E.
        destruct (mapM f l) as [ys|] eqn:El; [|discriminate]. apply IH; eauto.
    + intros H. destruct (H x (or_introl eq_refl)) as [y ->]. cbn [bind].
      destruct (proj2 IH (fun a I => H a (or_intror I))) as [ys ->]. cbn [bind]. eauto.
Qed.
Lemma enumerate_length : forall A (l : list A), List.length (enumerate l) = List.length l.
Proof. intros. unfold enumerate. rewrite combine_length, seq_length. lia. Qed.

(** ** C94: plots of tracks *)

(** Track [i] was judged to be beating by the model that is plotted. *)
Definition judged_beating (m : pmodel) (i : nat) : Prop :=
  exists d, p_beats m = Some (true, Some d) /\ nth_error d i = Some true.

(** The line of frequencies and that of magnitudes show track [t]: a point for every
    frame, at the times [time 0], [time 1]... *)
Definition shows (t : rtrack) (dashed : Prop) (time : nat -> R) (fa : line * line) : Prop :=
  let (f, a) := fa in
  ln_y f = r_freq t /\ ln_y a = r_mag t /\
  List.length (ln_x f) = List.length (r_freq t) /\ ln_x a = ln_x f /\
  (forall j, (j < List.length (r_freq t))%nat -> nth j (ln_x f) 0 = time j) /\
  (ln_dashed f = true <-> dashed) /\ (ln_dashed a = true <-> dashed).

(** Time of frame [g] of the (possibly reversed) analysis. *)
Definition frame_at (m : pmodel) (g : R) : R := g * p_h m / p_fs m.

Lemma is_beat_iff : forall m i b, is_beat m i = Ok b -> (b = true <-> judged_beating m i).
Proof.
  intros m i b. unfold is_beat, judged_beating.
  destruct (p_beats m) as [[[] [d|]]|]; intros H; try discriminate.
  - destruct (nth_error d i) as [b'|] eqn:E; [|discriminate]. injection H as ->. split.
    + intros ->. eauto.
    + intros (d' & E1 & E2). injection E1 as <-. congruence.
  - injection H as <-. split; [discriminate|]. intros (d' & E1 & _). discriminate.
  - injection H as <-. split; [discriminate|]. intros (d' & E1 & _). discriminate.
  - injection H as <-. split; [discriminate|]. intros (d' & E1 & _). discriminate.
Qed.

Lemma frame_times_length : forall m t, List.length (frame_times m t) = List.length (r_freq t).
Proof. intros. unfold frame_times. now rewrite map_length, seq_length. Qed.
Lemma frame_times_nth : forall m t j, (j < List.length (r_freq t))%nat ->
  nth j (frame_times m t) 0 = frame_at m (IZR (r_start t) + INR j).
Proof.
  intros m t j H. unfold frame_times. rewrite (nth_map_lt _ _ _ 0%nat) by (rewrite seq_length; exact H).
  rewrite seq_nth by exact H. reflexivity.
Qed.

Lemma plot_shows : forall m lines, sine_tracking_2d m = Ok lines ->
  exists tmax, plot_tmax m = Ok tmax /\ List.length lines = List.length (p_tracks m) /\
  forall i t, nth_error (p_tracks m) i = Some t ->
  exists fa, nth_error lines i = Some fa /\
    shows t (judged_beating m i) (fun j =>
      let v := frame_at m (IZR (r_start t) + INR j) in if p_reverse m then tmax - v else v) fa.
Proof.
  intros m lines E. unfold sine_tracking_2d in E. destruct (plot_tmax m) as [tmax|] eqn:Et; [|discriminate].
  cbn [bind] in E. exists tmax. split; [reflexivity|]. apply mapM_ok_nth in E. destruct E as [L N].
  rewrite enumerate_length in L. split; [exact L|]. intros i t Ht.
  destruct (N i (i, t)) as (fa & Ef & El); [apply nth_error_enumerate; auto|]. cbv beta iota in El.
  exists fa. split; [exact Ef|]. set (tx := if p_reverse m then _ else frame_times m t) in El.
  assert (Ltx : List.length tx = List.length (r_freq t)).
  { unfold tx. destruct (p_reverse m); [rewrite map_length|]; apply frame_times_length. }
  assert (Ntx : forall j, (j < List.length (r_freq t))%nat -> nth j tx 0 =
    (let v := frame_at m (IZR (r_start t) + INR j) in if p_reverse m then tmax - v else v)).
  { intros j Hj. unfold tx. destruct (p_reverse m).
    - rewrite (nth_map_lt _ _ _ 0) by (rewrite frame_times_length; exact Hj). now rewrite frame_times_nth.
    - now rewrite frame_times_nth. }
  destruct (is_beat m i) as [b|] eqn:Eb; [|discriminate]. cbn [bind] in El.
  unfold plot_line in El. destruct (Nat.eqb_spec (List.length tx) (List.length (r_freq t))); [|contradiction].
  cbn [bind] in El. destruct (Nat.eqb (List.length tx) (List.length (r_mag t))); [|discriminate].
  cbn [bind] in El. injection El as <-. cbn [shows ln_x ln_y ln_dashed].
  pose proof (is_beat_iff m i b Eb). repeat split; try assumption; tauto.
Qed.

(** Forward analysis: every track is a line of frequencies and a line of magnitudes,
    in the order of the tracks, with a point for every frame at the time at which
    the frame starts; lines are dashed exactly for the tracks that were judged to
    be beating. *)
Theorem c94_forward : forall m lines, p_reverse m = false -> sine_tracking_2d m = Ok lines ->
  List.length lines = List.length (p_tracks m) /\
  forall i t, nth_error (p_tracks m) i = Some t ->
  exists fa, nth_error lines i = Some fa /\
    shows t (judged_beating m i) (fun j => (IZR (r_start t) + INR j) * p_h m / p_fs m) fa.
Proof.
  intros m lines R E. destruct (plot_shows m lines E) as (tmax & _ & L & N). split; [exact L|].
  intros i t Ht. destruct (N i t Ht) as (fa & Ef & S). rewrite R in S. eauto.
Qed.
Print Assumptions c94_forward.

(** Reverse analysis of a model that stored [n] spectra: frame [g] is shown at [n-g]
    hops; so frames lie after time zero, and at most at [n] hops. *)
Theorem c94_reverse : forall m n lines, p_reverse m = true -> p_save m = true -> p_stft m = Some n ->
  sine_tracking_2d m = Ok lines ->
  List.length lines = List.length (p_tracks m) /\
  forall i t, nth_error (p_tracks m) i = Some t ->
  exists fa, nth_error lines i = Some fa /\
    shows t (judged_beating m i) (fun j => (INR n - (IZR (r_start t) + INR j)) * p_h m / p_fs m) fa /\
    ((0 <= r_start t)%Z -> (r_start t + Z.of_nat (List.length (r_freq t)) <= Z.of_nat n)%Z ->
     0 < p_h m -> 0 < p_fs m ->
     forall v, In v (ln_x (fst fa)) -> 0 < v <= INR n * p_h m / p_fs m).
Proof.
  intros m n lines R Sv St E. destruct (plot_shows m lines E) as (tmax & Et & L & N). split; [exact L|].
  intros i t Ht. destruct (N i t Ht) as (fa & Ef & S). exists fa. split; [exact Ef|].
  unfold plot_tmax in Et. rewrite R, Sv, St in Et. injection Et as <-. rewrite R in S.
  destruct fa as [f a]. cbn [shows fst] in *. destruct S as (Y & Y' & Lx & X & T & D & D').
  assert (T' : forall j, (j < List.length (r_freq t))%nat ->
    nth j (ln_x f) 0 = (INR n - (IZR (r_start t) + INR j)) * p_h m / p_fs m).
  { intros j Hj. rewrite T by exact Hj. unfold frame_at, Rdiv. ring. }
  split; [repeat split; auto; tauto|]. intros S0 Sn Hh Hf v Hv.
  apply (In_nth _ _ 0) in Hv. destruct Hv as (j & Hj & <-). rewrite T' by lia.
  assert (A : 0 <= IZR (r_start t)) by (apply IZR_le; exact S0).
  assert (B : IZR (r_start t) + INR j + 1 <= INR n).
  { rewrite !INR_IZR_INZ, <- !plus_IZR. apply IZR_le. lia. }
  assert (Q : 0 < p_h m / p_fs m) by (apply Rdiv_lt_0_compat; assumption).
  pose proof (pos_INR j).
  replace ((INR n - (IZR (r_start t) + INR j)) * p_h m / p_fs m)
    with ((INR n - (IZR (r_start t) + INR j)) * (p_h m / p_fs m)) by (unfold Rdiv; ring).
  replace (INR n * p_h m / p_fs m) with (INR n * (p_h m / p_fs m)) by (unfold Rdiv; ring).
  split; [apply Rmult_lt_0_compat; lra|]. apply Rmult_le_compat_r; lra.
Qed.
Print Assumptions c94_reverse.

(** The plot succeeds exactly if: reverse models stored spectra, or do not store and
    have tracks; decisions were stored for every track, if decisions are stored; the
    tracks have as many magnitudes as frequencies. *)
Theorem c94_succeeds : forall m,
  (exists lines, sine_tracking_2d m = Ok lines) <->
  (p_reverse m = true -> if p_save m then p_stft m <> None else p_tracks m <> []) /\
  (forall b, p_beats m = Some (true, b) -> p_tracks m <> [] ->
     exists d, b = Some d /\ (List.length (p_tracks m) <= List.length d)%nat) /\
  (forall t, In t (p_tracks m) -> List.length (r_mag t) = List.length (r_freq t)).
Proof.
  intros m. unfold sine_tracking_2d.
  assert (P : (exists v, plot_tmax m = Ok v) <-> (p_reverse m = true -> if p_save m then p_stft m <> None else p_tracks m <> [])).
  { unfold plot_tmax. destruct (p_reverse m); [|split; [discriminate|eauto]]. destruct (p_save m).
    - destruct (p_stft m); split; [discriminate|eauto| |intros H; now contradiction (H eq_refl)].
      intros [v H]; discriminate.
    - destruct (p_tracks m) as [|t l]; cbn [map]; split; [intros [v H]; discriminate|intros H; now contradiction (H eq_refl)|discriminate|eauto]. }
  rewrite <- P. clear P. destruct (plot_tmax m) as [tmax|e]; cbn [bind]; [|split; [intros [l H]; discriminate|intros [[v H] _]; discriminate]].
  rewrite mapM_ok_iff. split.
  - intros H. split; [eauto|].
    assert (G : forall i t, nth_error (p_tracks m) i = Some t -> (exists b, is_beat m i = Ok b) /\ List.length (r_mag t) = List.length (r_freq t)).
    { intros i t Ht. destruct (H (i, t)) as [fa E].
      { eapply nth_error_In with (n := i). apply nth_error_enumerate; auto. }
      cbv beta iota in E. destruct (is_beat m i) as [b|]; [|discriminate]. split; [eauto|]. cbn [bind] in E.
      set (tx := if p_reverse m then _ else frame_times m t) in E.
      assert (Ltx : List.length tx = List.length (r_freq t)).
      { unfold tx. destruct (p_reverse m); [rewrite map_length|]; apply frame_times_length. }
      unfold plot_line in E. rewrite Ltx, Nat.eqb_refl in E. cbn [bind] in E.
      destruct (Nat.eqb_spec (List.length (r_freq t)) (List.length (r_mag t))); [auto|discriminate]. }
    split.
    + intros b Eb Hn. destruct (p_tracks m) as [|t0 l] eqn:Et; [contradiction|].
      destruct (G (List.length l) (nth (List.length l) (t0 :: l) t0)) as [[b' E] _].
      { rewrite <- nth_error_nth' with (d := t0); [reflexivity|cbn; lia]. }
      unfold is_beat in E. rewrite Eb in E. destruct b as [d|]; [|discriminate]. exists d. split; [reflexivity|].
      destruct (nth_error d (List.length l)) eqn:En; [|discriminate].
      assert (List.length l < List.length d)%nat by (apply nth_error_Some; congruence). cbn; lia.
    + intros t It. apply In_nth_error in It. destruct It as [i Ei]. exact (proj2 (G i t Ei)).
  - intros (_ & D & M) [i t] I. apply In_nth_error in I. destruct I as [i' Ei].
    apply nth_error_enumerate in Ei. destruct Ei as [-> Ei]. cbv beta iota.
    set (tx := if p_reverse m then _ else frame_times m t).
    assert (Ltx : List.length tx = List.length (r_freq t)).
    { unfold tx. destruct (p_reverse m); [rewrite map_length|]; apply frame_times_length. }
    assert (It : In t (p_tracks m)) by (eapply nth_error_In; exact Ei).
    assert (B : exists b, is_beat m i' = Ok b).
    { unfold is_beat. destruct (p_beats m) as [[[] o]|] eqn:Eb; eauto.
      destruct (D o eq_refl) as (d & -> & Ld); [intros Z; rewrite Z in It; destruct It|].
      assert (i' < List.length (p_tracks m))%nat by (apply nth_error_Some; congruence).
      destruct (nth_error d i') eqn:En; [eauto|]. apply nth_error_None in En. lia. }
    destruct B as [b ->]. cbn [bind]. unfold plot_line. rewrite Ltx, (M t It), Nat.eqb_refl. cbn [bind]. eauto.
Qed.
Print Assumptions c94_succeeds.

(** Plots show the times that modal parameters are estimated from, but for an
    offset that is the same for all frames of all tracks: half a window for forward
    analyses without padding, none with padding.  [n] is the number of stored
    spectra, which matters for reverse analyses. *)
Theorem c94_offset : forall m lines (w nx : R) (padded : bool) n,
  p_fs m <> 0 -> sine_tracking_2d m = Ok lines ->
  (p_reverse m = true -> p_save m = true /\ p_stft m = Some n) ->
  let late := (if padded then 0 else w / 2) / p_fs m in
  let offset := if p_reverse m then (nx - INR n * p_h m) / p_fs m - late else late in
  forall i t ts fq ms, nth_error (p_tracks m) i = Some t -> aligned t ->
  preprocess_track (mkACfg (p_fs m) (p_h m) w padded (p_reverse m)) nx t = (ts, fq, ms) ->
  exists f a idx, nth_error lines i = Some (f, a) /\
    StronglySorted lt idx /\ (forall j, In j idx <-> exists v, has_value (r_mag t) j v) /\
    ts = map (fun j => nth j (ln_x f) 0 + offset) idx.
Proof.
  intros m lines w nx padded n Hf E Rv late offset i t ts fq ms Ht Al Ep.
  destruct (plot_shows m lines E) as (tmax & Et & L & N).
  destruct (N i t Ht) as ((f & a) & Ef & S). cbn [shows] in S. destruct S as (_ & _ & Lx & _ & T & _).
  destruct (preprocess_ok (mkACfg (p_fs m) (p_h m) w padded (p_reverse m)) nx t Al) as (idx & fs' & ms' & E' & Srt & I & _).
  rewrite Ep in E'. injection E' as -> _ _. exists f, a, idx. split; [exact Ef|]. split; [exact Srt|]. split; [exact I|].
  apply map_ext_in. intros j Hj. apply I in Hj. destruct Hj as [v Hv].
  assert (Lj : (j < List.length (r_freq t))%nat).
  { destruct Al as (_ & -> & _). apply nth_error_Some. unfold has_value in Hv. congruence. }
  rewrite T by exact Lj. unfold frame_time, frame_at. cbn [a_fs a_h a_wsize a_padded a_rev].
  rewrite plus_IZR, <- INR_IZR_INZ. unfold offset, late.
  destruct (p_reverse m) eqn:R.
  - destruct (Rv eq_refl) as [Sv St]. unfold plot_tmax in Et. rewrite R, Sv, St in Et. injection Et as <-.
    destruct padded; field; exact Hf.
  - destruct padded; field; exact Hf.
Qed.
Print Assumptions c94_offset.

(** For a reverse analysis without padding, in which as many frames as fit were
    analysed, that offset is half a window less a hop, plus the samples that were
    left over: so it lies between half a window less a hop and half a window. *)
Theorem c94_reverse_offset : forall (nx w h : Z) n fs, (0 < h)%Z -> (0 < w <= nx)%Z -> 0 < fs ->
  Z.of_nat n = (1 + (nx - w) / h)%Z ->
  let offset := (IZR nx - INR n * IZR h) / fs - IZR w / 2 / fs in
  offset = (IZR w / 2 - IZR h + IZR ((nx - w) mod h)) / fs /\
  (IZR w / 2 - IZR h) / fs <= offset < IZR w / 2 / fs.
Proof.
  intros nx w h n fs Hh Hw Hf En offset.
  pose proof (Z.div_mod (nx - w) h ltac:(lia)) as D. pose proof (Z.mod_pos_bound (nx - w) h Hh) as B.
  set (q := ((nx - w) / h)%Z) in *. set (r := ((nx - w) mod h)%Z) in *.
  assert (E : offset = (IZR w / 2 - IZR h + IZR r) / fs).
  { unfold offset. rewrite INR_IZR_INZ, En, plus_IZR. replace nx with (h * q + r + w)%Z by lia.
    rewrite !plus_IZR, mult_IZR. field. lra. }
  split; [exact E|]. rewrite E. destruct B as [B1 B2]. apply IZR_le in B1. apply IZR_lt in B2.
  split.
  - apply Rmult_le_compat_r; [left; now apply Rinv_0_lt_compat|lra].
  - apply Rmult_lt_compat_r; [now apply Rinv_0_lt_compat|lra].
Qed.
Print Assumptions c94_reverse_offset.

(** *** Reverse models that do not store *)

Definition delayed (k : Z) (t : rtrack) : rtrack := mkRTrack (r_start t + k) (r_freq t) (r_mag t) (r_ph t).
Definition delayed_model (k : Z) (m : pmodel) : pmodel :=
  mkPModel (map (delayed k) (p_tracks m)) (p_h m) (p_fs m) (p_reverse m) (p_save m) (p_stft m) (p_beats m).

Lemma fold_max_shift : forall l v c, fold_left Rmax (map (fun x => x + c) l) (v + c) = fold_left Rmax l v + c.
Proof.
  induction l as [|x l IH]; intros v c; cbn [map fold_left]; [reflexivity|].
  replace (Rmax (v + c) (x + c)) with (Rmax v x + c); [apply IH|].
  unfold Rmax. destruct (Rle_dec v x), (Rle_dec (v + c) (x + c)); lra.
Qed.
Lemma tmax_shift : forall m k tmax, p_reverse m = true -> p_save m = false -> plot_tmax m = Ok tmax ->
  plot_tmax (delayed_model k m) = Ok (tmax + IZR k * p_h m / p_fs m).
Proof.
  intros m k tmax R Sv. unfold plot_tmax. cbn [delayed_model p_reverse p_save p_tracks p_h p_fs]. rewrite R, Sv, map_map.
  destruct (p_tracks m) as [|t l]; cbn [map]; [discriminate|]. intros E. injection E as <-. f_equal.
  rewrite <- fold_max_shift, map_map. unfold track_size. cbn [delayed r_start r_freq]. f_equal.
  - apply map_ext. intros t'. cbn [delayed r_start r_freq]. rewrite plus_IZR. unfold Rdiv. ring.
  - rewrite plus_IZR. unfold Rdiv. ring.
Qed.

(** Plots of reverse models that do not store do not show when a sound starts or
    ends: if all tracks lie [k] frames later, the plot is the same. *)
Theorem c94_unsaved_forgets : forall m k lines, p_reverse m = true -> p_save m = false ->
  sine_tracking_2d m = Ok lines -> sine_tracking_2d (delayed_model k m) = Ok lines.
Proof.
  intros m k lines R Sv. unfold sine_tracking_2d. destruct (plot_tmax m) as [tmax|] eqn:Et; [|discriminate].
  rewrite (tmax_shift m k tmax R Sv Et). cbn [bind delayed_model p_tracks p_reverse]. rewrite R. intros <-.
  unfold enumerate. rewrite map_length. generalize 0%nat at 1 2 as s.
  assert (G : forall l s,
    mapM (fun it : nat * rtrack => let '(i, t) := it in
      do b <- is_beat (delayed_model k m) i;
      do f <- plot_line (map (fun v => tmax + IZR k * p_h m / p_fs m - v) (frame_times (delayed_model k m) t)) (r_freq t) b;
      do a <- plot_line (map (fun v => tmax + IZR k * p_h m / p_fs m - v) (frame_times (delayed_model k m) t)) (r_mag t) b;
      Ok (f, a)) (combine (seq s (List.length l)) (map (delayed k) l)) =
    mapM (fun it : nat * rtrack => let '(i, t) := it in
      do b <- is_beat m i;
      do f <- plot_line (map (fun v => tmax - v) (frame_times m t)) (r_freq t) b;
      do a <- plot_line (map (fun v => tmax - v) (frame_times m t)) (r_mag t) b;
      Ok (f, a)) (combine (seq s (List.length l)) l)).
  { induction l as [|t l IH]; intros s; [reflexivity|]. cbn [List.length seq map combine mapM].
    assert (X : map (fun v => tmax + IZR k * p_h m / p_fs m - v) (frame_times (delayed_model k m) (delayed k t)) =
      map (fun v => tmax - v) (frame_times m t)).
    { unfold frame_times, track_size. cbn [delayed delayed_model r_start r_freq p_h p_fs]. rewrite !map_map.
      apply map_ext. intros j. rewrite plus_IZR. unfold Rdiv. ring. }
    rewrite X, IH. reflexivity. }
  intros s. apply G.
Qed.
Print Assumptions c94_unsaved_forgets.

Lemma fold_max_spec : forall l v, (fold_left Rmax l v = v \/ In (fold_left Rmax l v) l) /\
  v <= fold_left Rmax l v /\ forall x, In x l -> x <= fold_left Rmax l v.
Proof.
  induction l as [|y l IH]; intros v; cbn [fold_left].
  - split; [auto|]. split; [lra|]. intros x [].
  - destruct (IH (Rmax v y)) as (E & G & A). pose proof (Rmax_l v y). pose proof (Rmax_r v y). split.
    + destruct E as [E|I]; [|right; right; exact I].
      rewrite E. unfold Rmax. destruct (Rle_dec v y); [right; left; reflexivity|left; reflexivity].
    + split; [lra|]. intros x [<-|I]; [lra|apply A, I].
Qed.

(** Of such models, the first point of the plot is always at one hop, and no point
    comes before it. *)
Theorem c94_unsaved_onset : forall m lines, p_reverse m = true -> p_save m = false ->
  0 < p_h m -> 0 < p_fs m -> Forall (fun t => r_freq t <> []) (p_tracks m) ->
  sine_tracking_2d m = Ok lines ->
  (exists f a, In (f, a) lines /\ In (p_h m / p_fs m) (ln_x f)) /\
  (forall f a v, In (f, a) lines -> In v (ln_x f) -> p_h m / p_fs m <= v).
Proof.
  intros m lines R Sv Hh Hf Ne E. destruct (plot_shows m lines E) as (tmax & Et & L & N).
  unfold plot_tmax in Et. rewrite R, Sv in Et.
  set (g := fun t : rtrack => (IZR (r_start t) + INR (track_size t)) * p_h m / p_fs m) in *.
  assert (M : (exists t, In t (p_tracks m) /\ tmax = g t) /\ forall t, In t (p_tracks m) -> g t <= tmax).
  { destruct (p_tracks m) as [|t0 l]; cbn [map] in Et; [discriminate|]. injection Et as <-.
    destruct (fold_max_spec (map g l) (g t0)) as (X & G & A). split.
    - destruct X as [X|I]; [exists t0; split; [left; reflexivity|exact X]|].
      apply in_map_iff in I. destruct I as (t & X & I). exists t. split; [right; exact I|auto].
    - intros t [<-|I]; [exact G|]. apply A. now apply in_map. }
  destruct M as [(t0 & I0 & E0) M]. rewrite Forall_forall in Ne.
  assert (Q : 0 < p_h m / p_fs m) by (apply Rdiv_lt_0_compat; assumption).
  split.
  - apply In_nth_error in I0. destruct I0 as [i Ei]. destruct (N i t0 Ei) as ((f & a) & Ef & S).
    cbn [shows] in S. rewrite R in S. destruct S as (_ & _ & Lx & _ & T & _).
    exists f, a. split; [eapply nth_error_In; exact Ef|].
    assert (Ln : (0 < List.length (r_freq t0))%nat).
    { pose proof (Ne t0 (nth_error_In _ _ Ei)). destruct (r_freq t0); [contradiction|cbn; lia]. }
    replace (p_h m / p_fs m) with (nth (List.length (r_freq t0) - 1) (ln_x f) 0); [apply nth_In; lia|].
    rewrite T by lia. rewrite E0. unfold g, frame_at, track_size. rewrite minus_INR by lia. cbn [INR]. unfold Rdiv. ring.
  - intros f a v If Iv. apply In_nth_error in If. destruct If as [i Ei].
    assert (Hi : (i < List.length (p_tracks m))%nat) by (rewrite <- L; apply nth_error_Some; congruence).
    destruct (nth_error (p_tracks m) i) as [t|] eqn:Et'; [|apply nth_error_None in Et'; lia].
    destruct (N i t Et') as ((f' & a') & Ef & S). rewrite Ei in Ef. injection Ef as <- <-.
    cbn [shows] in S. rewrite R in S. destruct S as (_ & _ & Lx & _ & T & _).
    apply (In_nth _ _ 0) in Iv. destruct Iv as (j & Hj & <-). rewrite T by lia.
    pose proof (M t (nth_error_In _ _ Et')) as Mt. unfold g, track_size in Mt. unfold frame_at.
    assert (J : INR j + 1 <= INR (List.length (r_freq t))) by (rewrite <- S_INR; apply le_INR; lia).
    assert (K : (IZR (r_start t) + INR j + 1) * (p_h m / p_fs m) <= (IZR (r_start t) + INR (List.length (r_freq t))) * (p_h m / p_fs m)).
    { apply Rmult_le_compat_r; lra. }
    unfold Rdiv in *. lra.
Qed.
Print Assumptions c94_unsaved_onset.

(** So storing intermediate results changes the times of the plot. *)
Theorem c94_storing_refuted : exists m n lines lines',
  sine_tracking_2d (mkPModel (p_tracks m) (p_h m) (p_fs m) true true (Some n) (p_beats m)) = Ok lines /\
  sine_tracking_2d (mkPModel (p_tracks m) (p_h m) (p_fs m) true false None (p_beats m)) = Ok lines' /\
  Forall (fun t => (0 <= r_start t)%Z /\ (r_start t + Z.of_nat (List.length (r_freq t)) <= Z.of_nat n)%Z) (p_tracks m) /\
  lines <> lines'.
Proof.
  exists (mkPModel [mkRTrack 2 [Some 440; Some 440] [Some (-10); Some (-10)] [None; None]] 1 1 true true None None), 10%nat.
  do 2 eexists. split; [reflexivity|]. split; [reflexivity|]. split.
  - repeat constructor; cbn; lia.
  - intros H. injection H as H _ _ _. cbn in H. lra.
Qed.
Print Assumptions c94_storing_refuted.

(** *** Three dimensions *)

(** The three-dimensional plot of a forward model shows the same points as the
    other one. *)
Theorem c94_3d_forward : forall m lines, p_reverse m = false -> sine_tracking_2d m = Ok lines ->
  sine_tracking_3d m = Ok (map (fun fa => (ln_x (fst fa), ln_y (fst fa), ln_y (snd fa), ln_dashed (fst fa))) lines).
Proof.
  intros m lines R. unfold sine_tracking_2d, plot_tmax. rewrite R. cbn [bind]. unfold sine_tracking_3d.
  generalize (enumerate (p_tracks m)). intros l. revert lines. induction l as [|[i t] l IH]; intros lines; cbn [mapM].
  - intros H. injection H as <-. reflexivity.
  - destruct (is_beat m i) as [b|]; cbn [bind]; [|discriminate]. unfold plot_line.
    destruct (Nat.eqb (List.length (frame_times m t)) (List.length (r_freq t))); cbn [bind]; [|discriminate].
    destruct (Nat.eqb (List.length (frame_times m t)) (List.length (r_mag t))); cbn [bind]; [|discriminate].
    match goal with |- context [mapM ?f l] => destruct (mapM f l) as [r|] eqn:Er end; cbn [bind]; [|discriminate].
    intros H. injection H as <-. rewrite (IH r Er). reflexivity.
Qed.
Print Assumptions c94_3d_forward.

(** That of a reverse model runs backwards: the times of both plots add up to the
    same total for every frame of every track. *)
Theorem c94_3d_mirrored : forall m n lines solid, p_reverse m = true -> p_save m = true -> p_stft m = Some n ->
  sine_tracking_2d m = Ok lines -> sine_tracking_3d m = Ok solid ->
  forall i t f a, nth_error (p_tracks m) i = Some t -> nth_error lines i = Some (f, a) ->
  exists x y z b, nth_error solid i = Some (x, y, z, b) /\ y = r_freq t /\ z = r_mag t /\
    List.length x = List.length (r_freq t) /\
    forall j, (j < List.length (r_freq t))%nat -> nth j x 0 + nth j (ln_x f) 0 = INR n * p_h m / p_fs m.
Proof.
  intros m n lines solid R Sv St E2 E3 i t f a Ht Hl.
  destruct (c94_reverse m n lines R Sv St E2) as [_ N]. destruct (N i t Ht) as ((f' & a') & Ef & S & _).
  rewrite Hl in Ef. injection Ef as <- <-. cbn [shows] in S. destruct S as (_ & _ & Lx & _ & T & _).
  unfold sine_tracking_3d in E3. apply mapM_ok_nth in E3. destruct E3 as [_ N3].
  destruct (N3 i (i, t)) as (p & Ep & E); [apply nth_error_enumerate; auto|]. cbv beta iota in E.
  destruct (is_beat m i) as [b|]; [|discriminate]. cbn [bind] in E. injection E as <-.
  exists (frame_times m t), (r_freq t), (r_mag t), b. split; [exact Ep|]. split; [reflexivity|]. split; [reflexivity|].
  split; [apply frame_times_length|]. intros j Hj. rewrite T, frame_times_nth by exact Hj. unfold frame_at, Rdiv. ring.
Qed.
Print Assumptions c94_3d_mirrored.

Theorem c94_3d_refuted : exists m lines solid,
  sine_tracking_2d m = Ok lines /\ sine_tracking_3d m = Ok solid /\
  map (fun fa => ln_x (fst fa)) lines <> map (fun p => fst (fst (fst p))) solid.
Proof.
  exists (mkPModel [mkRTrack 2 [Some 440; Some 440] [Some (-10); Some (-10)] [None; None]] 1 1 true true (Some 10%nat) None).
  do 2 eexists. split; [reflexivity|]. split; [reflexivity|]. intros H. cbn in H. injection H as H _. lra.
Qed.
Print Assumptions c94_3d_refuted.

(** A reverse model with two tracks, the second of which beats. *)
Definition ex_plot (save : bool) : pmodel :=
  mkPModel [mkRTrack 2 [Some 440; Some 441] [Some (-10); Some (-12)] [None; None];
            mkRTrack 4 [Some 880; None; Some 881] [Some (-20); None; Some (-21)] [None; None; None]]
    512 1024 true save (if save then Some 10%nat else None) (Some (true, Some [false; true])).
Example c94_example :
  sine_tracking_2d (ex_plot true) = Ok
    [(mkLine [10 * 512 / 1024 - (2 + 0) * 512 / 1024; 10 * 512 / 1024 - (2 + 1) * 512 / 1024] [Some 440; Some 441] false,
      mkLine [10 * 512 / 1024 - (2 + 0) * 512 / 1024; 10 * 512 / 1024 - (2 + 1) * 512 / 1024] [Some (-10); Some (-12)] false);
     (mkLine [10 * 512 / 1024 - (4 + 0) * 512 / 1024; 10 * 512 / 1024 - (4 + 1) * 512 / 1024; 10 * 512 / 1024 - (4 + 2) * 512 / 1024] [Some 880; None; Some 881] true,
      mkLine [10 * 512 / 1024 - (4 + 0) * 512 / 1024; 10 * 512 / 1024 - (4 + 1) * 512 / 1024; 10 * 512 / 1024 - (4 + 2) * 512 / 1024] [Some (-20); None; Some (-21)] true)] /\
  judged_beating (ex_plot true) 1 /\ ~ judged_beating (ex_plot true) 0 /\
  (exists lines, sine_tracking_2d (ex_plot false) = Ok lines) /\
  aligned (nth 1 (p_tracks (ex_plot true)) (mkRTrack 0 [] [] [])).
Proof.
  split; [|split; [|split; [|split]]].
  - unfold sine_tracking_2d, plot_tmax, ex_plot. cbn [p_reverse p_save p_stft p_h p_fs bind p_tracks].
    unfold enumerate, frame_times, track_size, plot_line, is_beat.
    cbn [List.length seq combine mapM map r_start r_freq r_mag p_h p_fs bind p_beats nth_error Nat.eqb p_reverse].
    change (INR 10) with (INR (9 + 1)). rewrite plus_INR. replace (INR 9 + INR 1) with 10 by (cbn; ring).
    replace (INR 0) with 0 by reflexivity. replace (INR 1) with 1 by reflexivity. replace (INR 2) with 2 by (cbn; ring).
    reflexivity.
  - exists [false; true]. split; reflexivity.
  - intros (d & E & H). injection E as <-. discriminate.
  - eexists. reflexivity.
  - split; [cbn; lia|]. split; [reflexivity|].
    intros [|[|[|i]]]; unfold has_value; cbn; split; intros (v & H); try discriminate; eauto; destruct i; discriminate.
Qed.

(** ** C95: resyntheses *)

(** The sample rate of the plot: the one given, else the highest one of the models,
    else 44.1 kHz. *)
Definition rate_of (given : option R) (rates : list R) (r : R) : Prop :=
  match given with
  | Some v => r = v
  | None => match rates with
            | [] => r = 44100
            | _ => In r rates /\ forall v, In v rates -> v <= r
            end
  end.
Lemma plot_fs_ok : forall fs models, rate_of fs (map (fun p => s_fs (snd p)) models) (plot_fs fs models).
Proof.
  intros [v|] models; cbn [rate_of plot_fs]; [reflexivity|]. destruct (map _ models) as [|v l]; [reflexivity|].
  destruct (fold_max_spec l v) as (E & G & A). split.
  - destruct E as [E|I]; [left; auto|right; exact I].
  - intros x [<-|I]; [exact G|apply A, I].
Qed.

(** The signals that are shown, with their names. *)
Definition shown_signals (x : list R) (models : list (string * smodel)) (original : bool) (name : string) (t : list R)
  : list (string * list R) :=
  (if original then [(name, x)] else []) ++ map (fun p => (fst p, s_predict (snd p) t)) models.

Lemma plot_times_length : forall n r, List.length (plot_times n r) = n.
Proof. intros. unfold plot_times. now rewrite map_length, seq_length. Qed.
Lemma plot_times_nth : forall n r i, (i < n)%nat -> nth i (plot_times n r) 0 = INR i / r.
Proof.
  intros n r i H. unfold plot_times. rewrite (nth_map_lt _ _ _ 0%nat) by (rewrite seq_length; exact H).
  now rewrite seq_nth by exact H.
Qed.
Lemma getitem_first_last : forall (l : list R), l <> [] ->
  getitem l 0 = Ok (nth 0 l 0) /\ getitem l (-1) = Ok (nth (List.length l - 1) l 0).
Proof.
  intros l H. assert (0 < List.length l)%nat by (destruct l; [contradiction|cbn; lia]).
  assert (G : forall k, (k < List.length l)%nat -> nth_error l k = Some (nth k l 0)).
  { intros. apply nth_error_nth'. exact H1. }
  unfold getitem, zlen. split.
  - cbn [Z.ltb Z.compare]. destruct (Z.leb_spec 0 0); [|lia].
    destruct (Z.ltb_spec 0 (Z.of_nat (List.length l))); [|lia]. cbn [andb Z.to_nat]. now rewrite G by lia.
  - destruct (Z.ltb_spec (-1) 0); [|lia]. destruct (Z.leb_spec 0 (-1 + Z.of_nat (List.length l))); [|lia].
    destruct (Z.ltb_spec (-1 + Z.of_nat (List.length l)) (Z.of_nat (List.length l))); [|lia]. cbn [andb].
    replace (Z.to_nat (-1 + Z.of_nat (List.length l))) with (List.length l - 1)%nat by lia. now rewrite G by lia.
Qed.

(** Every panel shows one of the signals, in order: the original (if wanted), then
    the signal that each model predicts at the times of the samples of the original.
    All have the time axis of the original, and the waves are drawn against it. *)
Theorem c95_resynthesis : forall x models fs original name axs t wavs panels,
  resynthesis x models fs original name axs = Ok (t, wavs, panels) ->
  exists rate, rate_of fs (map (fun p => s_fs (snd p)) models) rate /\
    List.length t = List.length x /\ (forall i, (i < List.length x)%nat -> nth i t 0 = INR i / rate) /\
    wavs = shown_signals x models original name t /\
    List.length panels = List.length wavs /\
    forall i k y, nth_error wavs i = Some (k, y) ->
      List.length y = List.length x /\
      nth_error panels i = Some (mkPanel (i + 1) k (0, INR (List.length x - 1) / rate) y).
Proof.
  intros x models fs original name axs t wavs panels E. exists (plot_fs fs models). split; [apply plot_fs_ok|].
  unfold resynthesis in E. match type of E with bind ?r _ = _ => destruct r as [n_axs|]; [|discriminate] end.
  cbn [bind] in E. destruct (n_axs <? 2)%nat; [discriminate|]. cbn [bind] in E.
  set (tt' := plot_times (List.length x) (plot_fs fs models)) in E.
  match type of E with bind ?r _ = _ => destruct r as [ps|] eqn:Ep; [|discriminate] end.
  cbn [bind] in E. injection E as <- <- <-. unfold tt'. split; [apply plot_times_length|].
  split; [intros i Hi; now apply plot_times_nth|]. split; [reflexivity|].
  apply mapM_ok_nth in Ep. destruct Ep as [L N]. rewrite enumerate_length in L. split; [exact L|].
  intros i k y Hi. destruct (N i (i, (k, y))) as (p & E1 & E2); [apply nth_error_enumerate; auto|].
  cbv beta iota in E2. destruct (Nat.eqb_spec (List.length tt') (List.length y)) as [Ly|]; [|discriminate].
  cbn [bind] in E2. unfold tt' in Ly. rewrite plot_times_length in Ly. split; [auto|].
  assert (Ne : tt' <> []).
  { intros Z. rewrite Z in E2. discriminate. }
  destruct (getitem_first_last tt' Ne) as [G1 G2]. rewrite G1, G2 in E2. cbn [bind] in E2.
  destruct (i + 1 <? n_axs)%nat; [|discriminate]. injection E2 as <-. rewrite E1. f_equal. f_equal. unfold tt'.
  rewrite plot_times_length.
  assert (0 < List.length x)%nat.
  { destruct x; [|cbn; lia]. unfold tt' in Ne. now contradiction Ne. }
  rewrite !plot_times_nth by lia. f_equal. cbn [INR]. unfold Rdiv. ring.
Qed.
Print Assumptions c95_resynthesis.

(** The plot succeeds exactly if every prediction has as many samples as there are
    times, the original has samples, and there are axes for the waves and for every
    signal: at least two if given, and if not, at least one signal. *)
Theorem c95_succeeds : forall x models fs original name axs,
  let t := map (fun i => INR i / plot_fs fs models) (seq 0 (List.length x)) in
  let signals := shown_signals x models original name t in
  (exists r, resynthesis x models fs original name axs = Ok r) <->
  match axs with
  | Some k => (2 <= k)%nat /\ (List.length signals < k)%nat
  | None => signals <> []
  end /\
  (signals <> [] -> x <> []) /\
  Forall (fun ky => List.length (snd ky) = List.length x) signals.
Proof.
  intros x models fs original name axs t signals. unfold resynthesis. fold (plot_times (List.length x) (plot_fs fs models)) in t.
  fold t. fold (shown_signals x models original name t). fold signals.
  assert (Ls : (List.length models + (if original then 1 else 0) = List.length signals)%nat).
  { unfold signals, shown_signals. rewrite app_length, map_length. destruct original; cbn; lia. }
  rewrite Ls.
  assert (Lt : List.length t = List.length x) by apply plot_times_length.
  assert (Body : forall n_axs, (2 <= n_axs)%nat ->
    (exists r, mapM (fun iw : nat * (string * list R) => let '(i, (k, y)) := iw in
       do _ <- (if Nat.eqb (List.length t) (List.length y) then Ok tt else Err ValueError);
       do lo <- getitem t 0; do hi <- getitem t (-1);
       if (i + 1 <? n_axs)%nat then Ok (mkPanel (i + 1) k (lo, hi) y) else Err IndexError) (enumerate signals) = Ok r) <->
    (List.length signals < n_axs)%nat /\ (signals <> [] -> x <> []) /\
    Forall (fun ky => List.length (snd ky) = List.length x) signals).
  { intros n_axs H2. rewrite mapM_ok_iff. split.
    - intros H. assert (G : forall i k y, nth_error signals i = Some (k, y) ->
        List.length y = List.length x /\ x <> [] /\ (i + 1 < n_axs)%nat).
      { intros i k y Hi. destruct (H (i, (k, y))) as [p E].
        { eapply nth_error_In with (n := i). apply nth_error_enumerate; auto. }
        cbv beta iota in E. destruct (Nat.eqb_spec (List.length t) (List.length y)); [|discriminate]. cbn [bind] in E.
        split; [lia|]. split.
        - intros ->. destruct t; [discriminate|cbn in Lt; lia].
        - destruct (getitem t 0); [|discriminate]. cbn [bind] in E. destruct (getitem t (-1)); [|discriminate].
          cbn [bind] in E. destruct (Nat.ltb_spec (i + 1) n_axs); [assumption|discriminate]. }
      split; [|split].
      + destruct signals as [|s0 l] eqn:Es; [cbn; lia|].
        destruct (nth_error (s0 :: l) (List.length l)) as [[k y]|] eqn:En.
        * destruct (G _ _ _ En) as (_ & _ & B). cbn; lia.
        * apply nth_error_None in En. cbn in En; lia.
      + destruct signals as [|[k y] l]; [contradiction|]. intros _. destruct (G 0%nat k y eq_refl) as (_ & X & _). exact X.
      + apply Forall_forall. intros [k y] I. apply In_nth_error in I. destruct I as [i Hi]. exact (proj1 (G i k y Hi)).
    - intros (L & X & F) [i [k y]] I. apply In_nth_error in I. destruct I as [i' Hi].
      apply nth_error_enumerate in Hi. destruct Hi as [-> Hi]. cbv beta iota.
      rewrite Forall_forall in F. pose proof (F _ (nth_error_In _ _ Hi)) as Fy. cbn [snd] in Fy.
      rewrite Fy, Lt, Nat.eqb_refl. cbn [bind].
      assert (Ne : t <> []).
      { intros Z. apply X; [intros Z'; rewrite Z' in Hi; destruct i'; discriminate|]. rewrite Z in Lt. destruct x; [reflexivity|discriminate]. }
      destruct (getitem_first_last t Ne) as [-> ->]. cbn [bind].
      assert (i' < List.length signals)%nat by (apply nth_error_Some; congruence).
      destruct (Nat.ltb_spec (i' + 1) n_axs); [eauto|lia]. }
  assert (Rest : forall n_axs,
    (exists r, (do _ <- (if (n_axs <? 2)%nat then Err IndexError else Ok tt);
      do panels <- mapM (fun iw : nat * (string * list R) => let '(i, (k, y)) := iw in
       do _ <- (if Nat.eqb (List.length t) (List.length y) then Ok tt else Err ValueError);
       do lo <- getitem t 0; do hi <- getitem t (-1);
       if (i + 1 <? n_axs)%nat then Ok (mkPanel (i + 1) k (lo, hi) y) else Err IndexError) (enumerate signals);
      Ok (t, signals, panels)) = Ok r) <->
    ((2 <= n_axs)%nat /\ (List.length signals < n_axs)%nat) /\ (signals <> [] -> x <> []) /\
    Forall (fun ky => List.length (snd ky) = List.length x) signals).
  { intros n_axs. destruct (Nat.ltb_spec n_axs 2); cbn [bind].
    - split; [intros [r E]; discriminate|intros [[A _] _]; lia].
    - split.
      + intros [r E]. match type of E with bind ?q _ = _ => destruct q as [ps|] eqn:Ep; [|discriminate] end.
        destruct (proj1 (Body n_axs H) (ex_intro _ ps Ep)) as (A & B & C). tauto.
      + intros P. destruct (proj2 (Body n_axs H)) as [ps Ep]; [tauto|]. rewrite Ep. cbn [bind]. eauto. }
  destruct axs as [k|]; cbn [bind]; [apply Rest|].
  destruct (Nat.eqb_spec (List.length signals) 0) as [Z|Z]; cbn [bind].
  - split; [intros [r E]; discriminate|]. intros [Ne _]. destruct signals; [contradiction|discriminate].
  - rewrite Rest. assert (signals <> []) by (intros E; rewrite E in Z; now apply Z).
    split; [tauto|]. intros (_ & B & C). split; [|auto]. split; lia.
Qed.
Print Assumptions c95_succeeds.

(** *** Labels and players *)

Lemma append_assoc : forall a b c : string, ((a ++ b) ++ c = a ++ (b ++ c))%string.
Proof. induction a as [|x a IH]; intros b c; [reflexivity|]. cbn [String.append]. now rewrite IH. Qed.

(** A text that reads as an integer. *)
Definition reads (s : string) (z : Z) : Prop :=
  option_map Z.of_int (DecimalString.NilZero.int_of_string s) = Some z.

Lemma str_int_reads : forall z, reads (str_int z) z.
Proof.
  intros z. unfold reads, str_int. rewrite DecimalString.NilZero.isi.
  - cbn [option_map]. now rewrite DecimalZ.of_to.
  - destruct z as [|p|p]; cbn; try discriminate. pose proof (DecimalPos.Unsigned.to_uint_nonnil p). congruence.
  - destruct z as [|p|p]; cbn; try discriminate. pose proof (DecimalPos.Unsigned.to_uint_nonnil p). congruence.
Qed.

(** For every panel a heading is displayed with its number (counted from one) and
    its title, if it has one, followed by a player of the signal: as it is if
    players are to normalise, and clipped to -1 and 1 if they are not.  Nothing is
    displayed for no arguments. *)
Theorem c95_label_and_play : forall normalize,
  (forall i k y, k <> ""%string -> exists n y', reads n (i + 1) /\
    lp_call normalize (Some i) (Some k) (Some y) = Some [Html ("<h1>" ++ n ++ " - " ++ k ++ "</h1>"); Audio y'] /\
    List.length y' = List.length y /\
    forall j, (j < List.length y)%nat ->
      (normalize = Some true -> nth j y' 0 = nth j y 0) /\
      (normalize <> Some true ->
        -1 <= nth j y' 0 <= 1 /\
        (-1 <= nth j y 0 <= 1 -> nth j y' 0 = nth j y 0) /\
        (nth j y 0 < -1 -> nth j y' 0 = -1) /\ (1 < nth j y 0 -> nth j y' 0 = 1))) /\
  (forall i k, k = None \/ k = Some ""%string -> exists n, reads n (i + 1) /\
    lp_call normalize (Some i) k None = Some [Html ("<h1>" ++ n ++ "</h1>")]) /\
  (forall k, lp_call normalize None (Some k) None = Some [Html ("<h1>" ++ k ++ "</h1>")]) /\
  lp_call normalize None None None = None.
Proof.
  intros normalize. split; [|split; [|split]].
  - intros i k y Hk. exists (str_int (i + 1)), (match normalize with Some true => y | _ => map clip1 y end).
    split; [apply str_int_reads|]. split; [|split].
    + unfold lp_call, lp_label, lp_audio. apply String.eqb_neq in Hk. rewrite Hk. cbn [option_map flat_map app].
      do 3 f_equal. f_equal. cbn [String.append]. now rewrite !append_assoc.
    + destruct normalize as [[]|]; try apply map_length. reflexivity.
    + intros j Hj. assert (C : forall v, -1 <= clip1 v <= 1 /\ (-1 <= v <= 1 -> clip1 v = v) /\ (v < -1 -> clip1 v = -1) /\ (1 < v -> clip1 v = 1)).
      { intros v. unfold clip1, Rmin, Rmax. destruct (Rle_dec v (-1)); destruct (Rle_dec _ 1); lra. }
      destruct normalize as [[]|]; (split; [intros N; try discriminate; reflexivity|]); intros N;
        [now contradiction N| |]; rewrite (nth_map_lt _ _ _ 0) by exact Hj; apply C.
  - intros i k Hk. exists (str_int (i + 1)). split; [apply str_int_reads|].
    destruct Hk as [->| ->]; reflexivity.
  - reflexivity.
  - reflexivity.
Qed.
Print Assumptions c95_label_and_play.

(** *** Comparison of beat regressions *)

(** Two regressions or more: each has its own column (its own row if transposed), in
    which amplitudes, levels and frequencies are one below (beside) the other. *)
Theorem c95_comparison : forall n transpose, (2 <= n)%nat ->
  exists cells, comparison_cells n transpose = Ok cells /\ List.length cells = n /\
  forall i, (i < n)%nat -> nth_error cells i =
    Some (if transpose then ((i, 0), (i, 1), (i, 2)) else ((0, i), (1, i), (2, i)))%nat.
Proof.
  intros n transpose Hn. unfold comparison_cells, comparison_axes.
  assert (Row' : forall A (f : nat -> A) k i, (i < k)%nat -> nth_error (map f (seq 0 k)) i = Some (f i)).
  { intros A f k i H. rewrite nth_error_map, nth_error_seq by exact H. reflexivity. }
  assert (G : forall a, (forall r i, (r < 3)%nat -> (i < n)%nat ->
      axes_get a r i = Ok (if transpose then (i, r) else (r, i))%nat) ->
    exists cells, mapM (fun i => do p0 <- axes_get a 0 i; do p1 <- axes_get a 1 i; do p2 <- axes_get a 2 i; Ok (p0, p1, p2)) (seq 0 n) = Ok cells /\
      List.length cells = n /\ forall i, (i < n)%nat -> nth_error cells i =
      Some (if transpose then ((i, 0), (i, 1), (i, 2)) else ((0, i), (1, i), (2, i)))%nat).
  { intros a Ha.
    destruct (proj2 (mapM_ok_iff _ _ (fun i => do p0 <- axes_get a 0 i; do p1 <- axes_get a 1 i; do p2 <- axes_get a 2 i; Ok (p0, p1, p2)) (seq 0 n))) as [cells E].
    { intros i I. apply in_seq in I. rewrite !Ha by lia. cbn [bind]. eauto. }
    exists cells. split; [exact E|]. apply mapM_ok_nth in E. destruct E as [L N]. rewrite seq_length in L.
    split; [exact L|]. intros i Hi. destruct (N i i) as (c & E1 & E2); [now rewrite nth_error_seq|].
    rewrite !Ha in E2 by lia. cbn [bind] in E2. injection E2 as <-. rewrite E1. destruct transpose; reflexivity. }
  destruct transpose.
  - unfold subplots. destruct n as [|[|n]]; [lia|lia|]. cbn [Nat.eqb orb bind]. apply G. intros r i Hr Hi.
    unfold axes_t. cbv beta iota. set (g := map (fun i : nat => map (fun j : nat => (i, j)) (seq 0 3)) (seq 0 (S (S n)))).
    assert (Lh : List.length (hd [] g) = 3%nat) by reflexivity. rewrite Lh. cbn [axes_get].
    rewrite Row' by exact Hr. unfold g. rewrite map_map, Row' by exact Hi.
    destruct r as [|[|[|r]]]; try reflexivity. lia.
  - unfold subplots. destruct n as [|[|n]]; [lia|lia|]. cbn [Nat.eqb orb bind]. apply G. intros r i Hr Hi.
    cbn [axes_get]. rewrite Row' by exact Hr. rewrite Row' by exact Hi. reflexivity.
Qed.
Print Assumptions c95_comparison.

(** A single regression cannot be shown: the axes are squeezed to one dimension.  No
    regressions make no figure. *)
Theorem c95_single_refuted : exists n, (1 <= n)%nat /\ forall transpose, comparison_cells n transpose = Err TypeError.
Proof. exists 1%nat. split; [lia|]. intros []; reflexivity. Qed.
Print Assumptions c95_single_refuted.
Theorem c95_none : forall transpose, comparison_cells 0 transpose = Err ValueError.
Proof. intros []; reflexivity. Qed.
Print Assumptions c95_none.

(** Transposed, the axes with the label of times are those at the bottom of the
    figure; not transposed, they are those at the right of it. *)
Theorem c95_time_axes : forall n, (2 <= n)%nat ->
  comparison_time_axes n true = Ok [(n - 1, 0); (n - 1, 1); (n - 1, 2)]%nat /\
  comparison_time_axes n false = Ok [(0, n - 1); (1, n - 1); (2, n - 1)]%nat.
Proof.
  intros n Hn.
  assert (Lst : forall A (f : nat -> A), getitem (map f (seq 0 n)) (-1) = Ok (f (n - 1)%nat)).
  { intros A f. unfold getitem, zlen. rewrite map_length, seq_length. destruct (Z.ltb_spec (-1) 0); [|lia].
    destruct (Z.leb_spec 0 (-1 + Z.of_nat n)); [|lia]. destruct (Z.ltb_spec (-1 + Z.of_nat n) (Z.of_nat n)); [|lia].
    cbn [andb]. replace (Z.to_nat (-1 + Z.of_nat n)) with (n - 1)%nat by lia.
    rewrite nth_error_map, nth_error_seq by lia. reflexivity. }
  unfold comparison_time_axes, comparison_axes, subplots. destruct n as [|[|n]]; [lia|lia|]. cbn [Nat.eqb orb bind]. split.
  - unfold axes_t. cbv beta iota. set (g := map (fun i : nat => map (fun j : nat => (i, j)) (seq 0 3)) (seq 0 (S (S n)))).
    assert (Lh : List.length (hd [] g) = 3%nat) by reflexivity. rewrite Lh. cbn [seq map mapM]. unfold g.
    rewrite !map_map. rewrite !Lst. reflexivity.
  - cbn [seq map mapM].
    assert (X : forall r : nat, ((r, 0%nat) :: (r, 1%nat) :: map (fun j : nat => (r, j)) (seq 2 n)) = map (fun j : nat => (r, j)) (seq 0 (S (S n)))) by reflexivity.
    rewrite !X, !Lst. reflexivity.
Qed.
Print Assumptions c95_time_axes.
Theorem c95_time_axes_refuted : exists n axes, comparison_time_axes n false = Ok axes /\
  ~ (forall c, (c < n)%nat -> In (2, c)%nat axes).
Proof.
  exists 2%nat, [(0, 1); (1, 1); (2, 1)]%nat. split; [reflexivity|]. intros H.
  destruct (H 0%nat ltac:(lia)) as [E|[E|[E|[]]]]; discriminate.
Qed.
Print Assumptions c95_time_axes_refuted.

(** The envelope is read at the multiples of the factor for which the whole
    stretch of that many samples lies in the signal: so inside the signal, and in
    order. *)
Theorem c95_envelope : forall size k, (0 < k)%Z ->
  (forall v, In v (envelope_samples size (Some k)) <-> (0 <= v)%Z /\ (v mod k = 0)%Z /\ (v + k <= Z.of_nat size)%Z) /\
  StronglySorted Z.lt (envelope_samples size (Some k)) /\
  envelope_samples size None = envelope_samples size (Some 1%Z).
Proof.
  intros size k Hk. cbn [envelope_samples]. pose proof (Z.div_mod (Z.of_nat size) k ltac:(lia)) as D.
  pose proof (Z.mod_pos_bound (Z.of_nat size) k Hk) as B. pose proof (Z.div_pos (Z.of_nat size) k ltac:(lia) Hk) as Q.
  set (q := (Z.of_nat size / k)%Z) in *. split; [|split].
  - intros v. rewrite in_map_iff. split.
    + intros (i & <- & I). apply in_seq in I. split; [nia|]. split; [apply Z.mod_mul; lia|]. nia.
    + intros (P & M & U). apply Z.mod_divide in M; [|lia]. destruct M as [c ->]. exists (Z.to_nat c).
      assert (0 <= c)%Z by nia. split; [rewrite Z2Nat.id by lia; reflexivity|]. apply in_seq.
      assert (c < q)%Z by nia. lia.
  - generalize 0%nat as s. induction (Z.to_nat q) as [|n IH]; intros s; cbn [seq map]; constructor; [apply IH|].
    apply Forall_forall. intros v I. apply in_map_iff in I. destruct I as (i & <- & I). apply in_seq in I. nia.
  - rewrite Z.div_1_r, Nat2Z.id. apply map_ext. intros i. lia.
Qed.
Print Assumptions c95_envelope.

(** Levels are shown exactly where they are above -60 dB. *)
Theorem c95_levels : forall a d, 0 < a ->
  (level_or_nan a = Some d <-> a = Rpower 10 (d / 20) /\ -60 < d).
Proof.
  intros a d Ha. unfold level_or_nan, db2a, a2db, log10. pose proof ln10_pos as L10.
  assert (Inv : forall b, 0 < b -> b = Rpower 10 (20 * (ln b / ln 10) / 20)).
  { intros b Hb. unfold Rpower. replace (20 * (ln b / ln 10) / 20 * ln 10) with (ln b) by (field; lra). now rewrite exp_ln. }
  assert (Lt : forall u v, Rpower 10 (u / 20) < Rpower 10 (v / 20) <-> u < v).
  { intros u v. unfold Rpower. split; intros H.
    - apply exp_lt_inv in H. apply Rmult_lt_reg_r in H; [|exact L10]. lra.
    - apply exp_increasing. apply Rmult_lt_compat_r; [exact L10|lra]. }
  destruct (Rle_dec a (Rpower 10 (-60 / 20))) as [LE|GT].
  - split; [discriminate|]. intros [-> H]. apply Lt in H. lra.
  - split.
    + intros E. injection E as <-. split; [now apply Inv|]. apply Lt. rewrite <- Inv by exact Ha. lra.
    + intros [E _]. f_equal. rewrite E. unfold Rpower. rewrite ln_exp. field. lra.
Qed.
Print Assumptions c95_levels.

(** Two models of different rates, the predictions of which are constant. *)
Definition ex_smodel (fs c : R) : smodel := mkSModel fs (fun t => map (fun _ => c) t).
Example c95_example :
  resynthesis [1; 2; 3] [("A", ex_smodel 22050 5); ("B", ex_smodel 48000 7)]%string None true "x" None = Ok
    (map (fun i => INR i / 48000) [0; 1; 2]%nat,
     [("x", [1; 2; 3]); ("A", [5; 5; 5]); ("B", [7; 7; 7])]%string,
     [mkPanel 1 "x" (0 / 48000, INR 2 / 48000) [1; 2; 3];
      mkPanel 2 "A" (0 / 48000, INR 2 / 48000) [5; 5; 5];
      mkPanel 3 "B" (0 / 48000, INR 2 / 48000) [7; 7; 7]]) /\
  (exists w, lp_call None (Some 8%Z) (Some "B"%string) (Some [2]) = Some [Html "<h1>9 - B</h1>"; w]) /\
  envelope_samples 10 (Some 4%Z) = [0; 4]%Z.
Proof.
  split; [|split; [eexists; reflexivity|reflexivity]].
  unfold resynthesis, plot_fs. cbn [map snd s_fs ex_smodel fold_left].
  rewrite Rmax_right by lra. reflexivity.
Qed.
