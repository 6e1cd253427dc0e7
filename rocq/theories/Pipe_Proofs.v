(** Lemmas about the whole analysis. *)
From Coquelicot Require Import Coquelicot.
From Coq Require Import String List Bool ZArith Reals Lra Lia Permutation Sorted.
Import ListNotations.
From Verif Require Import Base Py PyLemmas ListLemmas RLists Stft_Model Stft_Proofs Dft_Model Dft_Proofs Tracker_Model Tracker_Step
  Tracker_Proofs Dsp_Model Sample_Model Sample_Spec Sample_Proofs Bank_Model Beat_Model Pipe_Model Pipe_Spec.
Local Open Scope R_scope.

Lemma Rltb_true : forall x y, Rltb x y = true <-> x < y.
Proof. intros x y. unfold Rltb. destruct (Rlt_dec x y); split; intros; auto; try discriminate; lra. Qed.
Lemma Rltb_false : forall x y, Rltb x y = false <-> y <= x.
Proof. intros x y. unfold Rltb. destruct (Rlt_dec x y); split; intros; auto; try discriminate; lra. Qed.

(** ** Frames *)

Lemma frame_length : forall w h i x, List.length (frame_of w h i x) = w.
Proof. intros. unfold frame_of. now rewrite map_length, seq_length. Qed.
Lemma frame_nth : forall w h i x j, (j < w)%nat -> nth j (frame_of w h i x) 0 = nth (i * h + j) x 0.
Proof.
  intros. unfold frame_of. rewrite (nth_map_lt _ _ _ 0%nat) by (rewrite seq_length; lia). now rewrite seq_nth by lia.
Qed.

Lemma cell_nth : forall (x : list R) z, (0 <= z)%Z -> cell_value (cell x z) = nth (Z.to_nat z) x 0.
Proof.
  intros x z H. unfold cell. destruct (Z.ltb_spec z 0); [lia|]. unfold cell_value.
  destruct (nth_error x (Z.to_nat z)) eqn:E.
  - symmetry. apply nth_error_nth. exact E.
  - apply nth_error_None in E. now rewrite nth_overflow.
Qed.

Lemma frames_ok : forall w h x, (1 <= w)%nat -> (1 <= h)%nat -> (w <= List.length x)%nat ->
  rtime_frames false (Z.of_nat w) (Z.of_nat h) x = Ok (map (fun i => frame_of w h i x) (seq 0 (frame_count w h x))).
Proof.
  intros w h x Hw Hh Hx. unfold rtime_frames, rpad_input. cbn [negb bind]. unfold overlapping_windows, n_windows.
  destruct (Z.eqb_spec (Z.of_nat h) 0) as [|_]; [lia|]. cbn [bind].
  assert (EN : (1 + (zlen x - Z.of_nat w) / Z.of_nat h)%Z = Z.of_nat (frame_count w h x)).
  { unfold frame_count. destruct (Nat.ltb_spec (List.length x) w); [lia|]. unfold zlen.
    rewrite <- Nat2Z.inj_sub by lia. rewrite Nat2Z.inj_succ, Nat2Z.inj_div. lia. }
  rewrite EN. destruct (Z.ltb_spec (Z.of_nat (frame_count w h x)) 0); [lia|].
  destruct (Z.ltb_spec (Z.of_nat w) 0); [lia|]. cbn [orb bind]. f_equal. rewrite map_map. unfold zrange at 2.
  rewrite Nat2Z.id, map_map. apply map_ext. intros i. unfold frame_of, zrange. rewrite Nat2Z.id, !map_map.
  apply map_ext. intros j. rewrite cell_nth by lia. f_equal. lia.
Qed.

Lemma frame_count_bound : forall w h x i, (1 <= h)%nat -> (i < frame_count w h x)%nat -> (i * h + w <= List.length x)%nat.
Proof.
  intros w h x i Hh H. unfold frame_count in H. destruct (Nat.ltb_spec (List.length x) w); [lia|].
  pose proof (Nat.div_mod (List.length x - w) h ltac:(lia)) as D.
  assert (i <= (List.length x - w) / h)%nat by lia. nia.
Qed.

Lemma frames_scaled : forall w h x c i, scaled_by_hop h c x -> (1 <= h)%nat -> (i < frame_count w h x)%nat ->
  frame_of w h i x = map (Rmult (c ^ i)) (frame_of w h 0 x).
Proof.
  intros w h x c i Hs Hh Hi. unfold frame_of. rewrite map_map. apply map_ext_in. intros j Hj. apply in_seq in Hj.
  assert (B := frame_count_bound w h x i Hh Hi). clear Hi. cbn [Nat.mul Nat.add].
  induction i as [|i IH]; [cbn; lra|].
  replace (S i * h + j)%nat with ((i * h + j) + h)%nat by lia. rewrite Hs by lia. rewrite IH by lia.
  cbn [pow]. ring.
Qed.

(** ** Spectra *)

Lemma normalized_nth : forall w i, (i < List.length w)%nat -> nth i (normalized_window w) 0 = nth i w 0 / rsum w.
Proof. intros w i H. unfold normalized_window. now rewrite (nth_map_lt _ _ _ 0) by lia. Qed.
Lemma normalized_length : forall w, List.length (normalized_window w) = List.length w.
Proof. intros. unfold normalized_window. apply map_length. Qed.
Lemma windowed_nth : forall x w i, (i < List.length x)%nat -> (i < List.length w)%nat ->
  nth i (windowed x w) 0 = nth i x 0 * nth i w 0.
Proof.
  intros x w i Hx Hw. unfold windowed. rewrite (nth_map_lt _ _ _ (0, 0)) by (rewrite combine_length; lia).
  revert w i Hx Hw. induction x as [|a x IH]; intros [|b w] i Hx Hw; simpl in *; try lia.
  destruct i; [reflexivity|]. apply IH; lia.
Qed.

Lemma dft_level : forall w x n, (2 <= zlen w)%Z -> (zlen w <= n)%Z -> List.length x = List.length w ->
  (forall k, (0 <= k <= n / 2)%Z -> float_eps <= magnitude w x n k) ->
  dft_mag x (normalized_window w) n = Ok (map (level w x n) (zrange (n / 2 + 1))).
Proof.
  intros w x n H2 Hn Lx Hf. unfold dft_mag.
  assert (LW : List.length (windowed x (normalized_window w)) = List.length w).
  { unfold windowed. rewrite map_length, combine_length, normalized_length. lia. }
  assert (ZW : zlen (windowed x (normalized_window w)) = zlen w) by (unfold zlen; now rewrite LW).
  destruct (centred_bins (windowed x (normalized_window w)) n 0 ltac:(lia) ltac:(lia)) as (buf & E & _).
  rewrite E. cbn [bind]. f_equal. apply map_ext_in. intros k Hk.
  destruct (centred_bins (windowed x (normalized_window w)) n k ltac:(lia) ltac:(lia)) as (buf' & E' & ER & EI).
  rewrite E in E'. injection E' as <-. rewrite ER, EI, LW, ZW.
  assert (Q : forall g : R -> R, rsum (map (fun i => nth i (windowed x (normalized_window w)) 0 *
      g (2 * PI * IZR k * IZR (Z.of_nat i - zlen w / 2) / IZR n)) (seq 0 (List.length w))) =
    rsum (map (fun i => nth i x 0 * (nth i w 0 / rsum w) *
                        g (2 * PI * IZR k * IZR (Z.of_nat i - zlen w / 2) / IZR n)) (seq 0 (List.length w)))).
  { intros g. apply rsum_map_ext. intros i Hi. apply in_seq in Hi.
    rewrite windowed_nth by (rewrite ?normalized_length; lia). now rewrite normalized_nth by lia. }
  rewrite (Q cos), (Q sin). fold (bin_re w x n k) (bin_im w x n k).
  unfold bin_db, level. do 3 f_equal.
  assert (B : bin_abs (bin_re w x n k) (bin_im w x n k) = magnitude w x n k).
  { unfold bin_abs, magnitude. f_equal. ring. }
  rewrite B. apply Rmax_left. apply Hf.
  unfold zrange in Hk. apply in_map_iff in Hk. destruct Hk as (j & <- & Hj). apply in_seq in Hj.
  pose proof (Z.div_pos n 2). lia.
Qed.

Lemma magnitude_scaled : forall w x n k c, 0 <= c -> magnitude w (map (Rmult c) x) n k = c * magnitude w x n k.
Proof.
  intros w x n k c Hc. unfold magnitude.
  assert (S : forall i, nth i (map (Rmult c) x) 0 = c * nth i x 0).
  { intros i. replace 0 with (c * 0) at 1 by ring. apply map_nth. }
  assert (ER : bin_re w (map (Rmult c) x) n k = c * bin_re w x n k).
  { unfold bin_re. rewrite <- rsum_map_scale. apply rsum_map_ext. intros i _. rewrite S. ring. }
  assert (EI : bin_im w (map (Rmult c) x) n k = c * bin_im w x n k).
  { unfold bin_im. rewrite Ropp_mult_distr_r_reverse. f_equal. rewrite <- rsum_map_scale. apply rsum_map_ext.
    intros i _. rewrite S. ring. }
  rewrite ER, EI. replace ((c * bin_re w x n k) ^ 2 + (c * bin_im w x n k) ^ 2)
    with (c ^ 2 * (bin_re w x n k ^ 2 + bin_im w x n k ^ 2)) by ring.
  rewrite sqrt_mult_alt by nra. f_equal. rewrite <- Rsqr_pow2. apply sqrt_Rsqr. exact Hc.
Qed.
Lemma level_scaled : forall w x n k c, 0 < c -> 0 < magnitude w x n k ->
  level w (map (Rmult c) x) n k = level w x n k + 20 * (ln c / ln 10).
Proof.
  intros w x n k c Hc Hm. unfold level. rewrite magnitude_scaled by lra. rewrite ln_mult by auto.
  field. pose proof ln10_pos. lra.
Qed.

(** ** Peaks *)

Lemma rpeak_conds : forall x t, exists conds,
  List.length conds = (List.length x - 2)%nat /\
  rpeak_detect x t = map (fun i => Z.of_nat i + 1)%Z
      (filter (fun i => nth i conds false) (seq 0 (List.length conds))) /\
  forall i, (i < List.length conds)%nat ->
    (nth i conds false = true <->
     (nth (2 + i) x 0 < nth (1 + i) x 0) /\ (nth i x 0 < nth (1 + i) x 0) /\
     match t with None => True | Some t => t < nth (1 + i) x 0 end).
Proof.
  intros x t. unfold rpeak_detect.
  set (c := slice (Some 1%Z) (Some (-1)%Z) x).
  set (nx := slice (Some 2%Z) None x).
  set (pv := slice None (Some (-2)%Z) x).
  assert (Lx : zlen x = Z.of_nat (List.length x)) by reflexivity.
  assert (Lc : List.length c = (List.length x - 2)%nat).
  { unfold c. rewrite slice_length. unfold hi_bound, lo_bound, slice_bound. rewrite Lx.
    change (-1 <? 0)%Z with true. change (1 <? 0)%Z with false. cbv iota. lia. }
  assert (Ln : List.length nx = (List.length x - 2)%nat).
  { unfold nx. rewrite slice_length. unfold hi_bound, lo_bound, slice_bound. rewrite Lx.
    change (2 <? 0)%Z with false. cbv iota. lia. }
  assert (Lp : List.length pv = (List.length x - 2)%nat).
  { unfold pv. rewrite slice_length. unfold hi_bound, lo_bound, slice_bound. rewrite Lx.
    change (-2 <? 0)%Z with true. cbv iota. lia. }
  assert (Nc : forall i, (i < List.length x - 2)%nat -> nth i c 0 = nth (1 + i) x 0).
  { intros. unfold c. rewrite slice_nth by (fold c; lia). f_equal.
    unfold lo_bound. rewrite slice_bound_pos by lia. reflexivity. }
  assert (Nn : forall i, (i < List.length x - 2)%nat -> nth i nx 0 = nth (2 + i) x 0).
  { intros. unfold nx. rewrite slice_nth by (fold nx; lia). f_equal.
    unfold lo_bound. rewrite slice_bound_pos by lia. reflexivity. }
  assert (Np : forall i, (i < List.length x - 2)%nat -> nth i pv 0 = nth i x 0).
  { intros. unfold pv. rewrite slice_nth by (fold pv; lia). reflexivity. }
  clearbody c nx pv.
  set (g := fun p : R * R => Rltb (snd p) (fst p)).
  set (b := fun p : bool * bool => fst p && snd p).
  set (c2 := map b (combine (map g (combine c nx)) (map g (combine c pv)))).
  assert (L2 : List.length c2 = (List.length x - 2)%nat).
  { unfold c2. rewrite map_length, combine_length, !map_length, !combine_length. lia. }
  assert (V2 : forall i, (i < List.length c2)%nat ->
     (nth i c2 false = true <-> (nth (2 + i) x 0 < nth (1 + i) x 0) /\ (nth i x 0 < nth (1 + i) x 0))).
  { intros i Hi. rewrite L2 in Hi. unfold c2.
    rewrite (nth_map_lt _ _ _ (false, false))
      by (rewrite combine_length, !map_length, !combine_length; lia).
    rewrite nth_combine by (rewrite map_length, combine_length; lia).
    rewrite !(nth_map_lt _ _ g (0, 0)) by (rewrite combine_length; lia).
    rewrite !nth_combine by lia. unfold b, g. cbn [fst snd].
    rewrite andb_true_iff, !Rltb_true, Nc, Nn, Np by lia. tauto. }
  destruct t as [t|].
  - exists (map b (combine c2 (map (fun v => Rltb t v) c))).
    assert (L3 : List.length (map b (combine c2 (map (fun v => Rltb t v) c))) = (List.length x - 2)%nat).
    { rewrite map_length, combine_length, map_length. lia. }
    split; [exact L3|]. split; [reflexivity|]. intros i Hi. rewrite L3 in Hi.
    rewrite (nth_map_lt _ _ _ (false, false)) by (rewrite combine_length, !map_length; lia).
    rewrite nth_combine by (rewrite ?map_length; lia).
    rewrite (nth_map_lt _ _ (fun v => Rltb t v) 0) by lia.
    unfold b at 1. cbn [fst snd]. rewrite andb_true_iff, V2 by lia.
    rewrite Rltb_true, Nc by lia. tauto.
  - exists c2. split; [exact L2|]. split; [reflexivity|]. intros i Hi. rewrite V2 by auto. tauto.
Qed.

Lemma level_list_nth : forall (lev : Z -> R) n i, (0 <= n)%Z -> (Z.of_nat i <= n / 2)%Z ->
  nth i (map lev (zrange (n / 2 + 1))) 0 = lev (Z.of_nat i).
Proof.
  intros lev n i Hn Hi. rewrite (nth_map_lt _ _ _ 0%Z) by (rewrite zrange_length; lia). f_equal.
  apply zrange_nth. lia.
Qed.

Definition above (t : option R) (v : R) : Prop := match t with None => True | Some t => t < v end.
Lemma detect_iff : forall lev n t k, (0 <= n)%Z ->
  In k (rpeak_detect (map lev (zrange (n / 2 + 1))) t) <-> local_peak lev n k /\ above t (lev k).
Proof.
  intros lev n t k Hn. set (x := map lev (zrange (n / 2 + 1))).
  assert (LX : List.length x = Z.to_nat (n / 2 + 1)) by (unfold x; rewrite map_length; apply zrange_length).
  assert (P2 : (0 <= n / 2)%Z) by (apply Z.div_pos; lia).
  destruct (rpeak_conds x t) as (conds & L & E & V). rewrite E, in_map_iff.
  assert (NX : forall i, (Z.of_nat i <= n / 2)%Z -> nth i x 0 = lev (Z.of_nat i)) by (intros; apply level_list_nth; auto).
  split.
  - intros (i & <- & Hi). apply filter_In in Hi. destruct Hi as [Hi Ci]. apply in_seq in Hi. apply V in Ci; [|lia].
    rewrite !NX in Ci by lia. destruct Ci as (A & B & C).
    unfold local_peak, above. replace (Z.of_nat i + 1 - 1)%Z with (Z.of_nat i) by lia.
    replace (Z.of_nat (1 + i)) with (Z.of_nat i + 1)%Z in * by lia.
    replace (Z.of_nat (2 + i)) with (Z.of_nat i + 1 + 1)%Z in * by lia.
    repeat split; auto; lia.
  - intros ((H1 & H2 & A & B) & C). exists (Z.to_nat (k - 1)). split; [lia|].
    apply filter_In. split; [apply in_seq; lia|]. apply V; [lia|].
    rewrite !NX by lia. replace (Z.of_nat (2 + Z.to_nat (k - 1))) with (k + 1)%Z by lia.
    replace (Z.of_nat (1 + Z.to_nat (k - 1))) with k by lia. replace (Z.of_nat (Z.to_nat (k - 1))) with (k - 1)%Z by lia.
    split; [exact B|]. split; [exact A|]. exact C.
Qed.
Lemma detect_sorted : forall x t, StronglySorted Z.lt (rpeak_detect x t).
Proof. intros. destruct (rpeak_conds x t) as (conds & _ & E & _). rewrite E. apply sorted_filter_seq. Qed.
Lemma sorted_nodup : forall l, StronglySorted Z.lt l -> NoDup l.
Proof.
  induction 1 as [|a l H IH F]; constructor; auto. intros I. rewrite Forall_forall in F. specialize (F a I). lia.
Qed.

(** Location and level of the vertex. *)
Definition vloc (lev : Z -> R) (k : Z) : R :=
  IZR k + / 2 * (lev (k - 1)%Z - lev (k + 1)%Z) / (lev (k - 1)%Z - 2 * lev k + lev (k + 1)%Z).
Definition vlev (lev : Z -> R) (k : Z) : R :=
  lev k - / 4 * (lev (k - 1)%Z - lev (k + 1)%Z) *
    (/ 2 * (lev (k - 1)%Z - lev (k + 1)%Z) / (lev (k - 1)%Z - 2 * lev k + lev (k + 1)%Z)).
Lemma refine_lev : forall lev n k, (0 <= n)%Z -> (1 <= k)%Z -> (k + 1 <= n / 2)%Z ->
  rrefine1 (map lev (zrange (n / 2 + 1))) k = Ok (vloc lev k, vlev lev k).
Proof.
  intros lev n k Hn H1 H2. unfold rrefine1.
  assert (ZL : zlen (map lev (zrange (n / 2 + 1))) = (n / 2 + 1)%Z).
  { unfold zlen. rewrite map_length, zrange_length. pose proof (Z.div_pos n 2). lia. }
  assert (G : forall i, (0 <= i <= n / 2)%Z -> getitem (map lev (zrange (n / 2 + 1))) i = Ok (lev i)).
  { intros i Hi. rewrite (getitem_ok _ 0) by lia. f_equal. rewrite level_list_nth by lia. f_equal. lia. }
  rewrite !G by lia. cbn [bind]. reflexivity.
Qed.
Lemma vertex_iff : forall lev n k loc m, local_peak lev n k ->
  (vertex lev k loc m <-> loc = vloc lev k /\ m = vlev lev k).
Proof.
  intros lev n k loc m (_ & _ & A & B). unfold vertex, vloc, vlev.
  set (l := lev (k - 1)%Z) in *. set (c := lev k) in *. set (r := lev (k + 1)%Z) in *.
  assert (D : l - 2 * c + r < 0) by lra. split.
  - intros (a & Ha & H).
    pose proof (H (k - 1)%Z ltac:(lia)) as E1. pose proof (H k ltac:(lia)) as E2. pose proof (H (k + 1)%Z ltac:(lia)) as E3.
    fold l in E1. fold c in E2. fold r in E3. rewrite minus_IZR in E1. rewrite plus_IZR in E3.
    set (u := loc - IZR k).
    replace (IZR k - 1 - loc) with (- 1 - u) in E1 by (unfold u; ring).
    replace (IZR k - loc) with (- u) in E2 by (unfold u; ring).
    replace (IZR k + 1 - loc) with (1 - u) in E3 by (unfold u; ring).
    assert (Ea : l - 2 * c + r = 2 * a) by (rewrite E1, E2, E3; ring).
    assert (Eu : l - r = 4 * a * u) by (rewrite E1, E3; ring).
    split.
    + rewrite Ea, Eu. replace loc with (IZR k + u) by (unfold u; ring). field. lra.
    + rewrite Ea, Eu, E2. field. lra.
  - intros [-> ->]. exists ((l - 2 * c + r) / 2). split; [lra|]. intros j Hj.
    assert (J : j = (k - 1)%Z \/ j = k \/ j = (k + 1)%Z) by lia.
    destruct J as [->|[->| ->]]; fold l c r; rewrite ?minus_IZR, ?plus_IZR; field; lra.
Qed.

Lemma rpeaks_ok : forall lev n fs t phase, (0 <= n)%Z ->
  let ks := rpeak_detect (map lev (zrange (n / 2 + 1))) t in
  rpeaks fs n t phase (map lev (zrange (n / 2 + 1))) =
  Ok (map (fun k => mkRPeak (vloc lev k * fs / IZR n) (vlev lev k) (phase (vloc lev k))) ks).
Proof.
  intros lev n fs t phase Hn ks. unfold rpeaks.
  assert (E : mapM (rrefine1 (map lev (zrange (n / 2 + 1)))) ks = Ok (map (fun k => (vloc lev k, vlev lev k)) ks)).
  { assert (H : forall k, In k ks -> local_peak lev n k) by (intros k Hk; apply detect_iff in Hk; tauto).
    clearbody ks. induction ks as [|k ks IH]; [reflexivity|]. cbn [mapM map].
    destruct (H k (or_introl eq_refl)) as (H1 & H2 & _).
    rewrite refine_lev by auto. cbn [bind]. rewrite IH by (intros; apply H; right; auto). reflexivity. }
  fold ks. rewrite E. cbn [bind]. now rewrite map_map.
Qed.

(** Shifting all levels does not move peaks. *)
Lemma vloc_shift : forall lev lev' s k, (forall j, (k - 1 <= j <= k + 1)%Z -> lev' j = lev j + s) -> vloc lev' k = vloc lev k.
Proof.
  intros lev lev' s k H. unfold vloc. rewrite !H by lia.
  replace (lev (k - 1)%Z + s - (lev (k + 1)%Z + s)) with (lev (k - 1)%Z - lev (k + 1)%Z) by ring.
  replace (lev (k - 1)%Z + s - 2 * (lev k + s) + (lev (k + 1)%Z + s)) with (lev (k - 1)%Z - 2 * lev k + lev (k + 1)%Z) by ring.
  reflexivity.
Qed.
Lemma vlev_shift : forall lev lev' s k, (forall j, (k - 1 <= j <= k + 1)%Z -> lev' j = lev j + s) ->
  vlev lev' k = vlev lev k + s.
Proof.
  intros lev lev' s k H. unfold vlev. rewrite !H by lia.
  replace (lev (k - 1)%Z + s - (lev (k + 1)%Z + s)) with (lev (k - 1)%Z - lev (k + 1)%Z) by ring.
  replace (lev (k - 1)%Z + s - 2 * (lev k + s) + (lev (k + 1)%Z + s)) with (lev (k - 1)%Z - 2 * lev k + lev (k + 1)%Z) by ring.
  ring.
Qed.
Lemma local_peak_shift : forall lev lev' s n k, (forall j, (0 <= j <= n / 2)%Z -> lev' j = lev j + s) ->
  local_peak lev' n k -> local_peak lev n k.
Proof.
  intros lev lev' s n k H (A & B & C & D). rewrite !H in C, D by lia. repeat split; auto; lra.
Qed.

(** ** Tracking of lines

    [F k] and [M k + INR i * s] are frequency and level of line [k] in frame [i]. *)

Lemma min_key_in : forall (A K : Type) (lt : K -> K -> bool) (it : list A) key i d,
  min_key lt it key = Some (i, d) -> In i it /\ d = key i.
Proof.
  intros A K lt it key. unfold min_key.
  assert (G : forall l acc i d,
    (forall i d, acc = Some (i, d) -> In i it /\ d = key i) -> incl l it ->
    fold_left (fun acc i => let x := key i in
       match acc with None => Some (i, x) | Some (_, x_) => if lt x x_ then Some (i, x) else acc end) l acc = Some (i, d) ->
    In i it /\ d = key i).
  { induction l as [|a l IH]; intros acc i d H I E; [now apply H|]. cbn [fold_left] in E.
    eapply IH; [| |exact E].
    - intros j e. destruct acc as [[b y]|].
      + destruct (lt (key a) y).
        * injection 1 as <- <-. split; auto. apply I. now left.
        * apply H.
      + injection 1 as <- <-. split; auto. apply I. now left.
    - intros j Hj. apply I. now right. }
  intros i d E. eapply G; [| |exact E]; [discriminate|apply incl_refl].
Qed.
Lemma min_key_some : forall (A K : Type) (lt : K -> K -> bool) (it : list A) key, it <> [] -> min_key lt it key <> None.
Proof.
  intros A K lt [|a it] key H; [congruence|]. unfold min_key. cbn [fold_left]. clear H.
  generalize (a, key a) as p. induction it as [|b it IH]; intros p; [discriminate|]. cbn [fold_left].
  destruct p as [c y]. destruct (lt (key b) y); apply IH.
Qed.

Lemma foldM_range : forall (St A : Type) (step : St -> A -> res St) (f : nat -> A) (Inv : nat -> St -> Prop) l a st,
  (forall i st, (a <= i < a + l)%nat -> Inv i st -> exists st', step st (f i) = Ok st' /\ Inv (S i) st') ->
  Inv a st -> exists st', foldM step st (map f (seq a l)) = Ok st' /\ Inv (a + l)%nat st'.
Proof.
  intros St A step f Inv l. induction l as [|l IH]; intros a st HS HI.
  - exists st. rewrite Nat.add_0_r. auto.
  - cbn [seq map foldM]. destruct (HS a st ltac:(lia) HI) as (st' & E & HI'). rewrite E.
    destruct (IH (S a) st') as (st2 & E2 & HI2).
    + intros i s Hi. apply HS. lia.
    + exact HI'.
    + exists st2. split; auto. now replace (a + S l)%nat with (S a + l)%nat by lia.
Qed.

Lemma rdeact_loop_gen : forall (deact : rdeactivator) f tail ts sv,
  foldM
    (fun st ti =>
       match deact (fst st) (nth ti (snd st) no_ltrack) with
       | Ok sv' => Ok (sv', remove_nth ti (snd st))
       | Err e => Err e
       end)
    (sv, ts ++ tail)
    (filter f (rev (seq 0 (List.length ts)))) =
  do sv' <- foldM deact sv
              (rev (map (fun i => nth i ts no_ltrack)
                        (filter f (seq 0 (List.length ts)))));
  Ok (sv', map (fun i => nth i ts no_ltrack)
               (filter (fun i => negb (f i)) (seq 0 (List.length ts))) ++ tail).
Proof.
  intros deact f tail ts. revert tail. induction ts as [|t ts IH] using rev_ind; intros tail sv.
  - reflexivity.
  - rewrite app_length. simpl. rewrite Nat.add_1_r, seq_S_last, rev_app_distr.
    simpl. rewrite !filter_app. simpl.
    assert (Hmap : forall g, map (fun i => nth i (ts ++ [t]) no_ltrack)
        (filter g (seq 0 (List.length ts))) =
        map (fun i => nth i ts no_ltrack) (filter g (seq 0 (List.length ts)))).
    { intro g. apply map_ext_in. intros a Ha. apply filter_In in Ha. destruct Ha as [Ha _].
      apply in_seq in Ha. apply app_nth1. lia. }
    assert (Hlast : forall tl, nth (List.length ts) ((ts ++ [t]) ++ tl) no_ltrack = t).
    { intro tl. rewrite <- app_assoc. simpl. apply nth_middle. }
    assert (Hlast0 : nth (List.length ts) (ts ++ [t]) no_ltrack = t) by apply nth_middle.
    destruct (f (List.length ts)) eqn:F; simpl.
    + rewrite !map_app, !Hmap. simpl. rewrite Hlast0, Hlast. rewrite rev_app_distr. simpl.
      rewrite app_nil_r. destruct (deact sv t) eqn:D; simpl; auto.
      rewrite <- app_assoc. simpl. rewrite remove_nth_app.
      apply IH.
    + rewrite !map_app, !Hmap. simpl. rewrite Hlast0. rewrite app_nil_r.
      rewrite <- !app_assoc. simpl. apply IH.
Qed.
Lemma rdeact_loop_spec : forall (deact : rdeactivator) ft sv ts,
  rdeact_loop deact ft sv ts =
  do sv' <- foldM deact sv
              (rev (map (fun i => nth i ts no_ltrack)
                        (filter (fun i => nth i ft false) (seq 0 (List.length ts)))));
  Ok (sv', map (fun i => nth i ts no_ltrack)
               (filter (fun i => negb (nth i ft false)) (seq 0 (List.length ts)))).
Proof.
  intros. unfold rdeact_loop.
  pose proof (rdeact_loop_gen deact (fun i => nth i ft false) [] ts sv) as H.
  rewrite app_nil_r in H. rewrite H.
  destruct (foldM deact sv _); simpl; auto. now rewrite app_nil_r.
Qed.
Lemma ractivate_all : forall c n fr (Q : ltrack -> Prop) ps ts,
  (forall pi, In pi ps -> Q (rnewborn n (nth pi fr no_rpeak))) -> Forall Q ts -> Forall Q (ractivate_loop c n fr ps ts).
Proof.
  intros c n fr Q. induction ps as [|p ps IH]; intros ts H F; [exact F|]. cbn [ractivate_loop].
  destruct (Z.leb _ _); [exact F|]. apply IH.
  - intros pi Hp. apply H. now right.
  - apply Forall_app. split; auto. constructor; auto. apply H. now left.
Qed.

Section Lines.
Context (F M : Z -> R) (s : R) (P : Z -> Prop) (c : rcfg).
Hypothesis separate : forall k k', P k -> P k' -> k <> k' -> rdf c (F k) <= Rabs (F k' - F k).

(** A track that follows line [k] up to frame [i]. *)
Definition follows (k : Z) (i : nat) (t : ltrack) : Prop :=
  exists n, (1 <= n)%nat /\ (l_start t + n = i)%nat /\ l_freq t = repeat (F k) n /\
    l_mag t = map (fun j => M k + INR (l_start t + j) * s) (seq 0 n) /\ List.length (l_ph t) = n.
Definition active_ok (i : nat) (t : ltrack) : Prop := exists k, P k /\ follows k i t.
(** A peak of line [k] in frame [i]. *)
Definition peak_on (i : nat) (p : rpeak) : Prop := exists k, P k /\ rp_f p = F k /\ rp_m p = M k + INR i * s.

Lemma last_repeat : forall (x d : R) n, (1 <= n)%nat -> last (repeat x n) d = x.
Proof.
  intros x d n H. destruct n as [|n]; [lia|]. clear H. induction n as [|n IH]; [reflexivity|]. exact IH.
Qed.
Lemma repeat_snoc : forall (x : R) n, repeat x n ++ [x] = repeat x (S n).
Proof. intros x n. induction n as [|n IH]; [reflexivity|]. cbn [repeat app]. now rewrite IH. Qed.

Lemma follows_last : forall k i t, follows k i t -> rlast_freq t = F k.
Proof. intros k i t (n & H1 & _ & E & _). unfold rlast_freq. rewrite E. now apply last_repeat. Qed.
Lemma follows_push : forall k i t p, follows k i t -> rp_f p = F k -> rp_m p = M k + INR i * s ->
  follows k (S i) (rpush t p).
Proof.
  intros k i t p (n & H1 & H2 & E1 & E2 & E3) Ef Em. exists (S n). unfold rpush. cbn [l_start l_freq l_mag l_ph].
  split; [lia|]. split; [lia|]. rewrite E1, E2, Ef, Em, repeat_snoc. split; [reflexivity|].
  split.
  - rewrite seq_S_last, map_app. cbn [map]. rewrite H2. reflexivity.
  - rewrite app_length, E3. simpl. lia.
Qed.
Lemma follows_newborn : forall k i p, rp_f p = F k -> rp_m p = M k + INR i * s -> follows k (S i) (rnewborn i p).
Proof.
  intros k i p Ef Em. exists 1%nat. unfold rnewborn. cbn [l_start l_freq l_mag l_ph repeat seq map].
  rewrite Ef, Em, Nat.add_0_r. repeat split; auto; lia.
Qed.

(** Matching never joins two lines. *)
Lemma match_inv : forall i fr, Forall (peak_on i) fr -> forall order ts ft fp,
  List.length ft = List.length ts ->
  (forall j, (j < List.length ts)%nat -> if nth j ft false then active_ok i (nth j ts no_ltrack)
                                         else active_ok (S i) (nth j ts no_ltrack)) ->
  (forall pi, In pi order -> (pi < List.length fr)%nat) ->
  let '(ts', ft', fp') := rmatch_loop c fr order ts ft fp in
  List.length ts' = List.length ts /\ List.length ft' = List.length ts /\
  (forall j, (j < List.length ts)%nat -> if nth j ft' false then active_ok i (nth j ts' no_ltrack)
                                         else active_ok (S i) (nth j ts' no_ltrack)).
Proof.
  intros i fr HF. induction order as [|pi rest IH]; intros ts ft fp L HI HO; cbn [rmatch_loop]; [auto|].
  destruct (negb (existsb (fun b => b) ft)); [auto|].
  assert (HO' : forall pi, In pi rest -> (pi < List.length fr)%nat) by (intros; apply HO; now right).
  set (p := nth pi fr no_rpeak).
  assert (Hp : peak_on i p).
  { unfold p. apply (proj1 (Forall_forall _ _) HF). apply nth_In. apply HO. now left. }
  set (key := fun j => Rabs (rlast_freq (nth j ts no_ltrack) - rp_f p)).
  destruct (min_key Rltb _ key) as [[ti d]|] eqn:EM; [|apply IH; auto].
  destruct (Rltb d (rdf c (rp_f p))) eqn:ED; [|apply IH; auto].
  apply min_key_in in EM. destruct EM as [It Ed]. apply filter_In in It. destruct It as [It Ft].
  apply in_seq in It. apply Rltb_true in ED.
  pose proof (HI ti ltac:(lia)) as Ht. rewrite Ft in Ht. destruct Ht as (k & Pk & Hk).
  destruct Hp as (k' & Pk' & Ef & Em).
  assert (k = k').
  { destruct (Z.eq_dec k k') as [|N]; auto. exfalso.
    pose proof (separate k' k Pk' Pk ltac:(auto)) as HS.
    unfold key in Ed. rewrite (follows_last k i _ Hk), Ef in Ed. rewrite Ef in ED. lra. }
  subst k'.
  assert (Hpush : active_ok (S i) (rpush (nth ti ts no_ltrack) p)) by (exists k; split; auto; now apply follows_push).
  specialize (IH (upd ti (rpush (nth ti ts no_ltrack) p) ts) (upd ti false ft) (upd pi false fp)).
  rewrite !upd_length in IH. specialize (IH L).
  assert (HI' : forall j, (j < List.length ts)%nat ->
    if nth j (upd ti false ft) false then active_ok i (nth j (upd ti (rpush (nth ti ts no_ltrack) p) ts) no_ltrack)
    else active_ok (S i) (nth j (upd ti (rpush (nth ti ts no_ltrack) p) ts) no_ltrack)).
  { intros j Hj. destruct (Nat.eq_dec j ti) as [->|N].
    - rewrite !nth_upd_eq by lia. exact Hpush.
    - rewrite !nth_upd_neq by auto. apply HI. exact Hj. }
  exact (IH HI' HO').
Qed.

(** A saved track that follows line [k], possibly with gaps after the first three
    frames. *)
Definition saved_on (k : Z) (t : rtrack) : Prop :=
  (0 <= r_start t)%Z /\ List.length (r_freq t) = List.length (r_mag t) /\
  (forall j, (j < 3)%nat -> exists v, has_value (r_mag t) j v) /\
  (forall j, (exists v, has_value (r_freq t) j v) <-> (exists v, has_value (r_mag t) j v)) /\
  (forall j f, has_value (r_freq t) j f -> f = F k) /\
  (forall j m, has_value (r_mag t) j m -> m = M k + IZR (r_start t + Z.of_nat j) * s).
Definition saved_ok (t : rtrack) : Prop := exists k, P k /\ saved_on k t.

Lemma has_value_map : forall (l : list R) j v, has_value (map Some l) j v <-> nth_error l j = Some v.
Proof.
  intros l j v. unfold has_value. rewrite nth_error_map. destruct (nth_error l j) as [w|]; cbn; split; congruence.
Qed.
Lemma follows_saved : forall k i t, follows k i t -> (3 <= List.length (l_freq t))%nat -> saved_on k (rnumpy_track t).
Proof.
  intros k i t (n & H1 & H2 & E1 & E2 & E3) H3. rewrite E1, repeat_length in H3.
  assert (NF : forall j v, nth_error (l_freq t) j = Some v <-> (j < n)%nat /\ v = F k).
  { intros j v. rewrite E1. split.
    - intros H. assert (HL : (j < n)%nat).
      { rewrite <- (repeat_length (F k) n). apply nth_error_Some. congruence. }
      split; auto. apply (nth_error_nth _ _ 0) in H. now rewrite nth_repeat_lt in H by auto.
    - intros [HL ->]. rewrite (nth_error_nth' _ 0) by (now rewrite repeat_length). now rewrite nth_repeat_lt by auto. }
  assert (NM : forall j v, nth_error (l_mag t) j = Some v <-> (j < n)%nat /\ v = M k + INR (l_start t + j) * s).
  { intros j v. rewrite E2, nth_error_map. split.
    - intros H. destruct (nth_error (seq 0 n) j) as [u|] eqn:E; [|discriminate].
      assert (HL : (j < n)%nat).
      { rewrite <- (seq_length n 0). apply nth_error_Some. congruence. }
      apply (nth_error_nth _ _ 0%nat) in E. rewrite seq_nth in E by auto. cbn in H. injection H as <-. subst u. auto.
    - intros [HL ->]. rewrite (nth_error_nth' _ 0%nat) by (now rewrite seq_length). now rewrite seq_nth by auto. }
  unfold saved_on, rnumpy_track. cbn [r_start r_freq r_mag].
  split; [lia|]. split; [rewrite !map_length, E1, E2, map_length, repeat_length, seq_length; reflexivity|].
  split; [|split; [|split]].
  - intros j Hj. eexists. apply has_value_map. apply NM. split; [lia|reflexivity].
  - intros j. split; intros (v & Hv); apply has_value_map in Hv.
    + apply NF in Hv. eexists. apply has_value_map. apply NM. split; [tauto|reflexivity].
    + apply NM in Hv. eexists. apply has_value_map. apply NF. split; [tauto|reflexivity].
  - intros j f Hf. apply has_value_map in Hf. now apply NF in Hf.
  - intros j m Hm. apply has_value_map in Hm. apply NM in Hm. destruct Hm as [_ ->].
    now rewrite INR_IZR_INZ, Nat2Z.inj_add.
Qed.

Lemma has_value_app : forall a pad b j v, (forall o, In o pad -> o = None) ->
  (has_value (a ++ pad ++ b) j v <->
   has_value a j v \/ ((List.length a + List.length pad <= j)%nat /\ has_value b (j - List.length a - List.length pad) v)).
Proof.
  intros a pad b j v HP. unfold has_value. destruct (Nat.lt_ge_cases j (List.length a)) as [H|H].
  - rewrite nth_error_app1 by auto. split; [auto|]. intros [|[? _]]; [auto|lia].
  - rewrite nth_error_app2 by auto.
    assert (NA : nth_error a j = None) by (apply nth_error_None; lia).
    destruct (Nat.lt_ge_cases (j - List.length a) (List.length pad)) as [H'|H'].
    + rewrite nth_error_app1 by auto. split.
      * intros E. apply nth_error_In in E. apply HP in E. discriminate.
      * intros [E|[? _]]; [congruence|lia].
    + rewrite nth_error_app2 by auto. split.
      * intros E. right. split; [lia|exact E].
      * intros [E|[_ E]]; [congruence|exact E].
Qed.
Lemma glue_saved : forall k u t, saved_on k u -> saved_on k t -> (r_start u + zlen (r_mag u) < r_start t)%Z ->
  saved_on k (rglue1 u t).
Proof.
  intros k u t (U0 & U1 & U2 & U3 & U4 & U5) (T0 & T1 & T2 & T3 & T4 & T5) HL.
  unfold rglue1. set (pad := repeat None _).
  assert (HP : forall o, In o pad -> o = None) by (intros o Ho; now apply repeat_spec in Ho).
  assert (LP : Z.of_nat (List.length pad) = (r_start t - r_start u - zlen (r_mag u))%Z).
  { unfold pad. rewrite repeat_length. lia. }
  unfold saved_on. cbn [r_start r_freq r_mag]. unfold zlen in *.
  split; [exact U0|]. split; [rewrite !app_length; lia|]. split; [|split; [|split]].
  - intros j Hj. destruct (U2 j Hj) as (v & Hv). exists v. apply has_value_app; auto.
  - intros j. split; intros (v & Hv); apply has_value_app in Hv; auto; destruct Hv as [Hv|[HJ Hv]].
    + destruct (proj1 (U3 j) (ex_intro _ v Hv)) as (w & Hw). exists w. apply has_value_app; auto.
    + destruct (proj1 (T3 _) (ex_intro _ v Hv)) as (w & Hw). exists w. apply has_value_app; auto. right.
      rewrite <- U1. auto.
    + destruct (proj2 (U3 j) (ex_intro _ v Hv)) as (w & Hw). exists w. apply has_value_app; auto.
    + destruct (proj2 (T3 _) (ex_intro _ v Hv)) as (w & Hw). exists w. apply has_value_app; auto. right.
      rewrite U1. auto.
  - intros j f Hf. apply has_value_app in Hf; auto. destruct Hf as [Hf|[_ Hf]]; eauto.
  - intros j m Hm. apply has_value_app in Hm; auto. destruct Hm as [Hm|[HJ Hm]]; [eauto|].
    apply T5 in Hm. rewrite Hm. do 3 f_equal. lia.
Qed.

(** The frequency by which tracks are compared is that of their line. *)
Lemma saved_last : forall k u v, saved_on k u -> last (r_freq u) None = Some v -> v = F k.
Proof.
  intros k u v (_ & U1 & U2 & _ & U4 & _) E. destruct (U2 0%nat ltac:(lia)) as (m & Hm).
  assert (L : (0 < List.length (r_mag u))%nat) by (apply nth_error_Some; unfold has_value in Hm; congruence).
  apply (U4 (List.length (r_freq u) - 1)%nat). unfold has_value. rewrite (nth_error_nth' _ None) by lia.
  rewrite <- E. f_equal. symmetry. apply last_nth.
Qed.
Lemma saved_mean : forall k u v, saved_on k u -> rnanmean (r_freq u) = Some v -> v = F k.
Proof.
  intros k u v (_ & _ & _ & _ & U4 & _) E. unfold rnanmean in E.
  assert (H : forall w, In w (present (r_freq u)) -> w = F k).
  { intros w Hw.
    assert (Iw : In (Some w) (r_freq u)).
    { revert Hw. generalize (r_freq u). induction l as [|[a|] l IH]; cbn; [tauto| |auto]. intros [->|Hw]; auto. }
    apply In_nth_error in Iw. destruct Iw as [j Hj]. now apply (U4 j). }
  revert H E. generalize (present (r_freq u)) as l. intros l H E. destruct l as [|a l]; [discriminate|].
  injection E as <-. set (l' := a :: l) in *.
  assert (Q : rsum l' = INR (List.length l') * F k).
  { clearbody l'. clear - H. induction l' as [|b l' IH]; [cbn; ring|].
    change (rsum (b :: l')) with (b + rsum l'). rewrite IH by (intros; apply H; now right).
    change (List.length (b :: l')) with (S (List.length l')). rewrite S_INR.
    rewrite (H b (or_introl eq_refl)). ring. }
  unfold rmean. rewrite Q. field. apply not_0_INR. discriminate.
Qed.
Lemma saved_hd : forall k t v, saved_on k t -> hd None (r_freq t) = Some v -> v = F k.
Proof.
  intros k t v (_ & _ & _ & _ & U4 & _) E. apply (U4 0%nat). unfold has_value.
  destruct (r_freq t); [discriminate|]. cbn in *. congruence.
Qed.

Lemma rmodal_deact_inv : forall m i sv t, g_base m = c ->
  (exists f, rfreq_diff_function m = Ok f) -> (3 <= rmin_sine_len c)%Z ->
  Forall saved_ok sv -> active_ok i t -> exists sv', rmodal_deact m sv t = Ok sv' /\ Forall saved_ok sv'.
Proof.
  intros m i sv t EB (diff & ED) H3 HS (k & Pk & Hk). unfold rmodal_deact.
  destruct (rmodal_ok m t) eqn:OK; [|exists sv; auto]. rewrite ED.
  assert (LT : (3 <= List.length (l_freq t))%nat).
  { unfold rmodal_ok in OK. destruct (rsine_ok (g_base m) t) eqn:OS; [|discriminate].
    unfold rsine_ok in OS. rewrite EB in OS. apply Z.leb_le in OS. lia. }
  assert (ST := follows_saved k i t Hk LT).
  assert (SA : Forall saved_ok (sv ++ [rnumpy_track t])).
  { apply Forall_app. split; auto. constructor; auto. exists k. auto. }
  destruct (min_key rnan_ltb _ _) as [[j d]|] eqn:EM; [|eauto].
  destruct (rnan_ltb d _) eqn:EL; [|eauto].
  apply min_key_in in EM. destruct EM as [Ij Ed]. apply filter_In in Ij. destruct Ij as [Ij Lj].
  apply in_seq in Ij. apply Z.ltb_lt in Lj. cbv zeta in Lj.
  set (u := nth j sv no_rtrack) in *.
  destruct (proj1 (Forall_forall _ _) HS u ltac:(apply nth_In; lia)) as (k' & Pk' & SU).
  assert (HD : hd 0 (l_freq t) = F k).
  { destruct Hk as (n & H1 & _ & E1 & _). rewrite E1. destruct n; [lia|reflexivity]. }
  rewrite HD, EB in EL.
  assert (EK : exists w, d = Some w /\ w = Rabs (F k' - F k)).
  { destruct d as [w|]; [|discriminate EL]. exists w. split; auto.
    unfold rfreq_diff_function in ED. destruct (String.eqb (g_strategy m) "single").
    - injection ED as <-. unfold rdiff_single in Ed.
      destruct (last (r_freq u) None) as [a|] eqn:E1; [|discriminate].
      destruct (hd None (r_freq (rnumpy_track t))) as [b|] eqn:E2; [|discriminate].
      injection Ed as ->. rewrite (saved_last k' u a SU E1), (saved_hd k _ b ST E2). reflexivity.
    - destruct (String.eqb (g_strategy m) "average"); [|discriminate]. injection ED as <-. unfold rdiff_avg in Ed.
      destruct (rnanmean (r_freq u)) as [a|] eqn:E1; [|discriminate].
      destruct (rnanmean (r_freq (rnumpy_track t))) as [b|] eqn:E2; [|discriminate].
      injection Ed as ->. rewrite (saved_mean k' u a SU E1), (saved_mean k _ b ST E2). reflexivity. }
  destruct EK as (w & -> & ->). cbn [rnan_ltb] in EL. apply Rltb_true in EL.
  assert (k' = k).
  { destruct (Z.eq_dec k' k) as [|N]; auto. exfalso. pose proof (separate k k' Pk Pk' ltac:(auto)). lra. }
  subst k'. eexists. split; [reflexivity|].
  apply Forall_forall. intros v Hv. apply (In_nth _ _ no_rtrack) in Hv. destruct Hv as (i' & Hi' & <-).
  rewrite upd_length in Hi'. destruct (Nat.eq_dec i' j) as [->|N].
  - rewrite nth_upd_eq by auto. exists k. split; auto. now apply glue_saved.
  - rewrite nth_upd_neq by auto. apply (proj1 (Forall_forall _ _) HS). now apply nth_In.
Qed.
Lemma rsine_deact_inv : forall i sv t, (3 <= rmin_sine_len c)%Z ->
  Forall saved_ok sv -> active_ok i t -> exists sv', rsine_deact c sv t = Ok sv' /\ Forall saved_ok sv'.
Proof.
  intros i sv t H3 HS (k & Pk & Hk). unfold rsine_deact. eexists. split; [reflexivity|].
  destruct (rsine_ok c t) eqn:OK; [|exact HS]. apply Forall_app. split; auto. constructor; auto.
  exists k. split; auto. apply (follows_saved k i); auto. unfold rsine_ok in OK. apply Z.leb_le in OK. lia.
Qed.

(** All tracks keep following one line. *)
Definition lines_ok (i : nat) (st : rstate) : Prop :=
  rnframe st = i /\ Forall saved_ok (rsaved st) /\ Forall (active_ok i) (ractive st).
Lemma step_inv : forall (deact : rdeactivator),
  (forall i sv t, Forall saved_ok sv -> active_ok i t -> exists sv', deact sv t = Ok sv' /\ Forall saved_ok sv') ->
  forall i st fr order, lines_ok i st -> Forall (peak_on i) fr -> (forall pi, In pi order -> (pi < List.length fr)%nat) ->
  exists st', rstep c deact st (fr, order) = Ok st' /\ lines_ok (S i) st'.
Proof.
  intros deact HD i st fr order (Hn & HS & HA) HF HO. unfold rstep.
  pose proof (match_inv i fr HF order (ractive st) (repeat true (List.length (ractive st))) (repeat true (List.length fr))) as HM.
  destruct (rmatch_loop _ _ _ _ _ _) as [[ts ft] fp]. destruct HM as (L1 & L2 & HM).
  - apply repeat_length.
  - intros j Hj. rewrite nth_repeat_lt by auto. apply (proj1 (Forall_forall _ _) HA). now apply nth_In.
  - exact HO.
  - rewrite rdeact_loop_spec.
    assert (DA : forall l sv, (forall t, In t l -> active_ok i t) -> Forall saved_ok sv ->
      exists sv', foldM deact sv l = Ok sv' /\ Forall saved_ok sv').
    { clear - HD. induction l as [|t l IH]; intros sv Hl HS; [exists sv; auto|]. cbn [foldM].
      destruct (HD i sv t HS (Hl t (or_introl eq_refl))) as (sv1 & E & HS1). rewrite E.
      apply IH; auto. intros; apply Hl; now right. }
    destruct (DA (rev (map (fun i => nth i ts no_ltrack) (filter (fun i => nth i ft false) (seq 0 (List.length ts))))) (rsaved st))
      as (sv' & E & HS'); auto.
    { intros t Ht. apply in_rev in Ht. apply in_map_iff in Ht. destruct Ht as (j & <- & Hj). apply filter_In in Hj.
      destruct Hj as [Hj Fj]. apply in_seq in Hj. specialize (HM j ltac:(lia)). now rewrite Fj in HM. }
    rewrite E. cbn [bind]. eexists. split; [reflexivity|]. unfold lines_ok. cbn [rnframe rsaved ractive].
    split; [now rewrite Hn|]. split; [exact HS'|]. apply ractivate_all.
    + intros pi Hp. apply filter_In in Hp. destruct Hp as [Hp _]. apply in_seq in Hp.
      destruct (proj1 (Forall_forall _ _) HF (nth pi fr no_rpeak) ltac:(apply nth_In; lia)) as (k & Pk & Ef & Em).
      exists k. split; auto. rewrite Hn. now apply follows_newborn.
    + apply Forall_forall. intros t Ht. apply in_map_iff in Ht. destruct Ht as (j & <- & Hj). apply filter_In in Hj.
      destruct Hj as [Hj Fj]. apply in_seq in Hj. apply negb_true_iff in Fj. specialize (HM j ltac:(lia)).
      now rewrite Fj in HM.
Qed.
End Lines.

(** ** Lines that are present in all frames *)

Lemma Rltb_irr : forall x, Rltb x x = false.
Proof. intros. apply Rltb_false. lra. Qed.
Lemma Rltb_trans : forall x y z, Rltb x y = true -> Rltb y z = true -> Rltb x z = true.
Proof. intros x y z. rewrite !Rltb_true. lra. Qed.
Lemma Rltb_neg_trans : forall x y z, Rltb x y = false -> Rltb y z = false -> Rltb x z = false.
Proof. intros x y z. rewrite !Rltb_false. lra. Qed.

Section Steady.
Context (F M : Z -> R) (s : R) (ks : list Z) (c : rcfg).
Hypothesis distinct : NoDup ks.
Hypothesis separate : forall k k', In k ks -> In k' ks -> k <> k' -> rdf c (F k) <= Rabs (F k' - F k).
Hypothesis tolerant : forall k, In k ks -> 0 < rdf c (F k).
Hypothesis enough : (Z.of_nat (List.length ks) <= g_max c)%Z.

Let kk (j : nat) : Z := nth j ks 0%Z.
Definition steady_track (k : Z) (i : nat) (t : ltrack) : Prop := follows F M s k i t /\ l_start t = 0%nat.

Lemma steady_match : forall i fr, List.length fr = List.length ks ->
  (forall j, (j < List.length ks)%nat ->
     rp_f (nth j fr no_rpeak) = F (kk j) /\ rp_m (nth j fr no_rpeak) = M (kk j) + INR i * s) ->
  forall order ts ft fp, NoDup order -> (forall j, In j order -> (j < List.length ks)%nat) ->
  List.length ts = List.length ks -> List.length ft = List.length ks -> List.length fp = List.length ks ->
  (forall j, (j < List.length ks)%nat -> (nth j ft false = true <-> In j order)) ->
  (forall j, (j < List.length ks)%nat -> (nth j fp false = true <-> In j order)) ->
  (forall j, (j < List.length ks)%nat ->
     if nth j ft false then steady_track (kk j) i (nth j ts no_ltrack) else steady_track (kk j) (S i) (nth j ts no_ltrack)) ->
  let '(ts', ft', fp') := rmatch_loop c fr order ts ft fp in
  List.length ts' = List.length ks /\ 
  (forall j, (j < List.length ks)%nat -> nth j ft' false = false /\ nth j fp' false = false /\
     steady_track (kk j) (S i) (nth j ts' no_ltrack)).
Proof.
  intros i fr LF HF. induction order as [|pi rest IH]; intros ts ft fp ND HO Lt Lf Lp Hf Hp HI; cbn [rmatch_loop].
  - split; [exact Lt|]. intros j Hj. specialize (HI j Hj). specialize (Hf j Hj). specialize (Hp j Hj).
    destruct (nth j ft false); [destruct Hf as [Hf _]; destruct (Hf eq_refl)|].
    destruct (nth j fp false); [destruct Hp as [Hp _]; destruct (Hp eq_refl)|]. auto.
  - assert (Bp : (pi < List.length ks)%nat) by (apply HO; now left).
    assert (Fp : nth pi ft false = true) by (apply Hf; [exact Bp|now left]).
    destruct (existsb (fun b => b) ft) eqn:EX.
    2:{ exfalso. assert (existsb (fun b => b) ft = true); [|congruence]. apply existsb_exists. exists true.
        split; auto. rewrite <- Fp. apply nth_In. lia. }
    cbn [negb]. set (p := nth pi fr no_rpeak).
    destruct (HF pi Bp) as [Ef Em]. fold p in Ef, Em.
    set (key := fun j => Rabs (rlast_freq (nth j ts no_ltrack) - rp_f p)).
    set (free := filter (fun j => nth j ft false) (seq 0 (List.length ts))).
    assert (Ip : In pi free) by (apply filter_In; split; [apply in_seq; lia|exact Fp]).
    pose proof (Tracker_Step.min_key_spec Rltb key Rltb_irr Rltb_trans Rltb_neg_trans free) as MS.
    destruct (min_key Rltb free key) as [[ti d]|]; [|cbn in MS; rewrite MS in Ip; destruct Ip].
    cbn in MS. destruct MS as (l1 & l2 & E & Ed & _ & Hmin).
    assert (It : In ti free) by (rewrite E; apply in_or_app; right; now left).
    apply filter_In in It. destruct It as [It Ft]. apply in_seq in It.
    pose proof (HI ti ltac:(lia)) as Ht. rewrite Ft in Ht.
    pose proof (HI pi Bp) as Hpi. rewrite Fp in Hpi.
    assert (D0 : d <= 0).
    { specialize (Hmin pi Ip). apply Rltb_false in Hmin. unfold key at 1 in Hmin.
      rewrite (follows_last _ _ _ _ _ _ (proj1 Hpi)), Ef in Hmin.
      replace (F (kk pi) - F (kk pi)) with 0 in Hmin by ring. rewrite Rabs_R0 in Hmin. exact Hmin. }
    assert (Ik : In (kk pi) ks) by (apply nth_In; exact Bp).
    assert (It' : In (kk ti) ks) by (apply nth_In; lia).
    pose proof (tolerant (kk pi) Ik) as HT.
    assert (ti = pi).
    { destruct (Nat.eq_dec ti pi) as [|N]; auto. exfalso.
      assert (NK : kk pi <> kk ti).
      { intros EK. apply N. symmetry. apply (proj1 (NoDup_nth ks 0%Z) distinct); auto; lia. }
      pose proof (separate (kk pi) (kk ti) Ik It' NK) as HS. unfold key in Ed.
      rewrite (follows_last _ _ _ _ _ _ (proj1 Ht)), Ef in Ed. lra. }
    subst ti. rewrite Ef. destruct (Rltb d (rdf c (F (kk pi)))) eqn:EL; [|apply Rltb_false in EL; lra].
    inversion ND as [|? ? NI ND']; subst.
    apply IH; rewrite ?upd_length; auto.
    + intros j Hj. apply HO. now right.
    + intros j Hj. destruct (Nat.eq_dec j pi) as [->|N].
      * rewrite nth_upd_eq by lia. split; [discriminate|tauto].
      * rewrite nth_upd_neq by auto. rewrite Hf by auto. split; [|now right]. intros [?|?]; [congruence|auto].
    + intros j Hj. destruct (Nat.eq_dec j pi) as [->|N].
      * rewrite nth_upd_eq by lia. split; [discriminate|tauto].
      * rewrite nth_upd_neq by auto. rewrite Hp by auto. split; [|now right]. intros [?|?]; [congruence|auto].
    + intros j Hj. destruct (Nat.eq_dec j pi) as [->|N].
      * rewrite !nth_upd_eq by lia. split; [apply follows_push; [apply Hpi|exact Ef|exact Em]|]. apply Hpi.
      * rewrite !nth_upd_neq by auto. now apply HI.
Qed.

Lemma filter_none : forall (f : nat -> bool) l, (forall j, In j l -> f j = false) -> filter f l = [].
Proof. intros f l. induction l as [|a l IH]; intros H; [reflexivity|]. cbn. rewrite (H a (or_introl eq_refl)). apply IH. intros; apply H; now right. Qed.
Lemma filter_every : forall (A : Type) (f : A -> bool) l, (forall j, In j l -> f j = true) -> filter f l = l.
Proof. intros A f l. induction l as [|a l IH]; intros H; [reflexivity|]. cbn. rewrite (H a (or_introl eq_refl)). f_equal. apply IH. intros; apply H; now right. Qed.
Lemma ractivate_room : forall n fr ps ts, (Z.of_nat (List.length ts + List.length ps) <= g_max c)%Z ->
  ractivate_loop c n fr ps ts = ts ++ map (fun pi => rnewborn n (nth pi fr no_rpeak)) ps.
Proof.
  intros n fr. induction ps as [|p ps IH]; intros ts H; cbn [ractivate_loop map]; [now rewrite app_nil_r|].
  cbn [List.length] in H. destruct (Z.leb_spec (g_max c) (Z.of_nat (List.length ts))); [lia|].
  rewrite IH by (rewrite app_length; cbn [List.length]; lia). now rewrite <- app_assoc.
Qed.

Definition steady_state (i : nat) (st : rstate) : Prop :=
  rnframe st = i /\ rsaved st = [] /\
  match i with
  | O => ractive st = []
  | _ => List.length (ractive st) = List.length ks /\
         forall j, (j < List.length ks)%nat -> steady_track (kk j) i (nth j (ractive st) no_ltrack)
  end.
Lemma steady_step : forall deact i st fr order, steady_state i st -> List.length fr = List.length ks ->
  (forall j, (j < List.length ks)%nat ->
     rp_f (nth j fr no_rpeak) = F (kk j) /\ rp_m (nth j fr no_rpeak) = M (kk j) + INR i * s) ->
  Permutation order (seq 0 (List.length fr)) ->
  exists st', rstep c deact st (fr, order) = Ok st' /\ steady_state (S i) st'.
Proof.
  intros deact i st fr order (Hn & HS & HA) LF HF HP. unfold rstep.
  assert (MO : forall j, In j order <-> (j < List.length ks)%nat).
  { intros j. split; intros H.
    - apply (Permutation_in _ HP) in H. apply in_seq in H. lia.
    - apply (Permutation_in _ (Permutation_sym HP)). apply in_seq. lia. }
  assert (NO : NoDup order) by (apply (Permutation_NoDup (Permutation_sym HP)); apply seq_NoDup).
  destruct i as [|i].
  - rewrite HA. cbn [List.length repeat].
    assert (EM : rmatch_loop c fr order [] [] (repeat true (List.length fr)) = ([], [], repeat true (List.length fr))).
    { destruct order; reflexivity. }
    rewrite EM. cbn [rdeact_loop]. unfold rdeact_loop. cbn [List.length seq rev filter foldM bind].
    eexists. split; [reflexivity|]. unfold steady_state. cbn [rnframe rsaved ractive].
    split; [now rewrite Hn|]. split; [exact HS|].
    rewrite filter_every by (intros j Hj; apply in_seq in Hj; apply nth_repeat_lt; lia).
    rewrite ractivate_room by (cbn [List.length]; rewrite seq_length; lia). cbn [app].
    split; [rewrite map_length, seq_length; exact LF|]. intros j Hj.
    rewrite (nth_map_lt _ _ _ 0%nat) by (rewrite seq_length; lia). rewrite seq_nth by lia. cbn [Nat.add].
    destruct (HF j Hj) as [Ef Em]. rewrite Hn. split; [now apply follows_newborn|reflexivity].
  - destruct HA as [LA HA].
    pose proof (steady_match (S i) fr LF HF order (ractive st) (repeat true (List.length (ractive st)))
      (repeat true (List.length fr))) as HM.
    destruct (rmatch_loop _ _ _ _ _ _) as [[ts ft] fp]. destruct HM as (L1 & HM); auto.
    + intros j Hj. now apply MO.
    + now rewrite repeat_length.
    + now rewrite repeat_length.
    + intros j Hj. rewrite nth_repeat_lt by lia. rewrite MO. tauto.
    + intros j Hj. rewrite nth_repeat_lt by lia. rewrite MO. tauto.
    + intros j Hj. rewrite nth_repeat_lt by lia. now apply HA.
    + rewrite rdeact_loop_spec, filter_none.
      2:{ intros j Hj. apply in_seq in Hj. apply HM. lia. }
      cbn [map rev foldM bind]. rewrite (filter_every _ (fun j => negb (nth j ft false))).
      2:{ intros j Hj. apply in_seq in Hj. apply negb_true_iff. apply HM. lia. }
      eexists. split; [reflexivity|]. rewrite filter_none.
      2:{ intros j Hj. apply in_seq in Hj. apply HM. lia. }
      cbn [ractivate_loop]. unfold steady_state. cbn [rnframe rsaved ractive].
      split; [now rewrite Hn|]. split; [exact HS|]. rewrite map_nth_seq.
      split; [exact L1|]. intros j Hj. now apply HM.
Qed.
End Steady.

(** ** From the samples to the tracks *)

Lemma scaled_rev : forall h c x, c <> 0 -> scaled_by_hop h c x -> scaled_by_hop h (/ c) (rev x).
Proof.
  intros h c x Hc H i Hi. rewrite rev_length in Hi. rewrite !rev_nth by lia.
  replace (List.length x - S i)%nat with ((List.length x - S (i + h)) + h)%nat by lia.
  rewrite H by lia. field. exact Hc.
Qed.

Definition hop_db (g : R) : R := 20 * (ln g / ln 10).
Lemma levels_shift : forall w h y n g i, scaled_by_hop h g y -> 0 < g -> (1 <= h)%nat -> (i < frame_count w h y)%nat ->
  forall win k, 0 < magnitude win (frame_of w h 0 y) n k ->
  level win (frame_of w h i y) n k = level win (frame_of w h 0 y) n k + INR i * hop_db g.
Proof.
  intros w h y n g i HS Hg Hh Hi win k Hm. rewrite (frames_scaled w h y g i HS Hh Hi).
  rewrite level_scaled by (auto using pow_lt). unfold hop_db. rewrite ln_pow by exact Hg. field.
  pose proof ln10_pos. lra.
Qed.

Lemma float_eps_pos : 0 < float_eps.
Proof. unfold float_eps. apply Rinv_0_lt_compat. apply pow_lt. lra. Qed.

Lemma frame_step_eq : forall phase argsort o y g st i,
  let c := rt_cfg (rm_tracker o) in let w := List.length (rm_w o) in let h := Pos.to_nat (g_h c) in let n := rm_n o in
  let lev i := level (rm_w o) (frame_of w h i y) n in
  (2 <= zlen (rm_w o))%Z -> (zlen (rm_w o) <= n)%Z -> 0 < g -> scaled_by_hop h g y ->
  (forall i k, (i < frame_count w h y)%nat -> (0 <= k <= n / 2)%Z ->
     float_eps <= magnitude (rm_w o) (frame_of w h i y) n k) ->
  (i < frame_count w h y)%nat ->
  let ks := rpeak_detect (map (lev i) (zrange (n / 2 + 1))) (rm_t o) in
  StronglySorted Z.lt ks /\
  (forall k, In k ks <-> local_peak (lev 0%nat) n k /\ above (rm_t o) (lev 0%nat k + INR i * hop_db g)) /\
  let fr := map (fun k => mkRPeak (vloc (lev 0%nat) k * g_fs c / IZR n) (vlev (lev 0%nat) k + INR i * hop_db g)
                                  (phase (frame_of w h i y) (vloc (lev 0%nat) k))) ks in
  rframe_step phase argsort o st (frame_of w h i y) = rstep c (rt_deact (rm_tracker o)) st (fr, argsort fr).
Proof.
  intros phase argsort o y g st i c w h n lev H2 HN Hg HS HF Hi ks.
  assert (Hh : (1 <= h)%nat) by (unfold h; lia).
  assert (SH : forall k, (0 <= k <= n / 2)%Z -> lev i k = lev 0%nat k + INR i * hop_db g).
  { intros k Hk. unfold lev. apply levels_shift; auto. eapply Rlt_le_trans; [apply float_eps_pos|]. apply HF; auto. lia. }
  assert (N0 : (0 <= n)%Z) by (unfold n; lia).
  split; [apply detect_sorted|].
  assert (SP : forall k, local_peak (lev i) n k -> local_peak (lev 0%nat) n k).
  { intros k. apply local_peak_shift with (s := INR i * hop_db g). exact SH. }
  assert (IK : forall k, In k ks <-> local_peak (lev 0%nat) n k /\ above (rm_t o) (lev 0%nat k + INR i * hop_db g)).
  { intros k. unfold ks. rewrite detect_iff by exact N0. split; intros [HP HA].
    - assert (HP' := SP k HP). split; [exact HP'|]. destruct HP as (? & ? & _). rewrite SH in HA by lia. exact HA.
    - assert (HP' : local_peak (lev i) n k).
      { apply local_peak_shift with (lev' := lev 0%nat) (s := - (INR i * hop_db g)); [|exact HP].
        intros j Hj. rewrite SH by exact Hj. ring. }
      split; [exact HP'|]. destruct HP as (? & ? & _). rewrite SH by lia. exact HA. }
  split; [exact IK|]. intros fr. unfold rframe_step. fold c n.
  rewrite (dft_level (rm_w o) (frame_of w h i y) n H2 HN).
  2:{ apply frame_length. }
  2:{ intros k Hk. apply HF; auto. }
  cbn [bind]. fold (lev i). rewrite rpeaks_ok by exact N0. cbn [bind].
  assert (EF : map (fun k => mkRPeak (vloc (lev i) k * g_fs c / IZR n) (vlev (lev i) k) (phase (frame_of w h i y) (vloc (lev i) k)))
                 (rpeak_detect (map (lev i) (zrange (n / 2 + 1))) (rm_t o)) = fr).
  { unfold fr. apply map_ext_in. intros k Hk. apply IK in Hk. destruct Hk as [(? & ? & _) _].
    assert (SHk : forall j, (k - 1 <= j <= k + 1)%Z -> lev i j = lev 0%nat j + INR i * hop_db g) by (intros j Hj; apply SH; lia).
    rewrite (vloc_shift _ _ _ _ SHk), (vlev_shift _ _ _ _ SHk). reflexivity. }
  rewrite EF. reflexivity.
Qed.

(** What [fit] is given. *)
Definition strategy_known (t : rtracker) : Prop :=
  match t with RSine _ => True | RModal m => exists f, rfreq_diff_function m = Ok f end.

Lemma tracks_ok : forall phase argsort o x g,
  let c := rt_cfg (rm_tracker o) in let w := List.length (rm_w o) in let h := Pos.to_nat (g_h c) in let n := rm_n o in
  let y := if rt_reverse (rm_tracker o) then rev x else x in
  let lev := level (rm_w o) (frame_of w h 0 y) n in
  let F k := vloc lev k * g_fs c / IZR n in
  rm_padded o = false -> (2 <= zlen (rm_w o))%Z -> (zlen (rm_w o) <= n)%Z -> (w <= List.length x)%nat ->
  0 < g -> scaled_by_hop h g y ->
  (forall i k, (i < frame_count w h y)%nat -> (0 <= k <= n / 2)%Z ->
     float_eps <= magnitude (rm_w o) (frame_of w h i y) n k) ->
  (forall fr pi, In pi (argsort fr) -> (pi < List.length fr)%nat) ->
  (forall k k', local_peak lev n k -> local_peak lev n k' -> k <> k' -> rdf c (F k) <= Rabs (F k' - F k)) ->
  strategy_known (rm_tracker o) -> (3 <= rmin_sine_len c)%Z ->
  exists ts, rtracks phase argsort o x = Ok ts /\
    Forall (saved_ok F (vlev lev) (hop_db g) (local_peak lev n)) ts.
Proof.
  intros phase argsort o x g c w h n y lev F HP H2 HN HL Hg HS HF HO HD HK H3.
  assert (Hh : (1 <= h)%nat) by (unfold h; lia).
  assert (LY : List.length y = List.length x) by (unfold y; destruct (rt_reverse _); [apply rev_length|reflexivity]).
  unfold rtracks. fold y c. rewrite HP.
  replace (zlen (rm_w o)) with (Z.of_nat w) by reflexivity. replace (Zpos (g_h c)) with (Z.of_nat h) by (unfold h; lia).
  rewrite frames_ok; [|unfold zlen in H2; fold w in H2; lia|exact Hh|rewrite LY; exact HL]. cbn [bind].
  set (SO := saved_ok F (vlev lev) (hop_db g) (local_peak lev n)).
  set (AO := active_ok F (vlev lev) (hop_db g) (local_peak lev n)).
  assert (DE : forall i sv t, Forall SO sv -> AO i t -> exists sv', rt_deact (rm_tracker o) sv t = Ok sv' /\ Forall SO sv').
  { intros i sv t HSv HT. unfold rt_deact. destruct (rm_tracker o) as [c0|m] eqn:ET.
    - apply (rsine_deact_inv _ _ _ _ _ i); auto.
    - apply (rmodal_deact_inv _ _ _ _ c HD m i); auto. }
  destruct (foldM_range _ _ (rframe_step phase argsort o) (fun i => frame_of w h i y)
    (lines_ok F (vlev lev) (hop_db g) (local_peak lev n)) (frame_count w h y) 0%nat rreset) as (st & E & Hn & HSv & HA).
  - intros i st Hi HI.
    destruct (frame_step_eq phase argsort o y g st i H2 HN Hg HS HF) as (_ & IK & EF); [exact (proj2 Hi)|].
    cbv zeta in EF. unfold w, h, c. rewrite EF. apply (step_inv _ _ _ _ c HD _ DE); auto.
    apply Forall_forall. intros p Hp. apply in_map_iff in Hp. destruct Hp as (k & <- & Hk). apply IK in Hk.
    exists k. split; [apply Hk|]. split; reflexivity.
  - repeat split; constructor.
  - rewrite E. cbn [bind]. eexists. split; [reflexivity|]. cbn [Nat.add] in HA. fold SO in HSv.
    assert (ALL : forall ok, (forall t, ok t = true -> rsine_ok c t = true) -> Forall SO (rall_tracks ok st)).
    { intros ok HOK. unfold rall_tracks. apply Forall_app. split; [exact HSv|].
      apply Forall_forall. intros t Ht. apply in_map_iff in Ht. destruct Ht as (u & <- & Hu). apply filter_In in Hu.
      destruct Hu as [Hu OKu]. apply HOK in OKu. unfold rsine_ok in OKu. apply Z.leb_le in OKu.
      destruct (proj1 (Forall_forall _ _) HA u Hu) as (k & Pk & Hk). exists k. split; auto.
      apply (follows_saved _ _ _ k _ u Hk). lia. }
    unfold rt_all. destruct (rm_tracker o) as [c0|m] eqn:ET; [apply ALL; auto|].
    assert (AM : Forall SO (rall_tracks (rmodal_ok m) st)).
    { apply ALL. intros t. unfold rmodal_ok. destruct (rsine_ok (g_base m) t) eqn:ES; [|discriminate]. intros _. exact ES. }
    unfold rmodal_all_tracks. destruct (g_strip m); [|exact AM].
    apply Forall_forall. intros t Ht. apply filter_In in Ht. apply (proj1 (Forall_forall _ _) AM). tauto.
Qed.

Lemma sorted_same : forall a b, StronglySorted Z.lt a -> StronglySorted Z.lt b -> (forall k, In k a <-> In k b) -> a = b.
Proof.
  intros a b SA. revert b. induction SA as [|x a SA IH FA]; intros b SB H.
  - destruct b as [|y b]; auto. exfalso. apply (H y). now left.
  - destruct SB as [|y b SB FB]; [exfalso; apply (H x); now left|].
    rewrite Forall_forall in FA, FB.
    assert (x = y).
    { destruct (proj1 (H x) (or_introl eq_refl)) as [E|Ix]; [congruence|].
      destruct (proj2 (H y) (or_introl eq_refl)) as [E|Iy]; [congruence|].
      specialize (FA y Iy). specialize (FB x Ix). lia. }
    subst y. f_equal. apply IH; auto. intros k. split; intros Ik.
    + destruct (proj1 (H k) (or_intror Ik)) as [E|]; auto. subst k. specialize (FA x Ik). lia.
    + destruct (proj2 (H k) (or_intror Ik)) as [E|]; auto. subst k. specialize (FB x Ik). lia.
Qed.

(** Whether the tracker keeps a line that is there in all frames. *)
Definition keeps (t : rtracker) (m : nat) (f l0 s : R) : Prop :=
  match t with
  | RSine _ => True
  | RModal tr => (match g_fmin tr with Some b => b <= f | None => True end) /\
                 (match g_fmax tr with Some b => f <= b | None => True end) /\
                 g_thr tr <= (if g_rev tr then l0 + INR (m - 1) * s else l0)
  end.

(** Slope and intercept of points on a line. *)
Lemma ols_line : forall xs k q, (exists a b, In a xs /\ In b xs /\ a <> b) ->
  let ys := map (fun x => k * x + q) xs in rols_coef xs ys = k /\ rols_intercept xs ys = q.
Proof.
  intros xs k q (a & b & Ia & Ib & Hab) ys.
  assert (LN : 0 < INR (List.length xs)).
  { apply lt_0_INR. destruct xs; [destruct Ia|cbn; lia]. }
  assert (MY : rmean ys = k * rmean xs + q).
  { unfold rmean, ys. rewrite map_length.
    assert (G : forall l, rsum (map (fun x => k * x + q) l) = k * rsum l + INR (List.length l) * q).
    { induction l as [|v l IH]; [cbn; ring|]. cbn [map]. change (rsum (?u :: ?v)) with (u + rsum v).
      change (List.length (v :: l)) with (S (List.length l)). rewrite S_INR, IH. ring. }
    rewrite G. field. lra. }
  assert (SX : 0 < rsum (map (fun x => (x - rmean xs) * (x - rmean xs)) xs)).
  { set (mu := rmean xs). assert (NN : forall l, 0 <= rsum (map (fun x => (x - mu) * (x - mu)) l)).
    { induction l as [|v l IH]; [cbn; lra|]. cbn [map].
      change (rsum (?u :: ?v)) with (u + rsum v). pose proof (Rle_0_sqr (v - mu)) as Q. unfold Rsqr in Q. lra. }
    assert (PP : forall z l, In z l -> z <> mu -> 0 < rsum (map (fun x => (x - mu) * (x - mu)) l)).
    { intros z l. induction l as [|v l IH]; intros Iz Nz; [destruct Iz|]. cbn [map].
      change (rsum (?u :: ?v)) with (u + rsum v). pose proof (NN l). destruct Iz as [->|Iz].
      - assert (z - mu <> 0) by lra. assert (0 < (z - mu) * (z - mu)) by nra. lra.
      - specialize (IH Iz Nz). pose proof (Rle_0_sqr (v - mu)) as Q. unfold Rsqr in Q. lra. }
    destruct (Req_dec a mu) as [E|N]; [apply (PP b); auto; congruence|apply (PP a); auto]. }
  assert (EC : rols_coef xs ys = k).
  { unfold rols_coef. rewrite MY. set (mu := rmean xs) in *.
    assert (G : forall l, rsum (map (fun xy => (fst xy - mu) * (snd xy - (k * mu + q))) (combine l (map (fun x => k * x + q) l))) =
                          k * rsum (map (fun x => (x - mu) * (x - mu)) l)).
    { induction l as [|v l IH]; [cbn; ring|]. cbn [map combine fst snd]. change (rsum (?u :: ?v)) with (u + rsum v).
      rewrite IH. ring. }
    unfold ys. rewrite G. field. lra. }
  split; [exact EC|]. unfold rols_intercept. rewrite EC, MY. ring.
Qed.

Lemma lm_x_map : forall (r : bool) m, rlm_x r m = map (fun j => if r then INR (m - 1 - j) else INR j) (seq 0 m).
Proof.
  intros r m. unfold rlm_x. destruct r; [|reflexivity].
  apply (nth_ext _ _ 0 0); [now rewrite rev_length, !map_length|].
  intros i Hi. rewrite rev_length, map_length, seq_length in Hi.
  rewrite rev_nth by (rewrite map_length, seq_length; lia). rewrite map_length, seq_length.
  rewrite !(nth_map_lt _ _ _ 0%nat) by (rewrite seq_length; lia). rewrite !seq_nth by lia. f_equal. lia.
Qed.

Lemma modal_keeps : forall F M s k tr m t, (3 <= m)%nat -> follows F M s k m t -> l_start t = 0%nat ->
  (rmin_sine_len (g_base tr) <= Z.of_nat m)%Z -> (if g_rev tr then 0 < s else s < 0) ->
  (rmodal_ok tr t = true <-> keeps (RModal tr) m (F k) (M k) s).
Proof.
  intros F M s k tr m t H3 (n & H1 & H2 & E1 & E2 & E3) H0 HL HS. rewrite H0 in *. cbn [Nat.add] in H2. subst n.
  unfold rmodal_ok.
  assert (OS : rsine_ok (g_base tr) t = true).
  { unfold rsine_ok. rewrite E1, repeat_length. apply Z.leb_le. exact HL. }
  rewrite OS. cbn [negb].
  assert (MF : rmean (l_freq t) = F k).
  { unfold rmean. rewrite E1, repeat_length. assert (G : forall n, rsum (repeat (F k) n) = INR n * F k).
    { induction n as [|n IH]; [cbn; ring|]. cbn [repeat]. change (rsum (?u :: ?v)) with (u + rsum v). rewrite S_INR, IH. ring. }
    rewrite G. field. apply not_0_INR. lia. }
  rewrite MF.
  set (sl := if g_rev tr then - s else s). set (q0 := if g_rev tr then M k + INR (m - 1) * s else M k).
  assert (LM : List.length (l_mag t) = m) by (rewrite E2, map_length, seq_length; reflexivity).
  rewrite LM, lm_x_map.
  set (xs := map (fun j => if g_rev tr then INR (m - 1 - j) else INR j) (seq 0 m)).
  assert (EY : l_mag t = map (fun x => sl * x + q0) xs).
  { rewrite E2. unfold xs. rewrite map_map. apply map_ext_in. intros j Hj. apply in_seq in Hj. cbn [Nat.add].
    unfold sl, q0. destruct (g_rev tr); [|ring]. rewrite (minus_INR (m - 1) j) by lia. ring. }
  destruct (ols_line xs sl q0) as [EC EI].
  { exists (if g_rev tr then INR (m - 1 - 0) else INR 0), (if g_rev tr then INR (m - 1 - 1) else INR 1).
    repeat split.
    - apply (in_map (fun j => if g_rev tr then INR (m - 1 - j) else INR j)). apply in_seq. lia.
    - apply (in_map (fun j => if g_rev tr then INR (m - 1 - j) else INR j)). apply in_seq. lia.
    - destruct (g_rev tr); intros E; apply INR_eq in E; lia. }
  rewrite EY, EC, EI.
  destruct (Rltb 0 sl) eqn:ESL.
  { exfalso. apply Rltb_true in ESL. unfold sl in ESL. destruct (g_rev tr); lra. }
  unfold keeps. fold q0.
  destruct (g_fmin tr) as [lo|]; [destruct (Rltb (F k) lo) eqn:EA|].
  - apply Rltb_true in EA. split; [discriminate|]. intros [? _]. lra.
  - apply Rltb_false in EA. destruct (g_fmax tr) as [hi|]; [destruct (Rltb hi (F k)) eqn:EB|].
    + apply Rltb_true in EB. split; [discriminate|]. intros (_ & ? & _). lra.
    + apply Rltb_false in EB. destruct (Rltb q0 (g_thr tr)) eqn:EQ.
      * apply Rltb_true in EQ. split; [discriminate|]. intros (_ & _ & ?). lra.
      * apply Rltb_false in EQ. tauto.
    + destruct (Rltb q0 (g_thr tr)) eqn:EQ.
      * apply Rltb_true in EQ. split; [discriminate|]. intros (_ & _ & ?). lra.
      * apply Rltb_false in EQ. tauto.
  - destruct (g_fmax tr) as [hi|]; [destruct (Rltb hi (F k)) eqn:EB|].
    + apply Rltb_true in EB. split; [discriminate|]. intros (_ & ? & _). lra.
    + apply Rltb_false in EB. destruct (Rltb q0 (g_thr tr)) eqn:EQ.
      * apply Rltb_true in EQ. split; [discriminate|]. intros (_ & _ & ?). lra.
      * apply Rltb_false in EQ. tauto.
    + destruct (Rltb q0 (g_thr tr)) eqn:EQ.
      * apply Rltb_true in EQ. split; [discriminate|]. intros (_ & _ & ?). lra.
      * apply Rltb_false in EQ. tauto.
Qed.

(** With lines in all frames there is one track for each line that is kept. *)
Lemma tracks_steady : forall phase argsort o x g ks,
  let c := rt_cfg (rm_tracker o) in let w := List.length (rm_w o) in let h := Pos.to_nat (g_h c) in let n := rm_n o in
  let y := if rt_reverse (rm_tracker o) then rev x else x in
  let m := frame_count w h y in
  let lev := level (rm_w o) (frame_of w h 0 y) n in
  let F k := vloc lev k * g_fs c / IZR n in
  rm_padded o = false -> (2 <= zlen (rm_w o))%Z -> (zlen (rm_w o) <= n)%Z -> (w <= List.length x)%nat ->
  0 < g -> scaled_by_hop h g y -> (if rt_reverse (rm_tracker o) then 0 < hop_db g else hop_db g < 0) ->
  (forall i k, (i < m)%nat -> (0 <= k <= n / 2)%Z -> float_eps <= magnitude (rm_w o) (frame_of w h i y) n k) ->
  (forall fr, Permutation (argsort fr) (seq 0 (List.length fr))) ->
  StronglySorted Z.lt ks -> (forall k, In k ks <-> local_peak lev n k) ->
  (forall i k, (i < m)%nat -> In k ks -> above (rm_t o) (lev k + INR i * hop_db g)) ->
  (forall k k', In k ks -> In k' ks -> k <> k' -> rdf c (F k) <= Rabs (F k' - F k)) ->
  (forall k, In k ks -> 0 < rdf c (F k)) -> (Z.of_nat (List.length ks) <= g_max c)%Z ->
  (rmin_sine_len c <= Z.of_nat m)%Z -> (3 <= m)%nat ->
  match rm_tracker o with
  | RModal tr => match g_strip tr with Some st => (0 <= Rceil (st * rframe_rate c))%Z | None => True end
  | RSine _ => True end ->
  exists ks' ts, rtracks phase argsort o x = Ok ts /\
    StronglySorted Z.lt ks' /\
    (forall k, In k ks' <-> local_peak lev n k /\ keeps (rm_tracker o) m (F k) (vlev lev k) (hop_db g)) /\
    Forall2 (saved_on F (vlev lev) (hop_db g)) ks' ts.
Proof.
  intros phase argsort o x g ks c w h n y m lev F HP H2 HN HL Hg HS HG HF HO SK IK HA HD HT HM HLen H3 HST.
  assert (Hh : (1 <= h)%nat) by (unfold h; lia).
  assert (LY : List.length y = List.length x) by (unfold y; destruct (rt_reverse _); [apply rev_length|reflexivity]).
  assert (ND := sorted_nodup ks SK).
  unfold rtracks. fold y c. rewrite HP.
  replace (zlen (rm_w o)) with (Z.of_nat w) by reflexivity. replace (Zpos (g_h c)) with (Z.of_nat h) by (unfold h; lia).
  rewrite frames_ok; [|unfold zlen in H2; fold w in H2; lia|exact Hh|rewrite LY; exact HL]. cbn [bind]. fold m.
  destruct (foldM_range _ _ (rframe_step phase argsort o) (fun i => frame_of w h i y)
    (steady_state F (vlev lev) (hop_db g) ks) m 0%nat rreset) as (st & E & Hn & HSv & HAc).
  - intros i st Hi HI.
    destruct (frame_step_eq phase argsort o y g st i H2 HN Hg HS HF) as (SS & IS & EF); [exact (proj2 Hi)|].
    set (ksi := rpeak_detect _ _) in *.
    assert (EK : ksi = ks).
    { apply sorted_same; auto. intros k. rewrite IS, IK. split; [tauto|]. intros HK. split; [exact HK|].
      apply HA; [exact (proj2 Hi)|]. apply IK. exact HK. }
    rewrite EK in EF. clearbody ksi. cbv zeta in EF. unfold w, h, c. rewrite EF.
    apply steady_step with (F := F) (M := vlev lev) (s := hop_db g) (ks := ks); auto.
    + apply map_length.
    + intros j Hj. rewrite (nth_map_lt _ _ _ 0%Z) by exact Hj. cbn [rp_f rp_m]. split; reflexivity.
  - repeat split.
  - cbn [Nat.add] in Hn, HAc. rewrite E. cbn [bind].
    assert (HAc' : List.length (ractive st) = List.length ks /\ forall j, (j < List.length ks)%nat ->
      steady_track F (vlev lev) (hop_db g) (nth j ks 0%Z) m (nth j (ractive st) no_ltrack)).
    { clear - HAc H3. destruct m as [|m']; [lia|exact HAc]. }
    clear HAc. destruct HAc' as [LA HAc].
    assert (F2 : Forall2 (fun k t => steady_track F (vlev lev) (hop_db g) k m t) ks (ractive st)).
    { clear - LA HAc. revert LA HAc. generalize (ractive st).
      induction ks as [|k ks IH]; intros [|t l] LA HAc; try discriminate; constructor.
      - apply (HAc 0%nat). cbn. lia.
      - apply IH; [cbn in LA; lia|]. intros j Hj. apply (HAc (S j)). cbn. lia. }
    set (ok := match rm_tracker o with RSine c0 => rsine_ok c0 | RModal tr => rmodal_ok tr end).
    assert (OK : forall k t, steady_track F (vlev lev) (hop_db g) k m t ->
      (ok t = true <-> keeps (rm_tracker o) m (F k) (vlev lev k) (hop_db g))).
    { intros k t [Hk H0]. unfold ok. unfold c in HLen. destruct (rm_tracker o) as [c0|tr] eqn:ET.
      - cbn [keeps]. split; [auto|]. intros _. unfold rsine_ok. destruct Hk as (n' & _ & En & E1 & _).
        rewrite H0 in En. cbn in En. subst n'. rewrite E1, repeat_length. apply Z.leb_le. exact HLen.
      - apply modal_keeps; auto. }
    assert (G : exists ks' ts, map rnumpy_track (filter ok (ractive st)) = ts /\ StronglySorted Z.lt ks' /\
      (forall k, In k ks' <-> In k ks /\ keeps (rm_tracker o) m (F k) (vlev lev k) (hop_db g)) /\
      Forall2 (saved_on F (vlev lev) (hop_db g)) ks' ts /\
      forall t, In t ts -> r_start t = 0%Z /\ zlen (r_mag t) = Z.of_nat m).
    { clear - F2 OK SK H3. revert F2 SK. generalize (ractive st). induction ks as [|k ks IH]; intros l F2 SK.
      - inversion F2; subst. exists [], []. repeat split; try constructor; cbn in *; tauto.
      - inversion F2 as [|? t ? l' Hkt F2']; subst. inversion SK as [|? ? SK' FK]; subst.
        destruct (IH l' F2' SK') as (ks' & ts & ET & SKs & IKs & FSs & ZS). cbn [filter].
        assert (QT : saved_on F (vlev lev) (hop_db g) k (rnumpy_track t)).
        { destruct Hkt as [Hkt H0]. apply (follows_saved _ _ _ k m t Hkt). destruct Hkt as (n' & _ & En & E1 & _).
          rewrite H0 in En. cbn in En. subst n'. rewrite E1, repeat_length. exact H3. }
        destruct (ok t) eqn:EO.
        + exists (k :: ks'), (rnumpy_track t :: ts). cbn [map]. rewrite ET. split; [reflexivity|].
          split; [|split; [|split]].
          * constructor; auto. rewrite Forall_forall in FK |- *. intros k' Hk'. apply FK. apply IKs in Hk'. tauto.
          * intros k'. cbn [In]. rewrite IKs. split; [|tauto]. intros [<-|?]; [|tauto].
            split; [now left|]. now apply (OK k t).
          * constructor; auto.
          * intros u [<-|Hu]; [|auto]. destruct Hkt as [(n' & _ & En & _ & E2 & _) H0]. unfold rnumpy_track, zlen.
            cbn [r_start r_mag]. rewrite H0 in *. cbn in En. subst n'. split; [reflexivity|].
            now rewrite E2, !map_length, seq_length.
        + exists ks', ts. split; [exact ET|]. split; [exact SKs|]. split; [|auto].
          intros k'. cbn [In]. rewrite IKs. split; [tauto|]. intros [[<-|?] HK]; [|tauto].
          apply (OK k t) in HK; [congruence|auto]. }
    destruct G as (ks' & ts & ET & SKs & IKs & FSs & ZS). exists ks', ts.
    assert (ER : rt_all (rm_tracker o) st = ts).
    { unfold rt_all. unfold ok in ET. destruct (rm_tracker o) as [c0|tr] eqn:ETr.
      - unfold rall_tracks. rewrite HSv. exact ET.
      - unfold rmodal_all_tracks, rall_tracks. rewrite HSv, ET. cbn [app].
        destruct (g_strip tr) as [sv|]; [|reflexivity]. apply filter_every. intros t Ht.
        destruct (ZS t Ht) as [E0 EL]. rewrite E0, EL, Hn. apply Z.leb_le. cbn [rt_cfg] in c. fold c.
        destruct (g_rev tr); lia. }
    rewrite ER. split; [reflexivity|]. split; [exact SKs|]. split; [|exact FSs].
    intros k. rewrite IKs, IK. tauto.
Qed.
