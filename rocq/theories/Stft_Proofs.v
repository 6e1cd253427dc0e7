(** Lemmas for framing, zero-phase buffer and peak picking. *)
From Coq Require Import List ZArith QArith Qround Qabs Bool Lia Sorted Lqa.
Import ListNotations.
From Verif Require Import Base Py PyLemmas ListLemmas Stft_Model.
Local Open Scope Z_scope.

(** *** Windows *)

Lemma zrange_nth : forall n i d, (i < Z.to_nat n)%nat -> nth i (zrange n) d = Z.of_nat i.
Proof.
  intros. unfold zrange. rewrite (nth_map_lt _ _ _ 0%nat) by (rewrite seq_length; lia).
  rewrite seq_nth by lia. reflexivity.
Qed.
Lemma zrange_length : forall n, List.length (zrange n) = Z.to_nat n.
Proof. intros. unfold zrange. now rewrite map_length, seq_length. Qed.

Lemma nth_error_map_zrange : forall B (f : Z -> B) n i, (i < Z.to_nat n)%nat ->
  nth_error (map f (zrange n)) i = Some (f (Z.of_nat i)).
Proof.
  intros. rewrite (nth_error_nth' _ (f 0)) by (rewrite map_length, zrange_length; lia).
  f_equal. rewrite (nth_map_lt _ _ _ 0) by (rewrite zrange_length; lia).
  f_equal. now apply zrange_nth.
Qed.

Lemma windows_ok : forall A (a : list A) w h, 1 <= w -> 1 <= h -> w <= zlen a ->
  exists rows, overlapping_windows a w (Some h) = Ok rows /\
    zlen rows = 1 + (zlen a - w) / h /\
    (forall i j, 0 <= i < zlen rows -> 0 <= j < w ->
       0 <= i * h + j < zlen a /\
       exists row, nth_error rows (Z.to_nat i) = Some row /\ zlen row = w /\
         nth_error row (Z.to_nat j) = Some (nth_error a (Z.to_nat (i * h + j)))) /\
    (zlen rows - 1) * h + w <= zlen a < zlen rows * h + w.
Proof.
  intros A a w h Hw Hh Ha. unfold overlapping_windows, n_windows.
  destruct (Z.eqb_spec h 0) as [|_]; [lia|]. cbn [bind].
  set (n := 1 + (zlen a - w) / h).
  assert (Hn : 1 <= n) by (unfold n; pose proof (Z.div_pos (zlen a - w) h); lia).
  destruct (Z.ltb_spec n 0); [lia|]. destruct (Z.ltb_spec w 0); [lia|]. simpl.
  eexists. split; [reflexivity|].
  assert (L : zlen (map (fun i => map (fun j => cell a (i * h + j)) (zrange w))
                        (zrange n)) = n).
  { unfold zlen at 1. rewrite map_length, zrange_length. lia. }
  rewrite L.
  assert (M : (n - 1) * h + w <= zlen a < n * h + w).
  { unfold n. pose proof (Z.div_mod (zlen a - w) h). pose proof (Z.mod_pos_bound (zlen a - w) h). nia. }
  split; [reflexivity|]. split; [|exact M].
  intros i j Hi Hj.
  assert (B : 0 <= i * h + j < zlen a) by nia.
  split; [exact B|].
  rewrite nth_error_map_zrange by lia. eexists. split; [reflexivity|].
  split. { unfold zlen. rewrite map_length, zrange_length. lia. }
  rewrite nth_error_map_zrange by lia. f_equal.
  rewrite !Z2Nat.id by lia. unfold cell.
  destruct (Z.ltb_spec (i * h + j) 0); [lia|reflexivity].
Qed.

Lemma windows_short : forall A (a : list A) w h, 1 <= h -> zlen a < w ->
  overlapping_windows a w (Some h) =
  if w - zlen a <=? h then Ok [] else Err ValueError.
Proof.
  intros A a w h Hh Ha. pose proof (zlen_nonneg _ a).
  unfold overlapping_windows, n_windows.
  destruct (Z.eqb_spec h 0) as [|_]; [lia|]. cbn [bind].
  pose proof (Z.div_mod (zlen a - w) h). pose proof (Z.mod_pos_bound (zlen a - w) h).
  destruct (Z.leb_spec (w - zlen a) h).
  - assert ((zlen a - w) / h = -1) as -> by nia.
    destruct (Z.ltb_spec w 0); [lia|reflexivity].
  - assert ((zlen a - w) / h < -1) by nia.
    destruct (Z.ltb_spec (1 + (zlen a - w) / h) 0); [reflexivity|lia].
Qed.

(** *** Padding *)

Lemma pad_ok : forall w x, 1 <= w ->
  pad_input true w x =
  Ok (repeat 0%Q (Z.to_nat ((w + 1) / 2)) ++ x ++ repeat 0%Q (Z.to_nat (w / 2)),
      (w + 1) / 2).
Proof.
  intros w x Hw. unfold pad_input. simpl negb. cbn iota. cbv zeta.
  pose proof (Z.div_pos (w + 1) 2). pose proof (Z.div_pos w 2).
  set (a := (w + 1) / 2) in *. set (b := w / 2) in *.
  pose proof (zlen_nonneg _ x).
  rewrite (set_slice_exact _ _ _ x _ (Z.to_nat a) (Z.to_nat (a + zlen x))).
  - cbn [bind]. rewrite firstn_repeat, skipn_repeat.
    do 5 f_equal; lia.
  - rewrite zlen_repeat. unfold lo_bound. rewrite slice_bound_pos; lia.
  - rewrite zlen_repeat. unfold hi_bound. rewrite slice_bound_pos; lia.
  - lia.
  - unfold zlen in *. lia.
Qed.

Lemma pad_size : forall w (x : list Q), 1 <= w ->
  zlen (repeat 0%Q (Z.to_nat ((w + 1) / 2)) ++ x ++ repeat 0%Q (Z.to_nat (w / 2)))
  = zlen x + w.
Proof.
  intros. rewrite !zlen_app, !zlen_repeat.
  pose proof (Z.div_pos (w + 1) 2). pose proof (Z.div_pos w 2).
  rewrite !Z2Nat.id by lia.
  assert ((w + 1) / 2 + w / 2 = w); [|lia].
  pose proof (Z.div_mod (w + 1) 2). pose proof (Z.div_mod w 2).
  pose proof (Z.mod_pos_bound (w + 1) 2). pose proof (Z.mod_pos_bound w 2). lia.
Qed.

Lemma padded_sample : forall w x i, 1 <= w -> 0 <= i < zlen x ->
  nth_error (repeat 0%Q (Z.to_nat ((w + 1) / 2)) ++ x ++ repeat 0%Q (Z.to_nat (w / 2)))
            (Z.to_nat ((w + 1) / 2 + i)) = nth_error x (Z.to_nat i).
Proof.
  intros w x i Hw Hi. pose proof (Z.div_pos (w + 1) 2). unfold zlen in Hi.
  rewrite nth_error_app2 by (rewrite repeat_length; lia).
  rewrite repeat_length, nth_error_app1 by lia. f_equal. lia.
Qed.

Lemma frames_cover : forall w h x, 1 <= w -> 1 <= h <= w / 2 + 1 ->
  exists rows, time_frames true w h x = Ok rows /\
    forall i, 0 <= i < zlen x ->
      exists r j row, 0 <= r < zlen rows /\ 0 <= j < w /\
        r * h + j = (w + 1) / 2 + i /\
        nth_error rows (Z.to_nat r) = Some row /\
        nth_error row (Z.to_nat j) = Some (nth_error x (Z.to_nat i)).
Proof.
  intros w h x Hw Hh. unfold time_frames. rewrite pad_ok by lia. cbn [bind fst].
  pose proof (pad_size w x Hw) as S. pose proof (zlen_nonneg _ x).
  destruct (windows_ok _ (repeat 0%Q (Z.to_nat ((w + 1) / 2)) ++ x ++ repeat 0%Q (Z.to_nat (w / 2)))
              w h) as (rows & E & _ & C & M); try lia.
  exists rows. split; [exact E|]. intros i Hi. rewrite S in M.
  assert (W : (w + 1) / 2 + w / 2 = w).
  { pose proof (Z.div_mod (w + 1) 2). pose proof (Z.div_mod w 2).
    pose proof (Z.mod_pos_bound (w + 1) 2). pose proof (Z.mod_pos_bound w 2). lia. }
  pose proof (Z.div_pos (w + 1) 2). pose proof (Z.div_pos w 2).
  set (p := (w + 1) / 2 + i).
  set (r := Z.min (p / h) (zlen rows - 1)).
  pose proof (Z.div_mod p h). pose proof (Z.mod_pos_bound p h).
  assert (0 <= p / h) by (apply Z.div_pos; lia).
  assert (1 <= zlen rows) by nia.
  assert (Hr : 0 <= r < zlen rows) by lia.
  assert (Hhw : h <= w). { assert (w / 2 + 1 <= w) by (pose proof (Z.div_mod w 2); pose proof (Z.mod_pos_bound w 2); lia). lia. }
  assert (Hj : 0 <= p - r * h < w).
  { unfold r. destruct (Z.min_spec (p / h) (zlen rows - 1)) as [[? ->]|[? ->]]; nia. }
  destruct (C r (p - r * h) Hr Hj) as (B & row & R & _ & V).
  exists r, (p - r * h), row. repeat split; try lia; auto.
  rewrite V. f_equal. replace (r * h + (p - r * h)) with p by lia.
  apply padded_sample; auto.
Qed.

Lemma frames_miss : forall w h, 1 <= w -> w / 2 + 1 < h ->
  exists x rows i, time_frames true w h x = Ok rows /\ 0 <= i < zlen x /\
    forall r j, 0 <= r < zlen rows -> 0 <= j < w -> r * h + j <> (w + 1) / 2 + i.
Proof.
  intros w h Hw Hh. pose proof (Z.div_pos w 2).
  exists (repeat 1%Q (Z.to_nat (h - 1))).
  set (x := repeat 1%Q (Z.to_nat (h - 1))).
  assert (Lx : zlen x = h - 1) by (unfold x; rewrite zlen_repeat; lia).
  unfold time_frames. rewrite pad_ok by lia. cbn [bind fst].
  pose proof (pad_size w x Hw) as S. pose proof (zlen_nonneg _ x).
  destruct (windows_ok _ (repeat 0%Q (Z.to_nat ((w + 1) / 2)) ++ x ++ repeat 0%Q (Z.to_nat (w / 2)))
              w h) as (rows & E & N & C & M); try lia.
  exists rows, (h - 2). split; [exact E|]. split; [lia|].
  rewrite S, Lx in N. replace (h - 1 + w - w) with (h - 1) in N by lia.
  rewrite Z.div_small in N by lia. intros r j Hr Hj.
  assert (r = 0) by lia. subst r.
  pose proof (Z.div_mod (w + 1) 2). pose proof (Z.div_mod w 2).
  pose proof (Z.mod_pos_bound (w + 1) 2). pose proof (Z.mod_pos_bound w 2). lia.
Qed.

Lemma frame_centre : forall w h x rows, 1 <= w -> 1 <= h ->
  time_frames true w h x = Ok rows ->
  forall r row, 0 <= r -> nth_error rows (Z.to_nat r) = Some row ->
    forall i, 0 <= i < zlen x -> i = r * h - w mod 2 ->
      nth_error row (Z.to_nat (w / 2)) = Some (nth_error x (Z.to_nat i)).
Proof.
  intros w h x rows Hw Hh E r row Hr R i Hi Ei.
  unfold time_frames in E. rewrite pad_ok in E by lia. cbn [bind fst] in E.
  pose proof (pad_size w x Hw) as S.
  destruct (windows_ok _ (repeat 0%Q (Z.to_nat ((w + 1) / 2)) ++ x ++ repeat 0%Q (Z.to_nat (w / 2)))
              w h) as (rows' & E' & N & C & M); try lia.
  rewrite E' in E. inversion E; subst rows'.
  assert (r < zlen rows).
  { assert (nth_error rows (Z.to_nat r) <> None) by congruence.
    apply nth_error_Some in H. unfold zlen. lia. }
  pose proof (Z.div_mod (w + 1) 2). pose proof (Z.div_mod w 2).
  pose proof (Z.mod_pos_bound (w + 1) 2). pose proof (Z.mod_pos_bound w 2).
  destruct (C r (w / 2)) as (B & row' & R' & _ & V); try lia.
  rewrite R in R'. inversion R'; subst row'. rewrite V. f_equal.
  rewrite <- (padded_sample w x i) by lia. do 2 f_equal. subst i.
  assert (w / 2 + w mod 2 = (w + 1) / 2) by lia. lia.
Qed.

(** *** Zero-phase buffer *)

Lemma buffer_concrete : forall A (zero : A) xw n, 2 <= zlen xw -> zlen xw <= n ->
  dft_buffer zero xw n =
  Ok (skipn (Z.to_nat (zlen xw / 2)) xw
      ++ repeat zero (Z.to_nat (n - zlen xw))
      ++ firstn (Z.to_nat (zlen xw / 2)) xw).
Proof.
  intros A zero xw n H2 Hn. unfold dft_buffer.
  set (m := zlen xw) in *. set (hw := m / 2).
  assert (Hhw : 1 <= hw /\ 2 * hw <= m /\ m - hw >= hw).
  { unfold hw. pose proof (Z.div_mod m 2). pose proof (Z.mod_pos_bound m 2). lia. }
  assert (S1 : slice (Some hw) None xw = skipn (Z.to_nat hw) xw).
  { unfold slice, lo_bound, hi_bound. fold m. rewrite slice_bound_pos by lia.
    apply firstn_all2. rewrite skipn_length. unfold m, zlen in *. lia. }
  assert (S2 : slice None (Some hw) xw = firstn (Z.to_nat hw) xw).
  { unfold slice, lo_bound, hi_bound. fold m. rewrite slice_bound_pos by lia.
    simpl. now rewrite Nat.sub_0_r. }
  rewrite S1, S2.
  rewrite (set_slice_exact _ _ _ _ _ 0 (Z.to_nat (m - hw))).
  2: reflexivity.
  2: { rewrite zlen_repeat. unfold hi_bound. rewrite slice_bound_pos; lia. }
  2: lia.
  2: { rewrite skipn_length. unfold m, zlen in *. lia. }
  cbn [bind]. simpl firstn. simpl app. rewrite skipn_repeat.
  assert (L : zlen (skipn (Z.to_nat hw) xw ++ repeat zero (Z.to_nat n - Z.to_nat (m - hw))) = n).
  { rewrite zlen_app, zlen_repeat. unfold zlen at 1. rewrite skipn_length.
    unfold m, zlen in *. lia. }
  rewrite (set_slice_exact _ _ _ _ _ (Z.to_nat (n - hw)) (Z.to_nat n)).
  - rewrite firstn_app, skipn_length.
    replace (List.length xw) with (Z.to_nat m) by (unfold m, zlen; lia).
    rewrite (skipn_all2 (n := Z.to_nat n)).
    2: { unfold zlen in L. lia. }
    rewrite app_nil_r. rewrite firstn_all2.
    2: { rewrite skipn_length. unfold m, zlen in *. lia. }
    rewrite firstn_repeat. rewrite <- app_assoc. do 4 f_equal. lia.
  - rewrite L. unfold lo_bound. rewrite slice_bound_neg by lia. reflexivity.
  - rewrite L. reflexivity.
  - lia.
  - rewrite firstn_length. unfold m, zlen in *. lia.
Qed.

Lemma buffer_spec : forall A (zero : A) xw n, 2 <= zlen xw -> zlen xw <= n ->
  exists buf, dft_buffer zero xw n = Ok buf /\ zlen buf = n /\
    forall p, 0 <= p < n ->
      nth (Z.to_nat p) buf zero =
      nth (Z.to_nat ((p + zlen xw / 2) mod n)) xw zero.
Proof.
  intros A zero xw n H2 Hn. rewrite buffer_concrete by auto.
  eexists. split; [reflexivity|].
  set (m := zlen xw) in *. set (hw := m / 2).
  assert (Hhw : 1 <= hw /\ 2 * hw <= m /\ m - hw >= hw).
  { unfold hw. pose proof (Z.div_mod m 2). pose proof (Z.mod_pos_bound m 2). lia. }
  assert (Lm : List.length xw = Z.to_nat m) by (unfold m, zlen; lia).
  split.
  { rewrite !zlen_app, zlen_repeat. unfold zlen at 1 2.
    rewrite skipn_length, firstn_length. lia. }
  intros p Hp.
  destruct (Z_lt_ge_dec p (m - hw)).
  - rewrite app_nth1 by (rewrite skipn_length; lia).
    rewrite nth_skipn_add, Z.mod_small by lia. f_equal. lia.
  - rewrite app_nth2 by (rewrite skipn_length; lia). rewrite skipn_length.
    destruct (Z_lt_ge_dec p (n - hw)).
    + rewrite app_nth1 by (rewrite repeat_length; lia).
      rewrite Z.mod_small by lia.
      rewrite (nth_overflow xw) by lia.
      rewrite nth_repeat_lt by lia. reflexivity.
    + rewrite app_nth2 by (rewrite repeat_length; lia).
      rewrite repeat_length.
      rewrite nth_firstn_lt by lia. f_equal.
      replace (p + hw) with (p + hw - n + 1 * n) by lia.
      rewrite Z.mod_add by lia. rewrite Z.mod_small by lia. lia.
Qed.

Lemma buffer_one : forall A (zero v : A) n, 1 <= n ->
  dft_buffer zero [v] n = Err ValueError.
Proof.
  intros. unfold dft_buffer. change (zlen [v]) with 1. cbv zeta.
  change (1 / 2) with 0. change (1 - 0) with 1. change (- 0) with 0.
  change (slice (Some 0) None [v]) with [v].
  rewrite (set_slice_exact _ _ _ _ _ 0 1).
  2: reflexivity.
  2: { rewrite zlen_repeat. unfold hi_bound. rewrite slice_bound_pos by lia. reflexivity. }
  2: lia. 2: reflexivity.
  cbn [bind]. change (slice None (Some 0) [v]) with (@nil A). unfold set_slice.
  rewrite skipn_repeat. cbn [firstn app].
  assert (E : hi_bound (zlen (v :: repeat zero (Z.to_nat n - 1))) None = Z.to_nat n).
  { unfold hi_bound, zlen. simpl. rewrite repeat_length. lia. }
  rewrite E. simpl lo_bound. unfold lo_bound, slice_bound. simpl.
  replace (Z.to_nat (Z.min 0 (zlen (v :: repeat zero (Z.to_nat n - 1))))) with 0%nat.
  2: { rewrite Z.min_l by apply zlen_nonneg. reflexivity. }
  rewrite Nat.sub_0_r. destruct (Z.to_nat n) eqn:En; [lia|reflexivity].
Qed.

(** *** Peaks *)

Lemma peak_conds : forall x t, exists conds,
  List.length conds = (List.length x - 2)%nat /\
  peak_detect x t = map (fun i => Z.of_nat i + 1)
      (filter (fun i => nth i conds false) (seq 0 (List.length conds))) /\
  forall i, (i < List.length conds)%nat ->
    (nth i conds false = true <->
     (nth (2 + i) x 0 < nth (1 + i) x 0)%Q /\ (nth i x 0 < nth (1 + i) x 0)%Q /\
     match t with None => True | Some t => (t < nth (1 + i) x 0)%Q end).
Proof.
  intros x t. unfold peak_detect.
  set (c := slice (Some 1) (Some (-1)) x).
  set (nx := slice (Some 2) None x).
  set (pv := slice None (Some (-2)) x).
  assert (Lx : zlen x = Z.of_nat (List.length x)) by reflexivity.
  assert (Lc : List.length c = (List.length x - 2)%nat).
  { unfold c. rewrite slice_length. unfold hi_bound, lo_bound, slice_bound. rewrite Lx.
    change (-1 <? 0) with true. change (-2 <? 0) with true.
    change (1 <? 0) with false. change (2 <? 0) with false. cbv iota. lia. }
  assert (Ln : List.length nx = (List.length x - 2)%nat).
  { unfold nx. rewrite slice_length. unfold hi_bound, lo_bound, slice_bound. rewrite Lx.
    change (-1 <? 0) with true. change (-2 <? 0) with true.
    change (1 <? 0) with false. change (2 <? 0) with false. cbv iota. lia. }
  assert (Lp : List.length pv = (List.length x - 2)%nat).
  { unfold pv. rewrite slice_length. unfold hi_bound, lo_bound, slice_bound. rewrite Lx.
    change (-1 <? 0) with true. change (-2 <? 0) with true.
    change (1 <? 0) with false. change (2 <? 0) with false. cbv iota. lia. }
  assert (Nc : forall i, (i < List.length x - 2)%nat -> nth i c 0%Q = nth (1 + i) x 0%Q).
  { intros. unfold c. rewrite slice_nth by (fold c; lia). f_equal.
    unfold lo_bound. rewrite slice_bound_pos by lia. reflexivity. }
  assert (Nn : forall i, (i < List.length x - 2)%nat -> nth i nx 0%Q = nth (2 + i) x 0%Q).
  { intros. unfold nx. rewrite slice_nth by (fold nx; lia). f_equal.
    unfold lo_bound. rewrite slice_bound_pos by lia. reflexivity. }
  assert (Np : forall i, (i < List.length x - 2)%nat -> nth i pv 0%Q = nth i x 0%Q).
  { intros. unfold pv. rewrite slice_nth by (fold pv; lia). reflexivity. }
  clearbody c nx pv.
  set (g := fun p : Q * Q => Qltb (snd p) (fst p)).
  set (b := fun p : bool * bool => fst p && snd p).
  set (c2 := map b (combine (map g (combine c nx)) (map g (combine c pv)))).
  assert (L2 : List.length c2 = (List.length x - 2)%nat).
  { unfold c2. rewrite map_length, combine_length, !map_length, !combine_length. lia. }
  assert (V2 : forall i, (i < List.length c2)%nat ->
     (nth i c2 false = true <->
     (nth (2 + i) x 0 < nth (1 + i) x 0)%Q /\ (nth i x 0 < nth (1 + i) x 0)%Q)).
  { intros i Hi. rewrite L2 in Hi. unfold c2.
    rewrite (nth_map_lt _ _ _ (false, false))
      by (rewrite combine_length, !map_length, !combine_length; lia).
    rewrite nth_combine by (rewrite map_length, combine_length; lia).
    rewrite !(nth_map_lt _ _ g (0%Q, 0%Q)) by (rewrite combine_length; lia).
    rewrite !nth_combine by lia. unfold b, g. cbn [fst snd].
    rewrite andb_true_iff, !Qltb_true, Nc, Nn, Np by lia. tauto. }
  destruct t as [t|].
  - exists (map b (combine c2 (map (fun v => Qltb t v) c))).
    assert (L3 : List.length (map b (combine c2 (map (fun v => Qltb t v) c)))
                 = (List.length x - 2)%nat).
    { rewrite map_length, combine_length, map_length. lia. }
    split; [exact L3|]. split; [reflexivity|]. intros i Hi. rewrite L3 in Hi.
    rewrite (nth_map_lt _ _ _ (false, false))
      by (rewrite combine_length, !map_length; lia).
    rewrite nth_combine by (rewrite ?map_length; lia).
    rewrite (nth_map_lt _ _ (fun v => Qltb t v) 0%Q) by lia.
    unfold b at 1. cbn [fst snd]. rewrite andb_true_iff, V2 by lia.
    rewrite Qltb_true, Nc by lia. tauto.
  - exists c2. split; [exact L2|]. split; [reflexivity|]. intros i Hi.
    rewrite V2 by auto. tauto.
Qed.

Lemma peak_iff : forall x t i,
  In i (peak_detect x t) <->
  1 <= i /\ i + 1 < zlen x /\
  (at_ x (i - 1) < at_ x i)%Q /\ (at_ x (i + 1) < at_ x i)%Q /\
  match t with None => True | Some t => (t < at_ x i)%Q end.
Proof.
  intros x t i. destruct (peak_conds x t) as (conds & L & E & V). rewrite E.
  rewrite in_map_iff. unfold at_, zlen. split.
  - intros (k & Ek & Hk). apply filter_In in Hk. destruct Hk as [Hk Ck].
    apply in_seq in Hk. apply V in Ck; [|lia]. subst i.
    replace (Z.to_nat (Z.of_nat k + 1 - 1)) with k by lia.
    replace (Z.to_nat (Z.of_nat k + 1 + 1)) with (2 + k)%nat by lia.
    replace (Z.to_nat (Z.of_nat k + 1)) with (1 + k)%nat by lia.
    destruct Ck as (A & B & C). repeat split; auto; lia.
  - intros (H1 & H2 & A & B & C). exists (Z.to_nat (i - 1)). split; [lia|].
    apply filter_In. split; [apply in_seq; lia|]. apply V; [lia|].
    replace (2 + Z.to_nat (i - 1))%nat with (Z.to_nat (i + 1)) by lia.
    replace (1 + Z.to_nat (i - 1))%nat with (Z.to_nat i) by lia. auto.
Qed.

Lemma sorted_filter_seq : forall (f : nat -> bool) n k,
  StronglySorted Z.lt (map (fun i => Z.of_nat i + 1) (filter f (seq k n))).
Proof.
  induction n; intros k; simpl; [constructor|].
  destruct (f k); simpl; auto. constructor; auto.
  apply Forall_forall. intros z Hz. apply in_map_iff in Hz.
  destruct Hz as (j & <- & Hj). apply filter_In in Hj. destruct Hj as [Hj _].
  apply in_seq in Hj. lia.
Qed.

Lemma peak_sorted : forall x t, StronglySorted Z.lt (peak_detect x t).
Proof.
  intros. destruct (peak_conds x t) as (conds & _ & E & _). rewrite E.
  apply sorted_filter_seq.
Qed.

Lemma peak_gap : forall x t i j, In i (peak_detect x t) -> In j (peak_detect x t) ->
  i < j -> i + 2 <= j.
Proof.
  intros x t i j Hi Hj L. destruct (Z.eq_dec j (i + 1)) as [->|]; [|lia].
  apply peak_iff in Hi. apply peak_iff in Hj.
  destruct Hi as (_ & _ & _ & A & _). destruct Hj as (_ & _ & B & _ & _).
  replace (i + 1 - 1) with i in B by lia.
  exfalso. apply (Qlt_irrefl (at_ x i)). eapply Qlt_trans; eauto.
Qed.

(** *** Parabola *)

Lemma inv_neg_bound : forall d x : Q, (d < 0 -> x == d * (x / d))%Q.
Proof. intros. field. intro E. rewrite E in H. apply (Qlt_irrefl 0). auto. Qed.

Lemma Qsq_nonneg : forall x : Q, (0 <= x * x)%Q.
Proof. intro x. nra. Qed.

(** The quadratic [c + b s + a s^2] with [a < 0] in vertex form. *)
Lemma vertex_facts : forall l c r : Q, (l < c)%Q -> (r < c)%Q ->
  let d := ((1 # 2) * (l - r) / (l - 2 * c + r))%Q in
  let m := (c - (1 # 4) * (l - r) * d)%Q in
  (~ l - 2 * c + r == 0 /\ - (1 # 2) < d < 1 # 2 /\ c <= m /\
   forall a b s, a - b + c == l -> a + b + c == r ->
     (c + b * s + a * (s * s) <= m) /\
     (c + b * d + a * (d * d) == m))%Q.
Proof.
  intros l c r Hl Hr d m.
  set (D := (l - 2 * c + r)%Q).
  assert (HD : (D < 0)%Q) by (unfold D; lra).
  assert (HD0 : ~ (D == 0)%Q) by lra.
  assert (Ed : ((1 # 2) * (l - r) == d * D)%Q).
  { unfold d. fold D. field. exact HD0. }
  assert (B1 : (- (1 # 2) < d)%Q).
  { destruct (Qlt_le_dec (- (1 # 2)) d) as [|C]; auto. exfalso.
    assert (- (1 # 2) * D <= d * D)%Q by nra. unfold D in *. lra. }
  assert (B2 : (d < 1 # 2)%Q).
  { destruct (Qlt_le_dec d (1 # 2)) as [|C]; auto. exfalso.
    assert (d * D <= (1 # 2) * D)%Q by nra. unfold D in *. lra. }
  assert (Em : (m == c - (1 # 2) * d * d * D)%Q).
  { unfold m. transitivity (c - (1 # 2) * d * ((1 # 2) * (l - r)))%Q; [ring|].
    rewrite Ed. ring. }
  split; [exact HD0|]. split; [auto|]. split.
  { rewrite Em. pose proof (Qsq_nonneg d). clear -HD H. nra. }
  intros a b s Ha Hb.
  assert (Ea : (2 * a == D)%Q) by (unfold D; lra).
  assert (Eb : (b == - (d * D))%Q) by (rewrite <- Ed; lra).
  assert (Hs : (c + b * s + a * (s * s) == m + (1 # 2) * D * ((s - d) * (s - d)))%Q).
  { rewrite Em, Eb. assert (a == (1 # 2) * D)%Q as -> by lra. ring. }
  split.
  - rewrite Hs. pose proof (Qsq_nonneg (s - d)). generalize dependent ((s - d) * (s - d))%Q.
    clear -HD. intros z _ Hz. nra.
  - rewrite Em, Eb. assert (a == (1 # 2) * D)%Q as -> by lra. ring.
Qed.

Lemma refine_ok : forall mx px i, 1 <= i -> i + 1 < zlen mx ->
  let l := at_ mx (i - 1) in let c := at_ mx i in let r := at_ mx (i + 1) in
  let d := ((1 # 2) * (l - r) / (l - 2 * c + r))%Q in
  refine1 mx px i =
  Ok (inject_Z i + d, c - (1 # 4) * (l - r) * d,
      interp_arange (inject_Z i + d) px)%Q.
Proof.
  intros mx px i H1 H2 l c r d. unfold refine1.
  rewrite (getitem_ok _ 0%Q) by lia. cbn [bind].
  rewrite (getitem_ok _ 0%Q) by lia. cbn [bind].
  rewrite (getitem_ok _ 0%Q) by lia. reflexivity.
Qed.

Lemma interp_between : forall x px i, 0 <= i -> i + 1 < zlen px ->
  (inject_Z i <= x <= inject_Z (i + 1))%Q ->
  exists s, (0 <= s <= 1 /\ s == x - inject_Z i /\
    interp_arange x px == (1 - s) * at_ px i + s * at_ px (i + 1))%Q.
Proof.
  intros x px i H0 H1 [L U]. exists (x - inject_Z i)%Q.
  assert (E : (inject_Z (i + 1) == inject_Z i + 1)%Q) by (rewrite inject_Z_plus; reflexivity).
  split. { rewrite E in U. split; lra. }
  split; [reflexivity|].
  unfold interp_arange.
  assert (Hi0 : (0 <= inject_Z i)%Q) by (change 0%Q with (inject_Z 0); rewrite <- Zle_Qle; lia).
  destruct (Qle_bool x 0) eqn:Q0.
  { apply Qle_bool_iff in Q0.
    assert (i = 0). { assert (inject_Z i <= inject_Z 0)%Q by (change (inject_Z 0) with 0%Q; lra).
      rewrite <- Zle_Qle in H. lia. }
    subst i. assert (x == 0)%Q as -> by (change (inject_Z 0) with 0%Q in L; lra).
    unfold at_. change (inject_Z 0) with 0%Q. simpl Z.to_nat. ring. }
  destruct (Qle_bool (inject_Z (zlen px - 1)) x) eqn:Q1.
  { apply Qle_bool_iff in Q1.
    assert (i + 1 = zlen px - 1).
    { assert (inject_Z (zlen px - 1) <= inject_Z (i + 1))%Q by lra.
      rewrite <- Zle_Qle in H. lia. }
    rewrite <- H in *. assert (X : (x == inject_Z i + 1)%Q) by lra. rewrite X.
    unfold at_. ring. }
  assert (Hx : (~ x <= 0)%Q). { intro C. apply Qle_bool_iff in C. congruence. }
  assert (Fl : Qfloor x = i \/ (Qfloor x = i + 1 /\ (x == inject_Z (i + 1))%Q)).
  { pose proof (Qfloor_le x) as F1. pose proof (Qlt_floor x) as F2.
    assert (inject_Z (Qfloor x) <= inject_Z (i + 1))%Q as A by lra.
    rewrite <- Zle_Qle in A.
    assert (inject_Z i < inject_Z (Qfloor x + 1))%Q as B by lra.
    rewrite <- Zlt_Qlt in B.
    destruct (Z.eq_dec (Qfloor x) i); auto. right. assert (Qfloor x = i + 1) as F by lia.
    split; auto. rewrite F in F1. lra. }
  destruct Fl as [->|[-> X]].
  - unfold at_. ring.
  - rewrite X, E. unfold at_. ring.
Qed.

(** What is known about one refined peak. *)
Lemma refined_peak : forall mx px t i, zlen px = zlen mx ->
  In i (peak_detect mx t) ->
  exists f m p, refine1 mx px i = Ok (f, m, p) /\
    (inject_Z i - (1 # 2) < f < inject_Z i + (1 # 2))%Q /\
    ~ (at_ mx (i - 1) - 2 * at_ mx i + at_ mx (i + 1) == 0)%Q /\
    (at_ mx i <= m)%Q /\
    (forall a b, a - b + at_ mx i == at_ mx (i - 1) ->
                 a + b + at_ mx i == at_ mx (i + 1) ->
       let P z := at_ mx i + b * (z - inject_Z i)
                  + a * ((z - inject_Z i) * (z - inject_Z i)) in
       P f == m /\ forall z, P z <= m)%Q /\
    exists j s, (j = i - 1 \/ j = i) /\
      (0 <= s <= 1 /\ s == f - inject_Z j /\
       p == (1 - s) * at_ px j + s * at_ px (j + 1))%Q.
Proof.
  intros mx px t i Lp Hi. apply peak_iff in Hi.
  destruct Hi as (H1 & H2 & A & B & _).
  rewrite refine_ok by lia.
  set (l := at_ mx (i - 1)) in *. set (c := at_ mx i) in *.
  set (r := at_ mx (i + 1)) in *.
  set (d := ((1 # 2) * (l - r) / (l - 2 * c + r))%Q).
  destruct (vertex_facts l c r A B) as (D0 & [Dl Du] & Cm & V). fold d in Dl, Du, Cm, V.
  eexists _, _, _. split; [reflexivity|].
  split; [split; lra|]. split; [exact D0|]. split; [exact Cm|]. split.
  - intros a b Ha Hb P. split.
    + destruct (V a b d Ha Hb) as [_ E]. rewrite <- E. unfold P. ring.
    + intros z. destruct (V a b (z - inject_Z i)%Q Ha Hb) as [E _]. exact E.
  - destruct (Qlt_le_dec d 0) as [N|P].
    + destruct (interp_between (inject_Z i + d) px (i - 1)) as (s & S1 & S2 & S3); try lia.
      { replace (i - 1 + 1) with i by lia. unfold Z.sub. rewrite inject_Z_plus.
        change (inject_Z (- (1))) with (-1)%Q. split; lra. }
      exists (i - 1), s. split; [now left|]. auto.
    + destruct (interp_between (inject_Z i + d) px i) as (s & S1 & S2 & S3); try lia.
      { rewrite inject_Z_plus. change (inject_Z 1) with 1%Q. split; lra. }
      exists i, s. split; [now right|]. auto.
Qed.

Lemma detect_interp_ok : forall mx px t, zlen px = zlen mx ->
  exists ps, peak_detect_interp mx px t = Ok ps /\
    Forall2 (fun i q => refine1 mx px i = Ok q) (peak_detect mx t) ps /\
    StronglySorted Qlt (map (fun q => fst (fst q)) ps).
Proof.
  intros mx px t L. unfold peak_detect_interp, peak_refine.
  assert (E : exists ps, Forall2 (fun i q => refine1 mx px i = Ok q) (peak_detect mx t) ps).
  { assert (F : Forall (fun i => In i (peak_detect mx t)) (peak_detect mx t))
      by (apply Forall_forall; auto).
    induction F as [|i l Hi F IH]. { exists []. constructor. }
    destruct IH as (ps & IH). destruct (refined_peak mx px t i L Hi) as (f & m & p & R & _).
    exists ((f, m, p) :: ps). now constructor. }
  destruct E as (ps & F). exists ps. split; [now apply mapM_ok|]. split; [exact F|].
  assert (S := peak_sorted mx t).
  assert (G := fun i j => peak_gap mx t i j).
  assert (B : Forall2 (fun i q => inject_Z i - (1 # 2) < fst (fst q) < inject_Z i + (1 # 2))%Q
                      (peak_detect mx t) ps).
  { assert (I : forall i, In i (peak_detect mx t) -> In i (peak_detect mx t)) by auto.
    clear G S. revert F I. generalize (peak_detect mx t) at 1 2 4. intros l F I.
    induction F; constructor.
    - destruct (refined_peak mx px t x L (I x (or_introl eq_refl))) as (f & m & p & R & Bd & _).
      rewrite H in R. inversion R; subst. exact Bd.
    - apply IHF. intros i Hi. apply I. now right. }
  clear F. revert S G B. generalize (peak_detect mx t). intros l S G B.
  induction B as [|i q l ps Hq B IH]; simpl; [constructor|].
  inversion S; subst. constructor.
  - apply IH; auto. intros; apply G; simpl; auto.
  - apply Forall_forall. intros f Hf. apply in_map_iff in Hf.
    destruct Hf as (q' & <- & Hq').
    assert (exists j, In j l /\ (inject_Z j - (1 # 2) < fst (fst q'))%Q) as (j & Hj & Bj).
    { clear -B Hq'. induction B; destruct Hq'; subst.
      - exists x. simpl. split; auto. tauto.
      - destruct (IHB H0) as (j & ? & ?). exists j. simpl. auto. }
    assert (i + 2 <= j).
    { apply G; simpl; auto. rewrite Forall_forall in H2. now apply H2. }
    apply Qlt_trans with (inject_Z i + (1 # 2))%Q; [tauto|].
    assert (inject_Z (i + 2) <= inject_Z j)%Q by (rewrite <- Zle_Qle; auto).
    rewrite inject_Z_plus in H0. change (inject_Z 2) with 2%Q in H0. lra.
Qed.

Lemma freq_in_band : forall mx px t fs n f m p, zlen px = zlen mx ->
  2 <= n -> zlen mx = n / 2 + 1 -> (0 < fs)%Q ->
  (exists ps, peak_detect_interp mx px t = Ok ps /\ In (f, m, p) ps) ->
  (0 < bin_to_hz fs n f < fs / 2)%Q.
Proof.
  intros mx px t fs n f m p L Hn Lm Hfs (ps & E & Hin).
  destruct (detect_interp_ok mx px t L) as (ps' & E' & F & _).
  rewrite E in E'. inversion E'; subst ps'.
  assert (exists i, In i (peak_detect mx t) /\ refine1 mx px i = Ok (f, m, p)) as (i & Hi & R).
  { clear -F Hin. induction F; destruct Hin; subst.
    - exists x. simpl. auto.
    - destruct (IHF H0) as (i & ? & ?). exists i. simpl; auto. }
  destruct (refined_peak mx px t i L Hi) as (f' & m' & p' & R' & [B1 B2] & _).
  rewrite R in R'. inversion R'; subst f' m' p'.
  apply peak_iff in Hi. destruct Hi as (H1 & H2 & _).
  assert (I1 : (1 <= inject_Z i)%Q) by (change 1%Q with (inject_Z 1); rewrite <- Zle_Qle; auto).
  assert (I2 : (2 * (inject_Z i + 1) <= inject_Z n)%Q).
  { change 2%Q with (inject_Z 2). change 1%Q with (inject_Z 1).
    rewrite <- inject_Z_plus, <- inject_Z_mult, <- Zle_Qle.
    pose proof (Z.div_mod n 2). pose proof (Z.mod_pos_bound n 2). lia. }
  unfold bin_to_hz. split.
  - apply Qlt_shift_div_l; nra.
  - apply Qlt_shift_div_r; [lra|]. apply Qlt_le_trans with (fs * (inject_Z n / 2))%Q.
    + assert (f < inject_Z n / 2)%Q. { apply Qlt_shift_div_l; lra. } nra.
    + assert (fs * (inject_Z n / 2) == fs / 2 * inject_Z n)%Q as -> by (field; discriminate).
      apply Qle_refl.
Qed.
