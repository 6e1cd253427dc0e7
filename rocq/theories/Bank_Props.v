(** Properties of the filterbanks, of the mel spectrogram and of the hinge
    regression: C38, C39, C46, C61. *)
From Coq Require Import List Bool ZArith Reals Lra Lia Sorted.
Import ListNotations.
From Verif Require Import Base Py PyLemmas ListLemmas RLists Np_Model Np_Lemmas Dsp_Model
  Dsp_Proofs Sample_Model Sample_Proofs Psycho_Model Psycho_Proofs Psycho_Math Bank_Model Bank_Proofs.
Local Open Scope R_scope.

(** ** C38 *)

(** The ERB-rate scale. *)
Definition cams (f : R) : R := 1117 / 100 * ln ((f + 312) / (f + 14675)) + 43.

(** Any number of filters: as many increasing frequencies, inside the limits,
    with the same distance on the ERB-rate scale.  The first one is half a
    distance above the lower limit (so the last one is one and a half distances
    below the upper limit). *)
Theorem c38_frequencies : forall junk n lo hi, -312 < lo -> lo < hi -> (0 <= n)%Z ->
  exists fs,
    gammatone_freqs (call junk (hz2cams junk)) (call junk (cams2hz junk)) (Some n) [lo; hi] = Ok fs /\
    zlen fs = n /\ StronglySorted Rlt fs /\ Forall (fun f => lo < f < hi) fs /\
    let step := (cams hi - cams lo) / (IZR n + 1) in
    0 < step /\
    (forall i, (i < List.length fs)%nat -> cams (nth i fs 0) - cams lo = (INR i + 1 / 2) * step) /\
    (forall i, (i + 1 < List.length fs)%nat -> cams (nth (i + 1) fs 0) - cams (nth i fs 0) = step) /\
    (fs <> [] -> cams hi - cams (last fs 0) = 3 / 2 * step).
Proof.
  intros junk n lo hi Hlo Hhi Hn. unfold gammatone_freqs.
  change (getitem [lo; hi] 0) with (Ok lo). change (getitem [lo; hi] (-1)) with (Ok hi). cbn [bind].
  rewrite (call_elementwise _ _ _ _ (hz2cams_ok junk)). cbn [bind map].
  fold (cams lo). fold (cams hi).
  change (getitem [cams lo; cams hi] 0) with (Ok (cams lo)).
  change (getitem [cams lo; cams hi] (-1)) with (Ok (cams hi)). cbn [bind].
  rewrite (call_elementwise _ _ _ _ (cams2hz_ok junk)).
  set (h := fun x => (312 - 14675 * exp ((x - 43) / (1117 / 100))) / (exp ((x - 43) / (1117 / 100)) - 1)).
  eexists. split; [reflexivity|].
  set (D := cams hi - cams lo). set (step := D / (IZR n + 1)).
  assert (Hn1 : 0 < IZR n + 1) by (apply IZR_le in Hn; lra).
  assert (HD : 0 < D).
  { unfold D, cams. pose proof (cams_inc lo hi Hlo Hhi). lra. }
  assert (Hs : 0 < step) by (apply Rdiv_lt_0_compat; auto).
  assert (ED : D = (IZR n + 1) * step) by (unfold step; field; lra).
  assert (Hc : cams hi < 43) by (apply cams_below; lra).
  rewrite map_map.
  set (p := fun i : nat => (INR i + 1 / 2) * step + cams lo).
  assert (Ep : forall i : nat, (INR i + 1 / 2) * D / (IZR n + 1) + cams lo = p i)
    by (intro i; unfold p, step; field; lra).
  assert (Hp : forall i, (i < Z.to_nat n)%nat -> cams lo < p i < cams hi).
  { intros i Hi. unfold p. assert (0 <= INR i) by apply pos_INR.
    assert (INR i + 1 <= IZR n).
    { rewrite <- S_INR, INR_IZR_INZ. apply IZR_le. lia. }
    unfold D in ED. nra. }
  assert (Hinv : forall c, c < 43 -> -312 < h c /\ cams (h c) = c).
  { intros c Hc'. apply (cams_inv' c Hc'). }
  assert (Hcancel : forall f, -312 < f -> h (cams f) = f) by (intros f Hf; apply (cams_inv f Hf)).
  assert (Hlt : forall x y, -312 < x -> -312 < y -> cams x < cams y -> x < y).
  { intros x y Hx Hy H. destruct (Rtotal_order x y) as [L|[->|G]]; auto; [lra|].
    pose proof (cams_inc y x Hy G). unfold cams in H. lra. }
  set (fs := map (fun x => h ((INR x + 1 / 2) * D / (IZR n + 1) + cams lo)) (seq 0 (Z.to_nat n))).
  assert (Len : List.length fs = Z.to_nat n) by (unfold fs; now rewrite map_length, seq_length).
  assert (Nth : forall i, (i < Z.to_nat n)%nat -> nth i fs 0 = h (p i)).
  { intros i Hi. unfold fs. rewrite (nth_map_lt _ _ _ 0%nat) by (rewrite seq_length; lia).
    rewrite seq_nth by lia. now rewrite Ep. }
  assert (Cn : forall i, (i < Z.to_nat n)%nat -> -312 < nth i fs 0 /\ cams (nth i fs 0) = p i).
  { intros i Hi. rewrite (Nth i Hi). apply Hinv. pose proof (Hp i Hi). lra. }
  split; [unfold zlen; rewrite Len; lia|]. split; [|split; [|split; [exact Hs|split; [|split]]]].
  - apply ssorted_of_nth. rewrite Len. intros i j Hij.
    destruct (Cn i ltac:(lia)) as [A1 B1]. destruct (Cn j ltac:(lia)) as [A2 B2].
    apply Hlt; auto. rewrite B1, B2. unfold p.
    assert (INR i < INR j) by (apply lt_INR; lia). nra.
  - apply Forall_forall. intros f Hf. destruct (In_nth fs f 0 Hf) as (i & Hi & <-). rewrite Len in Hi.
    destruct (Cn i Hi) as [A B]. pose proof (Hp i Hi). split; apply Hlt; auto; lra.
  - intros i Hi. rewrite Len in Hi. destruct (Cn i Hi) as [_ ->]. unfold p. ring.
  - intros i Hi. rewrite Len in Hi. destruct (Cn i ltac:(lia)) as [_ ->]. destruct (Cn (i + 1)%nat ltac:(lia)) as [_ ->].
    unfold p. rewrite plus_INR. simpl INR. ring.
  - intro Hne. rewrite last_nth, Len. assert (0 < Z.to_nat n)%nat.
    { rewrite <- Len. destruct fs; simpl; [congruence|lia]. }
    destruct (Cn (Z.to_nat n - 1)%nat ltac:(lia)) as [_ ->]. unfold p.
    rewrite minus_INR by lia. rewrite INR_IZR_INZ, Z2Nat.id by lia. simpl INR. unfold D in ED. lra.
Qed.
Print Assumptions c38_frequencies.

(** The default number of filters is the least that makes the distance at most
    half a unit of the scale. *)
Theorem c38_default_number : forall junk lo hi, -312 < lo -> lo < hi ->
  exists n, (0 <= n)%Z /\
    gammatone_freqs (call junk (hz2cams junk)) (call junk (cams2hz junk)) None [lo; hi] =
    gammatone_freqs (call junk (hz2cams junk)) (call junk (cams2hz junk)) (Some n) [lo; hi] /\
    (forall k, (0 <= k)%Z -> (cams hi - cams lo) / (IZR k + 1) <= 1 / 2 <-> (n <= k)%Z).
Proof.
  intros junk lo hi Hlo Hhi. exists (Rceil (2 * (cams hi - cams lo) - 1)).
  assert (HD : cams lo < cams hi) by (unfold cams; pose proof (cams_inc lo hi Hlo Hhi); lra).
  pose proof (Rceil_spec (2 * (cams hi - cams lo) - 1)) as C.
  set (n := Rceil _) in *. assert (Hn : (-1 < n)%Z) by (apply lt_IZR; lra).
  split; [lia|]. split.
  - unfold gammatone_freqs.
    change (getitem [lo; hi] 0) with (Ok lo). change (getitem [lo; hi] (-1)) with (Ok hi). cbn [bind].
    rewrite (call_elementwise _ _ _ _ (hz2cams_ok junk)). cbn [bind map]. reflexivity.
  - intros k Hk. assert (Hk1 : 0 < IZR k + 1) by (apply IZR_le in Hk; lra). split; intro H.
    + assert (cams hi - cams lo <= 1 / 2 * (IZR k + 1)).
      { apply (Rmult_le_compat_r (IZR k + 1)) in H; [|lra]. field_simplify in H; lra. }
      assert (Hlt : IZR n < IZR k + 1) by lra. rewrite <- plus_IZR in Hlt. apply lt_IZR in Hlt. lia.
    + apply IZR_le in H. apply (Rmult_le_reg_r (IZR k + 1)); [lra|]. field_simplify; lra.
Qed.
Print Assumptions c38_default_number.

(** Two filters between 0 and 100 Hz. *)
Example c38_example : forall junk, exists f0 f1,
  gammatone_freqs (call junk (hz2cams junk)) (call junk (cams2hz junk)) (Some 2%Z) [0; 100] = Ok [f0; f1] /\
  0 < f0 < f1 /\ f1 < 100.
Proof.
  intro junk. destruct (c38_frequencies junk 2 0 100) as (fs & E & L & S & F & _); try lra; try lia.
  destruct fs as [|f0 [|f1 [|f2 fs]]]; try discriminate L.
  - exists f0, f1. split; [exact E|]. inversion_clear S as [|? ? _ F1]. inversion_clear F1.
    inversion_clear F as [|? ? A B]. inversion_clear B. lra.
  - unfold zlen in L. simpl in L. lia.
Qed.

(** ** C39 *)

(** Corner frequencies given: a row per inner corner; the value at each
    frequency is in [0,1], 1 at the centre, 0 outside the neighbouring corners,
    and linear in between. *)
Theorem c39_values : forall freqs corners fwd inv, StronglySorted Rlt corners ->
  (3 <= List.length corners)%nat ->
  exists filts centres,
    mel_triangular_filterbank freqs None None (Some corners) fwd inv = Ok (filts, centres) /\
    List.length filts = (List.length corners - 2)%nat /\
    List.length centres = (List.length corners - 2)%nat /\
    forall i, (i < List.length filts)%nat ->
      let l := nth i corners 0 in let c := nth (i + 1) corners 0 in let r := nth (i + 2) corners 0 in
      nth i centres 0 = c /\ List.length (nth i filts []) = List.length freqs /\
      forall k, (k < List.length freqs)%nat ->
        let x := nth k freqs 0 in let v := nth k (nth i filts []) 0 in
        0 <= v <= 1 /\ (x = c -> v = 1) /\ (x <= l \/ r <= x -> v = 0) /\
        (l <= x <= c -> v * (c - l) = x - l) /\ (c <= x <= r -> v * (r - c) = r - x).
Proof.
  intros freqs corners fwd inv S H. rewrite filterbank_corners by auto. eexists _, _. split; [reflexivity|].
  rewrite !map_length, seq_length. split; [reflexivity|]. split; [reflexivity|]. intros i Hi. cbv zeta.
  rewrite (nth_map_lt _ _ _ 0%nat 0) by (rewrite seq_length; lia).
  rewrite (nth_map_lt _ _ _ 0%nat []) by (rewrite seq_length; lia). rewrite seq_nth by lia.
  rewrite Nat.add_0_l. split; [reflexivity|]. rewrite map_length. split; [reflexivity|]. intros k Hk.
  rewrite (nth_map_lt _ _ _ 0 0) by auto.
  assert (O : nth i corners 0 < nth (i + 1) corners 0 < nth (i + 2) corners 0)
    by (split; apply ssorted_nth; auto; lia).
  set (l := nth i corners 0) in *. set (c := nth (i + 1) corners 0) in *. set (r := nth (i + 2) corners 0) in *.
  set (x := nth k freqs 0). clearbody l c r x. split; [now apply tri_range|]. split; [|split; [|split]].
  - intros ->. rewrite tri_up by lra. field. lra.
  - intros [Hx|Hx]; [now apply tri_left|now apply tri_right].
  - intro Hx. rewrite tri_up by lra. field. lra.
  - intro Hx. rewrite tri_down by lra. field. lra.
Qed.
Print Assumptions c39_values.

(** Between the first and the last centre the filters sum to one. *)
Theorem c39_partition_of_unity : forall freqs corners fwd inv filts centres,
  StronglySorted Rlt corners -> (3 <= List.length corners)%nat ->
  mel_triangular_filterbank freqs None None (Some corners) fwd inv = Ok (filts, centres) ->
  forall k, (k < List.length freqs)%nat ->
    hd 0 centres <= nth k freqs 0 <= last centres 0 ->
    rsum (map (fun row => nth k row 0) filts) = 1.
Proof.
  intros freqs corners fwd inv filts centres S H E k Hk Hx. rewrite filterbank_corners in E by auto.
  injection E as <- <-. rewrite map_map.
  assert (Em : map (fun i => nth k (map (tri (nth i corners 0) (nth (i + 1) corners 0) (nth (i + 2) corners 0)) freqs) 0)
                 (seq 0 (List.length corners - 2)) = tris corners (nth k freqs 0)).
  { apply (list_eq_nth _ 0).
    - now rewrite map_length, seq_length, tris_length.
    - intros i Hi. rewrite map_length, seq_length in Hi.
      rewrite (nth_map_lt _ _ _ 0%nat 0) by (rewrite seq_length; lia). rewrite seq_nth by lia.
      rewrite (nth_map_lt _ _ _ 0 0) by auto. rewrite tris_nth by lia. reflexivity. }
  rewrite Em. destruct corners as [|a [|b [|c l]]]; simpl in H; try lia.
  apply tris_one; auto; [discriminate|]. split.
  - destruct Hx as [Hx _]. simpl in Hx. exact Hx.
  - destruct Hx as [_ Hx]. eapply Rle_trans; [exact Hx|]. rewrite last_nth, map_length, seq_length.
    rewrite (nth_map_lt _ _ _ 0%nat 0) by (rewrite seq_length; simpl; lia).
    rewrite seq_nth by (simpl; lia). unfold last2. right. f_equal. simpl. lia.
Qed.
Print Assumptions c39_partition_of_unity.

(** Two filters that are not neighbours never overlap: at most two filters are
    not zero at a frequency. *)
Theorem c39_overlap : forall freqs corners fwd inv filts centres,
  StronglySorted Rlt corners -> (3 <= List.length corners)%nat ->
  mel_triangular_filterbank freqs None None (Some corners) fwd inv = Ok (filts, centres) ->
  forall i j k, (i < j < List.length filts)%nat -> (k < List.length freqs)%nat ->
    nth k (nth i filts []) 0 <> 0 -> nth k (nth j filts []) 0 <> 0 -> j = (i + 1)%nat.
Proof.
  intros freqs corners fwd inv filts centres S H E i j k Hij Hk. rewrite filterbank_corners in E by auto.
  injection E as <- <-. rewrite map_length, seq_length in Hij.
  rewrite !(nth_map_lt _ _ _ 0%nat []) by (rewrite seq_length; lia). rewrite !seq_nth by lia.
  rewrite !(nth_map_lt _ _ _ 0 0) by auto. rewrite !Nat.add_0_l. intros N1 N2.
  apply tri_nonzero in N1; [|split; apply ssorted_nth; auto; lia].
  apply tri_nonzero in N2; [|split; apply ssorted_nth; auto; lia].
  destruct (Nat.eq_dec j (i + 1)); auto. exfalso.
  assert (nth (i + 2) corners 0 <= nth j corners 0); [|lra].
  destruct (Nat.eq_dec j (i + 2)) as [->|]; [lra|]. left. apply ssorted_nth; auto. lia.
Qed.
Print Assumptions c39_overlap.

(** With a number of filters: the corners are equally spaced on the mel scale
    from one limit to the other, and increasing, so that the theorems above
    apply; with a bandwidth the inner ones are the centres. *)
Lemma removelast_nth : forall (l : list R) i, (i + 1 < List.length l)%nat ->
  nth i (removelast l) 0 = nth i l 0.
Proof.
  induction l as [|x l IH]; intros i H; simpl in H; [lia|]. destruct l as [|y l]; simpl in H; [lia|].
  change (removelast (x :: y :: l)) with (x :: removelast (y :: l)). destruct i; [reflexivity|].
  cbn [nth]. apply IH. simpl. lia.
Qed.
Lemma removelast_length : forall (l : list R), List.length (removelast l) = (List.length l - 1)%nat.
Proof.
  induction l as [|x l IH]; [reflexivity|]. destruct l as [|y l]; [reflexivity|].
  change (removelast (x :: y :: l)) with (x :: removelast (y :: l)). simpl List.length in *. lia.
Qed.
Lemma inner_slice : forall (l : list R), (2 <= List.length l)%nat ->
  slice (Some 1%Z) (Some (-1)%Z) l = removelast (tl l).
Proof.
  intros l H. destruct (slice_2 l H) as (_ & L & _ & N). apply (list_eq_nth _ 0).
  - rewrite L, removelast_length. destruct l; simpl in *; lia.
  - intros i Hi. rewrite L in Hi. destruct (N i Hi) as (_ & -> & _). rewrite removelast_nth.
    + destruct l; simpl in H; [lia|]. now rewrite Nat.add_1_r.
    + destruct l; simpl in *; lia.
Qed.
Definition mel (f : R) : R := 2595 * log10 (1 + f / 700).
Theorem c39_n_filters : forall junk freqs n lo hi, -700 < lo -> lo < hi -> (0 < n)%Z ->
  exists corners,
    mel_triangular_filterbank freqs (Some n) None (Some [lo; hi]) (call junk hz2mel) (call junk mel2hz) =
    mel_triangular_filterbank freqs None None (Some corners) (call junk hz2mel) (call junk mel2hz) /\
    (forall bw,
      mel_triangular_filterbank freqs (Some n) (Some bw) (Some [lo; hi]) (call junk hz2mel) (call junk mel2hz) =
      mel_triangular_filterbank freqs None (Some bw) (Some (removelast (tl corners)))
        (call junk hz2mel) (call junk mel2hz)) /\
    zlen corners = (n + 2)%Z /\ StronglySorted Rlt corners /\ hd 0 corners = lo /\ last corners 0 = hi /\
    forall i, (i + 1 < List.length corners)%nat ->
      mel (nth (i + 1) corners 0) - mel (nth i corners 0) = (mel hi - mel lo) / IZR (n + 1).
Proof.
  intros junk freqs n lo hi Hlo Hhi Hn.
  set (h := fun x => (Rpower 10 (x / 2595) - 1) * 700).
  assert (Hh : forall m, mel (h m) = m) by (intro; apply mel_inv').
  assert (Hh' : forall f, -700 < f -> h (mel f) = f) by (intros; now apply mel_inv).
  assert (Hinc : forall x y, x < y -> h x < h y).
  { intros x y H. unfold h. assert (Rpower 10 (x / 2595) < Rpower 10 (y / 2595)) by (apply Rpower_lt; lra). lra. }
  destruct (linspace_ok (mel lo) (mel hi) (n + 2) ltac:(lia)) as (pts & Ep & Lp & Np).
  replace (n + 2 - 1)%Z with (n + 1)%Z in Np by ring.
  exists (map h pts).
  assert (Hn1 : 0 < IZR (n + 1)) by (apply IZR_lt; lia).
  assert (Hm : mel lo < mel hi).
  { unfold mel. assert (log10 (1 + lo / 700) < log10 (1 + hi / 700)) by (apply log10_inc; lra). lra. }
  set (st := (mel hi - mel lo) / IZR (n + 1)) in *.
  assert (Hst : 0 < st) by (apply Rdiv_lt_0_compat; lra).
  assert (Lc : List.length (map h pts) = Z.to_nat (n + 2)) by now rewrite map_length.
  assert (Nc : forall i, (i < Z.to_nat (n + 2))%nat -> nth i (map h pts) 0 = h (mel lo + INR i * st)).
  { intros i Hi. rewrite (nth_map_lt _ _ _ 0 0) by lia. now rewrite Np. }
  split; [|split; [|split; [|split; [|split; [|split]]]]].
  - unfold mel_triangular_filterbank. cbn [bind].
    change (getitem [lo; hi] 0) with (Ok lo). change (getitem [lo; hi] (-1)) with (Ok hi). cbn [bind].
    rewrite !(call_elementwise _ _ _ _ hz2mel_ok). cbn [bind map].
    fold (mel lo). fold (mel hi). change (getitem [mel lo] 0) with (Ok (mel lo)).
    change (getitem [mel hi] 0) with (Ok (mel hi)). cbn [bind]. rewrite Ep. cbn [bind].
    rewrite (call_elementwise _ _ _ _ mel2hz_ok). cbn [bind]. fold h.
    replace (zlen (map h pts) - 2)%Z with n by (unfold zlen; rewrite Lc; lia). reflexivity.
  - intro bw. unfold mel_triangular_filterbank. cbn [bind].
    change (getitem [lo; hi] 0) with (Ok lo). change (getitem [lo; hi] (-1)) with (Ok hi). cbn [bind].
    rewrite !(call_elementwise _ _ _ _ hz2mel_ok). cbn [bind map].
    fold (mel lo). fold (mel hi). change (getitem [mel lo] 0) with (Ok (mel lo)).
    change (getitem [mel hi] 0) with (Ok (mel hi)). cbn [bind]. rewrite Ep. cbn [bind].
    rewrite (call_elementwise _ _ _ _ mel2hz_ok). cbn [bind]. fold h.
    rewrite inner_slice by (rewrite Lc; lia).
    replace (zlen (removelast (tl (map h pts)))) with n; [reflexivity|].
    rewrite <- inner_slice by (rewrite Lc; lia).
    destruct (slice_2 (map h pts) ltac:(rewrite Lc; lia)) as (_ & L2 & _). unfold zlen. rewrite L2, Lc. lia.
  - unfold zlen. rewrite Lc. lia.
  - apply ssorted_of_nth. rewrite Lc. intros i j Hij. rewrite !Nc by lia. apply Hinc.
    assert (INR i < INR j) by (apply lt_INR; lia). nra.
  - assert (E0 : nth 0 (map h pts) 0 = lo) by (rewrite Nc by lia; simpl INR; rewrite Rmult_0_l, Rplus_0_r; auto).
    destruct (map h pts); auto.
  - rewrite last_nth, Lc, Nc by lia. replace (INR (Z.to_nat (n + 2) - 1)) with (IZR (n + 1)).
    + replace (mel lo + IZR (n + 1) * st) with (mel hi) by (unfold st; field; lra). apply Hh'. lra.
    + rewrite INR_IZR_INZ. f_equal. lia.
  - intros i Hi. rewrite Lc in Hi. rewrite !Nc by lia. rewrite !Hh, plus_INR. simpl INR. ring.
Qed.
Print Assumptions c39_n_filters.

(** Too few corners or no filters: ValueError. *)
Theorem c39_no_filter_raises : forall freqs corners fwd inv,
  (List.length corners < 3)%nat ->
  mel_triangular_filterbank freqs None None (Some corners) fwd inv = Err ValueError.
Proof.
  intros freqs corners fwd inv H. unfold mel_triangular_filterbank. cbn [bind].
  destruct (Z.leb_spec (zlen corners - 2) 0) as [_|L]; [reflexivity|unfold zlen in L; lia].
Qed.
Print Assumptions c39_no_filter_raises.

(** A number of filters that is not positive: ValueError too. *)
Theorem c39_n_filters_raises : forall junk freqs n bw lo hi, (n <= 0)%Z ->
  mel_triangular_filterbank freqs (Some n) bw (Some [lo; hi]) (call junk hz2mel) (call junk mel2hz) =
  Err ValueError.
Proof.
  intros junk freqs n bw lo hi H. unfold mel_triangular_filterbank. cbn [bind].
  change (getitem [lo; hi] 0) with (Ok lo). change (getitem [lo; hi] (-1)) with (Ok hi). cbn [bind].
  rewrite !(call_elementwise _ _ _ _ hz2mel_ok). cbn [bind map].
  fold (mel lo). fold (mel hi). change (getitem [mel lo] 0) with (Ok (mel lo)).
  change (getitem [mel hi] 0) with (Ok (mel hi)). cbn [bind]. unfold linspace.
  destruct (n + 2 <? 0)%Z; [reflexivity|]. cbn [bind].
  rewrite (call_elementwise _ _ _ _ mel2hz_ok). cbn [bind].
  destruct (Z.leb_spec n 0); [reflexivity|lia].
Qed.
Print Assumptions c39_n_filters_raises.

(** The default limits are the first and the last frequency. *)
Theorem c39_default_limits : forall freqs n bw fwd inv, freqs <> [] ->
  mel_triangular_filterbank freqs n bw None fwd inv =
  mel_triangular_filterbank freqs n bw (Some [hd 0 freqs; last freqs 0]) fwd inv.
Proof.
  intros freqs n bw fwd inv H. unfold mel_triangular_filterbank.
  assert (L : (0 < zlen freqs)%Z) by (destruct freqs; [congruence|unfold zlen; simpl; lia]).
  rewrite (getitem_ok _ 0) by lia.
  assert (E : getitem freqs (-1) = Ok (last freqs 0)).
  { transitivity (getitem freqs (zlen freqs - 1)).
    - unfold getitem. cbn [Z.ltb Z.compare]. destruct (Z.ltb_spec (zlen freqs - 1) 0); [lia|].
      replace (-1 + zlen freqs)%Z with (zlen freqs - 1)%Z by ring. reflexivity.
    - rewrite (getitem_ok _ 0) by lia. rewrite last_nth. do 2 f_equal. unfold zlen. lia. }
  rewrite E. cbn [bind].
  destruct freqs; [congruence|]. reflexivity.
Qed.
Print Assumptions c39_default_limits.

(** With a bandwidth function the triangle has the width [bw c] at half its
    height, for every list of centres (sorted or not). *)
Theorem c39_bandwidth : forall freqs centres bw fwd inv, centres <> [] ->
  Forall (fun c => 0 < bw c) centres ->
  exists filts,
    mel_triangular_filterbank freqs None (Some bw) (Some centres) fwd inv = Ok (filts, centres) /\
    List.length filts = List.length centres /\
    forall i k, (i < List.length centres)%nat -> (k < List.length freqs)%nat ->
      let c := nth i centres 0 in
      nth k (nth i filts []) 0 = Rmax 0 (1 - Rabs (nth k freqs 0 - c) / bw c).
Proof.
  intros freqs centres bw fwd inv Hne Hb. unfold mel_triangular_filterbank. cbn [bind].
  destruct (Z.leb_spec (zlen centres) 0) as [L|_]; [destruct centres; [congruence|unfold zlen in L; simpl in L; lia]|].
  assert (L1 : forall op, List.length (map2 op centres (map bw centres)) = List.length centres).
  { intro op. unfold map2. rewrite map_length, combine_length, map_length. lia. }
  assert (N : forall op i, (i < List.length centres)%nat ->
    nth i (map2 op centres (map bw centres)) 0 = op (nth i centres 0) (bw (nth i centres 0))).
  { intros op i Hi. unfold map2. rewrite (nth_map_lt _ _ _ (0, 0) 0) by (rewrite combine_length, map_length; lia).
    rewrite (nth_combine _ _ 0 0) by (rewrite ?map_length; lia). cbn [fst snd].
    now rewrite (nth_map_lt _ _ _ 0 0) by lia. }
  replace (Z.to_nat (zlen centres)) with (List.length centres) by (unfold zlen; lia).
  rewrite (mapM_seq_ok _ _ (fun i => let c := nth i centres 0 in map (tri (c - bw c) c (c + bw c)) freqs)).
  - cbn [bind]. eexists. split; [reflexivity|]. rewrite map_length, seq_length. split; [reflexivity|].
    intros i k Hi Hk. cbv zeta. rewrite (nth_map_lt _ _ _ 0%nat []) by (rewrite seq_length; lia).
    rewrite seq_nth by lia. rewrite Nat.add_0_l. rewrite (nth_map_lt _ _ _ 0 0) by auto.
    assert (B : 0 < bw (nth i centres 0)) by (rewrite Forall_forall in Hb; apply Hb, nth_In; auto).
    set (c := nth i centres 0) in *. set (b := bw c) in *. set (x := nth k freqs 0). clearbody c b x.
    assert (Q : forall u, u / b * b = u) by (intro; field; lra).
    destruct (Rle_lt_dec x c) as [Hx|Hx].
    + rewrite (Rabs_left1 (x - c)) by lra. destruct (Rle_lt_dec x (c - b)) as [Hy|Hy].
      * rewrite tri_left by lra. symmetry. apply Rmax_left. pose proof (div_ge_1 (- (x - c)) b B). lra.
      * rewrite tri_up by lra. rewrite Rmax_right; [field; lra|]. pose proof (div_le_1 (- (x - c)) b B). lra.
    + rewrite (Rabs_right (x - c)) by lra. destruct (Rle_lt_dec (c + b) x) as [Hy|Hy].
      * rewrite tri_right by lra. symmetry. apply Rmax_left. pose proof (div_ge_1 (x - c) b B). lra.
      * rewrite tri_down by lra. rewrite Rmax_right; [field; lra|]. pose proof (div_le_1 (x - c) b B). lra.
  - intros i Hi. rewrite (getitem_ok _ 0) by (unfold zlen; rewrite L1; lia). cbn [bind].
    rewrite (getitem_ok _ 0) by (unfold zlen; lia). cbn [bind].
    rewrite (getitem_ok _ 0) by (unfold zlen; rewrite L1; lia). cbn [bind].
    rewrite !Nat2Z.id, !N by auto. f_equal. cbv zeta. apply map_ext. intro x. apply interp3_tri.
    assert (B : 0 < bw (nth i centres 0)) by (rewrite Forall_forall in Hb; apply Hb, nth_In; auto). lra.
Qed.
Print Assumptions c39_bandwidth.

Example c39_example : forall fwd inv,
  mel_triangular_filterbank [1; 2; 3] None None (Some [0; 2; 4; 5]) fwd inv =
  Ok ([[1 / 2; 1; 1 / 2]; [0; 0; 1 / 2]], [2; 4]).
Proof.
  intros. rewrite filterbank_corners; [|repeat constructor; lra|simpl; lia].
  cbn [List.length Nat.sub seq map nth Nat.add].
  rewrite (tri_up 0 2 4 1), (tri_up 0 2 4 2), (tri_down 0 2 4 3) by lra.
  rewrite (tri_left 2 4 5 1), (tri_left 2 4 5 2), (tri_up 2 4 5 3) by lra.
  do 2 f_equal. repeat f_equal; try field.
Qed.

(** ** C46 *)

(** Longer tracks: the optimiser is always reached, with bounds that contain
    the start; the bounds keep the knee on the time axis and the sign of the
    slope. *)
Theorem c46_feasible : forall optimise x y k q, (2 <= zlen x)%Z -> y <> [] ->
  exists res x0 b,
    hinge_fit optimise x y k q = Ok (optimise res x0 b) /\
    (forall a' k' q', res (a', k', q') = map (fun p => k' * Rmin (fst p) a' + q' - snd p) (combine x y)) /\
    let '(a0, k0, q0) := x0 in
    let '(amin_, kmin, qmin, (amax_, kmax, qmax)) := b in
    amin_ < amax_ /\ kmin < kmax /\ qmin < qmax /\
    amin_ <= a0 <= amax_ /\ kmin <= k0 <= kmax /\ qmin < q0 < qmax /\
    k0 = k /\ q0 = q /\ Forall (fun v => amin_ <= v <= amax_) x /\
    (k < 0 -> kmax = k) /\ (0 < k -> kmin = k) /\
    Forall (fun v => qmin <= v <= qmax) y.
Proof.
  intros optimise x y k q Hx Hy. unfold hinge_fit, hinge_coeffs_init, hinge_bounds.
  assert (Hne : x <> []) by (intros ->; unfold zlen in Hx; simpl in Hx; lia).
  destruct (amin_ok x Hne) as (lo & El & Il & Ml). destruct (amax_ok x Hne) as (hi & Eh & Ih & Mh).
  rewrite El, Eh. cbn [bind]. destruct (Z.leb_spec (zlen x) 1) as [L|_]; [lia|]. cbn [bind].
  assert (Hy' : map (fun v => Rabs (v - q)) y <> []) by (destruct y; simpl; congruence).
  destruct (amax_ok _ Hy') as (d & Ed & Id & Md). rewrite Ed. cbn [bind].
  assert (Hd : 0 <= d).
  { apply in_map_iff in Id. destruct Id as (v & <- & _). apply Rabs_pos. }
  assert (Hlh : lo <= hi) by (apply Ml; auto).
  set (am := if Req_EM_T lo hi then (lo - 1, hi + 1) else (lo, hi)).
  assert (Ham : fst am < snd am /\ fst am <= (lo + hi) / 2 <= snd am /\ fst am <= lo /\ hi <= snd am).
  { unfold am. destruct (Req_EM_T lo hi); simpl; lra. }
  destruct am as [a_min a_max]. cbn [fst snd] in Ham.
  set (dq := if Req_EM_T d 0 then 1 else d).
  assert (Hdq : 0 < dq /\ d <= dq) by (unfold dq; destruct (Req_EM_T d 0); lra).
  clearbody dq.
  set (km := if Req_EM_T k 0 then (-1, 1)
      else (if Rlt_dec k 0 then 8 * k else k, if Rlt_dec k 0 then k else 8 * k)).
  assert (Hkm : fst km < snd km /\ fst km <= k <= snd km /\ (k < 0 -> snd km = k) /\ (0 < k -> fst km = k)).
  { unfold km. destruct (Req_EM_T k 0); [simpl; lra|]. destruct (Rlt_dec k 0); simpl; lra. }
  destruct km as [k_min k_max]. cbn [fst snd] in Hkm.
  cbn [bind].
  assert (C : ls_check ((lo + hi) / 2, k, q) ((a_min, k_min, q - dq), (a_max, k_max, q + dq)) = true).
  { unfold ls_check, coeffs_list, Rleb. cbn [fst snd combine forallb].
    repeat match goal with |- context [Rlt_dec ?u ?v] => destruct (Rlt_dec u v); [|exfalso; lra] end.
    repeat match goal with |- context [Rle_lt_dec ?u ?v] => destruct (Rle_lt_dec u v); [|exfalso; lra] end.
    reflexivity. }
  rewrite C. eexists _, _, _. split; [reflexivity|]. split.
  - intros a' k' q'. unfold map2. clear. revert y. induction x as [|u x IH]; intros [|v y]; try reflexivity.
    simpl. now rewrite IH.
  - cbn beta iota. repeat (split; [lra || reflexivity || tauto|]). split; [|split; [|split]].
    + apply Forall_forall. intros v Hv. specialize (Ml v Hv). specialize (Mh v Hv). lra.
    + tauto.
    + tauto.
    + apply Forall_forall. intros v Hv. specialize (Md _ (in_map (fun v => Rabs (v - q)) _ _ Hv)). cbv beta in Md.
      pose proof (Rle_abs (v - q)). pose proof (Rle_abs (- (v - q))) as A. rewrite Rabs_Ropp in A. lra.
Qed.
Print Assumptions c46_feasible.

(** Hence an optimiser that stays within the bounds it is given never changes
    the sign of the slope, and never makes it flatter than the line. *)
Theorem c46_slope : forall optimise x y k q a' k' q',
  (forall res x0 b c, optimise res x0 b = c ->
     Forall (fun v => fst (fst v) <= snd v <= snd (fst v))
       (combine (combine (coeffs_list (fst b)) (coeffs_list (snd b))) (coeffs_list c))) ->
  (2 <= zlen x)%Z -> y <> [] -> hinge_fit optimise x y k q = Ok (a', k', q') ->
  (k < 0 -> k' <= k) /\ (0 < k -> k <= k').
Proof.
  intros optimise x y k q a' k' q' Hopt Hx Hy E.
  destruct (c46_feasible optimise x y k q Hx Hy) as (res & x0 & b & E' & _ & H).
  rewrite E in E'. injection E' as E'. symmetry in E'. specialize (Hopt _ _ _ _ E').
  destruct x0 as [[a0 k0] q0]. destruct b as [[[b1 b2] b3] [[b4 b5] b6]]. simpl in H, Hopt.
  inversion_clear Hopt as [|? ? _ H2]. inversion_clear H2 as [|? ? H3 _]. simpl in H3.
  destruct H as (_ & _ & _ & _ & _ & _ & _ & _ & _ & K1 & K2 & _).
  split; intro K; [rewrite K1 in H3 by auto|rewrite K2 in H3 by auto]; lra.
Qed.
Print Assumptions c46_slope.

Theorem c46_short_raises : forall optimise x y k q, (zlen x <= 1)%Z ->
  hinge_fit optimise x y k q = Err ValueError.
Proof.
  intros optimise x y k q H. unfold hinge_fit, hinge_coeffs_init, hinge_bounds.
  destruct (Z.leb_spec (zlen x) 1) as [_|L]; [|lia].
  destruct x; reflexivity.
Qed.
Print Assumptions c46_short_raises.

(** The hinge function with every [out]. *)
Theorem c46_hinge_function : forall a k q,
  elementwise (fun x => k * Rmin x a + q) (hinge_function a k q).
Proof.
  intros a k q. assert (E : elementwise (fun x => q + k * Rmin x a) (hinge_function a k q))
    by (elementwise_tac ltac:(unfold hinge_function)).
  intros m f out Hf Ho Hl. destruct (E m f out Hf Ho Hl) as (m' & A & B & C). exists m'.
  split; [exact A|]. split; [|exact C]. rewrite B. apply map_ext. intro. ring.
Qed.
Print Assumptions c46_hinge_function.

(** Constant times and a perfect fit. *)
Example c46_example : forall optimise, exists res x0,
  hinge_fit optimise [1; 1] [3; 3] 0 3 = Ok (optimise res x0 ((0, -1, 2), (2, 1, 4))).
Proof.
  intro optimise. unfold hinge_fit, hinge_coeffs_init, hinge_bounds. cbn [amin amax fold_left map bind].
  repeat (rewrite Rmin_left by lra). repeat (rewrite Rmax_left by lra).
  destruct (Req_EM_T 1 1) as [_|N]; [|lra].
  replace (Rabs (3 - 3)) with 0 by (replace (3 - 3) with 0 by ring; symmetry; apply Rabs_R0).
  repeat (rewrite Rmax_left by lra). cbn [bind]. destruct (Req_EM_T 0 0) as [_|N]; [|lra].
  change (zlen [1%R; 1%R] <=? 1)%Z with false. cbn [bind].
  match goal with |- context [ls_check ?u ?v] => replace (ls_check u v) with true end.
  - replace (1 - 1) with 0 by ring. replace (1 + 1) with 2 by ring.
    replace (3 - 1) with 2 by ring. replace (3 + 1) with 4 by ring. eexists _, _. reflexivity.
  - symmetry. unfold ls_check, coeffs_list, Rleb. cbn [fst snd combine forallb].
    repeat match goal with |- context [Rlt_dec ?u ?v] => destruct (Rlt_dec u v); [|exfalso; lra] end.
    repeat match goal with |- context [Rle_lt_dec ?u ?v] => destruct (Rle_lt_dec u v); [|exfalso; lra] end.
    reflexivity.
Qed.

(** ** C61 *)

(** The value of one band at one time-step. *)
Definition band (power : R) (row : list R) (col : list (R * R)) : R :=
  if Req_EM_T power 1 then dot row (map cmod col)
  else npower (dot row (map (fun z => npower (cmod z) power) col)) (1 / power).

Lemma filter_column_ok : forall bank col,
  Forall (fun row => List.length row = List.length col) bank ->
  filter_column bank col = Ok (map (fun row => dot row col) bank).
Proof.
  intros bank col H. unfold filter_column. induction H as [|row bank Hr _ IH]; [reflexivity|].
  cbn [mapM map]. rewrite Hr, Nat.eqb_refl. cbn [bind]. now rewrite IH.
Qed.

Lemma stft2mel_ok : forall bank power cols,
  Forall (fun row => Forall (fun col => List.length row = List.length col) cols) bank ->
  stft2mel bank power cols = Ok (map (fun col => map (fun row => band power row col) bank) cols).
Proof.
  intros bank power cols H. unfold stft2mel. induction cols as [|col cols IH]; [reflexivity|].
  assert (H1 : Forall (fun row => List.length row = List.length col) bank).
  { eapply Forall_impl; [|exact H]. intros row F. now inversion F. }
  cbn [mapM map]. rewrite IH by (eapply Forall_impl; [|exact H]; intros row F; now inversion F).
  unfold band. destruct (Req_EM_T power 1).
  - rewrite filter_column_ok by (eapply Forall_impl; [|exact H1]; intros row F; now rewrite map_length). reflexivity.
  - rewrite filter_column_ok by (eapply Forall_impl; [|exact H1]; intros row F; now rewrite !map_length).
    cbn [bind]. rewrite !map_map. reflexivity.
Qed.

Lemma npower_nonneg : forall x p, 0 <= npower x p.
Proof. intros. unfold npower. destruct (Req_EM_T x 0); [lra|]. left. apply exp_pos. Qed.
Lemma npower_mult : forall x y p, 0 <= x -> 0 <= y -> npower (x * y) p = npower x p * npower y p.
Proof.
  intros x y p Hx Hy. unfold npower. destruct (Req_EM_T x 0) as [->|Nx].
  - rewrite Rmult_0_l. destruct (Req_EM_T 0 0); lra.
  - destruct (Req_EM_T y 0) as [->|Ny].
    + rewrite Rmult_0_r. destruct (Req_EM_T 0 0); lra.
    + destruct (Req_EM_T (x * y) 0) as [E|_]; [apply Rmult_integral in E; lra|].
      symmetry. apply Rpower_mult_distr; lra.
Qed.
Lemma npower_inv : forall x p, 0 <= x -> 0 < p -> npower (npower x p) (1 / p) = x.
Proof.
  intros x p Hx Hp. unfold npower at 2. destruct (Req_EM_T x 0) as [->|N].
  - unfold npower. destruct (Req_EM_T 0 0); lra.
  - unfold npower. assert (0 < Rpower x p) by apply exp_pos. destruct (Req_EM_T (Rpower x p) 0); [lra|].
    rewrite Rpower_mult. replace (p * (1 / p)) with 1 by (field; lra). apply Rpower_1. lra.
Qed.
Lemma npower_le : forall x y p, 0 <= x <= y -> 0 < p -> npower x p <= npower y p.
Proof.
  intros x y p [Hx Hy] Hp. unfold npower. destruct (Req_EM_T x 0).
  - destruct (Req_EM_T y 0); [lra|]. left. apply exp_pos.
  - destruct (Req_EM_T y 0); [lra|]. apply Rle_Rpower_l; lra.
Qed.
Lemma dot_nonneg : forall a b, Forall (Rle 0) a -> Forall (Rle 0) b -> 0 <= dot a b.
Proof.
  unfold dot, map2. induction a as [|x a IH]; intros [|y b] Ha Hb; simpl; try lra.
  inversion_clear Ha. inversion_clear Hb. assert (0 <= rsum (map (fun p => fst p * snd p) (combine a b))) by (apply IH; auto). nra.
Qed.
Lemma dot_le : forall a b b', Forall (Rle 0) a -> Forall2 Rle b b' -> dot a b <= dot a b'.
Proof.
  unfold dot, map2. induction a as [|x a IH]; intros b b' Ha Hb; [destruct Hb; simpl; lra|].
  destruct Hb as [|y y' b b' H Hb]; simpl; [lra|]. inversion_clear Ha.
  specialize (IH b b' ltac:(auto) Hb). nra.
Qed.
Lemma dot_scale : forall c a b, dot a (map (Rmult c) b) = c * dot a b.
Proof.
  unfold dot, map2. induction a as [|x a IH]; intros [|y b]; simpl; try ring. rewrite IH. ring.
Qed.
Lemma dot_plus : forall a b b', List.length b = List.length b' ->
  dot a (map2 Rplus b b') = dot a b + dot a b'.
Proof.
  unfold dot, map2. induction a as [|x a IH]; intros [|y b] [|y' b'] L; simpl in *; try discriminate; try ring.
  rewrite IH by congruence. ring.
Qed.

(** The mel spectrogram is never negative, has a row per filter at each
    time-step, and does not decrease if the magnitudes do not decrease. *)
Theorem c61_monotone : forall bank power cols cols', 0 < power ->
  Forall (fun row => Forall (Rle 0) row /\ Forall (fun col => List.length row = List.length col) cols) bank ->
  Forall2 (Forall2 (fun z z' => cmod z <= cmod z')) cols cols' ->
  exists y y', stft2mel bank power cols = Ok y /\ stft2mel bank power cols' = Ok y' /\
    Forall2 (Forall2 (fun v v' => 0 <= v <= v')) y y' /\
    List.length y = List.length cols /\ Forall (fun v => List.length v = List.length bank) y.
Proof.
  intros bank power cols cols' Hp Hb Hc.
  assert (Hb' : Forall (fun row => Forall (fun col => List.length row = List.length col) cols') bank).
  { eapply Forall_impl; [|exact Hb]. intros row [_ F]. clear Hb. induction Hc as [|c c' cs cs' H _ IH]; [constructor|].
    inversion_clear F. constructor; [|now apply IH]. etransitivity; [eassumption|]. clear -H. induction H; simpl; congruence. }
  rewrite stft2mel_ok by (eapply Forall_impl; [|exact Hb]; cbv beta; tauto). rewrite stft2mel_ok by exact Hb'.
  eexists _, _. split; [reflexivity|]. split; [reflexivity|]. split; [|split].
  - clear Hb'. assert (P : Forall (Forall (Rle 0)) bank) by (eapply Forall_impl; [|exact Hb]; cbv beta; tauto). clear Hb.
    induction Hc as [|c c' cs cs' H _ IH]; constructor; auto. clear IH.
    induction P as [|row bank Hr _ IH]; constructor; auto. unfold band.
    assert (M : forall (f : R -> R), (forall u v, 0 <= u <= v -> f u <= f v) ->
      Forall2 Rle (map (fun z => f (cmod z)) c) (map (fun z => f (cmod z)) c')).
    { intros f Hf. clear -H Hf. induction H as [|u v l l' Huv _ IH]; constructor; auto. apply Hf. split; auto. apply sqrt_pos. }
    destruct (Req_EM_T power 1).
    + split.
      * apply dot_nonneg; auto. apply Forall_forall. intros v Hv. apply in_map_iff in Hv.
        destruct Hv as (z & <- & _). apply sqrt_pos.
      * apply dot_le; auto. apply (M (fun v => v)). intros; lra.
    + split; [apply npower_nonneg|]. apply npower_le; [split|].
      * apply dot_nonneg; auto. apply Forall_forall. intros v Hv. apply in_map_iff in Hv.
        destruct Hv as (z & <- & _). apply npower_nonneg.
      * apply dot_le; auto. apply (M (fun v => npower v power)). intros. now apply npower_le.
      * apply Rdiv_lt_0_compat; lra.
  - now rewrite map_length.
  - apply Forall_forall. intros v Hv. apply in_map_iff in Hv. destruct Hv as (c & <- & _). now rewrite map_length.
Qed.
Print Assumptions c61_monotone.

(** Multiplying the spectrogram by a complex number multiplies the mel
    spectrogram by its modulus, for every power. *)
Definition cmul (c z : R * R) : R * R :=
  (fst c * fst z - snd c * snd z, fst c * snd z + snd c * fst z).
Lemma cmod_cmul : forall c z, cmod (cmul c z) = cmod c * cmod z.
Proof.
  intros [a b] [x y]. unfold cmod, cmul. cbn [fst snd]. rewrite <- sqrt_mult by nra. f_equal. ring.
Qed.
Theorem c61_homogeneous : forall bank power cols c y, 0 < power ->
  Forall (fun row => Forall (Rle 0) row /\ Forall (fun col => List.length row = List.length col) cols) bank ->
  stft2mel bank power cols = Ok y ->
  stft2mel bank power (map (map (cmul c)) cols) = Ok (map (map (Rmult (cmod c))) y).
Proof.
  intros bank power cols c y Hp Hb E.
  rewrite stft2mel_ok in E by (eapply Forall_impl; [|exact Hb]; cbv beta; tauto). injection E as <-.
  rewrite stft2mel_ok.
  - f_equal. rewrite !map_map. apply map_ext. intro col. rewrite map_map.
    assert (P : Forall (Forall (Rle 0)) bank) by (eapply Forall_impl; [|exact Hb]; cbv beta; tauto). clear Hb.
    apply map_ext_in. intros row Hrow. rewrite Forall_forall in P. specialize (P _ Hrow). unfold band.
    assert (C : 0 <= cmod c) by apply sqrt_pos.
    destruct (Req_EM_T power 1).
    + rewrite map_map, <- dot_scale, map_map. f_equal. apply map_ext. apply cmod_cmul.
    + rewrite map_map. transitivity (npower (npower (cmod c) power * dot row (map (fun z => npower (cmod z) power) col)) (1 / power)).
      * f_equal. rewrite <- dot_scale, map_map. f_equal. apply map_ext. intro z. rewrite cmod_cmul.
        apply npower_mult; auto. apply sqrt_pos.
      * rewrite npower_mult; [now rewrite npower_inv|apply npower_nonneg|].
        apply dot_nonneg; auto. apply Forall_forall. intros v Hv. apply in_map_iff in Hv.
        destruct Hv as (z & <- & _). apply npower_nonneg.
  - eapply Forall_impl; [|exact Hb]. intros row [_ F]. apply Forall_forall. intros v Hv. apply in_map_iff in Hv.
    destruct Hv as (col & <- & Hc). rewrite map_length. rewrite Forall_forall in F. auto.
Qed.
Print Assumptions c61_homogeneous.

Lemma filter_column_inv : forall bank row d, filter_column bank d = Ok row ->
  Forall (fun r => List.length r = List.length d) bank /\ row = map (fun r => dot r d) bank.
Proof.
  intros bank row d Ed. assert (F : Forall (fun r => List.length r = List.length d) bank).
  { revert row Ed. unfold filter_column. clear. induction bank as [|r bank IHb]; intros row E; constructor.
    - cbn [mapM] in E. destruct (Nat.eqb_spec (List.length r) (List.length d)); [auto|discriminate].
    - cbn [mapM] in E. destruct (Nat.eqb_spec (List.length r) (List.length d)); [|discriminate]. cbn [bind] in E.
      destruct (mapM _ bank) as [rows|] eqn:Em; [|discriminate]. exact (IHb rows eq_refl). }
  split; auto. rewrite filter_column_ok in Ed by auto. congruence.
Qed.

(** Without a power the filterbank acts linearly on the complex values: the
    result for a sum is the sum of the results. *)
Definition cadd (z w : R * R) : R * R := (fst z + fst w, snd z + snd w).
Definition zip2 {A} (f : A -> A -> A) (l l' : list A) : list A :=
  map (fun p => f (fst p) (snd p)) (combine l l').
Theorem c61_complex_additive : forall bank cols cols' y y',
  Forall2 (fun c c' => List.length c = List.length c') cols cols' ->
  stft2mel_complex bank cols = Ok y -> stft2mel_complex bank cols' = Ok y' ->
  stft2mel_complex bank (zip2 (zip2 cadd) cols cols') = Ok (zip2 (zip2 cadd) y y').
Proof.
  intros bank cols cols' y y' H. revert y y'. unfold stft2mel_complex.
  induction H as [|c c' cols cols' L H IH]; intros y y'; [intros [= <-] [= <-]; reflexivity|].
  cbn [mapM]. intros E E'. unfold zip2 at 1. cbn [combine map fst snd mapM]. fold (zip2 (zip2 cadd) cols cols').
  destruct (filter_column bank (map fst c)) as [re|] eqn:E1; [cbn [bind] in E|discriminate].
  destruct (filter_column bank (map snd c)) as [im|] eqn:E2; [cbn [bind] in E|discriminate].
  destruct (filter_column bank (map fst c')) as [re'|] eqn:E3; [cbn [bind] in E'|discriminate].
  destruct (filter_column bank (map snd c')) as [im'|] eqn:E4; [cbn [bind] in E'|discriminate].
  match type of E with bind ?m _ = _ => destruct m as [ys|] eqn:E5; [cbn [bind] in E|discriminate] end.
  match type of E' with bind ?m _ = _ => destruct m as [ys'|] eqn:E6; [cbn [bind] in E'|discriminate] end.
  injection E as <-. injection E' as <-.
  destruct (filter_column_inv _ _ _ E1) as [F1 ->]. destruct (filter_column_inv _ _ _ E2) as [F2 ->]. destruct (filter_column_inv _ _ _ E3) as [F3 ->]. destruct (filter_column_inv _ _ _ E4) as [F4 ->].
  assert (M1 : map fst (zip2 cadd c c') = map2 Rplus (map fst c) (map fst c')).
  { unfold map2, zip2. clear. revert c'. induction c as [|z c IH]; intros [|z' c']; try reflexivity. simpl. now rewrite IH. }
  assert (M2 : map snd (zip2 cadd c c') = map2 Rplus (map snd c) (map snd c')).
  { unfold map2, zip2. clear. revert c'. induction c as [|z c IH]; intros [|z' c']; try reflexivity. simpl. now rewrite IH. }
  rewrite M1, M2.
  assert (L2 : forall f : R * R -> R, List.length (map2 Rplus (map f c) (map f c')) = List.length c).
  { intro f. unfold map2. rewrite map_length, combine_length, !map_length, L. lia. }
  rewrite !filter_column_ok by (eapply Forall_impl; [|exact F1]; intros r Hr; rewrite L2; rewrite map_length in Hr; auto).
  cbn [bind]. rewrite (IH ys ys' eq_refl eq_refl). cbn [bind]. apply f_equal.
  transitivity (zip2 cadd (combine (map (fun r => dot r (map fst c)) bank) (map (fun r => dot r (map snd c)) bank))
                          (combine (map (fun r => dot r (map fst c')) bank) (map (fun r => dot r (map snd c')) bank))
                :: zip2 (zip2 cadd) ys ys'); [|reflexivity].
  apply (f_equal2 cons); [|reflexivity].
  rewrite (map_ext_in _ (fun r => dot r (map fst c) + dot r (map fst c'))) by (intros; apply dot_plus; now rewrite !map_length).
  rewrite (map_ext_in (fun r => dot r (map2 Rplus (map snd c) (map snd c'))) (fun r => dot r (map snd c) + dot r (map snd c')))
    by (intros; apply dot_plus; now rewrite !map_length).
  unfold zip2. clear. induction bank as [|r bank IH]; [reflexivity|]. simpl. now rewrite IH.
Qed.
Print Assumptions c61_complex_additive.

(** ... and the result for a multiple is the multiple of the result. *)
Theorem c61_complex_homogeneous : forall bank cols c y,
  stft2mel_complex bank cols = Ok y ->
  stft2mel_complex bank (map (map (cmul c)) cols) = Ok (map (map (cmul c)) y).
Proof.
  intros bank cols k y. revert y. unfold stft2mel_complex.
  induction cols as [|c cols IH]; intro y; [intros [= <-]; reflexivity|].
  cbn [mapM map]. intro E.
  destruct (filter_column bank (map fst c)) as [re|] eqn:E1; [cbn [bind] in E|discriminate].
  destruct (filter_column bank (map snd c)) as [im|] eqn:E2; [cbn [bind] in E|discriminate].
  match type of E with bind ?m _ = _ => destruct m as [ys|] eqn:E5; [cbn [bind] in E|discriminate] end.
  injection E as <-. destruct (filter_column_inv _ _ _ E1) as [F1 ->]. destruct (filter_column_inv _ _ _ E2) as [F2 ->].
  rewrite !filter_column_ok by (eapply Forall_impl; [|exact F1]; intros r Hr; rewrite !map_length in *; auto).
  cbn [bind]. rewrite (IH ys eq_refl). cbn [bind map]. apply f_equal. apply (f_equal2 cons); [|reflexivity].
  assert (D1 : forall r, dot r (map fst (map (cmul k) c)) = fst k * dot r (map fst c) - snd k * dot r (map snd c)).
  { clear. unfold dot, map2. induction c as [|z c IH]; intros [|u r]; simpl; try ring. rewrite IH. ring. }
  assert (D2 : forall r, dot r (map snd (map (cmul k) c)) = fst k * dot r (map snd c) + snd k * dot r (map fst c)).
  { clear. unfold dot, map2. induction c as [|z c IH]; intros [|u r]; simpl; try ring. rewrite IH. ring. }
  rewrite (map_ext _ _ D1), (map_ext _ _ D2). clear. induction bank as [|r bank IH]; [reflexivity|].
  cbn [map combine]. now rewrite IH.
Qed.
Print Assumptions c61_complex_homogeneous.

(** A spectrogram whose number of bins is not that of the filters: ValueError. *)
Theorem c61_size_raises : forall row bank power col cols, List.length row <> List.length col ->
  stft2mel (row :: bank) power (col :: cols) = Err ValueError /\
  stft2mel_complex (row :: bank) (col :: cols) = Err ValueError.
Proof.
  intros row bank power col cols H. unfold stft2mel, stft2mel_complex, filter_column. cbn [mapM].
  rewrite !map_length. destruct (Nat.eqb_spec (List.length row) (List.length col)); [congruence|].
  cbn [bind]. destruct (Req_EM_T power 1); split; reflexivity.
Qed.
Print Assumptions c61_size_raises.

Example c61_example : stft2mel [[1; 2]] 2 [[(3, 4); (0, 0)]] = Ok [[5]].
Proof.
  rewrite stft2mel_ok by (repeat constructor). cbn [map]. unfold band. destruct (Req_EM_T 2 1); [lra|].
  unfold dot, map2, cmod. cbn [map combine fst snd rsum fold_right].
  replace (3 * 3 + 4 * 4) with (5 * 5) by ring. rewrite sqrt_square by lra.
  replace (0 * 0 + 0 * 0) with 0 by ring. rewrite sqrt_0.
  assert (Z : npower 0 2 = 0) by (unfold npower; destruct (Req_EM_T 0 0); lra). rewrite Z.
  do 3 f_equal. rewrite <- (npower_inv 5 2) at 2 by lra. f_equal. ring.
Qed.
