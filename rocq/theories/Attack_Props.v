(** C116: onset selection in double precision. *)
From Coq Require Import String ZArith Reals Lra Lia Bool Permutation List.
From Flocq Require Import Core IEEE754.BinarySingleNaN.
Import ListNotations.
From Verif Require Import Base Py PyLemmas ListLemmas RLists Np_Model Np_Lemmas Double_Model Double_Float Peak_Model Peak_Round
  Peak_Proofs Clock_Model Clock_Proofs Stft_Model Onset_Proofs Dsp_Model Level_Model Level_Proofs Level_Props Rise_Model Rise_Props Kernel_Model Attack_Model Attack_Proofs.
Local Open Scope R_scope.

(** [local_maxima], whatever the numbers are: exactly the samples at least [w] from both ends that are [>=] each key around them, and were selected before. *)
Theorem c116_local_maxima : forall x w key logical_and out, (1 <= w)%nat -> (2 * w + 1 <= List.length x)%nat ->
  let k := match key with None => x | Some k => k end in
  (List.length x <= List.length k)%nat -> List.length out = List.length x ->
  exists r, a_local_maxima x (Z.of_nat w) key logical_and out = Ok r /\ List.length r = List.length x /\
    forall i, (i < List.length x)%nat ->
      (nth i r false = true <-> (w <= i /\ i + w < List.length x)%nat /\
       (forall j, (i <= j + w /\ j <= i + w)%nat -> d_ge (nth i x z) (nth j k z) = true) /\ (logical_and = true -> nth i out false = true)).
Proof. exact a_local_maxima_ok. Qed.

Lemma onset_g_length_d : forall alpha x, List.length (d_onset_g alpha x) = List.length x.
Proof. intros. pose proof (c114_nan alpha x) as N. induction N; cbn; congruence. Qed.
(** The onsets, whatever the numbers and numpy's sum are: samples at least [w] from both ends that are [>=] all samples at most [w] away and, after
    normalization, [>=] the filter before them and [>=] the mean around them plus [delta]. *)
Theorem c116_selection : forall S junk x w m alpha delta, (1 <= w)%nat -> (2 * w + 1 <= List.length x)%nat -> ((m + 1) * w + 1 <= List.length x)%nat ->
  let xn := l_rms S x in
  exists r, a_onset_selection S junk x (Z.of_nat w) (Z.of_nat m) alpha delta = Ok r /\ List.length r = List.length x /\
    forall i, (i < List.length x)%nat ->
      (nth i r false = true <-> (w <= i /\ i + w < List.length x)%nat /\
       (forall j, (i <= j + w /\ j <= i + w)%nat -> d_ge (nth i x z) (nth j x z) = true) /\
       d_ge (nth i xn z) (nth (i - 1) (d_onset_g alpha xn) z) = true /\
       d_ge (nth i xn z) (fadd (if Nat.ltb i (m * w) then z else l_mean S (map (fun j => nth (i - m * w + j) xn z) (seq 0 ((m + 1) * w + 1)))) delta) = true).
Proof.
  intros S junk x w m alpha delta Hw H2 Hm xn. unfold a_onset_selection. cbv zeta. fold xn.
  assert (Lx : List.length xn = List.length x) by (unfold xn, l_rms, l_diff; now rewrite !map_length).
  set (n := List.length x) in *. rewrite Lx. set (ons0 := map junk (seq 0 n)).
  assert (L0 : List.length ons0 = n) by (unfold ons0; now rewrite map_length, seq_length).
  assert (Sl1 : forall A (l : list A), List.length l = n -> slice (Some 1%Z) None l = skipn 1 l).
  { intros A l Hl. unfold slice. simpl lo_bound. simpl hi_bound. unfold zlen. rewrite Hl. replace (slice_bound (Z.of_nat n) 1) with 1%Z by (rewrite slice_bound_pos; lia).
    rewrite Nat2Z.id. apply firstn_all2. rewrite skipn_length, Hl. lia. }
  assert (Sl2 : forall l : list f64_num, List.length l = n -> slice None (Some (-1)%Z) l = firstn (n - 1) l).
  { intros l Hl. unfold slice. simpl lo_bound. simpl hi_bound. unfold zlen. rewrite Hl. change (-1)%Z with (- Z.of_nat 1)%Z. rewrite bound_neg by lia. rewrite Nat2Z.id, Nat.sub_0_r. reflexivity. }
  set (g := d_onset_g alpha xn). assert (Lg : List.length g = n) by (unfold g; now rewrite onset_g_length_d).
  rewrite !Sl1, Sl2 by auto. rewrite ufunc2_eq by (rewrite ?skipn_length, ?firstn_length; lia). cbn [bind].
  set (c1 := map (fun p : f64_num * f64_num => d_ge (fst p) (snd p)) (combine (skipn 1 xn) (firstn (n - 1) g))).
  assert (Lc1 : List.length c1 = (n - 1)%nat) by (unfold c1; rewrite map_length, combine_length, skipn_length, firstn_length; lia).
  rewrite (set_slice_exact _ _ _ _ _ 1 n); cycle 1.
  { simpl. unfold zlen. rewrite L0. rewrite slice_bound_pos; lia. }
  { simpl. unfold zlen. lia. }
  { lia. }
  { lia. }
  cbn [bind]. destruct (a_onset_m_ok S xn w m delta g) as (t & T1 & T2 & T3); try lia. rewrite T1. cbn [bind]. rewrite ufunc2_eq by lia. cbn [bind].
  set (c2 := map (fun p : f64_num * f64_num => d_ge (fst p) (snd p)) (combine xn t)).
  assert (Lc2 : List.length c2 = n) by (unfold c2; rewrite map_length, combine_length; lia).
  set (ons1 := firstn 1 ons0 ++ c1 ++ skipn n ons0). assert (L1 : List.length ons1 = n) by (unfold ons1; rewrite !app_length, firstn_length, skipn_length; lia).
  rewrite ufunc2_eq by lia. cbn [bind]. set (ons2 := map (fun p : bool * bool => fst p && snd p) (combine ons1 c2)).
  assert (L2 : List.length ons2 = n) by (unfold ons2; rewrite map_length, combine_length; lia).
  destruct (a_local_maxima_ok x w None true ons2) as (r & R1 & R2 & R3); auto; try (simpl; fold n; lia).
  exists r. split; [exact R1|]. split; [exact R2|]. intros i Hi. rewrite R3 by auto. cbn [d_key]. fold n.
  assert (Onset : (w <= i /\ i + w < n)%nat -> (nth i ons2 false = true <-> d_ge (nth i xn z) (nth (i - 1) g z) = true /\ d_ge (nth i xn z) (nth i t z) = true)).
  { intros Hb. unfold ons2. rewrite (nth_map_lt _ _ _ (false, false)) by (rewrite combine_length; lia). rewrite nth_combine by lia. cbn [fst snd]. rewrite andb_true_iff.
    assert (O1 : nth i ons1 false = d_ge (nth i xn z) (nth (i - 1) g z)).
    { unfold ons1. rewrite app_nth2 by (rewrite firstn_length; lia). rewrite firstn_length. replace (Nat.min 1 (List.length ons0)) with 1%nat by lia.
      rewrite app_nth1 by lia. unfold c1. rewrite (nth_map_lt _ _ _ (z, z)) by (rewrite combine_length, skipn_length, firstn_length; lia).
      rewrite nth_combine by (rewrite ?skipn_length, ?firstn_length; lia). cbn [fst snd]. rewrite nth_skipn_add, nth_firstn_lt by lia. replace (1 + (i - 1))%nat with i by lia. reflexivity. }
    assert (O2 : nth i c2 false = d_ge (nth i xn z) (nth i t z)).
    { unfold c2. rewrite (nth_map_lt _ _ _ (z, z)) by (rewrite combine_length; lia). rewrite nth_combine by lia. reflexivity. }
    rewrite O1, O2. reflexivity. }
  split.
  - intros (A & B & C). specialize (C eq_refl). apply (Onset A) in C. rewrite T3 in C by lia. tauto.
  - intros (A & B & C & D). split; [exact A|]. split; [exact B|]. intros _. apply (Onset A). rewrite T3 by lia. tauto.
Qed.

(** So with finite numbers an onset is, exactly, a maximum among the samples at most [w] away; and onsets at most [w] apart have the same value. *)
Theorem c116_maxima : forall S junk x w m alpha delta r i, (1 <= w)%nat -> (2 * w + 1 <= List.length x)%nat -> ((m + 1) * w + 1 <= List.length x)%nat ->
  Forall (fun v : f64_num => finite v) x -> a_onset_selection S junk x (Z.of_nat w) (Z.of_nat m) alpha delta = Ok r -> nth i r false = true ->
  (w <= i /\ i + w < List.length x)%nat /\
  forall j, (i <= j + w /\ j <= i + w)%nat -> val (nth j x z) <= val (nth i x z) /\ (nth j r false = true -> val (nth j x z) = val (nth i x z)).
Proof.
  intros S junk x w m alpha delta r i Hw H2 Hm FX E Hi. destruct (c116_selection S junk x w m alpha delta Hw H2 Hm) as (r' & E' & L & C). rewrite E in E'. injection E' as <-.
  assert (IL : forall i, nth i r false = true -> (i < List.length x)%nat).
  { intros k Hk. destruct (Nat.lt_ge_cases k (List.length x)) as [|G]; [assumption|]. rewrite nth_overflow in Hk by lia. discriminate Hk. }
  assert (M : forall i, nth i r false = true -> (w <= i /\ i + w < List.length x)%nat /\ forall j, (i <= j + w /\ j <= i + w)%nat -> val (nth j x z) <= val (nth i x z)).
  { intros k Hk. apply (C k (IL k Hk)) in Hk. destruct Hk as (A & B & _). split; [exact A|]. intros j Hj. specialize (B j Hj). rewrite Forall_forall in FX.
    apply (ge_iff (nth k x z) (nth j x z)) in B; auto; apply FX, nth_In; lia. }
  destruct (M i Hi) as [A B]. split; [exact A|]. intros j Hj. split; [apply B, Hj|]. intros Sj. apply Rle_antisym; [apply B, Hj|]. apply (M j Sj). lia.
Qed.

(** One number that is NaN or infinite anywhere, and nothing is an onset. *)
Lemma rms_nan : forall S x c, summer S -> (Z.of_nat (List.length x) <= 2 ^ 50)%Z -> In B754_nan x \/ In (B754_infinity c) x ->
  forall i, (i < List.length x)%nat -> nth i (l_rms S x) z = B754_nan.
Proof.
  intros S x c HS HL H i Hi. assert (NE : x <> []) by (intros ->; cbn in Hi; lia).
  destruct (int_val (Z.of_nat (List.length x)) ltac:(lia)) as [Fn Vn].
  assert (Pn : 1 <= val (f64_of (Z.of_nat (List.length x)) 0)) by (rewrite Vn; apply IZR_le; lia). set (nn := f64_of (Z.of_nat (List.length x)) 0) in *.
  assert (DN : forall v, fdiv B754_nan v = B754_nan) by (intros [q|q| |q m e B]; reflexivity).
  assert (ND : forall v, fdiv v B754_nan = B754_nan) by (intros [q|q| |q m e B]; reflexivity).
  assert (SN : forall v, fsub v B754_nan = B754_nan) by (intros [q|q| |q m e B]; reflexivity).
  assert (DI : fdiv (B754_infinity c) nn = B754_infinity c).
  { destruct nn as [q|q| |q m e B]; try discriminate Fn; [cbn in Pn; lra|]. destruct q; [|destruct c; reflexivity]. exfalso. assert (val (B754_finite true m e B : f64_num) < 0); [|lra].
    unfold val. cbn [B2R]. apply F2R_lt_0. cbn. lia. }
  assert (DF : In B754_nan (l_diff S x)).
  { unfold l_diff. destruct H as [H|H].
    - apply in_map_iff. exists B754_nan. split; [|exact H]. assert (E : l_mean S x = B754_nan) by (unfold l_mean; rewrite (adds_nan _ _ (HS x NE) H); apply DN). rewrite E. reflexivity.
    - apply in_map_iff. exists (B754_infinity c). split; [|exact H].
      assert (E : l_mean S x = B754_infinity c \/ l_mean S x = B754_nan).
      { change (l_mean S x) with (fdiv (S x) nn). destruct (adds_inf _ _ c (HS x NE) H) as [->| ->]; [left; exact DI|right; apply DN]. }
      destruct E as [->| ->]; [destruct c; reflexivity|apply SN]. }
  assert (ST : l_std S x = B754_nan).
  { unfold l_std. assert (Q : In B754_nan (map (fun v => fmul v v) (l_diff S x))) by (apply in_map_iff; exists B754_nan; split; [reflexivity|exact DF]).
    unfold l_mean at 1. rewrite (adds_nan _ _ (HS _ ltac:(intros E; rewrite E in Q; exact Q)) Q), DN. reflexivity. }
  unfold l_rms. rewrite ST. cbn [f_or1]. rewrite (nth_map_lt _ _ _ z) by (unfold l_diff; now rewrite map_length). apply ND.
Qed.
Theorem c116_nan : forall S junk x w m alpha delta c, (1 <= w)%nat -> (2 * w + 1 <= List.length x)%nat -> ((m + 1) * w + 1 <= List.length x)%nat ->
  summer S -> (Z.of_nat (List.length x) <= 2 ^ 50)%Z -> In B754_nan x \/ In (B754_infinity c) x ->
  a_onset_selection S junk x (Z.of_nat w) (Z.of_nat m) alpha delta = Ok (repeat false (List.length x)).
Proof.
  intros S junk x w m alpha delta c Hw H2 Hm HS HL H. destruct (c116_selection S junk x w m alpha delta Hw H2 Hm) as (r & E & L & C). rewrite E. f_equal.
  apply (nth_ext _ _ false false); [now rewrite repeat_length|]. intros i Hi. rewrite L in Hi. rewrite nth_repeat. apply not_true_is_false. intros T. apply (C i Hi) in T.
  destruct T as (_ & _ & T & _). rewrite (rms_nan S x c HS HL H i Hi) in T. destruct (nth (i - 1) _ z); discriminate T.
Qed.

(** Zeros with a one in the middle: the one is the onset.  With a NaN at the end there is none. *)
Example ex_selection :
  let x e := [z; z; z; z; z; f64_of 1 0; z; z; z; e] in
  a_onset_selection left_sum (fun _ => true) (x z) 1 3 (f64_of 3 (-2)) (f64_of 3 (-1)) = Ok [false; false; false; false; false; true; false; false; false; false] /\
  a_onset_selection left_sum (fun _ => true) (x B754_nan) 1 3 (f64_of 3 (-2)) (f64_of 3 (-1)) = Ok (repeat false 10) /\
  In B754_nan (x B754_nan) /\ Forall (fun v : f64_num => finite v) (x z).
Proof. split; [vm_compute; reflexivity|]. split; [vm_compute; reflexivity|]. split; [cbn; tauto|]. repeat constructor. Qed.
Example ex_maxima : a_local_maxima [z; f64_of 1 0; f64_of 1 0; z; B754_infinity false; z; B754_nan] 1 None false (repeat true 7) = Ok [false; true; true; false; true; false; false].
Proof. vm_compute. reflexivity. Qed.
Print Assumptions c116_local_maxima. Print Assumptions c116_selection. Print Assumptions c116_maxima. Print Assumptions c116_nan.
