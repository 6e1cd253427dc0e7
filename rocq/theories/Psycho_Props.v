(** Properties of sample/psycho.py and of the level conversions: C31 to C37. *)
From Coq Require Import String List Bool ZArith Reals Lra Lia.
Import ListNotations.
From Verif Require Import Base PyLemmas Np_Model Np_Lemmas Sample_Model Sample_Proofs
  Psycho_Model Psycho_Proofs Psycho_Math.
Local Open Scope R_scope.

(** ** C31 *)

(** Whatever [out] is -- another array, the input itself or nothing -- the
    result is the same elementwise formula; with [out] given the result is in
    [out]; no other array changes; contents of uninitialised memory do not
    matter. *)
Theorem c31_elementwise : forall junk,
  (forall g func,
     In (g, func)
       [(fun x => 13 * atan (76 / 100000 * x)
                           + 35 / 10 * atan (x / 7500 * (x / 7500)), hz2bark_zwicker junk);
        (fun x => 2681 / 100 * x / (1960 + x) - 53 / 100, hz2bark_traunmuller junk);
        (fun x => 6 * arcsinh (x / 600), hz2bark_wang);
        (fun x => (53 / 100 + x) / (2628 / 100 - x) * 1960, bark2hz_traunmuller junk);
        (fun x => 600 * sinh (x / 6), bark2hz_wang);
        (fun x => 2595 * log10 (1 + x / 700), hz2mel);
        (fun x => (Rpower 10 (x / 2595) - 1) * 700, mel2hz);
        (fun x => 1000 * log2 (1 + x / 1000), hz2mel_fant);
        (fun x => (Rpower 2 (x / 1000) - 1) * 1000, mel2hz_fant);
        (fun x => 623 / 100000000 * (x * x) + 9339 / 1000000 * x + 2852 / 100, erb junk);
        (fun x => 247 / 10 * (437 / 100000 * x + 1), erb_linear);
        (fun x => 1117 / 100 * ln ((x + 312) / (x + 14675)) + 43, hz2cams junk);
        (fun x => 214 / 10 * log10 (1 + 437 / 100000 * x), hz2cams_linear);
        (fun x => (312 - 14675 * exp ((x - 43) / (1117 / 100)))
                           / (exp ((x - 43) / (1117 / 100)) - 1), cams2hz junk);
        (fun x => (Rpower 10 (x / (214 / 10)) - 1) / (437 / 100000), cams2hz_linear);
        (fun x => Rpower 10 (x / 20), db2a_np);
        (fun x => 20 * log10 x, a2db_np junk None false);
        (fun x => 148693636 * (x * x * (x * x))
                   / (sqrt ((x * x + 1159929 / 100) * (x * x + 54449641 / 100))
                      * (x * x + 42436 / 100) * (x * x + 148693636)), a_weighting_lin junk)] ->
     forall m f out, (f < next m)%nat ->
       (forall o, out = Some o -> (o < next m)%nat /\
          List.length (cells m f) = List.length (cells m o)) ->
       exists r m', numpy_out junk func f out m = Ok (r, m') /\
         match out with Some o => r = o | None => (next m <= r)%nat end /\
         cells m' r = map g (cells m f) /\
         forall l, (l < next m)%nat -> Some l <> out -> cells m' l = cells m l).
Proof.
  intros junk g func H.
  assert (E : elementwise g func).
  { simpl in H.
    repeat match type of H with
    | _ \/ _ => destruct H as [H|H]
    end; try contradiction; injection H as <- <-.
    - apply hz2bark_zwicker_ok.
    - apply hz2bark_traunmuller_ok.
    - apply hz2bark_wang_ok.
    - apply bark2hz_traunmuller_ok.
    - apply bark2hz_wang_ok.
    - apply hz2mel_ok.
    - apply mel2hz_ok.
    - apply hz2mel_fant_ok.
    - apply mel2hz_fant_ok.
    - apply erb_ok.
    - apply erb_linear_ok.
    - apply hz2cams_ok.
    - apply hz2cams_linear_ok.
    - apply cams2hz_ok.
    - apply cams2hz_linear_ok.
    - apply db2a_ok.
    - apply a2db_np_none.
    - apply a_weighting_lin_ok. }
  intros m f out Hf Ho.
  destruct (numpy_out_elementwise junk g func E m f out Hf Ho) as (r & m' & R & D & C & _ & _ & F).
  exists r, m'. split; [exact R|]. split; [destruct out; [exact D|lia]|]. auto.
Qed.
Print Assumptions c31_elementwise.

(** The functions of two arrays: [semisum], [semidiff] and [a2db] with a floor
    under all aliasing patterns, [modal_energy] unless [out] is the array of
    decays. *)
Theorem c31_two_arrays : forall m x y out,
  (x < next m)%nat -> (y < next m)%nat -> (out < next m)%nat ->
  List.length (cells m x) = List.length (cells m out) ->
  List.length (cells m y) = List.length (cells m out) ->
  forall g func,
    In (g, func) [(fun a b => (a + b) / 2, semisum y x);
                  (fun a b => (a - b) / 2, semidiff y x);
                  (fun a b => 20 * log10 (Rmax a b), a2db_floored y x)] \/
    (out <> y /\ (g, func) = (fun a d => a * a * d / 4, modal_energy_np y x)) ->
    exists m', func out m = Ok (out, m') /\
      cells m' out = map2 g (cells m x) (cells m y) /\
      forall l, (l < next m)%nat -> l <> out -> cells m' l = cells m l.
Proof.
  intros m x y out Hx Hy Ho Lx Ly g func H.
  assert (G : exists m', func out m = Ok (out, m') /\
      cells m' out = map2 g (cells m x) (cells m y) /\ (next m <= next m')%nat /\
      forall l, (l < next m)%nat -> l <> out -> cells m' l = cells m l).
  { destruct H as [H|[Hn H]].
    - simpl in H. destruct H as [H|[H|[H|[]]]]; injection H as <- <-.
      + now apply semisum_ok.
      + now apply semidiff_ok.
      + now apply a2db_floored_ok.
    - injection H as -> ->. now apply modal_energy_ok. }
  destruct G as (m' & A & B & _ & C). exists m'. auto.
Qed.
Print Assumptions c31_two_arrays.

(** [modal_energy(a, d, out=d)] is not [a^2*d/4]. *)
Theorem c31_modal_energy_out_refuted : exists m a d m',
  (a < next m)%nat /\ (d < next m)%nat /\
  List.length (cells m a) = List.length (cells m d) /\
  modal_energy_np d a d m = Ok (d, m') /\
  cells m' d <> map2 (fun a d => a * a * d / 4) (cells m a) (cells m d).
Proof.
  set (m := mkMem (fun l => if Nat.eqb l 0 then [2] else [3]) 2).
  destruct (modal_energy_out_d m 0 1) as (m' & R & C); simpl; try lia.
  exists m, 0%nat, 1%nat, m'. simpl. split; [lia|]. split; [lia|]. split; [reflexivity|].
  split; [exact R|]. rewrite C. simpl. intro E. injection E. lra.
Qed.
Print Assumptions c31_modal_energy_out_refuted.

(** [a_weighting(f, out=o)] (in dB) returns the weights in dB in a new array
    and leaves the linear weights in [o]. *)
Theorem c31_a_weighting_db : forall junk m f out, (f < next m)%nat -> (out < next m)%nat ->
  List.length (cells m f) = List.length (cells m out) ->
  exists r m', a_weighting_db junk f out m = Ok (r, m') /\ (next m <= r)%nat /\
    cells m' r = map (fun x => 20 * log10 (a_weight x) - 20 * log10 (a_weight 1000)) (cells m f) /\
    cells m' out = map a_weight (cells m f) /\
    forall l, (l < next m)%nat -> l <> out -> cells m' l = cells m l.
Proof. exact a_weighting_db_run. Qed.
Print Assumptions c31_a_weighting_db.

Theorem c31_a_weighting_out_refuted : exists junk m f out r m',
  (f < next m)%nat /\ (out < next m)%nat /\
  a_weighting_db junk f out m = Ok (r, m') /\ cells m' out <> cells m' r.
Proof.
  set (m := mkMem (fun _ => [1000]) 2).
  destruct (a_weighting_db_run (fun _ _ => 0) m 0 1) as (r & m' & R & _ & C & D & _);
    simpl; try lia.
  exists (fun _ _ => 0), m, 0%nat, 1%nat, r, m'.
  split; [simpl; lia|]. split; [simpl; lia|]. split; [exact R|].
  rewrite C, D. simpl. intro E. injection E as E.
  assert (P : 0 < a_lin 1000) by (apply a_weight_pos; lra). lra.
Qed.
Print Assumptions c31_a_weighting_out_refuted.

(** The gammatone wave function agrees with its formula unless [out] is the
    time axis itself. *)
Theorem c31_wavefun : forall junk g m t out, (t < next m)%nat ->
  (forall o, out = Some o -> (o < next m)%nat /\ o <> t /\
     List.length (cells m t) = List.length (cells m o)) ->
  exists r m', wavefun junk g t out m = Ok (r, m') /\
    cells m' r = map (fun x => gt_env (gt_n g) (t_c g) (bandwidth g) x
                               * cos (2 * PI * gt_f g * x + phi g)) (cells m t).
Proof. exact wavefun_fresh. Qed.
Print Assumptions c31_wavefun.

(** [wavefun(t, out=t)] is different from [wavefun(t)]. *)
Theorem c31_wavefun_inplace_refuted : exists junk g m t m1 m2 r,
  (t < next m)%nat /\ 0 < bandwidth g /\
  wavefun junk g t (Some t) m = Ok (t, m1) /\
  wavefun junk g t None m = Ok (r, m2) /\
  cells m1 t <> cells m2 r.
Proof.
  set (g := mkGt 1 1 (Some 1) (Some 0) (Some 0) false None).
  set (m := mkMem (fun _ => [/ 4]) 1).
  destruct (wavefun_inplace (fun _ _ => 0) g m 0) as (m1 & R1 & C1); [simpl; lia|].
  destruct (wavefun_fresh (fun _ _ => 0) g m 0 None) as (r & m2 & R2 & C2);
    [simpl; lia|discriminate|].
  exists (fun _ _ => 0), g, m, 0%nat, m1, m2, r.
  split; [simpl; lia|]. split; [unfold g, bandwidth; simpl; lra|].
  split; [exact R1|]. split; [exact R2|]. rewrite C1, C2. simpl. unfold bandwidth, t_c, phi. simpl.
  destruct (Rle_lt_dec 0 (/ 4 + 0)); [|lra].
  replace (exp (-2 * PI * 1 * (/ 4 + 0)) * (1 * 1)) with (exp (- (PI / 2)))
    by (rewrite !Rmult_1_r; f_equal; field).
  replace (2 * PI * 1 * / 4 + 0) with (PI / 2) by field. rewrite cos_PI2, Rmult_0_r.
  set (e := exp (- (PI / 2))).
  assert (E : 0 < e < / 4).
  { split; [apply exp_pos|]. unfold e. rewrite exp_Ropp.
    apply Rinv_lt_contravar.
    - apply Rmult_lt_0_compat; [lra|apply exp_pos].
    - assert (L : exp 1 * exp (1 / 2) <= exp (PI / 2)).
      { rewrite <- exp_plus. pose proof PI2_3_2. 
        destruct (Req_dec (1 + 1 / 2) (PI / 2)) as [->|]; [lra|].
        left. apply exp_increasing. lra. }
      assert (E1 : 2 + 6 / 10 < exp 1).
      { replace 1 with (1 / 2 + 1 / 2) by field. rewrite exp_plus.
        assert (H2 : exp (1 / 2) = exp (1 / 4) * exp (1 / 4)) by (rewrite <- exp_plus; f_equal; field).
        assert (H4 : exp (1 / 4) = exp (1 / 8) * exp (1 / 8)) by (rewrite <- exp_plus; f_equal; field).
        assert (H8 : exp (1 / 8) = exp (1 / 16) * exp (1 / 16)) by (rewrite <- exp_plus; f_equal; field).
        pose proof (exp_ineq1 (1 / 16) ltac:(lra)) as G.
        set (z := exp (1 / 16)) in *. rewrite H2, H4, H8.
        assert (1 + 128 / 1000 < z * z) by nra.
        assert (1 + 272 / 1000 < z * z * (z * z)) by nra.
        set (w := z * z * (z * z)) in *.
        assert (1 + 617 / 1000 < w * w) by nra. nra. }
      assert (E2 : 1 + 617 / 1000 < exp (1 / 2)).
      { assert (H2 : exp (1 / 2) = exp (1 / 4) * exp (1 / 4)) by (rewrite <- exp_plus; f_equal; field).
        assert (H4 : exp (1 / 4) = exp (1 / 8) * exp (1 / 8)) by (rewrite <- exp_plus; f_equal; field).
        assert (H8 : exp (1 / 8) = exp (1 / 16) * exp (1 / 16)) by (rewrite <- exp_plus; f_equal; field).
        pose proof (exp_ineq1 (1 / 16) ltac:(lra)) as G.
        set (z := exp (1 / 16)) in *. rewrite H2, H4, H8.
        assert (1 + 128 / 1000 < z * z) by nra.
        assert (1 + 272 / 1000 < z * z * (z * z)) by nra.
        set (w := z * z * (z * z)) in *. nra. }
      nra. }
  intro H. injection H as H.
  assert (0 < cos (2 * PI * 1 * e + 0)).
  { pose proof PI_RGT_0. apply cos_gt_0; nra. }
  nra.
Qed.
Print Assumptions c31_wavefun_inplace_refuted.

Example c31_example : exists junk m f m',
  numpy_out junk (hz2bark_traunmuller junk) f (Some f) m = Ok (f, m') /\
  cells m f = [1960; 0] /\ cells m' f = [2681 / 100 * 1960 / (1960 + 1960) - 53 / 100;
                                         2681 / 100 * 0 / (1960 + 0) - 53 / 100].
Proof.
  exists (fun _ _ => 7), (mkMem (fun _ => [1960; 0]) 1), 0%nat.
  eexists. split; [reflexivity|]. split; reflexivity.
Qed.

(** ** C32 *)

Lemma map_round : forall (P : R -> Prop) (g h : R -> R) xs, (forall x, P x -> h (g x) = x) ->
  Forall P xs -> map h (map g xs) = xs.
Proof.
  intros P g h xs H F. rewrite map_map. induction F; simpl; auto. rewrite H by auto. congruence.
Qed.
Lemma all_true : forall xs : list R, Forall (fun _ => True) xs.
Proof. induction xs; auto. Qed.

(** Both Mel definitions: each direction undoes the other. *)
Theorem c32_mel_inverse : forall junk xs,
  (Forall (fun f => -700 < f) xs ->
     exists ms, call junk hz2mel xs = Ok ms /\ call junk mel2hz ms = Ok xs) /\
  (exists fs, call junk mel2hz xs = Ok fs /\ Forall (fun f => -700 < f) fs /\
     call junk hz2mel fs = Ok xs).
Proof.
  intros. split.
  - intro H. eexists. split; [apply call_elementwise, hz2mel_ok|].
    rewrite (call_elementwise _ _ _ _ mel2hz_ok). f_equal.
    apply (map_round (fun f => -700 < f)); auto. intros; now apply mel_inv.
  - eexists. split; [apply call_elementwise, mel2hz_ok|]. split.
    + apply Forall_map. eapply Forall_impl; [|apply all_true]. intros x _. simpl.
      pose proof (Rpower_pos 10 (x / 2595)). lra.
    + rewrite (call_elementwise _ _ _ _ hz2mel_ok). f_equal.
      apply (map_round (fun _ => True)); [|apply all_true]. intros; apply mel_inv'.
Qed.
Print Assumptions c32_mel_inverse.

Theorem c32_fant_inverse : forall junk xs,
  (Forall (fun f => -1000 < f) xs ->
     exists ms, call junk hz2mel_fant xs = Ok ms /\ call junk mel2hz_fant ms = Ok xs) /\
  (exists fs, call junk mel2hz_fant xs = Ok fs /\ Forall (fun f => -1000 < f) fs /\
     call junk hz2mel_fant fs = Ok xs).
Proof.
  intros. split.
  - intro H. eexists. split; [apply call_elementwise, hz2mel_fant_ok|].
    rewrite (call_elementwise _ _ _ _ mel2hz_fant_ok). f_equal.
    apply (map_round (fun f => -1000 < f)); auto. intros; now apply fant_inv.
  - eexists. split; [apply call_elementwise, mel2hz_fant_ok|]. split.
    + apply Forall_map. eapply Forall_impl; [|apply all_true]. intros x _. simpl.
      pose proof (Rpower_pos 2 (x / 1000)). lra.
    + rewrite (call_elementwise _ _ _ _ hz2mel_fant_ok). f_equal.
      apply (map_round (fun _ => True)); [|apply all_true]. intros; apply fant_inv'.
Qed.
Print Assumptions c32_fant_inverse.

(** Strictly increasing, and zero is zero. *)
Theorem c32_increasing : forall junk x y, x < y ->
  (-700 < x -> exists u v, call junk hz2mel [x; y] = Ok [u; v] /\ u < v) /\
  (-1000 < x -> exists u v, call junk hz2mel_fant [x; y] = Ok [u; v] /\ u < v) /\
  (exists u v, call junk mel2hz [x; y] = Ok [u; v] /\ u < v) /\
  (exists u v, call junk mel2hz_fant [x; y] = Ok [u; v] /\ u < v) /\
  call junk hz2mel [0] = Ok [0] /\ call junk mel2hz [0] = Ok [0] /\
  call junk hz2mel_fant [0] = Ok [0] /\ call junk mel2hz_fant [0] = Ok [0].
Proof.
  intros. rewrite !(call_elementwise _ _ _ _ hz2mel_ok), !(call_elementwise _ _ _ _ mel2hz_ok),
    !(call_elementwise _ _ _ _ hz2mel_fant_ok), !(call_elementwise _ _ _ _ mel2hz_fant_ok).
  simpl. repeat split.
  - intro. eexists _, _. split; [reflexivity|].
    assert (log10 (1 + x / 700) < log10 (1 + y / 700)) by (apply log10_inc; lra). lra.
  - intro. eexists _, _. split; [reflexivity|].
    assert (log2 (1 + x / 1000) < log2 (1 + y / 1000)) by (apply log2_inc; lra). lra.
  - eexists _, _. split; [reflexivity|].
    assert (Rpower 10 (x / 2595) < Rpower 10 (y / 2595)) by (apply Rpower_lt; lra). lra.
  - eexists _, _. split; [reflexivity|].
    assert (Rpower 2 (x / 1000) < Rpower 2 (y / 1000)) by (apply Rpower_lt; lra). lra.
  - f_equal. f_equal. unfold log10, Rdiv. rewrite Rmult_0_l, Rplus_0_r, ln_1. ring.
  - f_equal. f_equal. unfold Rdiv. rewrite Rmult_0_l, Rpower_O by lra. ring.
  - f_equal. f_equal. unfold log2, Rdiv. rewrite Rmult_0_l, Rplus_0_r, ln_1. ring.
  - f_equal. f_equal. unfold Rdiv. rewrite Rmult_0_l, Rpower_O by lra. ring.
Qed.
Print Assumptions c32_increasing.

Example c32_example : forall junk, exists m,
  call junk hz2mel [6300] = Ok [m] /\ m = 2595 /\ call junk mel2hz [2595] = Ok [6300].
Proof.
  intro junk. rewrite (call_elementwise _ _ _ _ hz2mel_ok), (call_elementwise _ _ _ _ mel2hz_ok).
  simpl. eexists. split; [reflexivity|]. split.
  - replace (1 + 6300 / 700) with 10 by field. unfold log10. pose proof ln10_pos. field. lra.
  - f_equal. f_equal. replace (2595 / 2595) with 1 by field. rewrite Rpower_1 by lra. ring.
Qed.

(** ** C33 *)

Theorem c33_traunmuller_inverse : forall junk xs,
  (Forall (fun f => f <> -1960) xs ->
     exists bs, call junk (hz2bark_traunmuller junk) xs = Ok bs /\
                call junk (bark2hz_traunmuller junk) bs = Ok xs) /\
  (Forall (fun b => b <> 2628 / 100) xs ->
     exists fs, call junk (bark2hz_traunmuller junk) xs = Ok fs /\
                call junk (hz2bark_traunmuller junk) fs = Ok xs).
Proof.
  intros. split; intro H; eexists.
  - split; [apply call_elementwise, hz2bark_traunmuller_ok|].
    rewrite (call_elementwise _ _ _ _ (bark2hz_traunmuller_ok junk)). f_equal.
    apply (map_round (fun f => f <> -1960)); auto. intros; now apply traun_inv.
  - split; [apply call_elementwise, bark2hz_traunmuller_ok|].
    rewrite (call_elementwise _ _ _ _ (hz2bark_traunmuller_ok junk)). f_equal.
    apply (map_round (fun b => b <> 2628 / 100)); auto. intros; now apply traun_inv'.
Qed.
Print Assumptions c33_traunmuller_inverse.

Theorem c33_wang_inverse : forall junk xs,
  (exists bs, call junk hz2bark_wang xs = Ok bs /\ call junk bark2hz_wang bs = Ok xs) /\
  (exists fs, call junk bark2hz_wang xs = Ok fs /\ call junk hz2bark_wang fs = Ok xs).
Proof.
  intros. split; eexists.
  - split; [apply call_elementwise, hz2bark_wang_ok|].
    rewrite (call_elementwise _ _ _ _ bark2hz_wang_ok). f_equal.
    apply (map_round (fun _ => True)); [|apply all_true]. intros; apply wang_inv.
  - split; [apply call_elementwise, bark2hz_wang_ok|].
    rewrite (call_elementwise _ _ _ _ hz2bark_wang_ok). f_equal.
    apply (map_round (fun _ => True)); [|apply all_true]. intros; apply wang_inv'.
Qed.
Print Assumptions c33_wang_inverse.

Theorem c33_increasing : forall junk x y, 0 <= x -> x < y ->
  Forall (fun func => exists u v, call junk func [x; y] = Ok [u; v] /\ u < v)
    [hz2bark_zwicker junk; hz2bark_traunmuller junk; hz2bark_wang; bark2hz_wang].
Proof.
  intros. repeat constructor.
  - rewrite (call_elementwise _ _ _ _ (hz2bark_zwicker_ok junk)). eexists _, _.
    split; [reflexivity|]. now apply zwicker_inc.
  - rewrite (call_elementwise _ _ _ _ (hz2bark_traunmuller_ok junk)). eexists _, _.
    split; [reflexivity|]. apply traun_inc; lra.
  - rewrite (call_elementwise _ _ _ _ hz2bark_wang_ok). eexists _, _.
    split; [reflexivity|]. now apply wang_inc.
  - rewrite (call_elementwise _ _ _ _ bark2hz_wang_ok). eexists _, _.
    split; [reflexivity|]. assert (sinh (x / 6) < sinh (y / 6)) by (apply sinh_lt; lra). lra.
Qed.
Print Assumptions c33_increasing.

Example c33_example : forall junk,
  call junk (hz2bark_traunmuller junk) [1960] = Ok [2681 / 200 - 53 / 100] /\
  call junk hz2bark_wang [0] = Ok [0].
Proof.
  intro junk. rewrite (call_elementwise _ _ _ _ (hz2bark_traunmuller_ok junk)),
    (call_elementwise _ _ _ _ hz2bark_wang_ok). simpl. split; f_equal; f_equal.
  - field.
  - unfold Rdiv. rewrite Rmult_0_l, arcsinh_0. ring.
Qed.

(** ** C34 *)

Theorem c34_cams_inverse : forall junk xs,
  (Forall (fun f => -312 < f) xs ->
     exists cs, call junk (hz2cams junk) xs = Ok cs /\ Forall (fun c => c < 43) cs /\
                call junk (cams2hz junk) cs = Ok xs) /\
  (Forall (fun c => c < 43) xs ->
     exists fs, call junk (cams2hz junk) xs = Ok fs /\ Forall (fun f => -312 < f) fs /\
                call junk (hz2cams junk) fs = Ok xs).
Proof.
  intros. split; intro H; eexists.
  - split; [apply call_elementwise, hz2cams_ok|]. split.
    + apply Forall_map. eapply Forall_impl; [|exact H]. intros; now apply cams_below.
    + rewrite (call_elementwise _ _ _ _ (cams2hz_ok junk)). f_equal.
      apply (map_round (fun f => -312 < f)); auto. intros; now apply cams_inv.
  - split; [apply call_elementwise, cams2hz_ok|]. split.
    + apply Forall_map. eapply Forall_impl; [|exact H]. intros; now apply cams_inv'.
    + rewrite (call_elementwise _ _ _ _ (hz2cams_ok junk)). f_equal.
      apply (map_round (fun c => c < 43)); auto. intros; now apply cams_inv'.
Qed.
Print Assumptions c34_cams_inverse.

Theorem c34_cams_linear_inverse : forall junk xs,
  (Forall (fun f => - (100000 / 437) < f) xs ->
     exists cs, call junk hz2cams_linear xs = Ok cs /\ call junk cams2hz_linear cs = Ok xs) /\
  (exists fs, call junk cams2hz_linear xs = Ok fs /\ call junk hz2cams_linear fs = Ok xs).
Proof.
  intros. split; [intro H|]; eexists.
  - split; [apply call_elementwise, hz2cams_linear_ok|].
    rewrite (call_elementwise _ _ _ _ cams2hz_linear_ok). f_equal.
    apply (map_round (fun f => - (100000 / 437) < f)); auto. intros; now apply camsl_inv.
  - split; [apply call_elementwise, cams2hz_linear_ok|].
    rewrite (call_elementwise _ _ _ _ hz2cams_linear_ok). f_equal.
    apply (map_round (fun _ => True)); [|apply all_true]. intros; apply camsl_inv'.
Qed.
Print Assumptions c34_cams_linear_inverse.

Theorem c34_increasing : forall junk x y, 0 <= x -> x < y ->
  Forall (fun func => exists u v, call junk func [x; y] = Ok [u; v] /\ u < v)
    [hz2cams junk; hz2cams_linear; erb junk; erb_linear].
Proof.
  intros. repeat constructor.
  - rewrite (call_elementwise _ _ _ _ (hz2cams_ok junk)). eexists _, _.
    split; [reflexivity|]. apply cams_inc; lra.
  - rewrite (call_elementwise _ _ _ _ hz2cams_linear_ok). eexists _, _.
    split; [reflexivity|].
    assert (log10 (1 + 437 / 100000 * x) < log10 (1 + 437 / 100000 * y)) by (apply log10_inc; lra).
    lra.
  - rewrite (call_elementwise _ _ _ _ (erb_ok junk)). eexists _, _.
    split; [reflexivity|]. now apply erb_inc.
  - rewrite (call_elementwise _ _ _ _ erb_linear_ok). eexists _, _.
    split; [reflexivity|]. lra.
Qed.
Print Assumptions c34_increasing.

(** The quadratic ERB is positive at every frequency, the linear one above
    -1/0.00437 Hz. *)
Theorem c34_erb_positive : forall junk xs,
  (exists es, call junk (erb junk) xs = Ok es /\ Forall (fun e => 0 < e) es) /\
  (Forall (fun f => - (100000 / 437) < f) xs ->
   exists es, call junk erb_linear xs = Ok es /\ Forall (fun e => 0 < e) es).
Proof.
  intros. split; [|intro H]; eexists.
  - split; [apply call_elementwise, erb_ok|]. apply Forall_map.
    eapply Forall_impl; [|apply all_true]. intros; apply erb_pos.
  - split; [apply call_elementwise, erb_linear_ok|]. apply Forall_map.
    eapply Forall_impl; [|exact H]. simpl. intros; lra.
Qed.
Print Assumptions c34_erb_positive.

Example c34_example : forall junk,
  call junk (erb junk) [1000] = Ok [623 / 100 + 9339 / 1000 + 2852 / 100] /\
  call junk hz2cams_linear [0] = Ok [0].
Proof.
  intro junk. rewrite (call_elementwise _ _ _ _ (erb_ok junk)),
    (call_elementwise _ _ _ _ hz2cams_linear_ok). simpl. split; f_equal; f_equal.
  - unfold erb_value. field.
  - rewrite Rmult_0_r, Rplus_0_r. unfold log10, Rdiv. rewrite ln_1. ring.
Qed.

(** ** C35 *)

Theorem c35_inverse : forall junk xs,
  (Forall (fun a => 0 < a) xs ->
     exists ds, call junk (a2db_np junk None false) xs = Ok ds /\ call junk db2a_np ds = Ok xs) /\
  (exists a, call junk db2a_np xs = Ok a /\ Forall (fun a => 0 < a) a /\
     call junk (a2db_np junk None false) a = Ok xs).
Proof.
  intros. split; [intro H|]; eexists.
  - split; [apply call_elementwise, a2db_np_none|].
    rewrite (call_elementwise _ _ _ _ db2a_ok). f_equal.
    apply (map_round (fun a => 0 < a)); auto. intros; now apply db2a_a2db.
  - split; [apply call_elementwise, db2a_ok|]. split.
    + apply Forall_map. eapply Forall_impl; [|apply all_true]. intros; apply exp_pos.
    + rewrite (call_elementwise _ _ _ _ (a2db_np_none junk false)). f_equal.
      apply (map_round (fun _ => True)); [|apply all_true]. intros; apply a2db_db2a.
Qed.
Print Assumptions c35_inverse.

(** Products become sums, larger amplitudes have larger levels. *)
Theorem c35_homomorphism : forall junk x y, 0 < x -> 0 < y ->
  exists u v, call junk (a2db_np junk None false) [x; y; x * y] = Ok [u; v; u + v] /\
    (x < y <-> u < v).
Proof.
  intros junk x y Hx Hy.
  rewrite (call_elementwise _ _ _ _ (a2db_np_none junk false)). eexists _, _.
  assert (Hm : 20 * log10 (x * y) = 20 * log10 x + 20 * log10 y).
  { unfold log10. rewrite ln_mult by auto. pose proof ln10_pos. field. lra. }
  simpl. rewrite Hm. split; [reflexivity|]. split; intro H.
  - assert (log10 x < log10 y) by now apply log10_inc. lra.
  - destruct (Rlt_le_dec x y) as [L|[L|L]]; auto.
    + assert (log10 y < log10 x) by now apply log10_inc. lra.
    + subst. lra.
Qed.
Print Assumptions c35_homomorphism.

(** With a floor (linear, or in dB), the level is never below it, and it is the
    floorless level wherever the amplitude is not below the floor; this holds
    for every amplitude, zero included. *)
Theorem c35_floor : forall junk (floor_db : bool) m a fl out,
  (a < next m)%nat -> (fl < next m)%nat -> (out < next m)%nat ->
  List.length (cells m a) = List.length (cells m out) ->
  List.length (cells m fl) = List.length (cells m out) ->
  (floor_db = false -> Forall (fun f => 0 < f) (cells m fl)) ->
  exists m', a2db_np junk (Some fl) floor_db a out m = Ok (out, m') /\
    forall i, (i < List.length (cells m a))%nat ->
      let amp := nth i (cells m a) 0 in
      let lev := nth i (cells m' out) 0 in
      let floor := nth i (cells m fl) 0 in          (* as given *)
      let floor_lev := if floor_db then floor else 20 * (ln floor / ln 10) in
      floor_lev <= lev /\
      (0 < amp -> floor_lev <= 20 * (ln amp / ln 10) -> lev = 20 * (ln amp / ln 10)) /\
      (amp <= 0 -> lev = floor_lev) /\
      (0 < amp -> 20 * (ln amp / ln 10) <= floor_lev -> lev = floor_lev).
Proof.
  intros junk floor_db m a fl out Ha Hfl Ho La Lf Hpos.
  destruct (a2db_np_floor junk floor_db m a fl out) as (m' & R & C & _); auto.
  exists m'. split; [exact R|]. intros i Hi amp lev floor floor_lev.
  set (fa := if floor_db then Rpower 10 (floor / 20) else floor).
  assert (Pf : 0 < fa).
  { unfold fa. destruct floor_db; [apply exp_pos|]. specialize (Hpos eq_refl).
    rewrite Forall_forall in Hpos. apply Hpos. apply nth_In. lia. }
  assert (El : lev = a2db (Rmax amp fa)).
  { unfold lev. rewrite C. unfold map2.
    rewrite (nth_map_lt _ _ _ (0, 0)) by (rewrite combine_length; lia).
    rewrite nth_combine by lia. reflexivity. }
  assert (Ef : floor_lev = a2db fa).
  { unfold floor_lev, fa. destruct floor_db; [|reflexivity].
    symmetry. apply (a2db_db2a floor). }
  assert (Mon : forall u v, 0 < u -> u <= v -> a2db u <= a2db v).
  { intros u v Hu [Hv|<-]; [|lra]. assert (log10 u < log10 v) by now apply log10_inc.
    unfold a2db. lra. }
  rewrite El, Ef. change (20 * (ln amp / ln 10)) with (a2db amp).
  assert (Anti : 0 < amp -> a2db fa <= a2db amp -> fa <= amp).
  { intros Hp H. destruct (Rle_lt_dec fa amp); auto.
    assert (log10 amp < log10 fa) by now apply log10_inc. unfold a2db in H. lra. }
  assert (Anti' : 0 < amp -> a2db amp <= a2db fa -> amp <= fa).
  { intros Hp H. destruct (Rle_lt_dec amp fa); auto.
    assert (log10 fa < log10 amp) by now apply log10_inc. unfold a2db in H. lra. }
  split; [|split; [|split]].
  - apply Mon; auto. apply Rmax_r.
  - intros Hp H. rewrite Rmax_left; auto.
  - intro H. rewrite Rmax_right; auto. lra.
  - intros Hp H. rewrite Rmax_right; auto.
Qed.
Print Assumptions c35_floor.

Example c35_example : forall junk, exists m',
  let m := mkMem (fun l => if Nat.eqb l 0 then [0; 1] else [-60; -60]) 2 in
  a2db_np junk (Some 1%nat) true 0 0 m = Ok (0%nat, m') /\ cells m' 0 = [-60; 0].
Proof.
  intro junk. set (m := mkMem (fun l => if Nat.eqb l 0 then [0; 1] else [-60; -60]) 2).
  destruct (c35_floor junk true m 0 1 0) as (m' & R & H); simpl; try lia; try discriminate.
  destruct (a2db_np_floor junk true m 0 1 0) as (m2 & R2 & C2 & _); simpl; try lia.
  rewrite R in R2. injection R2 as <-.
  exists m'. split; [exact R|]. simpl in H.
  pose proof (H 0%nat ltac:(lia)) as (_ & _ & H0 & _).
  pose proof (H 1%nat ltac:(lia)) as (_ & H1 & _).
  change (cells m 0) with [0; 1] in *. change (cells m 1) with [-60; -60] in *.
  unfold map2 in C2. simpl in C2. rewrite C2 in H0, H1 |- *. simpl in H0, H1.
  rewrite ln_1 in H1. rewrite H0, H1 by (try lra; unfold Rdiv; lra).
  f_equal. f_equal. unfold Rdiv. ring.
Qed.

(** ** C36 *)

Theorem c36_reference : forall junk m f out, (f < next m)%nat -> (out < next m)%nat ->
  List.length (cells m f) = List.length (cells m out) ->
  Forall (fun x => x = 1000) (cells m f) ->
  exists r m', a_weighting_db junk f out m = Ok (r, m') /\
    Forall (fun w => w = 0) (cells m' r).
Proof.
  intros junk m f out Hf Ho HL H.
  destruct (a_weighting_db_run junk m f out Hf Ho HL) as (r & m' & R & _ & C & _).
  exists r, m'. split; [exact R|]. rewrite C. apply Forall_map.
  eapply Forall_impl; [|exact H]. intros x ->. lra.
Qed.
Print Assumptions c36_reference.

Theorem c36_linear : forall junk x, exists w,
  call junk (a_weighting_lin junk) [x; - x; 0] = Ok [w; w; 0] /\
  0 <= w < 1 /\ (x <> 0 -> 0 < w).
Proof.
  intros junk x. rewrite (call_elementwise _ _ _ _ (a_weighting_lin_ok junk)).
  exists (a_weight x). split.
  - change (Ok [a_weight x; a_weight (- x); a_weight 0] = Ok [a_weight x; a_weight x; 0]).
    now rewrite a_weight_even, a_weight_zero.
  - pose proof (a_weight_below x). pose proof (a_weight_pos x).
    destruct (Req_dec x 0) as [->|N].
    + rewrite a_weight_zero in *. split; [lra|]. congruence.
    + split; [|auto]. specialize (H0 N). lra.
Qed.
Print Assumptions c36_linear.

Example c36_example : forall junk, exists w,
  call junk (a_weighting_lin junk) [1000] = Ok [w] /\ 0 < w < 1.
Proof.
  intro junk. rewrite (call_elementwise _ _ _ _ (a_weighting_lin_ok junk)).
  exists (a_weight 1000). split; [reflexivity|].
  split; [apply a_weight_pos; lra|apply a_weight_below].
Qed.

(** ** C37 *)

(** The values of [GammatoneFilter.envelope] at any times. *)
Theorem c37_envelope : forall junk g ts, (2 <= gt_n g)%nat -> 0 < bandwidth g ->
  exists es, call junk (envelope_of junk g) ts = Ok es /\
    List.length es = List.length ts /\
    exists peak, call junk (envelope_of junk g) [group_delay g] = Ok [peak] /\ 0 < peak /\
    forall i, (i < List.length ts)%nat ->
      let t := nth i ts 0 in let e := nth i es 0 in
      0 <= e /\ (t < - t_c g -> e = 0) /\ (t <> group_delay g -> e < peak) /\
      (t = group_delay g -> e = peak).
Proof.
  intros junk g ts Hn Hb.
  assert (E : forall ts, call junk (envelope_of junk g) ts =
    Ok (map (gt_env (gt_n g) (t_c g) (bandwidth g)) ts)).
  { intro. apply call_elementwise. apply gt_envelope_ok. }
  exists (map (gt_env (gt_n g) (t_c g) (bandwidth g)) ts). split; [apply E|].
  split; [apply map_length|].
  exists (gt_env (gt_n g) (t_c g) (bandwidth g) (group_delay g)). split; [apply E|].
  assert (Mx : forall t, t <> group_delay g ->
    gt_env (gt_n g) (t_c g) (bandwidth g) t <
    gt_env (gt_n g) (t_c g) (bandwidth g) (group_delay g)).
  { intros t Ht. now apply gt_env_max. }
  split.
  - pose proof (gt_env_nonneg (gt_n g) (t_c g) (bandwidth g) (group_delay g + 1)).
    pose proof (Mx (group_delay g + 1) ltac:(lra)). lra.
  - intros i Hi t e. unfold e. rewrite (nth_map_lt _ _ _ 0) by auto. fold t.
    split; [apply gt_env_nonneg|]. split; [apply gt_env_before|]. split; [apply Mx|congruence].
Qed.
Print Assumptions c37_envelope.

(** The group delay can be set and read back, and is zero by default. *)
Theorem c37_group_delay : forall g v,
  group_delay (set_group_delay g v) = v /\
  bandwidth (set_group_delay g v) = bandwidth g /\
  (gt_t_c g = None -> group_delay g = 0) /\
  (gt_bandwidth g = None -> 0 < bandwidth g).
Proof.
  intros g v. split; [|split; [|split]].
  - unfold group_delay, set_group_delay, t_c, raw_group_delay, bandwidth. simpl. ring.
  - reflexivity.
  - intro H. unfold group_delay, t_c. rewrite H. ring.
  - intro H. unfold bandwidth. rewrite H. apply erb_pos.
Qed.
Print Assumptions c37_group_delay.

Example c37_example : exists g, (2 <= gt_n g)%nat /\ 0 < bandwidth g /\ gt_n g = 4%nat /\
  gt_f g = 1000 /\ group_delay g = 0.
Proof.
  exists (mkGt 1000 4 None None None false None). split; [simpl; lia|].
  split; [apply erb_pos|]. repeat split.
  unfold group_delay, t_c. simpl. ring.
Qed.
