(** Lemmas for [Dsp_Props]: dichotomic search and normalisation. *)
From Coq Require Import List Bool ZArith Reals Lra Lia.
Import ListNotations.
From Verif Require Import Base Py PyLemmas ListLemmas RLists Np_Model Np_Lemmas
  Stft_Model Stft_Proofs Dsp_Model.
Local Open Scope R_scope.

(** ** Dichotomic search *)

Lemma dicho_loop_ok : forall func steps lo hi, func lo <= 0 -> 0 <= func hi ->
  let a := dicho_loop func steps lo hi ((lo + hi) / 2) in
  (func a = 0 /\ Rmin lo hi <= a <= Rmax lo hi) \/
  exists lo' hi', func lo' <= 0 /\ 0 <= func hi' /\ a = (lo' + hi') / 2 /\
    Rabs (hi' - lo') = Rabs (hi - lo) / 2 ^ steps /\
    Rmin lo hi <= lo' <= Rmax lo hi /\ Rmin lo hi <= hi' <= Rmax lo hi.
Proof.
  intros func steps. induction steps as [|k IH]; intros lo hi Hl Hh; cbn [dicho_loop].
  - right. exists lo, hi. repeat split; auto; try apply Rmin_l; try apply Rmin_r;
      try apply Rmax_l; try apply Rmax_r. simpl. field.
  - assert (Hmid : Rmin lo hi <= (lo + hi) / 2 <= Rmax lo hi).
    { pose proof (Rmin_l lo hi). pose proof (Rmin_r lo hi).
      pose proof (Rmax_l lo hi). pose proof (Rmax_r lo hi). lra. }
    assert (Hab : Rabs ((hi - lo) / 2) = Rabs (hi - lo) / 2).
    { unfold Rdiv. rewrite Rabs_mult, (Rabs_right (/ 2)); lra. }
    assert (Hp : 2 ^ k <> 0) by (apply pow_nonzero; lra).
    destruct (Rlt_dec (func ((lo + hi) / 2)) 0) as [C|C];
      [|destruct (Rlt_dec 0 (func ((lo + hi) / 2))) as [C2|C2]].
    + assert (Hin : forall v, Rmin ((lo + hi) / 2) hi <= v <= Rmax ((lo + hi) / 2) hi ->
        Rmin lo hi <= v <= Rmax lo hi).
      { intros v [V1 V2]. split.
        - eapply Rle_trans; [|exact V1]. apply Rmin_glb; [lra|apply Rmin_r].
        - eapply Rle_trans; [exact V2|]. apply Rmax_lub; [lra|apply Rmax_r]. }
      destruct (IH ((lo + hi) / 2) hi ltac:(lra) Hh) as [[Z B]|(l & h & A1 & A2 & A3 & A4 & A5 & A6)].
      * left. auto.
      * right. exists l, h. repeat split; auto; try (apply Hin; auto).
        rewrite A4. replace (hi - (lo + hi) / 2) with ((hi - lo) / 2) by field.
        rewrite Hab. simpl. field. auto.
    + assert (Hin : forall v, Rmin lo ((lo + hi) / 2) <= v <= Rmax lo ((lo + hi) / 2) ->
        Rmin lo hi <= v <= Rmax lo hi).
      { intros v [V1 V2]. split.
        - eapply Rle_trans; [|exact V1]. apply Rmin_glb; [apply Rmin_l|lra].
        - eapply Rle_trans; [exact V2|]. apply Rmax_lub; [apply Rmax_l|lra]. }
      destruct (IH lo ((lo + hi) / 2) Hl ltac:(lra)) as [[Z B]|(l & h & A1 & A2 & A3 & A4 & A5 & A6)].
      * left. auto.
      * right. exists l, h. repeat split; auto; try (apply Hin; auto).
        rewrite A4. replace ((lo + hi) / 2 - lo) with ((hi - lo) / 2) by field.
        rewrite Hab. simpl. field. auto.
    + left. split; [lra|exact Hmid].
Qed.

Lemma dicho_ok : forall func lo hi steps, func lo * func hi <= 0 ->
  exists a, dychotomic_zero_crossing func lo hi steps = Ok a /\
    Rmin lo hi <= a <= Rmax lo hi /\
    (func a = 0 \/
     exists u v, func u <= 0 /\ 0 <= func v /\ a = (u + v) / 2 /\
       Rabs (v - u) = Rabs (hi - lo) / 2 ^ steps /\
       Rmin lo hi <= u <= Rmax lo hi /\ Rmin lo hi <= v <= Rmax lo hi).
Proof.
  intros func lo hi steps H. unfold dychotomic_zero_crossing.
  destruct (Rlt_dec 0 (func lo * func hi)) as [C|_]; [lra|].
  assert (Sg : forall p q, p * q <= 0 -> p <= q -> p <= 0 /\ 0 <= q).
  { intros p q Hpq Hle. split.
    - destruct (Rle_lt_dec p 0); auto. exfalso.
      assert (0 < p * q) by (apply Rmult_lt_0_compat; lra). lra.
    - destruct (Rle_lt_dec 0 q); auto. exfalso.
      assert (0 < (- p) * (- q)) by (apply Rmult_lt_0_compat; lra). lra. }
  destruct (Rlt_dec (func hi) (func lo)) as [C|C].
  - destruct (Sg (func hi) (func lo)) as [S1 S2]; [lra|lra|].
    eexists. split; [reflexivity|].
    rewrite (Rmin_comm lo hi), (Rmax_comm lo hi).
    destruct (dicho_loop_ok func steps hi lo S1 S2) as [[Z B]|(l & h & A1 & A2 & A3 & A4 & A5 & A6)].
    + split; [exact B|]. left. exact Z.
    + split.
      * rewrite A3. lra.
      * right. exists l, h. repeat split; try tauto; try lra.
        rewrite A4. rewrite Rabs_minus_sym. reflexivity.
  - destruct (Sg (func lo) (func hi)) as [S1 S2]; [lra|lra|].
    eexists. split; [reflexivity|].
    destruct (dicho_loop_ok func steps lo hi S1 S2) as [[Z B]|(l & h & A1 & A2 & A3 & A4 & A5 & A6)].
    + split; [exact B|]. left. exact Z.
    + split.
      * rewrite A3. lra.
      * right. exists l, h. repeat split; try tauto; try lra.
Qed.

(** Intermediate values between two points in any order. *)
Lemma ivt_any : forall func u v, continuity func -> func u <= 0 -> 0 <= func v ->
  exists z, Rmin u v <= z <= Rmax u v /\ func z = 0.
Proof.
  intros func u v C Hu Hv.
  destruct (Req_dec u v) as [->|N].
  { exists v. rewrite Rmin_left, Rmax_left by lra. split; lra. }
  destruct (Rlt_le_dec u v) as [L|L].
  - rewrite Rmin_left, Rmax_right by lra.
    destruct (IVT_cor func u v C ltac:(lra)) as (z & Z1 & Z2).
    + assert (0 <= - func u * func v) by (apply Rmult_le_pos; lra). lra.
    + exists z. auto.
  - rewrite Rmin_right, Rmax_left by lra.
    destruct (IVT_cor func v u C ltac:(lra)) as (z & Z1 & Z2).
    + assert (0 <= - func u * func v) by (apply Rmult_le_pos; lra). lra.
    + exists z. auto.
Qed.

Lemma dicho_root : forall func lo hi steps, continuity func -> func lo * func hi <= 0 ->
  exists a z, dychotomic_zero_crossing func lo hi steps = Ok a /\ func z = 0 /\
    Rmin lo hi <= z <= Rmax lo hi /\ Rabs (a - z) <= Rabs (hi - lo) / 2 ^ S steps.
Proof.
  intros func lo hi steps C H.
  destruct (dicho_ok func lo hi steps H) as (a & R1 & B & [Z|(u & v & Hu & Hv & E & W & Bu & Bv)]).
  - exists a, a. rewrite Rminus_diag_eq, Rabs_R0 by auto. repeat split; auto; try tauto.
    apply Rmult_le_pos; [apply Rabs_pos|]. left. apply Rinv_0_lt_compat, pow_lt. lra.
  - destruct (ivt_any func u v C Hu Hv) as (z & Bz & Z). exists a, z.
    split; [exact R1|]. split; [exact Z|]. split.
    + split.
      * eapply Rle_trans; [|apply Bz]. apply Rmin_glb; tauto.
      * eapply Rle_trans; [apply Bz|]. apply Rmax_lub; tauto.
    + assert (Hp : 2 ^ steps <> 0) by (apply pow_nonzero; lra).
      replace (Rabs (hi - lo) / 2 ^ S steps) with (Rabs (v - u) / 2)
        by (rewrite W; simpl; field; auto).
      rewrite E. unfold Rmin, Rmax in Bz.
      destruct (Rle_dec u v); unfold Rabs; repeat destruct Rcase_abs; lra.
Qed.

(** ** Reductions *)

Lemma fold_max_ge : forall l v, v <= fold_left Rmax l v /\
  (forall x, In x l -> x <= fold_left Rmax l v).
Proof.
  induction l as [|a l IH]; intros v; simpl; [split; [lra|tauto]|].
  destruct (IH (Rmax v a)) as [H1 H2]. pose proof (Rmax_l v a). pose proof (Rmax_r v a).
  split; [lra|]. intros x [<-|H3]; [lra|auto].
Qed.
Lemma fold_max_in : forall l v, fold_left Rmax l v = v \/ In (fold_left Rmax l v) l.
Proof.
  induction l as [|a l IH]; intros v; simpl; auto.
  destruct (IH (Rmax v a)) as [H|H]; auto. rewrite H. unfold Rmax.
  destruct Rle_dec; auto.
Qed.
Lemma amax_ok : forall l, l <> [] -> exists p, amax l = Ok p /\ In p l /\
  forall x, In x l -> x <= p.
Proof.
  intros [|v l] H; [congruence|]. simpl. eexists. split; [reflexivity|].
  destruct (fold_max_ge l v) as [H1 H2]. split.
  - destruct (fold_max_in l v) as [->|H3]; simpl; auto.
  - intros x [<-|H3]; auto.
Qed.
Lemma fold_min_opp : forall l v, fold_left Rmin l v = - fold_left Rmax (map Ropp l) (- v).
Proof.
  induction l as [|a l IH]; intros v; simpl; [lra|]. rewrite IH. f_equal. f_equal.
  unfold Rmin, Rmax. repeat destruct Rle_dec; lra.
Qed.
Lemma amin_ok : forall l, l <> [] -> exists p, amin l = Ok p /\ In p l /\
  forall x, In x l -> p <= x.
Proof.
  intros [|v l] H; [congruence|]. simpl. eexists. split; [reflexivity|].
  rewrite fold_min_opp. destruct (fold_max_ge (map Ropp l) (- v)) as [H1 H2]. split.
  - destruct (fold_max_in (map Ropp l) (- v)) as [E|H3].
    + rewrite E. left. lra.
    + right. apply in_map_iff in H3. destruct H3 as (y & E & Hy). rewrite <- E, Ropp_involutive. auto.
  - intros x [<-|H3]; [lra|]. specialize (H2 (- x) (in_map _ _ _ H3)). lra.
Qed.

(** A program with the same result whatever [out] is: the list function [F]. *)
Definition computes (F : list R -> list R) (P : list R -> Prop) (prog : nat -> nat -> M nat) : Prop :=
  forall m x out, (x < next m)%nat -> (out < next m)%nat ->
    List.length (cells m x) = List.length (cells m out) -> P (cells m x) ->
    exists m', prog x out m = Ok (out, m') /\ cells m' out = F (cells m x) /\
      (next m <= next m')%nat /\
      forall l, (l < next m)%nat -> l <> out -> cells m' l = cells m l.

Lemma red_run : forall f a m v, f (cells m a) = Ok v -> red f a m = Ok (v, m).
Proof. intros f a m v H. unfold red. now rewrite H. Qed.

Lemma mean_shift : forall c l, l <> [] -> mean (map (fun v => v - c) l) = mean l - c.
Proof.
  intros c l H. unfold mean. rewrite map_length.
  assert (L : INR (List.length l) <> 0) by (apply not_0_INR; destruct l; simpl; congruence).
  assert (E : rsum (map (fun v => v - c) l) = rsum l - INR (List.length l) * c).
  { clear. induction l as [|a l IH].
    - simpl. lra.
    - change (rsum (map (fun v => v - c) (a :: l))) with (a - c + rsum (map (fun v => v - c) l)).
      change (rsum (a :: l)) with (a + rsum l). change (List.length (a :: l)) with (S (List.length l)).
      rewrite IH, S_INR. lra. }
  rewrite E. field. auto.
Qed.
Lemma mean_scale : forall c l, mean (map (fun v => c * v) l) = c * mean l.
Proof. intros c l. unfold mean. rewrite map_length, rsum_scale. unfold Rdiv. ring. Qed.
Lemma std_shift : forall c l, std (map (fun v => v - c) l) = std l.
Proof.
  intros c [|a l]; [reflexivity|]. unfold std. rewrite mean_shift by congruence.
  rewrite map_map. f_equal. f_equal. apply map_ext. intro. ring.
Qed.
Lemma mean_nonneg : forall l, (forall x, In x l -> 0 <= x) -> 0 <= mean l.
Proof.
  intros l H. unfold mean. apply Rmult_le_pos.
  - rewrite <- (map_id l). apply rsum_nonneg. auto.
  - destruct l; [simpl; rewrite Rinv_0; lra|]. left. apply Rinv_0_lt_compat.
    apply lt_0_INR. simpl. lia.
Qed.
Lemma rsum_zero_all : forall l, (forall x, In x l -> 0 <= x) -> rsum l = 0 ->
  forall x, In x l -> x = 0.
Proof.
  induction l as [|a l IH]; intros H E x Hx; [destruct Hx|].
  simpl in E. assert (0 <= a) by (apply H; simpl; auto).
  assert (0 <= rsum l).
  { rewrite <- (map_id l). apply rsum_nonneg. intros; apply H; simpl; auto. }
  destruct Hx as [<-|Hx]; [lra|]. apply IH; auto; [intros; apply H; simpl; auto|lra].
Qed.
Lemma std_zero_iff : forall l, l <> [] -> (std l = 0 <-> forall x, In x l -> x = mean l).
Proof.
  intros l Hl. unfold std.
  assert (L : 0 < INR (List.length l)) by (apply lt_0_INR; destruct l; simpl; [congruence|lia]).
  set (sq := map (fun v => (v - mean l) * (v - mean l)) l).
  assert (Pq : forall y, In y sq -> 0 <= y).
  { intros y Hy. apply in_map_iff in Hy. destruct Hy as (v & <- & _).
    change ((v - mean l) * (v - mean l)) with (Rsqr (v - mean l)). apply Rle_0_sqr. }
  split.
  - intros H x Hx. apply sqrt_eq_0 in H; [|apply mean_nonneg; auto].
    assert (E : rsum sq = 0).
    { unfold mean in H. unfold sq in H at 2. rewrite map_length in H.
      apply (Rmult_eq_reg_r (/ INR (List.length l))); [|apply Rinv_neq_0_compat; lra].
      rewrite Rmult_0_l. exact H. }
    assert (Z : (x - mean l) * (x - mean l) = 0).
    { apply (rsum_zero_all sq Pq E). apply in_map_iff. exists x. auto. }
    apply Rmult_integral in Z. lra.
  - intros H. replace (mean sq) with 0; [apply sqrt_0|].
    unfold mean, sq. rewrite (rsum_zero _ _ l); [unfold Rdiv; ring|].
    intros x Hx. rewrite <- (H x Hx). ring.
Qed.

(** ** Normalisation *)

Definition peak_of (l : list R) : R := match amax (map Rabs l) with Ok p => p | Err _ => 0 end.
Lemma normalize_peak_ok : computes (fun l => map (fun v => v / peak_of l) l) (fun l => l <> [])
  normalize_peak.
Proof.
  intros m x out Hx Ho HL Hne. unfold normalize_peak.
  destruct (amax_ok (map Rabs (cells m x))) as (p & Ep & _).
  { destruct (cells m x); simpl; congruence. }
  unfold bindM. rewrite (red_run _ _ _ p) by exact Ep.
  rewrite un_run by auto. eexists. split; [reflexivity|].
  rewrite store_same. unfold peak_of. rewrite Ep. split; [reflexivity|].
  rewrite store_next. split; [lia|]. intros l _ Hl. now rewrite store_other.
Qed.

Definition rms_scale (l : list R) : R := if Req_EM_T (std l) 0 then 1 else std l.
Lemma normalize_rms_ok : computes (fun l => map (fun v => (v - mean l) / rms_scale l) l)
  (fun _ => True) normalize_rms.
Proof.
  intros m x out Hx Ho HL _. unfold normalize_rms, bindM.
  rewrite (red_run _ _ _ (mean (cells m x))) by reflexivity.
  rewrite un_run by auto.
  set (m1 := store m out (map (fun v => v - mean (cells m x)) (cells m x))).
  assert (Es : std (cells m1 x) = std (cells m x)).
  { unfold m1. destruct (Nat.eq_dec x out) as [->|N].
    - rewrite store_same. apply std_shift.
    - now rewrite store_other. }
  rewrite (red_run _ _ _ (std (cells m x))) by (now rewrite Es).
  rewrite un_run by reflexivity. eexists. split; [reflexivity|].
  rewrite store_same. split; [|split].
  - unfold m1. rewrite store_same, map_map. reflexivity.
  - rewrite store_next. unfold m1. rewrite store_next. lia.
  - intros l _ Hl. unfold m1. now rewrite !store_other.
Qed.

Definition min_of (l : list R) : R := match amin l with Ok p => p | Err _ => 0 end.
Definition max_of (l : list R) : R := match amax l with Ok p => p | Err _ => 0 end.
Lemma max_shift : forall c l, l <> [] -> amax (map (fun v => v - c) l) = Ok (max_of l - c).
Proof.
  intros c [|v l] H; [congruence|]. unfold max_of. simpl. f_equal. clear H.
  revert v. induction l as [|a l IH]; intro v; simpl; auto. rewrite <- IH. f_equal.
  unfold Rmax. repeat destruct Rle_dec; lra.
Qed.
Lemma normalize_range_ok :
  computes (fun l => map (fun v => (v - min_of l) / (max_of l - min_of l)) l) (fun l => l <> [])
  normalize_range.
Proof.
  intros m x out Hx Ho HL Hne. unfold normalize_range, bindM.
  destruct (amin_ok (cells m x) Hne) as (p & Ep & _).
  rewrite (red_run _ _ _ p) by exact Ep. rewrite un_run by auto.
  rewrite (red_run _ _ _ (max_of (cells m x) - p))
    by (rewrite store_same; now apply max_shift).
  rewrite un_run by reflexivity. eexists. split; [reflexivity|].
  rewrite store_same. split; [|split].
  - rewrite store_same, map_map. unfold min_of. rewrite Ep. reflexivity.
  - rewrite !store_next. lia.
  - intros l _ Hl. now rewrite !store_other.
Qed.

Lemma call_computes : forall junk F (P : list R -> Prop) prog x, computes F P prog -> P x ->
  call junk prog x = Ok (F x).
Proof.
  intros junk F P prog x H Hp. unfold call, numpy_out, bindM. rewrite empty_like_run.
  set (m := alloc_mem junk (List.length (cells (mkMem (fun _ => x) 1) 0)) (mkMem (fun _ => x) 1)).
  assert (E0 : cells m 0 = x) by reflexivity.
  assert (E1 : cells m 1 = map (junk 1%nat) (seq 0 (List.length x))) by reflexivity.
  destruct (H m 0%nat 1%nat) as (m' & R1 & C & _).
  - simpl; lia.
  - simpl; lia.
  - rewrite E0, E1, map_length, seq_length. auto.
  - now rewrite E0.
  - simpl next. rewrite R1, C, E0. reflexivity.
Qed.
