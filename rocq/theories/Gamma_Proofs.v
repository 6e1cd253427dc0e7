(** Lemmas for [Gamma_Props]: envelope, level and search of the t60. *)
From Coq Require Import List Bool ZArith Reals Ranalysis5 Lra Lia Psatz.
Import ListNotations.
From Verif Require Import Base Py RLists PyLemmas Np_Model Np_Lemmas Stft_Model Dsp_Model Dsp_Proofs Sample_Model
  Sample_Proofs Psycho_Math Psycho_Model Psycho_Proofs Bank_Model Bank_Proofs Gamma_Model.
Local Open Scope R_scope.

Lemma envelope_at_env : forall junk g t, envelope_at junk g t = gt_env (gt_n g) (t_c g) (bandwidth g) t.
Proof.
  intros junk g t. unfold envelope_at. unfold envelope_of.
  rewrite (call_elementwise _ _ _ _ (gt_envelope_ok junk _ _ _)). reflexivity.
Qed.

(** The logarithm of [x^m e^(-cx)]. *)
Definition lenv (m c x : R) : R := m * ln x - c * x.
Lemma lenv_dec : forall m c x y, 0 < m -> 0 < c -> m / c <= x -> x < y -> lenv m c y < lenv m c x.
Proof.
  intros m c x y Hm Hc Hx Hy. assert (0 < m / c) by (apply Rdiv_lt_0_compat; lra). unfold lenv.
  assert (ln y - ln x < (y - x) / x).
  { replace (ln y - ln x) with (ln (y / x)) by (unfold Rdiv; rewrite ln_mult by (try apply Rinv_0_lt_compat; lra); rewrite ln_Rinv by lra; ring).
    apply exp_lt_inv. rewrite exp_ln by (apply Rdiv_lt_0_compat; lra).
    replace (y / x) with (1 + (y - x) / x) by (field; lra). apply exp_ineq1.
    apply Rgt_not_eq. apply Rdiv_lt_0_compat; lra. }
  assert (m * ((y - x) / x) <= c * (y - x)).
  { replace (m * ((y - x) / x)) with (m / x * (y - x)) by (field; lra). apply Rmult_le_compat_r; [lra|].
    apply Rmult_le_reg_r with x; [lra|]. replace (m / x * x) with m by (field; lra).
    apply Rmult_le_reg_r with (/ c); [apply Rinv_0_lt_compat; lra|].
    replace (c * x * / c) with x by (field; lra). exact Hx. }
  nra.
Qed.
Lemma lenv_lip : forall m c x y, 0 < m -> 0 < x -> x <= y -> lenv m c x - lenv m c y <= c * (y - x).
Proof.
  intros m c x y Hm Hx Hy. unfold lenv. assert (ln x <= ln y) by (destruct Hy as [Hy| ->]; [left; apply ln_increasing; lra|lra]). nra.
Qed.

Definition spec_m (g : gammatone) : R := INR (gt_n g) - 1.
Definition spec_c (g : gammatone) : R := 2 * PI * bandwidth g.
Definition lev (g : gammatone) (t : R) : R :=
  20 / ln 10 * (lenv (spec_m g) (spec_c g) (t + t_c g) - lenv (spec_m g) (spec_c g) (raw_group_delay g)).

Section Filter.
Variable g : gammatone.
Hypothesis Hn : (2 <= gt_n g)%nat.
Hypothesis Hb : 0 < bandwidth g.

Lemma m_pos : 0 < spec_m g.
Proof. unfold spec_m. apply le_INR in Hn. simpl in Hn. lra. Qed.
Lemma c_pos : 0 < spec_c g.
Proof. unfold spec_c. pose proof PI_RGT_0. nra. Qed.
Lemma raw_eq : raw_group_delay g = spec_m g / spec_c g.
Proof. reflexivity. Qed.
Lemma raw_pos : 0 < raw_group_delay g.
Proof. rewrite raw_eq. apply Rdiv_lt_0_compat; [apply m_pos|apply c_pos]. Qed.
Lemma gd_tc : group_delay g + t_c g = raw_group_delay g.
Proof. unfold group_delay. ring. Qed.

Lemma env_exp : forall t, 0 < t + t_c g ->
  gt_env (gt_n g) (t_c g) (bandwidth g) t = exp (lenv (spec_m g) (spec_c g) (t + t_c g)).
Proof.
  intros t Ht. unfold gt_env, lenv. destruct (Rle_lt_dec 0 (t + t_c g)); [|lra]. rewrite Rmult_1_r.
  unfold Rminus. rewrite exp_plus, Rmult_comm. f_equal.
  - unfold spec_m. replace (INR (gt_n g) - 1) with (INR (gt_n g - 1)) by (rewrite minus_INR by lia; reflexivity).
    rewrite <- exp_pow, exp_ln by exact Ht. reflexivity.
  - f_equal. unfold spec_c. ring.
Qed.
Lemma env_pos : forall t, 0 < t + t_c g -> 0 < gt_env (gt_n g) (t_c g) (bandwidth g) t.
Proof. intros t Ht. rewrite env_exp by exact Ht. apply exp_pos. Qed.

Lemma lev_env : forall t, 0 < t + t_c g ->
  a2db (gt_env (gt_n g) (t_c g) (bandwidth g) t / gt_env (gt_n g) (t_c g) (bandwidth g) (group_delay g)) = lev g t.
Proof.
  intros t Ht. pose proof raw_pos. rewrite !env_exp by (try rewrite gd_tc; assumption). rewrite gd_tc.
  unfold a2db, log10, lev. unfold Rdiv at 2. rewrite <- exp_Ropp, <- exp_plus, ln_exp. pose proof ln10_pos. field. lra.
Qed.
Lemma lev_peak : lev g (group_delay g) = 0.
Proof. unfold lev. rewrite gd_tc. ring. Qed.
Lemma lev_dec : forall s t, group_delay g <= s -> s < t -> lev g t < lev g s.
Proof.
  intros s t Hs Ht. unfold lev. pose proof ln10_pos. apply Rmult_lt_compat_l; [apply Rdiv_lt_0_compat; lra|].
  assert (lenv (spec_m g) (spec_c g) (t + t_c g) < lenv (spec_m g) (spec_c g) (s + t_c g)); [|lra].
  apply lenv_dec; [apply m_pos|apply c_pos| |lra]. rewrite <- raw_eq, <- gd_tc. lra.
Qed.
Lemma lev_le : forall s t, group_delay g <= s -> s <= t -> lev g t <= lev g s.
Proof. intros s t Hs [Ht| ->]; [left; now apply lev_dec|lra]. Qed.
Lemma lev_inj : forall s t, group_delay g <= s -> group_delay g <= t -> lev g s = lev g t -> s = t.
Proof.
  intros s t Hs Ht E. destruct (Rtotal_order s t) as [L|[L|L]]; [|exact L|].
  - pose proof (lev_dec s t Hs L). lra.
  - pose proof (lev_dec t s Ht L). lra.
Qed.
Lemma lev_lip : forall s t, group_delay g <= s -> s <= t -> lev g s - lev g t <= 20 / ln 10 * (spec_c g * (t - s)).
Proof.
  intros s t Hs Ht. unfold lev. pose proof ln10_pos. pose proof raw_pos. pose proof gd_tc.
  pose proof (lenv_lip (spec_m g) (spec_c g) (s + t_c g) (t + t_c g) m_pos ltac:(lra) ltac:(lra)).
  rewrite <- Rmult_minus_distr_l. apply Rmult_le_compat_l; [left; apply Rdiv_lt_0_compat; lra|]. lra.
Qed.

(** The sign of [_foo] is that of the level above the floor. *)
Definition foo (floor t : R) : R :=
  gt_env (gt_n g) (t_c g) (bandwidth g) t - db2a floor * gt_env (gt_n g) (t_c g) (bandwidth g) (group_delay g).
Lemma foo_eq : forall floor t, 0 < t + t_c g ->
  foo floor t = gt_env (gt_n g) (t_c g) (bandwidth g) (group_delay g) * (db2a (lev g t) - db2a floor).
Proof.
  intros floor t Ht. unfold foo. assert (P : 0 < gt_env (gt_n g) (t_c g) (bandwidth g) (group_delay g)).
  { apply env_pos. rewrite gd_tc. apply raw_pos. }
  rewrite <- (lev_env t Ht). rewrite db2a_a2db; [|apply Rdiv_lt_0_compat; [now apply env_pos|exact P]]. field. lra.
Qed.
Lemma db2a_inc : forall a b, a < b -> db2a a < db2a b.
Proof. intros a b H. unfold db2a. apply Rpower_lt; lra. Qed.
Lemma foo_sign : forall floor t, 0 < t + t_c g ->
  (floor < lev g t -> 0 < foo floor t) /\ (lev g t < floor -> foo floor t < 0) /\ (lev g t = floor -> foo floor t = 0).
Proof.
  intros floor t Ht. rewrite foo_eq by exact Ht. assert (P : 0 < gt_env (gt_n g) (t_c g) (bandwidth g) (group_delay g)).
  { apply env_pos. rewrite gd_tc. apply raw_pos. }
  split; [|split]; intros H.
  - pose proof (db2a_inc _ _ H). nra.
  - pose proof (db2a_inc _ _ H). nra.
  - rewrite H. ring.
Qed.
Lemma foo_le : forall floor t, 0 < t + t_c g -> (foo floor t <= 0 <-> lev g t <= floor) /\ (0 <= foo floor t <-> floor <= lev g t).
Proof.
  intros floor t Ht. destruct (foo_sign floor t Ht) as (A & B & C).
  destruct (Rtotal_order (lev g t) floor) as [L|[L|L]]; split; split; intros H; try specialize (A L); try specialize (B L); try specialize (C L); lra.
Qed.

(** A time with a given level, between two times. *)
Lemma lev_root : forall floor s t, group_delay g <= s -> s <= t -> lev g t <= floor <= lev g s ->
  exists z, s <= z <= t /\ lev g z = floor.
Proof.
  intros floor s t Hs Hst Hl. pose proof raw_pos as Hr. pose proof gd_tc as Hg.
  destruct Hst as [Hst| ->]; [|exists t; split; lra].
  assert (D : forall x, s <= x <= t -> continuity_pt (fun x => floor - lev g x) x).
  { intros x Hx. apply continuity_pt_minus; [apply continuity_pt_const; intros ? ?; reflexivity|].
    apply derivable_continuous_pt. unfold lev, lenv.
    apply derivable_pt_scal with (f := fun x => spec_m g * ln (x + t_c g) - spec_c g * (x + t_c g)
       - (spec_m g * ln (raw_group_delay g) - spec_c g * raw_group_delay g)).
    apply derivable_pt_minus; [|apply derivable_pt_const].
    apply derivable_pt_minus.
    - apply derivable_pt_scal with (f := fun x => ln (x + t_c g)).
      apply (derivable_pt_comp (fun x => x + t_c g) ln).
      + apply derivable_pt_plus; [apply derivable_pt_id|apply derivable_pt_const].
      + exists (/ (x + t_c g)). apply derivable_pt_lim_ln. lra.
    - apply derivable_pt_scal with (f := fun x => x + t_c g).
      apply derivable_pt_plus; [apply derivable_pt_id|apply derivable_pt_const]. }
  destruct (Req_dec (lev g s) floor) as [E|E]; [exists s; split; [lra|exact E]|].
  destruct (Req_dec (lev g t) floor) as [E'|E']; [exists t; split; [lra|exact E']|].
  destruct (IVT_interv (fun x => floor - lev g x) s t D Hst) as (z & Hz & Ez); [lra|lra|].
  exists z. split; [exact Hz|lra].
Qed.

(** One range: if the level crosses the floor there, the search is near the
    crossing. *)
Lemma range_found : forall floor s r steps, group_delay g <= s -> 0 < r -> lev g (s + r) <= floor -> floor < lev g s ->
  exists t z, dychotomic_zero_crossing (foo floor) (s + r) s steps = Ok t /\ s < t /\ s < z <= s + r /\
    lev g z = floor /\ Rabs (t - z) <= r / 2 ^ S steps.
Proof.
  intros floor s r steps Hs Hr He Hl. pose proof raw_pos as Hp. pose proof gd_tc as Hg.
  assert (P : forall t, s <= t -> 0 < t + t_c g) by (intros; lra).
  destruct (foo_sign floor s ltac:(apply P; lra)) as (F1 & _). specialize (F1 Hl).
  destruct (foo_le floor (s + r) ltac:(apply P; lra)) as (F2 & _). assert (F3 : foo floor (s + r) <= 0) by (apply F2; exact He).
  destruct (lev_root floor s (s + r) Hs ltac:(lra) ltac:(lra)) as (z & Hz & Ez).
  assert (Nz : s <> z) by (intros ->; lra).
  destruct (dicho_ok (foo floor) (s + r) s steps ltac:(nra)) as (t & E & B & C).
  rewrite Rmin_right, Rmax_left in * by lra.
  assert (Pw : 0 < r / 2 ^ S steps) by (apply Rdiv_lt_0_compat; [lra|apply pow_lt; lra]).
  exists t, z. split; [exact E|].
  destruct C as [Z|(u & v & Hu & Hv & Ea & W & Bu & Bv)].
  - assert (lev g t = floor).
    { destruct (foo_le floor t ltac:(apply P; lra)) as (G1 & G2). apply Rle_antisym; [apply G1|apply G2]; lra. }
    assert (t = z) by (apply lev_inj; lra). subst t. split; [lra|]. split; [lra|]. split; [exact Ez|].
    replace (z - z) with 0 by ring. rewrite Rabs_R0. lra.
  - destruct (foo_le floor u ltac:(apply P; lra)) as (G1 & _). destruct (foo_le floor v ltac:(apply P; lra)) as (_ & G2).
    apply G1 in Hu. apply G2 in Hv.
    assert (Zu : z <= u). { destruct (Rle_lt_dec z u) as [L|L]; [exact L|]. pose proof (lev_dec u z ltac:(lra) L). lra. }
    assert (Zv : v <= z). { destruct (Rle_lt_dec v z) as [L|L]; [exact L|]. pose proof (lev_dec z v ltac:(lra) L). lra. }
    replace (s - (s + r)) with (- r) in W by ring. rewrite Rabs_Ropp, (Rabs_right r), Rabs_left1 in W by lra.
    assert (W2 : r / 2 ^ S steps = r / 2 ^ steps / 2).
    { simpl. field. apply pow_nonzero. lra. }
    assert (0 < r / 2 ^ steps) by (apply Rdiv_lt_0_compat; [lra|apply pow_lt; lra]).
    split; [lra|]. split; [lra|]. split; [exact Ez|]. rewrite W2. apply Rabs_le. lra.
Qed.
Lemma range_not_found : forall floor s r steps, group_delay g <= s -> 0 < r -> floor < lev g (s + r) ->
  dychotomic_zero_crossing (foo floor) (s + r) s steps = Err ValueError.
Proof.
  intros floor s r steps Hs Hr He. pose proof raw_pos. pose proof gd_tc.
  pose proof (lev_dec s (s + r) Hs ltac:(lra)).
  destruct (foo_sign floor s ltac:(lra)) as (F1 & _). destruct (foo_sign floor (s + r) ltac:(lra)) as (F2 & _).
  specialize (F1 ltac:(lra)). specialize (F2 He). unfold dychotomic_zero_crossing.
  destruct (Rlt_dec 0 (foo floor (s + r) * foo floor s)) as [_|N]; [reflexivity|]. exfalso. apply N. nra.
Qed.

(** The whole search. *)
Lemma search_spec : forall floor steps n s r, group_delay g <= s -> 0 < r -> floor < lev g s ->
  match t60_search (foo floor) s r steps n with
  | Ok t => exists j z, (j < n)%nat /\ s + r * (2 ^ j - 1) < t /\
              s + r * (2 ^ j - 1) < z <= s + r * (2 ^ S j - 1) /\ lev g z = floor /\
              Rabs (t - z) <= r * 2 ^ j / 2 ^ S steps
  | Err e => e = ValueError /\ floor < lev g (s + r * (2 ^ n - 1))
  end.
Proof.
  intros floor steps n. induction n as [|n IH]; intros s r Hs Hr Hl; cbn [t60_search].
  - split; [reflexivity|]. simpl. replace (s + r * (1 - 1)) with s by ring. exact Hl.
  - destruct (Rle_lt_dec (lev g (s + r)) floor) as [L|L].
    + destruct (range_found floor s r steps Hs Hr L Hl) as (t & z & E & Ht & Hz & Ez & D). rewrite E.
      exists 0%nat, z. split; [lia|]. cbn [pow]. replace (s + r * (1 - 1)) with s by ring.
      replace (s + r * (2 * 1 - 1)) with (s + r) by ring. replace (r * 1) with r by ring. auto.
    + rewrite (range_not_found floor s r steps Hs Hr L). specialize (IH (s + r) (r * 2) ltac:(lra) ltac:(lra) L).
      destruct (t60_search (foo floor) (s + r) (r * 2) steps n) as [t|e].
      * destruct IH as (j & z & Hj & Ht & Hz & Ez & D). exists (S j), z. split; [lia|].
        replace (s + r * (2 ^ S j - 1)) with (s + r + r * 2 * (2 ^ j - 1)) by (simpl; ring).
        replace (s + r * (2 ^ S (S j) - 1)) with (s + r + r * 2 * (2 ^ S j - 1)) by (simpl; ring).
        replace (r * 2 ^ S j) with (r * 2 * 2 ^ j) by (simpl; ring). auto.
      * destruct IH as [-> IH]. split; [reflexivity|].
        replace (s + r * (2 ^ S n - 1)) with (s + r + r * 2 * (2 ^ n - 1)) by (simpl; ring). exact IH.
Qed.
End Filter.
