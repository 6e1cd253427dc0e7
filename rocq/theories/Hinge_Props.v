(** Properties of the hinge regression of exact data: C88. *)
From Coquelicot Require Import Coquelicot.
From Coq Require Import List Bool ZArith Reals Lra Lia.
Import ListNotations.
From Verif Require Import Base Py PyLemmas ListLemmas RLists Np_Model Dsp_Model Dsp_Proofs Sample_Model Sample_Proofs
  Sample_Props Bank_Model Bank_Proofs Bank_Props.
Local Open Scope R_scope.

(** ** Spec *)

(** Sum of squares; least squares line. *)
Definition ssq (l : list R) : R := rsum (map (fun v => v ^ 2) l).
Definition line_error (x y : list R) (k q : R) : R :=
  ssq (map (fun p => k * fst p + q - snd p) (combine x y)).
Definition least_squares_line (x y : list R) (k q : R) : Prop :=
  forall k' q', line_error x y k q <= line_error x y k' q'.

(** A triple between two triples; a minimum of the sum of squares there. *)
Definition within (b : coeffs * coeffs) (c : coeffs) : Prop :=
  let '(a, k, q) := c in
  let '(a0, k0, q0, (a1, k1, q1)) := b in
  a0 <= a <= a1 /\ k0 <= k <= k1 /\ q0 <= q <= q1.
Definition is_minimum (res : coeffs -> list R) (b : coeffs * coeffs) (c : coeffs) : Prop :=
  within b c /\ forall c', within b c' -> ssq (res c) <= ssq (res c').
(** An optimiser that finds a minimum wherever there is one. *)
Definition minimises (optimise : (coeffs -> list R) -> coeffs -> coeffs * coeffs -> coeffs) : Prop :=
  forall res x0 b, (exists c, is_minimum res b c) -> is_minimum res b (optimise res x0 b).

(** ** Lemmas *)

Lemma ssq_nonneg : forall l, 0 <= ssq l.
Proof.
  intros l. unfold ssq. induction l as [|v l IH]; [apply Rle_refl|]. cbn [map].
  change (rsum (?a :: ?b)) with (a + rsum b). pose proof (pow2_ge_0 v). lra.
Qed.
Lemma ssq_zero : forall l, ssq l <= 0 -> Forall (fun v => v = 0) l.
Proof.
  intros l. unfold ssq. induction l as [|v l IH]; [constructor|]. cbn [map].
  change (rsum (?a :: ?b)) with (a + rsum b). intros H. pose proof (pow2_ge_0 v). pose proof (ssq_nonneg l) as P. unfold ssq in P.
  constructor; [|apply IH; lra]. apply Rsqr_0_uniq. unfold Rsqr. lra.
Qed.
Lemma ssq_all_zero : forall l, Forall (fun v => v = 0) l -> ssq l = 0.
Proof.
  intros l H. unfold ssq. induction H as [|v l -> H IH]; [reflexivity|]. cbn [map].
  change (rsum (?a :: ?b)) with (a + rsum b). rewrite IH. ring.
Qed.

Lemma combine_graph : forall (g : R -> R) x p, In p (combine x (map g x)) <-> In (fst p) x /\ snd p = g (fst p).
Proof.
  intros g x p. induction x as [|v x IH]; cbn [map combine In].
  - tauto.
  - rewrite IH. destruct p as [u w]. cbn [fst snd]. split.
    + intros [H|[H1 H2]]; [injection H as <- <-; auto|auto].
    + intros [[->|H] E]; [left; now rewrite E|auto].
Qed.

(** Two hinges with the same values at the times of three levels are the same up
    to the knee. *)
Lemma hinge_unique : forall x a k q a' k' q' v1 v2 v3,
  (forall v, In v x -> k' * Rmin v a' + q' = k * Rmin v a + q) -> k <> 0 ->
  In v1 x -> In v2 x -> In v3 x -> Rmin v1 a < Rmin v2 a < Rmin v3 a ->
  k' = k /\ q' = q /\ (forall v, In v x -> a < v -> a' = a).
Proof.
  intros x a k q a' k' q' v1 v2 v3 H Hk I1 I2 I3 [L1 L2].
  assert (B2 : v2 < a).
  { destruct (Rlt_le_dec v2 a) as [|G]; [assumption|]. rewrite (Rmin_right v2 a) in L2 by lra. pose proof (Rmin_r v3 a). lra. }
  rewrite (Rmin_left v2 a) in L1, L2 by lra.
  assert (B1 : v1 < v2).
  { destruct (Rlt_le_dec v1 v2) as [|G]; [assumption|]. exfalso. assert (v2 <= Rmin v1 a) by (apply Rmin_glb; lra). lra. }
  assert (B3 : v2 < v3) by (pose proof (Rmin_l v3 a); lra).
  pose proof (H v1 I1) as E1. pose proof (H v2 I2) as E2. pose proof (H v3 I3) as E3.
  rewrite (Rmin_left v1 a) in E1 by lra. rewrite (Rmin_left v2 a) in E2 by lra.
  destruct (Rlt_le_dec v2 a') as [G|G].
  - rewrite (Rmin_left v1 a') in E1 by lra. rewrite (Rmin_left v2 a') in E2 by lra.
    assert (Ek : k' = k).
    { assert ((k' - k) * (v2 - v1) = 0) as Z by lra. apply Rmult_integral in Z. lra. }
    subst k'. assert (Eq : q' = q) by lra. subst q'. split; [reflexivity|]. split; [reflexivity|].
    intros v Iv Hv. specialize (H v Iv). rewrite (Rmin_right v a) in H by lra.
    assert (Em : Rmin v a' = a) by (apply (Rmult_eq_reg_l k); [lra|exact Hk]).
    unfold Rmin in Em. destruct (Rle_dec v a'); lra.
  - exfalso. rewrite (Rmin_right v2 a') in E2 by lra. rewrite (Rmin_right v3 a') in E3 by lra.
    assert (k * (Rmin v3 a - v2) = 0) as Z by lra. apply Rmult_integral in Z. lra.
Qed.

(** The call of the optimiser. *)
Lemma hinge_run0 : forall x y kl ql u v, In u x -> In v x -> u < v -> y <> [] ->
  exists lo hi D, In lo x /\ In hi x /\ lo < hi /\ (forall w, In w x -> lo <= w <= hi) /\
    (forall w, In w y -> Rabs (w - ql) <= D) /\ 0 < D /\ ((forall w, In w y -> w = ql) -> D = 1) /\
    let res := fun c : coeffs => let '(a, k, q) := c in map2 Rminus (map (fun w => k * Rmin w a + q) x) y in
    let km := if Req_EM_T kl 0 then (-1, 1) else (Rmin kl (8 * kl), Rmax kl (8 * kl)) in
    let b := ((lo, fst km, ql - D), (hi, snd km, ql + D)) in
    forall optimise, hinge_fit optimise x y kl ql = Ok (optimise res ((lo + hi) / 2, kl, ql) b).
Proof.
  intros x y kl ql u v Iu Iv Huv Hy.
  assert (Hne : x <> []) by (intros ->; destruct Iu).
  destruct (amin_ok x Hne) as (lo & El & Il & Ml). destruct (amax_ok x Hne) as (hi & Eh & Ih & Mh).
  assert (Hy' : map (fun v => Rabs (v - ql)) y <> []) by (destruct y; simpl; congruence).
  destruct (amax_ok _ Hy') as (d & Ed & Id & Md).
  apply in_map_iff in Id. destruct Id as (wd & Ewd & Iwd).
  assert (Hd : 0 <= d) by (rewrite <- Ewd; apply Rabs_pos).
  assert (L : lo < hi) by (pose proof (Ml u Iu); pose proof (Mh v Iv); lra).
  set (D := if Req_EM_T d 0 then 1 else d).
  exists lo, hi, D. do 3 (split; [assumption|]).
  split; [intros w Iw; split; [apply Ml|apply Mh]; exact Iw|].
  split; [intros w Iw; assert (Rabs (w - ql) <= d) by (apply Md, (in_map (fun w => Rabs (w - ql))), Iw);
          unfold D; destruct (Req_EM_T d 0); lra|].
  assert (PD : 0 < D) by (unfold D; destruct (Req_EM_T d 0); lra).
  split; [exact PD|]. split.
  { intros H. unfold D. destruct (Req_EM_T d 0) as [_|N]; [reflexivity|]. exfalso. apply N.
    rewrite <- Ewd, (H wd Iwd). replace (ql - ql) with 0 by ring. apply Rabs_R0. }
  cbv zeta. intros optimise. unfold hinge_fit, hinge_coeffs_init, hinge_bounds. rewrite El, Eh. cbn [bind].
  assert (Z2 : (zlen x <=? 1)%Z = false).
  { apply Z.leb_gt. unfold zlen. destruct x as [|x1 [|x2 x]]; [destruct Iu| |simpl; lia].
    destruct Iu as [<-|[]], Iv as [<-|[]]. lra. }
  rewrite Z2. cbn [bind]. rewrite Ed. cbn [bind]. destruct (Req_EM_T lo hi) as [E|_]; [lra|]. fold D.
  set (km := if Req_EM_T kl 0 then (-1, 1) else (Rmin kl (8 * kl), Rmax kl (8 * kl))).
  assert (EK : (if Req_EM_T kl 0 then (-1, 1)
      else (if Rlt_dec kl 0 then 8 * kl else kl, if Rlt_dec kl 0 then kl else 8 * kl)) = (fst km, snd km)).
  { unfold km. destruct (Req_EM_T kl 0); [reflexivity|]. destruct (Rlt_dec kl 0); cbn [fst snd].
    - rewrite Rmin_right, Rmax_left by lra. reflexivity.
    - rewrite Rmin_left, Rmax_right by lra. reflexivity. }
  assert (K1 : fst km < snd km /\ fst km <= kl <= snd km).
  { unfold km. destruct (Req_EM_T kl 0); cbn [fst snd]; [lra|]. unfold Rmin, Rmax; repeat destruct Rle_dec; lra. }
  rewrite EK. cbn [bind].
  match goal with |- context [ls_check ?s ?t] => replace (ls_check s t) with true; [reflexivity|] end.
  symmetry. clearbody km. unfold ls_check, coeffs_list, Rleb. cbn [fst snd combine forallb].
  repeat match goal with |- context [Rlt_dec ?u ?v] => destruct (Rlt_dec u v); [|exfalso; lra] end.
  repeat match goal with |- context [Rle_lt_dec ?u ?v] => destruct (Rle_lt_dec u v); [|exfalso; lra] end.
  reflexivity.
Qed.
Lemma hinge_run : forall x y kl ql u v, In u x -> In v x -> u < v -> y <> [] -> kl <> 0 ->
  exists lo hi D, In lo x /\ In hi x /\ lo < hi /\ (forall w, In w x -> lo <= w <= hi) /\
    (forall w, In w y -> Rabs (w - ql) <= D) /\ 0 < D /\
    let res := fun c : coeffs => let '(a, k, q) := c in map2 Rminus (map (fun w => k * Rmin w a + q) x) y in
    let b := ((lo, Rmin kl (8 * kl), ql - D), (hi, Rmax kl (8 * kl), ql + D)) in
    forall optimise, hinge_fit optimise x y kl ql = Ok (optimise res ((lo + hi) / 2, kl, ql) b).
Proof.
  intros x y kl ql u v Iu Iv Huv Hy Hk.
  destruct (hinge_run0 x y kl ql u v Iu Iv Huv Hy) as (lo & hi & D & H1 & H2 & H3 & H4 & H5 & H6 & _ & E).
  exists lo, hi, D. do 6 (split; [assumption|]). cbv zeta in E |- *. destruct (Req_EM_T kl 0) as [Z|_]; [contradiction|]. exact E.
Qed.

Lemma res_zero : forall x g a k q, ssq (map2 Rminus (map (fun w => k * Rmin w a + q) x) (map g x)) <= 0 <->
  forall v, In v x -> k * Rmin v a + q = g v.
Proof.
  intros x g a k q.
  assert (E : map2 Rminus (map (fun w => k * Rmin w a + q) x) (map g x) = map (fun w => k * Rmin w a + q - g w) x).
  { unfold map2. induction x as [|w x IH]; [reflexivity|]. cbn. now rewrite <- IH. }
  rewrite E. split.
  - intros H v Iv. apply ssq_zero in H. rewrite Forall_map, Forall_forall in H. specialize (H v Iv). cbv beta in H. lra.
  - intros H. rewrite ssq_all_zero; [apply Rle_refl|]. rewrite Forall_map, Forall_forall. intros v Iv. rewrite (H v Iv). ring.
Qed.

(** ** C88 *)

(** Levels on a hinge: if it is within the bounds, it is found; the knee is found
    if there is a time after it. *)
Theorem c88_hinge : forall optimise x a k q kl ql v1 v2 v3 w,
  minimises optimise -> k <> 0 ->
  In v1 x -> In v2 x -> In v3 x -> Rmin v1 a < Rmin v2 a < Rmin v3 a ->
  (kl < 0 /\ 8 * kl <= k <= kl \/ 0 < kl /\ kl <= k <= 8 * kl) ->
  In w x -> Rabs (q - ql) <= Rabs (k * Rmin w a + q - ql) ->
  exists a', hinge_fit optimise x (map (fun v => k * Rmin v a + q) x) kl ql = Ok (a', k, q) /\
    (forall v, In v x -> a < v -> a' = a).
Proof.
  intros optimise x a k q kl ql v1 v2 v3 w HO Hk I1 I2 I3 [L1 L2] HB Iw HQ.
  set (y := map (fun v => k * Rmin v a + q) x).
  assert (B12 : v1 < v2).
  { destruct (Rlt_le_dec v1 v2) as [|G]; [assumption|]. exfalso.
    assert (Rmin v2 a <= Rmin v1 a) by (apply Rle_min_compat_r; lra). lra. }
  assert (Hy : y <> []) by (unfold y; destruct x; [destruct I1|discriminate]).
  destruct (hinge_run x y kl ql v1 v2 I1 I2 B12 Hy ltac:(lra)) as (lo & hi & D & Il & Ih & Hlh & HX & HD & PD & E).
  cbv zeta in E. rewrite E. clear E.
  match goal with |- context [optimise ?r _ ?bb] => set (res := r); set (b := bb : coeffs * coeffs) end.
  (* the knee, moved into the range of the times *)
  set (as_ := Rmin a hi).
  assert (Lo : lo <= a).
  { pose proof (HX v1 I1). pose proof (Rmin_r v2 a).
    destruct (Rle_lt_dec v1 a); [lra|]. rewrite (Rmin_right v1 a) in L1 by lra. lra. }
  assert (RA : forall v, In v x -> Rmin v as_ = Rmin v a).
  { intros v Iv. pose proof (HX v Iv). unfold as_, Rmin. repeat destruct Rle_dec; lra. }
  assert (T : is_minimum res b (as_, k, q)).
  { split.
    - unfold within, b. repeat split.
      + unfold as_. apply Rmin_glb; lra.
      + apply Rmin_r.
      + unfold Rmin. destruct Rle_dec; lra.
      + unfold Rmax. destruct Rle_dec; lra.
      + pose proof (HD (k * Rmin w a + q) ltac:(unfold y; apply (in_map (fun v => k * Rmin v a + q)), Iw)) as H.
        assert (Rabs (q - ql) <= D) as G by lra. apply Rabs_le_between in G. lra.
      + pose proof (HD (k * Rmin w a + q) ltac:(unfold y; apply (in_map (fun v => k * Rmin v a + q)), Iw)) as H.
        assert (Rabs (q - ql) <= D) as G by lra. apply Rabs_le_between in G. lra.
    - intros c' _. eapply Rle_trans; [|apply ssq_nonneg]. unfold res, y. apply res_zero. intros v Iv. now rewrite RA. }
  destruct (HO res ((lo + hi) / 2, kl, ql) b (ex_intro _ _ T)) as [W M].
  specialize (M _ (proj1 T)). destruct T as [TW TM].
  set (c := optimise res _ b) in *. destruct c as [[a' k'] q'].
  assert (Z : forall v, In v x -> k' * Rmin v a' + q' = k * Rmin v a + q).
  { apply (res_zero x (fun v => k * Rmin v a + q) a' k' q'). eapply Rle_trans; [exact M|]. unfold res, y. apply res_zero.
    intros v Iv. now rewrite RA. }
  destruct (hinge_unique x a k q a' k' q' v1 v2 v3 Z Hk I1 I2 I3 (conj L1 L2)) as (-> & -> & HA).
  exists a'. split; [reflexivity|exact HA].
Qed.
Print Assumptions c88_hinge.

(** The least squares line of points on a line. *)
Lemma line_exact : forall x k q kl ql u v, In u x -> In v x -> u <> v ->
  least_squares_line x (map (fun w => k * w + q) x) kl ql -> kl = k /\ ql = q.
Proof.
  intros x k q kl ql u v Iu Iv Huv H. specialize (H k q). unfold line_error in H.
  assert (Z : ssq (map (fun p => k * fst p + q - snd p) (combine x (map (fun w => k * w + q) x))) = 0).
  { apply ssq_all_zero. rewrite Forall_map, Forall_forall. intros p Ip. apply combine_graph in Ip. destruct Ip as [_ ->]. ring. }
  rewrite Z in H. apply ssq_zero in H. rewrite Forall_map, Forall_forall in H.
  assert (G : forall w, In w x -> kl * w + ql = k * w + q).
  { intros w Iw. specialize (H (w, k * w + q)). cbn [fst snd] in H.
    enough (kl * w + ql - (k * w + q) = 0) by lra. apply H. apply combine_graph. auto. }
  pose proof (G u Iu). pose proof (G v Iv).
  assert ((kl - k) * (u - v) = 0) as P by lra. apply Rmult_integral in P.
  assert (kl = k) by (destruct P; lra). subst. split; [reflexivity|lra].
Qed.

(** Levels on a line at three times or more: slope and intercept are found. *)
Theorem c88_line : forall optimise x k q kl ql v1 v2 v3,
  minimises optimise -> k <> 0 -> In v1 x -> In v2 x -> In v3 x -> v1 < v2 < v3 -> 
  let y := map (fun v => k * v + q) x in
  least_squares_line x y kl ql ->
  exists a, hinge_fit optimise x y kl ql = Ok (a, k, q).
Proof.
  intros optimise x k q kl ql v1 v2 v3 HO Hk I1 I2 I3 [L1 L2] y HL.
  destruct (line_exact x k q kl ql v1 v2 I1 I2 ltac:(lra) HL) as [-> ->].
  assert (Hne : x <> []) by (intros ->; destruct I1).
  destruct (amax_ok x Hne) as (hi & _ & Ih & Mh).
  assert (EY : y = map (fun v => k * Rmin v hi + q) x).
  { unfold y. apply map_ext_in. intros v Iv. rewrite Rmin_left by (apply Mh; auto). reflexivity. }
  rewrite EY.
  destruct (c88_hinge optimise x hi k q k q v1 v2 v3 v1 HO Hk I1 I2 I3) as (a' & E & _); auto.
  - rewrite !Rmin_left by (apply Mh; auto). lra.
  - lra.
  - replace (q - q) with 0 by ring. rewrite Rabs_R0. apply Rabs_pos.
  - exists a'. exact E.
Qed.
Print Assumptions c88_line.

(** So a decaying sinusoid is found from its levels at three times or more. *)
Theorem c88_decay : forall optimise x A d kl ql v1 v2 v3,
  minimises optimise -> 0 < A -> 0 < d -> In v1 x -> In v2 x -> In v3 x -> v1 < v2 < v3 ->
  let y := map (fun t => 20 * (ln (A * exp (-2 * t / d)) / ln 10)) x in
  least_squares_line x y kl ql ->
  exists a k q, hinge_fit optimise x y kl ql = Ok (a, k, q) /\ track_decay k = d /\ track_amp q = A.
Proof.
  intros optimise x A d kl ql v1 v2 v3 HO HA Hd I1 I2 I3 L y HL.
  destruct (c19_recovery A d HA Hd) as (k & q & E & U). destruct (U k q E) as [U1 U2].
  assert (EY : y = map (fun t => k * t + q) x) by (apply map_ext; exact E).
  assert (Hk : k <> 0).
  { intros ->. pose proof (E 0) as E0. pose proof (E d) as E1. pose proof ln10_pos.
    rewrite ln_mult, ln_exp in E0, E1 by (auto using exp_pos). replace (-2 * d / d) with (-2) in E1 by (field; lra).
    assert (0 < / ln 10) by (apply Rinv_0_lt_compat; lra). unfold Rdiv in E0, E1. nra. }
  rewrite EY in HL |- *. destruct (c88_line optimise x k q kl ql v1 v2 v3 HO Hk I1 I2 I3 L HL) as (a & Ea).
  exists a, k, q. auto.
Qed.
Print Assumptions c88_decay.

(** Two levels do not determine the slope: hinges with up to eight times the
    slope of the line through them fit as well. *)
Theorem c88_two_refuted : forall t1 t2 k q, t1 < t2 -> k < 0 -> 
  let x := [t1; t2] in let y := [k * t1 + q; k * t2 + q] in
  exists res x0 b, (forall optimise, hinge_fit optimise x y k q = Ok (optimise res x0 b)) /\
    is_minimum res b (t2, k, q) /\
    forall k', 8 * k <= k' <= k -> Rabs ((k - k') * t1) <= Rabs (k * t1) ->
      is_minimum res b (t1 + (t2 - t1) * (k / k'), k', q + (k - k') * t1).
Proof.
  intros t1 t2 k q Ht Hk x y.
  destruct (hinge_run x y k q t1 t2 ltac:(left; reflexivity) ltac:(right; left; reflexivity) Ht ltac:(discriminate) ltac:(lra))
    as (lo & hi & D & Il & Ih & Hlh & HX & HD & PD & E). cbv zeta in E.
  assert (lo = t1 /\ hi = t2) as [-> ->].
  { pose proof (HX t1 ltac:(left; reflexivity)). pose proof (HX t2 ltac:(right; left; reflexivity)).
    destruct Il as [<-|[<-|[]]], Ih as [<-|[<-|[]]]; lra. }
  eexists _, _, _. split; [exact E|].
  assert (Z : forall a' k' q', k' * Rmin t1 a' + q' = k * t1 + q -> k' * Rmin t2 a' + q' = k * t2 + q ->
    forall c, ssq (map2 Rminus (map (fun w => k' * Rmin w a' + q') x) y) <= ssq c).
  { intros a' k' q' E1 E2 c. eapply Rle_trans; [|apply ssq_nonneg].
    change y with (map (fun v => k * v + q) x). apply res_zero. intros v [<-|[<-|[]]]; assumption. }
  rewrite (Rmin_right k (8 * k)), (Rmax_left k (8 * k)) by lra. split.
  - split; [unfold within; lra|]. intros [[a' k'] q'] _. apply Z.
    + rewrite Rmin_left by lra. ring.
    + rewrite Rmin_left by lra. ring.
  - intros k' Hk' HQ.
    assert (R0 : 0 < k / k' <= 1).
    { split.
      - replace (k / k') with ((- k) / (- k')) by (field; lra). apply Rdiv_lt_0_compat; lra.
      - apply (Rmult_le_reg_r (- k')); [lra|]. replace (k / k' * - k') with (- k) by (field; lra). lra. }
    assert (EK : k' * (k / k') = k) by (field; lra).
    split.
    + assert (G : Rabs (k * t1) <= D).
      { pose proof (HD (k * t1 + q) ltac:(left; reflexivity)) as H. replace (k * t1 + q - q) with (k * t1) in H by ring. exact H. }
      assert (G2 : Rabs ((k - k') * t1) <= D) by lra. apply Rabs_le_between in G2.
      unfold within. split; [nra|]. lra.
    + intros [[a' k''] q'] _. apply Z.
      * rewrite Rmin_left by nra. ring.
      * rewrite Rmin_right by nra.
        replace (k' * (t1 + (t2 - t1) * (k / k')) + (q + (k - k') * t1)) with ((t2 - t1) * (k' * (k / k')) + k * t1 + q) by ring.
        rewrite EK. ring.
Qed.
Print Assumptions c88_two_refuted.

(** A constant level, on the other hand, does not even determine the sign of the
    slope: the hinge may bend at the first time. *)
Theorem c88_flat_refuted : forall x c t, In 0 x -> (forall v, In v x -> 0 <= v) -> In t x -> 0 < t ->
  exists res x0 b, (forall optimise, hinge_fit optimise x (map (fun _ => c) x) 0 c = Ok (optimise res x0 b)) /\
    forall k', -1 <= k' <= 1 -> is_minimum res b (0, k', c).
Proof.
  intros x c t I0 Hx It Ht.
  destruct (hinge_run0 x (map (fun _ => c) x) 0 c 0 t I0 It Ht ltac:(destruct x; [destruct I0|discriminate]))
    as (lo & hi & D & Il & Ih & Hlh & HX & HD & PD & _ & E). cbv zeta in E.
  destruct (Req_EM_T 0 0) as [_|N]; [|lra]. cbn [fst snd] in E.
  eexists _, _, _. split; [exact E|]. intros k' Hk.
  assert (lo = 0) as -> by (pose proof (HX 0 I0); pose proof (Hx lo Il); lra).
  split; [unfold within; lra|]. intros [[a' k''] q'] _. eapply Rle_trans; [|apply ssq_nonneg].
  apply (res_zero x (fun _ => c) 0 k' c). intros v Iv. rewrite Rmin_right by auto. ring.
Qed.
Print Assumptions c88_flat_refuted.

(** A decay that is short in comparison with its track is not found, however good
    the optimiser: the steepest slope that is allowed is eight times that of the
    least squares line.  Twelve samples of which the first three decay: every
    allowed decay is at least 15 percent too long. *)
Definition twelve : list R := map INR (seq 0 12).
Definition short_decay : list R := map (fun v => -1 * Rmin v 2 + 0) twelve.
Lemma twelve_eq : twelve = [0; 1; 2; 3; 4; 5; 6; 7; 8; 9; 10; 11].
Proof. unfold twelve. cbn [seq map]. repeat (apply f_equal2; [simpl; ring|]). reflexivity. Qed.
Lemma short_eq : short_decay = [0; -1; -2; -2; -2; -2; -2; -2; -2; -2; -2; -2].
Proof.
  unfold short_decay. rewrite twelve_eq. cbn [map]. rewrite (Rmin_left 0), (Rmin_left 1), (Rmin_left 2) by lra.
  rewrite !Rmin_right by lra. repeat (apply f_equal2; [ring|]). reflexivity.
Qed.
Lemma short_error : forall k q, line_error twelve short_decay k q =
  line_error twelve short_decay (- 31 / 286) (- 15 / 13) +
  12 * ((q + 15 / 13) + 11 / 2 * (k + 31 / 286)) ^ 2 + 143 * (k + 31 / 286) ^ 2.
Proof.
  intros k q. unfold line_error, ssq. rewrite twelve_eq, short_eq. cbn [combine map fst snd rsum fold_right]. field.
Qed.
Theorem c88_short_decay_refuted : exists x a k q kl ql,
  let y := map (fun v => k * Rmin v a + q) x in
  x = map INR (seq 0 12) /\ a = 2 /\ k < 0 /\ least_squares_line x y kl ql /\
  (forall k' q', least_squares_line x y k' q' -> k' = kl /\ q' = ql) /\
  exists res x0 b, (forall optimise, hinge_fit optimise x y kl ql = Ok (optimise res x0 b)) /\
    forall c, within b c -> let '(_, k', _) := c in
      0 < ssq (res c) /\ 23 / 20 * track_decay k < track_decay k'.
Proof.
  exists twelve, 2, (-1), 0, (- 31 / 286), (- 15 / 13). cbv zeta. change (map (fun v => -1 * Rmin v 2 + 0) twelve) with short_decay.
  split; [reflexivity|]. split; [reflexivity|]. split; [lra|]. split; [|split].
  - intros k' q'. rewrite (short_error k' q').
    pose proof (pow2_ge_0 (q' + 15 / 13 + 11 / 2 * (k' + 31 / 286))). pose proof (pow2_ge_0 (k' + 31 / 286)). lra.
  - intros k' q' H. specialize (H (- 31 / 286) (- 15 / 13)). rewrite (short_error k' q') in H.
    pose proof (pow2_ge_0 (q' + 15 / 13 + 11 / 2 * (k' + 31 / 286))). pose proof (pow2_ge_0 (k' + 31 / 286)).
    assert (Z : k' + 31 / 286 = 0) by (apply Rsqr_0_uniq; unfold Rsqr; lra).
    rewrite Z in *. assert (Z2 : q' + 15 / 13 + 11 / 2 * 0 = 0) by (apply Rsqr_0_uniq; unfold Rsqr; lra). lra.
  - assert (I : forall v, In v [0; 1; 2; 3; 4; 5; 6; 7; 8; 9; 10; 11] -> In v twelve) by (rewrite twelve_eq; auto).
    destruct (hinge_run twelve short_decay (- 31 / 286) (- 15 / 13) 0 1) as (lo & hi & D & Il & Ih & Hlh & HX & HD & PD & E).
    { apply I. cbn. auto. } { apply I. cbn. auto. } { lra. } { rewrite short_eq. discriminate. } { lra. }
    cbv zeta in E. eexists _, _, _. split; [exact E|]. clear E.
    intros [[a' k'] q'] W. unfold within in W. rewrite (Rmin_right (- 31 / 286)), (Rmax_left (- 31 / 286)) in W by lra.
    destruct W as (_ & Wk & _).
    set (res := map2 Rminus _ _). split.
    + destruct (Rle_lt_dec (ssq res) 0) as [Z|]; [|assumption]. exfalso.
      unfold res, short_decay in Z. rewrite (res_zero twelve (fun v => -1 * Rmin v 2 + 0)) in Z.
      destruct (hinge_unique twelve 2 (-1) 0 a' k' q' 0 1 2 Z ltac:(lra)) as (-> & _).
      * apply I. cbn. auto.
      * apply I. cbn. auto.
      * apply I. cbn. auto.
      * rewrite !Rmin_left by lra. lra.
      * lra.
    + unfold track_decay, d2k_const, log10. rewrite ln_exp. pose proof ln10_pos as P.
      assert (Q : 0 < / ln 10) by (apply Rinv_0_lt_compat; exact P).
      replace (-40 * (1 / ln 10) / -1) with (40 * / ln 10) by (field; lra).
      replace (-40 * (1 / ln 10) / k') with (40 * / ln 10 * / (- k')) by (field; lra).
      assert (/ (248 / 286) <= / (- k')) by (apply Rinv_le_contravar; lra).
      assert (23 / 20 < / (248 / 286)).
      { replace (/ (248 / 286)) with (286 / 248) by field. lra. }
      nra.
Qed.
Print Assumptions c88_short_decay_refuted.

Example c88_example : forall optimise, minimises optimise ->
  exists a, hinge_fit optimise [0; 1; 2] [5; 3; 1] (-2) 5 = Ok (a, -2, 5).
Proof.
  intros optimise HO.
  destruct (c88_line optimise [0; 1; 2] (-2) 5 (-2) 5 0 1 2 HO ltac:(lra)) as (a & E); try (cbn; tauto); try lra.
  - intros k' q'. unfold line_error. rewrite ssq_all_zero; [apply ssq_nonneg|].
    cbn [map combine fst snd]. repeat constructor; ring.
  - exists a. rewrite <- E. f_equal. cbn [map]. repeat (apply f_equal2; [ring|]). reflexivity.
Qed.
