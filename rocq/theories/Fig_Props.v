(** C99: the curves and marks of figures.py are what their labels say. *)
From Coquelicot Require Import Coquelicot.
From Coq Require Import String List Bool ZArith Lia Lra Reals.
Import ListNotations.
From Verif Require Import Base Py Beat_Model Fig_Model PyLemmas.
Local Open Scope R_scope.

(** ** Fourier transforms *)

(** [v] is the integral of [x] from zero to infinity. *)
Definition integral (x : R -> R) (v : R) : Prop := is_RInt_gen x (at_point 0) (Rbar_locally p_infty) v.
(** [X] is the Fourier transform at frequency [nu] of a signal that starts at zero. *)
Definition transform (x : R -> Complex.C) (nu : R) (X : Complex.C) : Prop :=
  integral (fun t => Re (x t * (cos (2 * PI * nu * t)%R, (- sin (2 * PI * nu * t))%R))%C) (Re X) /\
  integral (fun t => Im (x t * (cos (2 * PI * nu * t)%R, (- sin (2 * PI * nu * t))%R))%C) (Im X).

Lemma integral_of (x F : R -> R) (v : R) : (forall t, is_derive F t (x t)) -> (forall t, continuous x t) ->
  is_lim F p_infty 0 -> v = - F 0 -> integral x v.
Proof.
  intros HF Hx Hl ->. intros P HP.
  exists (fun a => a = 0) (fun b => P (F b - F 0)).
  - unfold at_point. reflexivity.
  - assert (Hl2 : is_lim (fun b => F b - F 0) p_infty (- F 0)).
    { replace (- F 0) with (0 - F 0) by ring. apply (is_lim_minus' F (fun _ => F 0)); [exact Hl|apply is_lim_const]. }
    exact (Hl2 P HP).
  - intros a b -> Hb. exists (F b - F 0). split; [|exact Hb]. cbn [fst snd].
    apply (is_RInt_derive F x); intros t _; [apply HF|apply Hx].
Qed.
Lemma integral_ext (x y : R -> R) v : (forall t, x t = y t) -> integral x v -> integral y v.
Proof.
  intros E. apply is_RInt_gen_ext. exists (fun _ => True) (fun _ => True); try apply filter_true. intros a b _ _ t _. apply E.
Qed.
Lemma integral_plus (x y : R -> R) u v : integral x u -> integral y v -> integral (fun t => x t + y t) (u + v).
Proof. apply (is_RInt_gen_plus x y u v). Qed.
Lemma integral_scal (x : R -> R) k v : integral x v -> integral (fun t => k * x t) (k * v).
Proof. apply (is_RInt_gen_scal x k v). Qed.

Lemma exp_neg_lim a : 0 < a -> is_lim (fun t => exp (- a * t)) p_infty 0.
Proof.
  intros Ha. apply (is_lim_comp exp (fun t => - a * t) p_infty 0 m_infty).
  - apply is_lim_exp_m.
  - assert (H := is_lim_scal_l (fun t => t) (- a) p_infty p_infty (is_lim_id _)).
    replace (Rbar_mult (- a) p_infty) with m_infty in H; [exact H|].
    cbn. destruct (Rle_dec 0 (- a)); [exfalso; lra|reflexivity].
  - exists 0. intros t _. discriminate.
Qed.
(** A damped cosine. *)
Lemma damped a w p : 0 < a -> integral (fun t => exp (- a * t) * cos (w * t + p)) ((a * cos p - w * sin p) / (a ^ 2 + w ^ 2)).
Proof.
  intros Ha. assert (HD : 0 < a ^ 2 + w ^ 2) by nra.
  apply (integral_of _ (fun t => exp (- a * t) * (- a * cos (w * t + p) + w * sin (w * t + p)) / (a ^ 2 + w ^ 2))).
  - intros t. auto_derive; [lra|]. field. lra.
  - intros t. apply (ex_derive_continuous (fun t => exp (- a * t) * cos (w * t + p))). auto_derive. exact I.
  - apply (is_lim_le_le_loc (fun t => - ((a + Rabs w) / (a ^ 2 + w ^ 2)) * exp (- a * t)) (fun t => ((a + Rabs w) / (a ^ 2 + w ^ 2)) * exp (- a * t))).
    + exists 0. intros t _. set (c := cos (w * t + p)). set (s := sin (w * t + p)).
      assert (Hc : -1 <= c <= 1) by (apply COS_bound). assert (Hs : -1 <= s <= 1) by (apply SIN_bound).
      pose proof (exp_pos (- a * t)) as He. set (e := exp (- a * t)) in *.
      assert (HK : - (a + Rabs w) <= - a * c + w * s <= a + Rabs w).
      { pose proof (Rle_abs w). pose proof (Rle_abs (- w)). rewrite Rabs_Ropp in H0. pose proof (Rabs_pos w). split; nra. }
      assert (HI : 0 < / (a ^ 2 + w ^ 2)) by (apply Rinv_0_lt_compat; exact HD). unfold Rdiv. set (i := / _) in *.
      assert (0 < e * i) by (apply Rmult_lt_0_compat; assumption). split; nra.
    + replace (Finite 0) with (Rbar_mult (- ((a + Rabs w) / (a ^ 2 + w ^ 2))) 0) by (cbn; f_equal; ring).
      apply is_lim_scal_l. apply exp_neg_lim. exact Ha.
    + replace (Finite 0) with (Rbar_mult ((a + Rabs w) / (a ^ 2 + w ^ 2)) 0) by (cbn; f_equal; ring).
      apply is_lim_scal_l. apply exp_neg_lim. exact Ha.
  - rewrite !Rmult_0_r, exp_0, Rplus_0_l. field. lra.
Qed.

Ltac cx := unfold Re, Im, RtoC, cis, Cmult, Cplus, Cdiv, Cinv; cbn [fst snd].
Lemma transform_ext x y nu X : (forall t, x t = y t) -> transform x nu X -> transform y nu X.
Proof. intros E [A B]. split; [refine (integral_ext _ _ _ _ A)|refine (integral_ext _ _ _ _ B)]; intros t; cbv beta; rewrite E; reflexivity. Qed.
Lemma transform_plus x y nu X Y : transform x nu X -> transform y nu Y -> transform (fun t => x t + y t)%C nu (X + Y)%C.
Proof.
  intros [A B] [A' B']. split.
  - refine (integral_ext _ _ _ _ (integral_plus _ _ _ _ A A')). intros t. cx. ring.
  - refine (integral_ext _ _ _ _ (integral_plus _ _ _ _ B B')). intros t. cx. ring.
Qed.
Lemma transform_scal x nu k X : transform x nu X -> transform (fun t => RtoC k * x t)%C nu (RtoC k * X)%C.
Proof.
  intros [A B]. split.
  - replace (Re (RtoC k * X)%C) with (k * Re X) by (cx; ring).
    refine (integral_ext _ _ _ _ (integral_scal _ k _ A)). intros t. cx. ring.
  - replace (Im (RtoC k * X)%C) with (k * Im X) by (cx; ring).
    refine (integral_ext _ _ _ _ (integral_scal _ k _ B)). intros t. cx. ring.
Qed.
Lemma exp_ft_eq v a : 0 < a -> exp_ft v a = (a / (a ^ 2 + (2 * PI * v) ^ 2), - (2 * PI * v) / (a ^ 2 + (2 * PI * v) ^ 2)).
Proof.
  intros Ha. unfold exp_ft. replace (RtoC a + (0%R, 2%R) * RtoC PI * RtoC v)%C with (a, 2 * PI * v)
    by (apply injective_projections; cx; ring).
  unfold Cdiv, Cinv, Cmult, RtoC. apply injective_projections; cbn [fst snd]; unfold Rdiv; ring.
Qed.
(** A damped exponential oscillation. *)
Lemma transform_mode nu nu0 a p : 0 < a ->
  transform (fun t => RtoC (exp (- a * t))%R * cis (2 * PI * nu0 * t + p)%R)%C nu (exp_ft (nu - nu0)%R a * cis p)%C.
Proof.
  intros Ha. set (w := 2 * PI * (nu0 - nu)).
  assert (HD : 0 < a ^ 2 + w ^ 2) by nra.
  assert (E : exp_ft (nu - nu0) a = (a / (a ^ 2 + w ^ 2), w / (a ^ 2 + w ^ 2))).
  { rewrite exp_ft_eq by exact Ha. replace ((2 * PI * (nu - nu0)) ^ 2) with (w ^ 2) by (unfold w; ring).
    replace (- (2 * PI * (nu - nu0))) with w by (unfold w; ring). reflexivity. }
  rewrite E. split.
  - replace (Re _) with ((a * cos p - w * sin p) / (a ^ 2 + w ^ 2)) by (cx; field; lra).
    refine (integral_ext _ _ _ _ (damped a w p Ha)). intros t. cx.
    replace (w * t + p) with ((2 * PI * nu0 * t + p) - 2 * PI * nu * t) by (unfold w; ring). rewrite cos_minus. ring.
  - replace (Im _) with ((a * cos (p - PI / 2) - w * sin (p - PI / 2)) / (a ^ 2 + w ^ 2))
      by (rewrite cos_minus, sin_minus, cos_PI2, sin_PI2; cx; field; lra).
    refine (integral_ext _ _ _ _ (damped a w (p - PI / 2) Ha)). intros t. cx.
    replace (w * t + (p - PI / 2)) with (((2 * PI * nu0 * t + p) - 2 * PI * nu * t) - PI / 2) by (unfold w; ring).
    rewrite cos_minus, cos_PI2, sin_PI2, sin_minus. ring.
Qed.

(** [_cos_ft] is the Fourier transform of a damped cosine, whose phase is subtracted;
    with [half] that of the half of it with the positive frequency. *)
Theorem c99_cos_ft nu nu0 a d phi : 0 < d ->
  transform (fun t => RtoC (a * exp (- 2 * t / d) * cos (2 * PI * nu0 * t - phi))) nu (cos_ft nu nu0 a d phi false) /\
  transform (fun t => RtoC (a / 2 * exp (- 2 * t / d))%R * cis (2 * PI * nu0 * t - phi)%R)%C nu (cos_ft nu nu0 a d phi true).
Proof.
  intros Hd. assert (Ha : 0 < 2 / d) by (apply Rdiv_lt_0_compat; lra).
  assert (Ee : forall t, exp (- 2 * t / d) = exp (- (2 / d) * t)) by (intros t; f_equal; field; lra).
  pose proof (transform_mode nu nu0 (2 / d) (- phi) Ha) as HP.
  pose proof (transform_mode nu (- nu0) (2 / d) phi Ha) as HN. replace (nu - - nu0) with (nu + nu0) in HN by ring.
  split.
  - refine (transform_ext _ _ _ _ _ (transform_scal _ _ (a / 2) _ (transform_plus _ _ _ _ _ HP HN))).
    intros t. rewrite Ee. unfold cis. apply injective_projections; cx.
    + replace (2 * PI * - nu0 * t + phi) with (- (2 * PI * nu0 * t - phi)) by ring. rewrite cos_neg.
      replace (2 * PI * nu0 * t + - phi) with (2 * PI * nu0 * t - phi) by ring. field.
    + replace (2 * PI * - nu0 * t + phi) with (- (2 * PI * nu0 * t - phi)) by ring. rewrite sin_neg.
      replace (2 * PI * nu0 * t + - phi) with (2 * PI * nu0 * t - phi) by ring. ring.
  - unfold cos_ft. rewrite Cplus_0_r.
    refine (transform_ext _ _ _ _ _ (transform_scal _ _ (a / 2) _ HP)).
    intros t. rewrite Ee. replace (2 * PI * nu0 * t + - phi) with (2 * PI * nu0 * t - phi) by ring.
    apply injective_projections; cx; ring.
Qed.
Print Assumptions c99_cos_ft.

Definition dflt (o : option R) (v : R) : R := match o with None => v | Some u => u end.
(** [_beat_ft] is that of the sum of two; the second one is like the first one, two Hz
    higher, where nothing else is said. *)
Theorem c99_beat_ft nu nu1 a1 d1 phi1 nu2 a2 d2 phi2 : 0 < d1 -> 0 < dflt d2 d1 ->
  transform (fun t => RtoC (a1 * exp (- 2 * t / d1) * cos (2 * PI * nu1 * t - phi1) +
      dflt a2 a1 * exp (- 2 * t / dflt d2 d1) * cos (2 * PI * dflt nu2 (nu1 + 2) * t - dflt phi2 phi1))) nu
    (beat_ft nu nu1 a1 d1 phi1 nu2 a2 d2 phi2 false).
Proof.
  intros H1 H2. destruct (c99_cos_ft nu nu1 a1 d1 phi1 H1) as [A _].
  destruct (c99_cos_ft nu (dflt nu2 (nu1 + 2)) (dflt a2 a1) (dflt d2 d1) (dflt phi2 phi1) H2) as [B _].
  refine (transform_ext _ _ _ _ _ (transform_plus _ _ _ _ _ A B)). intros t. rewrite <- RtoC_plus. reflexivity.
Qed.
Print Assumptions c99_beat_ft.

(** The transform is unique. *)
Theorem c99_transform_unique x nu X Y : transform x nu X -> transform x nu Y -> X = Y.
Proof.
  intros [A B] [A' B']. apply injective_projections.
  - apply (is_RInt_gen_unique (V := R_CompleteNormedModule)) in A. apply (is_RInt_gen_unique (V := R_CompleteNormedModule)) in A'. unfold Re in *. congruence.
  - apply (is_RInt_gen_unique (V := R_CompleteNormedModule)) in B. apply (is_RInt_gen_unique (V := R_CompleteNormedModule)) in B'. unfold Im in *. congruence.
Qed.
Print Assumptions c99_transform_unique.

(** The signals of the figure have the spectrum [_beat_ft] with [half]... *)
Theorem c99_signal_ft nu_a nu_d d nu : 0 < d -> exists X, transform (fft_signal nu_a nu_d d) nu X /\
  Cmod X = Cmod (beat_ft nu (nu_a - nu_d) 1 d 0 (Some (nu_a + nu_d)) None None None true).
Proof.
  intros Hd. exists (beat_ft nu (nu_a - nu_d) 1 d (PI / 2) (Some (nu_a + nu_d)) None None None true). split.
  - destruct (c99_cos_ft nu (nu_a - nu_d) 1 d (PI / 2) Hd) as [_ A]. destruct (c99_cos_ft nu (nu_a + nu_d) 1 d (PI / 2) Hd) as [_ B].
    refine (transform_ext _ _ _ _ _ (transform_plus _ _ _ _ _ A B)). intros t. unfold fft_signal.
    replace (exp (t * (- 2 / d))) with (exp (- 2 * t / d)) by (f_equal; field; lra).
    replace (2 * PI * t * (nu_a - nu_d) + - PI / 2) with (2 * PI * (nu_a - nu_d) * t - PI / 2) by field.
    replace (2 * PI * t * (nu_a + nu_d) + - PI / 2) with (2 * PI * (nu_a + nu_d) * t - PI / 2) by field.
    apply injective_projections; cx; ring.
  - assert (E : beat_ft nu (nu_a - nu_d) 1 d (PI / 2) (Some (nu_a + nu_d)) None None None true =
      (cis (- (PI / 2))%R * beat_ft nu (nu_a - nu_d)%R 1%R d 0%R (Some (nu_a + nu_d)%R) None None None true)%C).
    { unfold beat_ft, cos_ft. rewrite !Cplus_0_r. replace (cis (- 0)) with (RtoC 1) by (unfold cis; rewrite Ropp_0, cos_0, sin_0; reflexivity). ring. }
    rewrite E, Cmod_mult. replace (Cmod (cis (- (PI / 2)))) with 1; [ring|].
    unfold Cmod, cis. cbn [fst snd]. symmetry. rewrite <- sqrt_1. f_equal. pose proof (sin2_cos2 (- (PI / 2))) as H. unfold Rsqr in H. lra.
Qed.
Print Assumptions c99_signal_ft.
(** ... but the curve is without: it is higher at the centre of every such beat. *)
Theorem c99_fft_curve_refuted nu_a nu_d d : 0 < d -> exists X, transform (fft_signal nu_a nu_d d) nu_a X /\ Cmod X < fft_curve nu_a nu_d d nu_a.
Proof.
  intros Hd. destruct (c99_signal_ft nu_a nu_d d nu_a Hd) as (X & HX & E). exists X. split; [exact HX|]. rewrite E. unfold fft_curve.
  assert (Ha : 0 < 2 / d) by (apply Rdiv_lt_0_compat; lra). set (a := 2 / d) in *.
  pose proof (fun v => exp_ft_eq v a Ha) as F.
  unfold beat_ft, cos_ft. fold a. rewrite !Cplus_0_r, !F.
  replace (nu_a - (nu_a - nu_d)) with nu_d by ring. replace (nu_a - (nu_a + nu_d)) with (- nu_d) by ring.
  unfold cis. rewrite Ropp_0, cos_0, sin_0.
  assert (P : forall v, 0 < a / (a ^ 2 + (2 * PI * v) ^ 2)) by (intros v; apply Rdiv_lt_0_compat; nra).
  pose proof (P nu_d) as P1. pose proof (P (nu_a + (nu_a - nu_d))) as P2. pose proof (P (nu_a + (nu_a + nu_d))) as P3.
  replace ((2 * PI * - nu_d) ^ 2) with ((2 * PI * nu_d) ^ 2) by ring.
  set (u := a / (a ^ 2 + (2 * PI * nu_d) ^ 2)) in *.
  set (v := a / (a ^ 2 + (2 * PI * (nu_a + (nu_a - nu_d))) ^ 2)) in *. set (w := a / (a ^ 2 + (2 * PI * (nu_a + (nu_a + nu_d))) ^ 2)) in *.
  set (iu := - (2 * PI * nu_d) / _). set (iu' := - (2 * PI * - nu_d) / _).
  assert (Ei : iu' = - iu) by (unfold iu, iu'; field; nra). rewrite Ei. clearbody iu u v w.
  unfold Cmod, Cmult, Cplus, RtoC. cbn [fst snd]. set (i2 := - (2 * PI * (nu_a + (nu_a - nu_d))) / _). set (i3 := - (2 * PI * (nu_a + (nu_a + nu_d))) / _).
  apply sqrt_lt_1_alt. match goal with |- 0 <= ?A < ?B => replace A with (u ^ 2) by field; replace B with ((u + (v + w) / 2) ^ 2 + ((i2 + i3) / 2) ^ 2) by field end.
  pose proof (pow2_ge_0 ((i2 + i3) / 2)). split; nra.
Qed.
Print Assumptions c99_fft_curve_refuted.

(** ** Extrema and zero crossings *)

Lemma slice_tail {A} (x : A) l : slice (Some 1%Z) None (x :: l) = l.
Proof.
  unfold slice, lo_bound, hi_bound, slice_bound, zlen. cbn [Z.ltb Z.compare List.length].
  rewrite Z.min_l by lia. change (Z.to_nat 1) with 1%nat. cbn [skipn]. rewrite Nat2Z.id. cbn [Nat.sub]. rewrite Nat.sub_0_r. apply firstn_all.
Qed.
Lemma slice_tail2 {A} (x y : A) l : slice (Some 2%Z) None (x :: y :: l) = l.
Proof.
  unfold slice, lo_bound, hi_bound, slice_bound, zlen. cbn [Z.ltb Z.compare List.length].
  rewrite Z.min_l by lia. change (Z.to_nat 2) with 2%nat. cbn [skipn]. rewrite Nat2Z.id. cbn [Nat.sub]. rewrite Nat.sub_0_r. apply firstn_all.
Qed.
Lemma slice_init {A} (l : list A) x : slice None (Some (-1)%Z) (l ++ [x]) = l.
Proof.
  unfold slice, lo_bound, hi_bound, slice_bound, zlen. cbn [Z.ltb Z.compare]. rewrite app_length. cbn [List.length skipn].
  replace (Z.to_nat _ - 0)%nat with (List.length l) by lia. rewrite firstn_app, Nat.sub_diag, firstn_all. cbn. apply app_nil_r.
Qed.
Lemma slice_init2 {A} (l : list A) x y : slice None (Some (-2)%Z) (l ++ [x; y]) = l.
Proof.
  unfold slice, lo_bound, hi_bound, slice_bound, zlen. cbn [Z.ltb Z.compare]. rewrite app_length. cbn [List.length skipn].
  replace (Z.to_nat _ - 0)%nat with (List.length l) by lia. rewrite firstn_app, Nat.sub_diag, firstn_all. cbn. apply app_nil_r.
Qed.
Lemma slice_mid1 {A} (x y : A) l : slice (Some 1%Z) (Some (-1)%Z) (x :: l ++ [y]) = l.
Proof.
  unfold slice, lo_bound, hi_bound, slice_bound, zlen. cbn [Z.ltb Z.compare List.length]. rewrite app_length. cbn [List.length].
  rewrite Z.min_l by lia. change (Z.to_nat 1) with 1%nat. cbn [skipn].
  replace (Z.to_nat _ - 1)%nat with (List.length l) by lia. rewrite firstn_app, Nat.sub_diag, firstn_all. cbn. apply app_nil_r.
Qed.
Lemma map2b_nth {A B} (op : A -> A -> B) a b d e i : List.length a = List.length b -> (i < List.length a)%nat ->
  nth i (map2b op a b) e = op (nth i a d) (nth i b d).
Proof.
  intros E Hi. unfold map2b. rewrite (nth_map_lt _ _ _ (d, d)) by (rewrite combine_length, <- E; lia).
  rewrite combine_nth by exact E. reflexivity.
Qed.
Lemma map2b_length {A B} (op : A -> A -> B) a b : List.length a = List.length b -> List.length (map2b op a b) = List.length a.
Proof. intros E. unfold map2b. rewrite map_length, combine_length, <- E. lia. Qed.
Lemma two_ends {A} (x y : A) l : exists m z, x :: y :: l = (x :: m) ++ [z] /\ y :: l = m ++ [z].
Proof. destruct (@exists_last _ (y :: l)) as (m & z & E); [discriminate|]. exists m, z. split; [cbn; rewrite <- E; reflexivity|exact E]. Qed.

(** Marked are exactly the inner samples beyond both of their neighbours. *)
Theorem c99_extrema cmp a : a <> [] -> exists b, find_extrema cmp a = Ok b /\ List.length b = List.length a /\
  forall i, nth i b false = true <-> (0 < i)%nat /\ (Datatypes.S i < List.length a)%nat /\
    cmp (nth i a 0) (nth (i - 1) a 0) = true /\ cmp (nth i a 0) (nth (Datatypes.S i) a 0) = true.
Proof.
  intros Hne. destruct a as [|x [|y l]]; [congruence| |].
  - exists [false]. split; [reflexivity|]. split; [reflexivity|]. intros i. split.
    + destruct i as [|[|i]]; discriminate.
    + intros (H & H1 & _). cbn in H1. lia.
  - unfold find_extrema. destruct (two_ends x y l) as (m & z & E & E2).
    assert (Em : slice (Some 1%Z) (Some (-1)%Z) (x :: y :: l) = m) by (rewrite E; apply slice_mid1).
    assert (Hm : List.length m = List.length l) by (apply (f_equal (@List.length R)) in E2; rewrite app_length in E2; cbn in E2; lia).
    assert (El : exists f, slice None (Some (-2)%Z) (x :: y :: l) = f /\ List.length f = List.length l /\ forall i, (i < List.length l)%nat -> nth i f 0 = nth i (x :: y :: l) 0).
    { destruct (@exists_last _ (x :: m)) as (f & u & Ef); [discriminate|]. exists f. rewrite E, Ef, <- app_assoc.
      cbn [app]. rewrite slice_init2. split; [reflexivity|].
      assert (List.length f = List.length l) by (apply (f_equal (@List.length R)) in Ef; rewrite app_length in Ef; cbn in Ef; lia).
      split; [assumption|]. intros i Hi. rewrite app_nth1 by lia. reflexivity. }
    destruct El as (f & Ef & Hf & Nf). rewrite Em, Ef, slice_tail2.
    eexists. split; [reflexivity|].
    assert (L1 : List.length (map2b cmp m f) = List.length l) by (rewrite map2b_length; lia).
    assert (L2 : List.length (map2b cmp m l) = List.length l) by (rewrite map2b_length; lia).
    assert (L3 : List.length (map2b andb (map2b cmp m f) (map2b cmp m l)) = List.length l) by (rewrite map2b_length; lia).
    split; [cbn [List.length]; rewrite app_length, L3; cbn; lia|]. intros [|i]; [split; [discriminate|intros [H _]; lia]|].
    cbn [nth]. destruct (Nat.lt_ge_cases i (List.length l)) as [Hi|Hi].
    + rewrite app_nth1 by lia. rewrite (map2b_nth _ _ _ false) by lia. rewrite !(map2b_nth cmp _ _ 0) by lia. rewrite Nf by exact Hi.
      replace (Datatypes.S i - 1)%nat with i by lia.
      assert (Ei : nth i (y :: l) 0 = nth i m 0) by (rewrite E2, app_nth1 by lia; reflexivity). cbn [nth] in Ei. rewrite Ei.
      rewrite Bool.andb_true_iff. cbn [List.length nth]. split; [intros [A B]; repeat split; try lia; assumption|intros (_ & _ & A & B); split; assumption].
    + split; [|intros (_ & H & _); cbn in H; lia]. rewrite app_nth2 by lia. rewrite L3.
      destruct (i - List.length l)%nat as [|[|k]]; discriminate.
Qed.
Print Assumptions c99_extrema.
(** Marked are exactly the samples on the other side of zero than the one before; zero
    counts as negative. *)
Theorem c99_zerox a : a <> [] -> exists b, find_zerox a = Ok b /\ List.length b = List.length a /\
  forall i, nth i b false = true <-> (0 < i < List.length a)%nat /\
    ((nth (i - 1) a 0 <= 0 /\ 0 < nth i a 0) \/ (0 < nth (i - 1) a 0 /\ nth i a 0 <= 0)).
Proof.
  intros Hne. destruct (exists_last Hne) as (m & z & E). destruct a as [|x l]; [congruence|]. unfold find_zerox.
  set (g := fun v => greater v 0). assert (Es : slice None (Some (-1)%Z) (map g (x :: l)) = map g m).
  { rewrite E, map_app. apply slice_init. }
  cbn [map] in *. rewrite Es, slice_tail.
  assert (Hm : List.length m = List.length l) by (apply (f_equal (@List.length R)) in E; rewrite app_length in E; cbn in E; lia).
  assert (L : List.length (map2b xorb (map g l) (map g m)) = List.length l) by (rewrite map2b_length, !map_length; lia || (rewrite !map_length; lia)).
  eexists. split; [reflexivity|]. split; [cbn; lia|]. intros [|i]; [split; [discriminate|intros [H _]; lia]|]. cbn [nth List.length].
  replace (Datatypes.S i - 1)%nat with i by lia. destruct (Nat.lt_ge_cases i (List.length l)) as [Hi|Hi].
  - rewrite (map2b_nth _ _ _ false) by (rewrite !map_length; lia). rewrite !(nth_map_lt _ _ _ 0) by lia.
    assert (Ei : nth i (x :: l) 0 = nth i m 0) by (rewrite E, app_nth1 by lia; reflexivity).
    cbn [nth] in Ei. rewrite Ei. unfold g, greater, Rltb.
    destruct (Rlt_dec 0 (nth i l 0)), (Rlt_dec 0 (nth i m 0)); cbn; split; intros; try discriminate; try reflexivity; try (split; [lia|]; lra); exfalso; lra.
  - rewrite nth_overflow by lia. split; [discriminate|intros [H _]; lia].
Qed.
Print Assumptions c99_zerox.
(** Nothing to look at: an error. *)
Theorem c99_empty cmp : find_extrema cmp [] = Err IndexError /\ find_zerox [] = Err IndexError.
Proof. split; reflexivity. Qed.
Print Assumptions c99_empty.

(** No sample equals the next one. *)
Definition moving (a : list R) : Prop := forall i, (Datatypes.S i < List.length a)%nat -> nth i a 0 <> nth (Datatypes.S i) a 0.
Definition rising (a : list R) : nat := match a with x :: y :: _ => if Rlt_dec x y then 1%nat else 0%nat | _ => 0%nat end.

Lemma moving_tail x a : moving (x :: a) -> moving a.
Proof. intros H i Hi. apply (H (Datatypes.S i)). cbn. lia. Qed.

Definition inner cmp (a : list R) : list bool :=
  map2b andb (map2b cmp (slice (Some 1%Z) (Some (-1)%Z) a) (slice None (Some (-2)%Z) a)) (map2b cmp (slice (Some 1%Z) (Some (-1)%Z) a) (slice (Some 2%Z) None a)).
Fixpoint ext_rec (cmp : R -> R -> bool) (a : list R) : nat :=
  match a with x :: ((y :: z :: _) as l) => ((if cmp y x && cmp y z then 1 else 0) + ext_rec cmp l)%nat | _ => 0%nat end.
Fixpoint zx_rec (a : list R) : nat :=
  match a with x :: ((y :: _) as l) => ((if xorb (greater x 0) (greater y 0) then 1 else 0) + zx_rec l)%nat | _ => 0%nat end.
Fixpoint extb (cmp : R -> R -> bool) (a : list R) : list bool :=
  match a with x :: ((y :: z :: _) as l) => (cmp y x && cmp y z) :: extb cmp l | _ => [] end.

Lemma extb_length cmp a : List.length (extb cmp a) = (List.length a - 2)%nat.
Proof. induction a as [|x [|y [|z l]] IH]; [reflexivity|reflexivity|reflexivity|]. cbn [extb List.length] in *. rewrite IH. lia. Qed.
Lemma extb_nth cmp a i : (Datatypes.S (Datatypes.S i) < List.length a)%nat ->
  nth i (extb cmp a) false = cmp (nth (Datatypes.S i) a 0) (nth i a 0) && cmp (nth (Datatypes.S i) a 0) (nth (Datatypes.S (Datatypes.S i)) a 0).
Proof.
  revert i. induction a as [|x [|y [|z l]] IH]; intros i Hi; [cbn in Hi; lia|cbn in Hi; lia|cbn in Hi; lia|].
  destruct i as [|i]; [reflexivity|]. change (extb cmp (x :: y :: z :: l)) with ((cmp y x && cmp y z) :: extb cmp (y :: z :: l)).
  cbn [nth]. rewrite IH by (cbn in *; lia). reflexivity.
Qed.
Lemma bool_ext (b c : list bool) : List.length b = List.length c -> (forall i, nth i b false = true <-> nth i c false = true) -> b = c.
Proof. intros L H. apply (nth_ext _ _ false false L). intros i _. apply Bool.eq_iff_eq_true. apply H. Qed.
Lemma count_ext cmp a b : find_extrema cmp a = Ok b -> count_true b = ext_rec cmp a.
Proof.
  intros E. assert (Hne : a <> []) by (intros ->; discriminate E).
  destruct (c99_extrema cmp a Hne) as (b' & E' & L & H). rewrite E in E'. injection E' as <-.
  assert (Hc : count_true (extb cmp a) = ext_rec cmp a).
  { clear. induction a as [|x [|y [|z l]] IH]; [reflexivity|reflexivity|reflexivity|].
    change (extb cmp (x :: y :: z :: l)) with ((cmp y x && cmp y z) :: extb cmp (y :: z :: l)).
    change (ext_rec cmp (x :: y :: z :: l)) with ((if cmp y x && cmp y z then 1 else 0) + ext_rec cmp (y :: z :: l))%nat.
    rewrite <- IH. unfold count_true. cbn [filter]. destruct (cmp y x && cmp y z); reflexivity. }
  destruct a as [|x [|y l]]; [congruence|cbn in E; injection E as <-; reflexivity|].
  assert (Eb : b = false :: extb cmp (x :: y :: l) ++ [false]).
  { apply bool_ext; [cbn [List.length]; rewrite app_length, extb_length, L; cbn; lia|]. intros [|i]; [rewrite H; split; [intros [? _]; lia|discriminate]|].
    rewrite H. cbn [nth]. replace (Datatypes.S i - 1)%nat with i by lia.
    destruct (Nat.lt_ge_cases i (List.length l)) as [Hi|Hi].
    - rewrite app_nth1 by (rewrite extb_length; cbn; lia). rewrite extb_nth by (cbn; lia). rewrite Bool.andb_true_iff. cbn [List.length]. 
      split; [intros (_ & _ & A & B); split; assumption|intros [A B]; repeat split; try lia; assumption].
    - split; [intros (_ & ? & _); cbn in *; lia|]. rewrite app_nth2 by (rewrite extb_length; cbn; lia). rewrite extb_length.
      destruct (i - _)%nat as [|[|k]]; discriminate. }
  rewrite <- Hc, Eb. unfold count_true. cbn [filter]. rewrite filter_app. cbn [filter]. rewrite app_nil_r. reflexivity.
Qed.
Fixpoint zxb (a : list R) : list bool :=
  match a with x :: ((y :: _) as l) => xorb (greater x 0) (greater y 0) :: zxb l | _ => [] end.
Lemma zxb_length a : List.length (zxb a) = (List.length a - 1)%nat.
Proof. induction a as [|x [|y l] IH]; [reflexivity|reflexivity|]. cbn [zxb List.length] in *. rewrite IH. lia. Qed.
Lemma zxb_nth a i : (Datatypes.S i < List.length a)%nat -> nth i (zxb a) false = xorb (greater (nth i a 0) 0) (greater (nth (Datatypes.S i) a 0) 0).
Proof.
  revert i. induction a as [|x [|y l] IH]; intros i Hi; [cbn in Hi; lia|cbn in Hi; lia|].
  destruct i as [|i]; [reflexivity|]. change (zxb (x :: y :: l)) with (xorb (greater x 0) (greater y 0) :: zxb (y :: l)).
  cbn [nth]. rewrite IH by (cbn in *; lia). reflexivity.
Qed.
Lemma count_zx a b : find_zerox a = Ok b -> count_true b = zx_rec a.
Proof.
  intros E. assert (Hne : a <> []) by (intros ->; discriminate E).
  destruct (c99_zerox a Hne) as (b' & E' & L & H). rewrite E in E'. injection E' as <-.
  assert (Hc : count_true (zxb a) = zx_rec a).
  { clear. induction a as [|x [|y l] IH]; [reflexivity|reflexivity|].
    change (zxb (x :: y :: l)) with (xorb (greater x 0) (greater y 0) :: zxb (y :: l)).
    change (zx_rec (x :: y :: l)) with ((if xorb (greater x 0) (greater y 0) then 1 else 0) + zx_rec (y :: l))%nat.
    rewrite <- IH. unfold count_true. cbn [filter]. destruct (xorb (greater x 0) (greater y 0)); reflexivity. }
  destruct a as [|x l]; [congruence|].
  assert (Eb : b = false :: zxb (x :: l)).
  { apply bool_ext; [cbn [List.length]; rewrite zxb_length, L; cbn; lia|]. intros [|i]; [rewrite H; split; [intros [? _]; lia|discriminate]|].
    rewrite H. cbn [nth List.length]. replace (Datatypes.S i - 1)%nat with i by lia.
    destruct (Nat.lt_ge_cases i (List.length l)) as [Hi|Hi].
    - rewrite zxb_nth by (cbn; lia). unfold greater, Rltb. cbn [nth].
      destruct (Rlt_dec 0 (nth i l 0)), (Rlt_dec 0 match i with O => x | Datatypes.S m => nth m l 0 end); cbn;
        split; intros; try discriminate; try reflexivity; try (split; [lia|]; lra); exfalso; lra.
    - rewrite (nth_overflow (zxb (x :: l))) by (rewrite zxb_length; cbn; lia). split; [intros [? _]; lia|discriminate]. }
  rewrite <- Hc, Eb. reflexivity.
Qed.

(** Maxima and minima alternate: their numbers differ by one at most, by whether the
    sound begins and ends rising. *)
Theorem c99_alternate a mx mn : moving a -> find_extrema greater a = Ok mx -> find_extrema less a = Ok mn ->
  (count_true mx + rising (rev (map Ropp a)) = count_true mn + rising a)%nat.
Proof.
  intros Hm E1 E2. rewrite (count_ext _ _ _ E1), (count_ext _ _ _ E2). clear E1 E2 mx mn.
  induction a as [|x [|y l] IH]; [reflexivity|reflexivity|].
  destruct l as [|z l].
  - cbn. assert (H := Hm 0%nat ltac:(cbn; lia)). cbn in H. destruct (Rlt_dec x y), (Rlt_dec (- y) (- x)); try reflexivity; exfalso; lra.
  - specialize (IH (moving_tail _ _ Hm)).
    replace (rising (rev (map Ropp (x :: y :: z :: l)))) with (rising (rev (map Ropp (y :: z :: l)))).
    + change (ext_rec greater (x :: y :: z :: l)) with ((if greater y x && greater y z then 1 else 0) + ext_rec greater (y :: z :: l))%nat.
      change (ext_rec less (x :: y :: z :: l)) with ((if less y x && less y z then 1 else 0) + ext_rec less (y :: z :: l))%nat.
      pose proof (Hm 0%nat ltac:(cbn; lia)) as H0. pose proof (Hm 1%nat ltac:(cbn; lia)) as H1. cbn [nth] in H0, H1.
      revert IH. cbn [rising]. unfold greater, less, Rltb.
      set (q := rising (rev _)). set (eg := ext_rec _ _). set (el := ext_rec _ _). clearbody q eg el.
      destruct (Rlt_dec x y), (Rlt_dec y x), (Rlt_dec y z), (Rlt_dec z y); cbn [andb]; try (exfalso; lra); lia.
    + change (rev (map Ropp (x :: y :: z :: l))) with (rev (map Ropp (y :: z :: l)) ++ [- x]). cbn [map rev].
      rewrite <- !app_assoc. destruct (rev (map Ropp l)) as [|u [|v r]]; reflexivity.
Qed.
Print Assumptions c99_alternate.
(** Between two crossings there is an extremum: a signal has one crossing more than
    extrema at most. *)
Theorem c99_crossings a mx mn zx : moving a -> find_extrema greater a = Ok mx -> find_extrema less a = Ok mn -> find_zerox a = Ok zx ->
  (count_true zx <= count_true mx + count_true mn + 1)%nat.
Proof.
  intros Hm E1 E2 E3. rewrite (count_ext _ _ _ E1), (count_ext _ _ _ E2), (count_zx _ _ E3). clear E1 E2 E3 mx mn zx.
  set (pot := fun a => match a with x :: y :: _ => if xorb (Rltb x y) (greater x 0) then 1%nat else 0%nat | _ => 0%nat end).
  assert (H : (zx_rec a <= ext_rec greater a + ext_rec less a + pot a)%nat).
  { induction a as [|x [|y l] IH]; [cbn; lia|cbn; lia|]. specialize (IH (moving_tail _ _ Hm)).
    pose proof (Hm 0%nat ltac:(cbn; lia)) as H0. cbn [nth] in H0.
    change (zx_rec (x :: y :: l)) with ((if xorb (greater x 0) (greater y 0) then 1 else 0) + zx_rec (y :: l))%nat.
    destruct l as [|z l].
    - cbn. unfold greater, Rltb. destruct (Rlt_dec 0 x), (Rlt_dec 0 y), (Rlt_dec x y); cbn; try lia; exfalso; lra.
    - pose proof (Hm 1%nat ltac:(cbn; lia)) as H1. cbn [nth] in H1.
      change (ext_rec greater (x :: y :: z :: l)) with ((if greater y x && greater y z then 1 else 0) + ext_rec greater (y :: z :: l))%nat.
      change (ext_rec less (x :: y :: z :: l)) with ((if less y x && less y z then 1 else 0) + ext_rec less (y :: z :: l))%nat.
      unfold pot in *. cbn [nth] in *. set (zz := zx_rec _) in *. set (eg := ext_rec greater _) in *. set (el := ext_rec less _) in *. clearbody zz eg el.
      revert IH. unfold greater, less, Rltb.
      destruct (Rlt_dec x y), (Rlt_dec y x), (Rlt_dec y z), (Rlt_dec z y), (Rlt_dec 0 x), (Rlt_dec 0 y); cbn; try lia; exfalso; lra. }
  assert (pot a <= 1)%nat by (unfold pot; destruct a as [|x [|y l]]; [lia|lia|destruct (xorb _ _); lia]). lia.
Qed.
Print Assumptions c99_crossings.
(** With plateaus this is false. *)
Theorem c99_plateau_refuted : exists a mx mn zx, find_extrema greater a = Ok mx /\ find_extrema less a = Ok mn /\ find_zerox a = Ok zx /\
  (count_true mx + count_true mn + 1 < count_true zx)%nat.
Proof.
  exists [0; 1; 1; 0]. destruct (c99_extrema greater [0; 1; 1; 0]) as (mx & E1 & _); [discriminate|].
  destruct (c99_extrema less [0; 1; 1; 0]) as (mn & E2 & _); [discriminate|]. destruct (c99_zerox [0; 1; 1; 0]) as (zx & E3 & _); [discriminate|].
  exists mx, mn, zx. split; [exact E1|]. split; [exact E2|]. split; [exact E3|].
  rewrite (count_ext _ _ _ E1), (count_ext _ _ _ E2), (count_zx _ _ E3). cbn. unfold greater, less, Rltb.
  repeat (match goal with |- context [Rlt_dec ?p ?q] => destruct (Rlt_dec p q) end; try (exfalso; lra)); cbn; lia.
Qed.
Print Assumptions c99_plateau_refuted.
(** Crossings are drawn halfway between the two samples. *)
Theorem c99_zerox_times t a b v : find_zerox a = Ok b -> List.length t = List.length a ->
  In v (zerox_times t b) <-> exists i, (0 < i < List.length a)%nat /\ nth i b false = true /\ v = (nth (i - 1) t 0 + nth i t 0) / 2.
Proof.
  intros E Ht. assert (Hne : a <> []) by (intros ->; discriminate E).
  destruct (c99_zerox a Hne) as (b' & E' & L & H). rewrite E in E'. injection E' as <-.
  unfold zerox_times. rewrite in_map_iff. split.
  - intros (i & <- & Hi). apply filter_In in Hi as [_ Hi]. pose proof (proj1 (H i) Hi) as [Hb _]. exists i. split; [exact Hb|]. split; [exact Hi|].
    rewrite minus_INR by lia. change (INR 1) with 1. lra.
  - intros (i & Hb & Hi & ->). exists i. split; [rewrite minus_INR by lia; change (INR 1) with 1; lra|].
    apply filter_In. split; [apply in_seq; lia|exact Hi].
Qed.
Print Assumptions c99_zerox_times.

(** ** Which figures are made *)

(** If some are asked for those, otherwise all, each once and in order. *)
Theorem c99_select {F} flag (registry : list (string * F)) :
  ((exists k f, In (k, f) registry /\ flag k = true) ->
     (forall k f, In (k, f) (select_plots flag registry) <-> In (k, f) registry /\ flag k = true) /\
     exists drop, select_plots flag registry = filter drop registry) /\
  ((forall k f, In (k, f) registry -> flag k = false) -> select_plots flag registry = registry).
Proof.
  unfold select_plots. split.
  - intros (k & f & Hin & Hf). replace (existsb _ _) with true.
    + split; [|eexists; reflexivity]. intros k' f'. rewrite filter_In. reflexivity.
    + symmetry. apply existsb_exists. exists (k, f). split; assumption.
  - intros H. replace (existsb _ _) with false; [reflexivity|]. symmetry. apply Bool.not_true_iff_false. intros E.
    apply existsb_exists in E as ([k f] & Hin & Hf). cbn in Hf. rewrite (H _ _ Hin) in Hf. discriminate Hf.
Qed.
Print Assumptions c99_select.
(** Registering adds one name, or replaces its function. *)
Theorem c99_register {F} k (f : F) registry : NoDup (map fst registry) ->
  NoDup (map fst (register_plot k f registry)) /\
  (forall k' f', In (k', f') (register_plot k f registry) <-> (k' = k /\ f' = f) \/ (k' <> k /\ In (k', f') registry)) /\
  (exists new, map fst (register_plot k f registry) = map fst registry ++ new).
Proof.
  induction registry as [|[k0 f0] r IH]; intros Hn.
  - cbn. split; [constructor; [intros []|constructor]|]. split; [|exists [k]; reflexivity]. intros k' f'. split.
    + intros [E|[]]. injection E as <- <-. left. split; reflexivity.
    + intros [[-> ->]|[_ []]]. left. reflexivity.
  - cbn [map fst] in Hn. apply NoDup_cons_iff in Hn as [Hk Hn]. destruct (IH Hn) as (A & B & new & C). cbn [register_plot].
    destruct (String.eqb_spec k0 k) as [->|N].
    + cbn [map fst]. split; [constructor; assumption|]. split; [|exists []; rewrite app_nil_r; reflexivity]. intros k' f'. cbn [In]. split.
      * intros [E|H]; [injection E as <- <-; left; split; reflexivity|]. right. split; [|right; exact H].
        intros ->. apply Hk. apply in_map_iff. exists (k, f'). split; [reflexivity|exact H].
      * intros [[-> ->]|[H [E|H']]]; [left; reflexivity|injection E as <- <-; congruence|right; exact H'].
    + cbn [map fst]. split.
      * constructor; [|exact A]. intros H. apply in_map_iff in H as ([k1 f1] & E & H). cbn in E. subst k1.
        apply B in H as [[E _]|[_ H]]; [congruence|]. apply Hk. apply in_map_iff. exists (k0, f1). split; [reflexivity|exact H].
      * split; [|exists new; rewrite C; reflexivity]. intros k' f'. cbn [In]. rewrite B. split.
        -- intros [E|[H|[H1 H2]]]; [injection E as <- <-; right; split; [exact N|left; reflexivity]|left; exact H|right; split; [exact H1|right; exact H2]].
        -- intros [H|[H1 [E|H2]]]; [right; left; exact H|left; exact E|right; right; split; assumption].
Qed.
Print Assumptions c99_register.

(** ** Panels *)

(** Which panels share an axis. *)
Definition shared (v : share) (p q : nat * nat) : Prop :=
  match v with
  | ShareBool b => b = true \/ p = q
  | ShareStr s => if String.eqb s "row" then fst p = fst q else if String.eqb s "col" then snd p = snd q
                  else if String.eqb s "all" then True else p = q
  end.
(** Vertically or horizontally the same array of panels is returned, which share the same
    axes; figures are as wide as told, and all panels have the same proportions. *)
Theorem c99_subplots rows cols w aspect horizontal base sx sy p : (0 < rows)%nat -> (0 < cols)%nat -> 0 < w -> 0 < aspect -> 0 < snd base ->
  subplots (rows, cols) w aspect horizontal base sx sy = Ok p ->
  (forall i j, (i < rows)%nat /\ (j < cols)%nat <->
     (fst (panel_at horizontal (i, j)) < pn_rows p)%nat /\ (snd (panel_at horizontal (i, j)) < pn_cols p)%nat) /\
  pn_width p = w * fst base /\
  (pn_width p / INR (pn_cols p)) / (pn_height p / INR (pn_rows p)) = aspect * (fst base / snd base) /\
  (forall u v, shared (pn_sharex p) (panel_at horizontal u) (panel_at horizontal v) <-> shared sx u v) /\
  (forall u v, shared (pn_sharey p) (panel_at horizontal u) (panel_at horizontal v) <-> shared sy u v).
Proof.
  intros Hr Hc Hw Ha Hb E.
  assert (HR : 0 < INR rows) by (apply lt_0_INR; lia). assert (HC : 0 < INR cols) by (apply lt_0_INR; lia).
  assert (Hsh : forall a b, share_flip a = Ok b -> forall u v, shared b (snd u, fst u) (snd v, fst v) <-> shared a u v).
  { intros [a|a] b Hab [u1 u2] [v1 v2]; cbn in Hab.
    - injection Hab as <-. cbn. split; (intros [H|H]; [left; exact H|right; injection H as <- <-; reflexivity]).
    - destruct (String.eqb_spec a "col") as [->|]; [injection Hab as <-; cbn; reflexivity|].
      destruct (String.eqb_spec a "row") as [->|]; [injection Hab as <-; cbn; reflexivity|discriminate Hab]. }
  unfold subplots in E. cbn [fst snd] in E. destruct horizontal.
  - destruct (share_flip sx) as [sx'|] eqn:Ex; [|discriminate E]. cbn [bind] in E. destruct (share_flip sy) as [sy'|] eqn:Ey; [|discriminate E].
    cbn [bind] in E. injection E as <-. cbn [pn_rows pn_cols pn_width pn_height pn_sharex pn_sharey panel_at fst snd].
    split; [intros i j; tauto|]. split; [field; lra|]. split; [field; repeat split; lra|]. split; [apply Hsh; exact Ex|apply Hsh; exact Ey].
  - injection E as <-. cbn [pn_rows pn_cols pn_width pn_height pn_sharex pn_sharey panel_at fst snd].
    split; [intros i j; tauto|]. split; [field; lra|]. split; [field; repeat split; lra|]. split; reflexivity.
Qed.
Print Assumptions c99_subplots.
(** "all" and "none" are understood vertically only. *)
Theorem c99_share_refuted : exists s, In s ["all"; "none"]%string /\ forall v w a b sy,
  (exists p, subplots v w a false b (ShareStr s) sy = Ok p) /\ subplots v w a true b (ShareStr s) sy = Err KeyError.
Proof. exists "all"%string. split; [left; reflexivity|]. intros v w a b sy. split; [eexists; reflexivity|reflexivity]. Qed.
Print Assumptions c99_share_refuted.

(** ** Colours *)

Definition sector (j : Z) (v p q t : R) : rgb :=
  if Z.eqb j 0 then (v, t, p) else if Z.eqb j 1 then (q, v, p) else if Z.eqb j 2 then (p, v, t)
  else if Z.eqb j 3 then (p, q, v) else if Z.eqb j 4 then (t, p, v) else (v, p, q).
Lemma triple (a b c a' b' c' : R) : a = a' -> b = b' -> c = c' -> (a, b, c) = (a', b', c').
Proof. intros -> -> ->. reflexivity. Qed.
Lemma Int_part_spec r z : r - 1 < IZR z <= r -> z = Int_part r.
Proof. intros H. unfold Int_part. rewrite <- (tech_up r (z + 1)); [lia| |]; rewrite plus_IZR; lra. Qed.
Lemma hsv_sector j f h s v : (0 <= j < 6)%Z -> 0 <= f < 1 -> h * 6 = IZR j + f -> 0 < s <= 1 -> 0 <= v <= 1 ->
  hsv_to_rgb (h, s, v) = Ok (sector j v (v * (1 - s)) (v * (1 - s * f)) (v * (1 - s * (1 - f)))).
Proof.
  intros Hj Hf Eh Hs Hv. unfold hsv_to_rgb.
  assert (Hj0 : 0 <= IZR j <= 5) by (split; apply IZR_le; lia).
  repeat match goal with |- context [if Rlt_dec ?a ?b then Err _ else _] => destruct (Rlt_dec a b); [exfalso; lra|] end.
  destruct (Req_EM_T s 0); [exfalso; lra|].
  assert (Ei : Int_part (h * 6) = j) by (symmetry; apply Int_part_spec; lra). rewrite Ei.
  replace (h * 6 - IZR j) with f by lra. rewrite Z.mod_small by lia. reflexivity.
Qed.
Lemma frac_small x : 0 <= x < 1 -> x - IZR (Int_part x) = x.
Proof. intros H. rewrite <- (Int_part_spec x 0); lra. Qed.
Lemma frac_neg x : -1 <= x < 0 -> x - IZR (Int_part x) = x + 1.
Proof. intros H. rewrite <- (Int_part_spec x (-1)); lra. Qed.

(** The saturation of a colour. *)
Definition unit_rgb (c : rgb) : Prop := let '(r, g, b) := c in 0 <= r <= 1 /\ 0 <= g <= 1 /\ 0 <= b <= 1.
Definition value (c : rgb) : R := let '(r, g, b) := c in Rmax (Rmax r g) b.
Definition darkest (c : rgb) : R := let '(r, g, b) := c in Rmin (Rmin r g) b.

Lemma Rmax_cases a b : (Rmax a b = a /\ b <= a) \/ (Rmax a b = b /\ a <= b).
Proof. unfold Rmax. destruct (Rle_dec a b); [right|left]; split; lra. Qed.
Lemma Rmin_cases a b : (Rmin a b = a /\ a <= b) \/ (Rmin a b = b /\ b <= a).
Proof. unfold Rmin. destruct (Rle_dec a b); [left|right]; split; lra. Qed.

(** The distance of every channel from the brightest one is multiplied; the result has to
    be a colour. *)
Theorem c99_resaturate r g b k : unit_rgb (r, g, b) -> 0 <= k -> k * (value (r, g, b) - darkest (r, g, b)) <= value (r, g, b) ->
  let v := value (r, g, b) in resaturate (r, g, b) k = Ok (v - k * (v - r), v - k * (v - g), v - k * (v - b)).
Proof.
  intros (Hr & Hg & Hb) Hk Hkd. cbv zeta. unfold resaturate, rgb_to_hsv. cbn [value darkest] in *.
  set (mx := Rmax (Rmax r g) b) in *. set (mn := Rmin (Rmin r g) b) in *.
  assert (Hmx : r <= mx /\ g <= mx /\ b <= mx /\ (r = mx \/ g = mx \/ b = mx)).
  { unfold mx. destruct (Rmax_cases r g) as [[E1 H1]|[E1 H1]]; rewrite E1;
      [destruct (Rmax_cases r b) as [[E2 H2]|[E2 H2]]|destruct (Rmax_cases g b) as [[E2 H2]|[E2 H2]]]; rewrite E2; repeat split; try lra; tauto. }
  assert (Hmn : mn <= r /\ mn <= g /\ mn <= b /\ (r = mn \/ g = mn \/ b = mn)).
  { unfold mn. destruct (Rmin_cases r g) as [[E1 H1]|[E1 H1]]; rewrite E1;
      [destruct (Rmin_cases r b) as [[E2 H2]|[E2 H2]]|destruct (Rmin_cases g b) as [[E2 H2]|[E2 H2]]]; rewrite E2; repeat split; try lra; tauto. }
  clearbody mx mn. destruct Hmx as (M1 & M2 & M3 & M4), Hmn as (m1 & m2 & m3 & m4).
  destruct (Rlt_dec 0 (mx - mn)) as [Hd|Hd].
  2:{ assert (r = mx) by lra. assert (g = mx) by lra. assert (b = mx) by lra.
      assert (Es : (if Rlt_dec 0 mx then (mx - mn) / mx else 0) * k = 0).
      { destruct (Rlt_dec 0 mx); [replace (mx - mn) with 0 by lra; field; lra|ring]. }
      rewrite Es. unfold Rdiv at 1 2. rewrite !Rmult_0_l, frac_small by lra.
      unfold hsv_to_rgb. repeat match goal with |- context [if Rlt_dec ?a ?b then Err _ else _] => destruct (Rlt_dec a b); [exfalso; lra|] end.
      destruct (Req_EM_T 0 0); [|congruence]. f_equal. apply triple; nra. }
  destruct (Rlt_dec 0 mx) as [Hm|Hm]; [|exfalso; lra].
  set (d := mx - mn) in *. set (s := d / mx * k).
  assert (Hs : mx * s = k * d) by (unfold s; field; lra).
  assert (Hs1 : 0 <= s <= 1).
  { split; [unfold s; apply Rmult_le_pos; [apply Rlt_le, Rdiv_lt_0_compat; lra|exact Hk]|].
    apply (Rmult_le_reg_l mx); [exact Hm|]. rewrite Hs. lra. }
  assert (Hin : forall h0 j f, -1 <= h0 < 6 -> (0 <= j < 6)%Z -> 0 <= f < 1 -> (h0 = IZR j + f \/ (h0 < 0 /\ h0 + 6 = IZR j + f)) ->
    forall c, (k * d = 0 -> c = (mx, mx, mx)) -> sector j mx (mx - k * d) (mx - k * d * f) (mx - k * d * (1 - f)) = c ->
    hsv_to_rgb (h0 / 6 - IZR (Int_part (h0 / 6)), s, mx) = Ok c).
  { intros h0 j f H0 Hj Hf Eh c Hc0 Hc.
    assert (Hj0 : 0 <= IZR j <= 5) by (split; apply IZR_le; lia).
    assert (Eh6 : (h0 / 6 - IZR (Int_part (h0 / 6))) * 6 = IZR j + f).
    { destruct Eh as [Eh|[Hneg Eh]]; [rewrite frac_small by lra; lra|rewrite frac_neg by lra; lra]. }
    destruct (Req_dec s 0) as [E0|N0].
    - rewrite Hc0 by (rewrite <- Hs, E0; ring). rewrite E0. unfold hsv_to_rgb.
      repeat match goal with |- context [if Rlt_dec ?a ?b then Err _ else _] => destruct (Rlt_dec a b); [exfalso; lra|] end.
      destruct (Req_EM_T 0 0); [reflexivity|congruence].
    - rewrite (hsv_sector j f) by lra || lia || assumption. rewrite <- Hc, <- Hs. do 2 f_equal; ring. }
  assert (Hkd0 : forall u, k * d = 0 -> mx - k * (mx - u) = mx) by (intros u E; assert (k = 0) by nra; subst k; ring).
  assert (Hc0 : k * d = 0 -> (mx - k * (mx - r), mx - k * (mx - g), mx - k * (mx - b)) = (mx, mx, mx)) by (intros E; rewrite !(Hkd0 _ E); reflexivity).
  assert (Hx : forall u, - d <= u <= d -> -1 <= u / d <= 1).
  { intros u Hu. split; apply (Rmult_le_reg_r d); try lra; unfold Rdiv; rewrite Rmult_assoc, Rinv_l; lra. }
  assert (Hxs : forall u, u < d -> u / d < 1) by (intros u Hu; apply (Rmult_lt_reg_r d); [lra|]; unfold Rdiv; rewrite Rmult_assoc, Rinv_l; lra).
  assert (Hxs' : forall u, - d < u -> -1 < u / d) by (intros u Hu; apply (Rmult_lt_reg_r d); [lra|]; unfold Rdiv; rewrite Rmult_assoc, Rinv_l; lra).
  assert (Hpos : forall u, 0 <= u -> 0 <= u / d) by (intros u Hu; apply Rmult_le_pos; [exact Hu|apply Rlt_le, Rinv_0_lt_compat; lra]).
  assert (Hneg : forall u, u < 0 -> u / d < 0) by (intros u Hu; apply (Rmult_lt_reg_r d); [lra|]; unfold Rdiv; rewrite Rmult_assoc, Rinv_l; lra).
  assert (Hmul : forall u, k * d * (u / d) = k * u) by (intros u; field; lra).
  destruct (Req_EM_T b mx) as [Eb|Nb].
  - assert (Hu := Hx (r - g) ltac:(unfold d; lra)). destruct (Rle_lt_dec g r) as [Hgr|Hgr].
    + pose proof (Hpos (r - g) ltac:(lra)). destruct (Req_dec (r - g) d) as [E1|N1].
      * apply (Hin _ 5%Z 0); [|lia|lra| |exact Hc0|].
        -- rewrite E1. unfold Rdiv. rewrite Rinv_r by lra. lra.
        -- left. rewrite E1. unfold Rdiv. rewrite Rinv_r by lra. lra.
        -- unfold sector. cbn [Z.eqb Pos.eqb]. unfold d in *. apply triple; nra.
      * pose proof (Hxs (r - g) ltac:(unfold d in *; lra)).
        apply (Hin _ 4%Z ((r - g) / d)); [lra|lia|lra|left; lra|exact Hc0|].
        unfold sector. cbn [Z.eqb Pos.eqb]. rewrite Rmult_minus_distr_l, Hmul. unfold d in *. apply triple; nra.
    + pose proof (Hneg (r - g) ltac:(lra)). 
      apply (Hin _ 3%Z (1 + (r - g) / d)); [lra|lia|lra|left; lra|exact Hc0|].
      unfold sector. cbn [Z.eqb Pos.eqb]. rewrite Rmult_plus_distr_l, Hmul. unfold d in *. apply triple; nra.
  - destruct (Req_EM_T g mx) as [Eg|Ng].
    + assert (Hu := Hx (b - r) ltac:(unfold d; lra)). destruct (Rle_lt_dec r b) as [Hrb|Hrb].
      * pose proof (Hpos (b - r) ltac:(lra)). pose proof (Hxs (b - r) ltac:(unfold d; lra)).
        apply (Hin _ 2%Z ((b - r) / d)); [lra|lia|lra|left; lra|exact Hc0|].
        unfold sector. cbn [Z.eqb Pos.eqb]. rewrite Rmult_minus_distr_l, Hmul. unfold d in *. apply triple; nra.
      * pose proof (Hneg (b - r) ltac:(lra)).
        apply (Hin _ 1%Z (1 + (b - r) / d)); [lra|lia|lra|left; lra|exact Hc0|].
        unfold sector. cbn [Z.eqb Pos.eqb]. rewrite Rmult_plus_distr_l, Hmul. unfold d in *. apply triple; nra.
    + destruct (Req_EM_T r mx) as [Er|Nr]; [|exfalso; tauto].
      destruct (Rle_lt_dec b g) as [Hbg|Hbg].
      * pose proof (Hpos (g - b) ltac:(lra)). pose proof (Hxs (g - b) ltac:(unfold d; lra)).
        apply (Hin _ 0%Z ((g - b) / d)); [lra|lia|lra|left; lra|exact Hc0|].
        unfold sector. cbn [Z.eqb Pos.eqb]. rewrite Rmult_minus_distr_l, Hmul. unfold d in *. apply triple; nra.
      * pose proof (Hneg (g - b) ltac:(lra)). pose proof (Hxs' (g - b) ltac:(unfold d; lra)).
        apply (Hin _ 5%Z (1 + (g - b) / d)); [lra|lia|lra|right; split; lra|exact Hc0|].
        unfold sector. cbn [Z.eqb Pos.eqb]. rewrite Rmult_plus_distr_l, Hmul. unfold d in *. apply triple; nra.
Qed.
Print Assumptions c99_resaturate.
(** More saturation than there is raises an error. *)
Theorem c99_oversaturated r g b k : unit_rgb (r, g, b) -> value (r, g, b) < k * (value (r, g, b) - darkest (r, g, b)) -> 0 < value (r, g, b) ->
  resaturate (r, g, b) k = Err ValueError.
Proof.
  intros _ H Hv. unfold resaturate, rgb_to_hsv. cbn [value darkest] in *. set (mx := Rmax (Rmax r g) b) in *. set (mn := Rmin (Rmin r g) b) in *.
  destruct (Rlt_dec 0 mx); [|lra]. assert (1 < (mx - mn) / mx * k).
  { apply (Rmult_lt_reg_l mx); [exact Hv|]. replace (mx * ((mx - mn) / mx * k)) with (k * (mx - mn)) by (field; lra). lra. }
  unfold hsv_to_rgb. destruct (Rlt_dec _ 0); [reflexivity|]. destruct (Rlt_dec 1 _); [reflexivity|]. destruct (Rlt_dec _ 0); [reflexivity|].
  destruct (Rlt_dec 1 _); [reflexivity|lra].
Qed.
Print Assumptions c99_oversaturated.

(** ** Example *)
Example c99_example :
  select_plots (fun k => String.eqb k "fft") [("beat", 1); ("fft", 2); ("emd", 3)]%nat%string = [("fft", 2%nat)]%string /\
  moving [1; 3; -2; -1; -4] /\ unit_rgb (1, 1 / 2, 0) /\ resaturate (1, 1 / 2, 0) (1 / 2) = Ok (1, 3 / 4, 1 / 2) /\
  (exists p, subplots (3, 2)%nat 2 1 true (6, 4) (ShareBool true) (ShareStr "row") = Ok p /\ pn_rows p = 2%nat /\ pn_sharey p = ShareStr "col") /\
  transform (fun t => RtoC (1 * exp (- 2 * t / 2) * cos (2 * PI * 0 * t - 0))) 0 (RtoC 1).
Proof.
  split; [reflexivity|]. split; [|split; [|split; [|split]]].
  - intros [|[|[|[|i]]]] Hi; cbn in *; try lra. lia.
  - cbn. lra.
  - assert (E1 : Rmax (Rmax 1 (1 / 2)) 0 = 1) by (unfold Rmax; repeat destruct (Rle_dec _ _); lra).
    assert (E2 : Rmin (Rmin 1 (1 / 2)) 0 = 0) by (unfold Rmin; repeat destruct (Rle_dec _ _); lra).
    rewrite c99_resaturate; cbn; rewrite ?E1, ?E2; try lra. f_equal. apply triple; lra.
  - eexists. split; [reflexivity|]. split; reflexivity.
  - destruct (c99_cos_ft 0 0 1 2 0 ltac:(lra)) as [H _]. replace (RtoC 1) with (cos_ft 0 0 1 2 0 false); [exact H|].
    unfold cos_ft. rewrite !exp_ft_eq by lra. unfold cis. rewrite Ropp_0, cos_0, sin_0. unfold RtoC, Cmult, Cplus. cbn [fst snd].
    rewrite Rminus_0_r, Rplus_0_r, Rmult_0_r. apply injective_projections; cbn [fst snd]; field.
Qed.
Print Assumptions c99_example.
