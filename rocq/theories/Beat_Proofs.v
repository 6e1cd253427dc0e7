(** Proofs about the beat model. *)
From Coquelicot Require Import Coquelicot.
From Coq Require Import List Bool ZArith Reals Lra Lia.
Import ListNotations.
From Verif Require Import Base Py PyLemmas ListLemmas RLists Np_Model Dsp_Model Dsp_Proofs Sample_Model Beat_Model.
Local Open Scope R_scope.

(** ** Values at a time *)
Definition foc_at (x : foc) : R -> R := match x with FConst r => fun _ => r | FFun g => g end.
Definition amp_at (a : amp) : R -> R := foc_at (amp_foc a).

Definition is_num (x : foc) : bool := match x with FConst _ => true | _ => false end.
(** A number first and a function second do not work (see [vsemi]). *)
Definition fits (x y : foc) : bool := negb (is_num x && negb (is_num y)).
Definition beat_fits (b : beat) : bool :=
  fits (amp_foc (b_a0 b)) (amp_foc (b_a1 b)) && fits (b_f0 b) (b_f1 b) && fits (b_p0 b) (b_p1 b).

(** [v] holds the values of [g] at the times [ts]. *)
Definition rep (ts : list R) (v : val) (g : R -> R) : Prop :=
  match v with Arr l => l = map g ts | Num c => forall t, In t ts -> g t = c end.
Definition is_arr (v : val) : bool := match v with Arr _ => true | _ => false end.

Lemma rep_vmap : forall ts v g f, rep ts v g -> rep ts (vmap f v) (fun t => f (g t)).
Proof.
  intros ts [c|l] g f H; simpl in *.
  - intros t Ht. now rewrite H.
  - subst. now rewrite map_map.
Qed.
Lemma arr_vmap : forall f v, is_arr (vmap f v) = is_arr v.
Proof. intros f [c|l]; reflexivity. Qed.

Lemma map2_map : forall A (op : R -> R -> R) (g h : A -> R) ts,
  map2 op (map g ts) (map h ts) = map (fun t => op (g t) (h t)) ts.
Proof. intros. unfold map2. induction ts; simpl; [reflexivity|]. now f_equal. Qed.

Lemma rep_vbin : forall ts op v w g h, rep ts v g -> rep ts w h ->
  exists u, vbin op v w = Ok u /\ rep ts u (fun t => op (g t) (h t)) /\
            is_arr u = is_arr v || is_arr w.
Proof.
  intros ts op [c|l] [d|m] g h Hv Hw; simpl in Hv, Hw; simpl vbin.
  - eexists. split; [reflexivity|]. split; [|reflexivity]. intros t Ht. now rewrite Hv, Hw.
  - eexists. split; [reflexivity|]. split; [|reflexivity]. subst m. simpl. rewrite map_map.
    apply map_ext_in. intros t Ht. now rewrite Hv.
  - eexists. split; [reflexivity|]. split; [|reflexivity]. subst l. simpl. rewrite map_map.
    apply map_ext_in. intros t Ht. now rewrite Hw.
  - subst. rewrite !map_length, Nat.eqb_refl. eexists. split; [reflexivity|].
    split; [|reflexivity]. simpl. apply map2_map.
Qed.

Lemma rep_foc : forall ts x, rep ts (float_or_call x (Arr ts)) (foc_at x).
Proof. intros ts [c|g]; simpl; auto. Qed.

Lemma rep_semi : forall ts op x y, fits x y = true ->
  exists u, vsemi op (float_or_call x (Arr ts)) (float_or_call y (Arr ts)) = Ok u /\
    rep ts u (fun t => op (foc_at x t) (foc_at y t) / 2).
Proof.
  intros ts op x y H.
  destruct (rep_vbin ts op _ _ _ _ (rep_foc ts x) (rep_foc ts y)) as (v & V1 & V2 & _).
  exists (vmap (fun s => s / 2) v). split.
  - unfold vsemi. destruct x as [c|g]; destruct y as [d|h]; try discriminate H;
      simpl float_or_call in *; rewrite V1; reflexivity.
  - apply (rep_vmap ts v _ (fun s => s / 2)) in V2. exact V2.
Qed.

(** ** Formulas *)
Section Formulas.
Variables A0 A1 D0 D1 F0 F1 P0 P1 : R -> R.

Definition th (t : R) : R := 2 * PI * ((F0 t - F1 t) / 2) * t + (P0 t - P1 t) / 2.
Definition ao (t : R) : R := (A0 t + A1 t) / 2.
Definition ah (t : R) : R := (A0 t - A1 t) / 2.
Definition al (t : R) : R := (Rsqr (ao t) - Rsqr (ah t)) * Rsqr (cos (th t)) + Rsqr (ah t).
Definition am_f (t : R) : R := sqrt (al t) * 2.
Definition g_f (t : R) : R := (D0 t * A1 t - D1 t * A0 t) * sin (th t * 2) * (1 / 4).
Definition fm_f (t : R) : R :=
  (ao t * ah t * (2 * PI * ((F0 t - F1 t) / 2)) + g_f t) / al t + 2 * PI * ((F0 t + F1 t) / 2).
Definition ip_f (t : R) : R :=
  (P0 t + P1 t) / 2 +
  atan2 (ah 0 * sin ((P0 t - P1 t) / 2)) (ao 0 * cos ((P0 t - P1 t) / 2)).

(** The two partials: phase, real and imaginary part of the sum. *)
Definition ph0 (t : R) : R := 2 * PI * F0 t * t + P0 t.
Definition ph1 (t : R) : R := 2 * PI * F1 t * t + P1 t.
Definition re (t : R) : R := A0 t * cos (ph0 t) + A1 t * cos (ph1 t).
Definition im (t : R) : R := A0 t * sin (ph0 t) + A1 t * sin (ph1 t).
End Formulas.

Definition dt_at (a : amp) : R -> R :=
  match a with AFun _ (Some d) => d | _ => fun _ => 0 end.

Ltac repof ts v :=
  lazymatch v with
  | vmap ?f ?u => let H := repof ts u in constr:(rep_vmap ts u _ f H)
  | float_or_call ?x (Arr ts) => constr:(rep_foc ts x)
  | _ => match goal with H : rep ts v _ |- _ => constr:(H) end
  end.
Ltac rbin ts :=
  match goal with |- context [vbin ?op ?v ?w] =>
    let H1 := repof ts v in let H2 := repof ts w in
    let u := fresh "u" in let E := fresh "E" in let R := fresh "HR" in let K := fresh "HK" in
    destruct (rep_vbin ts op v w _ _ H1 H2) as (u & E & R & K);
    rewrite E; cbn [bind] end.

Section Nodes.
Variable b : beat.
Variable ts : list R.
Hypothesis Hb : beat_fits b = true.
Hypothesis Hd : beat_init b = Ok b.

Let A0 := amp_at (b_a0 b). Let A1 := amp_at (b_a1 b).
Let D0 := dt_at (b_a0 b). Let D1 := dt_at (b_a1 b).
Let F0 := foc_at (b_f0 b). Let F1 := foc_at (b_f1 b).
Let P0 := foc_at (b_p0 b). Let P1 := foc_at (b_p1 b).

Lemma fits_parts : fits (amp_foc (b_a0 b)) (amp_foc (b_a1 b)) = true /\
  fits (b_f0 b) (b_f1 b) = true /\ fits (b_p0 b) (b_p1 b) = true.
Proof. unfold beat_fits in Hb. rewrite !andb_true_iff in Hb. tauto. Qed.

Lemma n_phase_ok : exists v, n_phase b (Arr ts) = Ok v /\ rep ts v (th F0 F1 P0 P1) /\ is_arr v = true.
Proof.
  destruct fits_parts as (_ & HF & HP). unfold n_phase, n_w_hat, n_f_hat, n_p_hat, n_f0, n_f1, n_p0, n_p1.
  destruct (rep_semi ts Rminus _ _ HF) as (f & Ef & Rf). unfold vsemidiff. rewrite Ef. cbn [bind].
  assert (Rt : rep ts (Arr ts) (fun t => t)) by (simpl; now rewrite map_id).
  rbin ts. destruct (rep_semi ts Rminus _ _ HP) as (p & Ep & Rp). rewrite Ep. cbn [bind].
  rbin ts. exists u0. split; [reflexivity|]. split; [exact HR0|]. rewrite HK0, HK. simpl.
  rewrite orb_true_r. reflexivity.
Qed.

Lemma n_alpha2_ok : exists v, n_alpha2 b (Arr ts) = Ok v /\ rep ts v (al A0 A1 F0 F1 P0 P1) /\ is_arr v = true.
Proof.
  destruct fits_parts as (HA & _ & _). unfold n_alpha2, n_a_oln, n_a_hat, n_a0, n_a1, vsemisum, vsemidiff.
  destruct (rep_semi ts Rplus _ _ HA) as (o & Eo & Ro). rewrite Eo. cbn [bind].
  destruct (rep_semi ts Rminus _ _ HA) as (h & Eh & Rh). rewrite Eh. cbn [bind]. cbv zeta.
  destruct n_phase_ok as (p & -> & Rp & Kp). cbn [bind].
  rbin ts. rbin ts. rbin ts.
  eexists. split; [reflexivity|]. split; [exact HR1|]. rewrite HK1, HK0, !arr_vmap, Kp.
  rewrite orb_true_r. reflexivity.
Qed.

Lemma arr_eq : forall v g, rep ts v g -> is_arr v = true -> v = Arr (map g ts).
Proof. intros [c|l] g H K; [discriminate|]. simpl in H. now subst. Qed.

Lemma n_am_ok : n_am b (Arr ts) = Ok (Arr (map (am_f A0 A1 F0 F1 P0 P1) ts)).
Proof.
  unfold n_am. destruct n_alpha2_ok as (v & -> & R & K). cbn [bind]. f_equal.
  apply arr_eq; [|now rewrite !arr_vmap].
  apply (rep_vmap ts _ (fun t => sqrt (al A0 A1 F0 F1 P0 P1 t)) (fun v => v * 2)).
  apply rep_vmap. exact R.
Qed.

Lemma n_da_ok : exists d0 d1, n_da0 b (Arr ts) = Ok d0 /\ n_da1 b (Arr ts) = Ok d1 /\
  rep ts d0 D0 /\ rep ts d1 D1.
Proof.
  unfold n_da0, n_da1, D0, D1, beat_init in *.
  destruct (b_a0 b) as [c|g [d|]]; destruct (b_a1 b) as [c'|g' [d'|]]; try discriminate Hd;
    cbn [amp_dt bind]; eexists _, _; (split; [reflexivity|]); (split; [reflexivity|]);
    split; simpl; auto.
Qed.

Lemma n_g_ok : exists v, n_g b (Arr ts) = Ok v /\ rep ts v (g_f A0 A1 D0 D1 F0 F1 P0 P1) /\ is_arr v = true.
Proof.
  unfold n_g. destruct n_da_ok as (d0 & d1 & -> & -> & R0 & R1). cbn [bind]. unfold n_a0, n_a1.
  rbin ts. rbin ts. rbin ts.
  destruct n_phase_ok as (p & -> & Rp & Kp). cbn [bind]. cbv zeta.
  assert (Rp2 : rep ts (vmap sin (vmap (fun v => v * 2) p)) (fun t => sin (th F0 F1 P0 P1 t * 2)))
    by (apply rep_vmap, (rep_vmap ts p _ (fun v => v * 2)); exact Rp).
  rbin ts. eexists. split; [reflexivity|]. split.
  - apply (rep_vmap ts _ _ (fun v => v * (1 / 4))) in HR2. exact HR2.
  - rewrite arr_vmap, HK2, !arr_vmap, Kp. apply orb_true_r.
Qed.

Lemma n_fm_ok : n_fm b (Arr ts) = Ok (Arr (map (fm_f A0 A1 D0 D1 F0 F1 P0 P1) ts)).
Proof.
  destruct fits_parts as (HA & HF & _).
  unfold n_fm, n_a_oln, n_a_hat, n_a0, n_a1, vsemisum, vsemidiff, n_w_hat, n_w_oln, n_f_hat, n_f_oln, n_f0, n_f1.
  destruct (rep_semi ts Rplus _ _ HA) as (o & Eo & Ro). rewrite Eo. cbn [bind].
  destruct (rep_semi ts Rminus _ _ HA) as (h & Eh & Rh). rewrite Eh. cbn [bind].
  rbin ts.
  destruct (rep_semi ts Rminus _ _ HF) as (f & Ef & Rf). unfold vsemidiff. rewrite Ef. cbn [bind].
  rbin ts. destruct n_g_ok as (g & -> & Rg & Kg). cbn [bind].
  rbin ts. destruct n_alpha2_ok as (v & -> & Rv & Kv). cbn [bind]. rbin ts.
  destruct (rep_semi ts Rplus _ _ HF) as (f' & Ef' & Rf'). unfold vsemisum. rewrite Ef'. cbn [bind].
  rbin ts. f_equal. apply arr_eq; [exact HR3|]. rewrite HK3, HK2, Kv, orb_true_r. reflexivity.
Qed.

Lemma semi_at0 : forall op x y, fits x y = true ->
  vsemi op (float_or_call x (Num 0)) (float_or_call y (Num 0)) = Ok (Num (op (foc_at x 0) (foc_at y 0) / 2)).
Proof. intros op [c|g] [d|h] H; reflexivity. Qed.

Lemma n_ip_ok : exists v, n_init_phase b (Arr ts) = Ok v /\ rep ts v (ip_f A0 A1 P0 P1).
Proof.
  destruct fits_parts as (HA & _ & HP).
  unfold n_init_phase, n_a_oln, n_a_hat, n_a0, n_a1, n_p_hat, n_p_oln, n_p0, n_p1, vsemisum, vsemidiff.
  rewrite !semi_at0 by exact HA. cbn [bind].
  destruct (rep_semi ts Rminus _ _ HP) as (h & Eh & Rh). rewrite Eh. cbn [bind].
  assert (N : forall c, rep ts (Num c) (fun _ => c)) by (simpl; auto).
  destruct (rep_vbin ts Rmult (Num ((foc_at (amp_foc (b_a0 b)) 0 - foc_at (amp_foc (b_a1 b)) 0) / 2))
    (vmap sin h) _ _ (N _) (rep_vmap _ _ _ sin Rh)) as (y & Ey & Ry & _).
  rewrite Ey. cbn [bind].
  destruct (rep_vbin ts Rmult (Num ((foc_at (amp_foc (b_a0 b)) 0 + foc_at (amp_foc (b_a1 b)) 0) / 2))
    (vmap cos h) _ _ (N _) (rep_vmap _ _ _ cos Rh)) as (x & Ex & Rx & _).
  rewrite Ex. cbn [bind].
  destruct (rep_semi ts Rplus _ _ HP) as (o & Eo & Ro). rewrite Eo. cbn [bind].
  rbin ts. rbin ts. eexists. split; [reflexivity|]. exact HR0.
Qed.

Lemma cumtrapz_from_length : forall ys xs acc y x, List.length ys = List.length xs ->
  List.length (cumtrapz_from acc y x ys xs) = List.length xs.
Proof.
  induction ys as [|y' ys IH]; intros [|x' xs] acc y x H; simpl in *; try lia.
  rewrite IH; lia.
Qed.
Lemma cumtrapz_length : forall ys xs, List.length ys = List.length xs -> xs <> [] ->
  List.length (cumtrapz ys xs) = List.length xs.
Proof.
  intros [|y ys] [|x xs] H N; simpl in *; try lia; try congruence. rewrite cumtrapz_from_length; lia.
Qed.

Definition pm_list : list R :=
  map2 Rplus (cumtrapz (map (fm_f A0 A1 D0 D1 F0 F1 P0 P1) ts) ts) (map (ip_f A0 A1 P0 P1) ts).

Lemma n_pm_ok : ts <> [] -> n_pm b (Arr ts) = Ok (Arr pm_list).
Proof.
  intro Hne. unfold n_pm. rewrite n_fm_ok. cbn [bind vcumtrapz]. rewrite map_length, Nat.eqb_refl. cbn [bind].
  destruct n_ip_ok as (v & -> & Rv). cbn [bind].
  assert (L : List.length (cumtrapz (map (fm_f A0 A1 D0 D1 F0 F1 P0 P1) ts) ts) = List.length ts)
    by (apply cumtrapz_length; [now rewrite map_length|auto]).
  destruct v as [c|l]; simpl in Rv |- *.
  - unfold pm_list. f_equal. f_equal.
    assert (E : map (ip_f A0 A1 P0 P1) ts = repeat c (List.length ts)).
    { clear - Rv. induction ts as [|t l IH]; [reflexivity|]. simpl. rewrite Rv by (simpl; auto).
      f_equal. apply IH. intros; apply Rv; simpl; auto. }
    rewrite E, <- L. generalize (cumtrapz (map (fm_f A0 A1 D0 D1 F0 F1 P0 P1) ts) ts). clear.
    unfold map2. induction l; simpl; [reflexivity|]. now f_equal.
  - subst l. rewrite L, map_length, Nat.eqb_refl. reflexivity.
Qed.

Lemma n_x_ok : ts <> [] -> n_x b (Arr ts) =
  Ok (Arr (map2 Rmult (map (am_f A0 A1 F0 F1 P0 P1) ts) (map cos pm_list))).
Proof.
  intro Hne. unfold n_x. rewrite n_am_ok, n_pm_ok by auto. cbn [bind vmap vbin].
  unfold pm_list at 1. rewrite !map_length. unfold map2 at 1. rewrite map_length, combine_length, map_length.
  rewrite cumtrapz_length by (rewrite ?map_length; auto). rewrite Nat.min_id, Nat.eqb_refl. reflexivity.
Qed.
End Nodes.

(** ** Duality *)
Section Dual.
Variables A0 A1 D0 D1 F0 F1 P0 P1 : R -> R.

Lemma al_modulus : forall t, 4 * al A0 A1 F0 F1 P0 P1 t =
  Rsqr (re A0 A1 F0 F1 P0 P1 t) + Rsqr (im A0 A1 F0 F1 P0 P1 t).
Proof.
  intro t. unfold al, re, im, ao, ah.
  assert (E : 2 * th F0 F1 P0 P1 t = ph0 F0 P0 t - ph1 F1 P1 t) by (unfold th, ph0, ph1; field).
  assert (C : cos (ph0 F0 P0 t - ph1 F1 P1 t) = 2 * Rsqr (cos (th F0 F1 P0 P1 t)) - 1).
  { rewrite <- E. unfold Rsqr. rewrite cos_2a_cos. ring. }
  rewrite cos_minus in C.
  pose proof (sin2_cos2 (ph0 F0 P0 t)) as S0. pose proof (sin2_cos2 (ph1 F1 P1 t)) as S1.
  unfold Rsqr in *.
  set (c0 := cos (ph0 F0 P0 t)) in *. set (s0 := sin (ph0 F0 P0 t)) in *.
  set (c1 := cos (ph1 F1 P1 t)) in *. set (s1 := sin (ph1 F1 P1 t)) in *.
  replace ((A0 t * c0 + A1 t * c1) * (A0 t * c0 + A1 t * c1) + (A0 t * s0 + A1 t * s1) * (A0 t * s0 + A1 t * s1))
    with (A0 t * A0 t * (s0 * s0 + c0 * c0) + A1 t * A1 t * (s1 * s1 + c1 * c1) + 2 * A0 t * A1 t * (c0 * c1 + s0 * s1)) by ring.
  rewrite S0, S1, C. field.
Qed.

Lemma al_nonneg : forall t, 0 <= al A0 A1 F0 F1 P0 P1 t.
Proof.
  intro t. pose proof (al_modulus t). pose proof (Rle_0_sqr (re A0 A1 F0 F1 P0 P1 t)).
  pose proof (Rle_0_sqr (im A0 A1 F0 F1 P0 P1 t)). lra.
Qed.

Lemma am_sqr : forall t, Rsqr (am_f A0 A1 F0 F1 P0 P1 t) =
  Rsqr (re A0 A1 F0 F1 P0 P1 t) + Rsqr (im A0 A1 F0 F1 P0 P1 t).
Proof.
  intro t. rewrite <- al_modulus. unfold am_f. pose proof (sqrt_sqrt _ (al_nonneg t)). unfold Rsqr. nra.
Qed.
Lemma am_modulus : forall t, am_f A0 A1 F0 F1 P0 P1 t =
  sqrt (Rsqr (re A0 A1 F0 F1 P0 P1 t) + Rsqr (im A0 A1 F0 F1 P0 P1 t)).
Proof.
  intro t. rewrite <- am_sqr, sqrt_Rsqr; [reflexivity|]. unfold am_f.
  pose proof (sqrt_pos (al A0 A1 F0 F1 P0 P1 t)). lra.
Qed.
End Dual.

Lemma atan2_polar : forall x y, (x <> 0 \/ y <> 0) ->
  sqrt (x * x + y * y) * cos (atan2 y x) = x /\ sqrt (x * x + y * y) * sin (atan2 y x) = y.
Proof.
  intros x y H.
  assert (Hr : 0 < x * x + y * y) by nra.
  assert (Gen : forall s x, x <> 0 -> s = 1 \/ s = -1 -> 0 < s * x ->
     sqrt (x * x + y * y) * (s * cos (atan (y / x))) = x /\
     sqrt (x * x + y * y) * (s * sin (atan (y / x))) = y).
  { clear. intros s x Hx Hs Hp. rewrite cos_atan, sin_atan.
    assert (E : 1 + (y / x)² = (x * x + y * y) / (x * x)) by (unfold Rsqr; field; auto).
    rewrite E. rewrite sqrt_div by nra.
    assert (Ex : sqrt (x * x) = s * x).
    { replace (x * x) with ((s * x) * (s * x)) by (destruct Hs; subst; ring).
      apply sqrt_square. lra. }
    rewrite Ex. assert (0 < sqrt (x * x + y * y)) by (apply sqrt_lt_R0; nra).
    split; destruct Hs; subst s; field; split; lra. }
  unfold atan2. destruct (Rlt_dec 0 x) as [Hx|Hx].
  - destruct (Gen 1 x ltac:(lra) (or_introl eq_refl) ltac:(lra)) as [G1 G2].
    rewrite !Rmult_1_l in G1, G2. auto.
  - destruct (Rlt_dec x 0) as [Hx'|Hx'].
    + destruct (Gen (-1) x ltac:(lra) (or_intror eq_refl) ltac:(lra)) as [G1 G2].
      destruct (Rlt_dec y 0).
      * split.
        -- rewrite cos_minus, cos_PI, sin_PI. etransitivity; [|exact G1]. ring.
        -- rewrite sin_minus, cos_PI, sin_PI. etransitivity; [|exact G2]. ring.
      * rewrite neg_cos, neg_sin. split; [etransitivity; [|exact G1]|etransitivity; [|exact G2]]; ring.
    + assert (x = 0) by lra. subst x. replace (0 * 0 + y * y) with (y * y) by ring.
      destruct (Rlt_dec 0 y).
      * rewrite cos_PI2, sin_PI2, sqrt_square by lra. split; ring.
      * destruct (Rlt_dec y 0); [|exfalso; lra].
        rewrite cos_neg, sin_neg, cos_PI2, sin_PI2.
        replace (y * y) with ((- y) * (- y)) by ring. rewrite sqrt_square by lra. split; ring.
Qed.

(** Constant frequencies and phases. *)
Section Const.
Variables A0 A1 D0 D1 : R -> R.
Variables f0 f1 p0 p1 : R.
Let K (r : R) : R -> R := fun _ => r.
Let X := re A0 A1 (K f0) (K f1) (K p0) (K p1).
Let Y := im A0 A1 (K f0) (K f1) (K p0) (K p1).
Let AM := am_f A0 A1 (K f0) (K f1) (K p0) (K p1).
Let FM := fm_f A0 A1 D0 D1 (K f0) (K f1) (K p0) (K p1).
Let AL := al A0 A1 (K f0) (K f1) (K p0) (K p1).

Definition dX (t : R) : R :=
  D0 t * cos (2 * PI * f0 * t + p0) - A0 t * sin (2 * PI * f0 * t + p0) * (2 * PI * f0) +
  (D1 t * cos (2 * PI * f1 * t + p1) - A1 t * sin (2 * PI * f1 * t + p1) * (2 * PI * f1)).
Definition dY (t : R) : R :=
  D0 t * sin (2 * PI * f0 * t + p0) + A0 t * cos (2 * PI * f0 * t + p0) * (2 * PI * f0) +
  (D1 t * sin (2 * PI * f1 * t + p1) + A1 t * cos (2 * PI * f1 * t + p1) * (2 * PI * f1)).

Lemma X_derive : forall t : R, is_derive A0 t (D0 t) -> is_derive A1 t (D1 t) -> is_derive X t (dX t).
Proof.
  intros t H0 H1. unfold X, re, ph0, ph1, K, dX.
  auto_derive.
  - repeat split; auto; eexists; eassumption.
  - rewrite (is_derive_unique (fun x : R => A0 x) _ _ H0), (is_derive_unique (fun x : R => A1 x) _ _ H1). ring.
Qed.
Lemma Y_derive : forall t : R, is_derive A0 t (D0 t) -> is_derive A1 t (D1 t) -> is_derive Y t (dY t).
Proof.
  intros t H0 H1. unfold Y, im, ph0, ph1, K, dY.
  auto_derive.
  - repeat split; auto; eexists; eassumption.
  - rewrite (is_derive_unique (fun x : R => A0 x) _ _ H0), (is_derive_unique (fun x : R => A1 x) _ _ H1). ring.
Qed.

Lemma fm_cross : forall t, 0 < AL t -> (X t * dY t - Y t * dX t) = FM t * (4 * AL t).
Proof.
  intros t Hp. unfold FM, fm_f, g_f. fold AL.
  replace (((ao A0 A1 t * ah A0 A1 t * (2 * PI * ((K f0 t - K f1 t) / 2)) +
     (D0 t * A1 t - D1 t * A0 t) * sin (th (K f0) (K f1) (K p0) (K p1) t * 2) * (1 / 4)) / AL t +
     2 * PI * ((K f0 t + K f1 t) / 2)) * (4 * AL t))
  with ((4 * (ao A0 A1 t * ah A0 A1 t * (2 * PI * ((K f0 t - K f1 t) / 2))) +
     (D0 t * A1 t - D1 t * A0 t) * sin (th (K f0) (K f1) (K p0) (K p1) t * 2)) +
     2 * PI * ((K f0 t + K f1 t) / 2) * (4 * AL t)) by (field; lra).
  unfold AL. rewrite al_modulus. fold X Y. unfold X, Y, re, im, dX, dY, ph0, ph1, ao, ah, K.
  replace (th (fun _ => f0) (fun _ => f1) (fun _ => p0) (fun _ => p1) t * 2)
    with ((2 * PI * f0 * t + p0) - (2 * PI * f1 * t + p1)) by (unfold th; field).
  rewrite sin_minus.
  pose proof (sin2_cos2 (2 * PI * f0 * t + p0)) as S0. pose proof (sin2_cos2 (2 * PI * f1 * t + p1)) as S1.
  unfold Rsqr in *.
  set (c0 := cos (2 * PI * f0 * t + p0)) in *. set (s0 := sin (2 * PI * f0 * t + p0)) in *.
  set (c1 := cos (2 * PI * f1 * t + p1)) in *. set (s1 := sin (2 * PI * f1 * t + p1)) in *.
  set (a0 := A0 t). set (a1 := A1 t). set (d0 := D0 t). set (d1 := D1 t).
  set (w := 2 * PI). clearbody c0 s0 c1 s1 a0 a1 d0 d1 w.
  assert (E0 : s0 * s0 = 1 - c0 * c0) by lra. assert (E1 : s1 * s1 = 1 - c1 * c1) by lra.
  apply Rminus_diag_uniq. ring_simplify.
  replace (s0 ^ 2) with (1 - c0 ^ 2) by (simpl; lra). replace (s1 ^ 2) with (1 - c1 ^ 2) by (simpl; lra).
  field.
Qed.

Lemma AM_pos : forall t, 0 < AL t -> 0 < AM t.
Proof. intros t H. unfold AM, am_f. fold AL. pose proof (sqrt_lt_R0 _ H). lra. Qed.
Lemma AM_sqr : forall t, AM t * AM t = X t * X t + Y t * Y t.
Proof. intro t. pose proof (am_sqr A0 A1 (K f0) (K f1) (K p0) (K p1) t) as H. unfold Rsqr in H. exact H. Qed.
Lemma AM_sqr' : forall t, AM t * AM t = 4 * AL t.
Proof.
  intro t. rewrite AM_sqr. pose proof (al_modulus A0 A1 (K f0) (K f1) (K p0) (K p1) t) as H.
  unfold Rsqr in H. fold X Y AL in H. lra.
Qed.

Lemma AM_derive : forall t : R, is_derive A0 t (D0 t) -> is_derive A1 t (D1 t) -> 0 < AL t ->
  is_derive AM t ((X t * dX t + Y t * dY t) / AM t).
Proof.
  intros t H0 H1 Hp. pose proof (X_derive t H0 H1) as HX. pose proof (Y_derive t H0 H1) as HY.
  apply (is_derive_ext (fun s => sqrt (X s * X s + Y s * Y s))).
  { intro s. unfold AM. rewrite am_modulus. unfold Rsqr. reflexivity. }
  pose proof (AM_pos t Hp) as Ha. pose proof (AM_sqr t) as Hs.
  auto_derive.
  - repeat split; try (eexists; eassumption). nra.
  - rewrite (is_derive_unique (fun x : R => X x) _ _ HX), (is_derive_unique (fun x : R => Y x) _ _ HY).
    replace (sqrt (X t * X t + Y t * Y t)) with (AM t).
    + field. lra.
    + rewrite <- Hs. symmetry. apply sqrt_square. lra.
Qed.

(** FM is the derivative of every differentiable phase of the sum. *)
Lemma fm_is_phase_derivative : forall (t : R) (phi : R -> R) (l : R), is_derive A0 t (D0 t) -> is_derive A1 t (D1 t) ->
  0 < AL t -> is_derive phi t l ->
  locally t (fun s => AM s * cos (phi s) = X s /\ AM s * sin (phi s) = Y s) -> l = FM t.
Proof.
  intros t phi l H0 H1 Hp Hl Hloc.
  pose proof (AM_derive t H0 H1 Hp) as HA.
  set (da := (X t * dX t + Y t * dY t) / AM t) in HA.
  assert (HX : is_derive X t (da * cos (phi t) - AM t * sin (phi t) * l)).
  { apply (is_derive_ext_loc (fun s => AM s * cos (phi s))).
    - apply filter_imp with (2 := Hloc). intros s [E _]. exact E.
    - auto_derive; [repeat split; eexists; eassumption|].
      rewrite (is_derive_unique (fun x : R => AM x) _ _ HA), (is_derive_unique (fun x : R => phi x) _ _ Hl). ring. }
  assert (HY : is_derive Y t (da * sin (phi t) + AM t * cos (phi t) * l)).
  { apply (is_derive_ext_loc (fun s => AM s * sin (phi s))).
    - apply filter_imp with (2 := Hloc). intros s [_ E]. exact E.
    - auto_derive; [repeat split; eexists; eassumption|].
      rewrite (is_derive_unique (fun x : R => AM x) _ _ HA), (is_derive_unique (fun x : R => phi x) _ _ Hl). ring. }
  pose proof (is_derive_unique _ _ _ HX) as E1. rewrite (is_derive_unique _ _ _ (X_derive t H0 H1)) in E1.
  pose proof (is_derive_unique _ _ _ HY) as E2. rewrite (is_derive_unique _ _ _ (Y_derive t H0 H1)) in E2.
  destruct (locally_singleton _ _ Hloc) as [L1 L2].
  pose proof (fm_cross t Hp) as FC. rewrite E1, E2, <- L1, <- L2, <- AM_sqr' in FC.
  pose proof (AM_pos t Hp). pose proof (sin2_cos2 (phi t)) as S. unfold Rsqr in S.
  assert (AM t * AM t * l = FM t * (AM t * AM t)).
  { rewrite <- FC. replace (AM t * AM t * l) with (AM t * AM t * l * (sin (phi t) * sin (phi t) + cos (phi t) * cos (phi t))) by (rewrite S; ring). ring. }
  apply (Rmult_eq_reg_l (AM t * AM t)); nra.
Qed.

(** Initial phase. *)
Lemma init_polar : 0 < AL 0 ->
  let i := ip_f A0 A1 (K p0) (K p1) 0 in AM 0 * cos i = X 0 /\ AM 0 * sin i = Y 0.
Proof.
  intros Hp i. unfold i, ip_f, K.
  set (h := (p0 - p1) / 2). set (o := (p0 + p1) / 2).
  set (x := ao A0 A1 0 * cos h). set (y := ah A0 A1 0 * sin h).
  assert (Ex : X 0 = 2 * (x * cos o - y * sin o) /\ Y 0 = 2 * (x * sin o + y * cos o)).
  { unfold X, Y, re, im, ph0, ph1, K, x, y, ao, ah.
    replace (2 * PI * f0 * 0 + p0) with (o + h) by (unfold o, h; field).
    replace (2 * PI * f1 * 0 + p1) with (o - h) by (unfold o, h; field).
    rewrite cos_plus, cos_minus, sin_plus, sin_minus. split; field. }
  destruct Ex as [Ex Ey].
  pose proof (AM_sqr 0) as Hs. rewrite Ex, Ey in Hs.
  pose proof (sin2_cos2 o) as S. unfold Rsqr in S.
  assert (Hs' : AM 0 * AM 0 = 4 * (x * x + y * y)).
  { rewrite Hs. replace (4 * (x * x + y * y)) with (4 * (x * x + y * y) * (sin o * sin o + cos o * cos o)) by (rewrite S; ring). ring. }
  pose proof (AM_pos 0 Hp).
  assert (Hn : x <> 0 \/ y <> 0).
  { destruct (Req_dec x 0); [|auto]. destruct (Req_dec y 0); [|auto]. subst. exfalso.
    rewrite H0, H1 in Hs'. nra. }
  destruct (atan2_polar x y Hn) as [C S2].
  assert (Er : AM 0 = 2 * sqrt (x * x + y * y)).
  { assert (0 <= sqrt (x * x + y * y)) by apply sqrt_pos.
    pose proof (sqrt_sqrt (x * x + y * y) ltac:(nra)).
    assert ((AM 0 - 2 * sqrt (x * x + y * y)) * (AM 0 + 2 * sqrt (x * x + y * y)) = 0) by nra.
    apply Rmult_integral in H2. destruct H2; lra. }
  rewrite Ex, Ey, Er, cos_plus, sin_plus. split.
  - replace (2 * sqrt (x * x + y * y) * (cos o * cos (atan2 y x) - sin o * sin (atan2 y x)))
      with (2 * (cos o * (sqrt (x * x + y * y) * cos (atan2 y x)) - sin o * (sqrt (x * x + y * y) * sin (atan2 y x)))) by ring.
    rewrite C, S2. ring.
  - replace (2 * sqrt (x * x + y * y) * (sin o * cos (atan2 y x) + cos o * sin (atan2 y x)))
      with (2 * (sin o * (sqrt (x * x + y * y) * cos (atan2 y x)) + cos o * (sqrt (x * x + y * y) * sin (atan2 y x)))) by ring.
    rewrite C, S2. ring.
Qed.

(** Zero derivative: constant. *)
Lemma const_on : forall (q : R -> R) T, 0 <= T -> (forall t : R, 0 <= t <= T -> is_derive q t 0) -> q T = q 0.
Proof.
  intros q T HT Hq. destruct (Req_dec T 0) as [->|]; [reflexivity|].
  destruct (MVT_gen q 0 T (fun _ => 0)) as (c & _ & E).
  - intros x Hx. rewrite Rmin_left, Rmax_right in Hx by lra. apply Hq. lra.
  - intros x Hx. rewrite Rmin_left, Rmax_right in Hx by lra.
    apply continuity_pt_filterlim. apply @ex_derive_continuous. exists 0. apply Hq. lra.
  - lra.
Qed.

(** The phase obtained by exact integration is a phase of the sum. *)
Lemma duality : forall (phi : R -> R) (T : R), 0 <= T ->
  (forall t : R, 0 <= t <= T -> is_derive A0 t (D0 t)) -> (forall t : R, 0 <= t <= T -> is_derive A1 t (D1 t)) ->
  (forall t : R, 0 <= t <= T -> 0 < AL t) ->
  phi 0 = ip_f A0 A1 (K p0) (K p1) 0 -> (forall t : R, 0 <= t <= T -> is_derive phi t (FM t)) ->
  AM T * cos (phi T) = X T /\ AM T * sin (phi T) = Y T.
Proof.
  intros phi T HT H0 H1 Hp Hi Hphi.
  destruct (init_polar (Hp 0 ltac:(lra))) as [I1 I2]. cbv zeta in I1, I2. rewrite <- Hi in I1, I2.
  pose (q := fun t => X t / AM t * cos (phi t) + Y t / AM t * sin (phi t)).
  pose (r := fun t => Y t / AM t * cos (phi t) - X t / AM t * sin (phi t)).
  assert (D : forall t : R, 0 <= t <= T -> is_derive q t 0 /\ is_derive r t 0).
  { intros t Ht. specialize (H0 t Ht). specialize (H1 t Ht). specialize (Hp t Ht). specialize (Hphi t Ht).
    pose proof (X_derive t H0 H1) as HX. pose proof (Y_derive t H0 H1) as HY.
    pose proof (AM_derive t H0 H1 Hp) as HA. pose proof (AM_pos t Hp) as Ha.
    pose proof (AM_sqr t) as Hs. pose proof (fm_cross t Hp) as FC. rewrite <- AM_sqr' in FC.
    assert (EF : FM t = (X t * dY t - Y t * dX t) / (AM t * AM t)) by (rewrite FC; field; lra).
    assert (Hm3 : AM t * AM t * AM t <> 0) by (apply Rgt_not_eq, Rmult_lt_0_compat; [apply Rmult_lt_0_compat|]; exact Ha).
    set (m := AM t) in *. set (x := X t) in *. set (y := Y t) in *. set (x' := dX t) in *. set (y' := dY t) in *.
    (* derivative of the unit vector *)
    assert (Hu : x' / m - x * ((x * x' + y * y') / m) / (m * m) = - (y / m) * FM t).
    { rewrite EF. apply (Rmult_eq_reg_r (m * m * m)); [|exact Hm3].
      replace ((x' / m - x * ((x * x' + y * y') / m) / (m * m)) * (m * m * m))
        with (x' * (m * m) - x * (x * x' + y * y')) by (field; lra).
      replace (- (y / m) * ((x * y' - y * x') / (m * m)) * (m * m * m)) with (- y * (x * y' - y * x')) by (field; lra).
      rewrite Hs. ring. }
    assert (Hv : y' / m - y * ((x * x' + y * y') / m) / (m * m) = (x / m) * FM t).
    { rewrite EF. apply (Rmult_eq_reg_r (m * m * m)); [|exact Hm3].
      replace ((y' / m - y * ((x * x' + y * y') / m) / (m * m)) * (m * m * m))
        with (y' * (m * m) - y * (x * x' + y * y')) by (field; lra).
      replace ((x / m) * ((x * y' - y * x') / (m * m)) * (m * m * m)) with (x * (x * y' - y * x')) by (field; lra).
      rewrite Hs. ring. }
    assert (HU : is_derive (fun s => X s / AM s) t (- (y / m) * FM t)).
    { rewrite <- Hu. auto_derive; [repeat split; try (eexists; eassumption); fold m; lra|].
      rewrite (is_derive_unique (fun x : R => X x) _ _ HX), (is_derive_unique (fun x : R => AM x) _ _ HA). fold m x y x' y'. field. lra. }
    assert (HV : is_derive (fun s => Y s / AM s) t ((x / m) * FM t)).
    { rewrite <- Hv. auto_derive; [repeat split; try (eexists; eassumption); fold m; lra|].
      rewrite (is_derive_unique (fun x : R => Y x) _ _ HY), (is_derive_unique (fun x : R => AM x) _ _ HA). fold m x y x' y'. field. lra. }
    set (U := fun s => X s / AM s) in *. set (V := fun s => Y s / AM s) in *.
    split.
    - apply (is_derive_ext (fun s => U s * cos (phi s) + V s * sin (phi s))); [reflexivity|].
      auto_derive; [repeat split; eexists; eassumption|].
      rewrite (is_derive_unique (fun x : R => U x) _ _ HU), (is_derive_unique (fun x : R => V x) _ _ HV), (is_derive_unique (fun x : R => phi x) _ _ Hphi).
      unfold U, V. fold m x y. ring.
    - apply (is_derive_ext (fun s => V s * cos (phi s) - U s * sin (phi s))); [reflexivity|].
      auto_derive; [repeat split; eexists; eassumption|].
      rewrite (is_derive_unique (fun x : R => U x) _ _ HU), (is_derive_unique (fun x : R => V x) _ _ HV), (is_derive_unique (fun x : R => phi x) _ _ Hphi).
      unfold U, V. fold m x y. ring. }
  assert (Q : q T = 1).
  { rewrite (const_on q T HT) by (intros t Ht; apply D; auto). unfold q. rewrite <- I1, <- I2.
    pose proof (AM_pos 0 (Hp 0 ltac:(lra))). pose proof (sin2_cos2 (phi 0)) as S. unfold Rsqr in S.
    replace (AM 0 * cos (phi 0) / AM 0 * cos (phi 0) + AM 0 * sin (phi 0) / AM 0 * sin (phi 0))
      with (sin (phi 0) * sin (phi 0) + cos (phi 0) * cos (phi 0)) by (field; lra). exact S. }
  assert (Z : r T = 0).
  { rewrite (const_on r T HT) by (intros t Ht; apply D; auto). unfold r. rewrite <- I1, <- I2.
    pose proof (AM_pos 0 (Hp 0 ltac:(lra))). field. lra. }
  pose proof (AM_pos T (Hp T ltac:(lra))) as Ha. unfold q, r in Q, Z.
  pose proof (sin2_cos2 (phi T)) as S. unfold Rsqr in S.
  set (c := cos (phi T)) in *. set (s := sin (phi T)) in *.
  assert (E1 : X T / AM T = c).
  { replace (X T / AM T) with (c * (X T / AM T * c + Y T / AM T * s) - s * (Y T / AM T * c - X T / AM T * s)).
    - rewrite Q, Z. ring.
    - replace (c * (X T / AM T * c + Y T / AM T * s) - s * (Y T / AM T * c - X T / AM T * s))
        with (X T / AM T * (s * s + c * c)) by (field; lra). rewrite S. ring. }
  assert (E2 : Y T / AM T = s).
  { replace (Y T / AM T) with (s * (X T / AM T * c + Y T / AM T * s) + c * (Y T / AM T * c - X T / AM T * s)).
    - rewrite Q, Z. ring.
    - replace (s * (X T / AM T * c + Y T / AM T * s) + c * (Y T / AM T * c - X T / AM T * s))
        with (Y T / AM T * (s * s + c * c)) by (field; lra). rewrite S. ring. }
  rewrite <- E1, <- E2. split; field; lra.
Qed.
End Const.
