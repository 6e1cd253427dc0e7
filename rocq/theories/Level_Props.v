(** C112: normalization in double precision. *)
From Coq Require Import String ZArith Reals Lra Lia Bool List Permutation.
From Flocq Require Import Core IEEE754.BinarySingleNaN.
Import ListNotations.
From Verif Require Import Base ListLemmas RLists Double_Model Double_Float Peak_Model Peak_Round Peak_Accuracy
  Peak_Proofs Clock_Model Clock_Proofs Synth_Proofs Level_Model Level_Proofs.
Local Open Scope R_scope.

Lemma Forall2_map_r : forall {A B : Type} (P : A -> B -> Prop) (g : A -> B) l, (forall a, In a l -> P a (g a)) -> Forall2 P l (map g l).
Proof. intros A B P g l. induction l as [|a l IH]; intros H; constructor; [apply H; now left|apply IH; intros; apply H; now right]. Qed.
Lemma combine_map : forall {A B : Type} (g : A -> B) l p, In p (combine l (map g l)) -> In (fst p) l /\ snd p = g (fst p).
Proof.
  intros A B g l. induction l as [|a l IH]; intros p H; [destruct H|]. destruct H as [<-|H]; [cbn; auto|].
  destruct (IH p H). split; [now right|assumption].
Qed.
Lemma one_le : 1 <= bpow radix2 1023.
Proof. change 1 with (bpow radix2 0). apply bpow_le. lia. Qed.
Lemma fmt_1 : fmt 1.
Proof. change 1 with (bpow radix2 0). apply fmt_bpow. lia. Qed.
(** The quotient of a number by another that is at least as large. *)
Lemma div_small : forall x m : f64_num, finite x -> 0 < val m -> Rabs (val x) <= val m ->
  finite (fdiv x m) /\ val (fdiv x m) = rnd (val x / val m) /\ Rabs (val (fdiv x m)) <= 1 /\ Rabs (val x / val m) <= 1.
Proof.
  intros x m F P L. assert (Q : Rabs (val x / val m) <= 1).
  { unfold Rdiv. rewrite Rabs_mult, (Rabs_pos_eq (/ val m)) by (left; now apply Rinv_0_lt_compat).
    apply Rmult_le_reg_r with (val m); [exact P|]. rewrite Rmult_assoc, Rinv_l by lra. lra. }
  destruct (fdiv_val x m F ltac:(lra)) as [G V]; [pose proof one_le; lra|]. repeat split; auto.
  rewrite V. apply rnd_abs_le; [apply fmt_1|exact Q].
Qed.

(** ** Peak *)

(** If [b] is one of the numbers of largest modulus of an array of finite numbers, and is not zero: every number is divided by this modulus, rounded
    once; results are at most 1, and exactly 1 or -1 for [b]; signs and the order stay.  Normalizing once more changes nothing. *)
Theorem c112_peak : forall x b, Forall (fun v : f64_num => finite v) x -> In b x -> val b <> 0 -> (forall v, In v x -> Rabs (val v) <= Rabs (val b)) ->
  exists y, l_peak x = Ok y /\ l_peak y = Ok y /\
  Forall2 (fun v w : f64_num => finite w /\ Rabs (val w) <= 1 /\ (Rabs (val v) = Rabs (val b) -> Rabs (val w) = 1) /\
    0 <= val v * val w /\ Rabs (val w - val v / Rabs (val b)) <= bpow radix2 (-53) * Rabs (val v / Rabs (val b)) + bpow radix2 (-1075)) x y /\
  forall p q, In p (combine x y) -> In q (combine x y) -> val (fst p) <= val (fst q) -> val (snd p) <= val (snd q).
Proof.
  intros x b FA Ib Nb MX. rewrite Forall_forall in FA.
  assert (Fa : Forall (fun v : f64_num => finite v) (map f_abs x)).
  { rewrite Forall_forall. intros v Iv. apply in_map_iff in Iv. destruct Iv as (u & <- & Iu). apply f_abs_val, FA, Iu. }
  destruct (f_max_ok (map f_abs x)) as (m & Em & Fm & Bm & u & Iu & Eu); [destruct x; [destruct Ib|discriminate]|exact Fa|].
  assert (Vm : val m = Rabs (val b)).
  { apply Rle_antisym.
    - rewrite <- Eu. apply in_map_iff in Iu. destruct Iu as (z & <- & Iz). destruct (f_abs_val z (FA z Iz)) as [_ ->]. auto.
    - destruct (f_abs_val b (FA b Ib)) as [_ <-]. apply Bm, in_map, Ib. }
  assert (Pb : 0 < Rabs (val b)) by now apply Rabs_pos_lt.
  assert (K : forall v, In v x -> finite (fdiv v m) /\ val (fdiv v m) = rnd (val v / Rabs (val b)) /\ Rabs (val (fdiv v m)) <= 1).
  { intros v Iv. destruct (div_small v m (FA v Iv) ltac:(lra)) as (A & B & C & _); [rewrite Vm; auto|]. rewrite Vm in B. auto. }
  assert (ONE : forall v, In v x -> Rabs (val v) = Rabs (val b) -> Rabs (val (fdiv v m)) = 1).
  { intros v Iv E. destruct (K v Iv) as (_ & -> & _). rewrite rnd_abs. unfold Rdiv. rewrite Rabs_mult, (Rabs_pos_eq (/ Rabs (val b))) by (left; now apply Rinv_0_lt_compat).
    rewrite E, Rinv_r by lra. apply rnd_id, fmt_1. }
  exists (map (fun v => fdiv v m) x). split; [unfold l_peak; rewrite Em; reflexivity|]. split; [|split].
  - assert (Fy : Forall (fun v : f64_num => finite v) (map f_abs (map (fun v => fdiv v m) x))).
    { rewrite Forall_forall. intros w Iw. apply in_map_iff in Iw. destruct Iw as (w' & <- & Iw). apply in_map_iff in Iw.
      destruct Iw as (v & <- & Iv). apply f_abs_val, K, Iv. }
    destruct (f_max_ok (map f_abs (map (fun v => fdiv v m) x))) as (m' & Em' & Fm' & Bm' & u' & Iu' & Eu'); [destruct x; [destruct Ib|discriminate]|exact Fy|].
    destruct (int_val 1 ltac:(lia)) as [F1 V1].
    assert (M1 : m' = f64_of 1 0).
    { apply val_inj; auto; [|rewrite V1; lra]. rewrite V1. apply Rle_antisym.
      - rewrite <- Eu'. apply in_map_iff in Iu'. destruct Iu' as (w & <- & Iw). apply in_map_iff in Iw. destruct Iw as (v & <- & Iv).
        destruct (f_abs_val _ (proj1 (K v Iv))) as [_ ->]. apply K, Iv.
      - rewrite <- (ONE b Ib eq_refl). destruct (f_abs_val _ (proj1 (K b Ib))) as [_ <-]. apply Bm'. apply in_map, in_map_iff. exists b. auto. }
    unfold l_peak. rewrite Em'. cbn [bind]. f_equal. rewrite map_map. apply map_ext_in. intros v Iv. rewrite M1.
    destruct (K v Iv) as (Fw & _ & Bw). set (w := fdiv v m) in *. destruct (Req_dec (val w) 0) as [Z|NZ].
    + destruct (zero_of w Fw Z) as [[|] ->]; reflexivity.
    + destruct (fdiv_val w (f64_of 1 0) Fw) as [G V]; [rewrite V1; lra|rewrite V1; unfold Rdiv; rewrite Rinv_1, Rmult_1_r; pose proof one_le; lra|].
      apply val_inj; auto. rewrite V, V1. unfold Rdiv. rewrite Rinv_1, Rmult_1_r. apply rnd_id, val_fmt.
  - apply Forall2_map_r. intros v Iv. destruct (K v Iv) as (A & B & C). split; [exact A|]. split; [exact C|]. split; [apply ONE, Iv|].
    split.
    + rewrite B. assert (IP : 0 < / Rabs (val b)) by now apply Rinv_0_lt_compat. destruct (Rle_lt_dec 0 (val v)) as [P|P].
      * apply Rmult_le_pos; [exact P|]. rewrite <- rnd_0. apply rnd_mono. apply Rmult_le_pos; lra.
      * assert (rnd (val v / Rabs (val b)) <= 0).
        { rewrite <- rnd_0. apply rnd_mono. unfold Rdiv. assert (0 <= - val v * / Rabs (val b)) by (apply Rmult_le_pos; lra). lra. }
        nra.
    + rewrite B. eapply Rle_trans; [apply rnd_near|]. rewrite uro_val. apply Rplus_le_compat_l.
      right. change (/ 2) with (bpow radix2 (-1)). rewrite <- bpow_plus. reflexivity.
  - intros p q Ip Iq L. apply combine_map in Ip. apply combine_map in Iq. destruct Ip as [Ip ->], Iq as [Iq ->].
    destruct (K _ Ip) as (_ & -> & _). destruct (K _ Iq) as (_ & -> & _). apply rnd_mono. unfold Rdiv. apply Rmult_le_compat_r; [|exact L].
    left. now apply Rinv_0_lt_compat.
Qed.

(** Zeros become NaN; one NaN makes everything NaN; infinities become NaN and everything else zero; nothing is a ValueError. *)
Definition is_zero (x : f64_num) : Prop := exists b, x = B754_zero b.
Definition is_inf (x : f64_num) : Prop := exists b, x = B754_infinity b.
Theorem c112_peak_special : forall x,
  (x = [] -> l_peak x = Err ValueError) /\
  (x <> [] -> Forall is_zero x -> l_peak x = Ok (map (fun _ => B754_nan) x)) /\
  (In B754_nan x -> l_peak x = Ok (map (fun _ => B754_nan) x)) /\
  (~ In B754_nan x -> Exists is_inf x -> exists y, l_peak x = Ok y /\
     Forall2 (fun v w => (is_inf v -> w = B754_nan) /\ (finite v -> is_zero w)) x y).
Proof.
  intros x. split; [intros ->; reflexivity|]. split; [|split].
  - intros N Z. assert (M : exists b, f_max (map f_abs x) = Ok (B754_zero b)).
    { destruct x as [|v x]; [congruence|]. inversion Z as [|? ? [s ->] Zx]; subst. cbn [map f_max]. change (f_abs (B754_zero s)) with (@B754_zero 53 1024 false).
      exists false. f_equal. clear Z N. induction Zx as [|w x [c ->] Zx IH]; [reflexivity|]. exact IH. }
    destruct M as [b M]. unfold l_peak. rewrite M. cbn [bind]. f_equal. apply map_ext_in. intros v Iv. rewrite Forall_forall in Z.
    destruct (Z v Iv) as [c ->]. reflexivity.
  - intros I. assert (M : f_max (map f_abs x) = Ok B754_nan).
    { destruct x as [|v x]; [destruct I|]. cbn [map f_max]. f_equal. destruct I as [->|I]; [apply max_nan_l|].
      apply max_nan. apply (in_map f_abs) in I. exact I. }
    unfold l_peak. rewrite M. cbn [bind]. f_equal. apply map_ext. intros [s|s| |s m e H]; reflexivity.
  - intros NN EX. assert (NA : ~ In B754_nan (map f_abs x)).
    { intro H. apply in_map_iff in H. destruct H as (v & E & Iv). destruct v; try discriminate E. now apply NN. }
    assert (M : f_max (map f_abs x) = Ok (B754_infinity false)).
    { assert (IA : In (B754_infinity false) (map f_abs x)).
      { apply Exists_exists in EX. destruct EX as (v & Iv & c & ->). apply (in_map f_abs) in Iv. exact Iv. }
      destruct x as [|v x]; [inversion EX|]. cbn [map] in *. cbn [f_max]. f_equal. apply max_inf.
      - destruct IA as [E|IA]; auto.
      - intro E. apply NA. now left.
      - intro H. apply NA. now right. }
    unfold l_peak. rewrite M. cbn [bind]. eexists. split; [reflexivity|]. apply Forall2_map_r. intros v Iv. split.
    + intros [c ->]. reflexivity.
    + intros F. destruct v as [s|s| |s m e H]; try discriminate F; eexists; reflexivity.
Qed.

(** ** Range *)

Lemma range_parts : forall x a b, Forall (fun v : f64_num => finite v /\ Rabs (val v) <= bpow radix2 1022) x -> In a x -> In b x ->
  (forall v, In v x -> val a <= val v <= val b) ->
  exists m n, f_min x = Ok m /\ f_max (map (fun v => fsub v m) x) = Ok n /\ finite m /\ val m = val a /\ finite n /\ val n = rnd (val b - val a) /\
  forall v, In v x -> finite (fsub v m) /\ val (fsub v m) = rnd (val v - val a).
Proof.
  intros x a b FA Ia Ib MX. rewrite Forall_forall in FA.
  destruct (f_min_ok x) as (m & Em & Fm & Bm & u & Iu & Eu); [destruct x; [destruct Ia|discriminate]|rewrite Forall_forall; intros; now apply FA|].
  assert (Vm : val m = val a) by (apply Rle_antisym; [apply Bm, Ia|rewrite <- Eu; apply MX, Iu]).
  assert (B2 : bpow radix2 1023 = 2 * bpow radix2 1022) by (change 1023%Z with (1 + 1022)%Z; rewrite bpow_plus; reflexivity).
  assert (K : forall v, In v x -> finite (fsub v m) /\ val (fsub v m) = rnd (val v - val a)).
  { intros v Iv. destruct (FA v Iv) as [Fv Bv]. destruct (FA a Ia) as [_ Ba]. rewrite <- Vm. apply fsub_val; auto. rewrite Vm, B2.
    eapply Rle_trans; [apply Rabs_triang|]. rewrite Rabs_Ropp. lra. }
  destruct (f_max_ok (map (fun v => fsub v m) x)) as (n & En & Fn & Bn & w & Iw & Ew).
  { destruct x; [destruct Ia|discriminate]. }
  { rewrite Forall_forall. intros w Iw. apply in_map_iff in Iw. destruct Iw as (v & <- & Iv). apply K, Iv. }
  exists m, n. repeat (split; [assumption|]). split; [|exact K]. apply Rle_antisym.
  - rewrite <- Ew. apply in_map_iff in Iw. destruct Iw as (v & <- & Iv). destruct (K v Iv) as [_ ->]. apply rnd_mono. destruct (MX v Iv). lra.
  - destruct (K b Ib) as [_ <-]. apply Bn. apply (in_map (fun v => fsub v m)), Ib.
Qed.

(** If [a] and [b] are the least and the greatest of an array of finite numbers up to 2^1022, and they differ: results are in [0, 1], the least becomes
    exactly 0 and the greatest exactly 1, the order stays, and every result is right up to 2^-51. *)
Theorem c112_range : forall x a b, Forall (fun v : f64_num => finite v /\ Rabs (val v) <= bpow radix2 1022) x -> In a x -> In b x ->
  (forall v, In v x -> val a <= val v <= val b) -> val a < val b ->
  exists y, l_range x = Ok y /\
  Forall2 (fun v w : f64_num => finite w /\ 0 <= val w <= 1 /\ (val v = val a -> val w = 0) /\ (val v = val b -> val w = 1) /\
    Rabs (val w - (val v - val a) / (val b - val a)) <= bpow radix2 (-51) * ((val v - val a) / (val b - val a)) + bpow radix2 (-1075)) x y /\
  forall p q, In p (combine x y) -> In q (combine x y) -> val (fst p) <= val (fst q) -> val (snd p) <= val (snd q).
Proof.
  intros x a b FA Ia Ib MX LT. destruct (range_parts x a b FA Ia Ib MX) as (m & n & Em & En & Fm & Vm & Fn & Vn & K).
  pose proof uro_pos as U. pose proof uro_small as US.
  assert (D : exists e, Rabs e <= uro /\ val n = (val b - val a) * (1 + e)) by (rewrite Vn; apply rnd_minus; apply val_fmt).
  destruct D as (e & He & De). apply Rabs_le_inv in He.
  assert (Pn : 0 < val n) by (rewrite De; apply Rmult_lt_0_compat; lra).
  assert (Q : forall v, In v x -> finite (fdiv (fsub v m) n) /\ val (fdiv (fsub v m) n) = rnd (rnd (val v - val a) / val n) /\ 0 <= rnd (val v - val a) <= val n).
  { intros v Iv. destruct (K v Iv) as [Fd Vd]. destruct (MX v Iv) as [Lo Hi].
    assert (R : 0 <= rnd (val v - val a) <= val n).
    { rewrite Vn. split; [rewrite <- rnd_0; apply rnd_mono; lra|apply rnd_mono; lra]. }
    destruct (div_small (fsub v m) n Fd Pn) as (A & B & _); [rewrite Vd, Rabs_pos_eq by lra; lra|]. rewrite Vd in B. auto. }
  exists (map (fun v => fdiv v n) (map (fun v => fsub v m) x)). split; [unfold l_range; rewrite Em; cbn [bind]; rewrite En; reflexivity|].
  rewrite map_map. split.
  - apply Forall2_map_r. intros v Iv. destruct (Q v Iv) as (A & B & R). destruct (MX v Iv) as [Lo Hi]. split; [exact A|].
    assert (IP : 0 < / val n) by now apply Rinv_0_lt_compat. rewrite B.
    assert (R1 : 0 <= rnd (val v - val a) / val n <= 1).
    { split; [apply Rmult_le_pos; lra|]. apply Rmult_le_reg_r with (val n); [exact Pn|]. unfold Rdiv. rewrite Rmult_assoc, Rinv_l by lra. lra. }
    split; [split; [rewrite <- rnd_0; apply rnd_mono; lra|apply rnd_le_fmt; [apply fmt_1|lra]]|].
    split; [|split].
    + intros ->. rewrite Rminus_diag_eq, rnd_0 by reflexivity. unfold Rdiv. rewrite Rmult_0_l. apply rnd_0.
    + intros ->. rewrite <- Vn. unfold Rdiv. rewrite Rinv_r by lra. apply rnd_id, fmt_1.
    + destruct (rnd_minus _ _ (val_fmt v) (val_fmt a)) as (e1 & He1 & E1). rewrite E1 in *. rewrite De in *. apply Rabs_le_inv in He1.
      set (t := (val v - val a) / (val b - val a)). assert (T0 : 0 <= t) by (unfold t; apply Rmult_le_pos; [lra|left; apply Rinv_0_lt_compat; lra]).
      set (g := (1 + e1) / (1 + e)).
      assert (G : (val v - val a) * (1 + e1) / ((val b - val a) * (1 + e)) = t * g) by (unfold t, g; field; lra).
      rewrite G in *. assert (GB : Rabs (g - 1) <= 5 / 2 * uro).
      { unfold g. replace ((1 + e1) / (1 + e) - 1) with ((e1 - e) / (1 + e)) by (field; lra). unfold Rdiv. rewrite Rabs_mult.
        rewrite (Rabs_pos_eq (/ (1 + e))) by (left; apply Rinv_0_lt_compat; lra).
        assert (Rabs (e1 - e) <= 2 * uro) by (apply Rabs_le; lra).
        assert (/ (1 + e) <= 5 / 4).
        { apply Rmult_le_reg_r with (1 + e); [lra|]. rewrite Rinv_l by lra. lra. }
        apply Rle_trans with (2 * uro * (5 / 4)); [|lra]. apply Rmult_le_compat; auto using Rabs_pos. left. apply Rinv_0_lt_compat. lra. }
      apply Rabs_le_inv in GB. pose proof (rnd_near (t * g)) as RN.
      replace (rnd (t * g) - t) with ((rnd (t * g) - t * g) + t * (g - 1)) by ring. eapply Rle_trans; [apply Rabs_triang|].
      assert (E51 : bpow radix2 (-51) = 4 * uro).
      { rewrite uro_val. change 4 with (bpow radix2 2). rewrite <- bpow_plus. reflexivity. }
      assert (E75 : / 2 * eta = bpow radix2 (-1075)) by (change (/ 2) with (bpow radix2 (-1)); rewrite <- bpow_plus; reflexivity).
      rewrite E51, <- E75. rewrite (Rabs_pos_eq (t * g)) in RN by lra. rewrite (Rabs_mult t), (Rabs_pos_eq t) by exact T0.
      assert (t * Rabs (g - 1) <= t * (5 / 2 * uro)) by (apply Rmult_le_compat_l; [exact T0|apply Rabs_le; lra]).
      assert (uro * (t * g) <= uro * (t * (5 / 4))) by (apply Rmult_le_compat_l; [lra|]; apply Rmult_le_compat_l; lra).
      assert (0 <= uro * t) by (apply Rmult_le_pos; lra). lra.
  - intros p q Ip Iq L. apply combine_map in Ip. apply combine_map in Iq. destruct Ip as [Ip ->], Iq as [Iq ->].
    destruct (Q _ Ip) as (_ & -> & _). destruct (Q _ Iq) as (_ & -> & _). apply rnd_mono. unfold Rdiv. apply Rmult_le_compat_r; [|apply rnd_mono; lra].
    left. now apply Rinv_0_lt_compat.
Qed.
(** Equal numbers become NaN. *)
Theorem c112_range_constant : forall x a, x <> [] -> Forall (fun v : f64_num => finite v /\ val v = a) x -> Rabs a <= bpow radix2 1022 ->
  l_range x = Ok (map (fun _ => B754_nan) x).
Proof.
  intros x a N FA B. destruct x as [|v x']; [congruence|]. set (x := v :: x') in *. pose proof FA as FA'. rewrite Forall_forall in FA'.
  assert (Iv : In v x) by now left. destruct (FA' v Iv) as [Fv Vv].
  destruct (range_parts x v v) as (m & n & Em & En & Fm & Vm & Fn & Vn & K); auto.
  { revert FA. apply Forall_impl. intros u [Fu ->]. auto. }
  { intros u Iu. destruct (FA' u Iu) as [_ ->]. rewrite Vv. lra. }
  rewrite Rminus_diag_eq, rnd_0 in Vn by reflexivity. destruct (zero_of n Fn Vn) as [c ->].
  unfold l_range. rewrite Em. cbn [bind]. rewrite En. cbn [bind]. f_equal. rewrite map_map. apply map_ext_in. intros u Iu.
  destruct (K u Iu) as [Fd Vd]. destruct (FA' u Iu) as [_ Vu]. rewrite Vu, Vv, Rminus_diag_eq, rnd_0 in Vd by reflexivity.
  destruct (zero_of _ Fd Vd) as [s ->]. reflexivity.
Qed.
(** Beyond 2^1022 the difference can overflow: the greatest becomes NaN and the one between 0. *)
Theorem c112_range_overflow_refuted : exists x y, Forall (fun v : f64_num => finite v) x /\ l_range x = Ok y /\
  nth_error y 1 = Some B754_nan /\ nth_error y 2 = Some (B754_zero false).
Proof.
  exists [f64_of (-3) 1022; f64_of 3 1022; f64_of 0 0]. eexists. split; [repeat constructor|]. split; [vm_compute; reflexivity|]. split; reflexivity.
Qed.

(** ** Mean and standard deviation *)

(** A way of adding. *)
Definition summer (S : list f64_num -> f64_num) : Prop := forall l, l <> [] -> adds l (S l).
Lemma mean_parts : forall S x B, summer S -> x <> [] -> Forall (fun v : f64_num => finite v /\ Rabs (val v) <= B) x -> 1 <= B <= bpow radix2 900 ->
  (Z.of_nat (List.length x) <= 2 ^ 50)%Z ->
  finite (S x) /\ finite (l_mean S x) /\ val (l_mean S x) = rnd (val (S x) / INR (List.length x)) /\ Rabs (val (S x)) <= 2 * (INR (List.length x) * B) /\
  Rabs (val (l_mean S x)) <= 4 * B /\ 1 <= INR (List.length x) <= bpow radix2 50 /\ asize x <= bpow radix2 1000 /\ Rabs (val (S x) / INR (List.length x)) <= 2 * B.
Proof.
  intros S x B HS N FA HB HL. assert (FF : Forall (fun v : f64_num => finite v) x) by (revert FA; apply Forall_impl; tauto).
  assert (FB : Forall (fun v : f64_num => Rabs (val v) <= B) x) by (revert FA; apply Forall_impl; tauto).
  assert (I1 : 1 <= INR (List.length x) <= bpow radix2 50).
  { split; [change 1 with (INR 1); apply le_INR; destruct x; [congruence|cbn; lia]|]. rewrite INR_IZR_INZ. apply IZR_le_bpow; lia. }
  pose proof (asize_le x B FB) as AS.
  assert (A1 : asize x <= bpow radix2 1000).
  { eapply Rle_trans; [exact AS|]. apply Rle_trans with (bpow radix2 50 * bpow radix2 900); [apply Rmult_le_compat; lra|].
    rewrite <- bpow_plus. apply bpow_le. lia. }
  destruct (adds_bound x (S x) (HS x N) FF A1 HL) as (FS & _ & BS).
  destruct (int_val (Z.of_nat (List.length x)) ltac:(lia)) as [Fn Vn]. rewrite <- INR_IZR_INZ in Vn.
  assert (BS2 : Rabs (val (S x)) <= 2 * (INR (List.length x) * B)) by lra.
  assert (Q : Rabs (val (S x) / INR (List.length x)) <= 2 * B).
  { unfold Rdiv. rewrite Rabs_mult, (Rabs_pos_eq (/ _)) by (left; apply Rinv_0_lt_compat; lra).
    apply Rmult_le_reg_r with (INR (List.length x)); [lra|]. rewrite Rmult_assoc, Rinv_l by lra. lra. }
  assert (B9 : 4 * B <= bpow radix2 1023).
  { apply Rle_trans with (bpow radix2 (2 + 900)); [rewrite bpow_plus; change (bpow radix2 2) with 4; lra|apply bpow_le; lia]. }
  destruct (fdiv_val (S x) (f64_of (Z.of_nat (List.length x)) 0) FS) as [Fm Vm]; [rewrite Vn; lra|rewrite Vn; lra|]. rewrite Vn in Vm.
  split; [exact FS|]. split; [exact Fm|]. split; [exact Vm|]. split; [exact BS2|]. split; [|split; [exact I1|split; [exact A1|exact Q]]].
  unfold l_mean. rewrite Vm. pose proof (rnd_near (val (S x) / INR (List.length x))) as RN. pose proof uro_small as US. pose proof uro_pos as UP.
  assert (EE : eta <= 1) by (change 1 with (bpow radix2 0); apply bpow_le; lia).
  set (q := val (S x) / INR (List.length x)) in *. replace (rnd q) with ((rnd q - q) + q) by ring. eapply Rle_trans; [apply Rabs_triang|].
  assert (uro * Rabs q <= / 1024 * (2 * B)) by (apply Rmult_le_compat; auto using Rabs_pos; lra). lra.
Qed.

(** In whatever order the numbers are added, their mean is right up to 2^-50 of the sum of their moduli. *)
Theorem c112_mean : forall S x B, summer S -> x <> [] -> Forall (fun v : f64_num => finite v /\ Rabs (val v) <= B) x -> 1 <= B <= bpow radix2 900 ->
  (Z.of_nat (List.length x) <= 2 ^ 50)%Z ->
  finite (l_mean S x) /\
  Rabs (val (l_mean S x) - fold_right (fun v s => val v + s) 0 x / INR (List.length x)) <=
    bpow radix2 (-50) * fold_right (fun v s => Rabs (val v) + s) 0 x + bpow radix2 (-1075).
Proof.
  intros S x B HS N FA HB HL. destruct (mean_parts S x B HS N FA HB HL) as (FS & Fm & Vm & _ & _ & I1 & A1 & _). split; [exact Fm|].
  change (Rabs (val (l_mean S x) - asum x / INR (List.length x)) <= bpow radix2 (-50) * asize x + bpow radix2 (-1075)).
  assert (FF : Forall (fun v : f64_num => finite v) x) by (revert FA; apply Forall_impl; tauto).
  destruct (adds_bound x (S x) (HS x N) FF A1 HL) as (_ & E & B2). rewrite Vm. set (n := INR (List.length x)) in *.
  pose proof (rnd_near (val (S x) / n)) as RN. pose proof (asize_nonneg x) as S0. pose proof uro_pos as UP.
  assert (IN : 0 < / n <= 1) by (split; [apply Rinv_0_lt_compat; lra|rewrite <- Rinv_1; apply Rinv_le; lra]).
  assert (Q : Rabs (val (S x) / n) <= 2 * asize x).
  { unfold Rdiv. rewrite Rabs_mult, (Rabs_pos_eq (/ n)) by lra. rewrite <- (Rmult_1_r (2 * asize x)). apply Rmult_le_compat; auto using Rabs_pos; lra. }
  assert (E2 : Rabs (val (S x) / n - asum x / n) <= bpow radix2 (-51) * asize x).
  { replace (val (S x) / n - asum x / n) with ((val (S x) - asum x) * / n) by (field; lra). rewrite Rabs_mult, (Rabs_pos_eq (/ n)) by lra.
    apply Rmult_le_reg_r with n; [lra|]. rewrite Rmult_assoc, Rinv_l by lra. lra. }
  replace (rnd (val (S x) / n) - asum x / n) with ((rnd (val (S x) / n) - val (S x) / n) + (val (S x) / n - asum x / n)) by ring.
  eapply Rle_trans; [apply Rabs_triang|]. assert (uro * Rabs (val (S x) / n) <= uro * (2 * asize x)) by (apply Rmult_le_compat_l; lra).
  assert (E51 : bpow radix2 (-51) = 4 * uro /\ bpow radix2 (-50) = 8 * uro).
  { rewrite uro_val. change 4 with (bpow radix2 2). change 8 with (bpow radix2 3). rewrite <- !bpow_plus. split; reflexivity. }
  destruct E51 as [E51 E50]. rewrite E51 in E2. rewrite E50.
  assert (E75 : / 2 * eta = bpow radix2 (-1075)) by (change (/ 2) with (bpow radix2 (-1)); rewrite <- bpow_plus; reflexivity).
  rewrite <- E75. assert (0 <= uro * asize x) by (apply Rmult_le_pos; lra). lra.
Qed.

(** Numbers up to 2^400, at most 2^40 of them, in whatever order they are added: the results are finite, and no result is larger than the square root of the number of
    elements (up to 2^-50), unless the difference from the mean is less than 2^-480. *)
Theorem c112_rms : forall S x, summer S -> Forall (fun v : f64_num => finite v /\ Rabs (val v) <= bpow radix2 400) x -> (Z.of_nat (List.length x) <= 2 ^ 40)%Z ->
  List.length (l_rms S x) = List.length x /\
  Forall2 (fun d w : f64_num => finite d /\ finite w /\
    (bpow radix2 (-480) <= Rabs (val d) -> Rabs (val w) <= sqrt (INR (List.length x)) * (1 + bpow radix2 (-50)))) (l_diff S x) (l_rms S x).
Proof.
  intros S x HS FA HL. split; [unfold l_rms, l_diff; now rewrite !map_length|].
  destruct x as [|v0 x']; [constructor|]. set (x := v0 :: x') in *. assert (N : x <> []) by discriminate. clearbody x.
  pose proof uro_pos as UP. pose proof uro_small as US.
  assert (P4 : forall k, bpow radix2 (2 + k) = 4 * bpow radix2 k) by (intro k; rewrite bpow_plus; reflexivity).
  assert (G1 : forall k, (0 <= k)%Z -> 1 <= bpow radix2 k) by (intros k Hk; change 1 with (bpow radix2 0); apply bpow_le; lia).
  destruct (mean_parts S x (bpow radix2 400) HS N FA) as (FS & Fm & Vm & _ & Bm & I1 & _ & _); [split; [apply G1; lia|apply bpow_le; lia]|lia|].
  rewrite Forall_forall in FA.
  assert (KD : forall d, In d (l_diff S x) -> finite d /\ Rabs (val d) <= bpow radix2 403).
  { intros d Id. apply in_map_iff in Id. destruct Id as (v & <- & Iv). destruct (FA v Iv) as [Fv Bv].
    assert (B : Rabs (val v - val (l_mean S x)) <= bpow radix2 403).
    { eapply Rle_trans; [apply Rabs_triang|]. rewrite Rabs_Ropp. change 403%Z with (3 + 400)%Z. rewrite bpow_plus. change (bpow radix2 3) with 8.
      pose proof (bpow_ge_0 radix2 400). lra. }
    destruct (fsub_val v (l_mean S x) Fv Fm) as [Fd Vd]; [eapply Rle_trans; [exact B|apply bpow_le; lia]|]. split; [exact Fd|].
    rewrite Vd. apply rnd_abs_le; [apply fmt_bpow; lia|exact B]. }
  set (sq := map (fun v => fmul v v) (l_diff S x)).
  assert (SQ : forall d, In d (l_diff S x) -> finite (fmul d d) /\ val (fmul d d) = rnd (val d * val d) /\ 0 <= val (fmul d d) <= bpow radix2 806).
  { intros d Id. destruct (KD d Id) as [Fd Bd]. assert (B : 0 <= val d * val d <= bpow radix2 806).
    { split; [nra|]. rewrite <- (Rabs_pos_eq (val d * val d)) by nra. rewrite Rabs_mult. change 806%Z with (403 + 403)%Z. rewrite bpow_plus.
      apply Rmult_le_compat; auto using Rabs_pos. }
    destruct (fmul_val d d Fd Fd) as [Fq Vq]; [rewrite Rabs_pos_eq by lra; eapply Rle_trans; [apply B|apply bpow_le; lia]|].
    split; [exact Fq|]. split; [exact Vq|]. rewrite Vq. split; [rewrite <- rnd_0; apply rnd_mono; lra|apply rnd_le_fmt; [apply fmt_bpow; lia|lra]]. }
  assert (Lq : List.length sq = List.length x) by (unfold sq, l_diff; now rewrite !map_length).
  assert (Nq : sq <> []) by (intro E; rewrite E in Lq; destruct x; [congruence|discriminate]).
  assert (FQ : Forall (fun v : f64_num => finite v /\ Rabs (val v) <= bpow radix2 806) sq).
  { rewrite Forall_forall. intros q Iq. apply in_map_iff in Iq. destruct Iq as (d & <- & Id). destruct (SQ d Id) as (A & _ & B). split; [exact A|].
    rewrite Rabs_pos_eq; lra. }
  destruct (mean_parts S sq (bpow radix2 806) HS Nq FQ) as (FSq & Fv & Vv & _ & _ & _ & Aq & _); [split; [apply G1; lia|apply bpow_le; lia]|rewrite Lq; lia|].
  assert (FQ' : Forall (fun v : f64_num => finite v) sq) by (revert FQ; apply Forall_impl; tauto).
  destruct (adds_ge sq (S sq) (HS sq Nq) FQ' Aq) as [PS GS]; [rewrite Lq; lia| |].
  { rewrite Forall_forall. intros q Iq. apply in_map_iff in Iq. destruct Iq as (d & <- & Id). apply SQ, Id. }
  rewrite Lq in Vv. set (n := INR (List.length x)) in *. assert (IN : 0 < / n) by (apply Rinv_0_lt_compat; lra).
  assert (Pv : 0 <= val (l_mean S sq)) by (rewrite Vv, <- rnd_0; apply rnd_mono; apply Rmult_le_pos; lra).
  destruct (f_sqrt_val (l_mean S sq) Fv Pv) as [Fs Vs]. change (f_sqrt (l_mean S sq)) with (l_std S x) in Fs, Vs.
  assert (Ps : 0 <= val (l_std S x)) by (rewrite Vs, <- rnd_0; apply rnd_mono, sqrt_pos).
  rewrite Forall_forall in GS.
  (* the standard deviation is not much less than a difference *)
  assert (BIG : forall d, In d (l_diff S x) -> bpow radix2 (-480) <= Rabs (val d) ->
     Rabs (val d) * ((1 - uro) * (1 - uro)) <= sqrt n * val (l_std S x)).
  { intros d Id Bd. destruct (SQ d Id) as (_ & Vq & _). set (a := Rabs (val d)) in *. assert (A2 : val d * val d = a * a) by (unfold a; rewrite <- Rabs_mult, Rabs_pos_eq; [reflexivity|nra]).
    assert (A0 : 0 < a) by (pose proof (bpow_gt_0 radix2 (-480)); lra).
    assert (LOW : bpow radix2 (-960) <= a * a) by (change (-960)%Z with (-480 + -480)%Z; rewrite bpow_plus; apply Rmult_le_compat; auto using bpow_ge_0).
    destruct (rnd_rel (a * a)) as (e1 & H1 & E1); [right; rewrite Rabs_pos_eq by nra; eapply Rle_trans; [|exact LOW]; apply bpow_le; lia|]. apply Rabs_le_inv in H1.
    assert (Q1 : a * a * (1 - uro) <= val (S sq)).
    { apply Rle_trans with (val (fmul d d)); [|apply GS; apply (in_map (fun v => fmul v v)), Id]. rewrite Vq, A2, E1. apply Rmult_le_compat_l; nra. }
    set (z := a * a * (1 - uro) * / n).
    assert (Zlow : bpow radix2 (-1011) <= z).
    { unfold z. assert (K1 : bpow radix2 (-50) <= / n).
      { change (-50)%Z with (- (50))%Z. rewrite bpow_opp. apply Rinv_le; lra. }
      apply Rle_trans with (bpow radix2 (-960) * / 2 * bpow radix2 (-50)).
      - change (/ 2) with (bpow radix2 (-1)). rewrite <- !bpow_plus. apply bpow_le. lia.
      - apply Rmult_le_compat; auto using bpow_ge_0; [apply Rmult_le_pos; [apply bpow_ge_0|lra]|]. apply Rmult_le_compat; auto using bpow_ge_0; lra. }
    assert (Z0 : 0 < z) by (pose proof (bpow_gt_0 radix2 (-1011)); lra).
    destruct (rnd_rel z) as (e2 & H2 & E2); [right; rewrite Rabs_pos_eq by lra; eapply Rle_trans; [|exact Zlow]; apply bpow_le; lia|]. apply Rabs_le_inv in H2.
    assert (V1 : a * a * ((1 - uro) * (1 - uro)) * / n <= val (l_mean S sq)).
    { apply Rle_trans with (rnd z).
      - rewrite E2. apply Rle_trans with (z * (1 - uro)); [unfold z; right; ring|]. apply Rmult_le_compat_l; lra.
      - rewrite Vv. apply rnd_mono. unfold z, Rdiv. apply Rmult_le_compat_r; [lra|exact Q1]. }
    set (r := a * (1 - uro) / sqrt n). assert (Sn : 0 < sqrt n) by (apply sqrt_lt_R0; lra).
    assert (R2 : sqrt n * sqrt n = n) by (apply sqrt_sqrt; lra).
    assert (R0 : 0 <= r) by (unfold r; apply Rmult_le_pos; [apply Rmult_le_pos; lra|left; now apply Rinv_0_lt_compat]).
    assert (RS : r <= sqrt (val (l_mean S sq))).
    { rewrite <- (sqrt_square r R0). apply sqrt_le_1_alt. eapply Rle_trans; [|exact V1]. right. unfold r.
      rewrite <- R2 at 3. field. lra. }
    assert (Rlow : bpow radix2 (-600) <= r).
    { unfold r. apply Rmult_le_reg_r with (sqrt n); [exact Sn|]. unfold Rdiv. rewrite Rmult_assoc, Rinv_l, Rmult_1_r by lra.
      assert (SB : sqrt n <= bpow radix2 50).
      { apply Rle_trans with n; [|lra]. rewrite <- R2 at 2. rewrite <- (Rmult_1_r (sqrt n)) at 1. apply Rmult_le_compat_l; [lra|]. rewrite <- sqrt_1. apply sqrt_le_1_alt. lra. }
      apply Rle_trans with (bpow radix2 (-600) * bpow radix2 50); [apply Rmult_le_compat_l; [apply bpow_ge_0|exact SB]|].
      apply Rle_trans with (bpow radix2 (-480) * / 2).
      - change (/ 2) with (bpow radix2 (-1)). rewrite <- !bpow_plus. apply bpow_le. lia.
      - apply Rmult_le_compat; auto using bpow_ge_0; lra. }
    destruct (rnd_rel r) as (e3 & H3 & E3); [right; rewrite Rabs_pos_eq by lra; eapply Rle_trans; [|exact Rlow]; apply bpow_le; lia|]. apply Rabs_le_inv in H3.
    assert (V2 : r * (1 - uro) <= val (l_std S x)).
    { rewrite Vs. apply Rle_trans with (rnd r); [rewrite E3; apply Rmult_le_compat_l; lra|apply rnd_mono, RS]. }
    apply Rle_trans with (sqrt n * (r * (1 - uro))); [right; unfold r; field; lra|]. apply Rmult_le_compat_l; lra. }
  unfold l_rms. apply Forall2_map_r. intros d Id. destruct (KD d Id) as [Fd Bd]. split; [exact Fd|].
  destruct (int_val 1 ltac:(lia)) as [F1 V1].
  destruct (Req_dec (val (l_std S x)) 0) as [Z|NZ].
  - destruct (zero_of _ Fs Z) as [c Ec]. rewrite Ec. cbn [f_or1].
    destruct (fdiv_val d (f64_of 1 0) Fd) as [Fw Vw]; [rewrite V1; lra|rewrite V1; unfold Rdiv; rewrite Rinv_1, Rmult_1_r; eapply Rle_trans; [exact Bd|apply bpow_le; lia]|].
    split; [exact Fw|]. intros Hd. exfalso. specialize (BIG d Id Hd). rewrite Z, Rmult_0_r in BIG. pose proof (bpow_gt_0 radix2 (-480)).
    assert (0 < Rabs (val d) * ((1 - uro) * (1 - uro))) by (repeat apply Rmult_lt_0_compat; lra). lra.
  - assert (OR : f_or1 (l_std S x) = l_std S x) by (destruct (l_std S x) as [s|s| |s m e H]; try reflexivity; exfalso; now apply NZ). rewrite OR.
    assert (PS1 : 0 < val (l_std S x)) by lra. assert (Sn : 0 < sqrt n) by (apply sqrt_lt_R0; lra).
    assert (LO : eta <= val (l_std S x)).
    { destruct (fmt_multiple _ (val_fmt (l_std S x))) as [k Ek]. pose proof eta_pos as EP. rewrite Ek. assert (1 <= k)%Z.
      { destruct (Z_lt_le_dec k 1) as [Lk|]; [|assumption]. exfalso. assert (IZR k <= 0) by (apply IZR_le; lia). rewrite Ek in PS1. nra. }
      rewrite <- (Rmult_1_l eta) at 1. apply Rmult_le_compat_r; [lra|]. now apply IZR_le. }
    assert (QB : bpow radix2 (-480) <= Rabs (val d) -> Rabs (val d / val (l_std S x)) <= sqrt n * / ((1 - uro) * (1 - uro))).
    { intros Hd. specialize (BIG d Id Hd). unfold Rdiv. rewrite Rabs_mult, (Rabs_pos_eq (/ _)) by (left; now apply Rinv_0_lt_compat).
      assert (U2 : 0 < (1 - uro) * (1 - uro)) by (apply Rmult_lt_0_compat; lra).
      apply Rmult_le_reg_r with (val (l_std S x) * ((1 - uro) * (1 - uro))); [now apply Rmult_lt_0_compat|].
      replace (Rabs (val d) * / val (l_std S x) * (val (l_std S x) * ((1 - uro) * (1 - uro)))) with (Rabs (val d) * ((1 - uro) * (1 - uro))) by (field; lra).
      replace (sqrt n * / ((1 - uro) * (1 - uro)) * (val (l_std S x) * ((1 - uro) * (1 - uro)))) with (sqrt n * val (l_std S x)) by (field; lra). exact BIG. }
    assert (SB : 1 <= sqrt n <= bpow radix2 50).
    { split; [rewrite <- sqrt_1; apply sqrt_le_1_alt; lra|]. apply Rle_trans with n; [|lra]. assert (R2 : sqrt n * sqrt n = n) by (apply sqrt_sqrt; lra).
      rewrite <- R2 at 2. rewrite <- (Rmult_1_r (sqrt n)) at 1. apply Rmult_le_compat_l; [lra|]. rewrite <- sqrt_1. apply sqrt_le_1_alt. lra. }
    assert (IU : 1 <= / ((1 - uro) * (1 - uro)) <= 1 + 3 * uro).
    { assert (U2 : 0 < (1 - uro) * (1 - uro)) by (apply Rmult_lt_0_compat; lra).
      split; apply Rmult_le_reg_r with ((1 - uro) * (1 - uro)); try exact U2; rewrite Rinv_l by lra; nra. }
    destruct (fdiv_val d (l_std S x) Fd ltac:(lra)) as [Fw Vw].
    { destruct (Rle_lt_dec (bpow radix2 (-480)) (Rabs (val d))) as [Hd|Hd].
      - eapply Rle_trans; [apply QB, Hd|]. apply Rle_trans with (bpow radix2 50 * 2); [apply Rmult_le_compat; lra|].
        change 2 with (bpow radix2 1). rewrite <- bpow_plus. apply bpow_le. lia.
      - unfold Rdiv. rewrite Rabs_mult, (Rabs_pos_eq (/ _)) by (left; now apply Rinv_0_lt_compat).
        apply Rle_trans with (bpow radix2 (-480) * bpow radix2 1074).
        + apply Rmult_le_compat; auto using Rabs_pos; [left; now apply Rinv_0_lt_compat|lra|]. change 1074%Z with (- (-1074))%Z. rewrite bpow_opp. apply Rinv_le; [apply eta_pos|exact LO].
        + rewrite <- bpow_plus. apply bpow_le. lia. }
    split; [exact Fw|]. intros Hd. rewrite Vw, rnd_abs. specialize (QB Hd).
    assert (MM : Rabs (val d / val (l_std S x)) <= sqrt n * (1 + 3 * uro)) by (eapply Rle_trans; [exact QB|]; apply Rmult_le_compat_l; lra).
    apply rnd_mono in MM. eapply Rle_trans; [exact MM|].
    assert (X1 : 1 <= sqrt n * (1 + 3 * uro)) by (rewrite <- (Rmult_1_r 1); apply Rmult_le_compat; lra).
    destruct (rnd_rel (sqrt n * (1 + 3 * uro))) as (e & He & ->).
    { right. rewrite Rabs_pos_eq by lra. eapply Rle_trans; [|exact X1]. change 1 with (bpow radix2 0). apply bpow_le. lia. }
    apply Rabs_le_inv in He. assert (E50 : bpow radix2 (-50) = 8 * uro) by (rewrite uro_val; change 8 with (bpow radix2 3); rewrite <- bpow_plus; reflexivity).
    rewrite E50, Rmult_assoc. apply Rmult_le_compat_l; [lra|]. nra.
Qed.

(** A constant array should become zeros, but three times 0.1 becomes three times -1, in whatever order it is added: the mean is not 0.1, and
    the standard deviation is the error of the mean. *)
Lemma adds_three : forall x0 x2 x3 : f64_num, fadd x0 x0 = x2 -> fadd x0 x2 = x3 -> fadd x2 x0 = x3 ->
  (forall b, fadd (B754_zero b) x0 = x0 /\ fadd (B754_zero b) x2 = x2 /\ fadd (B754_zero b) x3 = x3) ->
  forall l s, adds l s -> (l = repeat x0 1 -> s = x0) /\ (l = repeat x0 2 -> s = x2) /\ (l = repeat x0 3 -> s = x3).
Proof.
  intros x0 x2 x3 E2 E3 E3' EZ l s D.
  assert (AP : forall l r n, l ++ r = repeat x0 n -> l = repeat x0 (List.length l) /\ r = repeat x0 (List.length r) /\ (List.length l + List.length r = n)%nat).
  { clear. intros l r n E. assert (L : List.length (l ++ r) = n) by (rewrite E; apply repeat_length). rewrite app_length in L. split; [|split; [|exact L]].
    - rewrite <- L, repeat_app in E. apply (f_equal (firstn (List.length l))) in E.
      rewrite firstn_app, firstn_all, Nat.sub_diag, firstn_O, app_nil_r in E. rewrite E at 1. rewrite firstn_app, repeat_length, Nat.sub_diag, firstn_O, app_nil_r.
      rewrite <- (repeat_length x0 (List.length l)) at 1. apply firstn_all.
    - rewrite <- L, repeat_app in E. apply (f_equal (skipn (List.length l))) in E.
      rewrite skipn_app, skipn_all, Nat.sub_diag, skipn_O in E. cbn [app] in E. rewrite E at 1.
      rewrite skipn_app, repeat_length, Nat.sub_diag, skipn_O. rewrite <- (repeat_length x0 (List.length l)) at 1. rewrite skipn_all. reflexivity. }
  induction D as [x|l r x y Dl (L1 & L2 & L3) Dr (R1 & R2 & R3)|b l x D (I1 & I2 & I3)|l r x P D (I1 & I2 & I3)].
  - repeat split; intro E; cbn in E; try discriminate E. now injection E.
  - pose proof (adds_ne _ _ Dl) as Nl. pose proof (adds_ne _ _ Dr) as Nr.
    repeat split; intro E; apply AP in E; destruct E as (El & Er & LL); destruct l as [|? [|? [|? l]]]; destruct r as [|? [|? [|? r]]]; try congruence; cbn in LL; try lia.
    + rewrite (L1 El), (R1 Er). exact E2.
    + rewrite (L1 El), (R2 Er). exact E3.
    + rewrite (L2 El), (R1 Er). exact E3'.
  - destruct (EZ b) as (Z1 & Z2 & Z3). repeat split; intro E; [rewrite (I1 E)|rewrite (I2 E)|rewrite (I3 E)]; assumption.
  - assert (PR : forall n, r = repeat x0 n -> l = repeat x0 n).
    { intros n ->. apply Permutation_repeat in P. exact P. }
    repeat split; intro E; auto.
Qed.
Definition tenth : f64_num := f64_of 3602879701896397 (-55).
Lemma three_sum : forall S (x0 x2 x3 : f64_num), summer S -> fadd x0 x0 = x2 -> fadd x0 x2 = x3 -> fadd x2 x0 = x3 ->
  (forall b, fadd (B754_zero b) x0 = x0 /\ fadd (B754_zero b) x2 = x2 /\ fadd (B754_zero b) x3 = x3) -> S [x0; x0; x0] = x3.
Proof.
  intros S x0 x2 x3 HS E2 E3 E3' EZ. destruct (adds_three x0 x2 x3 E2 E3 E3' EZ [x0; x0; x0] (S [x0; x0; x0])) as (_ & _ & E); [apply HS; discriminate|].
  apply E. reflexivity.
Qed.
Ltac feq := apply (B2SF_inj 53 1024); vm_compute; reflexivity.
Theorem c112_rms_constant_refuted : forall S, summer S -> l_rms S [tenth; tenth; tenth] = [f64_of (-1) 0; f64_of (-1) 0; f64_of (-1) 0].
Proof.
  intros S HS.
  assert (S1 : S [tenth; tenth; tenth] = f64_of 5404319552844596 (-54)).
  { apply (three_sum S tenth (f64_of 3602879701896397 (-54)) (f64_of 5404319552844596 (-54)) HS); [feq..|].
    intros [|]; (split; [|split]); feq. }
  pose (h := f64_of (-1) (-56)).
  assert (ME : l_mean S [tenth; tenth; tenth] = f64_of 7205759403792795 (-56)).
  { unfold l_mean. rewrite S1. feq. }
  assert (DI : l_diff S [tenth; tenth; tenth] = [h; h; h]).
  { unfold l_diff. rewrite ME. cbn [map]. assert (E : fsub tenth (f64_of 7205759403792795 (-56)) = h) by feq. now rewrite E. }
  assert (SD : l_std S [tenth; tenth; tenth] = f64_of 1 (-56)).
  { unfold l_std. rewrite DI. cbn [map]. assert (Q : fmul h h = f64_of 1 (-112)) by feq. rewrite Q.
    unfold l_mean. assert (S2 : S [f64_of 1 (-112); f64_of 1 (-112); f64_of 1 (-112)] = f64_of 3 (-112)).
    { apply (three_sum S _ (f64_of 1 (-111)) _ HS); [feq..|]. intros [|]; (split; [|split]); feq. }
    rewrite S2. feq. }
  unfold l_rms. rewrite SD, DI. cbn [map]. assert (E : fdiv h (f_or1 (f64_of 1 (-56))) = f64_of (-1) 0) by feq. now rewrite E.
Qed.

(** ** Examples *)

(** Equality of results, computed. *)
Lemma res_eq : forall (r : res (list f64_num)) y, match r with Ok l => Some (map (@B2SF 53 1024) l) | Err _ => None end = Some (map (@B2SF 53 1024) y) -> r = Ok y.
Proof.
  intros [l|e] y H; [|discriminate H]. injection H as H. f_equal. revert y H. induction l as [|v l IH]; intros [|w y] H; try discriminate H; [reflexivity|].
  injection H as H1 H2. f_equal; [apply (B2SF_inj 53 1024), H1|apply IH, H2].
Qed.
Ltac leq := apply res_eq; vm_compute; reflexivity.
(** 3, -4 and 1 by 4: 3/4, -1, 1/4; from 0 to 1: 1, 0, 5/7 rounded. *)
Definition ex_level : list f64_num := [f64_of 3 0; f64_of (-4) 0; f64_of 1 0].
Lemma ex_level_val : Forall (fun v : f64_num => finite v /\ Rabs (val v) <= 4) ex_level /\ val (f64_of 3 0) = 3 /\ val (f64_of (-4) 0) = -4 /\ val (f64_of 1 0) = 1.
Proof.
  destruct (int_val 3 ltac:(lia)) as [F1 V1]. destruct (int_val (-4) ltac:(lia)) as [F2 V2]. destruct (int_val 1 ltac:(lia)) as [F3 V3].
  split; [|auto]. repeat apply Forall_cons; try apply Forall_nil; (split; [assumption|]).
  - rewrite V1. rewrite Rabs_pos_eq; lra.
  - rewrite V2. rewrite Rabs_left; lra.
  - rewrite V3. rewrite Rabs_pos_eq; lra.
Qed.
Example ex_peak : l_peak ex_level = Ok [f64_of 3 (-2); f64_of (-1) 0; f64_of 1 (-2)] /\
  Forall (fun v : f64_num => finite v) ex_level /\ In (f64_of (-4) 0) ex_level /\ val (f64_of (-4) 0) <> 0 /\
  forall v, In v ex_level -> Rabs (val v) <= Rabs (val (f64_of (-4) 0)).
Proof.
  destruct ex_level_val as (FA & V1 & V2 & V3). split; [leq|]. split; [revert FA; apply Forall_impl; tauto|].
  split; [cbn; auto|]. split; [rewrite V2; lra|]. intros v Iv. rewrite Forall_forall in FA. destruct (FA v Iv) as [_ B]. rewrite V2.
  rewrite (Rabs_left (-4)) by lra. lra.
Qed.
Example ex_range : l_range ex_level = Ok [f64_of 1 0; f64_of 0 0; f64_of 6433713753386423 (-53)] /\
  (forall v, In v ex_level -> val (f64_of (-4) 0) <= val v <= val (f64_of 3 0)) /\ val (f64_of (-4) 0) < val (f64_of 3 0) /\
  4 <= bpow radix2 1022.
Proof.
  destruct ex_level_val as (FA & V1 & V2 & V3). split; [leq|]. split; [|split].
  - intros v [<-|[<-|[<-|[]]]]; rewrite ?V1, ?V2, ?V3; lra.
  - rewrite V1, V2. lra.
  - change 4 with (bpow radix2 2). apply bpow_le. lia.
Qed.
(** Adding from the left is a way of adding; 1, 2, 3 and 6 less their mean, 3, by their standard deviation, the root of 7/2. *)
Definition left_sum (l : list f64_num) : f64_num := match l with [] => f64_of 0 0 | v :: l => fold_left fadd l v end.
Example ex_summer : summer left_sum.
Proof.
  intros [|v l] N; [congruence|]. cbn [left_sum]. change (v :: l) with ([v] ++ l). generalize (adds_one v). generalize [v] as k. generalize v as s.
  clear. induction l as [|w l IH]; intros s k D; cbn [fold_left]; [now rewrite app_nil_r|].
  change (w :: l) with ([w] ++ l). rewrite app_assoc. apply IH. apply adds_add; [exact D|apply adds_one].
Qed.
Example ex_rms : let x := [f64_of 1 0; f64_of 2 0; f64_of 3 0; f64_of 6 0] in
  l_mean left_sum x = f64_of 3 0 /\ l_diff left_sum x = [f64_of (-2) 0; f64_of (-1) 0; f64_of 0 0; f64_of 3 0] /\
  l_mean left_sum (map (fun v => fmul v v) (l_diff left_sum x)) = f64_of 7 (-1) /\ Forall (fun v : f64_num => finite v /\ Rabs (val v) <= bpow radix2 400) x.
Proof.
  cbv zeta. split; [feq|]. split; [assert (E : forall x y : list f64_num, Ok x = Ok y -> x = y) by (intros x y H; now injection H); apply E; leq|]. split; [feq|].
  assert (B : 6 <= bpow radix2 400) by (apply Rle_trans with (bpow radix2 3); [cbn; lra|apply bpow_le; lia]).
  assert (K : forall m, (0 <= m <= 6)%Z -> finite (f64_of m 0) /\ Rabs (val (f64_of m 0)) <= bpow radix2 400).
  { intros m Hm. destruct (int_val m ltac:(lia)) as [F V]. split; [exact F|]. rewrite V, Rabs_pos_eq by (apply IZR_le; lia).
    apply Rle_trans with 6; [apply IZR_le; lia|exact B]. }
  repeat apply Forall_cons; try apply Forall_nil; apply K; lia.
Qed.
Example ex_special : l_peak [f64_of 0 0; f64_of 0 0] = Ok [B754_nan; B754_nan] /\ l_peak [f64_of 1 0; B754_infinity true] = Ok [B754_zero false; B754_nan].
Proof. split; leq. Qed.
Example ex_range_constant : l_range [tenth; tenth] = Ok [B754_nan; B754_nan].
Proof. leq. Qed.

Print Assumptions c112_peak. Print Assumptions c112_peak_special. Print Assumptions c112_range. Print Assumptions c112_range_constant.
Print Assumptions c112_range_overflow_refuted. Print Assumptions c112_mean. Print Assumptions c112_rms. Print Assumptions c112_rms_constant_refuted.
