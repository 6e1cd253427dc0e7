(** Properties of the variables that a beat computes and of the resynthesis from
    beats: C86, C87. *)
From Coquelicot Require Import Coquelicot.
From Coq Require Import String List Bool ZArith Reals Lra Lia.
Import ListNotations.
From Verif Require Import Base Py PyLemmas ListLemmas RLists Np_Model Dsp_Model Sample_Model Beat_Model Beat_Proofs
  Beat_Props Gamma_Model Resid_Model Resid_Props Sample_Spec Sample_Proofs Sample_Props.
Local Open Scope R_scope.

(** ** Spec *)

(** Amplitudes of the two partials. *)
Definition amp0 (p : params) (t : R) : R := q_a0 p * exp (- 2 * t / q_d0 p).
Definition amp1 (p : params) (t : R) : R := q_a1 p * exp (- 2 * t / q_d1 p).

(** The names. *)
Definition names : list string :=
  ["t"; "a0"; "a1"; "f0"; "f1"; "p0"; "p1"; "a_oln"; "a_hat"; "f_oln"; "f_hat"; "p_oln"; "p_hat";
   "da0_dt"; "da1_dt"; "w_hat"; "w_oln"; "a_oln2"; "a_hat2"; "alpha2"; "am"; "fm_from_am"; "fm"; "pm"; "x"]%string.

(** Variables of a modal beat that do not depend on time. *)
Definition constants (p : params) : list (string * R) :=
  [("f0", q_f0 p); ("f1", q_f1 p); ("p0", q_p0 p); ("p1", q_p1 p);
   ("f_oln", (q_f0 p + q_f1 p) / 2); ("f_hat", (q_f0 p - q_f1 p) / 2);
   ("p_oln", (q_p0 p + q_p1 p) / 2); ("p_hat", (q_p0 p - q_p1 p) / 2);
   ("w_oln", PI * (q_f0 p + q_f1 p)); ("w_hat", PI * (q_f0 p - q_f1 p))]%string.

(** Variables of a modal beat that are functions of time, at all times. *)
Definition functions (p : params) : list (string * (R -> R)) :=
  [("t", fun t => t); ("a0", amp0 p); ("a1", amp1 p);
   ("a_oln", fun t => (amp0 p t + amp1 p t) / 2); ("a_hat", fun t => (amp0 p t - amp1 p t) / 2);
   ("da0_dt", Derive (amp0 p)); ("da1_dt", Derive (amp1 p));
   ("a_oln2", fun t => ((amp0 p t + amp1 p t) / 2) ^ 2); ("a_hat2", fun t => ((amp0 p t - amp1 p t) / 2) ^ 2);
   ("alpha2", fun t => (beat_env p t / 2) ^ 2); ("am", beat_env p)]%string.

(** The angular frequency, and the part of it that is due to the change of the
    amplitudes: what is left of it without the part of constant amplitudes. *)
Definition frequencies (p : params) : list (string * (R -> R)) :=
  [("fm", fun t => 2 * PI * beat_freq p t);
   ("fm_from_am", fun t => 2 * PI * beat_freq p t -
      (PI * (q_f0 p + q_f1 p) + PI * (q_f0 p - q_f1 p) * (amp0 p t ^ 2 - amp1 p t ^ 2) / beat_env p t ^ 2))]%string.

(** ** Names *)

Lemma lookup_in : forall A k (d : list (string * A)),
  (exists v, lookup k d = Some v /\ In (k, v) d) \/ (lookup k d = None /\ ~ In k (map fst d)).
Proof.
  intros A k d. induction d as [|[k' v] d [(w & E & I)|[E N]]]; cbn [lookup].
  - right. split; [reflexivity|intros []].
  - destruct (String.eqb_spec k k') as [<-|Hn].
    + left. exists v. split; [reflexivity|left; reflexivity].
    + left. exists w. split; [exact E|right; exact I].
  - destruct (String.eqb_spec k k') as [<-|Hn].
    + left. exists v. split; [reflexivity|left; reflexivity].
    + right. split; [exact E|]. intros [H|H]; [apply Hn; auto|auto].
Qed.

Theorem c86_names : variables = names /\ NoDup names.
Proof.
  split; [reflexivity|]. unfold names.
  repeat (constructor; [intros H; repeat (destruct H as [H|H]; [discriminate H|]); exact H|]). constructor.
Qed.
Print Assumptions c86_names.

Lemma mapM_err : forall A B (f : A -> res B) l e, mapM f l = Err e -> exists x, In x l /\ f x = Err e.
Proof.
  intros A B f l e. induction l as [|a l IH]; cbn [mapM]; [discriminate|].
  destruct (f a) as [b|e'] eqn:E; cbn [bind].
  - destruct (mapM f l) eqn:E2; cbn [bind]; [discriminate|]. intros H. injection H as <-.
    destruct (IH eq_refl) as (x & I & Ex). exists x. split; [right|]; auto.
  - intros H. injection H as <-. exists a. split; [left; reflexivity|exact E].
Qed.
Lemma mapM_ok : forall A B (f : A -> res B) l r, mapM f l = Ok r -> Forall2 (fun x y => f x = Ok y) l r.
Proof.
  intros A B f l. induction l as [|a l IH]; cbn [mapM]; intros r.
  - intros H. injection H as <-. constructor.
  - destruct (f a) as [b|] eqn:E; cbn [bind]; [|discriminate].
    destruct (mapM f l) as [bs|] eqn:E2; cbn [bind]; [|discriminate]. intros H. injection H as <-.
    constructor; auto.
Qed.


Lemma find_nodes : forall ks,
  ((forall k, In k ks -> In k names) /\ exists nodes, Forall2 (fun k n => lookup k graph = Some n) ks nodes /\
     mapM (fun k => match lookup k graph with Some n => Ok n | None => Err KeyError end) ks = Ok nodes) \/
  ((exists k, In k ks /\ ~ In k names) /\
     mapM (fun k => match lookup k graph with Some n => Ok n | None => Err KeyError end) ks = Err KeyError).
Proof.
  intros ks. induction ks as [|k ks [[H (nodes & F & E)]|[(k' & I & N) E]]].
  - left. split; [intros k []|]. exists []. split; [constructor|reflexivity].
  - destruct (lookup_in _ k graph) as [(n & L & I)|[L N]]; cbn [mapM]; rewrite L; cbn [bind].
    + left. split.
      * intros k' [<-|Hk]; [|auto]. apply (in_map fst) in I. exact I.
      * rewrite E. exists (n :: nodes). split; [constructor; auto|reflexivity].
    + right. split; [exists k; split; [left; reflexivity|exact N]|reflexivity].
  - right. split; [exists k'; split; [right; exact I|exact N]|].
    cbn [mapM]. destruct (lookup k graph); cbn [bind]; [rewrite E|]; reflexivity.
Qed.

(** The results are those of the names, in their order, each as if it were
    computed alone. *)
Theorem c86_compute : forall b t ks vs, compute b t ks = Ok vs <->
  Forall2 (fun k v => compute1 b t k = Ok v) ks vs.
Proof.
  assert (C1 : forall b t k n, lookup k graph = Some n -> compute1 b t k = n b t).
  { intros b t k n L. unfold compute1, compute. cbn [mapM]. rewrite L. cbn [bind mapM]. destruct (n b t); reflexivity. }
  assert (C0 : forall b t k, ~ In k names -> compute1 b t k = Err KeyError).
  { intros b t k N. destruct (lookup_in _ k graph) as [(n & _ & I)|[L _]].
    - exfalso. apply N. apply (in_map fst) in I. exact I.
    - unfold compute1, compute. cbn [mapM]. rewrite L. reflexivity. }
  intros b t ks vs. unfold compute. destruct (find_nodes ks) as [[H (nodes & F & E)]|[(k & I & N) E]]; rewrite E; cbn [bind].
  - clear H E. revert vs. induction F as [|k n ks nodes L F IH]; intros vs; cbn [mapM].
    + split; [intros H; injection H as <-; constructor|]. intros H. inversion H. reflexivity.
    + split.
      * destruct (n b t) as [v|] eqn:En; cbn [bind]; [|discriminate].
        destruct (mapM _ nodes) as [l|]; cbn [bind]; [|discriminate]. intros H. injection H as <-.
        constructor; [rewrite (C1 _ _ _ _ L); exact En|]. apply IH. reflexivity.
      * intros H. inversion H as [|? v ? vs' Hv Hvs]; subst. rewrite (C1 _ _ _ _ L) in Hv. rewrite Hv. cbn [bind].
        apply IH in Hvs. rewrite Hvs. reflexivity.
  - split; [discriminate|]. intros F. exfalso.
    enough (exists v, compute1 b t k = Ok v) as (v & Hv) by (rewrite (C0 b t k N) in Hv; discriminate).
    clear - F I. induction F as [|k' v ks vs Hv F IH]; [destruct I|].
    destruct I as [->|I]; [exists v; exact Hv|auto].
Qed.
Print Assumptions c86_compute.


(** An unknown name is a KeyError, whatever else is asked for and whatever the
    times. *)
Theorem c86_unknown : forall b t ks k, In k ks -> ~ In k names -> compute b t ks = Err KeyError.
Proof.
  intros b t ks k I N. unfold compute. destruct (find_nodes ks) as [[H _]|[_ ->]]; [|reflexivity].
  exfalso. apply N, H, I.
Qed.
Print Assumptions c86_unknown.

(** ** Values *)

Lemma amp0_exp : forall p t, exp_decay (q_a0 p) (q_d0 p) t = amp0 p t.
Proof. intros p t. unfold exp_decay, amp0, exp_decay_k. do 2 f_equal. unfold Rdiv. ring. Qed.
Lemma amp1_exp : forall p t, exp_decay (q_a1 p) (q_d1 p) t = amp1 p t.
Proof. intros p t. unfold exp_decay, amp1, exp_decay_k. do 2 f_equal. unfold Rdiv. ring. Qed.
Lemma damp_exp : forall p t, exp_decay_dt (q_a0 p) (q_d0 p) t = Derive (amp0 p) t /\
  exp_decay_dt (q_a1 p) (q_d1 p) t = Derive (amp1 p) t.
Proof.
  intros p t. destruct (proj2 (c42_modal p) t) as (H0 & H1 & _).
  split; symmetry; apply is_derive_unique.
  - eapply is_derive_ext; [|exact H0]. intros s. exact (amp0_exp p s).
  - eapply is_derive_ext; [|exact H1]. intros s. exact (amp1_exp p s).
Qed.

Lemma map2_same : forall (op : R -> R -> R) (g h : R -> R) ts,
  map2 op (map g ts) (map h ts) = map (fun t => op (g t) (h t)) ts.
Proof. intros op g h ts. unfold map2. induction ts as [|t ts IH]; [reflexivity|]. cbn. now rewrite <- IH. Qed.
Lemma vbin_same : forall op (g h : R -> R) ts, vbin op (Arr (map g ts)) (Arr (map h ts)) = Ok (Arr (map (fun t => op (g t) (h t)) ts)).
Proof. intros. cbn [vbin]. rewrite !map_length, Nat.eqb_refl, map2_same. reflexivity. Qed.

Lemma al_env : forall p t,
  al (exp_decay (q_a0 p) (q_d0 p)) (exp_decay (q_a1 p) (q_d1 p)) (fun _ => q_f0 p) (fun _ => q_f1 p)
     (fun _ => q_p0 p) (fun _ => q_p1 p) t = (beat_env p t / 2) ^ 2.
Proof.
  intros p t. pose proof (am_values p [t]) as H. rewrite am_formula in H. cbn [map] in H. injection H as H. rewrite <- H.
  unfold am_f. set (A := al _ _ _ _ _ _ _).
  replace (sqrt A * 2 / 2) with (sqrt A) by field.
  rewrite pow2_sqrt; [reflexivity|]. apply al_nonneg.
Qed.
Lemma env_alpha : forall p ts, n_alpha2 (modal_beat p) (Arr ts) = Ok (Arr (map (fun t => (beat_env p t / 2) ^ 2) ts)).
Proof.
  intros p ts. pose proof (proj1 (c42_modal p)) as W.
  destruct (n_alpha2_ok (modal_beat p) ts (wf_fits _ W)) as (v & -> & Rv & Kv). f_equal.
  rewrite (arr_eq _ v _ Rv Kv). f_equal. apply map_ext. intros t. apply al_env.
Qed.

Theorem c86_constants : forall p ts k v, In (k, v) (constants p) ->
  compute1 (modal_beat p) (Arr ts) k = Ok (Num v).
Proof.
  intros p ts k v H. unfold constants in H. cbn [In] in H.
  repeat (destruct H as [H|H]; [injection H as <- <-; unfold compute1, compute; cbn; do 2 f_equal; field|]).
  destruct H.
Qed.
Print Assumptions c86_constants.

Theorem c86_functions : forall p ts k g, In (k, g) (functions p) ->
  compute1 (modal_beat p) (Arr ts) k = Ok (Arr (map g ts)).
Proof.
  intros p ts k g H.
  assert (C : forall n, lookup k graph = Some n -> n (modal_beat p) (Arr ts) = Ok (Arr (map g ts)) ->
              compute1 (modal_beat p) (Arr ts) k = Ok (Arr (map g ts))).
  { intros n L E. unfold compute1, compute. cbn [mapM]. rewrite L. cbn [bind mapM]. rewrite E. reflexivity. }
  assert (E0 : n_a0 (modal_beat p) (Arr ts) = Arr (map (amp0 p) ts)).
  { cbn. f_equal. apply map_ext. intros; apply amp0_exp. }
  assert (E1 : n_a1 (modal_beat p) (Arr ts) = Arr (map (amp1 p) ts)).
  { cbn. f_equal. apply map_ext. intros; apply amp1_exp. }
  assert (EO : n_a_oln (modal_beat p) (Arr ts) = Ok (Arr (map (fun t => (amp0 p t + amp1 p t) / 2) ts))).
  { unfold n_a_oln. rewrite E0, E1. unfold vsemisum, vsemi. rewrite vbin_same. cbn [bind vmap]. rewrite map_map. reflexivity. }
  assert (EH : n_a_hat (modal_beat p) (Arr ts) = Ok (Arr (map (fun t => (amp0 p t - amp1 p t) / 2) ts))).
  { unfold n_a_hat. rewrite E0, E1. unfold vsemidiff, vsemi. rewrite vbin_same. cbn [bind vmap]. rewrite map_map. reflexivity. }
  unfold functions in H. cbn [In] in H.
  repeat (destruct H as [H|H]; [injection H as <- <-; eapply C; [reflexivity|]; cbv beta|]); [..|destruct H].
  - now rewrite map_id.
  - rewrite E0. reflexivity.
  - rewrite E1. reflexivity.
  - exact EO.
  - exact EH.
  - cbn. do 2 f_equal. apply map_ext. intros; apply damp_exp.
  - cbn. do 2 f_equal. apply map_ext. intros; apply damp_exp.
  - rewrite EO. cbn [bind vmap]. rewrite map_map. do 2 f_equal. apply map_ext. intros. unfold Rsqr. ring.
  - rewrite EH. cbn [bind vmap]. rewrite map_map. do 2 f_equal. apply map_ext. intros. unfold Rsqr. ring.
  - apply env_alpha.
  - apply am_values.
Qed.
Print Assumptions c86_functions.

Lemma g_values : forall p ts, n_g (modal_beat p) (Arr ts) =
  Ok (Arr (map (g_f (exp_decay (q_a0 p) (q_d0 p)) (exp_decay (q_a1 p) (q_d1 p))
                     (exp_decay_dt (q_a0 p) (q_d0 p)) (exp_decay_dt (q_a1 p) (q_d1 p))
                     (fun _ => q_f0 p) (fun _ => q_f1 p) (fun _ => q_p0 p) (fun _ => q_p1 p)) ts)).
Proof.
  intros p ts. pose proof (proj1 (c42_modal p)) as W.
  destruct (n_g_ok (modal_beat p) ts (wf_fits _ W) (proj1 W)) as (v & -> & Rv & Kv). f_equal.
  apply (arr_eq ts v _ Rv Kv).
Qed.

Theorem c86_frequencies : forall p ts k g, In (k, g) (frequencies p) ->
  (forall t, In t ts -> beat_env p t <> 0) ->
  compute1 (modal_beat p) (Arr ts) k = Ok (Arr (map g ts)).
Proof.
  intros p ts k g H Hn.
  assert (C : forall n, lookup k graph = Some n -> n (modal_beat p) (Arr ts) = Ok (Arr (map g ts)) ->
              compute1 (modal_beat p) (Arr ts) k = Ok (Arr (map g ts))).
  { intros n L E. unfold compute1, compute. cbn [mapM]. rewrite L. cbn [bind mapM]. rewrite E. reflexivity. }
  unfold frequencies in H. cbn [In] in H.
  destruct H as [H|[H|[]]]; injection H as <- <-; (eapply C; [reflexivity|]; cbv beta); clear C.
  - apply fm_values, Hn.
  - rewrite g_values, env_alpha. cbn [bind]. rewrite vbin_same. do 2 f_equal. apply map_ext_in. intros t It.
    specialize (Hn t It).
    pose proof (fm_values p [t]) as F. rewrite fm_formula in F. cbn [map] in F.
    specialize (F ltac:(intros s [<-|[]]; exact Hn)). injection F as F. rewrite <- F.
    unfold fm_f. rewrite al_env. unfold ao, ah. rewrite amp0_exp, amp1_exp.
    set (G := g_f _ _ _ _ _ _ _ _ t). field. exact Hn.
Qed.
Print Assumptions c86_frequencies.

(** Without a difference of decays, none of the modulation of the frequency is
    due to the change of the amplitudes. *)
Theorem c86_equal_decays : forall p ts, q_d0 p = q_d1 p ->
  compute1 (modal_beat p) (Arr ts) "fm_from_am" = Ok (Arr (map (fun _ => 0) ts)).
Proof.
  intros p ts E. unfold compute1, compute. cbn [mapM lookup graph String.eqb Ascii.eqb Bool.eqb bind].
  rewrite g_values, env_alpha. cbn [bind]. rewrite vbin_same. cbn [bind]. do 2 f_equal. apply map_ext. intros t.
  unfold g_f, exp_decay_dt, exp_decay. rewrite E. unfold Rdiv. ring.
Qed.
Print Assumptions c86_equal_decays.

(** The signal is the envelope times the cosine of the phase [pm]. *)
Theorem c86_signal : forall p ts, ts <> [] -> exists pm x,
  compute (modal_beat p) (Arr ts) ["pm"; "x"]%string = Ok [Arr pm; Arr x] /\
  List.length pm = List.length ts /\ List.length x = List.length ts /\
  forall i, (i < List.length ts)%nat -> nth i x 0 = beat_env p (nth i ts 0) * cos (nth i pm 0).
Proof.
  intros p ts Hne. pose proof (proj1 (c42_modal p)) as W.
  pose proof (n_pm_ok (modal_beat p) ts (wf_fits _ W) (proj1 W) Hne) as EP.
  pose proof (am_values p ts) as EA.
  set (pm := pm_list (modal_beat p) ts) in EP.
  assert (L : List.length pm = List.length ts).
  { unfold pm, pm_list, map2. rewrite map_length, combine_length, cumtrapz_length, map_length by (rewrite ?map_length; auto). lia. }
  exists pm, (map2 Rmult (map (beat_env p) ts) (map cos pm)).
  split; [|split; [exact L|split]].
  - unfold compute. cbn [mapM lookup graph String.eqb Ascii.eqb Bool.eqb bind].
    rewrite EP. unfold n_x. rewrite EA, EP. cbn [bind vmap vbin]. rewrite !map_length, L, Nat.eqb_refl. reflexivity.
  - unfold map2. rewrite map_length, combine_length, !map_length, L. lia.
  - intros i Hi. unfold map2. rewrite (nth_map_lt _ _ _ (0, 0) 0).
    + rewrite combine_nth by (rewrite !map_length; auto). cbn [fst snd].
      rewrite (nth_map_lt _ _ _ 0 0) by auto.
      rewrite (nth_map_lt _ _ _ 0 0) by lia. reflexivity.
    + rewrite combine_length, !map_length, L. lia.
Qed.
Print Assumptions c86_signal.

(** ** Attributes, predictions, copies *)

(** Each name is a method of the object that computes the variable, every other
    name is an AttributeError. *)
Theorem c86_attribute : forall limit b k, 
  (In k names -> beat_getattr (S limit) (Some b) k = Ok (fun t => compute1 b t k)) /\
  (~ In k names -> beat_getattr (S limit) (Some b) k = Err AttributeError).
Proof.
  intros limit b k. cbn [beat_getattr]. change variables with names.
  destruct (existsb (String.eqb k) names) eqn:E.
  - split; [reflexivity|]. intros N. exfalso. apply N. apply existsb_exists in E.
    destruct E as (k' & I & Ek). apply String.eqb_eq in Ek. subst. exact I.
  - split; [|reflexivity]. intros I. exfalso.
    assert (existsb (String.eqb k) names = true); [|congruence].
    apply existsb_exists. exists k. split; [exact I|apply String.eqb_refl].
Qed.
Print Assumptions c86_attribute.

(** Predictions: the signal if no name is given; a column of times is as good as
    one axis. *)
Theorem c86_predict : forall b ts,
  (forall names, beat_predict b (Column ts) names = beat_predict b (Flat ts) names) /\
  beat_predict b (Flat ts) [] = beat_predict b (Flat ts) ["x"%string] /\
  (List.length ts <> 1%nat -> forall k ks, beat_predict b (Flat ts) (k :: ks) = compute b (Arr ts) (k :: ks)).
Proof.
  intros b ts. split; [reflexivity|]. split; [reflexivity|].
  intros L k ks. unfold beat_predict, squeeze_times. cbn [time_list].
  destruct ts as [|t [|t' ts]]; try reflexivity. exfalso. apply L. reflexivity.
Qed.
Print Assumptions c86_predict.

(** At one single time the signal cannot be predicted, though it is computed for
    an array of that time. *)
Theorem c86_single_refuted : forall p t,
  beat_predict (modal_beat p) (Flat [t]) [] = Err ValueError /\
  exists x, compute (modal_beat p) (Arr [t]) ["x"%string] = Ok [Arr [x]].
Proof.
  intros p t. split; [reflexivity|].
  eexists. cbn. reflexivity.
Qed.
Print Assumptions c86_single_refuted.

(** Not one array for each output, as documented: frequencies and phases of a
    fitted beat are numbers. *)
Theorem c86_scalar_refuted : forall p ts, List.length ts <> 1%nat ->
  beat_predict (modal_beat p) (Flat ts) ["f0"; "w_hat"]%string = Ok [Num (q_f0 p); Num (PI * (q_f0 p - q_f1 p))].
Proof.
  intros p ts L. destruct (c86_predict (modal_beat p) ts) as (_ & _ & H). rewrite (H L).
  apply c86_compute. repeat constructor; apply c86_constants; cbn; auto 20.
Qed.
Print Assumptions c86_scalar_refuted.

(** A beat cannot be copied. *)
Theorem c86_copy_refuted : forall limit b, copy_beat limit b = Err RecursionError.
Proof.
  intros limit b. unfold copy_beat.
  assert (H : forall n k, beat_getattr n None k = Err RecursionError).
  { induction n as [|n IH]; intros k; [reflexivity|]. cbn [beat_getattr]. rewrite IH. reflexivity. }
  rewrite H. reflexivity.
Qed.
Print Assumptions c86_copy_refuted.

Example c86_example : let p := mkParams 2 1 101 99 1 1 0 0 in
  compute (modal_beat p) (Arr [0; 1]) ["f_oln"; "t"; "f0"]%string = Ok [Num 100; Arr [0; 1]; Num 101] /\
  compute (modal_beat p) (Num 0) ["f_oln"; "y"]%string = Err KeyError /\
  compute1 (modal_beat p) (Arr [0]) "am" = Ok (Arr [3]) /\
  (forall limit, beat_getattr (S limit) (Some (modal_beat p)) "y" = Err AttributeError).
Proof.
  intros p. split; [|split; [|split]].
  - apply c86_compute. constructor; [|constructor; [|constructor; [|constructor]]].
    + rewrite (c86_constants p _ "f_oln" ((101 + 99) / 2)) by (cbn; auto 20). do 2 f_equal. field.
    + rewrite (c86_functions p _ "t" (fun t => t)) by (cbn; auto). reflexivity.
    + apply c86_constants. cbn. auto.
  - apply (c86_unknown _ _ _ "y"); [cbn; auto|]. intros H. repeat (destruct H as [H|H]; [discriminate H|]). exact H.
  - rewrite (c86_functions p [0] "am" (beat_env p)) by (cbn; auto 20). cbn [map]. do 3 f_equal.
    unfold beat_env, beat_re, beat_im, p. cbn [q_a0 q_a1 q_f0 q_f1 q_d0 q_d1 q_p0 q_p1].
    rewrite !Rmult_0_r. replace (0 / 1) with 0 by field. rewrite exp_0, !Rplus_0_l, cos_0, sin_0.
    replace ((2 * 1 * 1 + 1 * 1 * 1) ^ 2 + (2 * 1 * 0 + 1 * 1 * 0) ^ 2) with (3 * 3) by ring.
    apply sqrt_square. lra.
  - intros limit. apply c86_attribute. intros H. repeat (destruct H as [H|H]; [discriminate H|]). exact H.
Qed.

(** ** C87 *)

(** Spec: a decaying sinusoid, and the sound of a track: of two partials if the
    fitted beat has two different frequencies and two amplitudes, else of one
    partial. *)
Definition partial (f d a ph t : R) : R := a * exp (- 2 * t / d) * cos (2 * PI * f * t + ph).
Definition track_sound (th : R) (tr : res params * (R * R * R)) (g : R -> R) : Prop :=
  exists p, fst tr = Ok p /\
    let '(f, d, a) := snd tr in
    let beats := th * / 2 ^ 52 < Rabs (q_f0 p - q_f1 p) /\ th * / 2 ^ 52 < Rabs (q_a0 p) /\
                 th * / 2 ^ 52 < Rabs (q_a1 p) in
    (beats -> forall t, g t = partial (q_f0 p) (q_d0 p) (q_a0 p) (q_p0 p) t +
                              partial (q_f1 p) (q_d1 p) (q_a1 p) (q_p1 p) t) /\
    (~ beats -> forall t, g t = partial f d a 0 t).
Definition column_sound (c : quad) (t : R) : R := let '(f, d, a, ph) := c in partial f d a ph t.

Definition cols_modes (cols : list quad) : modes :=
  mkModes (map (fun c => fst (fst (fst c))) cols) (map (fun c => snd (fst (fst c))) cols)
          (map (fun c => snd (fst c)) cols).
Lemma cols_same : forall cols, same_size (cols_modes cols).
Proof. intros cols. split; cbn; rewrite !map_length; reflexivity. Qed.

Lemma nth_cols : forall (g : quad -> R) cols i, (i < List.length cols)%nat ->
  nth i (map g cols) 0 = g (nth i cols (0, 0, 0, 0)).
Proof. intros g cols i Hi. apply nth_map_lt. exact Hi. Qed.

Lemma super_cols : forall cols idx ps t, (forall i, In i idx -> (i < List.length cols)%nat) ->
  superposition cos (pick idx (m_freqs (cols_modes cols))) (pick idx (m_decays (cols_modes cols)))
    (pick idx (m_amps (cols_modes cols))) (pick idx ps) t =
  rsum (map (fun i => let '(f, d, a, _) := nth i cols (0, 0, 0, 0) in partial f d a (nth i ps 0) t) idx).
Proof.
  intros cols idx ps t H. unfold superposition. f_equal. unfold pick at 5. rewrite map_length.
  transitivity (map (fun j => let i := nth j idx O in
     let '(f, d, a, _) := nth i cols (0, 0, 0, 0) in partial f d a (nth i ps 0) t) (seq 0 (List.length idx))).
  - apply map_ext_in. intros j Hj. apply in_seq in Hj. cbv zeta. unfold pick, cols_modes. cbn [m_freqs m_decays m_amps].
    assert (HI : (nth j idx O < List.length cols)%nat) by (apply H, nth_In; lia).
    rewrite !(nth_map_lt _ _ _ O 0 idx) by lia. rewrite !nth_cols by exact HI.
    destruct (nth (nth j idx O) cols _) as [[[f d] a] q]. reflexivity.
  - rewrite <- (map_map (fun j => nth j idx O) (fun i => let '(f, d, a, _) := nth i cols (0, 0, 0, 0) in partial f d a (nth i ps 0) t)).
    f_equal. apply (nth_ext _ _ O O); rewrite ?map_length, ?seq_length; [reflexivity|]. intros n Hn.
    rewrite (nth_map_lt _ _ _ O O) by (rewrite seq_length; lia). rewrite seq_nth by lia. reflexivity.
Qed.

Lemma super_all : forall cols t,
  superposition cos (m_freqs (cols_modes cols)) (m_decays (cols_modes cols)) (m_amps (cols_modes cols)) (map snd cols) t =
  rsum (map (fun c => column_sound c t) cols).
Proof.
  intros cols t. unfold superposition. f_equal. cbn [cols_modes m_freqs m_decays m_amps]. rewrite map_length.
  apply (nth_ext _ _ 0 0); rewrite ?map_length, ?seq_length; [reflexivity|]. intros n Hn.
  rewrite (nth_map_lt _ _ _ O 0 (seq _ _)) by (rewrite seq_length; lia). rewrite seq_nth by lia. cbn [Nat.add].
  rewrite !nth_cols by exact Hn. unfold column_sound. destruct (nth n cols _) as [[[f d] a] q]. reflexivity.
Qed.

(** The resynthesis of everything is the sum of the sounds of the tracks, in any
    order of the modes. *)
Theorem c87_sound : forall argsort draw th tracks cols x order reverse,
  is_argsort argsort -> known_order order -> beatsdrop_columns th tracks = Ok cols ->
  exists sounds, Forall2 (track_sound th) tracks sounds /\
    beatsdrop_predict argsort cos draw None cols x None order reverse None =
      Ok (map (fun t => rsum (map (fun g => g t) sounds)) x).
Proof.
  intros argsort draw th tracks cols x order reverse HA HK EC.
  assert (EP : beatsdrop_predict argsort cos draw None cols x None order reverse None =
    Ok (map (fun t => rsum (map (fun c => column_sound c t) cols)) x)).
  { unfold beatsdrop_predict. rewrite predict_all; auto.
    - f_equal. apply map_ext. intros t. apply super_all.
    - apply cols_same.
    - cbn. rewrite !map_length. reflexivity.
    - unfold n_played, slice_bound. set (n := zlen _). assert (0 <= n)%Z by (unfold n, zlen; lia).
      destruct (Z.ltb_spec n 0); lia. }
  destruct (c60_columns th tracks cols EC) as (groups & Eg & F).
  exists (map (fun g t => rsum (map (fun c => column_sound c t) g)) groups). split.
  - clear - F. induction F as [|tr g tracks groups (p & E & H) F IH]; [constructor|]. constructor; [|exact IH].
    exists p. split; [exact E|]. destruct (snd tr) as [[f d] a]. cbv zeta in H |- *. destruct H as [H1 H2]. split.
    + intros B t. rewrite (H1 B). cbn [map rsum fold_right column_sound]. ring.
    + intros B t. rewrite (H2 B). cbn [map rsum fold_right column_sound]. ring.
  - rewrite EP. f_equal. apply map_ext. intros t. rewrite Eg, map_map. clear.
    induction groups as [|g groups IH]; [reflexivity|]. cbn [concat]. rewrite map_app, rsum_app. cbn [map].
    change (rsum (?v :: ?l)) with (v + rsum l). rewrite IH. reflexivity.
Qed.
Print Assumptions c87_sound.

(** With a number of modes: that many different modes, each with its own phase
    or with the given one, and none of the others has more energy. *)
Theorem c87_strongest : forall argsort draw mx cols x k ph,
  is_argsort argsort -> (0 <= k)%Z -> (forall ps, ph = Some ps -> List.length ps = List.length cols) ->
  exists idx,
    beatsdrop_predict argsort cos draw mx cols x (Some k) "energies" true (option_map PArr ph) =
      Ok (map (fun t => rsum (map (fun i => let '(f, d, a, q) := nth i cols (0, 0, 0, 0) in
            partial f d a (match ph with None => q | Some ps => nth i ps 0 end) t) idx)) x) /\
    NoDup idx /\ (forall i, In i idx -> (i < List.length cols)%nat) /\
    Z.of_nat (List.length idx) = Z.min k (Z.of_nat (List.length cols)) /\
    (forall i j, In i idx -> (j < List.length cols)%nat -> ~ In j idx ->
       let energy := fun c : quad => let '(_, d, a, _) := c in a ^ 2 * d / 4 in
       energy (nth j cols (0, 0, 0, 0)) <= energy (nth i cols (0, 0, 0, 0))).
Proof.
  intros argsort draw mx cols x k ph HA Hk HP.
  set (ps := match ph with None => map snd cols | Some ps => ps end).
  assert (Lp : List.length ps = List.length (m_freqs (cols_modes cols))).
  { unfold ps. cbn. rewrite map_length. destruct ph as [l|]; [auto|apply map_length]. }
  destruct (c22_predict_strongest argsort cos draw mx (cols_modes cols) x k "energies" ps HA (cols_same cols)
              (or_introl eq_refl) Lp Hk) as (idx & E & ND & IN & L & T).
  assert (LC : List.length (m_freqs (cols_modes cols)) = List.length cols) by (cbn; apply map_length).
  rewrite LC in *. exists idx. split; [|split; [exact ND|split; [exact IN|split; [exact L|]]]].
  - transitivity (predict argsort cos draw mx (cols_modes cols) x (Some k) "energies" true (Some (PArr ps))).
    { unfold beatsdrop_predict, ps. destruct ph; reflexivity. }
    rewrite E. f_equal. apply map_ext. intros t. rewrite super_cols by exact IN. f_equal. apply map_ext_in. intros i Hi.
    unfold ps. destruct ph as [l|].
    + reflexivity.
    + rewrite nth_cols by auto. destruct (nth i cols _) as [[[f d] a] q]. reflexivity.
  - intros i j Hi Hj Nj. specialize (T i j Hi Hj Nj). cbv zeta. unfold feature_of in T. cbn [String.eqb Ascii.eqb Bool.eqb] in T.
    cbn [cols_modes m_amps m_decays] in T. rewrite !nth_cols in T by auto.
    destruct (nth i cols _) as [[[f d] a] q], (nth j cols _) as [[[f' d'] a'] q']. exact T.
Qed.
Print Assumptions c87_strongest.

(** [phases=None] does not stand for the learned phases. *)
Theorem c87_none_refuted : forall argsort draw mx cols x n reverse, is_argsort argsort ->
  beatsdrop_predict argsort cos draw mx cols x n "energies" reverse (Some PNone) = Err TypeError.
Proof.
  intros argsort draw mx cols x n reverse HA. unfold beatsdrop_predict, predict.
  destruct (argsort_modes argsort (cols_modes cols) "energies" reverse HA (cols_same cols) (or_introl eq_refl)) as (ord & E & _).
  unfold cols_modes in E. rewrite E. reflexivity.
Qed.
Print Assumptions c87_none_refuted.

Example c87_example : exists argsort sounds, is_argsort argsort /\
  Forall2 (track_sound 1) [(Ok (mkParams 1 2 3 4 5 6 7 8), (10, 11, 12)); (Ok (mkParams 1 0 3 4 5 6 7 8), (10, 11, 12))] sounds /\
  beatsdrop_predict argsort cos (fun n => repeat 0 n) None [(3, 5, 1, 7); (4, 6, 2, 8); (10, 11, 12, 0)] [0; 1] None
    "freqs" false None = Ok (map (fun t => rsum (map (fun g => g t) sounds)) [0; 1]).
Proof.
  destruct exists_argsort as (argsort & HA). exists argsort.
  destruct (c87_sound argsort (fun n => repeat 0 n) 1 _ _ [0; 1] "freqs" false HA ltac:(unfold known_order; auto) c60_example)
    as (sounds & F & E).
  exists sounds. auto.
Qed.
