(** Energy of a mode as an improper integral. *)
From Coq Require Import Reals Lra.
From Coquelicot Require Import Coquelicot.
From Verif Require Import Base Sample_Model.
Local Open Scope R_scope.

Lemma energy_until : forall a d T, 0 < d ->
  is_RInt (fun t => (a * exp (-2 * t / d)) ^ 2) 0 T
          (modal_energy a d * (1 - exp (-4 * T / d))).
Proof.
  intros a d T Hd.
  set (F := fun t => - (a * a * d / 4) * exp (-4 * t / d)).
  assert (E : modal_energy a d * (1 - exp (-4 * T / d)) = minus (F T) (F 0)).
  { unfold minus, plus, opp, F, modal_energy. simpl.
    replace (-4 * 0 / d) with 0 by (field; lra). rewrite exp_0. ring. }
  rewrite E. apply (is_RInt_derive F).
  - intros t _. unfold F. auto_derive; [lra|].
    replace (-4 * t * / d) with (-2 * t / d + -2 * t / d) by (field; lra).
    rewrite exp_plus. field. lra.
  - intros t _. apply (ex_derive_continuous (fun t => (a * exp (-2 * t / d)) ^ 2)).
    auto_derive. lra.
Qed.

Lemma energy_total : forall a d, 0 < d ->
  is_lim (fun T => RInt (fun t => (a * exp (-2 * t / d)) ^ 2) 0 T) p_infty
         (modal_energy a d).
Proof.
  intros a d Hd.
  apply (is_lim_ext (fun T => modal_energy a d * (1 - exp (-4 * T / d)))).
  { intro T. symmetry. apply is_RInt_unique. now apply energy_until. }
  assert (L : is_lim (fun T => exp (-4 * T / d)) p_infty 0).
  { apply (is_lim_comp exp (fun T => -4 * T / d) p_infty 0 m_infty).
    - apply is_lim_exp_m.
    - apply (is_lim_ext (fun T => (-4 / d) * T)). { intro. field. lra. }
      replace m_infty with (Rbar_mult (-4 / d) p_infty).
      + apply is_lim_scal_l. apply is_lim_id.
      + apply is_Rbar_mult_unique, is_Rbar_mult_sym, is_Rbar_mult_p_infty_neg. simpl.
        apply Ropp_lt_cancel. rewrite Ropp_0. replace (- (-4 / d)) with (4 / d) by (field; lra).
        apply Rdiv_lt_0_compat; lra.
    - exists 0. intros y _. discriminate. }
  replace (Finite (modal_energy a d)) with (Rbar_mult (modal_energy a d) (Rbar_minus 1 0)).
  - apply is_lim_scal_l. eapply is_lim_minus; [apply is_lim_const|exact L|].
    reflexivity.
  - simpl. f_equal. ring.
Qed.

Lemma energy_nonneg : forall a d, 0 < d -> 0 <= modal_energy a d.
Proof. intros. unfold modal_energy. assert (0 <= a * a) by nra. nra. Qed.

Lemma energy_order : forall a d a' d', 0 < d -> 0 <= a -> a <= a' -> d <= d' ->
  modal_energy a d <= modal_energy a' d'.
Proof.
  intros. unfold modal_energy. assert (a * a <= a' * a') by nra.
  assert (0 <= a * a) by nra. nra.
Qed.
