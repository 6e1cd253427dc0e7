(** The programs of Psycho_Model compute elementwise formulas. *)
From Coq Require Import String List Bool ZArith Reals Lra Lia.
Import ListNotations.
From Verif Require Import Base Np_Model Np_Lemmas Sample_Model Psycho_Model.
Local Open Scope R_scope.

Ltac elementwise_tac unf :=
  intros; intros m f out Hf Ho HL;
  unf; unfold bindM;
  destruct (Nat.eq_dec f out) as [<-|Hn];
  repeat np_step;
  (eexists; split; [reflexivity|]; split;
   [addr; np_norm; apply map_ext; intro; try reflexivity
   |split; [simpl; lia|intros l Hl Hne; addr; reflexivity]]).

Lemma hz2bark_zwicker_ok : forall junk,
  elementwise (fun x => 13 * atan (76 / 100000 * x) + 35 / 10 * atan (x / 7500 * (x / 7500)))
    (hz2bark_zwicker junk).
Proof. elementwise_tac ltac:(unfold hz2bark_zwicker). Qed.
Lemma hz2bark_traunmuller_ok : forall junk,
  elementwise (fun x => 2681 / 100 * x / (1960 + x) - 53 / 100) (hz2bark_traunmuller junk).
Proof. elementwise_tac ltac:(unfold hz2bark_traunmuller). Qed.
Lemma hz2bark_wang_ok : elementwise (fun x => 6 * arcsinh (x / 600)) hz2bark_wang.
Proof. elementwise_tac ltac:(unfold hz2bark_wang). Qed.
Lemma bark2hz_traunmuller_ok : forall junk,
  elementwise (fun x => (53 / 100 + x) / (2628 / 100 - x) * 1960) (bark2hz_traunmuller junk).
Proof. elementwise_tac ltac:(unfold bark2hz_traunmuller). Qed.
Lemma bark2hz_wang_ok : elementwise (fun x => 600 * sinh (x / 6)) bark2hz_wang.
Proof. elementwise_tac ltac:(unfold bark2hz_wang). Qed.
Lemma hz2mel_ok : elementwise (fun x => 2595 * log10 (1 + x / 700)) hz2mel.
Proof. elementwise_tac ltac:(unfold hz2mel). Qed.
Lemma mel2hz_ok : elementwise (fun x => (Rpower 10 (x / 2595) - 1) * 700) mel2hz.
Proof. elementwise_tac ltac:(unfold mel2hz). Qed.
Lemma hz2mel_fant_ok : elementwise (fun x => 1000 * log2 (1 + x / 1000)) hz2mel_fant.
Proof. elementwise_tac ltac:(unfold hz2mel_fant). Qed.
Lemma mel2hz_fant_ok : elementwise (fun x => (Rpower 2 (x / 1000) - 1) * 1000) mel2hz_fant.
Proof. elementwise_tac ltac:(unfold mel2hz_fant). Qed.
Lemma erb_ok : forall junk, elementwise erb_value (erb junk).
Proof. elementwise_tac ltac:(unfold erb). Qed.
Lemma erb_linear_ok : elementwise (fun x => 247 / 10 * (437 / 100000 * x + 1)) erb_linear.
Proof. elementwise_tac ltac:(unfold erb_linear). Qed.
Lemma hz2cams_ok : forall junk,
  elementwise (fun x => 1117 / 100 * ln ((x + 312) / (x + 14675)) + 43) (hz2cams junk).
Proof. elementwise_tac ltac:(unfold hz2cams). Qed.
Lemma hz2cams_linear_ok :
  elementwise (fun x => 214 / 10 * log10 (1 + 437 / 100000 * x)) hz2cams_linear.
Proof. elementwise_tac ltac:(unfold hz2cams_linear). Qed.
Lemma cams2hz_ok : forall junk,
  elementwise (fun x => (312 - 14675 * exp ((x - 43) / (1117 / 100)))
                        / (exp ((x - 43) / (1117 / 100)) - 1)) (cams2hz junk).
Proof. elementwise_tac ltac:(unfold cams2hz). Qed.
Lemma cams2hz_linear_ok :
  elementwise (fun x => (Rpower 10 (x / (214 / 10)) - 1) / (437 / 100000)) cams2hz_linear.
Proof. elementwise_tac ltac:(unfold cams2hz_linear). Qed.
Lemma db2a_ok : elementwise (fun x => Rpower 10 (x / 20)) db2a_np.
Proof. elementwise_tac ltac:(unfold db2a_np). Qed.
Lemma a2db_floorless_ok : elementwise (fun x => 20 * log10 x) a2db_floorless.
Proof. elementwise_tac ltac:(unfold a2db_floorless). Qed.
Lemma a_weighting_lin_ok : forall junk,
  elementwise (fun x =>
    148693636 * (x * x * (x * x))
    / (sqrt ((x * x + 1159929 / 100) * (x * x + 54449641 / 100))
       * (x * x + 42436 / 100) * (x * x + 148693636))) (a_weighting_lin junk).
Proof. elementwise_tac ltac:(unfold a_weighting_lin). Qed.
Lemma gt_envelope_ok : forall junk n t_c b,
  elementwise (fun t => exp (-2 * PI * b * (t + t_c))
                        * ((t + t_c) ^ (n - 1) * (if Rle_lt_dec 0 (t + t_c) then 1 else 0)))
    (gt_envelope junk n t_c b).
Proof. elementwise_tac ltac:(unfold gt_envelope). Qed.

Ltac elementwise2_tac unf :=
  intros; intros m x y out Hx Hy Ho HLx HLy Hok;
  unf; unfold bindM;
  destruct (Nat.eq_dec x out) as [->|Hn1]; destruct (Nat.eq_dec y out) as [->|Hn2];
  try (exfalso; tauto);
  repeat np_step;
  (eexists; split; [reflexivity|]; split;
   [addr; np_norm; try rewrite map2_nest_l by lia; np_norm; try (apply map2_ext; intros; reflexivity);
    try (apply map_ext; intro; reflexivity)
   |split; [simpl; lia|intros l Hl Hne; addr; reflexivity]]).

Lemma semisum_ok : elementwise2 (fun x y => (x + y) / 2) (fun x y => semisum y x) (fun _ _ _ => True).
Proof. elementwise2_tac ltac:(unfold semisum). Qed.
Lemma semidiff_ok : elementwise2 (fun x y => (x - y) / 2) (fun x y => semidiff y x) (fun _ _ _ => True).
Proof. elementwise2_tac ltac:(unfold semidiff). Qed.
Lemma modal_energy_ok :
  elementwise2 (fun a d => a * a * d / 4) (fun a d => modal_energy_np d a) (fun a d out => out <> d).
Proof. elementwise2_tac ltac:(unfold modal_energy_np). Qed.
Lemma a2db_floored_ok :
  elementwise2 (fun a fl => 20 * log10 (Rmax a fl)) (fun a fl => a2db_floored fl a) (fun _ _ _ => True).
Proof. elementwise2_tac ltac:(unfold a2db_floored, a2db_floorless). Qed.

Lemma a2db_np_floor : forall junk floor_db m a fl out,
  (a < next m)%nat -> (fl < next m)%nat -> (out < next m)%nat ->
  List.length (cells m a) = List.length (cells m out) ->
  List.length (cells m fl) = List.length (cells m out) ->
  exists m', a2db_np junk (Some fl) floor_db a out m = Ok (out, m') /\
    cells m' out = map2 (fun x f => 20 * log10 (Rmax x (if floor_db : bool then Rpower 10 (f / 20) else f)))
                        (cells m a) (cells m fl) /\
    forall l, (l < next m)%nat -> l <> out -> cells m' l = cells m l.
Proof.
  intros junk floor_db m a fl out Ha Hfl Ho La Lf. unfold a2db_np, bindM. destruct floor_db.
  - destruct (numpy_out_elementwise junk _ _ db2a_ok m fl None Hfl) as (r & m1 & R & E & C & N & Nr & F).
    { intros o H. discriminate. }
    rewrite R. subst r.
    assert (Fa : cells m1 a = cells m a) by (apply F; [auto|discriminate]).
    assert (Fo : cells m1 out = cells m out) by (apply F; [auto|discriminate]).
    destruct (a2db_floored_ok m1 a (next m) out) as (m2 & R2 & C2 & N2 & F2);
      try lia; auto.
    { now rewrite Fa, Fo. }
    { now rewrite C, map_length, Fo. }
    exists m2. split; [exact R2|]. split.
    + rewrite C2, C, Fa, map2_map_r. reflexivity.
    + intros l Hl Hn. rewrite F2 by (auto; lia). apply F; [auto|discriminate].
  - unfold ret. destruct (a2db_floored_ok m a fl out) as (m2 & R2 & C2 & N2 & F2); auto.
    exists m2. auto.
Qed.

Lemma a2db_np_none : forall junk b, elementwise (fun x => 20 * log10 x) (a2db_np junk None b).
Proof. intros. exact a2db_floorless_ok. Qed.

Lemma a_1kHz : forall junk, exists ref, a_weight_1kHz_db junk = Ok ref /\
  call junk (a2db_np junk None false)
    (map (fun x : R =>
      148693636 * (x * x * (x * x))
      / (sqrt ((x * x + 1159929 / 100) * (x * x + 54449641 / 100))
       * (x * x + 42436 / 100) * (x * x + 148693636))) [1000]) = Ok [ref].
Proof.
  intro junk. unfold a_weight_1kHz_db.
  rewrite (call_elementwise _ _ _ _ (a_weighting_lin_ok junk)).
  rewrite (call_elementwise _ _ _ _ (a2db_np_none junk false)). simpl.
  eexists. split; reflexivity.
Qed.

Definition a_lin (x : R) : R :=
  148693636 * (x * x * (x * x))
  / (sqrt ((x * x + 1159929 / 100) * (x * x + 54449641 / 100))
     * (x * x + 42436 / 100) * (x * x + 148693636)).

(** With [db=True] the linear weights are left in [out] and the result is
    another array. *)
Lemma a_weighting_db_run : forall junk m f out, (f < next m)%nat -> (out < next m)%nat ->
  List.length (cells m f) = List.length (cells m out) ->
  exists r m', a_weighting_db junk f out m = Ok (r, m') /\ (next m <= r)%nat /\
    cells m' r = map (fun x => 20 * log10 (a_lin x) - 20 * log10 (a_lin 1000)) (cells m f) /\
    cells m' out = map a_lin (cells m f) /\
    forall l, (l < next m)%nat -> l <> out -> cells m' l = cells m l.
Proof.
  intros junk m f out Hf Ho HL. unfold a_weighting_db.
  destruct (numpy_out_elementwise junk _ _ (a_weighting_lin_ok junk) m f (Some out) Hf)
    as (r1 & m1 & R1 & E1 & C1 & N1 & B1 & F1).
  { intros o E. inversion E; subst. auto. }
  unfold bindM at 1. rewrite R1. subst r1.
  destruct (numpy_out_elementwise junk _ _ (a2db_np_none junk false) m1 out None B1)
    as (r2 & m2 & R2 & E2 & C2 & N2 & B2 & F2).
  { intros o E. discriminate. }
  unfold bindM at 1. rewrite R2. subst r2.
  destruct (a_1kHz junk) as (ref & -> & K).
  rewrite (call_elementwise _ _ _ _ (a2db_np_none junk false)) in K. simpl in K.
  inversion K as [K']. clear K. fold (a_lin 1000) in K'. fold (a_lin 1000).
  unfold bindM. rewrite empty_like_run.
  rewrite un_run by (rewrite alloc_same, alloc_other by lia; now rewrite map_length, seq_length).
  eexists _, _. split; [reflexivity|]. split; [lia|]. split; [|split].
  - rewrite store_same, alloc_other by lia. rewrite C2, C1, !map_map. reflexivity.
  - rewrite store_other, alloc_other by lia. rewrite F2 by (auto; discriminate). rewrite C1.
    reflexivity.
  - intros l Hl Hn. rewrite store_other, alloc_other by lia.
    rewrite F2 by (try lia; discriminate). apply F1; [auto|congruence].
Qed.

(** [wavefun] without [out], or with an array other than the time axis. *)
Lemma wavefun_fresh : forall junk g m t out, (t < next m)%nat ->
  (forall o, out = Some o -> (o < next m)%nat /\ o <> t /\
     List.length (cells m t) = List.length (cells m o)) ->
  exists r m', wavefun junk g t out m = Ok (r, m') /\
    cells m' r = map (fun x => (exp (-2 * PI * bandwidth g * (x + t_c g))
                        * ((x + t_c g) ^ (gt_n g - 1)
                           * (if Rle_lt_dec 0 (x + t_c g) then 1 else 0)))
                       * cos (2 * PI * gt_f g * x + phi g)) (cells m t).
Proof.
  intros junk g m t out Ht Ho. unfold wavefun.
  destruct (numpy_out_elementwise junk _ _
      (gt_envelope_ok junk (gt_n g) (t_c g) (bandwidth g)) m t out Ht)
    as (r & m1 & R1 & E1 & C1 & N1 & B1 & F1).
  { intros o E. destruct (Ho o E) as (A & _ & B). auto. }
  unfold bindM at 1.
  change (numpy_out junk (envelope_of junk g) t out m)
    with (numpy_out junk (gt_envelope junk (gt_n g) (t_c g) (bandwidth g)) t out m).
  rewrite R1.
  assert (Ft : cells m1 t = cells m t).
  { apply F1; auto. intro E. destruct (Ho t (eq_sym E)) as (_ & K & _). congruence. }
  assert (Nt : r <> t).
  { destruct out as [o|]; [subst r; destruct (Ho o eq_refl) as (_ & K & _); auto|].
    subst r. lia. }
  assert (HL : List.length (cells m1 t) = List.length (cells m1 r)).
  { now rewrite Ft, C1, map_length. }
  clear -C1 Ft Nt HL B1 Ht N1. unfold bindM.
  repeat np_step. eexists _, _. split; [reflexivity|].
  addr. rewrite C1, Ft. np_norm. reflexivity.
Qed.

(** [wavefun(t, out=t)] uses the envelope as time axis. *)
Lemma wavefun_inplace : forall junk g m t, (t < next m)%nat ->
  exists m', wavefun junk g t (Some t) m = Ok (t, m') /\
    cells m' t = map (fun x =>
        let e := exp (-2 * PI * bandwidth g * (x + t_c g))
                 * ((x + t_c g) ^ (gt_n g - 1)
                    * (if Rle_lt_dec 0 (x + t_c g) then 1 else 0)) in
        e * cos (2 * PI * gt_f g * e + phi g)) (cells m t).
Proof.
  intros junk g m t Ht. unfold wavefun.
  destruct (numpy_out_elementwise junk _ _
      (gt_envelope_ok junk (gt_n g) (t_c g) (bandwidth g)) m t (Some t) Ht)
    as (r & m1 & R1 & E1 & C1 & N1 & B1 & F1).
  { intros o E. inversion E; subst. auto. }
  subst r. unfold bindM at 1.
  change (numpy_out junk (envelope_of junk g) t (Some t) m)
    with (numpy_out junk (gt_envelope junk (gt_n g) (t_c g) (bandwidth g)) t (Some t) m).
  rewrite R1.
  clear -C1 B1 Ht N1. unfold bindM.
  repeat np_step. eexists. split; [reflexivity|].
  addr. np_norm. rewrite C1. np_norm. reflexivity.
Qed.

(** [modal_energy(a, d, out=d)] squares the amplitude twice. *)
Lemma modal_energy_out_d : forall m a d, (a < next m)%nat -> (d < next m)%nat ->
  List.length (cells m a) = List.length (cells m d) ->
  exists m', modal_energy_np d a d m = Ok (d, m') /\
    cells m' d = map (fun x => x * x * (x * x) / 4) (cells m a).
Proof.
  intros m a d Ha Hd HL. unfold modal_energy_np, bindM.
  destruct (Nat.eq_dec a d) as [->|Hn]; repeat np_step;
    (eexists; split; [reflexivity|]; addr; np_norm; reflexivity).
Qed.
