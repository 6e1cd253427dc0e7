(** Proofs about convolutions with complex impulse responses and inputs. *)
From Coq Require Import String List Bool ZArith Reals Lra Lia.
Import ListNotations.
From Verif Require Import Base Py RLists PyLemmas Stft_Model Dsp_Model Dsp_Proofs Conv_Proofs Sample_Model Psycho_Model Gamma_Model.
Local Open Scope R_scope.

Definition rmap {A B} (f : A -> B) (r : res A) : res B := match r with Ok v => Ok (f v) | Err e => Err e end.

Lemma zlen_map : forall A B (f : A -> B) l, zlen (map f l) = zlen l.
Proof. intros. unfold zlen. now rewrite map_length. Qed.

Lemma set_slice_map : forall A B (f : A -> B) lo hi src l,
  set_slice lo hi (map f src) (map f l) = rmap (map f) (set_slice lo hi src l).
Proof.
  intros A B f lo hi src l. unfold set_slice. rewrite zlen_map, map_length.
  destruct (Nat.eqb _ _); [cbn [rmap]; now rewrite !map_app, firstn_map, skipn_map|].
  destruct src as [|v [|w src]]; cbn [map rmap]; try reflexivity.
  rewrite !map_app, firstn_map, skipn_map. do 3 f_equal. generalize (hi_bound (zlen l) hi - lo_bound (zlen l) lo)%nat.
  induction n; [reflexivity|]. simpl. now rewrite IHn.
Qed.
Lemma map_repeat : forall A B (f : A -> B) v n, map f (repeat v n) = repeat (f v) n.
Proof. induction n; [reflexivity|]. simpl. now rewrite IHn. Qed.

Lemma mapM_rmap : forall A B C (f : A -> res B) (g : A -> res C) (h : B -> C) l,
  (forall x, In x l -> g x = rmap h (f x)) -> mapM g l = rmap (map h) (mapM f l).
Proof.
  induction l as [|x l IH]; intros E; [reflexivity|]. cbn [mapM]. rewrite E by (simpl; auto).
  destruct (f x); [|reflexivity]. cbn [rmap bind]. rewrite IH by (intros; apply E; simpl; auto).
  destruct (mapM f l); reflexivity.
Qed.
Lemma mapM_map_in : forall A B C (f : B -> res C) (g : A -> B) l, mapM f (map g l) = mapM (fun x => f (g x)) l.
Proof. induction l as [|x l IH]; [reflexivity|]. cbn [mapM map]. now rewrite IH. Qed.
Lemma bind_rmap : forall A B C (r : res A) (f : A -> B) (k : B -> res C), bind (rmap f r) k = bind r (fun v => k (f v)).
Proof. intros. destruct r; reflexivity. Qed.

Lemma nth_fst : forall i (l : list cplx), fst (nth i l (0, 0)) = nth i (map fst l) 0.
Proof. intros. change 0 with (fst (0, 0)) at 3. now rewrite map_nth. Qed.

Lemma nth_cre : forall i l, nth i (map cre l) (0, 0) = (nth i l 0, 0).
Proof. intros. change (0, 0) with (cre 0) at 1. now rewrite map_nth. Qed.
Lemma mapM_ext_in : forall A B (f g : A -> res B) l, (forall x, In x l -> f x = g x) -> mapM f l = mapM g l.
Proof.
  induction l as [|x l IH]; intros E; [reflexivity|]. cbn [mapM]. rewrite E by (simpl; auto).
  rewrite IH by (intros; apply E; simpl; auto). reflexivity.
Qed.

(** Real parts of full convolutions. *)
Lemma conv_c_ir : forall x k, map fst (conv_full_c (map cre x) k) = conv_full x (map fst k).
Proof.
  intros x k. unfold conv_full_c, conv_full. rewrite !zlen_map, map_map, map_length. apply map_ext. intros n.
  unfold csum. cbn [fst]. rewrite map_map. apply rsum_map_ext. intros j _. unfold cmul. cbn [fst snd].
  rewrite nth_fst. destruct (_ && _); cbn [fst snd]; [|ring].
  rewrite nth_cre. cbn [fst snd]. ring.
Qed.
Lemma conv_c_input : forall x k, map fst (conv_full_c x (map cre k)) = conv_full (map fst x) k.
Proof.
  intros x k. unfold conv_full_c, conv_full. rewrite !zlen_map, map_map, map_length. apply map_ext. intros n.
  unfold csum. cbn [fst]. rewrite map_map. apply rsum_map_ext. intros j _. unfold cmul. cbn [fst snd].
  rewrite nth_cre. cbn [fst snd].
  destruct (_ && _); cbn [fst snd]; [rewrite nth_fst|]; ring.
Qed.

Definition re_bank (b : list (list cplx * Z)) : bank := map (fun io => (map fst (fst io), snd io)) b.
Lemma re_size : forall b, bank_ir_size (re_bank b) = bank_ir_size_c b.
Proof.
  intros b. unfold bank_ir_size, bank_ir_size_c, re_bank. f_equal. rewrite map_map. apply map_ext. intros io. cbn [fst snd].
  now rewrite zlen_map.
Qed.
Lemma zlen_conv_c : forall x k, zlen (conv_full_c x k) = zlen (conv_full (map fst x) (map fst k)).
Proof. intros. unfold conv_full_c, conv_full. now rewrite !zlen_map. Qed.

Lemma full_ir : forall b x, convolve_full (re_bank b) x = rmap (map (map fst)) (convolve_full_c b (map cre x)).
Proof.
  intros b x. unfold convolve_full, convolve_full_c. rewrite re_size, !zlen_map. unfold re_bank at 1. rewrite mapM_map_in.
  apply mapM_rmap. intros [k off] _. cbn [fst snd]. cbv zeta.
  rewrite <- conv_c_ir, !zlen_map. change 0 with (fst (0, 0)) at 1. rewrite <- map_repeat. apply set_slice_map.
Qed.
Lemma full_input : forall b x,
  convolve_full b (map fst x) = rmap (map (map fst)) (convolve_full_c (map (fun io => (map cre (fst io), snd io)) b) x).
Proof.
  intros b x. unfold convolve_full, convolve_full_c.
  assert (E : bank_ir_size_c (map (fun io => (map cre (fst io), snd io)) b) = bank_ir_size b).
  { unfold bank_ir_size, bank_ir_size_c. rewrite map_map. f_equal. apply map_ext. intros io. cbn [fst snd]. now rewrite zlen_map. }
  rewrite E, !zlen_map, mapM_map_in. apply mapM_rmap. intros [k off] _. cbn [fst snd]. cbv zeta.
  rewrite <- conv_c_input, !zlen_map. change 0 with (fst (0, 0)) at 1. rewrite <- map_repeat. apply set_slice_map.
Qed.

Lemma strided_re : forall x k st,
  strided_convolution x (map fst k) st = rmap (map fst) (strided_convolution_complex_kernel x k st).
Proof.
  intros x k st. unfold strided_convolution_complex_kernel, strided_convolution. rewrite !zlen_map.
  destruct (overlapping_windows _ _ _) as [rows|]; [|reflexivity]. cbn [bind]. destruct (window_values rows) as [a|]; [|reflexivity].
  cbn [bind rmap]. f_equal. induction a as [|r a IH]; [reflexivity|]. cbn [map combine fst]. f_equal. exact IH.
Qed.

Lemma strided_ir : forall b x st, convolve_strided (re_bank b) x st = rmap (map (map fst)) (convolve_strided_c b x st).
Proof.
  intros b x st. unfold convolve_strided, convolve_strided_c. rewrite re_size.
  destruct (set_slice _ _ _ _) as [xp|]; [|reflexivity]. cbn [bind]. cbv zeta.
  unfold re_bank at 1. rewrite mapM_map_in. cbn [fst snd].
  match goal with |- bind ?a _ = rmap _ (bind ?c _) => assert (EQ : a = c) end.
  { apply mapM_ext_in. intros io _. rewrite zlen_map. reflexivity. }
  rewrite EQ. clear EQ.
  destruct (mapM _ b) as [ns|]; [|reflexivity]. cbn [bind].
  assert (C : combine ns (re_bank b) = map (fun p => (fst p, (map fst (fst (snd p)), snd (snd p)))) (combine ns b)).
  { clear. unfold re_bank. revert b. induction ns as [|n ns IH]; intros [|io b]; try reflexivity. cbn [map combine fst snd]. now rewrite <- IH. }
  rewrite C, mapM_map_in, map_map. apply mapM_rmap. intros [n [k off]] _. cbn [fst snd].
  rewrite !zlen_map, strided_re, bind_rmap.
  destruct (strided_convolution_complex_kernel _ _ _) as [y|]; [|reflexivity]. cbn [bind].
  change 0 with (fst (0, 0)) at 1. rewrite <- map_repeat. apply set_slice_map.
Qed.

(** The sum over the samples of the input is the one over those of the kernel. *)
Definition zero_out (n : nat) (f : nat -> R) (z : Z) : R :=
  if ((0 <=? z) && (z <? Z.of_nat n))%Z then f (Z.to_nat z) else 0.
Lemma sum_one : forall N (x : nat -> R) v z,
  rsum (map (fun i => x i * (if Z.eqb (z - Z.of_nat i) 0 then v else 0)) (seq 0 N)) = zero_out N x z * v.
Proof.
  intros N x v z. induction N as [|N IH].
  - unfold zero_out. cbn. destruct (Z.leb_spec 0 z), (Z.ltb_spec z 0); cbn [andb]; try lia; ring.
  - rewrite seq_S, map_app, rsum_app, IH. cbn [map rsum fold_right plus]. unfold zero_out.
    destruct (Z.eqb_spec (z - Z.of_nat N) 0), (Z.leb_spec 0 z), (Z.ltb_spec z (Z.of_nat N)), (Z.ltb_spec z (Z.of_nat (S N)));
      cbn [andb]; try lia; try ring.
    replace (Z.to_nat z) with N by lia. ring.
Qed.
Lemma conv_sym : forall L N (a x : nat -> R) d,
  rsum (map (fun j => a j * zero_out N x (d - Z.of_nat j)) (seq 0 L)) =
  rsum (map (fun i => x i * zero_out L a (d - Z.of_nat i)) (seq 0 N)).
Proof.
  intros L N a x d. induction L as [|L IH].
  - cbn. rewrite (rsum_map_ext _ _ (fun _ => 0 * 0)).
    + induction N; [reflexivity|]. rewrite seq_S, map_app, rsum_app, <- IHN. cbn. ring.
    + intros i _. unfold zero_out. destruct (Z.leb_spec 0 (d - Z.of_nat i)), (Z.ltb_spec (d - Z.of_nat i) (Z.of_nat 0)); cbn [andb]; try lia; ring.
  - rewrite seq_S, map_app, rsum_app, IH. cbn [map rsum fold_right plus].
    pose proof (sum_one N x (a L) (d - Z.of_nat L)) as E.
    rewrite Rplus_0_r, (Rmult_comm (a L)), <- E, <- rsum_map_plus. apply rsum_map_ext. intros i _. unfold zero_out.
    replace (d - Z.of_nat L - Z.of_nat i)%Z with (d - Z.of_nat i - Z.of_nat L)%Z by lia. set (z := (d - Z.of_nat i)%Z).
    destruct (Z.eqb_spec (z - Z.of_nat L) 0), (Z.leb_spec 0 z), (Z.ltb_spec z (Z.of_nat L)), (Z.ltb_spec z (Z.of_nat (S L)));
      cbn [andb]; try lia; try ring.
    replace (Z.to_nat z) with L by lia. ring.
Qed.
