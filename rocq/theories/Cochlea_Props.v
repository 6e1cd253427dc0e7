(** Property C83 (banks of gammatone filters and cochleagrams). *)
From Coq Require Import String List Bool ZArith Reals Lra Lia Psatz.
Import ListNotations.
From Verif Require Import Base Py RLists PyLemmas Np_Model Np_Lemmas Stft_Model Dsp_Model Dsp_Proofs Conv_Proofs Dsp_Props
  Sample_Model Sample_Proofs Psycho_Math Psycho_Model Psycho_Proofs Bank_Model Bank_Proofs Gamma_Model Gamma_Proofs Gamma_Props
  Cochlea_Proofs.
Local Open Scope R_scope.

(** ** C83 *)

(** The impulse response of a filter at a time. *)
Definition response (g : gammatone) (t : R) : R := gain g * (pulse g t * cos (angle g t)).

Section Proofs.
Variable junk : nat -> nat -> R.
Variable fs : R.

(** The number of samples of a response. *)
Definition n_of (g : gammatone) : Z := match ir_size junk g fs t60_default with Ok n => n | Err _ => 0%Z end.
Definition times (g : gammatone) : list R := map (fun i => (INR i - IZR (lead g fs)) / fs) (seq 0 (Z.to_nat (n_of g))).
Definition ready (g : gammatone) : Prop :=
  gt_normalize g = false /\ exists n, ir_size junk g fs t60_default = Ok n /\ (1 <= n)%Z.

Lemma n_of_ok : forall g, ready g -> ir_size junk g fs t60_default = Ok (n_of g) /\ (1 <= n_of g)%Z.
Proof. intros g (_ & n & E & H). unfold n_of. rewrite E. auto. Qed.
Lemma bank_axis_ok : forall g, ready g -> bank_axis junk g fs = Ok (times g).
Proof. intros g H. unfold bank_axis. destruct (n_of_ok g H) as [-> _]. reflexivity. Qed.

Lemma mapM_all : forall A B (f : A -> res B) (h : A -> B) l, (forall a, In a l -> f a = Ok (h a)) -> mapM f l = Ok (map h l).
Proof.
  induction l as [|a l IH]; intros E; [reflexivity|]. cbn [mapM]. rewrite E by (simpl; auto). cbn [bind].
  rewrite IH by (intros; apply E; simpl; auto). reflexivity.
Qed.
Lemma combine_maps : forall A B C (f : A -> B) (h : A -> C) l, combine (map f l) (map h l) = map (fun a => (f a, h a)) l.
Proof. induction l as [|a l IH]; [reflexivity|]. cbn [map combine]. now rewrite IH. Qed.

Definition last_lead (gs : list gammatone) : Z :=
  match gs with [] => 0%Z | g :: l => fold_left Z.max (map (fun g => lead g fs) l) (lead g fs) end.
Lemma fold_max_ge : forall l v, (v <= fold_left Z.max l v)%Z /\ (forall z, In z l -> z <= fold_left Z.max l v)%Z /\
  (fold_left Z.max l v = v \/ In (fold_left Z.max l v) l).
Proof.
  induction l as [|a l IH]; intros v; [simpl; split; [lia|split; [tauto|auto]]|]. simpl.
  destruct (IH (Z.max v a)) as (H1 & H2 & H3). split; [lia|]. split.
  - intros z [<-|H]; [lia|auto].
  - destruct H3 as [E|H3]; [|tauto]. rewrite E. destruct (Z.max_spec v a) as [[_ ->]|[_ ->]]; auto.
Qed.
Lemma last_lead_spec : forall gs, gs <> [] ->
  (forall g, In g gs -> lead g fs <= last_lead gs)%Z /\ exists g, In g gs /\ lead g fs = last_lead gs.
Proof.
  intros [|g gs] N; [congruence|]. unfold last_lead.
  destruct (fold_max_ge (map (fun g => lead g fs) gs) (lead g fs)) as (H1 & H2 & H3). split.
  - intros h [<-|H]; [exact H1|]. apply H2. apply in_map_iff. eauto.
  - destruct H3 as [E|H3]; [exists g; simpl; auto|]. apply in_map_iff in H3 as (h & E & H). exists h. simpl. auto.
Qed.
Lemma offsets_eq : forall gs, align_offsets (map (fun g => lead g fs) gs) = map (fun g => (last_lead gs - lead g fs)%Z) gs.
Proof. intros [|g gs]; [reflexivity|]. unfold align_offsets. cbn [map]. now rewrite map_map. Qed.

Definition delayed {A} (f : gammatone -> A) (gs : list gammatone) : list (A * Z) :=
  map (fun g => (f g, (last_lead gs - lead g fs)%Z)) gs.
Lemma precompute_real : forall gs, gs <> [] -> (forall g, In g gs -> ready g) ->
  precompute junk gs fs false = Ok (mkBank (map gt_f gs) (RealIRs (delayed (fun g => map (response g) (times g)) gs))).
Proof.
  intros gs N H. unfold precompute. rewrite offsets_eq.
  rewrite (mapM_all _ _ _ (fun g => map (response g) (times g))).
  - cbn [bind]. rewrite combine_maps. destruct gs; [congruence|reflexivity].
  - intros g Hg. rewrite bank_axis_ok by auto. cbn [bind]. apply c82_values. exact (proj1 (H g Hg)).
Qed.
End Proofs.

Lemma Forall2_map_in : forall A B C (f : A -> B) (P : B -> C -> Prop) (Q : A -> C -> Prop) l l', Forall2 P (map f l) l' ->
  (forall a c, In a l -> P (f a) c -> Q a c) -> Forall2 Q l l'.
Proof.
  intros A B C f P Q l. induction l as [|a l IH]; intros l' F H; inversion F; subst; constructor.
  - apply H; simpl; auto.
  - apply IH; auto. intros. apply H; simpl; auto.
Qed.
Lemma zmax_in : forall l, l <> [] -> (forall z, In z l -> 0 <= z)%Z -> In (zmax l) l.
Proof.
  intros [|a l] N P; [congruence|]. unfold zmax. cbn [fold_left]. rewrite Z.max_r by (apply P; simpl; auto).
  destruct (fold_max_ge l a) as (_ & _ & [E|E]); simpl; auto.
Qed.

(** The cochleagram before rectification: with time zero of all responses in column
    [C] (the largest leading time), every row is the sum of the input samples
    times the response of the filter at the time since the sample, and the response is cut
    after its suggested size; the frequencies are those of the filters. *)
Theorem c83_cochleagram : forall junk hilbert fwd inv gs fs x method kw, 0 < fs -> gs <> [] -> x <> [] ->
  (forall g, In g gs -> gt_normalize g = false /\ exists n, ir_size junk g fs t60_default = Ok n /\ (1 <= n)%Z) ->
  exists rows C W,
    cochleagram junk hilbert fwd inv x (Some fs) (Filters gs) None method None (Some None) kw = Ok (RealMat rows, map gt_f gs) /\
    (forall g, In g gs -> t_c g * fs <= IZR C) /\ (exists g, In g gs /\ IZR C < t_c g * fs + 1) /\
    Forall2 (fun g row => zlen row = W /\ exists n l, ir_size junk g fs t60_default = Ok n /\ t_c g * fs <= IZR l < t_c g * fs + 1 /\
      (zlen x + (C - l) + n - 1 <= W)%Z /\
      forall c, (0 <= c < W)%Z -> nth (Z.to_nat c) row 0 =
        rsum (map (fun i => nth i x 0 *
                let m := (c - Z.of_nat i - C)%Z in
                if (m <? n - l)%Z then response g (IZR m / fs) else 0) (seq 0 (List.length x)))) gs rows /\
    exists g n l, In g gs /\ ir_size junk g fs t60_default = Ok n /\ t_c g * fs <= IZR l < t_c g * fs + 1 /\
      W = (zlen x + (C - l) + n - 1)%Z.
Proof.
  intros junk hilbert fwd inv gs fs x method kw Hf Ng Nx H.
  destruct (last_lead_spec fs gs Ng) as (L1 & gl & L2 & L3). set (C := last_lead fs gs) in *.
  unfold cochleagram. cbn [bind]. unfold is_str. rewrite (precompute_real junk fs gs Ng H). cbn [bind b_irs b_freqs].
  set (ir_of := fun g => map (response g) (times junk fs g)).
  change (delayed fs (fun g => map (response g) (times junk fs g)) gs) with (delayed fs ir_of gs).
  set (b := delayed fs ir_of gs : bank).
  assert (LI : forall g, zlen (ir_of g) = Z.max 0 (n_of junk fs g)).
  { intros g. unfold ir_of, times. rewrite !zlen_map. unfold zlen. rewrite seq_length. lia. }
  assert (Hb : Forall (fun io => (1 <= zlen (fst io) /\ 0 <= snd io)%Z) b).
  { unfold b, delayed. rewrite Forall_map, Forall_forall. intros g Hg. cbn [fst snd]. rewrite LI. fold C.
    destruct (n_of_ok junk fs g (H g Hg)) as [_ P]. specialize (L1 g Hg). lia. }
  assert (Hx : (1 <= zlen x)%Z) by (unfold zlen; destruct x; [congruence|simpl; lia]).
  destruct (c41_full b x Hb Hx method) as (rows & E & F). cbn [bank_convolve]. rewrite E. cbn [bind].
  exists rows, C, (zlen x + bank_ir_size b - 1)%Z. split; [reflexivity|].
  pose proof (fun g => Rceil_spec (t_c g * fs)) as Ceil.
  split; [|split; [|split]].
  - intros g Hg. specialize (Ceil g). specialize (L1 g Hg). apply IZR_le in L1. unfold lead in L1. lra.
  - exists gl. split; [exact L2|]. rewrite <- L3. unfold lead. apply (Ceil gl).
  - assert (Sz : forall g, In g gs -> (zlen x + (C - lead g fs) + n_of junk fs g - 1 <= zlen x + bank_ir_size b - 1)%Z).
    { intros g Hg. pose proof (bank_size_ge b (ir_of g) (C - lead g fs)) as B.
      assert (I : In (ir_of g, (C - lead g fs)%Z) b) by (unfold b, delayed; apply in_map_iff; eauto).
      specialize (B I). rewrite LI in B. lia. }
    refine (Forall2_map_in _ _ _ (fun g => (ir_of g, (C - lead g fs)%Z)) _ _ gs rows F _).
    intros g row Hg (W & V). cbn [fst snd] in V. split; [exact W|].
    destruct (n_of_ok junk fs g (H g Hg)) as [En Pn]. exists (n_of junk fs g), (lead g fs).
    split; [exact En|]. split; [apply Ceil|]. split; [apply Sz, Hg|]. intros c Hc. rewrite W in V. rewrite (V c Hc).
    rewrite (rsum_map_ext _ _ (fun j => nth j (ir_of g) 0 *
      zero_out (List.length x) (fun i => nth i x 0) (c - (C - lead g fs) - Z.of_nat j))).
    + rewrite conv_sym. apply rsum_map_ext. intros i Hi. f_equal. cbv zeta. unfold zero_out.
      assert (LN : Z.of_nat (List.length (ir_of g)) = n_of junk fs g) by (specialize (LI g); unfold zlen in LI; lia).
      rewrite LN. replace (c - (C - lead g fs) - Z.of_nat i)%Z with (c - Z.of_nat i - C + lead g fs)%Z by lia.
      set (m := (c - Z.of_nat i - C)%Z). clearbody m.
      destruct (Z.leb_spec 0 (m + lead g fs)), (Z.ltb_spec (m + lead g fs) (n_of junk fs g)), (Z.ltb_spec m (n_of junk fs g - lead g fs));
        cbn [andb]; try lia; try reflexivity.
      * unfold ir_of. rewrite (nth_map_lt _ _ _ 0 0) by (unfold times; rewrite map_length, seq_length; lia).
        f_equal. unfold times. rewrite (nth_map_lt _ _ _ 0%nat 0) by (rewrite seq_length; lia).
        rewrite seq_nth by lia. cbn [plus]. rewrite INR_IZR_INZ, Z2Nat.id by lia. rewrite plus_IZR. f_equal. ring.
      * assert (P0 : pulse g (IZR m / fs) = 0).
        { unfold pulse. destruct (Rlt_dec _ 0) as [_|Nl]; [reflexivity|]. exfalso. apply Nl.
          apply Rmult_lt_reg_r with fs; [lra|]. replace ((IZR m / fs + t_c g) * fs) with (IZR m + t_c g * fs) by (field; lra).
          destruct (Ceil g) as [C1 _]. assert (m + lead g fs <= -1)%Z as B by lia. apply IZR_le in B. rewrite plus_IZR in B. unfold lead in B. lra. }
        unfold response. rewrite P0. ring.
    + intros j _. f_equal. cbv zeta. unfold zero_out. set (z := (c - (C - lead g fs) - Z.of_nat j)%Z).
      destruct (Z.ltb_spec z 0), (Z.leb_spec 0 z), (Z.ltb_spec z (Z.of_nat (List.length x))); cbn [andb]; try lia; try reflexivity.
      apply nth_overflow. lia.
  - assert (I : In (bank_ir_size b) (map (fun io => (zlen (fst io) + snd io)%Z) b)).
    { apply zmax_in; [unfold b, delayed; destruct gs; [congruence|discriminate]|].
      intros z Hz. apply in_map_iff in Hz as (io & <- & Hio). rewrite Forall_forall in Hb. specialize (Hb io Hio). cbv beta in Hb. lia. }
    apply in_map_iff in I as (io & Eio & Hio). unfold b, delayed in Hio. apply in_map_iff in Hio as (g & <- & Hg).
    cbn [fst snd] in Eio. fold C in Eio. rewrite LI in Eio. destruct (n_of_ok junk fs g (H g Hg)) as [En Pn].
    exists g, (n_of junk fs g), (lead g fs). split; [exact Hg|]. split; [exact En|]. split; [apply Ceil|]. lia.
Qed.
Print Assumptions c83_cochleagram.

Lemma real_result : forall junk hilbert fwd inv x fs b method stride kw rows freqs,
  cochleagram junk hilbert fwd inv x fs (Precomputed b) None method stride (Some None) kw = Ok (RealMat rows, freqs) ->
  is_analytic b = false.
Proof.
  intros junk hilbert fwd inv x fs b method stride kw rows freqs E. destruct b as [fq [b|b]]; [reflexivity|]. exfalso.
  unfold cochleagram in E. cbn [is_analytic b_irs b_freqs bind is_str String.eqb Ascii.eqb Bool.eqb] in E.
  destruct stride as [st|]; cbn [bank_convolve] in E.
  - destruct method; [discriminate|]. destruct (convolve_strided_c b x st); discriminate.
  - destruct (convolve_full_c b (map cre x)); discriminate.
Qed.

(** Rectification by default: negative values become zero. *)
Theorem c83_default : forall junk hilbert fwd inv x fs fb method stride kw rows freqs,
  cochleagram junk hilbert fwd inv x fs fb None method stride (Some None) kw = Ok (RealMat rows, freqs) ->
  cochleagram junk hilbert fwd inv x fs fb None method stride None kw =
    Ok (RealMat (map (map (fun v => if Rle_dec 0 v then v else 0)) rows), freqs).
Proof.
  intros junk hilbert fwd inv x fs fb method stride kw rows freqs E.
  assert (A : match fb with Precomputed b => is_analytic b = false | _ => True end)
    by (destruct fb; auto; exact (real_result _ _ _ _ _ _ _ _ _ _ _ _ E)).
  unfold cochleagram in *.
  assert (M : forall m, hwr (RealMat m) = RealMat (map (map (fun v => if Rle_dec 0 v then v else 0)) m)).
  { intros m. cbn [hwr]. f_equal. apply map_ext. intros r. apply map_ext. intros v. destruct (Rle_dec 0 v).
    - apply Rmax_left. lra.
    - apply Rmax_right. lra. }
  destruct fb as [|gs|b]; cbn [bind] in *.
  - destruct (filterbank _ _ _) as [gs|]; [|discriminate]. cbn [bind] in *. destruct fs; [|discriminate].
    destruct (precompute _ _ _ _) as [b|]; [|discriminate]. cbn [bind] in *. unfold is_str in *.
    destruct (bank_convolve _ _ _ _) as [m|]; [|discriminate]. cbn [bind] in *. injection E as -> <-. now rewrite M.
  - destruct fs; [|discriminate].
    destruct (precompute _ _ _ _) as [b|]; [|discriminate]. cbn [bind] in *. unfold is_str in *.
    destruct (bank_convolve _ _ _ _) as [m|]; [|discriminate]. cbn [bind] in *. injection E as -> <-. now rewrite M.
  - rewrite A in *. cbn [bind] in *. unfold is_str in *.
    destruct (bank_convolve _ _ _ _) as [m|]; [|discriminate]. cbn [bind] in *. injection E as -> <-. now rewrite M.
Qed.
Print Assumptions c83_default.

(** With an analytic bank the default is the option "ir", which does not rectify. *)
Theorem c83_analytic_default : forall junk hilbert fwd inv x fs b method stride kw, is_analytic b = true ->
  cochleagram junk hilbert fwd inv x fs (Precomputed b) None method stride None kw =
  cochleagram junk hilbert fwd inv x fs (Precomputed b) (Some "ir"%string) method stride (Some None) kw.
Proof.
  intros junk hilbert fwd inv x fs b method stride kw A. unfold cochleagram. rewrite A. reflexivity.
Qed.
Print Assumptions c83_analytic_default.

Lemma mapM_total : forall A B C (f : A -> res B) (g : A -> res C) (h : B -> C) l,
  (forall a, In a l -> g a = rmap h (f a)) -> mapM g l = rmap (map h) (mapM f l).
Proof. exact mapM_rmap. Qed.

Lemma ir_re : forall junk g t fs k, gt_normalize g = false ->
  ir junk g t fs k = rmap (map fst) (ir_analytic junk g t fs k).
Proof.
  intros junk g t fs k N. destruct (ir_analytic junk g t fs k) as [l|e] eqn:E.
  - destruct (c82_analytic junk g t fs k l N E) as [-> _]. reflexivity.
  - unfold ir_analytic in E. unfold ir. destruct (ir_axis junk g t fs k) as [ts|]; [|cbn [bind rmap] in *; congruence].
    cbn [bind] in *. rewrite wavefun_analytic_eq in E. cbn [bind] in E. unfold scale in E. rewrite N in E.
    destruct (map _ ts); discriminate.
Qed.
Lemma combine_re : forall (l : list (list cplx)) (o : list Z), combine (map (map fst) l) o = re_bank (combine l o).
Proof. unfold re_bank. induction l as [|a l IH]; intros [|z o]; try reflexivity. cbn [map combine fst snd]. now rewrite <- IH. Qed.

(** The real part of the analytic cochleagrams is the cochleagram that is not
    rectified: for ["output"], for ["input"] without a stride, and for ["ir"] if the
    filters do not normalize their responses. *)
Theorem c83_real_part : forall junk hilbert fwd inv x fs fb method stride kw rows freqs,
  (forall l, map fst (hilbert l) = l) ->
  cochleagram junk hilbert fwd inv x fs fb None method stride (Some None) kw = Ok (RealMat rows, freqs) ->
  let similar o := exists m,
    cochleagram junk hilbert fwd inv x fs fb (Some o) method stride None kw = Ok (ComplexMat m, freqs) /\ map (map fst) m = rows in
  similar "output"%string /\ (stride = None -> similar "input"%string) /\
  (forall gs, fb = Filters gs -> (forall g, In g gs -> gt_normalize g = false) -> similar "ir"%string) /\
  (forall gs, fb = NoBank -> filterbank fwd inv kw = Ok gs -> (forall g, In g gs -> gt_normalize g = false) -> similar "ir"%string).
Proof.
  intros junk hilbert fwd inv x fs fb method stride kw rows freqs HH E similar.
  assert (A : match fb with Precomputed b => is_analytic b = false | _ => True end)
    by (destruct fb; auto; exact (real_result _ _ _ _ _ _ _ _ _ _ _ _ E)).
  assert (HR : forall m : list (list R), map (map fst) (map hilbert m) = m).
  { intros m. rewrite map_map. rewrite <- (map_id m) at 2. apply map_ext. exact HH. }
  assert (IRC : forall gs, (forall g, In g gs -> gt_normalize g = false) ->
    cochleagram junk hilbert fwd inv x fs (Filters gs) None method stride (Some None) kw = Ok (RealMat rows, freqs) ->
    exists m, cochleagram junk hilbert fwd inv x fs (Filters gs) (Some "ir"%string) method stride None kw = Ok (ComplexMat m, freqs) /\
      map (map fst) m = rows).
  { clear similar E. intros gs N E1. unfold cochleagram in *. cbn [bind] in *. destruct fs as [f|]; [|discriminate]. unfold is_str in *. cbn [String.eqb Ascii.eqb Bool.eqb] in *.
    unfold precompute in *.
    rewrite (mapM_rmap _ _ _ (fun g => do t <- bank_axis junk g f; ir_analytic junk g (Some t) None t60_default) _ (map fst)) in E1.
    2: { intros g Hg. destruct (bank_axis junk g f); [|reflexivity]. cbn [bind]. apply ir_re. auto. }
    destruct (mapM _ gs) as [l|]; [|discriminate]. cbn [rmap bind] in *. destruct gs as [|g gs]; [discriminate|]. cbn [bind b_irs b_freqs] in *.
    rewrite combine_re in E1. set (b := combine l _) in *. destruct stride as [st|]; cbn [bank_convolve convolve] in *.
    - destruct method; [discriminate|]. rewrite strided_ir in E1. destruct (convolve_strided_c b x st) as [m|]; [|discriminate].
      cbn [rmap bind] in *. injection E1 as <- <-. eauto.
    - rewrite full_ir in E1. destruct (convolve_full_c b (map cre x)) as [m|]; [|discriminate].
      cbn [rmap bind] in *. injection E1 as <- <-. eauto. }
  assert (INP : forall b, stride = None -> bank_convolve (b_irs b) (RealSig x) method stride = Ok (RealMat rows) ->
    exists m', bank_convolve (b_irs b) (ComplexSig (hilbert x)) method stride = Ok (ComplexMat m') /\ map (map fst) m' = rows).
  { intros b -> B. destruct (b_irs b) as [b'|b']; cbn [bank_convolve convolve] in *.
    - rewrite <- (HH x), full_input in B. destruct (convolve_full_c _ _) as [m'|]; [|discriminate]. cbn [rmap bind] in *. injection B as <-. eauto.
    - destruct (convolve_full_c _ _); discriminate. }
  unfold similar. clear similar. split; [clear IRC INP|split; [clear IRC|split]].
  - unfold cochleagram in *. destruct fb as [|gs|b]; cbn [bind] in *.
    + destruct (filterbank _ _ _) as [gs|]; [|discriminate]. cbn [bind] in *. destruct fs; [|discriminate].
      unfold is_str in *. cbn [String.eqb Ascii.eqb Bool.eqb] in *.
      destruct (precompute _ _ _ _) as [b|]; [|discriminate]. cbn [bind] in *.
      destruct (bank_convolve _ _ _ _) as [m|]; [|discriminate]. cbn [bind] in *. injection E as -> <-. cbn [hilbert_rows bind]. eauto.
    + destruct fs; [|discriminate]. unfold is_str in *. cbn [String.eqb Ascii.eqb Bool.eqb] in *.
      destruct (precompute _ _ _ _) as [b|]; [|discriminate]. cbn [bind] in *.
      destruct (bank_convolve _ _ _ _) as [m|]; [|discriminate]. cbn [bind] in *. injection E as -> <-. cbn [hilbert_rows bind]. eauto.
    + rewrite A in *. cbn [bind] in *. unfold is_str in *. cbn [String.eqb Ascii.eqb Bool.eqb] in *.
        destruct (bank_convolve _ _ _ _) as [m|]; [|discriminate]. cbn [bind] in *. injection E as -> <-. cbn [hilbert_rows bind]. eauto.
  - intros St. unfold cochleagram in *. destruct fb as [|gs|b]; cbn [bind] in *.
    + destruct (filterbank _ _ _) as [gs|]; [|discriminate]. cbn [bind] in *. destruct fs; [|discriminate].
      unfold is_str in *. cbn [String.eqb Ascii.eqb Bool.eqb] in *.
      destruct (precompute _ _ _ _) as [b|]; [|discriminate]. cbn [bind] in *.
      destruct (bank_convolve _ _ _ _) as [m|] eqn:B; [|discriminate]. cbn [bind] in *. injection E as -> <-.
      destruct (INP b St B) as (m' & -> & R). cbn [bind]. eauto.
    + destruct fs; [|discriminate]. unfold is_str in *. cbn [String.eqb Ascii.eqb Bool.eqb] in *.
      destruct (precompute _ _ _ _) as [b|]; [|discriminate]. cbn [bind] in *.
      destruct (bank_convolve _ _ _ _) as [m|] eqn:B; [|discriminate]. cbn [bind] in *. injection E as -> <-.
      destruct (INP b St B) as (m' & -> & R). cbn [bind]. eauto.
    + rewrite A in *. cbn [bind] in *. unfold is_str in *. cbn [String.eqb Ascii.eqb Bool.eqb] in *.
        destruct (bank_convolve _ _ _ _) as [m|] eqn:B; [|discriminate]. cbn [bind] in *. injection E as -> <-.
        destruct (INP b St B) as (m' & -> & R). cbn [bind]. eauto.
  - intros gs -> N. now apply IRC.
  - intros gs -> Eg N. unfold cochleagram in E |- *. cbn [bind] in *. rewrite Eg in *. exact (IRC gs N E).
Qed.
Print Assumptions c83_real_part.

Lemma precompute_kind : forall junk gs fs a b, precompute junk gs fs a = Ok b -> is_analytic b = a /\ b_freqs b = map gt_f gs.
Proof.
  intros junk gs fs a b E. unfold precompute in E. destruct a.
  - destruct (mapM _ gs); [|discriminate]. cbn [bind] in E. destruct gs; [discriminate|]. injection E as <-. auto.
  - destruct (mapM _ gs); [|discriminate]. cbn [bind] in E. destruct gs; [discriminate|]. injection E as <-. auto.
Qed.
Lemma is_str_spec : forall s o, is_str s o = true <-> o = Some s.
Proof.
  intros s [t|]; cbn [is_str]; [|split; discriminate]. rewrite String.eqb_eq. split; [now intros ->|now intros [= ->]].
Qed.

(** A bank computed beforehand, with the same kind of responses, gives the same
    cochleagram. *)
Theorem c83_precomputed : forall junk hilbert fwd inv gs fs x analytic method stride post kw kind b,
  (kind = true <-> analytic = Some "ir"%string) -> precompute junk gs fs kind = Ok b ->
  cochleagram junk hilbert fwd inv x None (Precomputed b) analytic method stride post kw =
  cochleagram junk hilbert fwd inv x (Some fs) (Filters gs) analytic method stride post kw.
Proof.
  intros junk hilbert fwd inv gs fs x analytic method stride post kw kind b K E.
  destruct (precompute_kind _ _ _ _ _ E) as [A _]. unfold cochleagram. rewrite A.
  assert (Ek : is_str "ir" analytic = kind).
  { destruct kind; [apply is_str_spec; tauto|]. destruct (is_str "ir" analytic) eqn:S; [|reflexivity].
    apply is_str_spec in S. apply K in S. discriminate. }
  destruct kind.
  - assert (Ea : analytic = Some "ir"%string) by tauto. subst analytic. cbn [String.eqb Ascii.eqb Bool.eqb bind is_str]. rewrite E. reflexivity.
  - cbn [bind]. rewrite Ek, E. reflexivity.
Qed.
Print Assumptions c83_precomputed.

(** Combinations that are refused. *)
Theorem c83_errors : forall junk hilbert fwd inv x post method kw,
  (** a bank that is not computed needs a sampling frequency *)
  (forall gs a stride, cochleagram junk hilbert fwd inv x None (Filters gs) a method stride post kw = Err TypeError) /\
  (** there must be a filter *)
  (forall fs a stride, cochleagram junk hilbert fwd inv x (Some fs) (Filters []) a method stride post kw = Err ValueError) /\
  (** analytic banks are for no other option *)
  (forall b fs s stride, is_analytic b = true -> s <> "ir"%string ->
     cochleagram junk hilbert fwd inv x fs (Precomputed b) (Some s) method stride post kw = Err ValueError) /\
  (** either a method or a stride *)
  (forall b fs a st r, cochleagram junk hilbert fwd inv x fs (Precomputed b) a true (Some st) post kw = Ok r -> False) /\
  (** no stride for complex inputs *)
  (forall b fs st, is_analytic b = false ->
     cochleagram junk hilbert fwd inv x fs (Precomputed b) (Some "input"%string) method (Some st) post kw = Err ValueError).
Proof.
  intros junk hilbert fwd inv x post method kw. split; [|split; [|split; [|split]]].
  - reflexivity.
  - intros fs a stride. unfold cochleagram. cbn [bind]. unfold precompute. cbn [mapM bind]. destruct (is_str "ir" a); reflexivity.
  - intros b fs s stride A N. unfold cochleagram. rewrite A. destruct (String.eqb_spec s "ir"); [contradiction|reflexivity].
  - intros b fs a st r E. unfold cochleagram in E. destruct (if is_analytic b then _ else _) as [a'|]; [|discriminate].
    cbn [bind] in E. destruct (b_irs b); discriminate.
  - intros b fs st A. unfold cochleagram. rewrite A. cbn [bind is_str String.eqb Ascii.eqb Bool.eqb]. destruct (b_irs b), method; reflexivity.
Qed.
Print Assumptions c83_errors.

(** Findings.  Other strings are accepted as options: the result is then real and not
    rectified. *)
Theorem c83_other_options : forall junk hilbert fwd inv x fs fb s method stride kw,
  ~ In s ["ir"; "input"; "output"]%string -> match fb with Precomputed b => is_analytic b = false | _ => True end ->
  cochleagram junk hilbert fwd inv x fs fb (Some s) method stride None kw =
  cochleagram junk hilbert fwd inv x fs fb None method stride (Some None) kw.
Proof.
  intros junk hilbert fwd inv x fs fb s method stride kw N A.
  assert (O : forall t, In t ["ir"; "input"; "output"]%string -> is_str t (Some s) = false).
  { intros t Ht. destruct (is_str t (Some s)) eqn:E; [|reflexivity]. apply is_str_spec in E. injection E as ->. contradiction. }
  unfold cochleagram. destruct fb as [|gs|b].
  - cbn [bind]. rewrite !O by (simpl; auto). reflexivity.
  - cbn [bind]. rewrite !O by (simpl; auto). reflexivity.
  - rewrite A. cbn [bind]. rewrite !O by (simpl; auto). reflexivity.
Qed.
Print Assumptions c83_other_options.

(** With a bank of real responses the option ["ir"] gives a real matrix too. *)
Theorem c83_ir_with_real_bank : forall junk hilbert fwd inv x fs b method stride kw,
  is_analytic b = false ->
  cochleagram junk hilbert fwd inv x fs (Precomputed b) (Some "ir"%string) method stride None kw =
  cochleagram junk hilbert fwd inv x fs (Precomputed b) None method stride (Some None) kw.
Proof. intros junk hilbert fwd inv x fs b method stride kw A. unfold cochleagram. rewrite A. reflexivity. Qed.
Print Assumptions c83_ir_with_real_bank.

(** If a bank is given the other keywords have no effect, even if nobody knows
    them (the documented [postprocess] of [GammatoneFilterbank.convolve] is one);
    without a bank these are an error. *)
Theorem c83_keywords : forall junk hilbert fwd inv x fs fb a method stride post kw,
  (fb <> NoBank -> forall kw', cochleagram junk hilbert fwd inv x fs fb a method stride post kw =
                               cochleagram junk hilbert fwd inv x fs fb a method stride post kw') /\
  (fb = NoBank -> kw_unknown kw <> [] -> forall f l, kw_freqs kw = Some (f :: l) ->
     cochleagram junk hilbert fwd inv x fs fb a method stride post kw = Err TypeError).
Proof.
  intros junk hilbert fwd inv x fs fb a method stride post kw. split.
  - intros N kw'. unfold cochleagram. destruct fb; [congruence|reflexivity|reflexivity].
  - intros -> U f l F. unfold cochleagram, filterbank. rewrite F. cbn [bind]. destruct (kw_unknown kw); [congruence|reflexivity].
Qed.
Print Assumptions c83_keywords.

(** ** The loss *)

Lemma cabs_nonneg : forall v, 0 <= cabs v.
Proof. intros. apply sqrt_pos. Qed.

(** The matrices that [CochleagramLoss] compares: those of [cochleagram] with the
    same options, absolute values for analytic ones. *)
Theorem c83_loss : forall junk hilbert fwd inv fs a kw l method stride x,
  loss_init junk fwd inv fs a None kw = Ok l ->
  loss_cochleagram junk hilbert fwd inv l a method stride kw x =
  match cochleagram junk hilbert fwd inv x (Some fs) NoBank a method stride None kw with
  | Err e => Err e
  | Ok (m, _) =>
    match a with
    | None => Ok m
    | Some _ => Ok (RealMat match m with
                            | RealMat m => map (map Rabs) m
                            | ComplexMat m => map (map (fun v => sqrt (fst v * fst v + snd v * snd v))) m
                            end)
    end
  end.
Proof.
  intros junk hilbert fwd inv fs a kw l method stride x E. unfold loss_init in E.
  destruct (filterbank fwd inv kw) as [gs|] eqn:Eg; [|discriminate]. cbn [bind] in E.
  destruct (precompute junk gs fs (is_str "ir" a)) as [b|] eqn:Eb; [|discriminate]. cbn [bind] in E. injection E as <-.
  unfold loss_cochleagram. cbn [fst snd].
  rewrite (c83_precomputed junk hilbert fwd inv gs fs x a method stride _ kw _ b (is_str_spec "ir" a) Eb).
  unfold cochleagram. rewrite Eg. cbn [bind]. rewrite Eb. cbn [bind].
  destruct (bank_convolve _ _ _ _) as [m|]; [|reflexivity]. cbn [bind].
  destruct (if is_str "output" a then hilbert_rows hilbert m else Ok m) as [m'|]; [|reflexivity]. cbn [bind fst].
  destruct a; [|reflexivity]. destruct m'; reflexivity.
Qed.
Print Assumptions c83_loss.

(** A loss for analytic inputs and a stride can be made, but not used. *)
Theorem c83_loss_input_stride : forall junk hilbert fwd inv fs post kw l st x,
  loss_init junk fwd inv fs (Some "input"%string) post kw = Ok l ->
  loss_cochleagram junk hilbert fwd inv l (Some "input"%string) false (Some st) kw x = Err ValueError.
Proof.
  intros junk hilbert fwd inv fs post kw l st x E. unfold loss_init in E.
  destruct (filterbank fwd inv kw) as [gs|] eqn:Eg; [|discriminate]. cbn [bind] in E.
  destruct (precompute junk gs fs _) as [b|] eqn:Eb; [|discriminate]. cbn [bind] in E. injection E as <-.
  destruct (precompute_kind _ _ _ _ _ Eb) as [A _]. unfold loss_cochleagram. cbn [fst snd].
  destruct (c83_errors junk hilbert fwd inv x
    match post with Some p => Some p | None => Some (Some np_abs) end false kw) as (_ & _ & _ & _ & H).
  rewrite H by exact A. reflexivity.
Qed.
Print Assumptions c83_loss_input_stride.

(** ** Attributes *)

(** An attribute of a bank is the one of each filter, if all have it. *)
Theorem c83_attributes : forall F V limit (get : F -> string -> res V) fs key, (1 <= limit)%nat ->
  (forall vs, bank_getattr limit get (Some fs) key = Ok vs <-> Forall2 (fun f v => get f key = Ok v) fs vs) /\
  ((forall f, In f fs -> forall e, get f key = Err e -> e = AttributeError) -> (exists f, In f fs /\ get f key = Err AttributeError) ->
     bank_getattr limit get (Some fs) key = Err AttributeError).
Proof.
  intros F V [|limit] get fs key Hl; [lia|]. cbn [bank_getattr bind]. split.
  - intros vs. destruct (mapM (fun f => get f key) fs) as [l|e] eqn:E.
    + apply mapM_inv in E. split.
      * now intros [= <-].
      * intros H. f_equal. revert vs H. induction E; intros vs H'; inversion H'; subst; [reflexivity|]. f_equal; [congruence|auto].
    + split; [destruct e; discriminate|]. intros H. apply mapM_ok in H. congruence.
  - intros H (f & Hf & Ef). assert (M : mapM (fun f => get f key) fs = Err AttributeError).
    { induction fs as [|g fs IH]; [destruct Hf|]. cbn [mapM]. destruct (get g key) as [v|e] eqn:E.
      - cbn [bind]. destruct Hf as [->|Hf]; [congruence|]. rewrite IH; [reflexivity| |exact Hf]. intros h Hh. apply H. simpl. auto.
      - cbn [bind]. f_equal. apply (H g (or_introl eq_refl) e E). }
    rewrite M. reflexivity.
Qed.
Print Assumptions c83_attributes.

(** Banks cannot be copied nor loaded from a pickle: without [_filters] the lookup of
    any attribute calls itself. *)
Theorem c83_no_copy : forall F V limit (get : F -> string -> res V) fs,
  copy_bank limit get fs = Err RecursionError.
Proof.
  intros F V limit get fs. unfold copy_bank.
  assert (R : forall n key, bank_getattr n get None key = Err RecursionError).
  { induction n as [|n IH]; intros key; [reflexivity|]. cbn [bank_getattr]. rewrite IH. reflexivity. }
  rewrite R. reflexivity.
Qed.
Print Assumptions c83_no_copy.

(** ** Examples *)

(** Two filters and an input of two samples meet the hypotheses of
    [c83_cochleagram] and [c83_real_part]. *)
Example c83_example_filters : forall junk hilbert fwd inv kw, (forall l, map fst (hilbert l) = l) ->
  let gs := [mkGt 1000 4 (Some 100) None None false None; mkGt 500 4 (Some 100) (Some 0) None false (Some 2)] in
  exists r0 r1 m, cochleagram junk hilbert fwd inv [1; -1] (Some 44100) (Filters gs) None false None (Some None) kw
    = Ok (RealMat [r0; r1], [1000; 500]) /\
  cochleagram junk hilbert fwd inv [1; -1] (Some 44100) (Filters gs) (Some "ir"%string) false None None kw
    = Ok (ComplexMat m, [1000; 500]) /\ map (map fst) m = [r0; r1].
Proof.
  intros junk hilbert fwd inv kw HH gs.
  assert (R : forall g, In g gs -> gt_normalize g = false /\ exists n, ir_size junk g 44100 t60_default = Ok n /\ (1 <= n)%Z).
  { intros g Hg. assert (G : bandwidth g = 100 /\ gt_n g = 4%nat /\ 0 < gt_f g /\ gt_normalize g = false).
    { destruct Hg as [<-|[<-|[]]]; cbn [bandwidth gt_bandwidth gt_n gt_f gt_normalize]; repeat split; lra. }
    destruct G as (Gb & Gn & Gf & Gm). split; [exact Gm|].
    assert (Hb : 0 < bandwidth g) by lra. assert (Hn : (2 <= gt_n g)%nat) by lia.
    destruct (c81_default junk g Hn) as (t & Et); [rewrite Gn; simpl; lra|exact Hb|].
    assert (Hsens : sensible t60_default) by (split; [cbn [k_floor t60_default]; lra|exact I]).
    destruct (c81_t60 junk g _ t Hn Hb Hsens Et) as (Ht & _ & _).
    destruct (ir_size junk g 44100 t60_default) as [n|x] eqn:En; [|apply c81_ir_size_total in En; [congruence|exact Gf]].
    destruct (c81_ir_size junk g 44100 _ n Gf ltac:(lra) En) as (t' & e & Et' & (_ & Hte & _) & Hsz).
    assert (t' = t) by congruence. subst t'. exists n. split; [reflexivity|].
    assert (D : 1 / 1000 < group_delay g + t_c g).
    { rewrite gd_tc. unfold raw_group_delay. rewrite Gb, Gn. pose proof PI_RGT_0. pose proof PI_4.
      apply Rmult_lt_reg_r with (2 * PI * 100); [lra|]. replace ((INR 4 - 1) / (2 * PI * 100) * (2 * PI * 100)) with (INR 4 - 1) by (field; lra).
      simpl. lra. }
    destruct Hsz as [_ H]. apply (Rmult_lt_compat_r 44100) in H; [|lra].
    replace ((IZR n + 1) / 44100 * 44100) with (IZR n + 1) in H by (field; lra).
    assert (1 < IZR n) as P by lra. apply lt_IZR in P. lia. }
  destruct (c83_cochleagram junk hilbert fwd inv gs 44100 [1; -1] false kw) as (rows & C & W & E & _ & _ & F & _);
    [lra|discriminate|discriminate|exact R|].
  inversion F as [|? r0 ? rows' _ F1]; subst. inversion F1 as [|? r1 ? rows'' _ F2]; subst. inversion F2; subst.
  destruct (c83_real_part _ _ _ _ _ _ _ _ _ _ _ _ HH E) as (_ & _ & I & _).
  destruct (I gs eq_refl (fun g Hg => proj1 (R g Hg))) as (m & Em & Rm). exists r0, r1, m. auto.
Qed.

(** A bank of one response: 1, -2. *)
Example c83_example_bank : forall junk hilbert fwd inv kw, let b := mkBank [440] (RealIRs [([1; -2], 0%Z)]) in
  cochleagram junk hilbert fwd inv [1; 1] None (Precomputed b) None true None (Some None) kw = Ok (RealMat [[1; -1; -2]], [440]) /\
  cochleagram junk hilbert fwd inv [1; 1] None (Precomputed b) None true None None kw = Ok (RealMat [[1; 0; 0]], [440]).
Proof.
  intros junk hilbert fwd inv kw b.
  assert (E : cochleagram junk hilbert fwd inv [1; 1] None (Precomputed b) None true None (Some None) kw = Ok (RealMat [[1; -1; -2]], [440])).
  { unfold cochleagram. cbn [b is_analytic b_irs b_freqs bind is_str bank_convolve convolve].
    assert (V : convolve_full [([1; -2], 0%Z)] [1; 1] = Ok [[1; -1; -2]]).
    { assert (V : conv_full [1; 1] [1; -2] = [1; -1; -2]).
      { unfold conv_full, zrange. change (Z.to_nat (zlen [1; 1] + zlen [1; -2] - 1)) with 3%nat. cbn [seq map List.length Z.of_nat Pos.of_succ_nat].
        unfold zlen. cbn [List.length Z.of_nat Pos.of_succ_nat Pos.succ].
        change (nth (Z.to_nat (0 - 0)) [1; 1] 0) with 1. change (nth (Z.to_nat (1 - 0)) [1; 1] 0) with 1. change (nth (Z.to_nat (1 - 1)) [1; 1] 0) with 1.
        change (nth (Z.to_nat (2 - 1)) [1; 1] 0) with 1. cbn [Z.leb Z.ltb Z.compare Z.sub Z.add Z.opp Z.pos_sub Pos.compare Pos.compare_cont andb nth Pos.pred_double].
        unfold rsum. cbn [fold_right]. repeat (apply f_equal2; [ring|]). reflexivity. }
      unfold convolve_full. cbn [mapM]. rewrite V. reflexivity. }
    rewrite V. reflexivity. }
  split; [exact E|]. rewrite (c83_default _ _ _ _ _ _ _ _ _ _ _ _ E). cbn [map].
  destruct (Rle_dec 0 1), (Rle_dec 0 (-1)), (Rle_dec 0 (-2)); try lra. reflexivity.
Qed.

(** The option ["ir"] is documented to give an analytic signal; with this bank it does
    not. *)
Theorem c83_ir_option_refuted : exists b x m freqs, forall junk hilbert fwd inv kw,
  cochleagram junk hilbert fwd inv x None (Precomputed b) (Some "ir"%string) true None None kw = Ok (RealMat m, freqs).
Proof.
  exists (mkBank [440] (RealIRs [([1; -2], 0%Z)])), [1; 1], [[1; -1; -2]], [440].
  intros junk hilbert fwd inv kw. rewrite c83_ir_with_real_bank by reflexivity. apply c83_example_bank.
Qed.
Print Assumptions c83_ir_option_refuted.

(** Attributes of a bank of two filters. *)
Example c83_example_attributes :
  let get (f : nat) (key : string) := if String.eqb key "n" then Ok f else Err AttributeError in
  bank_getattr 1000 get (Some [4; 3]%nat) "n" = Ok [4; 3]%nat /\
  bank_getattr 1000 get (Some [4; 3]%nat) "__setstate__" = Err AttributeError /\
  copy_bank 1000 get [4; 3]%nat = Err RecursionError.
Proof. repeat split; reflexivity. Qed.
