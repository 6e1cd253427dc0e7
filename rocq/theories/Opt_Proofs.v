(** Lemmas about the remapper and the optimizer. *)
From Coq Require Import String Ascii List Bool ZArith QArith Qabs Qminmax Lia.
Import ListNotations.
From Verif Require Import Base Py Dict ListLemmas Utils_Model Utils_Props Params_Model Params_Proofs
  Params_Build Params_Clone Opt_Model.
Local Open Scope string_scope.
Local Open Scope list_scope.

Definition remap_table : list (string * string) :=
  [("sinusoidal_model__log_n", "sinusoidal__log_n"); ("sinusoidal_model__wtype", "sinusoidal__wtype");
   ("sinusoidal_model__wsize", "sinusoidal__wsize"); ("sinusoidal_model__overlap", "sinusoidal__overlap")].

Lemma rename_deprecated : forall ds args kwargs,
  snd (deprecated_all ds (fun _ kw => ([], Ret (VDict kw))) args kwargs) =
  match rename_keywords ds args kwargs with Ret kw => Ret (VDict kw) | Raise e m => Raise e m end.
Proof.
  induction ds as [|x ds IH]; intros args kwargs; [reflexivity|].
  cbn [rename_keywords deprecated_all fold_right]. fold (deprecated_all ds (fun _ kw => ([], Ret (VDict kw)))).
  unfold deprecated at 1. destruct (depr_loop x args (key_map x kwargs) kwargs) as [ws [kw|e m]]; cbn [snd]; [|reflexivity].
  rewrite <- IH. now destruct (deprecated_all ds _ args kw).
Qed.

Lemma rename_remap : forall kwargs, exists kwargs',
  (forall args, rename_keywords remap_decorators args kwargs = Ret kwargs') /\ (dwf kwargs -> dwf kwargs') /\
  forall k, dget k kwargs' = renamed_get remap_table kwargs k.
Proof.
  intro kwargs. destruct (deprecated_chain remap_decorators kwargs) as (kw' & E & W & G).
  - apply Forall_forall. intros x Hx.
    repeat (destruct Hx as [<-|Hx];
      [left; split; [reflexivity|]; split; [reflexivity|]; split; [reflexivity|]; split; [reflexivity|discriminate]|]).
    destruct Hx.
  - cbn. repeat constructor; cbn; intuition discriminate.
  - cbn. repeat constructor; cbn; intuition discriminate.
  - cbn. intros o Ho. intuition (subst; discriminate).
  - exists kw'. split; [|split; [exact W|exact G]]. intros args.
    pose proof (rename_deprecated remap_decorators args kwargs) as X. rewrite E in X. cbn [snd] in X.
    destruct (rename_keywords remap_decorators args kwargs) as [kw|e m]; [|discriminate]. congruence.
Qed.

(** Keywords without the deprecated ones. *)
Lemma rename_none : forall args kwargs, (forall k, In k (map fst remap_table) -> dget k kwargs = None) ->
  rename_keywords remap_decorators args kwargs = Ret kwargs.
Proof.
  intros args kwargs H. unfold remap_decorators. cbn [map rename_keywords].
  repeat match goal with |- context [depr_loop ?x _ _ kwargs] =>
    replace (snd (depr_loop x args (key_map x kwargs) kwargs)) with (Ret kwargs : outcome (dict val));
    [|unfold key_map; cbn [dprefix renamed old_key new_key depr_loop append];
      rewrite (H _) by (cbn; tauto); reflexivity] end.
  reflexivity.
Qed.

Definition remap_names : list string := map snd remap_table.
Definition remap_rest (kwargs : dict val) : dict val :=
  ddel "sinusoidal__overlap" (ddel "sinusoidal__wsize" (ddel "sinusoidal__wtype" (ddel "sinusoidal__log_n" kwargs))).

Lemma bind_remap : forall kwargs, bind_args remap_sig [] kwargs =
  Ret ([keyword "sinusoidal__log_n" VNone kwargs; keyword "sinusoidal__wtype" (VStr "hamming") kwargs;
        keyword "sinusoidal__wsize" (VNum 1) kwargs; keyword "sinusoidal__overlap" (VNum (1 # 2)) kwargs],
       remap_rest kwargs).
Proof.
  intro kwargs. unfold remap_sig. cbn [bind_args]. unfold keyword, remap_rest. rewrite !dget_ddel.
  cbn [String.eqb Ascii.eqb Bool.eqb]. reflexivity.
Qed.

Lemma dget_rest : forall kwargs k, dget k (remap_rest kwargs) = if in_list k remap_names then None else dget k kwargs.
Proof.
  intros kwargs k. unfold remap_rest, in_list, remap_names. cbn [map snd remap_table existsb]. rewrite !dget_ddel.
  rewrite !(String.eqb_sym _ k).
  repeat match goal with |- context [String.eqb ?a ?b] => destruct (String.eqb a b); try reflexivity end.
Qed.
Lemma dwf_rest : forall kwargs, dwf kwargs -> dwf (remap_rest kwargs).
Proof. intros. unfold remap_rest. now repeat apply dwf_ddel. Qed.

Lemma dmem_false : forall V k (m : dict V), dmem k m = false <-> dget k m = None.
Proof. intros. rewrite dmem_dget. destruct (dget k m); split; congruence. Qed.
Lemma dmem_true : forall V k (m : dict V), dmem k m = true <-> exists v, dget k m = Some v.
Proof.
  intros. rewrite dmem_dget. destruct (dget k m); split; intro H; try congruence; eauto.
  destruct H; congruence.
Qed.

(** ** What the remapper changes *)
Section Remap.
Variable default_window : val.
Variable construct_tracker : val -> outcome val.
Variable get_window : val -> Z -> outcome val.
Variable d : nat.
Local Notation remapper := (remapper default_window construct_tracker get_window d).

Lemma remap_n_get : forall log_n kwargs out, remap_n log_n kwargs = Ret out ->
  (dwf kwargs -> dwf out) /\
  forall k, dget k out = if String.eqb k "sinusoidal__n" then
      match dget "sinusoidal__n" kwargs, log_n with
      | Some v, _ => Some v
      | None, VNone => None
      | None, _ => match shift_one log_n with Ret n => Some n | Raise _ _ => None end
      end else dget k kwargs.
Proof.
  intros log_n kwargs out H. unfold remap_n in H.
  assert (X : Ret kwargs = Ret out -> dget "sinusoidal__n" kwargs <> None \/ log_n = VNone -> (dwf kwargs -> dwf out) /\
    forall k, dget k out = if String.eqb k "sinusoidal__n" then
      match dget "sinusoidal__n" kwargs, log_n with
      | Some v, _ => Some v
      | None, VNone => None
      | None, _ => match shift_one log_n with Ret n => Some n | Raise _ _ => None end
      end else dget k kwargs).
  { intros [= <-] C. split; [auto|]. intro k. destruct (String.eqb_spec k "sinusoidal__n") as [->|]; [|reflexivity].
    destruct (dget "sinusoidal__n" kwargs) eqn:E; [reflexivity|]. destruct C as [C| ->]; [congruence|reflexivity]. }
  destruct log_n; try (apply X; [exact H|now right]);
  (destruct (dmem "sinusoidal__n" kwargs) eqn:M;
    [apply X; [exact H|left; apply dmem_true in M; destruct M; congruence]|];
   apply dmem_false in M; rewrite M;
   match type of H with match shift_one ?v with _ => _ end = _ => destruct (shift_one v) as [n|e m]; [|discriminate H] end;
   injection H as <-; split; [apply dwf_dset|]; intro k; rewrite dget_dset, (String.eqb_sym _ k);
   destruct (String.eqb k "sinusoidal__n"); reflexivity).
Qed.

Lemma remap_w_get : forall wtype wsize kwargs w w' out,
  remap_w default_window construct_tracker get_window d wtype wsize kwargs w = (w', Ret out) ->
  (dwf kwargs -> dwf out) /\
  forall k, (k = "sinusoidal__w" -> dget k kwargs <> None) \/ k <> "sinusoidal__w" -> dget k out = dget k kwargs.
Proof.
  intros wtype wsize kwargs w w' out H. unfold remap_w in H.
  destruct (dmem "sinusoidal__w" kwargs) eqn:M.
  - injection H as _ <-. split; auto.
  - destruct (sample_attr _ _ _ _ _ _) as [w1 [n|e m]]; [|discriminate]. destruct (int_product n wsize) as [z|e m]; [|discriminate].
    destruct (get_window wtype z) as [win|e m]; [|discriminate]. injection H as _ <-. split; [apply dwf_dset|].
    intros k Hk. rewrite dget_dset. destruct (String.eqb_spec "sinusoidal__w" k) as [<-|]; [|reflexivity].
    apply dmem_false in M. destruct Hk as [Hk|Hk]; [|congruence]. exfalso. now apply Hk.
Qed.

Lemma remap_h_get : forall overlap kwargs w w' out,
  remap_h default_window construct_tracker d overlap kwargs w = (w', Ret out) ->
  (dwf kwargs -> dwf out) /\
  (forall k, (k = "sinusoidal__tracker__h" -> dget k kwargs <> None) \/ k <> "sinusoidal__tracker__h" ->
             dget k out = dget k kwargs) /\
  (dget "sinusoidal__tracker__h" kwargs = None ->
     exists h, dget "sinusoidal__tracker__h" out = Some (VInt h) /\ (1 <= h)%Z).
Proof.
  intros overlap kwargs w w' out H. unfold remap_h in H.
  destruct (dmem "sinusoidal__tracker__h" kwargs) eqn:M.
  - injection H as _ <-. split; [auto|]. split; [auto|]. intro X. apply dmem_true in M. destruct M; congruence.
  - destruct (sample_attr _ _ _ _ _ _) as [w1 [n|e m]]; [|discriminate]. destruct (one_minus overlap) as [s|e m]; [|discriminate].
    destruct (int_product s _) as [z|e m]; [|discriminate]. injection H as _ <-. split; [apply dwf_dset|]. split.
    + intros k Hk. rewrite dget_dset. destruct (String.eqb_spec "sinusoidal__tracker__h" k) as [<-|]; [|reflexivity].
      apply dmem_false in M. destruct Hk as [Hk|Hk]; [|congruence]. exfalso. now apply Hk.
    + intros _. eexists. split; [rewrite dget_dset, String.eqb_refl; reflexivity|]. lia.
Qed.
End Remap.

(** ** Remapping for parameters of SAMPLE *)
Section RemapLeaves.
Variable default_window : val.
Variable construct_tracker : val -> outcome val.
Variable get_window : val -> Z -> outcome val.
Hypothesis window_value : forall w, as_estimator w default_window = None.
Variable e : nat.

Definition sample_kwargs (kwargs : dict val) : Prop :=
  dwf kwargs /\ forall k v, In (k, v) kwargs -> In k (dkeys (sample_leaves default_window)) /\ no_object v.

Lemma firstn_app_eq : forall A (w w' : list A), firstn (List.length w) w' = w -> exists t, w' = w ++ t.
Proof. intros A w w' H. exists (skipn (List.length w) w'). rewrite <- H at 1. symmetry. apply firstn_skipn. Qed.

Lemma sample_attr_leaf : forall kwargs a w v, sample_kwargs kwargs -> In (a, v) [("n", VInt 2048); ("w", default_window)] ->
  exists t, sample_attr default_window construct_tracker (4 + e) kwargs a w =
    (w ++ t, Ret (match dget ("sinusoidal__" ++ a)%string kwargs with
                  | Some v => stored_leaf default_window ("sinusoidal__" ++ a)%string v | None => v end)).
Proof.
  intros kwargs a w v (W & L) Ha.
  destruct (construct_sample default_window construct_tracker window_value e kwargs w W L) as (w' & E & F & _ & _ & P).
  destruct (firstn_app_eq _ _ _ F) as [t ->]. exists t. unfold sample_attr. rewrite E.
  assert (Hl : In ("sinusoidal__" ++ a, v)%string (sample_leaves default_window)).
  { destruct Ha as [[= <- <-]|[[= <- <-]|[]]]; cbn; tauto. }
  specialize (P _ _ Hl). set (u := match dget ("sinusoidal__" ++ a)%string kwargs with Some _ => _ | None => _ end) in *.
  assert (Pa : partition ("sinusoidal__" ++ a) = ("sinusoidal", Some a) /\ partition a = (a, None)).
  { destruct Ha as [[= <- <-]|[[= <- <-]|[]]]; split; reflexivity. }
  cbn [Nat.add pget] in P. rewrite (proj1 Pa) in P. destruct (dmem "sinusoidal" _); [|discriminate].
  destruct (dget "sinusoidal" (attrs_of (w ++ t) (List.length w))) as [s|]; [|discriminate].
  destruct (as_estimator (w ++ t) s) as [i|] eqn:Ei; [|discriminate]. apply tidy_est in Ei. destruct Ei as [-> _].
  cbn [pget] in P. rewrite (proj2 Pa) in P. destruct (dmem a _); [|discriminate].
  destruct (dget a (attrs_of (w ++ t) i)) as [x|]; [|discriminate]. now injection P as ->.
Qed.

Lemma sample_kwargs_set : forall kwargs k v, sample_kwargs kwargs ->
  In k (dkeys (sample_leaves default_window)) -> no_object v -> sample_kwargs (dset k v kwargs).
Proof.
  intros kwargs k v (W & L) Hk Hv. split; [now apply dwf_dset|]. intros k' v' Hin.
  apply in_dget in Hin; [|now apply dwf_dset]. rewrite dget_dset in Hin.
  destruct (String.eqb_spec k k') as [<-|]; [injection Hin as <-; auto|]. apply L. now apply dget_in.
Qed.

(** The truncated value of a number. *)
Definition truncates (q : Q) (z : Z) : Prop :=
  ((0 <= q -> inject_Z z <= q /\ q < inject_Z (z + 1)) /\
   (q <= 0 -> inject_Z (z - 1) < q /\ q <= inject_Z z))%Q.
Lemma py_int_truncates : forall q, truncates q (py_int q).
Proof.
  intros [n p]. unfold truncates, py_int, Qle, Qlt, inject_Z. cbn [Qnum Qden]. rewrite !Z.mul_1_r.
  assert (Hp : (0 < Zpos p)%Z) by reflexivity. split; intro H.
  - pose proof (Z.mul_quot_le n (Zpos p) H ltac:(lia)). pose proof (Z.mul_succ_quot_gt n (Zpos p) H ltac:(lia)). lia.
  - pose proof (Z.mul_quot_ge n (Zpos p) H ltac:(lia)). pose proof (Z.mul_pred_quot_lt n (Zpos p) H ltac:(lia)). lia.
Qed.
Lemma truncates_unique : forall q y z, truncates q y -> truncates q z -> y = z.
Proof.
  intros q y z (A1 & A2) (B1 & B2). destruct (Qlt_le_dec q 0) as [H|H].
  - specialize (A2 (Qlt_le_weak _ _ H)). specialize (B2 (Qlt_le_weak _ _ H)).
    assert (X : (inject_Z (y - 1) < inject_Z z)%Q) by (apply Qlt_le_trans with q; tauto).
    assert (Y : (inject_Z (z - 1) < inject_Z y)%Q) by (apply Qlt_le_trans with q; tauto).
    rewrite <- Zlt_Qlt in X, Y. lia.
  - specialize (A1 H). specialize (B1 H).
    assert (X : (inject_Z y < inject_Z (z + 1))%Q) by (apply Qle_lt_trans with q; tauto).
    assert (Y : (inject_Z z < inject_Z (y + 1))%Q) by (apply Qle_lt_trans with q; tauto).
    rewrite <- Zlt_Qlt in X, Y. lia.
Qed.

(** The size of the transform that the keywords ask for. *)
Definition fft_size (kwargs : dict val) (n : Z) : Prop :=
  match dget "sinusoidal__n" kwargs with
  | Some v => v = VInt n
  | None =>
    match dget "sinusoidal__log_n" kwargs with
    | None | Some VNone => n = 2048%Z
    | Some (VInt z) => (0 <= z)%Z /\ n = (2 ^ z)%Z
    | _ => False
    end
  end.
(** The window: the given one, or one of the given type and fraction of the
    transform. *)
Definition window (kwargs : dict val) (n : Z) (win : val) : Prop :=
  match dget "sinusoidal__w" kwargs with
  | Some v => win = v
  | None => exists q size, as_num (keyword "sinusoidal__wsize" (VNum 1) kwargs) = Some q /\
      truncates (inject_Z n * q) size /\
      get_window (keyword "sinusoidal__wtype" (VStr "hamming") kwargs) size = Ret win /\ no_object win
  end.
(** The hop: the given one, or a fraction of the size of the window, within
    one and that size. *)
Definition hop (kwargs : dict val) (win h : val) : Prop :=
  match dget "sinusoidal__tracker__h" kwargs with
  | Some v => h = v
  | None => exists q z, as_num (keyword "sinusoidal__overlap" (VNum (1 # 2)) kwargs) = Some q /\
      truncates ((1 - q) * inject_Z (np_size win)) z /\ h = VInt (Z.max (Z.min z (np_size win)) 1)
  end.

Lemma remap_ok : forall kwargs n win h, dwf kwargs ->
  (forall k v, In (k, v) kwargs -> In k (dkeys (sample_leaves default_window) ++ remap_names) /\ no_object v) ->
  fft_size kwargs n -> window kwargs n win -> hop kwargs (stored_leaf default_window "sinusoidal__w" win) h ->
  exists out,
    (forall w, exists t, remapper default_window construct_tracker get_window (4 + e) [] kwargs w = (w ++ t, Ret out)) /\
    sample_kwargs out /\
    forall k, dget k out =
      if in_list k remap_names then None
      else if String.eqb k "sinusoidal__tracker__h" then Some h
      else if String.eqb k "sinusoidal__w" then Some win
      else if String.eqb k "sinusoidal__n" then
        match dget "sinusoidal__n" kwargs, keyword "sinusoidal__log_n" VNone kwargs with
        | None, VNone => None | _, _ => Some (VInt n) end
      else dget k kwargs.
Proof.
  intros kwargs n win h W L Hn Hw Hh.
  assert (Rn : rename_keywords remap_decorators [] kwargs = Ret kwargs).
  { apply rename_none. intros k Hk. apply dget_none. intro X. apply dget_keys in X. destruct X as [v X]. apply dget_in in X.
      destruct (L k v X) as (Y & _).
      assert (N : ~ In k (dkeys (sample_leaves default_window) ++ remap_names)).
      { clear - Hk. cbn in Hk. decompose [or] Hk; subst; try contradiction; cbn; intuition discriminate. }
      contradiction. }
  unfold remapper. rewrite Rn, bind_remap. cbn [nth]. unfold remap_body.
  set (r := remap_rest kwargs).
  assert (Wr : dwf r) by now apply dwf_rest.
  assert (Sr : sample_kwargs r).
  { split; [exact Wr|]. intros k v Hin. apply in_dget in Hin; [|exact Wr]. unfold r in Hin. rewrite dget_rest in Hin.
    destruct (in_list k remap_names) eqn:I; [discriminate|]. destruct (L k v (dget_in _ _ _ _ Hin)) as (A & B).
    split; [|exact B]. apply in_app_iff in A. destruct A as [A|A]; [exact A|]. apply in_list_spec in A. congruence. }
  (* the size of the transform *)
  assert (N1 : exists r1, remap_n (keyword "sinusoidal__log_n" VNone kwargs) r = Ret r1 /\ sample_kwargs r1 /\
             (forall k, k <> "sinusoidal__n" -> dget k r1 = dget k r) /\
             dget "sinusoidal__n" r1 = match dget "sinusoidal__n" kwargs, keyword "sinusoidal__log_n" VNone kwargs with
               | None, VNone => None | _, _ => Some (VInt n) end /\
             match dget "sinusoidal__n" r1 with Some v => stored_leaf default_window "sinusoidal__n" v | None => VInt 2048 end = VInt n).
  { assert (Gr : dget "sinusoidal__n" r = dget "sinusoidal__n" kwargs) by (unfold r; rewrite dget_rest; reflexivity).
    unfold fft_size in Hn. unfold remap_n. rewrite dmem_dget, Gr. unfold keyword.
    destruct (dget "sinusoidal__n" kwargs) as [v|] eqn:En.
    - subst v. exists r. rewrite Gr. split; [now destruct (dget "sinusoidal__log_n" kwargs) as [[]|]|].
      split; [exact Sr|]. split; [reflexivity|]. split; reflexivity.
    - destruct (dget "sinusoidal__log_n" kwargs) as [[| |z| | | | |]|]; try contradiction.
      + subst n. exists r. rewrite Gr. split; [reflexivity|]. split; [exact Sr|]. split; [reflexivity|]. split; reflexivity.
      + destruct Hn as (Z0 & ->). cbn [shift_one]. destruct (Z.ltb_spec z 0); [lia|].
        exists (dset "sinusoidal__n" (VInt (2 ^ z)) r). split; [reflexivity|].
        split; [apply sample_kwargs_set; [exact Sr|cbn; tauto|intros i X; discriminate]|].
        split; [intros k Hk; rewrite dget_dset; destruct (String.eqb_spec "sinusoidal__n" k); congruence|].
        rewrite dget_dset, String.eqb_refl. split; reflexivity.
      + subst n. exists r. rewrite Gr. split; [reflexivity|]. split; [exact Sr|]. split; [reflexivity|]. split; reflexivity. }
  destruct N1 as (r1 & E1 & S1 & G1 & N1 & V1). rewrite E1.
  (* the window *)
  assert (W2 : exists r2, (forall w, exists t2, remap_w default_window construct_tracker get_window (4 + e)
               (keyword "sinusoidal__wtype" (VStr "hamming") kwargs) (keyword "sinusoidal__wsize" (VNum 1) kwargs) r1 w
               = (w ++ t2, Ret r2)) /\ sample_kwargs r2 /\ (forall k, k <> "sinusoidal__w" -> dget k r2 = dget k r1) /\
               dget "sinusoidal__w" r2 = Some win).
  { assert (Gw : dget "sinusoidal__w" r1 = dget "sinusoidal__w" kwargs).
    { rewrite G1 by discriminate. unfold r. rewrite dget_rest. reflexivity. }
    unfold remap_w. rewrite dmem_dget, Gw. unfold window in Hw. destruct (dget "sinusoidal__w" kwargs) as [v|] eqn:Ew.
    - subst v. exists r1. split; [intro w; exists []; now rewrite app_nil_r|]. split; [exact S1|]. split; [reflexivity|exact Gw].
    - destruct Hw as (q & size & Hq & Ht & Hg & Ho).
      exists (dset "sinusoidal__w" win r1). split.
      { intro w. destruct (sample_attr_leaf r1 "n" w (VInt 2048) S1 ltac:(cbn; tauto)) as (t2 & E2).
        cbn [append] in E2. rewrite V1 in E2. rewrite E2. unfold int_product. cbn [as_num]. rewrite Hq.
        rewrite (truncates_unique _ _ _ (py_int_truncates (inject_Z n * q)) Ht), Hg. eauto. }
      split; [apply sample_kwargs_set; [exact S1|cbn; tauto|exact Ho]|].
      split; [intros k Hk; rewrite dget_dset; destruct (String.eqb_spec "sinusoidal__w" k); congruence|].
      now rewrite dget_dset, String.eqb_refl. }
  destruct W2 as (r2 & E2 & S2 & G2 & V2).
  (* the hop *)
  assert (Gh : dget "sinusoidal__tracker__h" r2 = dget "sinusoidal__tracker__h" kwargs).
  { rewrite G2, G1 by discriminate. unfold r. rewrite dget_rest. reflexivity. }
  assert (H3 : exists r3, (forall w, exists t3, remap_h default_window construct_tracker (4 + e)
               (keyword "sinusoidal__overlap" (VNum (1 # 2)) kwargs) r2 w = (w ++ t3, Ret r3)) /\
               sample_kwargs r3 /\ (forall k, k <> "sinusoidal__tracker__h" -> dget k r3 = dget k r2) /\
               dget "sinusoidal__tracker__h" r3 = Some h).
  { unfold remap_h. rewrite dmem_dget, Gh. unfold hop in Hh. destruct (dget "sinusoidal__tracker__h" kwargs) as [v|] eqn:Eh.
    - subst v. exists r2. split; [intro w; exists []; now rewrite app_nil_r|]. split; [exact S2|]. split; [reflexivity|exact Gh].
    - destruct Hh as (q & z & Hq & Ht & ->).
      eexists. split.
      { intro w. destruct (sample_attr_leaf r2 "w" w default_window S2 ltac:(cbn; tauto)) as (t3 & E3).
        cbn [append] in E3. rewrite V2 in E3. rewrite E3. unfold one_minus. rewrite Hq. unfold int_product. cbn [as_num].
        rewrite (truncates_unique _ _ _ (py_int_truncates _) Ht). eauto. }
      split; [apply sample_kwargs_set; [exact S2|cbn; tauto|intros i X; discriminate]|].
      split; [intros k Hk; rewrite dget_dset; destruct (String.eqb_spec "sinusoidal__tracker__h" k); congruence|].
      now rewrite dget_dset, String.eqb_refl. }
  destruct H3 as (r3 & E3 & S3 & G3 & V3). exists r3. split.
  { intro w. destruct (E2 w) as (t2 & ->). destruct (E3 (w ++ t2)) as (t3 & E). exists (t2 ++ t3). rewrite app_assoc. exact E. }
  split; [exact S3|]. intro k.
  destruct (String.eqb_spec k "sinusoidal__tracker__h") as [->|Kh]; [exact V3|].
  destruct (String.eqb_spec k "sinusoidal__w") as [->|Kw]; [rewrite G3 by discriminate; exact V2|].
  destruct (String.eqb_spec k "sinusoidal__n") as [->|Kn]; [rewrite G3, G2 by discriminate; exact N1|].
  rewrite G3, G2, G1 by assumption. unfold r. apply dget_rest.
Qed.
End RemapLeaves.

(** ** The model that is trained *)
Section Model.
Variable default_window : val.
Variable construct_tracker : val -> outcome val.
Variable get_window : val -> Z -> outcome val.
Hypothesis window_value : forall w, as_estimator w default_window = None.
Variable e : nat.
Local Notation remapper := (remapper default_window construct_tracker get_window (4 + e)).
Local Notation opt_model := (opt_model default_window construct_tracker (4 + e)).

Lemma opt_model_ok : forall p m args kwargs w out f,
  o_model p = VObj m -> o_remap p = Some f ->
  tidy (3 + e) w m -> estimator (class_of w m) = true -> deep (3 + e) w m ->
  List.length args = List.length (o_dims p) ->
  (forall k, In k (dkeys (dict_zip (dkeys (o_dims p)) args)) -> dget k kwargs = None) ->
  (forall w, exists t, f [] (dict_zip (dkeys (o_dims p)) args ++ kwargs) w = (w ++ t, Ret out)) ->
  dwf out ->
  (forall k v, dget k out = Some v -> no_object v /\ v <> VNone /\ exists u, pget (3 + e) w m k = Some u /\ free u) ->
  exists t o, opt_model p args kwargs w = (w ++ t, Ret o) /\
    (forall i, In i (reach (3 + e) (w ++ t) o) -> (List.length w <= i)%nat) /\
    In o (reach (3 + e) (w ++ t) o) /\ deep (3 + e) (w ++ t) o /\
    class_of (w ++ t) o = class_of w m /\
    forall k, match dget k out with
              | Some v => pget (3 + e) (w ++ t) o k = Some v
              | None => match pget (3 + e) w m k with
                        | None => pget (3 + e) (w ++ t) o k = None
                        | Some v => exists v', pget (3 + e) (w ++ t) o k = Some v' /\
                            ((free v /\ v' = v) \/
                             exists j j', v = VObj j /\ v' = VObj j' /\ class_of (w ++ t) j' = class_of w j)
                        end
              end.
Proof.
  intros p m args kwargs w out f Em Er T Es D La Nd Hf W Ho.
  unfold opt_model. rewrite Em. cbn [as_estimator]. rewrite Es.
  destruct (clone_ok default_window construct_tracker (3 + e) w m T Es D) as (t1 & o & E1 & T1 & B1 & N1 & D1 & S1).
  change (S (3 + e)) with (4 + e)%nat in E1. rewrite E1. unfold opt_kwargs. rewrite La, Nat.eqb_refl, Er.
  replace (existsb _ _) with false.
  2:{ symmetry. apply not_true_iff_false. intro X. apply existsb_exists in X. destruct X as (k & Hk & X).
      apply dmem_true in X. destruct X as [v X]. rewrite (Nd k Hk) in X. discriminate. }
  destruct (Hf (w ++ t1)) as (t2 & E2). rewrite E2.
  assert (Io : In o (reach (3 + e) (w ++ t1) o)) by now left.
  assert (Lo : (o < List.length (w ++ t1))%nat) by now apply B1.
  destruct (set_leaves default_window construct_tracker window_value (3 + e) ((w ++ t1) ++ t2) o out) as (w' & E3 & Sh & U & P).
  - now apply deep_ext.
  - now rewrite reach_ext.
  - exact W.
  - intros k v Hin. apply in_dget in Hin; [|exact W]. destruct (Ho k v Hin) as (O1 & O2 & u & Pu & Fu).
    rewrite pget_ext by assumption. pose proof (proj2 S1 k) as X. rewrite Pu in X.
    destruct X as (u' & Pu' & X). split; [|split].
    + exists u'. split; [exact Pu'|]. destruct X as [[_ ->]|(j & j' & -> & _)]; [now apply free_est|destruct Fu].
    + now apply no_object_est.
    + intros ->. congruence.
  - change (S (3 + e)) with (4 + e)%nat in E3. rewrite E3.
    pose proof Sh as (Sl & Sc & _ & _).
    assert (Pre : firstn (List.length w) w' = w).
    { apply nth_error_ext. intro i. destruct (Nat.lt_ge_cases i (List.length w)) as [Hi|Hi].
      - rewrite nth_error_firstn' by exact Hi. rewrite U.
        + rewrite <- app_assoc. now rewrite nth_error_app1.
        + rewrite reach_ext by assumption. intro X. apply B1 in X. lia.
      - rewrite !(proj2 (nth_error_None _ _)); [reflexivity|exact Hi|]. rewrite firstn_length. lia. }
    destruct (firstn_app_eq _ _ _ Pre) as [t ->]. exists t, o. split; [reflexivity|].
    rewrite (same_shape_reach (3 + e) _ _ o Sh). rewrite reach_ext by assumption.
    split; [intros i Hi; now apply B1|]. split; [exact Io|].
    split; [apply (same_shape_deep (3 + e) ((w ++ t1) ++ t2)); [exact Sh|now apply deep_ext]|].
    split; [rewrite Sc, class_ext by exact Lo; apply S1|].
    intro k. rewrite P. destruct (dget k out) as [v|] eqn:Ek.
    + destruct (Ho k v Ek) as (_ & Nv & _). unfold stored. destruct (owner _ _ _ _) as [[c a]|]; [|reflexivity].
      destruct v; congruence.
    + rewrite pget_ext by assumption. pose proof (proj2 S1 k) as X. destruct (pget (3 + e) w m k) as [v|]; [|exact X].
      destruct X as (v' & Pv' & X). exists v'. split; [exact Pv'|].
      destruct X as [X|(j & j' & -> & -> & Xc)]; [now left|]. right. exists j, j'. split; [reflexivity|]. split; [reflexivity|].
      destruct (pget_ref _ _ _ _ _ T1 Pv') as [[]|(y & [= <-] & Ly)]. rewrite Sc, class_ext by exact Ly. exact Xc.
Qed.
End Model.

Lemma dict_zip_get : forall ks vs, NoDup ks -> List.length vs = List.length ks ->
  dict_zip ks vs = combine ks vs /\ dwf (dict_zip ks vs).
Proof.
  intros ks vs N L. unfold dict_zip.
  assert (X : forall ks vs acc, List.length vs = List.length ks -> NoDup (dkeys acc ++ ks) ->
    fold_left (fun m (p : string * val) => dset (fst p) (snd p) m) (combine ks vs) acc = acc ++ combine ks vs).
  { clear. induction ks as [|k ks IH]; intros [|v vs] acc L N; try discriminate; cbn [combine fold_left]; [now rewrite app_nil_r|].
    cbn [fst snd]. rewrite dset_absent.
    - rewrite IH; [now rewrite <- app_assoc|now injection L|]. unfold dkeys in *. rewrite map_app, <- app_assoc. exact N.
    - apply dget_none. intro X. apply NoDup_remove_2 in N. apply N, in_app_iff. now left. }
  rewrite X; [|exact L|exact N]. cbn [app]. split; [reflexivity|]. unfold dwf, dkeys.
  replace (map fst (combine ks vs)) with ks; [exact N|]. clear - L. revert vs L.
  induction ks as [|k ks IH]; intros [|v vs] L; try discriminate; [reflexivity|]. cbn [combine map fst]. f_equal.
  apply IH. now injection L.
Qed.
