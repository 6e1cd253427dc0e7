(** Properties of the optimizer, of its progress bar and of the keywords of
    [fit]: C50, C64, C68. *)
From Coq Require Import String Ascii List Bool ZArith QArith Qabs Qminmax Lia.
Import ListNotations.
From Verif Require Import Base Py Dict ListLemmas Utils_Model Utils_Props Params_Model Params_Proofs
  Params_Build Params_Clone Params_Props Opt_Model Opt_Proofs Opt_Props.
Local Open Scope string_scope.
Local Open Scope list_scope.
Local Open Scope nat_scope.

(** ** C50: the optimizer *)

Lemma dget_app : forall V k (a b : dict V), dget k (a ++ b) = match dget k a with Some v => Some v | None => dget k b end.
Proof.
  intros V k a b. induction a as [|[k' v] a IH]; [reflexivity|]. cbn [app dget]. now destruct (String.eqb k' k).
Qed.
Lemma dget_combine : forall V (ks : list string) (vs : list V), NoDup ks -> List.length vs = List.length ks ->
  (forall i k v, nth_error ks i = Some k -> nth_error vs i = Some v -> dget k (combine ks vs) = Some v) /\
  (forall k, ~ In k ks -> dget k (combine ks vs) = None).
Proof.
  intros V ks. induction ks as [|k0 ks IH]; intros [|v0 vs] N L; try discriminate.
  - split; [intros [|i] k v H; discriminate|reflexivity].
  - inversion_clear N as [|? ? N0 N']. injection L as L. destruct (IH vs N' L) as (A & B). split.
    + intros [|i] k v Hk Hv; cbn [nth_error] in Hk, Hv.
      * injection Hk as ->. injection Hv as ->. cbn [combine dget]. now rewrite String.eqb_refl.
      * cbn [combine dget]. destruct (String.eqb_spec k0 k) as [->|]; [|now apply (A i)].
        exfalso. apply N0. now apply nth_error_In in Hk.
    + intros k Hk. cbn [combine dget]. destruct (String.eqb_spec k0 k) as [->|]; [exfalso; apply Hk; now left|].
      apply B. intro X. apply Hk. now right.
Qed.

Section Kwargs.

(** Any number of values other than that of the dimensions is rejected. *)
Theorem c50_count : forall p args kwargs w, List.length args <> List.length (o_dims p) ->
  exists m, opt_kwargs p args kwargs w = (w, Raise ValueError m).
Proof.
  intros p args kwargs w H. unfold opt_kwargs. apply Nat.eqb_neq in H. rewrite H. eauto.
Qed.

(** The remapper is called with the [i]-th value under the name of the [i]-th
    dimension, and with the additional keywords. *)
Theorem c50_dimensions : forall p f args kwargs w,
  o_remap p = Some f -> dwf (o_dims p) -> dwf kwargs -> List.length args = List.length (o_dims p) ->
  (forall k, In k (dkeys (o_dims p)) -> dget k kwargs = None) ->
  exists point, opt_kwargs p args kwargs w = f [] point w /\ dwf point /\
    (forall i k v, nth_error (dkeys (o_dims p)) i = Some k -> nth_error args i = Some v -> dget k point = Some v) /\
    (forall k, ~ In k (dkeys (o_dims p)) -> dget k point = dget k kwargs).
Proof.
  intros p f args kwargs w Ef W Wk L Nd. unfold opt_kwargs. rewrite L, Nat.eqb_refl, Ef.
  assert (Lk : List.length args = List.length (dkeys (o_dims p))) by (unfold dkeys; now rewrite map_length).
  destruct (dict_zip_get (dkeys (o_dims p)) args W Lk) as (-> & Wz).
  destruct (dget_combine val (dkeys (o_dims p)) args W Lk) as (A & B).
  assert (Ek : dkeys (combine (dkeys (o_dims p)) args) = dkeys (o_dims p)).
  { unfold dkeys at 1. clear - Lk. revert args Lk. induction (dkeys (o_dims p)) as [|k ks IH]; intros [|v vs] Lk; try discriminate; [reflexivity|].
    cbn [combine map fst]. f_equal. apply IH. now injection Lk. }
  rewrite Ek. replace (existsb _ _) with false.
  2:{ symmetry. apply not_true_iff_false. intro X. apply existsb_exists in X. destruct X as (k & Hk & X).
      apply dmem_true in X. destruct X as [v X]. rewrite (Nd k Hk) in X. discriminate. }
  eexists. split; [reflexivity|]. split; [|split].
  - unfold dwf. unfold dkeys at 1. rewrite map_app.
    change (map fst (combine (dkeys (o_dims p)) args)) with (dkeys (combine (dkeys (o_dims p)) args)). rewrite Ek.
    clear - W Wk Nd. unfold dwf, dkeys in *. induction (map fst (o_dims p)) as [|k ks IH]; [exact Wk|].
    inversion_clear W as [|? ? N W']. cbn [app]. constructor; [|apply IH; [exact W'|intros x Hx; apply Nd; now right]].
    rewrite in_app_iff. intros [X|X]; [contradiction|]. specialize (Nd k (or_introl eq_refl)).
    apply dget_none in Nd. contradiction.
  - intros i k v Hk Hv. rewrite dget_app. now rewrite (A i k v Hk Hv).
  - intros k Hk. rewrite dget_app. now rewrite (B k Hk).
Qed.

(** A keyword with the name of a dimension is a TypeError; the sample rate is
    always such a keyword of the loss. *)
Theorem c50_duplicate : forall p f args kwargs w k v,
  o_remap p = Some f -> dwf (o_dims p) -> List.length args = List.length (o_dims p) ->
  In k (dkeys (o_dims p)) -> dget k kwargs = Some v ->
  exists m, opt_kwargs p args kwargs w = (w, Raise TypeError m).
Proof.
  intros p f args kwargs w k v Ef W L Hk Hv. unfold opt_kwargs. rewrite L, Nat.eqb_refl, Ef.
  assert (Lk : List.length args = List.length (dkeys (o_dims p))) by (unfold dkeys; now rewrite map_length).
  destruct (dict_zip_get (dkeys (o_dims p)) args W Lk) as (-> & Wz).
  assert (Ek : dkeys (combine (dkeys (o_dims p)) args) = dkeys (o_dims p)).
  { unfold dkeys at 1. clear - Lk. revert args Lk. induction (dkeys (o_dims p)) as [|x ks IH]; intros [|y vs] Lk; try discriminate; [reflexivity|].
    cbn [combine map fst]. f_equal. apply IH. now injection Lk. }
  rewrite Ek. replace (existsb _ _) with true; [eauto|]. symmetry. apply existsb_exists. exists k. split; [exact Hk|].
  apply dmem_true. eauto.
Qed.

(** Without a remapper the values are dropped. *)
Theorem c50_no_remap : forall p args kwargs w, o_remap p = None -> List.length args = List.length (o_dims p) ->
  opt_kwargs p args kwargs w = (w, Ret kwargs).
Proof. intros p args kwargs w Ef L. unfold opt_kwargs. now rewrite L, Nat.eqb_refl, Ef. Qed.

(** With the clipping, no sample exceeds the peak of the audio, which is the
    modulus of some sample and the greatest; samples within it stay. *)
Lemma fold_max : forall l a, (exists v, (v = a \/ In v l) /\ fold_left Qmax l a == v)%Q /\
  (forall v, v = a \/ In v l -> v <= fold_left Qmax l a)%Q.
Proof.
  induction l as [|b l IH]; intros a; cbn [fold_left].
  - split; [exists a; split; [now left|reflexivity]|]. intros v [->|[]]. apply Qle_refl.
  - destruct (IH (Qmax a b)) as ((v & Hv & Ev) & M). split.
    + destruct Hv as [->|Hv].
      * destruct (Q.max_spec a b) as [(_ & X)|(_ & X)]; [exists b|exists a]; (split; [cbn; tauto|]); now rewrite Ev.
      * exists v. split; [cbn; tauto|exact Ev].
    + intros u Hu. assert (X : (Qmax a b <= fold_left Qmax l (Qmax a b))%Q) by (apply M; now left).
      destruct Hu as [->|[->|Hu]].
      * apply Qle_trans with (Qmax a b); [apply Q.le_max_l|exact X].
      * apply Qle_trans with (Qmax a u); [apply Q.le_max_r|exact X].
      * apply M. now right.
Qed.
Theorem c50_clip : forall p x peak, o_clip p = true -> opt_peak p x = Ret peak ->
  exists q, peak = Some q /\ (exists v, In v x /\ Qabs v == q)%Q /\ (forall v, In v x -> Qabs v <= q)%Q /\
  forall y, List.length (np_clip peak y) = List.length y /\
    (forall i u v, nth_error y i = Some u -> nth_error (np_clip peak y) i = Some v ->
       Qabs v <= q /\ (Qabs u <= q -> v == u) /\ (q < u -> v == q) /\ (u < - q -> v == - q))%Q.
Proof.
  intros p x peak Ec H. unfold opt_peak in H. rewrite Ec in H. destruct x as [|x0 x]; [discriminate|].
  cbn [map] in H. injection H as <-. set (q := fold_left Qmax (map Qabs x) (Qabs x0)). exists q. split; [reflexivity|].
  destruct (fold_max (map Qabs x) (Qabs x0)) as ((v & Hv & Ev) & M). fold q in Ev, M.
  assert (Q0 : (0 <= q)%Q) by (apply Qle_trans with (Qabs x0); [apply Qabs_nonneg|apply M; now left]).
  assert (Qn : (- q <= q)%Q).
  { apply Qle_trans with 0%Q; [|exact Q0]. rewrite <- (Qopp_involutive 0). apply Qopp_le_compat. exact Q0. }
  split; [|split].
  - destruct Hv as [->|Hv]; [exists x0; split; [now left|now rewrite Ev]|]. apply in_map_iff in Hv.
    destruct Hv as (u & <- & Hu). exists u. split; [now right|now rewrite Ev].
  - intros u [->|Hu]; apply M; [now left|]. right. now apply in_map.
  - intro y. cbn [np_clip]. split; [apply map_length|]. intros i u v' Hu Hv'. rewrite nth_error_map, Hu in Hv'.
    cbn [option_map] in Hv'. injection Hv' as <-.
    destruct (Q.max_spec u (- q)) as [(A & X)|(A & X)]; destruct (Q.min_spec (Qmax u (- q)) q) as [(B & Y)|(B & Y)];
      rewrite Y; rewrite X in *; rewrite ?X.
    + split; [apply Qabs_Qle_condition; split; [apply Qle_refl|exact Qn]|]. split; [|split].
      * intro H. apply Qabs_Qle_condition in H. exfalso. destruct H as (H & _). now apply Qlt_not_le in A.
      * intro H. exfalso. apply (Qlt_irrefl u). apply Qlt_le_trans with (- q)%Q; [exact A|]. apply Qle_trans with q; [exact Qn|now apply Qlt_le_weak].
      * reflexivity.
    + assert (Eq : (q == - q)%Q) by (apply Qle_antisym; assumption).
      split; [apply Qabs_Qle_condition; split; [exact Qn|apply Qle_refl]|]. split; [|split].
      * intro H. apply Qabs_Qle_condition in H. exfalso. destruct H as (H & _). now apply Qlt_not_le in A.
      * reflexivity.
      * intros _. exact Eq.
    + split; [apply Qabs_Qle_condition; split; [exact A|now apply Qlt_le_weak]|]. split; [|split].
      * reflexivity.
      * intro H. exfalso. apply (Qlt_irrefl u). now apply Qlt_trans with q.
      * intro H. exfalso. now apply Qlt_not_le in H.
    + split; [apply Qabs_Qle_condition; split; [exact Qn|apply Qle_refl]|]. split; [|split].
      * intro H. apply Qabs_Qle_condition in H. apply Qle_antisym; tauto.
      * reflexivity.
      * intro H. exfalso. now apply Qlt_not_le in H.
Qed.

(** A previous state is used unless points or values are given. *)
Theorem c50_state : forall xs ys kwargs,
  (dget "x0" kwargs = None -> dget "y0" kwargs = None ->
     dget "x0" (with_state (Some (xs, ys)) kwargs) = Some xs /\ dget "y0" (with_state (Some (xs, ys)) kwargs) = Some ys /\
     forall k, k <> "x0" -> k <> "y0" -> dget k (with_state (Some (xs, ys)) kwargs) = dget k kwargs) /\
  (dget "x0" kwargs <> None \/ dget "y0" kwargs <> None -> with_state (Some (xs, ys)) kwargs = kwargs) /\
  with_state None kwargs = kwargs.
Proof.
  intros xs ys kwargs. unfold with_state. split; [|split; [|reflexivity]].
  - intros A B. rewrite !(proj2 (dmem_false _ _ _)) by assumption. cbn [negb andb].
    rewrite !dget_dset. cbn [String.eqb Ascii.eqb Bool.eqb]. split; [reflexivity|]. split; [reflexivity|].
    intros k Kx Ky. rewrite !dget_dset. destruct (String.eqb_spec "y0" k); [congruence|].
    destruct (String.eqb_spec "x0" k); congruence.
  - intros [H|H].
    + destruct (dget "x0" kwargs) as [v|] eqn:E; [|congruence]. rewrite (proj2 (dmem_true _ _ _)) by eauto. reflexivity.
    + destruct (dget "y0" kwargs) as [v|] eqn:E; [|congruence]. rewrite (proj2 (dmem_true val "y0" _)) by eauto.
      now rewrite andb_false_r.
Qed.
End Kwargs.

Section Props.
(** The default window (an array), classes given as [sine_tracker_cls], and
    [scipy.signal.get_window]: arbitrary. *)
Variable default_window : val.
Variable construct_tracker : val -> outcome val.
Variable get_window : val -> Z -> outcome val.
Hypothesis window_value : no_object default_window.
Local Notation remapper := (remapper default_window construct_tracker get_window).
Local Notation construct := (construct default_window construct_tracker).
Local Notation fit_start := (fit_start default_window construct_tracker).
Local Notation opt_model := (opt_model default_window construct_tracker).
Local Notation opt_init := (opt_init default_window construct_tracker get_window).

(** The model that is trained for a point: a new one, of the class of the
    optimizer's model; the values of the point, the additional keywords and the
    transform that they ask for, else the parameters of the optimizer's model.
    Existing objects do not change. *)
Theorem c50_trained : forall e p m args kwargs w ps n win h,
  o_model p = VObj m -> o_remap p = Some (remapper (4 + e)) ->
  tidy (3 + e) w m -> deep (3 + e) w m -> class_of w m = CSample -> get_params (3 + e) w m true = Ret ps ->
  (forall k, In k (dkeys (sample_leaves default_window)) -> exists u, dget k ps = Some u /\ free u) ->
  dwf (o_dims p) -> dwf kwargs -> List.length args = List.length (o_dims p) ->
  (forall k, In k (dkeys (o_dims p)) -> dget k kwargs = None) ->
  let point := combine (dkeys (o_dims p)) args ++ kwargs in
  (forall k v, In (k, v) point -> In k (dkeys (sample_leaves default_window) ++ remap_names) /\ no_object v /\ v <> VNone) ->
  fft_size point n -> window get_window point n win -> win <> VNone -> hop point win h ->
  exists t o ps', opt_model (4 + e) p args kwargs w = (w ++ t, Ret o) /\ List.length w <= o /\
    class_of (w ++ t) o = CSample /\ get_params (3 + e) (w ++ t) o true = Ret ps' /\
    dget "sinusoidal__tracker__h" ps' = Some h /\
    dget "sinusoidal__w" ps' = Some win /\
    dget "sinusoidal__n" ps' =
      match dget "sinusoidal__n" point, dget "sinusoidal__log_n" point with
      | None, None => dget "sinusoidal__n" ps
      | _, _ => Some (VInt n)
      end /\
    forall k, In k (dkeys (sample_leaves default_window)) -> ~ In k stft_names ->
      dget k ps' = match dget k point with Some v => Some v | None => dget k ps end.
Proof.
  intros e p m args kwargs w ps n win h Em Er T D Ec Ep Hl Wd Wk La Nd point Hp Hn Hw Nw Hh.
  assert (Lk : List.length args = List.length (dkeys (o_dims p))) by (unfold dkeys; now rewrite map_length).
  destruct (dict_zip_get (dkeys (o_dims p)) args Wd Lk) as (Ez & _).
  assert (Wpoint : dwf point).
  { clear - Wd Wk Nd Lk. unfold point, dwf, dkeys in *. rewrite map_app.
    replace (map fst (combine (map fst (o_dims p)) args)) with (map fst (o_dims p)).
    2:{ clear - Lk. revert args Lk. induction (map fst (o_dims p)) as [|k ks IH]; intros [|v vs] Lk; try discriminate; [reflexivity|].
        cbn [combine map fst]. f_equal. apply IH. now injection Lk. }
    clear Lk. induction (map fst (o_dims p)) as [|k ks IH]; [exact Wk|].
    inversion_clear Wd as [|? ? N W']. cbn [app]. constructor; [|apply IH; [exact W'|intros x Hx; apply Nd; now right]].
    rewrite in_app_iff. intros [X|X]; [contradiction|]. specialize (Nd k (or_introl eq_refl)).
    apply dget_none in Nd. contradiction. }
  assert (Es : stored_leaf default_window "sinusoidal__w" win = win) by (destruct win; try reflexivity; congruence).
  destruct (remap_ok default_window construct_tracker get_window (window_est default_window window_value) e point n win h Wpoint)
    as (out & Rsame & (Wo & Lo) & G).
  { intros k v Hin. destruct (Hp k v Hin) as (A & B & _). auto. }
  { exact Hn. }
  { exact Hw. }
  { now rewrite Es. }
  destruct (get_params_ok (3 + e) w m D) as (ps0 & E0 & _ & G0). rewrite Ep in E0. injection E0 as <-.
  assert (Hn' : h <> VNone).
  { unfold hop in Hh. destruct (dget "sinusoidal__tracker__h" point) as [v|] eqn:E.
    - subst v. apply dget_in in E. now destruct (Hp _ _ E) as (_ & _ & X).
    - destruct Hh as (q & z & _ & _ & ->). discriminate. }
  destruct (opt_model_ok default_window construct_tracker (window_est default_window window_value) e p m args kwargs w out (remapper (4 + e)))
    as (t & o & Eo & Ro & Io & Do & Co & Po); try assumption.
  - now rewrite Ec.
  - rewrite Ez. intros k Hk. apply Nd. apply in_map_iff in Hk. destruct Hk as ([k' v] & <- & Hk). apply in_combine_l in Hk. exact Hk.
  - rewrite Ez. exact Rsame.
  - intros k v Hk. pose proof (dget_in _ _ _ _ Hk) as Hin. destruct (Lo k v Hin) as (L1 & L2).
    split; [exact L2|]. split.
    + rewrite G in Hk. destruct (in_list k remap_names); [discriminate|].
      destruct (String.eqb k "sinusoidal__tracker__h"); [congruence|].
      destruct (String.eqb k "sinusoidal__w"); [congruence|].
      destruct (String.eqb k "sinusoidal__n").
      * destruct (dget "sinusoidal__n" point); [|destruct (keyword _ _ _)]; congruence.
      * apply dget_in in Hk. now destruct (Hp _ _ Hk) as (_ & _ & X).
    + rewrite <- G0. now apply Hl.
  - destruct (get_params_ok (3 + e) (w ++ t) o Do) as (ps' & Ep' & _ & G').
    exists t, o, ps'. split; [exact Eo|]. split; [now apply Ro|]. split; [now rewrite Co|]. split; [exact Ep'|].
    assert (Fin : forall k, In k (dkeys (sample_leaves default_window)) ->
      dget k ps' = match dget k out with Some v => Some v | None => dget k ps end).
    { intros k Hk. rewrite G'. specialize (Po k). destruct (dget k out); [exact Po|]. rewrite <- G0 in Po.
      destruct (Hl k Hk) as (u & Eu & Fu). rewrite Eu in *. destruct Po as (v' & Ev & [[_ ->]|(j & j' & -> & _)]); [exact Ev|destruct Fu]. }
    rewrite !Fin by (cbn; tauto). rewrite !G.
    cbn [in_list existsb remap_names map snd remap_table String.eqb Ascii.eqb Bool.eqb orb].
    split; [reflexivity|]. split; [reflexivity|]. split.
    + unfold keyword. destruct (dget "sinusoidal__n" point) as [v|] eqn:En; [reflexivity|].
      destruct (dget "sinusoidal__log_n" point) as [v|] eqn:El; [|reflexivity].
      apply dget_in in El. destruct (Hp _ _ El) as (_ & _ & X). now destruct v.
    + intros k Hk Ns. rewrite (Fin k Hk), G.
      assert (I : in_list k remap_names = false).
      { apply not_true_iff_false. intro X. apply in_list_spec in X. clear - Hk X. cbn in X.
        decompose [or] X; subst; try contradiction; cbn in Hk; intuition discriminate. }
      rewrite I. unfold stft_names in Ns.
      destruct (String.eqb_spec k "sinusoidal__tracker__h") as [->|]; [exfalso; apply Ns; cbn; tauto|].
      destruct (String.eqb_spec k "sinusoidal__w") as [->|]; [exfalso; apply Ns; cbn; tauto|].
      destruct (String.eqb_spec k "sinusoidal__n") as [->|]; [exfalso; apply Ns; cbn; tauto|]. reflexivity.
Qed.

(** The deprecated argument [sample_fn] cannot be used with the default
    remapper: it gets the keywords as its first positional argument. *)
Theorem c50_sample_fn : forall d f sample_kw model clip dims w,
  exists m, opt_init d (Some f) sample_kw model None clip dims w = (w, Raise TypeError m).
Proof.
  intros d f sample_kw model clip dims w. unfold Opt_Model.opt_init, call_remap, Opt_Model.remapper.
  set (v := VDict _).
  assert (R : rename_keywords remap_decorators [v] [] = Ret []) by reflexivity.
  assert (B : bind_args remap_sig [v] [] = Ret ([v; VStr "hamming"; VNum 1; VNum (1 # 2)], [])) by reflexivity.
  rewrite R, B. cbn [nth]. unfold remap_body. unfold v. cbn [remap_n dmem dget shift_one existsb]. eexists. reflexivity.
Qed.
(** Neither deprecated argument can be used without a remapper. *)
Theorem c50_deprecated_no_remap : forall e sample_fn sample_kw model clip dims w,
  sample_fn <> None \/ sample_kw <> None ->
  exists w' m, opt_init (4 + e) sample_fn sample_kw model (Some None) clip dims w = (w', Raise TypeError m).
Proof.
  intros e sample_fn sample_kw model clip dims w H. unfold Opt_Model.opt_init, call_remap.
  destruct sample_fn as [f|]; [eexists; eexists; reflexivity|].
  destruct sample_kw as [kw|]; [|destruct H; congruence].
  destruct (construct_sample default_window construct_tracker (window_est default_window window_value) e [] w) as (w' & E & _).
  - constructor.
  - intros k v [].
  - rewrite E. destruct kw; eexists; eexists; reflexivity.
Qed.

(** *** A whole run *)

Section Run.
Variable e : nat.
Variable fit : nat -> list Q -> dict val -> pworld -> pworld * outcome unit.
Variable predict : nat -> nat -> nat -> val -> pworld -> pworld * outcome (list Q).
Variable loss_fn : list Q -> list Q -> outcome Q.
Variable minimizer : dict val -> list (list val * Q) -> ask.
(** Training and synthesis change only the trained model and objects they
    make, and store no other object in the model. *)
Definition local (o : nat) (w w' : pworld) : Prop := deep (3 + e) w o ->
  deep (3 + e) w' o /\ List.length w <= List.length w' /\
  (forall i, i < List.length w -> ~ In i (reach (3 + e) w o) -> nth_error w' i = nth_error w i) /\
  (forall i, In i (reach (3 + e) w' o) -> In i (reach (3 + e) w o) \/ List.length w <= i).
Hypothesis fit_local : forall o x w, local o w (fst (fit o x [] w)).
Hypothesis predict_local : forall r o n fs w, local o w (fst (predict r o n fs w)).
Local Notation loss_value := (loss_value default_window construct_tracker (4 + e) fit predict loss_fn).
Local Notation minimize := (minimize default_window construct_tracker (4 + e) fit predict loss_fn minimizer).
Local Notation gp_minimize := (gp_minimize default_window construct_tracker (4 + e) fit predict loss_fn minimizer).

(** Points for which the remapper gives values of parameters of the model. *)
Definition valid_point (p : optimizer) (m : nat) (fs : val) (w : pworld) (args : list val) : Prop :=
  exists f out, o_remap p = Some f /\ List.length args = List.length (o_dims p) /\
    (forall w, exists t, f [] (combine (dkeys (o_dims p)) args ++ [("sinusoidal__tracker__fs", fs)]) w = (w ++ t, Ret out)) /\
    dwf out /\
    (forall k v, dget k out = Some v -> no_object v /\ v <> VNone /\ exists u, pget (3 + e) w m k = Some u /\ free u).

Variable p : optimizer.
Variable m : nat.
Variable fs : val.
Variable w : pworld.
Hypothesis model_is : o_model p = VObj m.
Hypothesis dims_wf : dwf (o_dims p).
Hypothesis no_rate : ~ In "sinusoidal__tracker__fs" (dkeys (o_dims p)).
Hypothesis model_tidy : tidy (3 + e) w m.
Hypothesis model_deep : deep (3 + e) w m.
Hypothesis model_est : estimator (class_of w m) = true.

(** The trained model is above [w]. *)
Definition above (o : nat) (v : pworld) : Prop :=
  (exists t, v = w ++ t) /\ deep (3 + e) v o /\ forall i, In i (reach (3 + e) v o) -> List.length w <= i.
Lemma local_above : forall o v v', local o v v' -> above o v -> above o v'.
Proof.
  intros o v v' H ((t & ->) & D & A). destruct (H D) as (D' & L & U & R). rewrite app_length in L.
  split; [|split; [exact D'|]].
  - apply firstn_app_eq. apply nth_error_ext. intro i. destruct (Nat.lt_ge_cases i (List.length w)) as [Hi|Hi].
    + rewrite nth_error_firstn' by exact Hi. rewrite U; [now rewrite nth_error_app1|rewrite app_length; lia|].
      intro X. apply A in X. lia.
    + rewrite !(proj2 (nth_error_None _ _)); [reflexivity|exact Hi|]. rewrite firstn_length. lia.
  - intros i Hi. destruct (R i Hi) as [X|X]; [now apply A|]. rewrite app_length in X. lia.
Qed.

Lemma model_at : forall args t, valid_point p m fs w args ->
  exists t' o, opt_model (4 + e) p args [("sinusoidal__tracker__fs", fs)] (w ++ t) = ((w ++ t) ++ t', Ret o) /\
    above o ((w ++ t) ++ t') /\ List.length (w ++ t) <= o.
Proof.
  intros args t (f & out & Ef & La & Hf & Wo & Ho).
  assert (Lk : List.length args = List.length (dkeys (o_dims p))) by (unfold dkeys; now rewrite map_length).
  destruct (dict_zip_get (dkeys (o_dims p)) args dims_wf Lk) as (Ez & _).
  assert (Lm : m < List.length w) by now apply est_lt.
  destruct (opt_model_ok default_window construct_tracker (window_est default_window window_value) e p m args
              [("sinusoidal__tracker__fs", fs)] (w ++ t) out f) as (t' & o & E & R & I & Do & _); try assumption.
  - now apply tidy_ext.
  - now rewrite class_ext.
  - now apply deep_ext.
  - rewrite Ez. intros k Hk. apply in_map_iff in Hk. destruct Hk as ([k' v] & <- & Hk). apply in_combine_l in Hk.
    cbn [dget fst]. destruct (String.eqb_spec "sinusoidal__tracker__fs" k') as [X|]; [congruence|reflexivity].
  - now rewrite Ez.
  - intros k v Hk. destruct (Ho k v Hk) as (A & B & u & Pu & Fu). split; [exact A|]. split; [exact B|]. exists u.
    split; [|exact Fu]. now rewrite pget_ext.
  - exists t', o. split; [exact E|]. split; [|now apply R]. split; [exists (t ++ t'); now rewrite app_assoc|].
    split; [exact Do|].
    intros i Hi. apply R in Hi. rewrite app_length in Hi. lia.
Qed.

Lemma loss_kept : forall peak x r args t, valid_point p m fs w args ->
  exists t', fst (loss_value p peak x fs r args [] (w ++ t)) = w ++ t'.
Proof.
  intros peak x r args t V. unfold Opt_Model.loss_value. cbn [app].
  destruct (model_at args t V) as (t1 & o & -> & A & _).
  pose proof (fit_local o x ((w ++ t) ++ t1)) as Lf. destruct (fit o x [] ((w ++ t) ++ t1)) as [w2 [u|e2 m2]]; cbn [fst] in *.
  - pose proof (local_above _ _ _ Lf A) as A2.
    pose proof (predict_local r o (List.length x) fs w2) as Lp. destruct (predict r o (List.length x) fs w2) as [w3 [y|e3 m3]]; cbn [fst] in *;
      exact (proj1 (local_above _ _ _ Lp A2)).
  - exact (proj1 (local_above _ _ _ Lf A)).
Qed.

(** The evaluations of a run. *)
Definition evaluated (peak : option Q) (x : list Q) (seen : list (list val * Q)) : Prop :=
  forall r a q, nth_error seen r = Some (a, q) ->
    exists t t', loss_value p peak x fs r a [] (w ++ t) = (w ++ t', Ret q).

Lemma minimize_kept : forall peak x kwargs, 
  (forall seen, match minimizer kwargs seen with Ask a | Best a => valid_point p m fs w a end) ->
  forall n seen t w' r, evaluated peak x seen -> minimize p peak x fs kwargs n seen (w ++ t) = Some (w', r) ->
  (exists t', w' = w ++ t') /\
  (forall b, r = Ret b -> exists seen', minimizer kwargs seen' = Best b /\ evaluated peak x seen' /\
     List.length seen <= List.length seen' <= List.length seen + n).
Proof.
  intros peak x kwargs V. induction n as [|n IH]; intros seen t w' r Ev H; cbn [Opt_Model.minimize] in H;
    pose proof (V seen) as Vs; destruct (minimizer kwargs seen) as [a|b] eqn:Em; try discriminate.
  - injection H as <- <-. split; [eauto|]. intros b' [= <-]. exists seen. split; [exact Em|]. split; [exact Ev|lia].
  - destruct (loss_kept peak x (List.length seen) a t Vs) as (t1 & E1).
    destruct (loss_value p peak x fs (List.length seen) a [] (w ++ t)) as [w1 [q|e1 m1]] eqn:El; cbn [fst] in E1; subst w1.
    + assert (Ev' : evaluated peak x (seen ++ [(a, q)])).
      { intros i a' q' Hi. destruct (Nat.lt_ge_cases i (List.length seen)) as [Hl|Hl].
        - rewrite nth_error_app1 in Hi by exact Hl. now apply Ev.
        - rewrite nth_error_app2 in Hi by exact Hl. destruct (i - List.length seen) as [|j] eqn:Ej; [|destruct j; discriminate].
          injection Hi as <- <-. replace i with (List.length seen) by lia. eauto. }
      destruct (IH _ _ _ _ Ev' H) as (A & B). split; [exact A|]. intros b Hb. destruct (B b Hb) as (s & S1 & S2 & S3).
      exists s. split; [exact S1|]. split; [exact S2|]. rewrite app_length in S3. cbn in S3. lia.
    + injection H as <- <-. split; [eauto|]. intros b [=].
  - injection H as <- <-. split; [eauto|]. intros b' [= <-]. exists seen. split; [exact Em|]. split; [exact Ev|lia].
Qed.

(** Whatever the minimizer does with valid points: all objects that existed
    before, in particular the optimizer's own model, are as they were; the
    returned model is a new one, set up for the best point and trained with the
    keywords for training; the minimizer saw the values of the loss. *)
Theorem c50_run : forall x state fit_kws kwargs n w' r,
  (forall seen, match minimizer (with_state state kwargs) seen with Ask a | Best a => valid_point p m fs w a end) ->
  (forall o w, local o w (fst (fit o x fit_kws w))) ->
  gp_minimize p x fs state fit_kws kwargs n w = Some (w', r) ->
  (exists t, w' = w ++ t) /\
  (forall o b, r = Ret (o, b) -> List.length w <= o /\
     exists peak seen w1 w2, opt_peak p x = Ret peak /\ minimizer (with_state state kwargs) seen = Best b /\
       evaluated peak x seen /\ List.length seen <= n /\
       opt_model (4 + e) p b [("sinusoidal__tracker__fs", fs)] w1 = (w2, Ret o) /\
       fit o x fit_kws w2 = (w', Ret tt) /\ (exists t, w1 = w ++ t)).
Proof.
  intros x state fit_kws kwargs n w' r V Fk H. unfold Opt_Model.gp_minimize in H.
  destruct (opt_peak p x) as [peak|e0 m0]; [|injection H as <- <-; split; [exists []; now rewrite app_nil_r|intros o b [=]]].
  destruct (minimize p peak x fs (with_state state kwargs) n [] w) as [[w1 [b|e1 m1]]|] eqn:Em; [| |discriminate].
  - rewrite <- (app_nil_r w) in Em at 1.
    destruct (minimize_kept peak x (with_state state kwargs) V n [] [] w1 (Ret b)) as ((t1 & ->) & B); [intros [|?] ? ? [=]|exact Em|].
    destruct (B b eq_refl) as (seen & S1 & S2 & S3).
    pose proof (V seen) as Vb. rewrite S1 in Vb.
    destruct (model_at b t1 Vb) as (t2 & o & E2 & A & Lo). rewrite E2 in H.
    pose proof (Fk o ((w ++ t1) ++ t2)) as Lf.
    destruct (fit o x fit_kws ((w ++ t1) ++ t2)) as [w3 [[]|e3 m3]] eqn:Ef; cbn [fst] in Lf; injection H as <- <-.
    + split; [exact (proj1 (local_above _ _ _ Lf A))|]. intros o' b' [= <- <-]. split; [rewrite app_length in Lo; lia|].
      exists peak, seen, (w ++ t1), ((w ++ t1) ++ t2). split; [reflexivity|]. split; [exact S1|]. split; [exact S2|].
      split; [cbn in S3; lia|]. split; [exact E2|]. split; [exact Ef|eauto].
    + split; [exact (proj1 (local_above _ _ _ Lf A))|]. intros o' b' [=].
  - injection H as <- <-. rewrite <- (app_nil_r w) in Em at 1.
    destruct (minimize_kept peak x (with_state state kwargs) V n [] [] w1 (Raise e1 m1)) as (A & _); [intros [|?] ? ? [=]|exact Em|].
    split; [exact A|]. intros o b [=].
Qed.
(** A value of the loss compares the audio with the synthesis of the trained
    model, clipped if wanted: no sample exceeds the peak of the audio and the others
    stay. *)
Theorem c50_loss : forall x peak r args kwargs v v' q, opt_peak p x = Ret peak ->
  loss_value p peak x fs r args kwargs v = (v', Ret q) ->
  exists o v1 v2 y0 y, opt_model (4 + e) p args (kwargs ++ [("sinusoidal__tracker__fs", fs)]) v = (v1, Ret o) /\
    fit o x [] v1 = (v2, Ret tt) /\ predict r o (List.length x) fs v2 = (v', Ret y0) /\ loss_fn x y = Ret q /\
    (o_clip p = false -> y = y0) /\
    (o_clip p = true -> exists top, In top x /\ (forall u, In u x -> Qabs u <= Qabs top)%Q /\
       Forall2 (fun u0 u => Qabs u <= Qabs top /\ (Qabs u0 <= Qabs top -> u == u0))%Q y0 y).
Proof.
  intros x peak r args kwargs v v' q Hp H. unfold Opt_Model.loss_value in H.
  destruct (opt_model _ _ _ _ _) as [v1 [o|]] eqn:E1; [|discriminate].
  destruct (fit o x [] v1) as [v2 [[]|]] eqn:E2; [|discriminate].
  destruct (predict r o (List.length x) fs v2) as [v3 [y0|]] eqn:E3; [|discriminate]. injection H as <- H.
  exists o, v1, v2, y0, (np_clip peak y0). split; [reflexivity|]. split; [exact E2|]. split; [exact E3|]. split; [exact H|]. split.
  - intros C. unfold opt_peak in Hp. rewrite C in Hp. injection Hp as <-. reflexivity.
  - intros C. destruct (c50_clip p x peak C Hp) as (t & -> & (top & It & Et) & Mt & K). exists top. split; [exact It|]. split.
    + intros u Hu. rewrite Et. now apply Mt.
    + destruct (K y0) as (L & V). revert L V. generalize (np_clip (Some t) y0) as y. clear H E3. induction y0 as [|u0 y0 IH]; intros [|u y] L V; try discriminate; constructor.
      * destruct (V 0%nat u0 u eq_refl eq_refl) as (A & B & _). rewrite Et. auto.
      * apply IH; [now injection L|]. intros i a b Ha Hb. exact (V (S i) a b Ha Hb).
Qed.
End Run.

(** ** C64: keywords of fit *)

Lemma fit_names : forall d w o ps (kwargs : dict val), deep d w o -> get_params d w o true = Ret ps ->
  match kwargs with [] => Ret [] | _ => get_params (S d) w o true end = Ret [] /\ kwargs = [] \/
  exists ps1, match kwargs with [] => Ret [] | _ => get_params (S d) w o true end = Ret ps1 /\
    forall k, dget k ps1 = dget k ps.
Proof.
  intros d w o ps kwargs D E. destruct kwargs as [|p kwargs]; [left; auto|]. right.
  destruct (get_params_ok d w o D) as (p0 & E0 & _ & G0). rewrite E in E0. injection E0 as <-.
  destruct (get_params_ok (S d) w o (deep_mono d w o D)) as (p1 & E1 & _ & G1).
  exists p1. split; [exact E1|]. intro k. rewrite G1, G0. now apply pget_mono.
Qed.
(** Keywords that name parameters are set, at any depth, before the training;
    the names of the training configure it; nothing else has an effect, except
    that [model] is a TypeError, after the parameters have been set. *)
Theorem c64_fit : forall d w o kwargs ps,
  deep d w o -> NoDup (reach d w o) -> get_params d w o true = Ret ps -> dwf kwargs ->
  dget "ignore_warnings" ps = None ->
  (forall k v, In (k, v) kwargs -> forall u, dget k ps = Some u ->
     no_object u /\ no_object v /\ (v = VNone -> forall c a, owner d w o k = Some (c, a) -> c_default c a = None)) ->
  exists w' ps', get_params d w' o true = Ret ps' /\
    (forall k, dget k ps' = match dget k ps, dget k kwargs with Some _, Some v => Some v | u, _ => u end) /\
    List.length w' = List.length w /\ (forall i, ~ In i (reach d w o) -> nth_error w' i = nth_error w i) /\
    match dget "model" kwargs with
    | Some _ => exists m, fit_start (S d) o kwargs w = (w', Raise TypeError m)
    | None => exists c, fit_start (S d) o kwargs w = (w', Ret c) /\
        x_jobs c = match dget "n_jobs" kwargs with Some v => v | None => VInt 0 end /\
        x_pool c = match dget "pool" kwargs with Some v => v | None => VNone end /\
        x_manager c = match dget "mp_manager" kwargs with Some v => v | None => VNone end /\
        x_args c = dget "_fit_args" kwargs /\
        x_ignore c = match dget "ignore_warnings" kwargs with Some v => v | None => VBool true end
    end.
Proof.
  intros d w o kwargs ps D N Ep W Ni H.
  set (kw := ddel "ignore_warnings" kwargs).
  assert (Wk : dwf kw) by now apply dwf_ddel.
  assert (Gk : forall k, dget k kw = if String.eqb "ignore_warnings" k then None else dget k kwargs) by (intro k; apply dget_ddel).
  destruct (get_params_ok d w o D) as (p0 & E0 & Wps & G0). rewrite Ep in E0. injection E0 as <-.
  assert (X : exists names, match kw with [] => Ret [] | _ => get_params (S d) w o true end = Ret names /\
            forall k, dget k kw <> None -> dget k names = dget k ps).
  { destruct (fit_names d w o ps kw D Ep) as [[E ->]|(p1 & E & G)].
    - exists []. split; [exact E|]. intros k Hk. now destruct Hk.
    - exists p1. split; [exact E|]. intros k _. apply G. }
  destruct X as (names & En & Gn).
  set (own := filter (fun p => dmem (fst p) names) kw).
  assert (Wo : dwf own) by now apply dwf_filter.
  assert (Go : forall k, dget k own = match dget k ps with Some _ => dget k kwargs | None => None end).
  { intro k. unfold own. rewrite (dget_filter val (fun k => dmem k names)). rewrite dmem_dget, Gk.
    destruct (String.eqb_spec "ignore_warnings" k) as [<-|Hk].
    - rewrite Ni. now destruct (dget "ignore_warnings" names).
    - specialize (Gk k). destruct (String.eqb_spec "ignore_warnings" k); [congruence|].
      destruct (dget k kwargs) as [v|] eqn:Ek.
      + rewrite Gn by congruence. now destruct (dget k ps).
      + destruct (dget k names); now destruct (dget k ps). }
  destruct (c65_set_params default_window construct_tracker window_value d w o own ps D N Ep Wo) as (w' & ps' & Es & Ep' & Gp & Lw & U).
  { intros k v Hin. apply in_dget in Hin; [|exact Wo]. rewrite Go in Hin. destruct (dget k ps) as [u|] eqn:Eu; [|discriminate].
    destruct (H k v (dget_in _ _ _ _ Hin) u Eu) as (A & B & C). split; [eauto|]. split; [exact B|exact C]. }
  exists w', ps'. split; [exact Ep'|]. split.
  { intro k. rewrite Gp, Go. destruct (dget k ps); [|reflexivity]. now destruct (dget k kwargs). }
  split; [exact Lw|]. split; [exact U|].
  unfold Opt_Model.fit_start. fold kw. rewrite En. fold own. rewrite Es.
  rewrite dmem_dget, Gk. cbn [String.eqb Ascii.eqb Bool.eqb]. destruct (dget "model" kwargs); [eauto|].
  eexists. split; [reflexivity|]. cbn [x_jobs x_pool x_manager x_args x_ignore]. unfold keyword. rewrite !Gk. cbn [String.eqb Ascii.eqb Bool.eqb].
  repeat split; reflexivity.
Qed.
End Props.
Print Assumptions c50_count.
Print Assumptions c50_dimensions.
Print Assumptions c50_duplicate.
Print Assumptions c50_no_remap.
Print Assumptions c50_clip.
Print Assumptions c50_state.
Print Assumptions c50_trained.
Print Assumptions c50_sample_fn.
Print Assumptions c50_deprecated_no_remap.
Print Assumptions c50_run.
Print Assumptions c50_loss.
Print Assumptions c64_fit.

(** ** Examples of C50 and C64 *)

Local Notation ex_remap := (remapper ex_window ex_tracker ex_get_window 4).
(** An optimizer of the number of modes and the size of the transform, for the
    model 1 of [ex_world]. *)
Definition ex_opt : optimizer :=
  mkOpt (VObj 1) [("max_n_modes", VList [VInt 1; VInt 64]); ("sinusoidal__log_n", VList [VInt 2; VInt 5])] (Some ex_remap) true.
Definition ex_point : list val := [VInt 7; VInt 3].
Definition ex_fs : dict val := [("sinusoidal__tracker__fs", VInt 8000)].

Example c50_count_example : exists m, opt_kwargs ex_opt [VInt 7] [] ex_world = (ex_world, Raise ValueError m).
Proof. apply c50_count. discriminate. Qed.
Example c50_duplicate_example : exists m,
  opt_kwargs ex_opt ex_point [("max_n_modes", VInt 1)] ex_world = (ex_world, Raise TypeError m).
Proof.
  apply (c50_duplicate ex_opt ex_remap _ _ _ "max_n_modes" (VInt 1)); try reflexivity; [|now left].
  apply dwf_dec. reflexivity.
Qed.
Example c50_no_remap_example :
  opt_kwargs (mkOpt (VObj 1) (o_dims ex_opt) None true) ex_point ex_fs ex_world = (ex_world, Ret ex_fs).
Proof. now apply c50_no_remap. Qed.
Example c50_dimensions_example : exists point, opt_kwargs ex_opt ex_point ex_fs ex_world = ex_remap [] point ex_world /\
  dget "max_n_modes" point = Some (VInt 7) /\ dget "sinusoidal__log_n" point = Some (VInt 3) /\
  dget "sinusoidal__tracker__fs" point = Some (VInt 8000).
Proof.
  destruct (c50_dimensions ex_opt ex_remap ex_point ex_fs ex_world) as (pt & E & _ & A & B);
    try reflexivity; try (apply dwf_dec; reflexivity).
  - intros k Hk. cbn in Hk. decompose [or] Hk; subst; try contradiction; reflexivity.
  - exists pt. split; [exact E|]. split; [now apply (A 0)|]. split; [now apply (A 1)|].
    rewrite B; [reflexivity|]. cbn. intuition discriminate.
Qed.
Example c50_clip_example : opt_peak ex_opt [1; -3 # 2; 0]%Q = Ret (Some (3 # 2)%Q) /\
  np_clip (Some (3 # 2)) [2; -5; 1]%Q = [3 # 2; -3 # 2; 1]%Q.
Proof. split; reflexivity. Qed.
Example c50_state_example :
  with_state (Some (VList [VInt 1], VList [VInt 2])) [("n_calls", VInt 9)] =
  [("n_calls", VInt 9); ("x0", VList [VInt 1]); ("y0", VList [VInt 2])].
Proof. reflexivity. Qed.

Example c50_sample_fn_example : exists m,
  opt_init ex_window ex_tracker ex_get_window 4 (Some (fun kw w => (w, Ret (VObj 1)))) (Some (Some [("max_n_modes", VInt 3)]))
    None None true [] ex_world = (ex_world, Raise TypeError m).
Proof. apply c50_sample_fn. Qed.
Example c50_deprecated_no_remap_example : exists w' m,
  opt_init ex_window ex_tracker ex_get_window 4 None (Some (Some [("max_n_modes", VInt 3)])) None (Some None) true [] ex_world =
    (w', Raise TypeError m).
Proof. apply (c50_deprecated_no_remap ex_window ex_tracker ex_get_window ltac:(intros i X; discriminate X) 0). right. discriminate. Qed.

(** The model of the point 7, 8 = 2^3 has these values and the threshold -60 of
    the optimizer's model. *)
Lemma ex_leaves : forall ps, get_params 3 ex_world 1 true = Ret ps ->
  forall k, In k (dkeys (sample_leaves ex_window)) -> exists u, dget k ps = Some u /\ free u.
Proof.
  intros ps H. vm_compute in H. injection H as <-. intros k Hk. vm_compute in Hk.
  repeat (destruct Hk as [<-|Hk]; [eexists; split; [vm_compute; reflexivity|cbn [free]; tauto]|]). destruct Hk.
Qed.
Definition ex_win8 : val := VList (repeat (VInt 1) 8).
Example c50_trained_example : exists t o ps',
  opt_model ex_window ex_tracker 4 ex_opt ex_point ex_fs ex_world = (ex_world ++ t, Ret o) /\
  get_params 3 (ex_world ++ t) o true = Ret ps' /\
  dget "max_n_modes" ps' = Some (VInt 7) /\ dget "sinusoidal__n" ps' = Some (VInt 8) /\
  dget "sinusoidal__w" ps' = Some ex_win8 /\ dget "sinusoidal__tracker__h" ps' = Some (VInt 4) /\
  dget "sinusoidal__t" ps' = Some (VInt (-60)) /\ dget "sinusoidal__tracker__fs" ps' = Some (VInt 8000).
Proof.
  destruct (get_params_ok 3 ex_world 1 ex_is_deep) as (ps & Ep & _).
  assert (Et : dget "sinusoidal__t" ps = Some (VInt (-60))) by (pose proof Ep as X; vm_compute in X; injection X as <-; reflexivity).
  destruct (c50_trained ex_window ex_tracker ex_get_window ltac:(intros i X; discriminate X) 0 ex_opt 1 ex_point ex_fs ex_world ps 8 ex_win8 (VInt 4))
    as (t & o & ps' & E & _ & _ & Ep' & Ph & Pw & Pn & P); try reflexivity.
  - exact ex_is_tidy.
  - exact ex_is_deep.
  - exact Ep.
  - exact (ex_leaves ps Ep).
  - apply dwf_dec. reflexivity.
  - apply dwf_dec. reflexivity.
  - intros k Hk. cbn in Hk. decompose [or] Hk; subst; try contradiction; reflexivity.
  - intros k v Hin. cbn in Hin. decompose [or] Hin; try contradiction;
      match goal with X : (_, _) = _ |- _ => injection X as <- <- end; (split; [vm_compute; tauto|split; discriminate]).
  - cbn [fft_size dget combine app o_dims ex_opt dkeys map fst ex_point ex_fs]. cbn. split; [lia|reflexivity].
  - unfold window. cbn [dget combine app o_dims ex_opt dkeys map fst ex_point ex_fs String.eqb Ascii.eqb Bool.eqb].
    exists 1%Q, 8%Z. split; [reflexivity|]. split; [|split; [reflexivity|discriminate]].
    apply (py_int_truncates (inject_Z 8 * 1)).
  - discriminate.
  - unfold hop. cbn [dget combine app o_dims ex_opt dkeys map fst ex_point ex_fs String.eqb Ascii.eqb Bool.eqb].
    exists (1 # 2)%Q, 4%Z. split; [reflexivity|]. split; [|reflexivity].
    apply (py_int_truncates ((1 - (1 # 2)) * inject_Z 8)).
  - exists t, o, ps'. split; [exact E|]. split; [exact Ep'|].
    split; [rewrite P; [reflexivity|vm_compute; tauto|cbn; intuition discriminate]|].
    split; [exact Pn|]. split; [exact Pw|]. split; [exact Ph|].
    split; (rewrite P; [|vm_compute; tauto|cbn; intuition discriminate]); [exact Et|reflexivity].
Qed.

(** *** Refutations *)

(** The window and the hop of the optimizer's own model are lost: the remapper
    replaces them by defaults, which it computes from the default size 2048,
    not from the size of the model.  Here the transform of the model has 512
    samples, and that of the trained model has a window of 2048. *)
Definition ex_small : pworld :=
  fst (construct ex_window ex_tracker 4 CSample
         [("sinusoidal__n", VInt 512); ("sinusoidal__w", ex_win8); ("sinusoidal__tracker__h", VInt 2)] []).
Theorem c50_model_window_refuted : exists p w w' o,
  o_model p = VObj 0 /\ o_remap p = Some ex_remap /\
  ex_params w 0 ["sinusoidal__n"; "sinusoidal__w"; "sinusoidal__tracker__h"] = [Some (VInt 512); Some ex_win8; Some (VInt 2)] /\
  opt_model ex_window ex_tracker 4 p [VInt 7] [] w = (w', Ret o) /\
  match ex_params w' o ["sinusoidal__n"; "sinusoidal__w"; "sinusoidal__tracker__h"] with
  | [Some n; Some win; Some h] => n = VInt 512 /\ np_size win = 2048%Z /\ h = VInt 1024
  | _ => False
  end.
Proof.
  exists (mkOpt (VObj 0) [("max_n_modes", VNone)] (Some ex_remap) true), ex_small. eexists. eexists.
  split; [reflexivity|]. split; [reflexivity|]. split; [vm_compute; reflexivity|]. split; [vm_compute; reflexivity|].
  vm_compute. repeat split.
Qed.
Print Assumptions c50_model_window_refuted.

(** The deprecated [sample_kw] together with a model changes that model. *)
Theorem c50_sample_kw_refuted : exists w w' p,
  opt_init ex_window ex_tracker ex_get_window 4 None (Some (Some [("max_n_modes", VInt 3); ("sinusoidal__log_n", VInt 3)]))
    (Some (VObj 1)) None true [] w = (w', Ret p) /\ o_model p = VObj 1 /\
  ex_params w 1 ["max_n_modes"; "sinusoidal__n"] = [Some (VInt 8); Some (VInt 2048)] /\
  ex_params w' 1 ["max_n_modes"; "sinusoidal__n"] = [Some (VInt 3); Some (VInt 8)].
Proof.
  set (r := opt_init ex_window ex_tracker ex_get_window 4 None (Some (Some [("max_n_modes", VInt 3); ("sinusoidal__log_n", VInt 3)]))
    (Some (VObj 1)) None true [] ex_world).
  assert (E : match snd r with Ret p => o_model p = VObj 1 | Raise _ _ => False end) by (vm_compute; reflexivity).
  assert (W : ex_params (fst r) 1 ["max_n_modes"; "sinusoidal__n"] = [Some (VInt 3); Some (VInt 8)]) by (vm_compute; reflexivity).
  exists ex_world. fold r. clearbody r. destruct r as [w' [p|e m]]; [|destruct E]. exists w', p. cbn [fst snd] in *.
  split; [reflexivity|]. split; [exact E|]. split; [vm_compute; reflexivity|exact W].
Qed.
Print Assumptions c50_sample_kw_refuted.

(** A run of the optimizer that asks for one point and takes it; training
    changes nothing, synthesis gives silence, and the loss is the first sample. *)
Definition ex_fit (o : nat) (x : list Q) (kwargs : dict val) (w : pworld) : pworld * outcome unit := (w, Ret tt).
Definition ex_predict (r o n : nat) (fs : val) (w : pworld) : pworld * outcome (list Q) := (w, Ret (repeat 0%Q n)).
Definition ex_loss (x y : list Q) : outcome Q := match x with v :: _ => Ret v | [] => Raise IndexError "" end.
Definition ex_minimizer (kwargs : dict val) (seen : list (list val * Q)) : ask :=
  match seen with [] => Ask ex_point | _ => Best ex_point end.
Lemma local_refl : forall e o w, local e o w w.
Proof. intros e o w D. auto. Qed.
Lemma ex_valid : valid_point 0 ex_opt 1 (VInt 8000) ex_world ex_point.
Proof.
  destruct (remap_ok ex_window ex_tracker ex_get_window ltac:(intros w; reflexivity) 0
              [("max_n_modes", VInt 7); ("sinusoidal__log_n", VInt 3); ("sinusoidal__tracker__fs", VInt 8000)] 8 ex_win8 (VInt 4))
    as (out & Hw & (Wo & Lo) & G).
  - apply dwf_dec. reflexivity.
  - intros k v Hin. cbn in Hin. decompose [or] Hin; try contradiction;
      match goal with X : (_, _) = _ |- _ => injection X as <- <- end; (split; [vm_compute; tauto|discriminate]).
  - cbn. split; [lia|reflexivity].
  - unfold window. cbn [dget String.eqb Ascii.eqb Bool.eqb].
    exists 1%Q, 8%Z. split; [reflexivity|]. split; [|split; [reflexivity|discriminate]].
    apply (py_int_truncates (inject_Z 8 * 1)).
  - unfold hop. cbn [dget String.eqb Ascii.eqb Bool.eqb].
    exists (1 # 2)%Q, 4%Z. split; [reflexivity|]. split; [|reflexivity].
    apply (py_int_truncates ((1 - (1 # 2)) * inject_Z 8)).
  - exists ex_remap, out. split; [reflexivity|]. split; [reflexivity|]. split; [exact Hw|]. split; [exact Wo|].
    destruct (get_params_ok 3 ex_world 1 ex_is_deep) as (ps & Ep & _ & G0).
    intros k v Hk. destruct (Lo k v (dget_in _ _ _ _ Hk)) as (A & B). split; [exact B|]. split.
    + rewrite G in Hk. destruct (in_list k remap_names); [discriminate|].
      destruct (String.eqb k "sinusoidal__tracker__h"); [injection Hk as <-; discriminate|].
      destruct (String.eqb k "sinusoidal__w"); [injection Hk as <-; discriminate|].
      destruct (String.eqb k "sinusoidal__n"); [injection Hk as <-; discriminate|].
      apply dget_in in Hk. cbn in Hk. decompose [or] Hk; try contradiction;
      match goal with X : (_, _) = _ |- _ => injection X as <- <- end; discriminate.
    + change (3 + 0) with 3. rewrite <- G0. now apply (ex_leaves ps Ep).
Qed.
Example c50_run_example : exists w' o,
  gp_minimize ex_window ex_tracker 4 ex_fit ex_predict ex_loss ex_minimizer ex_opt [1; 2]%Q (VInt 8000) None [] [] 1 ex_world =
    Some (w', Ret (o, ex_point)) /\ (exists t, w' = ex_world ++ t) /\ List.length ex_world <= o.
Proof.
  destruct (gp_minimize ex_window ex_tracker 4 ex_fit ex_predict ex_loss ex_minimizer ex_opt [1; 2]%Q (VInt 8000) None [] [] 1 ex_world)
    as [[w' r]|] eqn:E; [|vm_compute in E; discriminate].
  pose proof E as E1. vm_compute in E1. injection E1 as _ E1.
  destruct (c50_run ex_window ex_tracker ltac:(intros i X; discriminate X) 0 ex_fit ex_predict ex_loss ex_minimizer) with
    (p := ex_opt) (m := 1) (fs := VInt 8000) (w := ex_world) (x := [1; 2]%Q) (state := @None (val * val)) (fit_kws := @nil (string * val))
    (kwargs := @nil (string * val)) (n := 1) (w' := w') (r := r) as (A & B); try exact E; try reflexivity.
  - intros o x w. apply local_refl.
  - intros r0 o n fs w. apply local_refl.
  - apply dwf_dec. reflexivity.
  - cbn. intuition discriminate.
  - exact ex_is_tidy.
  - exact ex_is_deep.
  - intros [|p seen]; exact ex_valid.
  - intros o w. apply local_refl.
  - exists w'. vm_compute in E. injection E as <- <-. eexists. split; [reflexivity|]. split; [exact A|].
    apply (B _ _ eq_refl).
Qed.

(** [model.fit(x, sinusoidal__t=-50, n_jobs=2, sinusoidal_model__n=512)]: the
    threshold is set, two processes are used, and the deprecated name of the
    size is ignored. *)
Example c64_example : exists w' ps' c, get_params 3 w' 1 true = Ret ps' /\
  fit_start ex_window ex_tracker 4 1
    [("sinusoidal__t", VInt (-50)); ("n_jobs", VInt 2); ("sinusoidal_model__n", VInt 512)] ex_world = (w', Ret c) /\
  dget "sinusoidal__t" ps' = Some (VInt (-50)) /\ dget "max_n_modes" ps' = Some (VInt 8) /\
  dget "sinusoidal__n" ps' = Some (VInt 2048) /\ x_jobs c = VInt 2 /\ x_pool c = VNone /\ x_ignore c = VBool true.
Proof.
  destruct (get_params_ok 3 ex_world 1 ex_is_deep) as (ps & Ep & _ & _). pose proof Ep as X. vm_compute in X. injection X as X.
  destruct (c64_fit ex_window ex_tracker ltac:(intros i Y; discriminate Y) 3 ex_world 1
    [("sinusoidal__t", VInt (-50)); ("n_jobs", VInt 2); ("sinusoidal_model__n", VInt 512)] ps ex_is_deep ex_nodup Ep)
    as (w' & ps' & E' & G & _ & _ & C).
  - apply dwf_dec. reflexivity.
  - now rewrite <- X.
  - intros k v Hin u Hu. cbn in Hin. decompose [or] Hin; try contradiction;
      match goal with Y : (_, _) = _ |- _ => injection Y as <- <- end; rewrite <- X in Hu; vm_compute in Hu; try discriminate Hu.
    injection Hu as <-. split; [intros i Y; discriminate Y|]. split; [intros i Y; discriminate Y|intro Y; discriminate Y].
  - destruct C as (c & E & C1 & C2 & _ & _ & C3). exists w', ps', c. split; [exact E'|]. split; [exact E|].
    rewrite !G, <- X. repeat split; assumption.
Qed.

(** Names that are neither parameters nor known to the training are ignored
    silently, also deprecated names that [set_params] and the constructor
    accept. *)
Theorem c64_deprecated_refuted : exists w o w1 w2 c,
  fit_start ex_window ex_tracker 4 o [("sinusoidal_model__n", VInt 512)] w = (w1, Ret c) /\
  set_params ex_window ex_tracker 4 o [("sinusoidal_model__n", VInt 512)] w = (w2, Ret tt) /\
  ex_params w1 o ["sinusoidal__n"] = [Some (VInt 2048)] /\ ex_params w2 o ["sinusoidal__n"] = [Some (VInt 512)].
Proof.
  exists ex_world, 1. do 3 eexists. split; [vm_compute; reflexivity|]. split; [vm_compute; reflexivity|].
  split; vm_compute; reflexivity.
Qed.
Print Assumptions c64_deprecated_refuted.

(** ** C68: the progress bar *)

Section Bar.
Variable show : val -> string.

(** A call with the best point so far and its value, or a reset. *)
Inductive bar_op : Type := Call (dims : list string) (best : list val) (value : val) | Reset.
Definition bar_step (c : callback) (x : bar_op) : callback * list bar_event :=
  match x with
  | Call dims best value => tc_call show dims best value c
  | Reset => tc_reset c
  end.
Fixpoint bar_run (c : callback) (l : list bar_op) : callback * list bar_event :=
  match l with
  | [] => (c, [])
  | x :: l' => let '(c, e) := bar_step c x in let '(c, es) := bar_run c l' in (c, e ++ es)
  end.

(** Events of one bar: after it opens it advances with every call; [n] is the
    number of calls before. *)
Fixpoint bar_of (text : Z -> bar_op -> string) (n : Z) (l : list bar_op) : list bar_event :=
  match l with
  | [] => []
  | x :: l' => Advance :: Text (text (n + 1)%Z x) :: bar_of text (n + 1) l'
  end.
Definition is_call (x : bar_op) : bool := match x with Call _ _ _ => true | Reset => false end.
(** The stage, and the best value if wanted. *)
Definition bar_text (initial : Z) (minimum : bool) (i : Z) (x : bar_op) : string :=
  match x with
  | Call dims best value =>
    ((if (i <=? initial)%Z then "stage=randomize" else "stage=minimize") ++
     (if minimum then ", minimum=(value=" ++ show value ++ ", params=(" ++
        String.concat ", " (map (fun p => fst p ++ "=" ++ show (snd p)) (combine dims best)) ++ "))" else ""))%string
  | Reset => ""
  end.

Lemma append_empty : forall s, (s ++ "")%string = s.
Proof. induction s as [|a s IH]; cbn [append]; congruence. Qed.
Lemma postfix_text : forall c i dims best value,
  tc_postfix show c i dims best value = bar_text (tc_initial c) (tc_minimum c) i (Call dims best value).
Proof.
  intros c i dims best value. unfold tc_postfix, bar_text. destruct (tc_minimum c); [|now rewrite append_empty].
  destruct (i <=? tc_initial c)%Z; reflexivity.
Qed.

Lemma run_open : forall l N n0 mn i, forallb is_call l = true ->
  bar_run (mkCallback N n0 mn (Some i) true) l =
  (mkCallback N n0 mn (Some (i + Z.of_nat (List.length l))%Z) true, bar_of (bar_text n0 mn) i l).
Proof.
  induction l as [|x l IH]; intros N n0 mn i H.
  - cbn [bar_run bar_of List.length]. now rewrite Z.add_0_r.
  - cbn [forallb] in H. apply andb_true_iff in H. destruct H as [Hx Hl]. destruct x as [dims best value|]; [|discriminate].
    cbn [bar_run bar_step]. unfold tc_call. cbn [tc_started tc_open orb tc_i tc_calls tc_initial tc_minimum app].
    rewrite (IH N n0 mn (i + 1)%Z Hl). cbn [bar_of app]. rewrite postfix_text. cbn [tc_initial tc_minimum].
    replace (i + 1 + Z.of_nat (List.length l))%Z with (i + Z.of_nat (S (List.length l)))%Z by lia. reflexivity.
Qed.

(** Calls of a callback without a bar: one bar of the given total opens, it
    advances once per call with the text of the stage, and it stays open. *)
Theorem c68_calls : forall N n0 mn l, forallb is_call l = true -> l <> [] ->
  bar_run (tc_init N n0 mn) l =
  (mkCallback N n0 mn (Some (Z.of_nat (List.length l))) true, Open N :: bar_of (bar_text n0 mn) 0 l).
Proof.
  intros N n0 mn [|x l] H Hl; [congruence|]. cbn [forallb] in H. apply andb_true_iff in H. destruct H as [Hx H].
  destruct x as [dims best value|]; [|discriminate]. cbn [bar_run bar_step]. unfold tc_call.
  cbn [tc_init tc_started tc_open orb tc_i tc_calls tc_initial tc_minimum app tc_start].
  cbn [tc_calls tc_initial tc_minimum]. rewrite (run_open l N n0 mn (0 + 1)%Z H). rewrite postfix_text. cbn [tc_initial tc_minimum].
  cbn [bar_of app]. replace (0 + 1 + Z.of_nat (List.length l))%Z with (Z.of_nat (S (List.length l))) by lia. reflexivity.
Qed.

(** Events over time: [None] if an event is impossible, else whether a bar is
    open and how many calls it has counted. *)
Definition bar_after (s : option (option nat)) (x : bar_event) : option (option nat) :=
  match s, x with
  | Some None, Open _ => Some (Some 0)
  | Some (Some n), Advance => Some (Some (S n))
  | Some (Some n), Text _ => Some (Some n)
  | Some (Some n), Close => Some None
  | _, _ => None
  end.
(** Calls since the last reset. *)
Fixpoint recent (n : nat) (l : list bar_op) : nat :=
  match l with
  | [] => n
  | Call _ _ _ :: l' => recent (S n) l'
  | Reset :: l' => recent 0 l'
  end.

(** Any sequence of calls and resets: there is never more than one open bar,
    every event concerns the open one, and at the end it is open, with as many
    steps as calls since the last reset, if there are any. *)
Theorem c68_bars : forall N n0 mn l,
  let '(c, es) := bar_run (tc_init N n0 mn) l in
  fold_left bar_after es (Some None) = Some (match recent 0 l with O => None | S n => Some (S n) end) /\
  tc_started c = negb (Nat.eqb (recent 0 l) 0) /\
  tc_i c = match recent 0 l with O => None | S n => Some (Z.of_nat (S n)) end /\
  (forall t, In (Open t) es -> t = N).
Proof.
  intros N n0 mn l.
  assert (X : forall l k, let '(c, es) := bar_run (match k with
                | O => tc_init N n0 mn | S _ => mkCallback N n0 mn (Some (Z.of_nat k)) true end) l in
    fold_left bar_after es (Some (match k with O => None | S _ => Some k end)) =
      Some (match recent k l with O => None | S n => Some (S n) end) /\
    tc_started c = negb (Nat.eqb (recent k l) 0) /\
    tc_i c = match recent k l with O => None | S n => Some (Z.of_nat (S n)) end /\
    (forall t, In (Open t) es -> t = N)).
  { clear l. induction l as [|[dims best value|] l IH]; intro k.
    - destruct k; cbn [bar_run fold_left recent]; (split; [reflexivity|split; [reflexivity|split; [reflexivity|intros t []]]]).
    - cbn [bar_run bar_step recent]. specialize (IH (S k)).
      assert (Ec : exists s, tc_call show dims best value
                (match k with O => tc_init N n0 mn | S _ => mkCallback N n0 mn (Some (Z.of_nat k)) true end) =
                (mkCallback N n0 mn (Some (Z.of_nat (S k))) true, (match k with O => [Open N] | S _ => [] end) ++ [Advance; Text s])).
      { destruct k; eexists; unfold tc_call; cbn [tc_init tc_started tc_open orb tc_i tc_calls tc_initial tc_minimum app tc_start].
        - reflexivity.
        - replace (Z.of_nat (S k) + 1)%Z with (Z.of_nat (S (S k))) by lia. reflexivity. }
      destruct Ec as (s & ->). cbn [tc_init] in IH.
      destruct (bar_run (mkCallback N n0 mn (Some (Z.of_nat (S k))) true) l) as [c es].
      destruct IH as (A & B & C & D). split.
      + rewrite fold_left_app. destruct k; exact A.
      + split; [exact B|]. split; [exact C|]. intros t Ht. apply in_app_iff in Ht. destruct Ht as [Ht|Ht]; [|now apply D].
        destruct k; cbn in Ht; decompose [or] Ht; congruence || contradiction.
    - cbn [bar_run bar_step recent]. specialize (IH 0). cbn iota in IH.
      assert (Ec : tc_reset (match k with O => tc_init N n0 mn | S _ => mkCallback N n0 mn (Some (Z.of_nat k)) true end) =
                (tc_init N n0 mn, match k with O => [] | S _ => [Close] end)) by now destruct k.
      rewrite Ec. destruct (bar_run (tc_init N n0 mn) l) as [c es]. destruct IH as (A & B & C & D). split.
      + rewrite fold_left_app. destruct k; exact A.
      + split; [exact B|]. split; [exact C|]. intros t Ht. apply in_app_iff in Ht. destruct Ht as [Ht|Ht]; [|now apply D].
        destruct k; cbn in Ht; decompose [or] Ht; congruence || contradiction. }
  exact (X l 0).
Qed.

(** Starting again without a reset leaves the first bar open. *)
Theorem c68_restart_refuted : exists c, tc_started c = true /\
  fold_left bar_after (snd (tc_start c)) (Some (Some 0)) = None /\ ~ In Close (snd (tc_start c)).
Proof. exists (fst (tc_start (tc_init 5 0 true))). split; [reflexivity|]. split; [reflexivity|]. cbn. intuition discriminate. Qed.
End Bar.
Print Assumptions c68_calls.
Print Assumptions c68_bars.
Print Assumptions c68_restart_refuted.

Example c68_example :
  snd (bar_run (fun _ => "?") (tc_init 3 1 true)
         [Call ["a"; "b"] [VInt 1; VInt 2] (VNum 0); Call ["a"] [VInt 1] (VNum 0); Reset; Call [] [] VNone]) =
  [Open 3; Advance; Text "stage=randomize, minimum=(value=?, params=(a=?, b=?))";
   Advance; Text "stage=minimize, minimum=(value=?, params=(a=?))"; Close;
   Open 3; Advance; Text "stage=randomize, minimum=(value=?, params=())"].
Proof. reflexivity. Qed.
(** The synthesis 5, 1 is compared as 2, 1: the peak of the audio is 2. *)
Example c50_loss_example : exists w',
  loss_value ex_window ex_tracker 4 ex_fit (fun _ _ _ _ w => (w, Ret [5; 1]%Q)) (fun _ y => Ret (fold_left Qplus y 0)%Q)
    ex_opt (Some 2%Q) [1; -2]%Q (VInt 8000) 0 ex_point [] ex_world = (w', Ret 3%Q) /\
  opt_peak ex_opt [1; -2]%Q = Ret (Some 2%Q).
Proof. eexists. split; vm_compute; reflexivity. Qed.
