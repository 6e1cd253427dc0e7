(** Old names of settings (C104): the analysis, the optimizer and the tuning
    script accept the names that settings had before they moved into the parts
    of the sinusoidal model. *)
From Coq Require Import String Ascii List Bool ZArith QArith Lia.
Import ListNotations.
From Verif Require Import Base Py Dict ListLemmas StrLemmas Utils_Model Utils_Props Params_Model Params_Proofs
  Params_Build Params_Clone Params_Props Opt_Model Opt_Proofs Opt_Props Optimizer_Props Alias_Model Alias_Proofs Tracker_Model.
Local Open Scope string_scope.
Local Open Scope list_scope.
Local Open Scope nat_scope.

Section Old.
Variable default_window : val.
Variable construct_tracker : val -> outcome val.
Variable get_window : val -> Z -> outcome val.
Hypothesis window_value : no_object default_window.
Local Notation set_params := (set_params default_window construct_tracker).
Local Notation construct := (construct default_window construct_tracker).
Local Notation opt_model d := (opt_model default_window construct_tracker d).
Local Notation remapper d := (remapper default_window construct_tracker get_window d).
Local Notation leaf k := (In k (dkeys (sample_leaves default_window))).

(** [set_params] with old and new names in any mix and order: exactly the
    parameters that the names stand for change. *)
Theorem c104_set_params : forall d w o i kwargs ps,
  class_of w o = CSample -> dget "sinusoidal" (attrs_of w o) = Some (VObj i) -> class_of w i = CModal ->
  deep (S d) w o -> NoDup (reach (S d) w o) -> get_params (S d) w o true = Ret ps ->
  dwf (new_names kwargs) ->
  (forall k v, In (k, v) kwargs -> leaf (new_name k) /\
     (exists u, dget (new_name k) ps = Some u /\ no_object u) /\ no_object v /\
     (v = VNone -> forall c a, owner (S d) w o (new_name k) = Some (c, a) -> c_default c a = None)) ->
  exists w' ps', set_params (S (S d)) o kwargs w = (w', Ret tt) /\ get_params (S d) w' o true = Ret ps' /\
    (forall k, dget k ps' = match dget k (new_names kwargs) with Some v => Some v | None => dget k ps end) /\
    List.length w' = List.length w /\
    (forall j, ~ In j (reach (S d) w o) -> nth_error w' j = nth_error w j).
Proof.
  intros d w o i kwargs ps Co Ei Ci D N Ep W H.
  destruct (old_call default_window construct_tracker (window_est default_window window_value) kwargs W) as (kw & Wk & G & S & _).
  { intros k v Hin. exact (proj1 (H k v Hin)). }
  rewrite (S d w o i Co Ei Ci D).
  destruct (c65_set_params default_window construct_tracker window_value (Datatypes.S d) w o kw ps D N Ep Wk) as (w' & ps' & E & E' & P & L & U).
  { intros k v Hin. apply in_dget in Hin; [|exact Wk]. rewrite G in Hin. apply dget_new_names in Hin; [|exact W].
    destruct Hin as (k0 & Hin & <-). apply dget_in in Hin. exact (proj2 (H _ _ Hin)). }
  exists w', ps'. split; [exact E|]. split; [exact E'|]. split; [|auto]. intro k. rewrite P, G. reflexivity.
Qed.

(** [SAMPLE( **kwargs)] with old and new names. *)
Theorem c104_constructor : forall e kwargs w, dwf (new_names kwargs) ->
  (forall k v, In (k, v) kwargs -> leaf (new_name k) /\ no_object v) ->
  exists t ps, construct (4 + e) CSample kwargs w = (w ++ t, Ret (List.length w)) /\
    get_params (3 + e) (w ++ t) (List.length w) true = Ret ps /\
    (forall k def, In (k, def) (sample_leaves default_window) ->
       dget k ps = Some (match dget k (new_names kwargs) with
                         | Some VNone => if String.eqb k "sinusoidal__w" then default_window else VNone
                         | Some v => v
                         | None => def
                         end)) /\
    map fst t = [CSample; CHinge; CLinear; CModal; CStorage; CModalTracker].
Proof.
  intros e kwargs w W H.
  destruct (old_call default_window construct_tracker (window_est default_window window_value) kwargs W) as (kw & Wk & G & _ & C).
  { intros k v Hin. exact (proj1 (H k v Hin)). }
  rewrite C by (intros k v Hin; exact (proj2 (H k v Hin))).
  destruct (c67_sample default_window construct_tracker window_value e kw w Wk) as (t & ps & E & E' & P & T).
  { intros k v Hin. apply in_dget in Hin; [|exact Wk]. rewrite G in Hin. apply dget_new_names in Hin; [|exact W].
    destruct Hin as (k0 & Hin & <-). apply dget_in in Hin. exact (H _ _ Hin). }
  exists t, ps. split; [exact E|]. split; [exact E'|]. split; [|exact T]. intros k def Hk. rewrite (P k def Hk), G. reflexivity.
Qed.

(** Training with keywords of old names is training with what they stand for. *)
Lemma opt_model_swap : forall e p p' m i args kwargs w out out' f f',
  o_model p = VObj m -> o_model p' = VObj m -> o_dims p' = o_dims p -> o_remap p = Some f -> o_remap p' = Some f' ->
  tidy (3 + e) w m -> deep (3 + e) w m -> class_of w m = CSample ->
  dget "sinusoidal" (attrs_of w m) = Some (VObj i) -> class_of w i = CModal ->
  let point := dict_zip (dkeys (o_dims p)) args ++ kwargs in
  (forall w, exists t, f [] point w = (w ++ t, Ret out) /\ f' [] point w = (w ++ t, Ret out')) ->
  (forall d w o i, class_of w o = CSample -> dget "sinusoidal" (attrs_of w o) = Some (VObj i) -> class_of w i = CModal ->
     deep (S d) w o -> set_params (S (S d)) o out w = set_params (S (S d)) o out' w) ->
  opt_model (4 + e) p args kwargs w = opt_model (4 + e) p' args kwargs w.
Proof.
  intros e p p' m i args kwargs w out out' f f' Em Em' Ed Er Er' T D Ec Ei Ci point Hf Hs.
  unfold Opt_Model.opt_model. rewrite Em, Em'. cbn [as_estimator]. rewrite Ec. cbn [estimator].
  assert (Es : estimator (class_of w m) = true) by now rewrite Ec.
  destruct (clone_ok default_window construct_tracker (3 + e) w m T Es D) as (t1 & o & E1 & T1 & B1 & N1 & D1 & S1).
  change (S (3 + e)) with (4 + e) in E1. rewrite E1. unfold opt_kwargs. rewrite Ed.
  destruct (Nat.eqb _ _); [|reflexivity]. rewrite Er, Er'. destruct (existsb _ _); [reflexivity|].
  fold point. destruct (Hf (w ++ t1)) as (t2 & -> & ->).
  assert (Io : In o (reach (3 + e) (w ++ t1) o)) by now left.
  assert (Lo : o < List.length (w ++ t1)) by now apply B1.
  destruct S1 as (Sc & Sp). specialize (Sp "sinusoidal").
  assert (Pm : pget (3 + e) w m "sinusoidal" = Some (VObj i)).
  { change (3 + e) with (S (2 + e)). cbn [pget partition Ascii.eqb Bool.eqb]. rewrite Ec. change (dmem "sinusoidal" (c_sig CSample)) with true.
    cbn iota. rewrite Ei. reflexivity. }
  rewrite Pm in Sp. destruct Sp as (v' & Pv & [[[] _]|(j & j' & [= <-] & -> & Cj)]).
  assert (Lj : j' < List.length (w ++ t1)).
  { destruct (pget_ref _ _ _ _ _ T1 Pv) as [[]|(y & [= <-] & Ly)]. exact Ly. }
  assert (Ca : dget "sinusoidal" (attrs_of (w ++ t1) o) = Some (VObj j')).
  { change (3 + e) with (S (2 + e)) in Pv. cbn [pget partition Ascii.eqb Bool.eqb] in Pv. rewrite Sc, Ec in Pv.
    change (dmem "sinusoidal" (c_sig CSample)) with true in Pv. cbn iota in Pv. destruct (dget "sinusoidal" (attrs_of (w ++ t1) o)); congruence. }
  change (4 + e) with (S (S (2 + e))).
  rewrite (Hs (2 + e) ((w ++ t1) ++ t2) o j'); [reflexivity| | | |].
  - now rewrite class_ext, Sc.
  - rewrite <- Ca. unfold attrs_of. now rewrite nth_error_app1.
  - now rewrite class_ext, Cj.
  - now apply deep_ext.
Qed.

(** The trained model of an optimizer whose dimensions and keywords have old
    or new names: a new SAMPLE with the values that they stand for; the
    transform that they ask for, else the parameters of the optimizer's model.
    The parameters [n], [w] and [h] of the transform are, if given, given by
    their new names. *)
Theorem c104_trained : forall e p m i args kwargs w ps n win h,
  o_model p = VObj m -> o_remap p = Some (remapper (4 + e)) ->
  tidy (3 + e) w m -> deep (3 + e) w m -> class_of w m = CSample ->
  dget "sinusoidal" (attrs_of w m) = Some (VObj i) -> class_of w i = CModal -> get_params (3 + e) w m true = Ret ps ->
  (forall k, leaf k -> exists u, dget k ps = Some u /\ free u) ->
  dwf (o_dims p) -> dwf kwargs -> List.length args = List.length (o_dims p) ->
  (forall k, In k (dkeys (o_dims p)) -> dget k kwargs = None) ->
  let given := combine (dkeys (o_dims p)) args ++ kwargs in
  let point := new_names given in
  dwf point ->
  (forall k v, In (k, v) given -> In (new_name k) (dkeys (sample_leaves default_window) ++ remap_names) /\ no_object v /\ v <> VNone /\
     (In (new_name k) stft_names -> new_name k = k)) ->
  fft_size point n -> window get_window point n win -> win <> VNone -> hop point win h ->
  exists t o ps', opt_model (4 + e) p args kwargs w = (w ++ t, Ret o) /\ List.length w <= o /\
    class_of (w ++ t) o = CSample /\ get_params (3 + e) (w ++ t) o true = Ret ps' /\
    dget "sinusoidal__tracker__h" ps' = Some h /\
    dget "sinusoidal__w" ps' = Some win /\
    dget "sinusoidal__n" ps' =
      match dget "sinusoidal__n" point, dget "sinusoidal__log_n" point with
      | None, None => dget "sinusoidal__n" ps
      | _, _ => Some (VInt n)
      end /\
    forall k, leaf k -> ~ In k stft_names ->
      dget k ps' = match dget k point with Some v => Some v | None => dget k ps end.
Proof.
  intros e p m i args kwargs w ps n win h Em Er T D Ec Ei Ci Ep Hl Wd Wk La Nd given point Wp Hp Hn Hw Nw Hh.
  assert (Lk : List.length args = List.length (dkeys (o_dims p))) by (unfold dkeys; now rewrite map_length).
  destruct (dict_zip_get (dkeys (o_dims p)) args Wd Lk) as (Ez & _).
  assert (Es : stored_leaf default_window "sinusoidal__w" win = win) by (destruct win; try reflexivity; congruence).
  pose proof (window_est default_window window_value) as We.
  destruct (remap_old default_window construct_tracker get_window We e given n win h Wp) as (out & Rsame & (Wo & Lo) & G).
  { intros k v Hin. destruct (Hp k v Hin) as (A & B & _ & C). auto. }
  { exact Hn. }
  { exact Hw. }
  { now rewrite Es. }
  fold point in G.
  destruct (old_call default_window construct_tracker We out Wo) as (out' & Wo' & G' & Sout & _).
  { intros k v Hin. exact (proj1 (Lo k v Hin)). }
  assert (Lo' : forall k v, dget k out' = Some v -> leaf k /\ no_object v).
  { intros k v Hk. rewrite G' in Hk. apply dget_new_names in Hk; [|exact Wo]. destruct Hk as (k0 & Hk & <-). apply dget_in in Hk.
    destruct (Lo _ _ Hk) as (A & B & _). auto. }
  set (f' := (fun (a : list val) (kw : dict val) (w : pworld) => (fst (remapper (4 + e) a kw w), Ret out')) : remap_fn).
  set (p' := mkOpt (VObj m) (o_dims p) (Some f') (o_clip p)).
  rewrite (opt_model_swap e p p' m i args kwargs w out out' (remapper (4 + e)) f'); try assumption; try reflexivity.
  2:{ cbv zeta. rewrite Ez. intro w0. destruct (Rsame w0) as (t & E). exists t. unfold f'. fold given. rewrite E. auto. }
  destruct (get_params_ok (3 + e) w m D) as (ps0 & E0 & _ & G0). rewrite Ep in E0. injection E0 as <-.
  assert (Pv : forall k v, dget k point = Some v -> v <> VNone).
  { intros k v E. apply dget_new_names in E; [|exact Wp]. destruct E as (k0 & E & _). apply dget_in in E. now destruct (Hp _ _ E) as (_ & _ & X & _). }
  assert (Hn' : h <> VNone).
  { unfold hop in Hh. destruct (dget "sinusoidal__tracker__h" point) as [v|] eqn:E.
    - subst v. exact (Pv _ _ E).
    - destruct Hh as (q & z & _ & _ & ->). discriminate. }
  destruct (opt_model_ok default_window construct_tracker We e p' m args kwargs w out' f')
    as (t & o & Eo & Ro & Io & Do & Co & Po); try assumption; try reflexivity.
  - now rewrite Ec.
  - cbn [o_dims p']. rewrite Ez. intros k Hk. apply Nd. apply in_map_iff in Hk. destruct Hk as ([k' v] & <- & Hk). apply in_combine_l in Hk. exact Hk.
  - cbn [o_dims p']. rewrite Ez. intro w0. destruct (Rsame w0) as (t & E). exists t. unfold f'. fold given. rewrite E. reflexivity.
  - intros k v Hk. destruct (Lo' k v Hk) as (L1 & L2).
    split; [exact L2|]. split.
    + rewrite G', G in Hk. destruct (in_list k remap_names); [discriminate|].
      destruct (String.eqb k "sinusoidal__tracker__h"); [congruence|].
      destruct (String.eqb k "sinusoidal__w"); [congruence|].
      destruct (String.eqb k "sinusoidal__n").
      * destruct (dget "sinusoidal__n" point); [|destruct (keyword _ _ _)]; congruence.
      * exact (Pv _ _ Hk).
    + rewrite <- G0. now apply Hl.
  - destruct (get_params_ok (3 + e) (w ++ t) o Do) as (ps' & Ep' & _ & Gp).
    exists t, o, ps'. split; [exact Eo|]. split; [now apply Ro|]. split; [now rewrite Co|]. split; [exact Ep'|].
    assert (Fin : forall k, leaf k -> dget k ps' = match dget k (new_names out) with Some v => Some v | None => dget k ps end).
    { intros k Hk. rewrite Gp. specialize (Po k). rewrite G' in Po. destruct (dget k (new_names out)); [exact Po|]. rewrite <- G0 in Po.
      destruct (Hl k Hk) as (u & Eu & Fu). rewrite Eu in *. destruct Po as (v' & Ev & [[_ ->]|(j & j' & -> & _)]); [exact Ev|destruct Fu]. }
    rewrite !Fin by (apply in_list_spec; reflexivity). rewrite !G.
    cbn [in_list existsb remap_names map snd remap_table String.eqb Ascii.eqb Bool.eqb orb].
    split; [reflexivity|]. split; [reflexivity|]. split.
    + unfold keyword. destruct (dget "sinusoidal__n" point) as [v|] eqn:En; [reflexivity|].
      destruct (dget "sinusoidal__log_n" point) as [v|] eqn:El; [|reflexivity].
      pose proof (Pv _ _ El). now destruct v.
    + intros k Hk Ns. rewrite (Fin k Hk), G.
      assert (I : in_list k remap_names = false).
      { apply not_true_iff_false. intro X. apply in_list_spec in X. clear - Hk X. cbn in X.
        decompose [or] X; subst; try contradiction; cbn in Hk; intuition discriminate. }
      rewrite I. unfold stft_names in Ns.
      destruct (String.eqb_spec k "sinusoidal__tracker__h") as [->|]; [exfalso; apply Ns; cbn; tauto|].
      destruct (String.eqb_spec k "sinusoidal__w") as [->|]; [exfalso; apply Ns; cbn; tauto|].
      destruct (String.eqb_spec k "sinusoidal__n") as [->|]; [exfalso; apply Ns; cbn; tauto|]. reflexivity.
Qed.
End Old.
Print Assumptions c104_set_params.
Print Assumptions c104_constructor.
Print Assumptions c104_trained.

(** ** The tuning script *)
Section Tuning.
Variable default_window : val.
Variable construct_tracker : val -> outcome val.
Variable get_window : val -> Z -> outcome val.
Hypothesis window_value : no_object default_window.
Local Notation opt_model d := (opt_model default_window construct_tracker d).
Local Notation remapper d := (remapper default_window construct_tracker get_window d).
Local Notation leaf k := (In k (dkeys (sample_leaves default_window))).

Lemma np_size_pos : forall v, (0 <= np_size v)%Z.
Proof.
  fix IH 1. intros [| | | | | |l|]; try (cbn [np_size]; lia). cbn [np_size].
  induction l as [|x l IHl]; [lia|]. specialize (IH x). lia.
Qed.

(** Any point of the search space: the candidate is a new model with a
    transform of [2 ^ log_n] samples, a Hamming window of this size, a hop of
    half the window, and the three other values of the point; its other
    parameters are those of the optimizer's model. *)
Theorem c104_tuning : forall e p m i w ps log_n sines threshold dur win,
  o_model p = VObj m -> o_remap p = Some (remapper (4 + e)) -> o_dims p = tuning_space ->
  tidy (3 + e) w m -> deep (3 + e) w m -> class_of w m = CSample ->
  dget "sinusoidal" (attrs_of w m) = Some (VObj i) -> class_of w i = CModal -> get_params (3 + e) w m true = Ret ps ->
  (forall k, leaf k -> exists u, dget k ps = Some u /\ free u) ->
  (0 <= log_n)%Z -> get_window (VStr "hamming") (2 ^ log_n) = Ret win -> no_object win -> win <> VNone ->
  exists t o ps',
    opt_model (4 + e) p [VInt log_n; VInt sines; VNum threshold; VNum dur] [("sinusoidal__tracker__fs", VInt 44100)] w = (w ++ t, Ret o) /\
    List.length w <= o /\ class_of (w ++ t) o = CSample /\ get_params (3 + e) (w ++ t) o true = Ret ps' /\
    dget "sinusoidal__n" ps' = Some (VInt (2 ^ log_n)) /\
    dget "sinusoidal__w" ps' = Some win /\
    dget "sinusoidal__tracker__h" ps' = Some (VInt (Z.max (np_size win / 2) 1)) /\
    dget "sinusoidal__tracker__max_n_sines" ps' = Some (VInt sines) /\
    dget "sinusoidal__tracker__peak_threshold" ps' = Some (VNum threshold) /\
    dget "sinusoidal__tracker__min_sine_dur" ps' = Some (VNum dur) /\
    dget "sinusoidal__tracker__fs" ps' = Some (VInt 44100) /\
    forall k, leaf k -> ~ In k ["sinusoidal__n"; "sinusoidal__w"; "sinusoidal__tracker__h"; "sinusoidal__tracker__max_n_sines";
        "sinusoidal__tracker__peak_threshold"; "sinusoidal__tracker__min_sine_dur"; "sinusoidal__tracker__fs"] ->
      dget k ps' = dget k ps.
Proof.
  intros e p m i w ps log_n sines threshold dur win Em Er Ed T D Ec Ei Ci Ep Hl Hz Hg Ho Nw.
  set (args := [VInt log_n; VInt sines; VNum threshold; VNum dur]). set (fs := [("sinusoidal__tracker__fs", VInt 44100)]).
  set (given := combine (dkeys (o_dims p)) args ++ fs).
  assert (Eg : given = [("sinusoidal_model__log_n", VInt log_n); ("sinusoidal_model__max_n_sines", VInt sines);
     ("sinusoidal_model__peak_threshold", VNum threshold); ("sinusoidal_model__min_sine_dur", VNum dur);
     ("sinusoidal__tracker__fs", VInt 44100)]) by (unfold given; rewrite Ed; reflexivity).
  assert (En : new_names given = [("sinusoidal__log_n", VInt log_n); ("sinusoidal__tracker__max_n_sines", VInt sines);
     ("sinusoidal__tracker__peak_threshold", VNum threshold); ("sinusoidal__tracker__min_sine_dur", VNum dur);
     ("sinusoidal__tracker__fs", VInt 44100)]) by (rewrite Eg; reflexivity).
  destruct (c104_trained default_window construct_tracker get_window window_value e p m i args fs w ps (2 ^ log_n)%Z win
              (VInt (Z.max (np_size win / 2) 1)))
    as (t & o & ps' & E & Lo & Co & Ep' & Ph & Pw & Pn & P); try assumption.
  - rewrite Ed. apply dwf_dec. reflexivity.
  - apply dwf_dec. reflexivity.
  - rewrite Ed. reflexivity.
  - rewrite Ed. intros k Hk. cbn in Hk. decompose [or] Hk; subst; try contradiction; reflexivity.
  - fold given. rewrite En. apply dwf_dec. reflexivity.
  - fold given. rewrite Eg. intros k v Hin. cbn [In] in Hin. decompose [or] Hin; try contradiction;
      match goal with X : (_, _) = _ |- _ => injection X as <- <- end;
      (split; [apply in_list_spec; vm_compute; reflexivity|split; [discriminate|split; [discriminate|clear; cbn; intuition discriminate]]]).
  - fold given. rewrite En. unfold fft_size. cbn [dget String.eqb Ascii.eqb Bool.eqb]. auto.
  - fold given. rewrite En. unfold window, keyword. cbn [dget String.eqb Ascii.eqb Bool.eqb as_num].
    exists 1%Q, (2 ^ log_n)%Z. split; [reflexivity|]. split; [|auto].
    unfold truncates. rewrite Qmult_1_r. split; intros _; split; try apply Qle_refl; rewrite <- Zlt_Qlt; lia.
  - fold given. rewrite En. unfold hop, keyword. cbn [dget String.eqb Ascii.eqb Bool.eqb as_num].
    pose proof (np_size_pos win) as Hs. exists (1 # 2)%Q, (np_size win / 2)%Z. split; [reflexivity|]. split.
    + set (z := np_size win) in *. clearbody z. pose proof (Z.div_mod z 2 ltac:(lia)). pose proof (Z.mod_pos_bound z 2 ltac:(lia)).
      unfold truncates, Qle, Qlt, Qmult, Qminus, Qplus, Qopp, inject_Z. cbn [Qnum Qden].
      change (Z.pos (1 * 2 * 1)) with 2%Z. change (Z.pos (1 * 2)) with 2%Z. change (Z.neg 1) with (-1)%Z. split; intro X; split; lia.
    + f_equal. f_equal. symmetry. apply Z.min_l. apply Z.div_le_upper_bound; lia.
  - fold given in Pn, P. rewrite En in Pn, P. cbn [dget String.eqb Ascii.eqb Bool.eqb] in Pn.
    exists t, o, ps'. split; [exact E|]. split; [exact Lo|]. split; [exact Co|]. split; [exact Ep'|].
    split; [exact Pn|]. split; [exact Pw|]. split; [exact Ph|].
    do 4 (split; [rewrite P; [reflexivity|apply in_list_spec; reflexivity|clear; cbn; intuition discriminate]|]).
    intros k Hk N. rewrite P; [|exact Hk|intro X; apply N; cbn in X |- *; tauto].
    replace (dget k _) with (@None val); [reflexivity|]. symmetry. apply dget_none. intro X. apply N.
    cbn [dkeys map fst In] in X |- *. decompose [or] X; subst; try contradiction; try tauto.
    exfalso. clear - Hk. cbn in Hk. intuition discriminate.
Qed.
End Tuning.
Print Assumptions c104_tuning.

(** ** Examples *)

(** What names stand for. *)
Example c104_names_example :
  map new_name ["max_n_modes"; "sinusoidal_model__max_n_sines"; "sinusoidal__h"; "sinusoidal_model__tracker__fs"; "sinusoidal__save_intermediate"] =
  ["max_n_modes"; "sinusoidal__tracker__max_n_sines"; "sinusoidal__tracker__h"; "sinusoidal__tracker__fs"; "sinusoidal__intermediate__save"].
Proof. reflexivity. Qed.

(** A model with old names, whose hop is then set by its old name. *)
Definition ex_old : dict val :=
  [("sinusoidal_model__reverse", VBool true); ("max_n_modes", VInt 8); ("sinusoidal__h", VInt 64); ("sinusoidal_model__t", VInt (-60))].
Definition ex_old_world : pworld := fst (construct ex_window ex_tracker 4 CSample ex_old []).
Example c104_constructor_example : exists t ps, construct ex_window ex_tracker 4 CSample ex_old [] = (t, Ret 0) /\
  get_params 3 t 0 true = Ret ps /\ dget "sinusoidal__tracker__h" ps = Some (VInt 64) /\
  dget "sinusoidal__tracker__reverse" ps = Some (VBool true) /\ dget "sinusoidal__t" ps = Some (VInt (-60)) /\
  dget "sinusoidal__tracker__fs" ps = Some (VInt 44100).
Proof.
  destruct (c104_constructor ex_window ex_tracker ltac:(intros i X; discriminate X) 0 ex_old []) as (t & ps & E & Ep & P & _).
  - apply dwf_dec. reflexivity.
  - intros k v Hin. cbn [In ex_old] in Hin. decompose [or] Hin; try contradiction;
      match goal with X : (_, _) = _ |- _ => injection X as <- <- end; (split; [apply in_list_spec; vm_compute; reflexivity|discriminate]).
  - exists t, ps. split; [exact E|]. split; [exact Ep|].
    split; [rewrite (P _ (VInt 500)); [reflexivity|cbn; tauto]|].
    split; [rewrite (P _ (VBool false)); [reflexivity|cbn; tauto]|].
    split; [rewrite (P _ (VInt (-90))); [reflexivity|cbn; tauto]|].
    rewrite (P _ (VInt 44100)); [reflexivity|cbn; tauto].
Qed.
Lemma ex_old_deep : deep 3 ex_old_world 0.
Proof. do 3 (cbn [deep]; ex_deep). Qed.
Example c104_set_params_example : exists w' ps',
  set_params ex_window ex_tracker 4 0 [("sinusoidal_model__h", VInt 32); ("sinusoidal__tracker__fs", VInt 8000)] ex_old_world = (w', Ret tt) /\
  get_params 3 w' 0 true = Ret ps' /\ dget "sinusoidal__tracker__h" ps' = Some (VInt 32) /\
  dget "sinusoidal__tracker__fs" ps' = Some (VInt 8000) /\ dget "sinusoidal__tracker__reverse" ps' = Some (VBool true).
Proof.
  destruct (get_params_ok 3 ex_old_world 0 ex_old_deep) as (ps & Ep & _).
  assert (Er : dget "sinusoidal__tracker__reverse" ps = Some (VBool true) /\ dget "sinusoidal__tracker__h" ps = Some (VInt 64) /\
               dget "sinusoidal__tracker__fs" ps = Some (VInt 44100)) by (pose proof Ep as X; vm_compute in X; injection X as <-; repeat split; reflexivity).
  destruct (c104_set_params ex_window ex_tracker ltac:(intros i X; discriminate X) 2 ex_old_world 0 3
      [("sinusoidal_model__h", VInt 32); ("sinusoidal__tracker__fs", VInt 8000)] ps) as (w' & ps' & E & Ep' & P & _).
  - vm_compute. reflexivity.
  - vm_compute. reflexivity.
  - vm_compute. reflexivity.
  - exact ex_old_deep.
  - vm_compute. repeat constructor; cbn; intuition discriminate.
  - exact Ep.
  - apply dwf_dec. reflexivity.
  - intros k v Hin. cbn [In] in Hin. decompose [or] Hin; try contradiction;
      match goal with X : (_, _) = _ |- _ => injection X as <- <- end;
      (split; [apply in_list_spec; vm_compute; reflexivity|split; [|split; [intros ? Y; discriminate Y|intro Y; discriminate Y]]]).
    + exists (VInt 64). split; [apply Er|intros ? Y; discriminate Y].
    + exists (VInt 44100). split; [apply Er|intros ? Y; discriminate Y].
  - exists w', ps'. split; [exact E|]. split; [exact Ep'|]. rewrite !P. split; [reflexivity|]. split; [reflexivity|]. apply Er.
Qed.

(** The script's optimizer.  Windows here have at most 16 samples. *)
Definition ex_short (wtype : val) (n : Z) : outcome val := Ret (VList (repeat (VInt 1) (Z.to_nat (Z.min n 16)))).
Definition ex_tuning : pworld * outcome optimizer :=
  opt_init ex_window ex_tracker ex_short 4 None (Some (Some tuning_fixed)) None None true tuning_space [].
Definition ex_tuning_world : pworld := fst ex_tuning.
(** The optimizer's model is the first object with [max_n_modes] 64 etc. *)
Definition ex_tuning_opt : optimizer :=
  mkOpt (VObj 0) tuning_space (Some (remapper ex_window ex_tracker ex_short 4)) true.
Lemma opt_init_parts : forall dw ct gw d sample_kw model clip dims w w' p,
  opt_init dw ct gw d None sample_kw model None clip dims w = (w', Ret p) ->
  o_dims p = dims /\ o_remap p = Some (remapper dw ct gw d) /\ o_clip p = clip.
Proof.
  intros dw ct gw d sample_kw model clip dims w w' p H. unfold opt_init in H.
  repeat match type of H with
  | context [match ?x with _ => _ end] => lazymatch x with context [match _ with _ => _ end] => fail | _ => destruct x; try discriminate H end
  end; injection H as _ <-; repeat split.
Qed.
Example c104_tuning_model :
  snd ex_tuning = Ret ex_tuning_opt /\
  ex_params ex_tuning_world 0 ["max_n_modes"; "sinusoidal__tracker__reverse"; "sinusoidal__tracker__frequency_bounds";
     "sinusoidal__n"; "sinusoidal__tracker__h"; "sinusoidal__tracker__min_sine_dur"] =
  [Some (VInt 64); Some (VBool true); Some (VList [VInt 50; VNum 20000]); Some (VInt 2048); Some (VInt 8); Some (VInt 2)].
Proof.
  split; [|vm_compute; reflexivity].
  assert (E : match snd ex_tuning with Ret p => o_model p = VObj 0 | Raise _ _ => False end) by (vm_compute; reflexivity).
  destruct ex_tuning as [w' [p|e m]] eqn:X; cbn [snd] in *; [|destruct E].
  unfold ex_tuning in X. apply opt_init_parts in X. destruct X as (A & B & C). destruct p as [m0 d0 r0 c0].
  cbn [o_model o_dims o_remap o_clip] in A, B, C, E. unfold ex_tuning_opt. now rewrite A, B, C, E.
Qed.
Lemma ex_tuning_deep : deep 3 ex_tuning_world 0.
Proof. do 3 (cbn [deep]; ex_deep). Qed.
Lemma ex_tuning_tidy : tidy 3 ex_tuning_world 0.
Proof. ex_tidy; ex_tidy; ex_tidy. Qed.
Lemma ex_tuning_leaves : forall ps, get_params 3 ex_tuning_world 0 true = Ret ps ->
  forall k, In k (dkeys (sample_leaves ex_window)) -> exists u, dget k ps = Some u /\ free u.
Proof.
  intros ps H. vm_compute in H. injection H as <-. intros k Hk. vm_compute in Hk.
  repeat (destruct Hk as [<-|Hk]; [eexists; split; [vm_compute; reflexivity|cbn [free]; tauto]|]). destruct Hk.
Qed.
(** The point 3, 20, -60.5, 0.25. *)
Example c104_tuning_example : exists t o ps',
  opt_model ex_window ex_tracker 4 ex_tuning_opt [VInt 3; VInt 20; VNum (-121 # 2); VNum (1 # 4)] [("sinusoidal__tracker__fs", VInt 44100)]
    ex_tuning_world = (ex_tuning_world ++ t, Ret o) /\
  get_params 3 (ex_tuning_world ++ t) o true = Ret ps' /\
  dget "sinusoidal__n" ps' = Some (VInt 8) /\ dget "sinusoidal__tracker__h" ps' = Some (VInt 4) /\
  dget "sinusoidal__tracker__max_n_sines" ps' = Some (VInt 20) /\ dget "max_n_modes" ps' = Some (VInt 64).
Proof.
  destruct (get_params_ok 3 ex_tuning_world 0 ex_tuning_deep) as (ps & Ep & _).
  assert (Em : dget "max_n_modes" ps = Some (VInt 64)) by (pose proof Ep as X; vm_compute in X; injection X as <-; reflexivity).
  destruct (c104_tuning ex_window ex_tracker ex_short ltac:(intros i X; discriminate X) 0 ex_tuning_opt 0 3 ex_tuning_world ps
    3 20 (-121 # 2) (1 # 4) (VList (repeat (VInt 1) 8))) as (t & o & ps' & E & _ & _ & Ep' & Pn & _ & Ph & Ps & _ & _ & _ & P); try reflexivity.
  - exact ex_tuning_tidy.
  - exact ex_tuning_deep.
  - exact Ep.
  - exact (ex_tuning_leaves ps Ep).
  - intro Y; discriminate Y.
  - intros ? Y; discriminate Y.
  - intro Y; discriminate Y.
  - exists t, o, ps'. split; [exact E|]. split; [exact Ep'|]. split; [exact Pn|]. split; [exact Ph|]. split; [exact Ps|].
    rewrite P; [exact Em|apply in_list_spec; reflexivity|clear; cbn; intuition discriminate].
Qed.

(** ** Findings *)

(** The old setting [safe_sine_len] was a number of frames.  Its value becomes
    the new minimum duration, which is in seconds: with [safe_sine_len=2], as in
    the script, the model drops all tracks of up to 176 frames. *)
Theorem c104_safe_sine_len_refuted : exists w o, construct ex_window ex_tracker 4 CSample [("sinusoidal_model__safe_sine_len", VInt 2)] [] = (w, Ret o) /\
  ex_params w o ["sinusoidal__tracker__fs"; "sinusoidal__tracker__h"; "sinusoidal__tracker__max_n_sines"; "sinusoidal__tracker__min_sine_dur";
     "sinusoidal__tracker__freq_dev_offset"; "sinusoidal__tracker__freq_dev_slope"] =
    [Some (VInt 44100); Some (VInt 500); Some (VInt 100); Some (VInt 2); Some (VInt 20); Some (VNum (1 # 100))] /\
  forall t, List.length (Tracker_Model.t_freq t) <= 176 ->
    Tracker_Model.sine_ok (Tracker_Model.mkCfg 44100 500 100 2 20 (1 # 100)) t = false.
Proof.
  eexists. eexists. split; [vm_compute; reflexivity|]. split; [vm_compute; reflexivity|].
  intros t H. unfold Tracker_Model.sine_ok.
  change (Tracker_Model.min_sine_len (Tracker_Model.mkCfg 44100 500 100 2 20 (1 # 100))) with 177%Z. apply Z.leb_gt. lia.
Qed.
Print Assumptions c104_safe_sine_len_refuted.

(** Fixed settings of the transform do not reach the candidates: with
    [overlap=0.75] among the fixed settings the optimizer's model has a hop of a
    quarter of its window, the candidate one of half its window. *)
Theorem c104_fixed_overlap_refuted : exists w p w' o,
  opt_init ex_window ex_tracker ex_short 4 None (Some (Some [("sinusoidal_model__overlap", VNum (3 # 4))])) None None true tuning_space [] = (w, Ret p) /\
  ex_params w 0 ["sinusoidal__tracker__h"] = [Some (VInt 4)] /\ o_model p = VObj 0 /\
  opt_model ex_window ex_tracker 4 p [VInt 4; VInt 20; VNum (-60); VNum 0] [] w = (w', Ret o) /\
  match ex_params w' o ["sinusoidal__w"; "sinusoidal__tracker__h"] with
  | [Some win; Some h] => np_size win = 16%Z /\ h = VInt 8
  | _ => False
  end.
Proof.
  set (p := mkOpt (VObj 0) tuning_space (Some (remapper ex_window ex_tracker ex_short 4)) true).
  set (r := opt_init ex_window ex_tracker ex_short 4 None (Some (Some [("sinusoidal_model__overlap", VNum (3 # 4))])) None None true tuning_space []).
  exists (fst r), p.
  assert (E : match snd r with Ret p => o_model p = VObj 0 | Raise _ _ => False end) by (vm_compute; reflexivity).
  assert (R : r = (fst r, Ret p)).
  { destruct r as [w' [q|e m]] eqn:X; cbn [fst snd] in *; [|destruct E].
    unfold r in X. apply opt_init_parts in X. destruct X as (A & B & C). destruct q as [m0 d0 r0 c0].
    cbn [o_model o_dims o_remap o_clip] in A, B, C, E. unfold p. now rewrite A, B, C, E. }
  assert (W : ex_params (fst r) 0 ["sinusoidal__tracker__h"] = [Some (VInt 4)]) by (vm_compute; reflexivity).
  set (s := opt_model ex_window ex_tracker 4 p [VInt 4; VInt 20; VNum (-60); VNum 0] [] (fst r)).
  assert (S : match s with
              | (w', Ret o) => match ex_params w' o ["sinusoidal__w"; "sinusoidal__tracker__h"] with
                               | [Some win; Some h] => np_size win = 16%Z /\ h = VInt 8 | _ => False end
              | _ => False end) by (vm_compute; split; reflexivity).
  destruct s as [w' [o|e m]]; [|destruct S]. exists w', o.
  split; [exact R|]. split; [exact W|]. split; [reflexivity|]. split; [reflexivity|exact S].
Qed.
Print Assumptions c104_fixed_overlap_refuted.
