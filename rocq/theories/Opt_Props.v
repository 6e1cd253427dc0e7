(** Properties of the remapper of keywords: C49. *)
From Coq Require Import String Ascii List Bool ZArith QArith Qabs Qminmax Lia.
Import ListNotations.
From Verif Require Import Base Py Dict ListLemmas Utils_Model Utils_Props Params_Model Params_Proofs
  Params_Build Params_Clone Params_Props Opt_Model Opt_Proofs.
Local Open Scope string_scope.
Local Open Scope list_scope.
Local Open Scope nat_scope.

Section Props.
(** The default window (an array), classes given as [sine_tracker_cls], and
    [scipy.signal.get_window]: arbitrary. *)
Variable default_window : val.
Variable construct_tracker : val -> outcome val.
Variable get_window : val -> Z -> outcome val.
Hypothesis window_value : no_object default_window.
Local Notation remapper := (remapper default_window construct_tracker get_window).
Local Notation construct := (construct default_window construct_tracker).
Local Notation fit_start := (fit_start default_window construct_tracker).
Local Notation opt_model := (opt_model default_window construct_tracker).

(** ** C49: remapper *)

(** Names that the remapper takes for itself, in the current and in the
    deprecated spelling. *)
Definition own_names : list string :=
  ["sinusoidal__log_n"; "sinusoidal__wtype"; "sinusoidal__wsize"; "sinusoidal__overlap";
   "sinusoidal_model__log_n"; "sinusoidal_model__wtype"; "sinusoidal_model__wsize"; "sinusoidal_model__overlap"].
Definition stft_names : list string := ["sinusoidal__n"; "sinusoidal__w"; "sinusoidal__tracker__h"].

(** Any call that returns: every other keyword, in particular a given size,
    window or hop, is in the result with the same value; nothing else is, except
    for the size, the window and the hop; the latter two always are, and a hop
    that was not given is a positive integer. *)
Theorem c49_pass_through : forall d kwargs w w' out, remapper d [] kwargs w = (w', Ret out) ->
  (forall k v, dget k kwargs = Some v -> ~ In k own_names -> dget k out = Some v) /\
  (forall k, dget k out <> None -> (dget k kwargs <> None \/ In k stft_names) /\ ~ In k own_names) /\
  dget "sinusoidal__w" out <> None /\
  (dget "sinusoidal__tracker__h" kwargs = None ->
     exists h, dget "sinusoidal__tracker__h" out = Some (VInt h) /\ (1 <= h)%Z).
Proof.
  intros d kwargs w w' out H. unfold Opt_Model.remapper in H. destruct (rename_remap kwargs) as (kw & Er & _ & G).
  rewrite Er, bind_remap in H. cbn [nth] in H. unfold remap_body in H.
  set (r := remap_rest kw) in *.
  assert (Gr : forall k, dget k r = if in_list k remap_names then None else renamed_get remap_table kwargs k).
  { intro k. unfold r. now rewrite dget_rest, G. }
  destruct (remap_n _ r) as [r1|e m] eqn:E1; [|discriminate].
  destruct (remap_w _ _ _ _ _ _ r1 w) as [w2 [r2|e m]] eqn:E2; [|discriminate].
  destruct (remap_n_get _ _ _ E1) as (_ & G1).
  destruct (remap_w_get _ _ _ _ _ _ _ _ _ _ E2) as (_ & G2).
  destruct (remap_h_get _ _ _ _ _ _ _ _ H) as (_ & G3 & Hh).
  (* names that are not the remapper's own ones *)
  assert (Go : forall k, ~ In k own_names -> dget k r = dget k kwargs).
  { intros k Hk. rewrite Gr. assert (I : in_list k remap_names = false).
    { apply not_true_iff_false. intro X. apply in_list_spec in X. apply Hk. unfold own_names. cbn in X |- *. tauto. }
    rewrite I. unfold renamed_get. unfold own_names in Hk. cbn in Hk. cbn [existsb find remap_table fst snd].
    repeat match goal with |- context [String.eqb ?a k] => destruct (String.eqb_spec a k) as [<-|]; [exfalso; tauto|] end.
    reflexivity. }
  assert (Gi : forall k, In k own_names -> dget k r = None).
  { intros k Hk. rewrite Gr. unfold own_names in Hk. cbn in Hk. decompose [or] Hk; subst; try contradiction; reflexivity. }
  assert (Step : forall k v, dget k r = Some v -> dget k out = Some v).
  { intros k v Hk. assert (K1 : dget k r1 = Some v).
    { rewrite G1. destruct (String.eqb_spec k "sinusoidal__n") as [->|]; [now rewrite Hk|exact Hk]. }
    assert (K2 : dget k r2 = Some v) by (rewrite G2; [exact K1|left; congruence]).
    rewrite G3; [exact K2|left; congruence]. }
  assert (Back : forall k, dget k out <> None -> In k stft_names \/ dget k r <> None).
  { intros k Hk. destruct (string_dec k "sinusoidal__tracker__h") as [->|N3]; [left; cbn; tauto|].
    destruct (string_dec k "sinusoidal__w") as [->|N2]; [left; cbn; tauto|].
    destruct (string_dec k "sinusoidal__n") as [->|N1]; [left; cbn; tauto|]. right.
    rewrite G3 in Hk by auto. rewrite G2 in Hk by auto. rewrite G1 in Hk.
    destruct (String.eqb_spec k "sinusoidal__n"); congruence. }
  split; [|split; [|split]].
  - intros k v Hv Hk. apply Step. now rewrite Go.
  - intros k Hk. assert (N : ~ In k own_names).
    { intro I. destruct (Back k Hk) as [S|S]; [|now rewrite (Gi k I) in S].
      unfold stft_names, own_names in *. cbn in S, I. decompose [or] S; subst; try contradiction; intuition discriminate. }
    split; [|exact N]. destruct (Back k Hk) as [S|S]; [now right|]. left. now rewrite Go in S.
  - rewrite G3 by (right; discriminate). unfold remap_w in E2. destruct (dmem "sinusoidal__w" r1) eqn:M.
    + injection E2 as _ <-. apply dmem_true in M. destruct M; congruence.
    + destruct (sample_attr _ _ _ _ _ _) as [w1 [n|e m]]; [|discriminate]. destruct (int_product n _) as [z|e m]; [|discriminate].
      destruct (get_window _ z) as [win|e m]; [|discriminate]. injection E2 as _ <-. rewrite dget_dset, String.eqb_refl. discriminate.
  - intro Hn. apply Hh. rewrite G2 by (right; discriminate). rewrite G1. cbn [String.eqb Ascii.eqb Bool.eqb].
    rewrite Go; [exact Hn|]. unfold own_names. cbn. intuition discriminate.
Qed.

(** The size from its logarithm: a power of two, or an exception. *)
Theorem c49_power_of_two : forall d kwargs w v, dget "sinusoidal__n" kwargs = None ->
  dget "sinusoidal_model__log_n" kwargs = None -> dget "sinusoidal__log_n" kwargs = Some v -> v <> VNone ->
  match v with
  | VInt z =>
    if (z <? 0)%Z then exists m, remapper d [] kwargs w = (w, Raise ValueError m)
    else forall w' out, remapper d [] kwargs w = (w', Ret out) -> dget "sinusoidal__n" out = Some (VInt (2 ^ z))
  | VBool b => forall w' out, remapper d [] kwargs w = (w', Ret out) ->
                 dget "sinusoidal__n" out = Some (VInt (if b then 2 else 1))
  | _ => exists m, remapper d [] kwargs w = (w, Raise TypeError m)
  end.
Proof.
  intros d kwargs w v Hn Ho Hl Nv. unfold Opt_Model.remapper. destruct (rename_remap kwargs) as (kw & Er & _ & G).
  rewrite Er, bind_remap. cbn [nth]. unfold remap_body.
  assert (Kl : keyword "sinusoidal__log_n" VNone kw = v).
  { unfold keyword. rewrite G. unfold renamed_get. cbn [existsb find remap_table fst snd String.eqb Ascii.eqb Bool.eqb orb].
    now rewrite Ho, Hl. }
  assert (Kn : dget "sinusoidal__n" (remap_rest kw) = None).
  { rewrite dget_rest, G. exact Hn. }
  rewrite Kl. unfold remap_n. rewrite (proj2 (dmem_false _ _ _) Kn).
  assert (Fin : forall n w' out r1, r1 = dset "sinusoidal__n" n (remap_rest kw) ->
    match remap_w default_window construct_tracker get_window d (keyword "sinusoidal__wtype" (VStr "hamming") kw)
            (keyword "sinusoidal__wsize" (VNum 1) kw) r1 w with
    | (w0, Ret kwargs0) => remap_h default_window construct_tracker d (keyword "sinusoidal__overlap" (VNum (1 # 2)) kw) kwargs0 w0
    | (w0, Raise e m) => (w0, Raise e m)
    end = (w', Ret out) -> dget "sinusoidal__n" out = Some n).
  { intros n w' out r1 -> H. destruct (remap_w _ _ _ _ _ _ _ w) as [w2 [r2|e m]] eqn:E2; [|discriminate].
    destruct (remap_w_get _ _ _ _ _ _ _ _ _ _ E2) as (_ & G2). destruct (remap_h_get _ _ _ _ _ _ _ _ H) as (_ & G3 & _).
    rewrite G3 by (right; discriminate). rewrite G2 by (right; discriminate). now rewrite dget_dset, String.eqb_refl. }
  destruct v; try congruence; cbn [shift_one]; try (eexists; reflexivity).
  - intros w' out H. now apply (Fin _ _ _ _ eq_refl) in H.
  - destruct (z <? 0)%Z; [eexists; reflexivity|]. intros w' out H. now apply (Fin _ _ _ _ eq_refl) in H.
Qed.

(** The deprecated spellings: the same call with the names replaced. *)
Theorem c49_deprecated : forall kwargs, exists kwargs',
  (forall d w, remapper d [] kwargs w = remapper d [] kwargs' w) /\ (dwf kwargs -> dwf kwargs') /\
  forall k, dget k kwargs' =
    if in_list k ["sinusoidal_model__log_n"; "sinusoidal_model__wtype"; "sinusoidal_model__wsize";
                  "sinusoidal_model__overlap"] then None
    else if String.eqb k "sinusoidal__log_n" then
      match dget "sinusoidal_model__log_n" kwargs with Some v => Some v | None => dget k kwargs end
    else if String.eqb k "sinusoidal__wtype" then
      match dget "sinusoidal_model__wtype" kwargs with Some v => Some v | None => dget k kwargs end
    else if String.eqb k "sinusoidal__wsize" then
      match dget "sinusoidal_model__wsize" kwargs with Some v => Some v | None => dget k kwargs end
    else if String.eqb k "sinusoidal__overlap" then
      match dget "sinusoidal_model__overlap" kwargs with Some v => Some v | None => dget k kwargs end
    else dget k kwargs.
Proof.
  intro kwargs. destruct (rename_remap kwargs) as (kw & Er & W & G). exists kw.
  assert (X : forall k, dget k kw = renamed_get remap_table kwargs k) by exact G.
  split; [|split; [exact W|]].
  - intros d w. unfold Opt_Model.remapper. rewrite Er. rewrite rename_none; [reflexivity|].
    intros k Hk. rewrite G. cbn in Hk. decompose [or] Hk; subst; try contradiction; reflexivity.
  - intro k. rewrite G. unfold renamed_get, in_list. cbn [existsb find remap_table fst snd]. rewrite !(String.eqb_sym _ k).
    destruct (String.eqb k "sinusoidal_model__log_n"); [reflexivity|].
    destruct (String.eqb k "sinusoidal_model__wtype"); [reflexivity|].
    destruct (String.eqb k "sinusoidal_model__wsize"); [reflexivity|].
    destruct (String.eqb k "sinusoidal_model__overlap"); [reflexivity|]. cbn [orb].
    destruct (String.eqb_spec k "sinusoidal__log_n") as [->|]; [reflexivity|].
    destruct (String.eqb_spec k "sinusoidal__wtype") as [->|]; [reflexivity|].
    destruct (String.eqb_spec k "sinusoidal__wsize") as [->|]; [reflexivity|].
    destruct (String.eqb_spec k "sinusoidal__overlap") as [->|]; reflexivity.
Qed.

(** Parameters of SAMPLE (without estimators) next to the four of the remapper:
    the call returns the size, the window of the given type and fraction of the
    size, and the hop that is the given fraction of the window, between 1 and
    the size of the window if that is not empty; SAMPLE accepts the result, and
    has these parameters. *)
Theorem c49_configuration : forall e kwargs w n win h, dwf kwargs ->
  (forall k v, In (k, v) kwargs -> In k (dkeys (sample_leaves default_window) ++ remap_names) /\ no_object v) ->
  fft_size kwargs n -> window get_window kwargs n win ->
  hop kwargs (match win with VNone => default_window | _ => win end) h ->
  exists t out, remapper (4 + e) [] kwargs w = (w ++ t, Ret out) /\ dwf out /\
    dget "sinusoidal__n" out =
      match dget "sinusoidal__n" kwargs, dget "sinusoidal__log_n" kwargs with
      | None, None | None, Some VNone => None
      | _, _ => Some (VInt n)
      end /\
    dget "sinusoidal__w" out = Some win /\ dget "sinusoidal__tracker__h" out = Some h /\
    (dget "sinusoidal__tracker__h" kwargs = None ->
       let size := np_size (match win with VNone => default_window | _ => win end) in
       exists z, h = VInt z /\ (1 <= z)%Z /\ ((1 <= size)%Z -> (z <= size)%Z)) /\
    (forall k, ~ In k (remap_names ++ stft_names) -> dget k out = dget k kwargs) /\
    exists t' o ps, construct (4 + e) CSample out w = (w ++ t', Ret o) /\ get_params (3 + e) (w ++ t') o true = Ret ps /\
      dget "sinusoidal__n" ps = Some (VInt n) /\
      dget "sinusoidal__w" ps = Some (match win with VNone => default_window | _ => win end) /\
      dget "sinusoidal__tracker__h" ps = Some h /\
      (forall k v, dget k out = Some v -> v <> VNone -> dget k ps = Some v).
Proof.
  intros e kwargs w n win h W L Hn Hw Hh.
  assert (Es : stored_leaf default_window "sinusoidal__w" win = match win with VNone => default_window | _ => win end) by now destruct win.
  rewrite <- Es in Hh |- *.
  destruct (remap_ok default_window construct_tracker get_window (window_est default_window window_value) e kwargs n win h W L Hn Hw Hh)
    as (out & Ew & (Wo & Lo) & G). destruct (Ew w) as (t & E).
  exists t, out. split; [exact E|]. split; [exact Wo|]. split.
  { rewrite G. cbn [in_list existsb remap_names map snd remap_table String.eqb Ascii.eqb Bool.eqb orb]. unfold keyword.
    destruct (dget "sinusoidal__n" kwargs); [reflexivity|]. now destruct (dget "sinusoidal__log_n" kwargs) as [[]|]. }
  split; [rewrite G; reflexivity|]. split; [rewrite G; reflexivity|]. split.
  { intros Nh size. unfold hop in Hh. rewrite Nh in Hh. destruct Hh as (q & z & _ & _ & ->).
    eexists. split; [reflexivity|]. fold size. lia. }
  split.
  { intros k Hk. rewrite G. rewrite in_app_iff in Hk.
    destruct (in_list k remap_names) eqn:I; [exfalso; apply Hk; left; now apply in_list_spec|].
    unfold stft_names in Hk.
    destruct (String.eqb_spec k "sinusoidal__tracker__h") as [->|]; [exfalso; apply Hk; right; cbn; tauto|].
    destruct (String.eqb_spec k "sinusoidal__w") as [->|]; [exfalso; apply Hk; right; cbn; tauto|].
    destruct (String.eqb_spec k "sinusoidal__n") as [->|]; [exfalso; apply Hk; right; cbn; tauto|]. reflexivity. }
  destruct (c67_sample default_window construct_tracker window_value e out w Wo Lo) as (t' & ps & Ec & Ep & Gp & _).
  exists t', (List.length w), ps. split; [exact Ec|]. split; [exact Ep|].
  assert (Hin : forall k v, dget k out = Some v -> exists def, In (k, def) (sample_leaves default_window)).
  { intros k v Hk. apply dget_in in Hk. destruct (Lo k v Hk) as (X & _). apply in_map_iff in X. destruct X as ([k' def] & <- & X). eauto. }
  split.
  { rewrite (Gp "sinusoidal__n" (VInt 2048)) by (cbn; tauto). rewrite G.
    cbn [in_list existsb remap_names map snd remap_table String.eqb Ascii.eqb Bool.eqb orb]. unfold fft_size in Hn. unfold keyword.
    destruct (dget "sinusoidal__n" kwargs) as [v|]; [reflexivity|].
    destruct (dget "sinusoidal__log_n" kwargs) as [[]|]; try contradiction; try reflexivity; now subst n. }
  split.
  { rewrite (Gp "sinusoidal__w" default_window) by (cbn; tauto). rewrite G.
    cbn [in_list existsb remap_names map snd remap_table String.eqb Ascii.eqb Bool.eqb orb]. now destruct win. }
  split.
  { rewrite (Gp "sinusoidal__tracker__h" (VInt 500)) by (cbn; tauto). rewrite G.
    cbn [in_list existsb remap_names map snd remap_table String.eqb Ascii.eqb Bool.eqb orb]. now destruct h. }
  intros k v Hk Hv. destruct (Hin k v Hk) as (def & Hd). rewrite (Gp k def Hd), Hk. destruct v; congruence.
Qed.
(** Positional arguments are the first parameters; a keyword for one of them, or
    too many, is a TypeError. *)
Theorem c49_positional : forall d args kwargs w,
  (forall k, In k ["log_n"; "wtype"; "wsize"; "overlap"] -> dget ("sinusoidal_model__" ++ k)%string kwargs = None) ->
  let names := ["sinusoidal__log_n"; "sinusoidal__wtype"; "sinusoidal__wsize"; "sinusoidal__overlap"] in
  (List.length names < List.length args -> exists m, remapper d args kwargs w = (w, Raise TypeError m)) /\
  (forall i k, i < List.length args -> nth_error names i = Some k -> dget k kwargs <> None ->
     exists m, remapper d args kwargs w = (w, Raise TypeError m)) /\
  (List.length args <= List.length names -> (forall i k, i < List.length args -> nth_error names i = Some k -> dget k kwargs = None) ->
     remapper d args kwargs w = remapper d [] (combine names args ++ kwargs) w).
Proof.
  intros d args kwargs w H names.
  assert (H' : forall k, In k (map fst remap_table) -> dget k kwargs = None).
  { intros k Hk. cbn in Hk. decompose [or] Hk; try contradiction; subst;
      [apply (H "log_n")|apply (H "wtype")|apply (H "wsize")|apply (H "overlap")]; cbn; tauto. }
  unfold Opt_Model.remapper. rewrite (rename_none args kwargs H'). split; [|split].
  - intros L. cbn in L. destruct args as [|a [|b [|c [|e [|f args]]]]]; cbn in L; try lia. unfold remap_sig. cbn [bind_args].
    repeat match goal with |- context [if ?b then _ else _] => destruct b; [eauto|] end. eauto.
  - intros i k Hi Ek Dk. assert (M : dmem k kwargs = true) by (apply dmem_true; destruct (dget k kwargs); [eauto|congruence]).
    unfold remap_sig.
    destruct args as [|a args]; cbn in Hi; [lia|]. cbn [bind_args].
    destruct i as [|i]; cbn in Ek; [injection Ek as <-; rewrite M; eauto|].
    match goal with |- context [if ?b then _ else _] => destruct b; [eauto|] end.
    destruct args as [|b args]; cbn in Hi; [lia|]. cbn [bind_args].
    destruct i as [|i]; cbn in Ek; [injection Ek as <-; rewrite M; eauto|].
    match goal with |- context [if ?b then _ else _] => destruct b; [eauto|] end.
    destruct args as [|c args]; cbn in Hi; [lia|]. cbn [bind_args].
    destruct i as [|i]; cbn in Ek; [injection Ek as <-; rewrite M; eauto|].
    match goal with |- context [if ?b then _ else _] => destruct b; [eauto|] end.
    destruct args as [|e args]; cbn in Hi; [lia|]. cbn [bind_args].
    destruct i as [|i]; cbn in Ek; [injection Ek as <-; rewrite M; eauto|]. destruct i; discriminate.
  - intros L G.
    assert (R : rename_keywords remap_decorators [] (combine names args ++ kwargs) = Ret (combine names args ++ kwargs)).
    { apply rename_none. intros k Hk. 
      destruct args as [|a [|b [|c [|e [|f args]]]]]; cbn in L; try lia; cbn in Hk; decompose [or] Hk; try contradiction; subst;
        cbn [combine names app dget fst snd String.eqb Ascii.eqb Bool.eqb]; apply H'; cbn; tauto. }
    rewrite R, bind_remap. unfold keyword, remap_rest.
    assert (Dn : forall k, dget k kwargs = None -> ddel k kwargs = kwargs).
    { intros k. clear. induction kwargs as [|[k' v] kw IH]; intros E; [reflexivity|]. cbn [dget] in E. unfold ddel in *. cbn [filter fst].
      destruct (String.eqb k' k); [discriminate|]. cbn [negb]. now rewrite IH. }
    assert (Dc : forall k k' (v : val) m, ddel k ((k', v) :: m) = if String.eqb k' k then ddel k m else (k', v) :: ddel k m).
    { intros. unfold ddel. cbn [filter fst]. now destruct (String.eqb k' k). }
    assert (G' : forall i k, nth_error names i = Some k -> i < List.length args -> dmem k kwargs = false /\ ddel k kwargs = kwargs /\ dget k kwargs = None).
    { intros i k Hk Hi. specialize (G i k Hi Hk). split; [now apply dmem_false|]. split; [now apply Dn|exact G]. }
    destruct args as [|a [|b [|c [|e [|f args]]]]]; cbn in L; try lia; unfold remap_sig; cbn [bind_args];
      try (destruct (G' 0 _ eq_refl) as (-> & X0 & _); [cbn; lia|]); try (destruct (G' 1 _ eq_refl) as (-> & X1 & _); [cbn; lia|]);
      try (destruct (G' 2 _ eq_refl) as (-> & X2 & _); [cbn; lia|]); try (destruct (G' 3 _ eq_refl) as (-> & X3 & _); [cbn; lia|]);
      unfold keyword; cbn [combine names app]; rewrite ?Dc; cbn [String.eqb Ascii.eqb Bool.eqb dget nth];
      rewrite ?Dc; cbn [String.eqb Ascii.eqb Bool.eqb]; rewrite ?Dc; cbn [String.eqb Ascii.eqb Bool.eqb]; rewrite ?Dc; cbn [String.eqb Ascii.eqb Bool.eqb];
      rewrite ?X0, ?X1, ?X2, ?X3; rewrite ?dget_ddel; cbn [String.eqb Ascii.eqb Bool.eqb]; try reflexivity.
Qed.
End Props.
Print Assumptions c49_pass_through.
Print Assumptions c49_power_of_two.
Print Assumptions c49_deprecated.
Print Assumptions c49_configuration.
Print Assumptions c49_positional.

(** ** Examples of C49 *)

(** Windows of ones. *)
Definition ex_get_window (wtype : val) (n : Z) : outcome val :=
  if (n <? 0)%Z then Raise ValueError "Window length M must be a non-negative integer"
  else Ret (VList (repeat (VInt 1) (Z.to_nat n))).
Local Notation ex_remap := (remapper ex_window ex_tracker ex_get_window 4).
Definition ex_stft : dict val :=
  [("max_n_modes", VInt 5); ("sinusoidal__log_n", VInt 3); ("sinusoidal__wsize", VNum (1 # 2)); ("sinusoidal__overlap", VNum (1 # 4))].

(** [remapper(max_n_modes=5, sinusoidal__log_n=3, sinusoidal__wsize=0.5,
    sinusoidal__overlap=0.25)]: 8 samples, window 4, hop 3. *)
Example c49_configuration_example : exists t out, ex_remap [] ex_stft [] = (t, Ret out) /\
  dget "sinusoidal__n" out = Some (VInt 8) /\ dget "sinusoidal__w" out = Some (VList (repeat (VInt 1) 4)) /\
  dget "sinusoidal__tracker__h" out = Some (VInt 3) /\ dget "max_n_modes" out = Some (VInt 5).
Proof.
  destruct (c49_configuration ex_window ex_tracker ex_get_window ltac:(intros i X; discriminate X) 0 ex_stft [] 8
              (VList (repeat (VInt 1) 4)) (VInt 3)) as (t & out & E & _ & Gn & Gw & Gh & _ & Gr & _).
  - apply dwf_dec. reflexivity.
  - intros k v Hin. cbn in Hin. decompose [or] Hin; try contradiction;
      match goal with X : (_, _) = _ |- _ => injection X as <- <- end; (split; [vm_compute; tauto|discriminate]).
  - cbn. split; [lia|reflexivity].
  - unfold window. cbn [dget ex_stft String.eqb Ascii.eqb Bool.eqb].
    exists (1 # 2)%Q, 4%Z. split; [reflexivity|]. split; [|split; [reflexivity|discriminate]].
    apply (py_int_truncates (inject_Z 8 * (1 # 2))).
  - unfold hop. cbn [dget ex_stft String.eqb Ascii.eqb Bool.eqb].
    exists (1 # 4)%Q, 3%Z. split; [reflexivity|]. split; [|reflexivity].
    apply (py_int_truncates ((1 - (1 # 4)) * inject_Z 4)).
  - exists t, out. cbn [app] in E. split; [exact E|]. split; [exact Gn|]. split; [exact Gw|]. split; [exact Gh|].
    apply Gr. cbn. intuition discriminate.
Qed.
(** Given values of the transform pass through. *)
Example c49_pass_through_example : exists t out,
  ex_remap [] [("sinusoidal__tracker__h", VInt 9); ("sinusoidal__log_n", VInt 2); ("sinusoidal__n", VInt 5)] [] = (t, Ret out) /\
  dget "sinusoidal__n" out = Some (VInt 5) /\ dget "sinusoidal__tracker__h" out = Some (VInt 9) /\
  dget "sinusoidal__log_n" out = None.
Proof.
  destruct (ex_remap [] [("sinusoidal__tracker__h", VInt 9); ("sinusoidal__log_n", VInt 2); ("sinusoidal__n", VInt 5)] [])
    as [t [out|e m]] eqn:E; [|vm_compute in E; discriminate].
  exists t, out. split; [reflexivity|]. destruct (c49_pass_through _ _ _ _ _ _ _ _ E) as (A & B & _).
  split; [apply A; [reflexivity|cbn; intuition discriminate]|]. split; [apply A; [reflexivity|cbn; intuition discriminate]|].
  destruct (dget "sinusoidal__log_n" out) eqn:X; [|reflexivity]. exfalso.
  destruct (B "sinusoidal__log_n") as (_ & Y); [congruence|]. apply Y. cbn. tauto.
Qed.
Example c49_positional_example :
  (exists m, ex_remap [VInt 7] [("sinusoidal__log_n", VInt 8)] [] = ([], Raise TypeError m)) /\
  (exists t out, ex_remap [VInt 7; VStr "hann"] [] [] = (t, Ret out) /\
     ex_remap [] [("sinusoidal__log_n", VInt 7); ("sinusoidal__wtype", VStr "hann")] [] = (t, Ret out) /\
     dget "sinusoidal__n" out = Some (VInt 128)).
Proof. split; [|do 2 eexists; split; [vm_compute; reflexivity|split; vm_compute; reflexivity]]. repeat eexists; vm_compute; reflexivity. Qed.

Example c49_power_of_two_example : exists m, ex_remap [] [("sinusoidal__log_n", VInt (-1))] [] = ([], Raise ValueError m).
Proof. apply (c49_power_of_two ex_window ex_tracker ex_get_window 4 _ [] (VInt (-1))); try reflexivity. discriminate. Qed.
Example c49_float_example : exists m, ex_remap [] [("sinusoidal__log_n", VNum 3)] [] = ([], Raise TypeError m).
Proof. apply (c49_power_of_two ex_window ex_tracker ex_get_window 4 _ [] (VNum 3)); try reflexivity. discriminate. Qed.
(** The deprecated spelling wins. *)
Example c49_deprecated_example : exists t out,
  ex_remap [] [("sinusoidal__log_n", VInt 2); ("sinusoidal_model__log_n", VInt 4)] [] = (t, Ret out) /\
  dget "sinusoidal__n" out = Some (VInt 16).
Proof. eexists. eexists. split; [vm_compute; reflexivity|reflexivity]. Qed.

(** *** Refutations *)

(** The hop may exceed the window: if the fraction of the transform is less than
    one sample, the window is empty and the hop 1. *)
Theorem c49_hop_refuted : exists kwargs w out win h,
  ex_remap [] kwargs [] = (w, Ret out) /\
  (forall k v, In (k, v) kwargs -> In k remap_names) /\
  dget "sinusoidal__w" out = Some win /\ dget "sinusoidal__tracker__h" out = Some (VInt h) /\ (np_size win < h)%Z.
Proof.
  exists [("sinusoidal__log_n", VInt 0); ("sinusoidal__wsize", VNum (1 # 2))]. do 4 eexists.
  split; [vm_compute; reflexivity|]. split.
  - intros k v Hin. cbn in Hin. decompose [or] Hin; try contradiction;
      match goal with X : (_, _) = _ |- _ => injection X as <- <- end; cbn; tauto.
  - split; [reflexivity|]. split; [reflexivity|]. reflexivity.
Qed.
Print Assumptions c49_hop_refuted.

(** The call is not free of side effects: a sinusoidal model among the keywords
    gets the remapped parameters. *)
Definition ex_modal : pworld := fst (construct ex_window ex_tracker 4 CModal [] []).
Theorem c49_side_effect_refuted : exists kwargs w w' out,
  ex_remap [] kwargs w = (w', Ret out) /\ dget "n" (attrs_of w 0) = Some (VInt 2048) /\
  dget "n" (attrs_of w' 0) = Some (VInt 8).
Proof.
  exists [("sinusoidal", VObj 0); ("sinusoidal__log_n", VInt 3)], ex_modal. do 2 eexists.
  split; [vm_compute; reflexivity|]. split; vm_compute; reflexivity.
Qed.
Print Assumptions c49_side_effect_refuted.

(** An unknown keyword passes through exactly if no model is built, that is if
    both window and hop are given. *)
Theorem c49_unknown_refuted : exists kwargs kwargs' w m,
  ex_remap [] kwargs [] = ([], Ret kwargs) /\ ex_remap [] kwargs' [] = (w, Raise ValueError m) /\
  dget "unknown" kwargs = Some VNone /\ dget "unknown" kwargs' = Some VNone.
Proof.
  exists [("unknown", VNone); ("sinusoidal__w", VList [VInt 1]); ("sinusoidal__tracker__h", VInt 1)],
    [("unknown", VNone); ("sinusoidal__w", VList [VInt 1])]. do 2 eexists.
  split; [vm_compute; reflexivity|]. split; [vm_compute; reflexivity|]. split; reflexivity.
Qed.
Print Assumptions c49_unknown_refuted.
