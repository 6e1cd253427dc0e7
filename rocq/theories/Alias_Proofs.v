(** Lemmas about old names of parameters at any depth (C104). *)
From Coq Require Import String Ascii List Bool ZArith QArith Lia.
Import ListNotations.
From Verif Require Import Base Py Dict ListLemmas StrLemmas Utils_Model Utils_Props Params_Model Params_Proofs
  Params_Build Params_Clone Params_Props Opt_Model Opt_Proofs.
Local Open Scope string_scope.
Local Open Scope list_scope.

(** ** Own and nested parameters of a call *)

Definition owns (params : dict val) : dict val :=
  filter (fun p => match snd (partition (fst p)) with None => true | Some _ => false end) params.
Definition group (n : dict (dict val)) (p : string * val) : dict (dict val) :=
  match partition (fst p) with
  | (a, Some r) => dset a (dset r (snd p) (nget a n)) n
  | (_, None) => n
  end.
Definition collect (params : dict val) (n : dict (dict val)) : dict (dict val) := fold_left group params n.
Definition flatten (n : dict (dict val)) : dict val :=
  flat_map (fun p : string * dict val => sub_items (fst p) (snd p)) n.

Lemma partition_own : forall k a, partition k = (a, None) -> partition a = (a, None).
Proof. intros k a H. pose proof (partition_none _ _ H). now subst. Qed.

Lemma dmem_dset : forall V k a (v : V) d, dmem k d = true -> dmem k (dset a v d) = true.
Proof. intros V k a v d H. rewrite dmem_dget, dget_dset. destruct (String.eqb a k); [reflexivity|]. now rewrite <- dmem_dget. Qed.

Lemma list_eq_nil : forall A (l : list A), l = [] \/ l <> [].
Proof. intros A [|x l]; [now left|right; discriminate]. Qed.
Lemma match_cons : forall A B (l : list A) (x y : B), l <> [] -> match l with [] => x | _ :: _ => y end = y.
Proof. intros A B [|a l] x y H; [congruence|reflexivity]. Qed.

Section Alias.
Variable default_window : val.
Variable construct_tracker : val -> outcome val.
Local Notation set_own := (set_own default_window).
Local Notation setattr := (setattr default_window).
Local Notation set_params := (set_params default_window construct_tracker).
Local Notation construct := (construct default_window construct_tracker).
Local Notation rename_of c := (rename (c_deprecated construct_tracker c)).
Local Notation nest_step := (nest_step default_window construct_tracker).

Lemma set_own_split : forall o params valid nested w,
  (forall k v, In (k, v) params -> dmem (fst (partition k)) valid = true) ->
  set_own o params valid nested w =
  (fold_left (fun w (p : string * val) => setattr w o (fst p) (snd p)) (owns params) w,
   Ret (dupdate valid (owns params), collect params nested)).
Proof.
  intros o params. induction params as [|[k v] params IH]; intros valid nested w H; [reflexivity|].
  pose proof (H k v (or_introl eq_refl)) as Hk. cbn [Params_Model.set_own].
  unfold owns, collect. cbn [filter fold_left fst snd]. unfold group at 2. cbn [fst snd].
  destruct (partition k) as [a [r|]] eqn:Ek; cbn [fst snd] in *.
  - rewrite Hk. unfold nget at 1. rewrite IH by (intros k0 v0 X; exact (H k0 v0 (or_intror X))). reflexivity.
  - rewrite Hk. pose proof (partition_none _ _ Ek). subst a.
    rewrite IH by (intros k0 v0 X; apply dmem_dset; exact (H k0 v0 (or_intror X))). reflexivity.
Qed.

Lemma owns_app : forall a b, owns (a ++ b) = owns a ++ owns b.
Proof. intros a b. unfold owns. apply filter_app. Qed.
Lemma owns_owns : forall a, owns (owns a) = owns a.
Proof. intro a. unfold owns. induction a as [|p a IH]; [reflexivity|]. cbn [filter]. destruct (snd (partition (fst p))) eqn:E; [exact IH|].
  cbn [filter]. rewrite E. now rewrite IH.
Qed.
Lemma collect_app : forall a b n, collect (a ++ b) n = collect b (collect a n).
Proof. intros. apply fold_left_app. Qed.
Lemma collect_owns : forall a n, collect (owns a) n = n.
Proof.
  intro a. unfold collect, owns. induction a as [|p a IH]; intro n; [reflexivity|]. cbn [filter].
  destruct (snd (partition (fst p))) eqn:E; [apply IH|]. cbn [fold_left]. unfold group at 2.
  destruct (partition (fst p)) as [b r]. cbn [snd] in E. subst r. apply IH.
Qed.
Lemma owns_sub : forall a s, plain a -> owns (sub_items a s) = [].
Proof.
  intros a s P. unfold owns, sub_items. induction s as [|[k v] s IH]; [reflexivity|]. cbn [map filter fst snd].
  rewrite plain_partition_sub by exact P. exact IH.
Qed.
Lemma owns_flatten : forall n, (forall a, In a (dkeys n) -> plain a) -> owns (flatten n) = [].
Proof.
  induction n as [|[a s] n IH]; intro H; [reflexivity|]. cbn [flatten flat_map fst snd]. rewrite owns_app.
  rewrite owns_sub by (apply H; now left). apply IH. intros b Hb. apply H. now right.
Qed.

Lemma dset_twice : forall V k (u v : V) n, dset k v (dset k u n) = dset k v n.
Proof.
  intros V k u v n. induction n as [|[k0 v0] n IH]; cbn [dset]; [now rewrite String.eqb_refl|].
  destruct (String.eqb_spec k0 k) as [->|N]; cbn [dset]; [now rewrite String.eqb_refl|].
  destruct (String.eqb_spec k0 k); [congruence|]. now rewrite IH.
Qed.

Lemma collect_sub : forall a s n, plain a -> s <> [] -> dwf s -> dget a n = None ->
  collect (sub_items a s) n = n ++ [(a, s)].
Proof.
  intros a s n P Ne W G.
  assert (X : forall s t n, dwf (t ++ s) -> s <> [] -> nget a n = t ->
    collect (sub_items a s) n = dset a (t ++ s) n).
  { clear s n Ne W G. induction s as [|[k v] s IH]; intros t n W Ne Hn; [congruence|].
    unfold collect, sub_items. cbn [map fold_left fst snd]. unfold group at 2. cbn [fst snd].
    rewrite plain_partition_sub by exact P. rewrite Hn.
    assert (K : dget k t = None).
    { apply dget_none. intro X. unfold dwf, dkeys in *. rewrite map_app in W. cbn [map fst] in W.
      apply NoDup_remove_2 in W. apply W. apply in_app_iff. now left. }
    rewrite (dset_absent _ _ _ _ K). destruct s as [|q s].
    - reflexivity.
    - change (fold_left group (map (fun p => ((a ++ "__" ++ fst p)%string, snd p)) (q :: s)) (dset a (t ++ [(k, v)]) n))
        with (collect (sub_items a (q :: s)) (dset a (t ++ [(k, v)]) n)).
      rewrite (IH (t ++ [(k, v)])).
      + rewrite dset_twice. rewrite <- app_assoc. reflexivity.
      + rewrite <- app_assoc. exact W.
      + discriminate.
      + unfold nget. rewrite dget_dset, String.eqb_refl. reflexivity. }
  rewrite (X s []) by (try assumption; unfold nget; now rewrite G).
  cbn [app]. now apply dset_absent.
Qed.

Lemma collect_flatten : forall n m, (forall a s, In (a, s) n -> plain a /\ s <> [] /\ dwf s) -> dwf (m ++ n) ->
  collect (flatten n) m = m ++ n.
Proof.
  induction n as [|[a s] n IH]; intros m H W; [now rewrite app_nil_r|].
  cbn [flatten flat_map fst snd]. rewrite collect_app. fold (flatten n).
  destruct (H a s (or_introl eq_refl)) as (P & Ne & Ws).
  rewrite collect_sub; [|exact P|exact Ne|exact Ws|].
  - rewrite IH; [now rewrite <- app_assoc| |now rewrite <- app_assoc]. intros b t Hb. apply H. now right.
  - apply dget_none. intro X. unfold dwf, dkeys in *. rewrite map_app in W. cbn [map fst] in W.
    apply NoDup_remove_2 in W. apply W. apply in_app_iff. now left.
Qed.

(** What is collected. *)
Lemma collect_spec : forall (params : dict val) (n : dict (dict val)), dwf params -> dwf n ->
  (forall a (s : dict val), In (a, s) n -> plain a /\ s <> [] /\ dwf s) ->
  (forall k a r v, In (k, v) params -> partition k = (a, Some r) -> plain a) ->
  dwf (collect params n) /\
  (forall a s, In (a, s) (collect params n) -> plain a /\ s <> [] /\ dwf s) /\
  (forall a r, plain a -> dget r (nget a (collect params n)) =
     match dget (a ++ "__" ++ r)%string params with Some v => Some v | None => dget r (nget a n) end).
Proof.
  induction params as [|[k v] params IH]; intros n W Wn Hn Hp; [repeat split; auto; now apply Hn in H|].
  inversion_clear W as [|? ? N W']. unfold collect. cbn [fold_left]. fold (collect params (group n (k, v))).
  assert (Hp' : forall k0 a r v0, In (k0, v0) params -> partition k0 = (a, Some r) -> plain a)
    by (intros k0 a r v0 X Y; exact (Hp k0 a r v0 (or_intror X) Y)).
  unfold group. cbn [fst snd]. destruct (partition k) as [a [r|]] eqn:Ek.
  - assert (Pa : plain a) by exact (Hp k a r v (or_introl eq_refl) Ek).
    assert (Wa : dwf (nget a n)).
    { unfold nget. destruct (dget a n) as [s|] eqn:E; [|constructor]. apply dget_in in E. exact (proj2 (proj2 (Hn a s E))). }
    destruct (IH (dset a (dset r v (nget a n)) n) W') as (A & B & C).
    + now apply dwf_dset.
    + intros b t Hb. apply in_dget in Hb; [|now apply dwf_dset]. rewrite dget_dset in Hb.
      destruct (String.eqb_spec a b) as [<-|].
      * injection Hb as <-. split; [exact Pa|]. split; [|now apply dwf_dset].
        intro X. assert (Y := dget_dset _ r r v (nget a n)). rewrite X, String.eqb_refl in Y. discriminate.
      * apply dget_in in Hb. now apply Hn.
    + exact Hp'.
    + split; [exact A|]. split; [exact B|]. intros b s Pb. rewrite C by exact Pb. cbn [dget].
      pose proof (partition_sub _ _ _ Ek) as ->.
      destruct (String.eqb_spec (a ++ "__" ++ r) (b ++ "__" ++ s)) as [X|X].
      * assert (Q : (a, Some r) = (b, Some s)).
        { rewrite <- (plain_partition_sub a r Pa), <- (plain_partition_sub b s Pb). now rewrite X. }
        injection Q as <- <-. assert (G : dget (a ++ "__" ++ r)%string params = None) by now apply dget_none.
        rewrite G. unfold nget. rewrite dget_dset, String.eqb_refl, dget_dset, String.eqb_refl. reflexivity.
      * destruct (dget (b ++ "__" ++ s)%string params); [reflexivity|].
        unfold nget at 1. rewrite dget_dset. destruct (String.eqb_spec a b) as [<-|]; [|reflexivity].
        rewrite dget_dset. destruct (String.eqb_spec r s) as [<-|]; [congruence|reflexivity].
  - destruct (IH n W' Wn Hn Hp') as (A & B & C). split; [exact A|]. split; [exact B|].
    intros b s Pb. rewrite C by exact Pb. cbn [dget]. pose proof (partition_none _ _ Ek). subst a.
    destruct (String.eqb_spec k (b ++ "__" ++ s)) as [X|]; [|reflexivity].
    exfalso. rewrite X, plain_partition_sub in Ek by exact Pb. discriminate.
Qed.
Lemma collect_keys : forall (params : dict val) (n : dict (dict val)) a, In a (dkeys (collect params n)) ->
  In a (dkeys n) \/ exists k r v, In (k, v) params /\ partition k = (a, Some r).
Proof.
  induction params as [|[k v] params IH]; intros n a H; [now left|].
  unfold collect in H. cbn [fold_left] in H. apply IH in H. destruct H as [H|(k' & r & v' & I & E)].
  - unfold group in H. cbn [fst snd] in H. destruct (partition k) as [b [r|]] eqn:Ek; [|now left].
    rewrite dkeys_dset in H. destruct (dmem b n); [now left|]. apply in_app_iff in H. destruct H as [H|[<-|[]]]; [now left|].
    right. exists k, r, v. split; [now left|exact Ek].
  - right. exists k', r, v'. split; [now right|exact E].
Qed.

(** ** Classes of objects never change *)

Definition grows (w w' : pworld) : Prop :=
  (List.length w <= List.length w')%nat /\ forall i, (i < List.length w)%nat -> class_of w' i = class_of w i.
Lemma grows_refl : forall w, grows w w.
Proof. split; auto. Qed.
Lemma grows_trans : forall u v w, grows u v -> grows v w -> grows u w.
Proof. intros u v w (A & B) (C & D). split; [lia|]. intros i Hi. rewrite D by lia. now apply B. Qed.
Lemma grows_put : forall w o k v, grows w (put_attr w o k v).
Proof. intros. split; [rewrite put_attr_length; lia|]. intros. apply class_put_attr. Qed.
Lemma grows_app : forall w t, grows w (w ++ t).
Proof. intros. split; [rewrite app_length; lia|]. intros. now apply class_ext. Qed.
Lemma grows_init : forall mk c own o sig w,
  (forall c' w w' i, mk c' w = Some (w', i) -> grows w w') -> grows w (init_attrs default_window mk c own o sig w).
Proof.
  intros mk c own o sig. induction sig as [|[k d] sig IH]; intros w H; [apply grows_refl|].
  cbn [init_attrs]. eapply grows_trans; [|apply IH; exact H].
  assert (X : forall v, grows w match v, c_default c k with
     | VNone, Some BWindow => put_attr w o k default_window
     | VNone, Some (BObj c') => match mk c' w with Some (w, i) => put_attr w o k (VObj i) | None => put_attr w o k VNone end
     | _, _ => put_attr w o k v end).
  { intro v. destruct v; try apply grows_put. destruct (c_default c k) as [[c'|]|]; try apply grows_put.
    destruct (mk c' w) as [[w' i]|] eqn:E; [|apply grows_put]. eapply grows_trans; [exact (H _ _ _ _ E)|apply grows_put]. }
  apply X.
Qed.
Lemma grows_build : forall n c own w, grows w (fst (build default_window n c own w)).
Proof.
  induction n as [|n IH]; intros c own w; cbn [build fst].
  - eapply grows_trans; [apply (grows_app w [(c, [])])|]. apply grows_init. discriminate.
  - eapply grows_trans; [apply (grows_app w [(c, [])])|]. apply grows_init. intros c' w0 w' i [= E].
    pose proof (IH c' [] w0) as X. rewrite E in X. exact X.
Qed.
Lemma grows_setattr : forall w o k v, grows w (setattr w o k v).
Proof.
  intros. unfold Params_Model.setattr. destruct v; try apply grows_put.
  destruct (c_default _ k) as [[c'|]|]; try apply grows_put.
  pose proof (grows_build 3 c' [] w) as X. destruct (build default_window 3 c' [] w) as [w' i].
  eapply grows_trans; [exact X|apply grows_put].
Qed.
Lemma grows_set_own : forall o params valid nested w, grows w (fst (set_own o params valid nested w)).
Proof.
  intros o params. induction params as [|[k v] params IH]; intros valid nested w; [apply grows_refl|].
  cbn [Params_Model.set_own]. destruct (partition k) as [a r]. destruct (dmem a valid); [|apply grows_refl].
  destruct r; [apply IH|]. eapply grows_trans; [apply grows_setattr|apply IH].
Qed.
Lemma grows_set_params : forall d o kwargs w, grows w (fst (set_params d o kwargs w)).
Proof.
  induction d as [|d IH]; intros o kwargs w; [apply grows_refl|]. cbn [Params_Model.set_params].
  destruct (rename _ _ kwargs) as [[|p params]|]; try apply grows_refl.
  destruct (get_params d w o true) as [valid|]; [|apply grows_refl].
  pose proof (grows_set_own o (p :: params) valid [] w) as G.
  destruct (set_own o (p :: params) valid [] w) as [w1 [[valid1 nested]|e m]]; [|exact G].
  change (grows w (fst (fold_left (nest_step d valid1) nested (w1, Ret tt)))).
  assert (X : forall l r, grows w (fst r) -> grows w (fst (fold_left (nest_step d valid1) l r))).
  { induction l as [|[a s] l IHl]; intros r Hr; [exact Hr|]. cbn [fold_left]. apply IHl.
    destruct r as [w' [u|e m]]; [|exact Hr]. unfold nest_step. cbn [fst snd].
    destruct (dget a valid1) as [x|]; [|exact Hr]. destruct (as_estimator w' x) as [i|]; [|exact Hr].
    eapply grows_trans; [exact Hr|apply IH]. }
  apply X. exact G.
Qed.

(** ** The same call, one group at a time *)

Lemma set_params_groups : forall d o params params' w f,
  rename_of (class_of w o) (VObj o) params = Ret params -> rename_of (class_of w o) (VObj o) params' = Ret params' ->
  dwf params ->
  (forall k v, In (k, v) params -> dmem (fst (partition k)) (c_sig (class_of w o)) = true /\ plain (fst (partition k))) ->
  params' = owns params ++ flatten (map (fun p => (fst p, f (fst p) (snd p))) (collect params [])) ->
  (forall a s, In (a, s) (collect params []) -> f a s <> [] /\ dwf (f a s)) ->
  (forall valid, get_params d w o true = Ret valid ->
     (forall a, In a (dkeys (c_sig (class_of w o))) -> dmem a valid = true) /\
     forall a s w' i, In (a, s) (collect params []) -> grows w w' ->
       dget a (dupdate valid (owns params)) = Some (VObj i) -> estimator (class_of w' i) = true ->
       set_params d i s w' = set_params d i (f a s) w') ->
  set_params (S d) o params w = set_params (S d) o params' w.
Proof.
  intros d o params params' w f R R' W Hp Ep Hf Hv.
  destruct (collect_spec params [] W ltac:(constructor) ltac:(intros ? ? []) ) as (Wc & Hc & _).
  { intros k a r v Hin Ek. pose proof (proj2 (Hp k v Hin)) as X. now rewrite Ek in X. }
  set (N := collect params []) in *. set (N' := map (fun p => (fst p, f (fst p) (snd p))) N) in *.
  assert (Kn : dkeys N' = dkeys N) by (unfold N', dkeys; rewrite map_map; reflexivity).
  assert (HN' : forall a s, In (a, s) N' -> plain a /\ s <> [] /\ dwf s).
  { intros a s Hin. unfold N' in Hin. apply in_map_iff in Hin. destruct Hin as ([b t] & [= <- <-] & Hin).
    destruct (Hc b t Hin) as (A & _ & _). destruct (Hf b t Hin). auto. }
  cbn [Params_Model.set_params]. rewrite R, R'.
  assert (Ne : params = [] <-> params' = []).
  { split; intro X.
    - subst params. unfold N, N' in Ep. exact Ep.
    - rewrite Ep in X. apply app_eq_nil in X. destruct X as (X1 & X2). destruct params as [|[k v] ps]; [reflexivity|exfalso].
      unfold owns in X1. cbn [filter fst] in X1. destruct (partition k) as [a [r|]] eqn:Ek; [|discriminate]. cbn [snd] in X1.
      assert (Pa : plain a) by (pose proof (proj2 (Hp k v (or_introl eq_refl))) as X; now rewrite Ek in X).
      destruct (collect_spec ((k, v) :: ps) [] W ltac:(constructor) ltac:(intros ? ? [])) as (_ & _ & G).
      { intros k0 a0 r0 v0 Hin Ek0. pose proof (proj2 (Hp k0 v0 Hin)) as X. now rewrite Ek0 in X. }
      specialize (G a r Pa). pose proof (partition_sub _ _ _ Ek) as Ek'. rewrite <- Ek' in G. cbn [dget] in G.
      rewrite String.eqb_refl in G. fold N in G. unfold nget in G. destruct (dget a N) as [s|] eqn:Es; [|discriminate].
      apply dget_in in Es. assert (Hs : In (a, f a s) N') by (unfold N'; apply in_map_iff; exists (a, s); auto).
      destruct (HN' _ _ Hs) as (_ & Hne & _). destruct (f a s) as [|q t] eqn:Ef; [congruence|].
      apply in_split in Hs. destruct Hs as (l1 & l2 & Hs). rewrite Hs in X2. unfold flatten in X2. rewrite flat_map_app in X2.
      apply app_eq_nil in X2. destruct X2 as (_ & X2). discriminate X2. }
  destruct (list_eq_nil _ params) as [Z|Z].
  { rewrite (proj1 Ne Z), Z. reflexivity. }
  rewrite (match_cons _ _ params) by exact Z. rewrite (match_cons _ _ params') by (intro X; apply Z, Ne, X).
  destruct (get_params d w o true) as [valid|e m] eqn:Eg; [|reflexivity].
  destruct (Hv valid eq_refl) as (V & Vf).
  assert (K1 : forall k v, In (k, v) params -> dmem (fst (partition k)) valid = true).
  { intros k v Hin. apply V. apply dmem_keys. now apply (Hp k v). }
  assert (K2 : forall k v, In (k, v) params' -> dmem (fst (partition k)) valid = true).
  { intros k v Hin. rewrite Ep in Hin. apply in_app_iff in Hin. destruct Hin as [Hin|Hin].
    - unfold owns in Hin. apply filter_In in Hin. exact (K1 k v (proj1 Hin)).
    - unfold flatten in Hin. apply in_flat_map in Hin. destruct Hin as ([a s] & Ha & Hin). cbn [fst snd] in Hin.
      unfold sub_items in Hin. apply in_map_iff in Hin. destruct Hin as ([r x] & Eq & _). apply (f_equal fst) in Eq. cbn [fst] in Eq. subst k.
      destruct (HN' a s Ha) as (Pa & _). rewrite plain_partition_sub by exact Pa. cbn [fst].
      assert (In a (dkeys N)) by (rewrite <- Kn; change a with (fst (a, s)); now apply in_map).
      apply collect_keys in H. destruct H as [[]|(k' & r' & v' & I & E)]. pose proof (K1 k' v' I) as X. now rewrite E in X. }
  rewrite (set_own_split o params valid [] w K1), (set_own_split o params' valid [] w K2).
  assert (O : owns params' = owns params).
  { rewrite Ep, owns_app, owns_owns, owns_flatten, app_nil_r; [reflexivity|]. intros a Ha. rewrite Kn in Ha.
    apply in_map_iff in Ha. destruct Ha as ([b s] & <- & Hb). exact (proj1 (Hc b s Hb)). }
  assert (C : collect params' [] = N').
  { rewrite Ep, collect_app, collect_owns. apply (collect_flatten N' []); [exact HN'|]. exact (eq_ind_r (fun l => NoDup l) Wc Kn). }
  rewrite O, C. fold N.
  set (w1 := fold_left _ (owns params) w). set (valid1 := dupdate valid (owns params)) in *.
  change (fold_left (nest_step d valid1) N (w1, Ret tt) = fold_left (nest_step d valid1) N' (w1, Ret tt)).
  assert (G1 : grows w w1).
  { unfold w1. generalize (owns params). intro l. assert (X : forall u, grows w u -> grows w (fold_left (fun w0 (p : string * val) => setattr w0 o (fst p) (snd p)) l u)).
    { induction l as [|p l IHl]; intros u Hu; [exact Hu|]. cbn [fold_left]. apply IHl. eapply grows_trans; [exact Hu|apply grows_setattr]. }
    apply X, grows_refl. }
  assert (X : forall l r, (forall p, In p l -> In p N) -> grows w (fst r) ->
    fold_left (nest_step d valid1) l r = fold_left (nest_step d valid1) (map (fun p => (fst p, f (fst p) (snd p))) l) r).
  { induction l as [|[a s] l IHl]; intros r Hl Hr; [reflexivity|]. cbn [map fold_left fst snd].
    assert (St : nest_step d valid1 r (a, s) = nest_step d valid1 r (a, f a s) /\ grows w (fst (nest_step d valid1 r (a, s)))).
    { destruct r as [w' [u|e m]]; [|split; [reflexivity|exact Hr]]. unfold nest_step. cbn [fst snd].
      destruct (dget a valid1) as [x|] eqn:Ex; [|split; [reflexivity|exact Hr]].
      destruct (as_estimator w' x) as [i|] eqn:Ei; [|split; [reflexivity|exact Hr]]. split.
      - destruct (tidy_est _ _ _ Ei) as (-> & Es). apply (Vf a s w' i); auto. apply Hl. now left.
      - eapply grows_trans; [exact Hr|apply grows_set_params]. }
    destruct St as (<- & G). apply IHl; [|exact G]. intros p Hin. apply Hl. now right. }
  apply X; auto.
Qed.
End Alias.

(** ** Old names (the specification) *)

(** Former names of the parameters of the sinusoidal model. *)
Definition old_names : dict string :=
  [("reverse", "tracker__reverse"); ("frequency_bounds", "tracker__frequency_bounds");
   ("peak_threshold", "tracker__peak_threshold"); ("merge_strategy", "tracker__merge_strategy");
   ("strip_t", "tracker__strip_t"); ("max_n_sines", "tracker__max_n_sines");
   ("min_sine_dur", "tracker__min_sine_dur"); ("freq_dev_offset", "tracker__freq_dev_offset");
   ("freq_dev_slope", "tracker__freq_dev_slope"); ("save_intermediate", "intermediate__save");
   ("fs", "tracker__fs"); ("h", "tracker__h")].
Definition new_param (r : string) : string := match dget r old_names with Some n => n | None => r end.
(** The former name of the sinusoidal model itself. *)
Definition new_model (k : string) : string :=
  if String.prefix "sinusoidal_model" k then "sinusoidal" ++ sdrop 16 k else k.
Definition new_inner (k : string) : string :=
  if String.prefix "sinusoidal__" k then "sinusoidal__" ++ new_param (sdrop 12 k) else k.
(** What a name given to [SAMPLE] stands for. *)
Definition new_name (k : string) : string := new_inner (new_model k).
Definition new_names (kwargs : dict val) : dict val := map (fun p => (new_name (fst p), snd p)) kwargs.

Lemma drop12 : forall r, sdrop 12 ("sinusoidal__" ++ r) = r.
Proof. intro r. exact (sdrop_app "sinusoidal__" r). Qed.
Lemma drop16 : forall r, sdrop 16 ("sinusoidal_model" ++ r) = r.
Proof. intro r. exact (sdrop_app "sinusoidal_model" r). Qed.

(** ** Renaming *)

Lemma rename_keywords_eq : forall ds self kwargs, rename ds self kwargs = rename_keywords ds [self] kwargs.
Proof.
  induction ds as [|x ds IH]; intros self kwargs; [reflexivity|]. cbn [rename rename_keywords].
  destruct (snd (depr_loop x [self] (key_map x kwargs) kwargs)); [apply IH|reflexivity].
Qed.
Lemma depr_loop_args : forall x a b km kwargs, convert x = None -> depr_loop x a km kwargs = depr_loop x b km kwargs.
Proof.
  intros x a b km. induction km as [|[o n] km IH]; intros kwargs H; [reflexivity|]. cbn [depr_loop]. rewrite H.
  destruct (dget o kwargs); [|now apply IH]. rewrite IH by exact H. reflexivity.
Qed.

Definition inner_table : list (string * string) := modal_table ++ sinusoidal_table.
Lemma rename_modal : forall ct s, dget "safe_sine_len" s = None -> dget "sine_tracker_cls" s = None ->
  exists s', (forall self, rename (c_deprecated ct CModal) self s = Ret s') /\ (dwf s -> dwf s') /\
    forall k, dget k s' = renamed_get inner_table s k.
Proof.
  intros ct s H1 H2. destruct (deprecated_chain (modal_decorators ++ sinusoidal_decorators ct) s) as (s' & E & W & G).
  - apply Forall_forall. intros x Hx. cbn [app modal_decorators sinusoidal_decorators] in Hx.
    repeat (destruct Hx as [<-|Hx];
      [first [left; split; [reflexivity|]; split; [reflexivity|]; split; [reflexivity|]; split; [reflexivity|discriminate]
             |right; split; [reflexivity|]; split; [assumption|discriminate]]|]).
    destruct Hx.
  - cbn. repeat constructor; cbn; intuition discriminate.
  - cbn. repeat constructor; cbn; intuition discriminate.
  - cbn. intros o Ho. intuition (subst; discriminate).
  - exists s'. split; [|split; [exact W|exact G]]. intro self. rewrite rename_keywords_eq.
    pose proof (rename_deprecated (c_deprecated ct CModal) [self] s) as X. cbn [c_deprecated] in X. rewrite E in X. cbn [snd] in X.
    change (c_deprecated ct CModal) with (modal_decorators ++ sinusoidal_decorators ct).
    destruct (rename_keywords (modal_decorators ++ sinusoidal_decorators ct) [self] s) as [kw|e m]; [|discriminate]. congruence.
Qed.
Lemma rename_top : forall ct kwargs, dwf kwargs ->
  (forall r, dget ("sinusoidal_model" ++ r) kwargs <> None -> String.prefix "sinusoidal_model" ("sinusoidal" ++ r) = false) ->
  exists p, (forall self, rename (c_deprecated ct CSample) self kwargs = Ret p) /\ dwf p /\
    (forall r, dget ("sinusoidal_model" ++ r) p = None) /\
    (forall r v, dget ("sinusoidal_model" ++ r) kwargs = Some v -> dget ("sinusoidal" ++ r) p = Some v) /\
    (forall k, String.prefix "sinusoidal_model" k = false ->
       (forall r, k = ("sinusoidal" ++ r)%string -> dget ("sinusoidal_model" ++ r) kwargs = None) -> dget k p = dget k kwargs).
Proof.
  intros ct kwargs W H.
  destruct (c28_prefix sample_decorator (fun _ kw => ([], Ret (VDict kw))) [VNone] kwargs "sinusoidal" eq_refl eq_refl eq_refl W H)
    as (p & E & Wp & A & B & C).
  exists p. split; [|split; [exact Wp|split; [exact A|split; [exact B|exact C]]]].
  intro self. cbn [c_deprecated rename]. rewrite (depr_loop_args _ _ [VNone]) by reflexivity.
  unfold deprecated in E. destruct (depr_loop sample_decorator [VNone] _ kwargs) as [ws [kw|e m]]; cbn [snd] in *; congruence.
Qed.

(** ** Dictionaries *)

Lemma NoDup_app_intro : forall A (l m : list A), NoDup l -> NoDup m -> (forall x, In x l -> In x m -> False) -> NoDup (l ++ m).
Proof.
  intros A l m Hl Hm H. induction Hl as [|x l N Hl IH]; [exact Hm|]. cbn [app]. constructor.
  - rewrite in_app_iff. intros [X|X]; [contradiction|]. apply (H x); [now left|exact X].
  - apply IH. intros y Hy. apply H. now right.
Qed.


Lemma dget_sub : forall a s r, dget (a ++ "__" ++ r)%string (sub_items a s) = dget r s.
Proof.
  intros a s r. unfold sub_items. induction s as [|[k v] s IH]; [reflexivity|]. cbn [map dget fst snd].
  destruct (String.eqb_spec k r) as [->|N]; [now rewrite String.eqb_refl|].
  destruct (String.eqb_spec (a ++ "__" ++ k) (a ++ "__" ++ r)) as [X|]; [|exact IH].
  exfalso. apply N. apply append_inj_l in X. now apply append_inj_l in X.
Qed.
Lemma dget_sub_other : forall a s k, plain a -> (forall r, partition k <> (a, Some r)) -> dget k (sub_items a s) = None.
Proof.
  intros a s k P H. apply dget_none. intro X. unfold dkeys, sub_items in X. rewrite map_map in X. apply in_map_iff in X.
  destruct X as ([r v] & E & _). cbn [fst] in E. subst k. apply (H r). now apply plain_partition_sub.
Qed.
Lemma dget_append : forall V k (a b : dict V), dget k (a ++ b) = match dget k a with Some v => Some v | None => dget k b end.
Proof. intros V k a b. induction a as [|[k' v] a IH]; [reflexivity|]. cbn [app dget]. now destruct (String.eqb k' k). Qed.
Lemma dget_flatten : forall n k, dwf n -> (forall a, In a (dkeys n) -> plain a) -> dget k (flatten n) =
  match partition k with (a, Some r) => dget r (nget a n) | (_, None) => None end.
Proof.
  induction n as [|[a s] n IH]; intros k W P; [now destruct (partition k) as [? [?|]]|].
  inversion_clear W as [|? ? N W']. cbn [flatten flat_map fst snd]. fold (flatten n). rewrite dget_append, IH; [|exact W'|intros b Hb; apply P; now right].
  assert (Pa : plain a) by (apply P; now left).
  destruct (partition k) as [b [r|]] eqn:Ek.
  - unfold nget at 2. cbn [dget]. destruct (String.eqb_spec a b) as [<-|Nab].
    + rewrite (partition_sub _ _ _ Ek), dget_sub. destruct (dget r s); [reflexivity|].
      unfold nget. assert (G : dget a n = None) by now apply dget_none. now rewrite G.
    + rewrite dget_sub_other; [reflexivity|exact Pa|]. intros r' X. congruence.
  - rewrite dget_sub_other; [reflexivity|exact Pa|]. intros r' X. congruence.
Qed.
Lemma dget_ext : forall (d e : dict val), (forall k v, dget k d = Some v <-> dget k e = Some v) -> forall k, dget k d = dget k e.
Proof.
  intros d e H k. destruct (dget k d) as [v|] eqn:E; [symmetry; now apply H|].
  destruct (dget k e) as [v|] eqn:F; [|reflexivity]. apply H in F. congruence.
Qed.
Lemma dget_owns : forall p k, dget k (owns p) = match partition k with (_, None) => dget k p | (_, Some _) => None end.
Proof.
  intros p k. unfold owns. rewrite (dget_filter val (fun k => match snd (partition k) with None => true | Some _ => false end)).
  now destruct (partition k) as [a [r|]].
Qed.

(** ** Names of the parameters of SAMPLE *)

Definition leaf_check (dw : val) : bool :=
  forallb (fun k => if String.prefix "sinusoidal__" k
                    then dmem (fst (partition (sdrop 12 k))) (c_sig CModal)
                    else dmem (fst (partition k)) (c_sig CSample) && negb (String.eqb k "sinusoidal") && negb (String.eqb k "regressor")
                         && negb (String.eqb (fst (partition k)) "sinusoidal") && negb (String.prefix "sinusoidal_model" k))
    (dkeys (sample_leaves dw)).
Lemma leaf_checked : forall dw, leaf_check dw = true.
Proof. reflexivity. Qed.
Lemma leaf_inner : forall dw r, In ("sinusoidal__" ++ r)%string (dkeys (sample_leaves dw)) -> dmem (fst (partition r)) (c_sig CModal) = true.
Proof.
  intros dw r H. pose proof (leaf_checked dw) as X. unfold leaf_check in X. rewrite forallb_forall in X. specialize (X _ H).
  rewrite prefix_app in X. rewrite (drop12 r) in X. exact X.
Qed.
Lemma leaf_outer : forall dw k, In k (dkeys (sample_leaves dw)) -> String.prefix "sinusoidal__" k = false ->
  dmem (fst (partition k)) (c_sig CSample) = true /\ k <> "sinusoidal" /\ k <> "regressor" /\ fst (partition k) <> "sinusoidal" /\
  String.prefix "sinusoidal_model" k = false.
Proof.
  intros dw k H P. pose proof (leaf_checked dw) as X. unfold leaf_check in X. rewrite forallb_forall in X. specialize (X _ H). cbv beta in X.
  rewrite P in X. apply andb_prop in X as (X & E). apply andb_prop in X as (X & D). apply andb_prop in X as (X & C). apply andb_prop in X as (A & B).
  apply negb_true_iff in B, C, D, E. apply String.eqb_neq in B, C, D. auto.
Qed.
Lemma sample_plain : forall a, dmem a (c_sig CSample) = true -> plain a.
Proof. intros a H. apply dmem_keys in H. cbn in H. decompose [or] H; subst; try contradiction; reflexivity. Qed.

Lemma new_param_spec : forall s, (forall o n, dget o s <> None -> dget o old_names = Some n -> dget n s = None) ->
  forall r v, renamed_get inner_table s r = Some v <-> exists r0, dget r0 s = Some v /\ new_param r0 = r.
Proof.
  intros s H r v. unfold new_param. change old_names with inner_table in *.
  assert (NO : dwf inner_table) by (cbn; repeat constructor; cbn; intuition discriminate).
  assert (NN : NoDup (map snd inner_table)) by (cbn; repeat constructor; cbn; intuition discriminate).
  assert (Old : forall k, existsb (fun p => String.eqb (fst p) k) inner_table = match dget k inner_table with Some _ => true | None => false end).
  { intro k. exact (dmem_dget _ k inner_table). }
  assert (New : forall o n, dget o inner_table = Some n -> dget n inner_table = None).
  { intros o n X. apply dget_in in X. cbn in X. decompose [or] X; try contradiction; match goal with E : (_, _) = (_, _) |- _ => injection E as <- <- end; reflexivity. }
  assert (Find : forall n, match find (fun p => String.eqb (snd p) n) inner_table with
                           | Some (o, m) => m = n /\ dget o inner_table = Some n
                           | None => forall o, dget o inner_table <> Some n end).
  { intro n. destruct (find _ _) as [[o m]|] eqn:F.
    - apply find_some in F. destruct F as (F1 & F2). cbn [snd] in F2. apply String.eqb_eq in F2. subst m. split; [reflexivity|]. now apply in_dget.
    - intros o X. apply dget_in in X. pose proof (find_none _ _ F _ X) as Y. cbn [snd] in Y. rewrite String.eqb_refl in Y. discriminate. }
  assert (Inj : forall o o' n, dget o inner_table = Some n -> dget o' inner_table = Some n -> o = o').
  { intros o o' n X Y. apply dget_in in X, Y. clear - X Y NN. revert X Y NN. generalize inner_table. intro l. induction l as [|[a b] l IH]; [intros []|].
    cbn [map snd]. intros [[= -> ->]|X] [[= ->]|Y] N; try reflexivity; inversion_clear N as [|? ? N0 N'].
    - exfalso. apply N0. change n with (snd (o', n)). now apply in_map.
    - exfalso. apply N0. subst b. change n with (snd (o, n)). now apply in_map.
    - now apply IH. }
  unfold renamed_get. rewrite Old. specialize (Find r). split.
  - destruct (dget r inner_table) as [n|] eqn:Er; [discriminate|].
    destruct (find _ _) as [[o m]|].
    + destruct Find as (-> & Eo). destruct (dget o s) as [u|] eqn:Es; intro X.
      * exists o. injection X as <-. split; [exact Es|]. now rewrite Eo.
      * exists r. split; [exact X|]. now rewrite Er.
    + intro X. exists r. split; [exact X|]. now rewrite Er.
  - intros (r0 & E0 & E1). destruct (dget r0 inner_table) as [n|] eqn:En.
    + subst n. rewrite (New _ _ En). destruct (find _ _) as [[o m]|]; [|exfalso; exact (Find r0 En)].
      destruct Find as (-> & Eo). rewrite (Inj _ _ _ Eo En), E0. reflexivity.
    + subst r0. rewrite En. destruct (find _ _) as [[o m]|]; [|exact E0]. destruct Find as (-> & Eo).
      destruct (dget o s) as [u|] eqn:Es; [|exact E0]. exfalso. rewrite (H o r) in E0; [discriminate|congruence|exact Eo].
Qed.

(** ** The same call with the new names *)

Section Call.
Variable default_window : val.
Variable construct_tracker : val -> outcome val.
Hypothesis window_value : forall w, as_estimator w default_window = None.
Local Notation set_params := (set_params default_window construct_tracker).
Local Notation construct := (construct default_window construct_tracker).
Local Notation leaf k := (In k (dkeys (sample_leaves default_window))).

Lemma dwf_new_names : forall kwargs, dwf (new_names kwargs) -> dwf kwargs.
Proof.
  intros kwargs. unfold dwf, dkeys, new_names. rewrite map_map. cbn [fst]. rewrite <- (map_map fst new_name). apply NoDup_map_inv.
Qed.
Lemma new_names_inj : forall kwargs k k' v v', dwf (new_names kwargs) -> dget k kwargs = Some v -> dget k' kwargs = Some v' ->
  new_name k = new_name k' -> k = k' /\ v = v'.
Proof.
  intros kwargs k k' v v' W H H' E. apply dget_in in H, H'.
  assert (X : (k, v) = (k', v')).
  { revert W H H'. unfold new_names, dwf, dkeys. induction kwargs as [|p l IH]; [intros _ []|]. cbn [map].
    intros W H H'. inversion_clear W as [|? ? N W']. cbn [fst] in N.
    assert (Nx : forall x, In x l -> new_name (fst x) <> new_name (fst p)).
    { intros x Hx Ex. apply N. rewrite map_map. cbn [fst]. apply in_map_iff. exists x. auto. }
    destruct H as [->|H]; destruct H' as [H'|H']; try congruence.
    - exfalso. apply (Nx _ H'). cbn [fst]. congruence.
    - subst p. exfalso. apply (Nx _ H). cbn [fst]. congruence.
    - now apply IH. }
  injection X as -> ->. auto.
Qed.

Lemma old_call : forall kwargs, dwf (new_names kwargs) -> (forall k v, In (k, v) kwargs -> leaf (new_name k)) ->
  exists kwargs', dwf kwargs' /\ (forall k, dget k kwargs' = dget k (new_names kwargs)) /\
    (forall d w o i, class_of w o = CSample -> dget "sinusoidal" (attrs_of w o) = Some (VObj i) -> class_of w i = CModal ->
       deep (S d) w o -> set_params (S (S d)) o kwargs w = set_params (S (S d)) o kwargs' w) /\
    ((forall k v, In (k, v) kwargs -> no_object v) ->
     forall d w, construct (4 + d) CSample kwargs w = construct (4 + d) CSample kwargs' w).
Proof.
  intros kwargs Wn Hl. pose proof (dwf_new_names kwargs Wn) as W.
  destruct (rename_top construct_tracker kwargs W) as (p & Rp & Wp & A & B & C).
  { intros r Hr. destruct (dget ("sinusoidal_model" ++ r) kwargs) as [v|] eqn:E; [|congruence]. apply dget_in in E.
    pose proof (Hl _ _ E) as L. unfold new_name, new_model in L. rewrite prefix_app in L.
    rewrite (drop16 r) in L.
    destruct (String.prefix "sinusoidal_model" ("sinusoidal" ++ r)) eqn:P; [exfalso|reflexivity].
    apply prefix_spec in P. destruct P as (r' & P).
    rewrite P in L. unfold new_inner in L. change (String.prefix "sinusoidal__" ("sinusoidal_model" ++ r')) with false in L. cbn iota in L.
    destruct (leaf_outer _ _ L eq_refl) as (_ & _ & _ & _ & X). rewrite prefix_app in X. discriminate. }
  assert (P1 : forall k v, dget k p = Some v <-> exists k0, dget k0 kwargs = Some v /\ new_model k0 = k).
  { intros k v. split.
    - intro E. destruct (String.prefix "sinusoidal_model" k) eqn:Pk.
      { apply prefix_spec in Pk. destruct Pk as (r & ->). rewrite A in E. discriminate. }
      destruct (String.prefix "sinusoidal" k) eqn:Ps.
      + apply prefix_spec in Ps. destruct Ps as (r & ->).
        destruct (dget ("sinusoidal_model" ++ r) kwargs) as [u|] eqn:Eu.
        * exists ("sinusoidal_model" ++ r)%string. rewrite (B _ _ Eu) in E. injection E as ->. split; [exact Eu|].
          unfold new_model. rewrite prefix_app. now rewrite (drop16 r).
        * exists ("sinusoidal" ++ r)%string. rewrite C in E; [|exact Pk|intros r' X; apply append_inj_l in X; now subst].
          split; [exact E|]. unfold new_model. now rewrite Pk.
      + exists k. rewrite C in E; [|exact Pk|intros r X; subst k; rewrite prefix_app in Ps; discriminate].
        split; [exact E|]. unfold new_model. now rewrite Pk.
    - intros (k0 & E & <-). unfold new_model. destruct (String.prefix "sinusoidal_model" k0) eqn:Pk.
      + apply prefix_spec in Pk. destruct Pk as (r & ->). rewrite (drop16 r). now apply B.
      + rewrite C; [exact E|exact Pk|]. intros r ->. destruct (dget ("sinusoidal_model" ++ r) kwargs) as [u|] eqn:Eu; [|reflexivity].
        exfalso. destruct (new_names_inj kwargs _ _ _ _ Wn E Eu) as (X & _); [|rewrite X, prefix_app in Pk; discriminate].
        unfold new_name. f_equal. unfold new_model. rewrite Pk, prefix_app. now rewrite (drop16 r). }
  (* names after the renaming of the model *)
  assert (Pl : forall k v, dget k p = Some v -> leaf (new_inner k)).
  { intros k v E. apply P1 in E. destruct E as (k0 & E & <-). apply dget_in in E. exact (Hl _ _ E). }
  assert (Pi : forall k k' v v', dget k p = Some v -> dget k' p = Some v' -> new_inner k = new_inner k' -> k = k').
  { intros k k' v v' E E' X. apply P1 in E, E'. destruct E as (k0 & E & <-). destruct E' as (k1 & E' & <-).
    destruct (new_names_inj kwargs k0 k1 v v' Wn E E' X) as (-> & _). reflexivity. }
  assert (Pin : forall r, new_inner ("sinusoidal__" ++ r) = ("sinusoidal__" ++ new_param r)%string).
  { intro r. unfold new_inner. rewrite prefix_app. now rewrite (drop12 r). }
  assert (Ph : forall k v, dget k p = Some v -> dmem (fst (partition k)) (c_sig CSample) = true).
  { intros k v E. pose proof (Pl k v E) as L. unfold new_inner in L. destruct (String.prefix "sinusoidal__" k) eqn:Pk.
    - apply prefix_spec in Pk. destruct Pk as (r & ->). change (partition ("sinusoidal__" ++ r)) with (partition ("sinusoidal" ++ "__" ++ r)).
      rewrite plain_partition_sub by reflexivity. reflexivity.
    - now apply (leaf_outer default_window). }
  assert (Ps : forall k v, dget k p = Some v -> k <> "sinusoidal" /\ k <> "regressor").
  { intros k v E. pose proof (Pl k v E) as L. unfold new_inner in L. destruct (String.prefix "sinusoidal__" k) eqn:Pk.
    - split; intros ->; discriminate Pk.
    - destruct (leaf_outer _ _ L Pk) as (_ & X & Y & _). auto. }
  assert (Php : forall k v, In (k, v) p -> dmem (fst (partition k)) (c_sig CSample) = true /\ plain (fst (partition k))).
  { intros k v Hin. apply in_dget in Hin; [|exact Wp]. split; [|apply sample_plain]; exact (Ph _ _ Hin). }
  destruct (collect_spec p [] Wp ltac:(constructor) ltac:(intros ? ? [])) as (Wc & Hc & Gc).
  { intros k a r v Hin Ek. pose proof (proj2 (Php k v Hin)) as X. now rewrite Ek in X. }
  set (N := collect p []) in *.
  set (s := nget "sinusoidal" N).
  assert (Gs : forall r, dget r s = dget ("sinusoidal__" ++ r)%string p).
  { intro r. unfold s. rewrite Gc by reflexivity. cbn [nget dget]. change ("sinusoidal" ++ "__" ++ r)%string with ("sinusoidal__" ++ r)%string.
    now destruct (dget ("sinusoidal__" ++ r)%string p). }
  assert (Absent : forall r, new_param r = r -> dmem (fst (partition r)) (c_sig CModal) = false -> dget r s = None).
  { intros r E F. rewrite Gs. destruct (dget ("sinusoidal__" ++ r)%string p) as [v|] eqn:Ev; [|reflexivity]. exfalso.
    pose proof (Pl _ _ Ev) as L. rewrite Pin, E in L. apply leaf_inner in L. congruence. }
  destruct (rename_modal construct_tracker s) as (s' & Rs & Ws & Gs').
  { now apply Absent. }
  { now apply Absent. }
  assert (Wsd : dwf s).
  { unfold s, nget. destruct (dget "sinusoidal" N) as [t|] eqn:E; [|constructor]. apply dget_in in E. exact (proj2 (proj2 (Hc _ _ E))). }
  specialize (Ws Wsd).
  assert (S1 : forall r v, dget r s' = Some v <-> exists r0, dget r0 s = Some v /\ new_param r0 = r).
  { intros r v. rewrite Gs'. apply new_param_spec. intros o n Ho En. destruct (dget n s) as [u|] eqn:Eu; [exfalso|reflexivity].
    destruct (dget o s) as [x|] eqn:Ex; [|congruence]. rewrite Gs in Eu, Ex.
    assert (Y : new_param n = n).
    { unfold new_param. apply dget_in in En. cbn in En. decompose [or] En; try contradiction;
        match goal with E : (_, _) = (_, _) |- _ => injection E as <- <- end; reflexivity. }
    pose proof (Pi _ _ _ _ Ex Eu) as X. rewrite !Pin, Y in X. unfold new_param in X. rewrite En in X. specialize (X eq_refl).
    apply (append_inj_l "sinusoidal__") in X. subst n. apply dget_in in En. cbn in En. decompose [or] En; try contradiction; congruence. }
  assert (Ks' : forall self, rename (c_deprecated construct_tracker CModal) self s' = Ret s').
  { intro self. apply rename_known. intros r Hr. apply dget_keys in Hr. destruct Hr as (v & Hr). apply S1 in Hr.
    destruct Hr as (r0 & E0 & <-). rewrite Gs in E0. pose proof (Pl _ _ E0) as L. rewrite Pin in L. now apply leaf_inner in L. }
  set (f := fun a (t : dict val) => if String.eqb a "sinusoidal" then s' else t).
  set (N' := map (fun q : string * dict val => (fst q, f (fst q) (snd q))) N).
  set (kwargs' := owns p ++ flatten N').
  assert (Kn : dkeys N' = dkeys N) by (unfold N', dkeys; rewrite map_map; reflexivity).
  assert (Ne : forall a t, In (a, t) N -> a = "sinusoidal" -> t = s /\ s' <> []).
  { intros a t Hin ->. pose proof (proj1 (proj2 (Hc _ _ Hin))) as Nt. apply in_dget in Hin; [|exact Wc].
    assert (X : t = s) by (unfold s, nget; now rewrite Hin). split; [exact X|]. subst t.
    destruct s as [|[r v] s0] eqn:Es; [congruence|]. intro Z. rewrite Z in S1. cbn [dget] in S1.
    assert (F : @None val = Some v); [|discriminate]. apply (S1 (new_param r) v). exists r. split; [|reflexivity]. now rewrite String.eqb_refl. }
  assert (Hf : forall a t, In (a, t) N -> f a t <> [] /\ dwf (f a t)).
  { intros a t Hin. unfold f. destruct (String.eqb_spec a "sinusoidal") as [->|].
    - split; [exact (proj2 (Ne _ _ Hin eq_refl))|exact Ws].
    - destruct (Hc a t Hin) as (_ & X & Y). auto. }
  assert (Pn : forall a, In a (dkeys N) -> plain a).
  { intros a Ha. apply in_map_iff in Ha. destruct Ha as ([b t] & <- & Hb). exact (proj1 (Hc b t Hb)). }
  assert (Wn' : dwf N') by exact (eq_ind_r (fun l => NoDup l) Wc Kn).
  assert (Gn : forall a, nget a N' = match dget a N with Some t => f a t | None => [] end).
  { intro a. unfold nget, N'. clear. induction N as [|[b t] M IH]; [reflexivity|]. cbn [map dget fst snd].
    destruct (String.eqb_spec b a) as [->|]; [reflexivity|exact IH]. }
  (* the values of the new dictionary *)
  assert (K : forall k v, dget k kwargs' = Some v <-> exists k1, dget k1 p = Some v /\ new_inner k1 = k).
  { intros k v. unfold kwargs'. rewrite dget_append, dget_owns, dget_flatten; [|exact Wn'|intros a Ha; rewrite Kn in Ha; now apply Pn].
    assert (Out : forall k1 v1, dget k1 p = Some v1 -> fst (partition k1) <> "sinusoidal" -> new_inner k1 = k1).
    { intros k1 v1 E1 Np. unfold new_inner. destruct (String.prefix "sinusoidal__" k1) eqn:P0; [exfalso|reflexivity].
      apply prefix_spec in P0. destruct P0 as (r & ->). apply Np. change ("sinusoidal__" ++ r)%string with ("sinusoidal" ++ "__" ++ r)%string.
      rewrite plain_partition_sub by reflexivity. reflexivity. }
    assert (Inn : forall k1 v1, dget k1 p = Some v1 -> fst (partition k1) = "sinusoidal" -> exists r, k1 = ("sinusoidal__" ++ r)%string).
    { intros k1 v1 E1 Np. destruct (partition k1) as [a [r|]] eqn:Ek; cbn [fst] in Np; subst a.
      - exists r. exact (partition_sub _ _ _ Ek).
      - apply partition_none in Ek. subst k1. destruct (Ps _ _ E1). congruence. }
    destruct (partition k) as [a [r|]] eqn:Ek.
    - pose proof (partition_sub _ _ _ Ek) as Ek'. rewrite Gn.
      destruct (String.eqb_spec a "sinusoidal") as [->|Na].
      + assert (Ss : match dget "sinusoidal" N with Some t => f "sinusoidal" t | None => [] end = s').
        { destruct (dget "sinusoidal" N) as [t|] eqn:E; [reflexivity|]. unfold s, nget in S1. rewrite E in S1.
          destruct s' as [|[r0 v0] s0]; [reflexivity|]. exfalso. destruct (proj1 (S1 r0 v0)) as (x & X & _); [|discriminate].
          cbn [dget]. now rewrite String.eqb_refl. }
        rewrite Ss. rewrite S1. split.
        * intros (r0 & E0 & Er). rewrite Gs in E0. exists ("sinusoidal__" ++ r0)%string. split; [exact E0|]. rewrite Pin, Er. now rewrite Ek'.
        * intros (k1 & E1 & Er). assert (X : fst (partition k1) = "sinusoidal").
          { destruct (String.eqb_spec (fst (partition k1)) "sinusoidal") as [X|X]; [exact X|]. exfalso. rewrite (Out _ _ E1 X) in Er. subst k1.
            rewrite Ek in X. cbn [fst] in X. congruence. }
          destruct (Inn _ _ E1 X) as (r0 & ->). exists r0. rewrite Gs. split; [exact E1|]. rewrite Pin, Ek' in Er.
          exact (append_inj_l "sinusoidal__" _ _ Er).
      + assert (Sn : dget r match dget a N with Some t => f a t | None => [] end = dget k p).
        { assert (X : match dget a N with Some t => f a t | None => [] end = nget a N).
          { unfold nget, f. destruct (dget a N); [|reflexivity]. destruct (String.eqb_spec a "sinusoidal"); [congruence|reflexivity]. }
          rewrite X. destruct (dmem a (c_sig CSample)) eqn:Ma.
          - rewrite Gc by now apply sample_plain. rewrite <- Ek'. cbn [nget dget]. now destruct (dget k p).
          - assert (Z1 : dget k p = None).
            { destruct (dget k p) as [u|] eqn:Eu; [|reflexivity]. apply Ph in Eu. rewrite Ek in Eu. cbn [fst] in Eu. congruence. }
            assert (Z2 : dget a N = None).
            { apply dget_none. intro Ha. unfold N in Ha. apply collect_keys in Ha. destruct Ha as [[]|(k' & r' & v' & I & E)].
              pose proof (proj1 (Php _ _ I)) as Y. rewrite E in Y. cbn [fst] in Y. congruence. }
            rewrite Z1. unfold nget. now rewrite Z2. }
        rewrite Sn. split.
        * intro E. exists k. split; [exact E|]. apply (Out _ _ E). rewrite Ek. exact Na.
        * intros (k1 & E1 & Er). assert (X : fst (partition k1) <> "sinusoidal").
          { intro X. destruct (Inn _ _ E1 X) as (r0 & ->). rewrite Pin in Er. rewrite <- Er in Ek.
            change ("sinusoidal__" ++ new_param r0)%string with ("sinusoidal" ++ "__" ++ new_param r0)%string in Ek.
            rewrite plain_partition_sub in Ek by reflexivity. congruence. }
          rewrite (Out _ _ E1 X) in Er. now subst k1.
    - pose proof (partition_none _ _ Ek). subst a. split.
      + intro E. destruct (dget k p) as [u|] eqn:Eu; [|discriminate]. injection E as ->. exists k. split; [exact Eu|].
        apply (Out _ _ Eu). rewrite Ek. exact (proj1 (Ps _ _ Eu)).
      + intros (k1 & E1 & Er). assert (X : fst (partition k1) <> "sinusoidal").
        { intro X. destruct (Inn _ _ E1 X) as (r0 & ->). rewrite Pin in Er. rewrite <- Er in Ek.
          change ("sinusoidal__" ++ new_param r0)%string with ("sinusoidal" ++ "__" ++ new_param r0)%string in Ek.
          rewrite plain_partition_sub in Ek by reflexivity. congruence. }
        rewrite (Out _ _ E1 X) in Er. subst k1. now rewrite E1. }
  assert (Wk : dwf kwargs').
  { unfold kwargs', dwf, dkeys. rewrite map_app. apply NoDup_app_intro.
    - apply dwf_filter. exact Wp.
    - assert (X : forall M, dwf M -> (forall a t, In (a, t) M -> plain a /\ dwf t) -> dwf (flatten M)).
      { clear. induction M as [|[a t] M IH]; intros W H; [constructor|]. inversion_clear W as [|? ? N W'].
        unfold dwf, dkeys. cbn [flatten flat_map fst snd]. fold (flatten M). rewrite map_app. destruct (H a t (or_introl eq_refl)) as (Pa & Wt).
        apply NoDup_app_intro; [now apply sub_items_wf|apply IH; [exact W'|intros; apply H; now right]|].
        intros x Hx Hy. apply dget_keys in Hx, Hy. destruct Hx as (u & Hx). destruct Hy as (v & Hy).
        rewrite dget_flatten in Hy; [|exact W'|intros b Hb; apply in_map_iff in Hb; destruct Hb as ([b' t'] & <- & Hb); exact (proj1 (H b' t' (or_intror Hb)))].
        destruct (partition x) as [b [r|]] eqn:Ex; [|discriminate].
        destruct (String.eqb_spec a b) as [<-|Nab].
        - unfold nget in Hy. assert (G : dget a M = None) by now apply dget_none. rewrite G in Hy. discriminate.
        - rewrite dget_sub_other in Hx; [discriminate|exact Pa|]. intros r' X. congruence. }
      apply X; [exact Wn'|]. intros a t Hin. unfold N' in Hin. apply in_map_iff in Hin. destruct Hin as ([b u] & [= <- <-] & Hin).
      split; [exact (proj1 (Hc _ _ Hin))|exact (proj2 (Hf _ _ Hin))].
    - intros x Hx Hy. apply dget_keys in Hx, Hy. destruct Hx as (u & Hx). destruct Hy as (v & Hy).
      rewrite dget_owns in Hx. rewrite dget_flatten in Hy; [|exact Wn'|intros a Ha; rewrite Kn in Ha; now apply Pn].
      destruct (partition x) as [a [r|]]; discriminate. }
  assert (Kh : forall k v, In (k, v) kwargs' -> dmem (fst (partition k)) (c_sig CSample) = true).
  { intros k v Hin. apply in_dget in Hin; [|exact Wk]. apply K in Hin. destruct Hin as (k1 & E1 & <-).
    unfold new_inner. destruct (String.prefix "sinusoidal__" k1) eqn:P0; [|exact (Ph _ _ E1)].
    change ("sinusoidal__" ++ new_param (sdrop 12 k1))%string with ("sinusoidal" ++ "__" ++ new_param (sdrop 12 k1))%string.
    rewrite plain_partition_sub by reflexivity. reflexivity. }
  exists kwargs'. split; [exact Wk|]. split; [|split].
  - apply dget_ext. intros k v. rewrite K. split.
    + intros (k1 & E1 & <-). apply P1 in E1. destruct E1 as (k0 & E0 & <-). apply in_dget; [exact Wn|].
      apply dget_in in E0. unfold new_names. apply in_map_iff. exists (k0, v). auto.
    + intro E. apply dget_in in E. unfold new_names in E. apply in_map_iff in E. destruct E as ([k0 v0] & E & Hin).
      injection E as E1 E2. cbn [fst snd] in E1, E2. subst v0. exists (new_model k0). split; [|exact E1]. apply P1. exists k0. split; [now apply in_dget|reflexivity].
  - intros d w o i Co Si Ci D.
    assert (R0 : set_params (S (S d)) o kwargs w = set_params (S (S d)) o p w).
    { cbn [Params_Model.set_params]. rewrite Co, Rp. rewrite rename_known; [reflexivity|]. intros k Hk. apply dget_keys in Hk. destruct Hk as (v & Hk). exact (Ph _ _ Hk). }
    rewrite R0.
    apply (set_params_groups default_window construct_tracker (S d) o p kwargs' w f).
    + rewrite Co. apply rename_known. intros k Hk. apply dget_keys in Hk. destruct Hk as (v & Hk). exact (Ph _ _ Hk).
    + rewrite Co. apply rename_known. intros k Hk. apply dget_keys in Hk. destruct Hk as (v & Hk). apply dget_in in Hk. exact (Kh _ _ Hk).
    + exact Wp.
    + rewrite Co. exact Php.
    + reflexivity.
    + exact Hf.
    + intros valid Ev. destruct (get_params_ok (S d) w o D) as (ps & E0 & _ & G0). rewrite Ev in E0. injection E0 as <-. split.
      * intros a Ha. rewrite dmem_dget, G0. destruct (D a Ha) as (Pa & v & Eav & _). cbn [pget]. rewrite (plain_partition a Pa).
        apply dmem_keys in Ha. now rewrite Ha, Eav.
      * intros a t w' j Hin G Ej Es. unfold f. destruct (String.eqb_spec a "sinusoidal") as [->|]; [|reflexivity].
        destruct (Ne _ _ Hin eq_refl) as (-> & _).
        assert (Wo : dwf (owns p)) by now apply dwf_filter.
        rewrite dget_dupdate in Ej by exact Wo.
        assert (Z : dget "sinusoidal" (owns p) = None).
        { rewrite dget_owns. destruct (partition "sinusoidal") as [x [y|]]; [reflexivity|]. destruct (dget "sinusoidal" p) as [u|] eqn:Eu; [|reflexivity].
          destruct (Ps _ _ Eu). congruence. }
        rewrite Z, G0 in Ej. cbn [pget partition Ascii.eqb Bool.eqb] in Ej. rewrite Co in Ej. change (dmem "sinusoidal" (c_sig CSample)) with true in Ej. cbn iota in Ej.
        rewrite Si in Ej. injection Ej as <-.
        assert (Cj : class_of w' i = CModal).
        { destruct G as (_ & G). rewrite G; [exact Ci|]. apply est_lt. now rewrite Ci. }
        cbn [Params_Model.set_params]. rewrite Cj, Rs, Ks'. reflexivity.
  - intros No d w.
    assert (Own1 : filter (fun q : string * val => dmem (fst q) (c_sig CSample)) p = owns p).
    { unfold owns. apply filter_ext_in. intros [k v] Hin. cbn [fst]. destruct (Php k v Hin) as (A1 & A2).
      destruct (partition k) as [a [r|]] eqn:Ek; cbn [fst snd] in *.
      - destruct (dmem k (c_sig CSample)) eqn:Mk; [|reflexivity]. apply sample_plain, plain_partition in Mk. congruence.
      - pose proof (partition_none _ _ Ek). now subst a. }
    assert (Own2 : filter (fun q : string * val => dmem (fst q) (c_sig CSample)) kwargs' = owns p).
    { transitivity (owns kwargs').
      - unfold owns. apply filter_ext_in. intros [k v] Hin. cbn [fst]. pose proof (Kh k v Hin) as A1.
        destruct (partition k) as [a [r|]] eqn:Ek; cbn [fst snd] in *.
        + destruct (dmem k (c_sig CSample)) eqn:Mk; [|reflexivity]. apply sample_plain, plain_partition in Mk. congruence.
        + pose proof (partition_none _ _ Ek). now subst a.
      - unfold kwargs'. rewrite owns_app, owns_owns, owns_flatten, app_nil_r; [reflexivity|]. intros a Ha. rewrite Kn in Ha. now apply Pn. }
    set (rest := filter (fun q : string * val => negb (dmem (fst q) (c_sig CSample))) p).
    assert (Rest2 : filter (fun q : string * val => negb (dmem (fst q) (c_sig CSample))) kwargs' = flatten N').
    { unfold kwargs'. rewrite filter_app.
      replace (filter _ (owns p)) with (@nil (string * val)).
      - cbn [app]. apply filter_all. intros [k v] Hin. cbn [fst]. destruct (dmem k (c_sig CSample)) eqn:Mk; [exfalso|reflexivity].
        apply sample_plain, plain_partition in Mk. assert (X : In k (dkeys (flatten N'))) by (change k with (fst (k, v)); now apply in_map).
        apply dget_keys in X. destruct X as (u & X). rewrite dget_flatten, Mk in X; [discriminate|exact Wn'|intros a Ha; rewrite Kn in Ha; now apply Pn].
      - symmetry. rewrite <- Own1. apply filter_none. intros x Hx. apply filter_In in Hx. now rewrite (proj2 Hx). }
    assert (Or : owns rest = []).
    { unfold owns, rest. apply filter_none. intros [k v] Hin. apply filter_In in Hin. destruct Hin as (Hin & Hk). cbn [fst] in *.
      destruct (partition k) as [a [r|]] eqn:Ek; [reflexivity|]. exfalso. pose proof (proj1 (Php k v Hin)) as X. rewrite Ek in X. cbn [fst] in X.
      pose proof (partition_none _ _ Ek). subst a. rewrite X in Hk. discriminate. }
    assert (Cr : collect rest [] = N).
    { unfold N. assert (X : forall l n, (forall k v, In (k, v) l -> dmem (fst (partition k)) (c_sig CSample) = true) ->
        collect (filter (fun q : string * val => negb (dmem (fst q) (c_sig CSample))) l) n = collect l n).
      { clear. induction l as [|[k v] l IH]; intros n H; [reflexivity|]. cbn [filter fst].
        assert (H' : forall k v, In (k, v) l -> dmem (fst (partition k)) (c_sig CSample) = true) by (intros k0 v0 X; exact (H k0 v0 (or_intror X))).
        destruct (dmem k (c_sig CSample)) eqn:Mk; cbn [negb].
        - rewrite IH by exact H'. change (collect ((k, v) :: l) n) with (collect l (group n (k, v))). unfold group. cbn [fst]. apply sample_plain, plain_partition in Mk. now rewrite Mk.
        - unfold collect. cbn [fold_left]. apply IH. exact H'. }
      apply X. intros k v Hin. now apply (Php k v). }
    assert (Rk : forall k v, In (k, v) rest -> In (k, v) p) by (intros k v Hin; unfold rest in Hin; now apply filter_In in Hin).
    unfold Params_Model.construct. rewrite Rp. rewrite rename_known by (intros k Hk; apply dget_keys in Hk; destruct Hk as (v & Hk); apply dget_in in Hk; exact (Kh _ _ Hk)).
    rewrite Own1, Own2, Rest2. fold rest. cbn [c_kwargs negb andb].
    rewrite build_sample.
    2:{ rewrite dget_owns. destruct (partition "regressor") as [x [y|]]; [reflexivity|]. destruct (dget "regressor" p) as [u|] eqn:Eu; [destruct (Ps _ _ Eu); congruence|reflexivity]. }
    2:{ rewrite dget_owns. destruct (partition "sinusoidal") as [x [y|]]; [reflexivity|]. destruct (dget "sinusoidal" p) as [u|] eqn:Eu; [destruct (Ps _ _ Eu); congruence|reflexivity]. }
    set (b := List.length w). set (w1 := w ++ sample_objects default_window b (owns p)).
    assert (Vo : forall k v, dget k (owns p) = Some v -> as_estimator w1 v = None).
    { intros k v Hv. apply no_object_est. rewrite dget_owns in Hv. destruct (partition k) as [x [y|]]; [discriminate|]. apply P1 in Hv.
      destruct Hv as (k0 & Hv & _). apply dget_in in Hv. exact (No _ _ Hv). }
    pose proof (deep_sample default_window window_value w (owns p) Vo d) as D. fold b w1 in D.
    pose proof (at0 default_window w (owns p)) as A0. pose proof (at3 default_window w (owns p)) as A3. cbv zeta in A0, A3. fold b w1 in A0, A3.
    assert (E : set_params (4 + d) b rest w1 = set_params (4 + d) b (flatten N') w1); [|now rewrite E].
    apply (set_params_groups default_window construct_tracker (3 + d) b rest (flatten N') w1 f).
    + rewrite (proj1 A0). apply rename_known. intros k Hk. apply dget_keys in Hk. destruct Hk as (v & Hk). apply dget_in in Hk. exact (proj1 (Php _ _ (Rk _ _ Hk))).
    + rewrite (proj1 A0). apply rename_known. intros k Hk. apply in_map_iff in Hk. destruct Hk as ([k' v] & <- & Hk). apply (Kh k' v). unfold kwargs'. apply in_app_iff. now right.
    + now apply dwf_filter.
    + rewrite (proj1 A0). intros k v Hin. exact (Php _ _ (Rk _ _ Hin)).
    + rewrite Or, Cr. reflexivity.
    + rewrite Cr. exact Hf.
    + rewrite Or, Cr. intros valid Ev. destruct (get_params_ok (3 + d) w1 b D) as (ps & E0 & _ & G0). rewrite Ev in E0. injection E0 as <-. split.
      * intros a Ha. rewrite dmem_dget, G0. change (3 + d)%nat with (S (2 + d)) in D |- *. destruct (D a Ha) as (Pa & v & Eav & _). cbn [pget]. rewrite (plain_partition a Pa).
        apply dmem_keys in Ha. now rewrite Ha, Eav.
      * intros a t w' j Hin G Ej Es. unfold f. destruct (String.eqb_spec a "sinusoidal") as [->|]; [|reflexivity].
        destruct (Ne _ _ Hin eq_refl) as (-> & _). cbn [dupdate fold_left] in Ej.
        rewrite G0 in Ej. change (3 + d)%nat with (S (2 + d)) in Ej. cbn [pget partition Ascii.eqb Bool.eqb] in Ej. rewrite (proj1 A0) in Ej. change (dmem "sinusoidal" (c_sig CSample)) with true in Ej. cbn iota in Ej.
        rewrite (proj2 A0) in Ej. cbn [dget String.eqb Ascii.eqb Bool.eqb] in Ej. injection Ej as <-.
        assert (Cj : class_of w' (b + 3) = CModal).
        { destruct G as (_ & G). rewrite G; [exact (proj1 A3)|]. apply est_lt. now rewrite (proj1 A3). }
        change (3 + d)%nat with (S (2 + d)). cbn [Params_Model.set_params]. rewrite Cj, Rs, Ks'. reflexivity.
Qed.
End Call.

(** ** The remapper of the optimizer *)
Lemma dget_new_names : forall kwargs k v, dwf (new_names kwargs) ->
  (dget k (new_names kwargs) = Some v <-> exists k0, dget k0 kwargs = Some v /\ new_name k0 = k).
Proof.
  intros kwargs k v W. split.
  - intro H. apply dget_in in H. unfold new_names in H. apply in_map_iff in H. destruct H as ([k0 u] & E & H).
    cbn [fst snd] in E. injection E as <- <-. exists k0. split; [|reflexivity]. apply in_dget; [now apply dwf_new_names|exact H].
  - intros (k0 & H & <-). apply in_dget; [exact W|]. apply dget_in in H. unfold new_names. apply in_map_iff.
    exists (k0, v). auto.
Qed.
Lemma NoDup_map_inj : forall A B (f : A -> B) l, NoDup l -> (forall x y, In x l -> In y l -> f x = f y -> x = y) -> NoDup (map f l).
Proof.
  intros A B f l N. induction N as [|x l H N IH]; intro I; [constructor|]. cbn [map]. constructor.
  - intro X. apply in_map_iff in X. destruct X as (y & E & Hy). apply H. rewrite (I x y); [exact Hy|now left|now right|now symmetry].
  - apply IH. intros y z Hy Hz. apply I; now right.
Qed.
Lemma dwf_names_intro : forall kwargs, dwf kwargs ->
  (forall k k' v v', dget k kwargs = Some v -> dget k' kwargs = Some v' -> new_name k = new_name k' -> k = k') -> dwf (new_names kwargs).
Proof.
  intros kwargs W I. unfold dwf, dkeys, new_names. rewrite map_map. cbn [fst]. rewrite <- (map_map fst new_name).
  apply NoDup_map_inj; [exact W|]. intros x y Hx Hy. change (map fst kwargs) with (dkeys kwargs) in Hx, Hy.
  apply dget_keys in Hx, Hy. destruct Hx as (u & Hu), Hy as (v & Hv). intro E. exact (I x y u v Hu Hv E).
Qed.
Lemma new_name_inv : forall k r, ~ In r (map snd old_names) -> new_name k = ("sinusoidal__" ++ r)%string ->
  k = ("sinusoidal__" ++ r)%string \/ k = ("sinusoidal_model__" ++ r)%string.
Proof.
  intros k r Hr E. unfold new_name in E.
  assert (E1 : new_model k = ("sinusoidal__" ++ r)%string).
  { set (k1 := new_model k) in *. clearbody k1. unfold new_inner in E.
    destruct (String.prefix "sinusoidal__" k1) eqn:P; [|exact E]. apply prefix_spec in P. destruct P as (s & ->).
    rewrite drop12 in E. apply append_inj_l in E. f_equal. unfold new_param in E.
    destruct (dget s old_names) as [n|] eqn:D; [|exact E]. subst n. exfalso. apply Hr. apply dget_in in D.
    apply in_map_iff. exists (s, r). auto. }
  unfold new_model in E1. destruct (String.prefix "sinusoidal_model" k) eqn:P; [|now left].
  apply prefix_spec in P. destruct P as (s & ->). rewrite drop16 in E1. right.
  change ("sinusoidal__" ++ r)%string with ("sinusoidal" ++ ("__" ++ r))%string in E1. apply append_inj_l in E1. subst s. reflexivity.
Qed.

Definition remap_new (k : string) : string :=
  match dget k remap_table with Some n => n | None => k end.
Lemma new_name_remap : forall k, new_name (remap_new k) = new_name k.
Proof.
  intro k. unfold remap_new. destruct (dget k remap_table) as [n|] eqn:E; [|reflexivity]. apply dget_in in E.
  cbn in E. decompose [or] E; try contradiction; match goal with H : _ = (_, _) |- _ => injection H as <- <- end; reflexivity.
Qed.
Lemma renamed_spec : forall kwargs k v, dwf (new_names kwargs) ->
  (renamed_get remap_table kwargs k = Some v <-> exists k0, dget k0 kwargs = Some v /\ remap_new k0 = k).
Proof.
  intros kwargs k v W. unfold renamed_get. split.
  - destruct (existsb _ remap_table) eqn:X; [discriminate|].
    assert (Nk : remap_new k = k).
    { unfold remap_new. destruct (dget k remap_table) as [n|] eqn:E; [|reflexivity]. apply dget_in in E.
      exfalso. apply not_true_iff_false in X. apply X. apply existsb_exists. exists (k, n). split; [exact E|]. apply String.eqb_refl. }
    destruct (find _ remap_table) as [[o n]|] eqn:F.
    + apply find_some in F. destruct F as (I & F). cbn [snd] in F. apply String.eqb_eq in F. subst n.
      destruct (dget o kwargs) as [u|] eqn:Eo; [|now exists k; split]. intros [= ->]. exists o. split; [exact Eo|].
      unfold remap_new. rewrite (in_dget _ o k remap_table); [reflexivity| |exact I]. clear. cbn. repeat constructor; cbn; intuition discriminate.
    + intro E. now exists k; split.
  - intros (k0 & E & <-). unfold remap_new. destruct (dget k0 remap_table) as [n|] eqn:D.
    + apply dget_in in D. cbn in D. decompose [or] D; try contradiction;
        match goal with H : _ = (_, _) |- _ => injection H as <- <- end;
        cbn [existsb find remap_table fst snd String.eqb Ascii.eqb Bool.eqb orb]; now rewrite E.
    + assert (X : existsb (fun p : string * string => String.eqb (fst p) k0) remap_table = false).
      { apply not_true_iff_false. intro X. apply existsb_exists in X. destruct X as ([a b] & I & Y). cbn [fst] in Y.
        apply String.eqb_eq in Y. subst a. apply dget_none in D. apply D. apply in_map_iff. exists (k0, b). auto. }
      rewrite X. destruct (find _ remap_table) as [[o n]|] eqn:F; [|exact E].
      apply find_some in F. destruct F as (I & F). cbn [snd] in F. apply String.eqb_eq in F. subst n.
      destruct (dget o kwargs) as [u|] eqn:Eo; [|exact E]. exfalso.
      assert (No : new_name o = new_name k0).
      { cbn in I. decompose [or] I; try contradiction; match goal with H : _ = (_, _) |- _ => injection H as <- <- end; reflexivity. }
      destruct (new_names_inj kwargs o k0 u v W Eo E No) as (-> & _).
      apply dget_none in D. apply D. apply in_map_iff. exists (k0, k0). auto.
Qed.

Definition stft_keys : list string := ["sinusoidal__n"; "sinusoidal__w"; "sinusoidal__tracker__h"].

Section OldRemap.
Variable default_window : val.
Variable construct_tracker : val -> outcome val.
Variable get_window : val -> Z -> outcome val.
Hypothesis window_value : forall w, as_estimator w default_window = None.
Variable e : nat.
Local Notation leaf k := (In k (dkeys (sample_leaves default_window))).

Definition old_kwargs (kwargs : dict val) : Prop :=
  dwf (new_names kwargs) /\
  forall k v, In (k, v) kwargs -> leaf (new_name k) /\ no_object v /\ (In (new_name k) stft_keys -> new_name k = k).

Lemma sample_attr_old : forall kwargs a w v, old_kwargs kwargs -> In (a, v) [("n", VInt 2048); ("w", default_window)] ->
  exists t, sample_attr default_window construct_tracker (4 + e) kwargs a w =
    (w ++ t, Ret (match dget ("sinusoidal__" ++ a)%string (new_names kwargs) with
                  | Some v => stored_leaf default_window ("sinusoidal__" ++ a)%string v | None => v end)).
Proof.
  intros kwargs a w v (W & L) Ha.
  destruct (old_call default_window construct_tracker window_value kwargs W) as (kw & Wk & G & _ & C).
  { intros k u Hin. exact (proj1 (L k u Hin)). }
  rewrite <- G.
  destruct (sample_attr_leaf default_window construct_tracker get_window window_value e kw a w v) as (t & E); [|exact Ha|].
  - split; [exact Wk|]. intros k u Hin. apply in_dget in Hin; [|exact Wk]. rewrite G in Hin. apply dget_new_names in Hin; [|exact W].
    destruct Hin as (k0 & Hin & <-). apply dget_in in Hin. destruct (L _ _ Hin) as (A & B & _). auto.
  - exists t. rewrite <- E. unfold sample_attr. rewrite C; [reflexivity|]. intros k u Hin. exact (proj1 (proj2 (L k u Hin))).
Qed.

Lemma old_kwargs_set : forall kwargs k v, old_kwargs kwargs -> leaf k -> new_name k = k -> no_object v ->
  dget k (new_names kwargs) = None -> In k stft_keys ->
  old_kwargs (dset k v kwargs) /\
  forall k', dget k' (new_names (dset k v kwargs)) = if String.eqb k' k then Some v else dget k' (new_names kwargs).
Proof.
  intros kwargs k v (W & L) Hk Nk Hv D Hs.
  assert (A : dget k kwargs = None).
  { destruct (dget k kwargs) as [u|] eqn:E; [|reflexivity]. assert (X : dget k (new_names kwargs) = Some u); [|congruence].
    apply dget_new_names; [exact W|]. now exists k. }
  assert (E : new_names (dset k v kwargs) = new_names kwargs ++ [(k, v)]).
  { rewrite dset_absent by exact A. unfold new_names. rewrite map_app. cbn [map fst snd]. now rewrite Nk. }
  split.
  - split.
    + rewrite E. unfold dwf, dkeys. rewrite map_app. apply NoDup_app_intro; [exact W| |].
      * repeat constructor. intros [].
      * intros x Hx [<-|[]]. cbn [fst] in *. apply dget_none in D. exact (D Hx).
    + intros k' v' Hin. rewrite dset_absent in Hin by exact A. apply in_app_iff in Hin. destruct Hin as [Hin|[[= <- <-]|[]]]; [now apply L|].
      rewrite Nk. auto.
  - intro k'. rewrite E, dget_append. cbn [dget]. rewrite (String.eqb_sym k' k). destruct (String.eqb_spec k k') as [<-|].
    + now rewrite D.
    + destruct (dget k' (new_names kwargs)); reflexivity.
Qed.
Lemma old_literal : forall kwargs k, old_kwargs kwargs -> In k stft_keys -> dget k kwargs = dget k (new_names kwargs).
Proof.
  intros kwargs k (W & L) Hk. assert (Nk : new_name k = k) by (cbn in Hk; decompose [or] Hk; subst; try contradiction; reflexivity).
  destruct (dget k (new_names kwargs)) as [v|] eqn:E.
  - apply dget_new_names in E; [|exact W]. destruct E as (k0 & E & E0). pose proof (dget_in _ _ _ _ E) as I.
    destruct (L _ _ I) as (_ & _ & X). rewrite E0 in X. rewrite <- (X Hk) in E. exact E.
  - destruct (dget k kwargs) as [u|] eqn:Eu; [|reflexivity]. rewrite <- E. symmetry. apply dget_new_names; [exact W|]. now exists k.
Qed.

Lemma remap_old1 : forall kwargs n win h, dwf (new_names kwargs) ->
  (forall k, In k (map fst remap_table) -> dget k kwargs = None) ->
  (forall k v, In (k, v) kwargs -> In (new_name k) (dkeys (sample_leaves default_window) ++ remap_names) /\ no_object v /\
     (In (new_name k) stft_keys -> new_name k = k)) ->
  fft_size (new_names kwargs) n -> window get_window (new_names kwargs) n win ->
  hop (new_names kwargs) (stored_leaf default_window "sinusoidal__w" win) h ->
  exists out,
    (forall w, exists t, remapper default_window construct_tracker get_window (4 + e) [] kwargs w = (w ++ t, Ret out)) /\
    old_kwargs out /\
    forall k, dget k (new_names out) =
      if in_list k remap_names then None
      else if String.eqb k "sinusoidal__tracker__h" then Some h
      else if String.eqb k "sinusoidal__w" then Some win
      else if String.eqb k "sinusoidal__n" then
        match dget "sinusoidal__n" (new_names kwargs), keyword "sinusoidal__log_n" VNone (new_names kwargs) with
        | None, VNone => None | _, _ => Some (VInt n) end
      else dget k (new_names kwargs).
Proof.
  intros kwargs n win h W Ab L Hn Hw Hh. set (names := new_names kwargs) in *.
  assert (Key : forall k, In k remap_names -> dget k kwargs = dget k names).
  { intros k Hk. assert (Nk : new_name k = k) by (cbn in Hk; decompose [or] Hk; subst; try contradiction; reflexivity).
    unfold names. destruct (dget k (new_names kwargs)) as [v|] eqn:E.
    - apply dget_new_names in E; [|exact W]. destruct E as (k0 & E & E0).
      assert (X : k0 = k \/ In k0 (map fst remap_table)).
      { clear - Hk E0. cbn in Hk.
        decompose [or] Hk; subst k; try contradiction;
          [destruct (new_name_inv k0 "log_n") as [->| ->]|destruct (new_name_inv k0 "wtype") as [->| ->]
          |destruct (new_name_inv k0 "wsize") as [->| ->]|destruct (new_name_inv k0 "overlap") as [->| ->]];
          try (symmetry; assumption); try (clear; cbn; intuition discriminate); cbn; tauto. }
      destruct X as [->|X]; [exact E|]. rewrite (Ab _ X) in E. discriminate.
    - destruct (dget k kwargs) as [u|] eqn:Eu; [|reflexivity]. rewrite <- E. symmetry. apply dget_new_names; [exact W|]. now exists k. }
  unfold remapper. rewrite (rename_none [] kwargs Ab), bind_remap. cbn [nth]. unfold remap_body.
  assert (Kw : forall k def, In k remap_names -> keyword k def kwargs = keyword k def names).
  { intros k def Hk. unfold keyword. now rewrite (Key k Hk). }
  rewrite !Kw by (cbn; tauto).
  set (r := remap_rest kwargs).
  pose proof (dwf_new_names kwargs W) as Wk.
  assert (Rk : forall k v, dget k r = Some v -> dget k kwargs = Some v /\ in_list k remap_names = false).
  { intros k v Hk. unfold r in Hk. rewrite dget_rest in Hk. destruct (in_list k remap_names); [discriminate|auto]. }
  assert (Wr : dwf (new_names r)).
  { apply dwf_names_intro; [now apply dwf_rest|]. intros k k' v v' Hk Hk' E. apply Rk in Hk, Hk'.
    exact (proj1 (new_names_inj kwargs k k' v v' W (proj1 Hk) (proj1 Hk') E)). }
  assert (Im : forall k v, dget k kwargs = Some v -> In (new_name k) remap_names -> In k remap_names).
  { intros k v E Hk.
    assert (X : k = new_name k \/ In k (map fst remap_table)).
    { clear - Hk. cbn in Hk.
      decompose [or] Hk; try contradiction;
        match goal with H : _ = new_name k |- _ => rewrite <- H; symmetry in H end;
        [destruct (new_name_inv k "log_n") as [->| ->]|destruct (new_name_inv k "wtype") as [->| ->]
        |destruct (new_name_inv k "wsize") as [->| ->]|destruct (new_name_inv k "overlap") as [->| ->]];
        try assumption; try (clear; cbn; intuition discriminate); cbn; tauto. }
    destruct X as [->|X]; [exact Hk|]. rewrite (Ab _ X) in E. discriminate. }
  assert (Gr : forall k, dget k (new_names r) = if in_list k remap_names then None else dget k names).
  { intro k. destruct (in_list k remap_names) eqn:I.
    - destruct (dget k (new_names r)) as [v|] eqn:E; [|reflexivity]. exfalso. apply dget_new_names in E; [|exact Wr].
      destruct E as (k0 & E & <-). apply Rk in E. destruct E as (E & N). apply in_list_spec in I.
      pose proof (Im _ _ E I) as X. apply in_list_spec in X. congruence.
    - revert k I. assert (X : forall k v, in_list k remap_names = false -> (dget k (new_names r) = Some v <-> dget k names = Some v)).
      { intros k v I. unfold names. rewrite !dget_new_names by assumption. split; intros (k0 & E & <-); exists k0; (split; [|reflexivity]).
        - now apply Rk in E.
        - unfold r. rewrite dget_rest. destruct (in_list k0 remap_names) eqn:J; [|exact E]. apply in_list_spec in J.
          assert (Y : In (new_name k0) remap_names).
          { clear - J. cbn in J. decompose [or] J; subst; try contradiction; cbn; tauto. }
          apply in_list_spec in Y. congruence. }
      intros k I. destruct (dget k names) as [v|] eqn:E; [now apply X|].
      destruct (dget k (new_names r)) as [v|] eqn:E'; [|reflexivity]. apply X in E'; [congruence|exact I]. }
  assert (Sr : old_kwargs r).
  { split; [exact Wr|]. intros k v Hin. apply in_dget in Hin; [|now apply dwf_rest]. apply Rk in Hin. destruct Hin as (Hin & I).
    destruct (L k v (dget_in _ _ _ _ Hin)) as (A & B & C). split; [|split; [exact B|exact C]].
    apply in_app_iff in A. destruct A as [A|A]; [exact A|]. pose proof (Im _ _ Hin A) as Y. apply in_list_spec in Y. congruence. }
  (* the size of the transform *)
  assert (N1 : exists r1, remap_n (keyword "sinusoidal__log_n" VNone names) r = Ret r1 /\ old_kwargs r1 /\
             (forall k, k <> "sinusoidal__n" -> dget k (new_names r1) = dget k (new_names r)) /\
             dget "sinusoidal__n" (new_names r1) = match dget "sinusoidal__n" names, keyword "sinusoidal__log_n" VNone names with
               | None, VNone => None | _, _ => Some (VInt n) end /\
             match dget "sinusoidal__n" (new_names r1) with Some v => stored_leaf default_window "sinusoidal__n" v | None => VInt 2048 end = VInt n).
  { pose proof (Gr "sinusoidal__n") as Gn. change (in_list "sinusoidal__n" remap_names) with false in Gn. cbn iota in Gn.
    unfold fft_size in Hn. unfold remap_n. rewrite dmem_dget, (old_literal r "sinusoidal__n" Sr) by (cbn; tauto). rewrite Gn. unfold keyword.
    destruct (dget "sinusoidal__n" names) as [v|] eqn:En.
    - subst v. exists r. rewrite Gn. split; [now destruct (dget "sinusoidal__log_n" names) as [[]|]|].
      split; [exact Sr|]. split; [reflexivity|]. split; reflexivity.
    - destruct (dget "sinusoidal__log_n" names) as [[| |z| | | | |]|]; try contradiction.
      + subst n. exists r. rewrite Gn. split; [reflexivity|]. split; [exact Sr|]. split; [reflexivity|]. split; reflexivity.
      + destruct Hn as (Z0 & ->). cbn [shift_one]. destruct (Z.ltb_spec z 0); [lia|].
        destruct (old_kwargs_set r "sinusoidal__n" (VInt (2 ^ z)) Sr) as (S1 & G1); [cbn; tauto|reflexivity|intros i X; discriminate|exact Gn|cbn; tauto|].
        exists (dset "sinusoidal__n" (VInt (2 ^ z)) r). split; [reflexivity|]. split; [exact S1|].
        split; [intros k Hk; rewrite G1; destruct (String.eqb_spec k "sinusoidal__n"); congruence|].
        rewrite G1, String.eqb_refl. split; reflexivity.
      + subst n. exists r. rewrite Gn. split; [reflexivity|]. split; [exact Sr|]. split; [reflexivity|]. split; reflexivity. }
  destruct N1 as (r1 & E1 & S1 & G1 & N1 & V1). rewrite E1.
  (* the window *)
  assert (W2 : exists r2, (forall w, exists t2, remap_w default_window construct_tracker get_window (4 + e)
               (keyword "sinusoidal__wtype" (VStr "hamming") names) (keyword "sinusoidal__wsize" (VNum 1) names) r1 w
               = (w ++ t2, Ret r2)) /\ old_kwargs r2 /\
               (forall k, k <> "sinusoidal__w" -> dget k (new_names r2) = dget k (new_names r1)) /\
               dget "sinusoidal__w" (new_names r2) = Some win).
  { assert (Gw : dget "sinusoidal__w" (new_names r1) = dget "sinusoidal__w" names).
    { rewrite G1 by discriminate. rewrite Gr. reflexivity. }
    unfold remap_w. rewrite dmem_dget, (old_literal r1 "sinusoidal__w" S1) by (cbn; tauto). rewrite Gw. unfold window in Hw.
    destruct (dget "sinusoidal__w" names) as [v|] eqn:Ew.
    - subst v. exists r1. split; [intro w; exists []; now rewrite app_nil_r|]. split; [exact S1|]. split; [reflexivity|exact Gw].
    - destruct Hw as (q & size & Hq & Ht & Hg & Ho).
      destruct (old_kwargs_set r1 "sinusoidal__w" win S1) as (S2 & G2); [cbn; tauto|reflexivity|exact Ho|exact Gw|cbn; tauto|].
      exists (dset "sinusoidal__w" win r1). split.
      { intro w. destruct (sample_attr_old r1 "n" w (VInt 2048) S1 ltac:(cbn; tauto)) as (t2 & E2).
        cbn [append] in E2. rewrite V1 in E2. rewrite E2. unfold int_product. cbn [as_num]. rewrite Hq.
        rewrite (truncates_unique default_window construct_tracker get_window _ _ _ (py_int_truncates _) Ht), Hg. eauto. }
      split; [exact S2|].
      split; [intros k Hk; rewrite G2; destruct (String.eqb_spec k "sinusoidal__w"); congruence|].
      now rewrite G2, String.eqb_refl. }
  destruct W2 as (r2 & E2 & S2 & G2 & V2).
  (* the hop *)
  assert (Gh : dget "sinusoidal__tracker__h" (new_names r2) = dget "sinusoidal__tracker__h" names).
  { rewrite G2, G1 by discriminate. rewrite Gr. reflexivity. }
  assert (H3 : exists r3, (forall w, exists t3, remap_h default_window construct_tracker (4 + e)
               (keyword "sinusoidal__overlap" (VNum (1 # 2)) names) r2 w = (w ++ t3, Ret r3)) /\
               old_kwargs r3 /\ (forall k, k <> "sinusoidal__tracker__h" -> dget k (new_names r3) = dget k (new_names r2)) /\
               dget "sinusoidal__tracker__h" (new_names r3) = Some h).
  { unfold remap_h. rewrite dmem_dget, (old_literal r2 "sinusoidal__tracker__h" S2) by (cbn; tauto). rewrite Gh. unfold hop in Hh.
    destruct (dget "sinusoidal__tracker__h" names) as [v|] eqn:Eh.
    - subst v. exists r2. split; [intro w; exists []; now rewrite app_nil_r|]. split; [exact S2|]. split; [reflexivity|exact Gh].
    - destruct Hh as (q & z & Hq & Ht & ->).
      match goal with |- context [VInt (Z.max ?x 1)] => set (hh := VInt (Z.max x 1)) end.
      destruct (old_kwargs_set r2 "sinusoidal__tracker__h" hh S2) as (S3 & G3); [cbn; tauto|reflexivity|intros i X; discriminate|exact Gh|cbn; tauto|].
      exists (dset "sinusoidal__tracker__h" hh r2). split.
      { intro w. destruct (sample_attr_old r2 "w" w default_window S2 ltac:(cbn; tauto)) as (t3 & E3).
        cbn [append] in E3. rewrite V2 in E3. rewrite E3. unfold one_minus. rewrite Hq. unfold int_product. cbn [as_num].
        rewrite (truncates_unique default_window construct_tracker get_window _ _ _ (py_int_truncates _) Ht). eauto. }
      split; [exact S3|].
      split; [intros k Hk; rewrite G3; destruct (String.eqb_spec k "sinusoidal__tracker__h"); congruence|].
      now rewrite G3, String.eqb_refl. }
  destruct H3 as (r3 & E3 & S3 & G3 & V3). exists r3. split.
  { intro w. destruct (E2 w) as (t2 & ->). destruct (E3 (w ++ t2)) as (t3 & E). exists (t2 ++ t3). rewrite app_assoc. exact E. }
  split; [exact S3|]. intro k.
  destruct (String.eqb_spec k "sinusoidal__tracker__h") as [->|Kh]; [exact V3|].
  destruct (String.eqb_spec k "sinusoidal__w") as [->|Kw']; [rewrite G3 by discriminate; exact V2|].
  destruct (String.eqb_spec k "sinusoidal__n") as [->|Kn]; [rewrite G3, G2 by discriminate; exact N1|].
  rewrite G3, G2, G1 by assumption. apply Gr.
Qed.

Lemma fft_size_ext : forall a b n, (forall k, dget k a = dget k b) -> fft_size a n -> fft_size b n.
Proof. intros a b n E. unfold fft_size. now rewrite !E. Qed.
Lemma window_ext : forall a b n win, (forall k, dget k a = dget k b) -> window get_window a n win -> window get_window b n win.
Proof. intros a b n win E. unfold window, keyword. now rewrite !E. Qed.
Lemma hop_ext : forall a b win h, (forall k, dget k a = dget k b) -> hop a win h -> hop b win h.
Proof. intros a b win h E. unfold hop, keyword. now rewrite !E. Qed.

Lemma remap_old : forall kwargs n win h, dwf (new_names kwargs) ->
  (forall k v, In (k, v) kwargs -> In (new_name k) (dkeys (sample_leaves default_window) ++ remap_names) /\ no_object v /\
     (In (new_name k) stft_keys -> new_name k = k)) ->
  fft_size (new_names kwargs) n -> window get_window (new_names kwargs) n win ->
  hop (new_names kwargs) (stored_leaf default_window "sinusoidal__w" win) h ->
  exists out,
    (forall w, exists t, remapper default_window construct_tracker get_window (4 + e) [] kwargs w = (w ++ t, Ret out)) /\
    old_kwargs out /\
    forall k, dget k (new_names out) =
      if in_list k remap_names then None
      else if String.eqb k "sinusoidal__tracker__h" then Some h
      else if String.eqb k "sinusoidal__w" then Some win
      else if String.eqb k "sinusoidal__n" then
        match dget "sinusoidal__n" (new_names kwargs), keyword "sinusoidal__log_n" VNone (new_names kwargs) with
        | None, VNone => None | _, _ => Some (VInt n) end
      else dget k (new_names kwargs).
Proof.
  intros kwargs n win h W L Hn Hw Hh.
  destruct (rename_remap kwargs) as (kw & Er & Wk & G). specialize (Wk (dwf_new_names kwargs W)).
  assert (S : forall k v, dget k kw = Some v <-> exists k0, dget k0 kwargs = Some v /\ remap_new k0 = k).
  { intros k v. rewrite G. now apply renamed_spec. }
  assert (W1 : dwf (new_names kw)).
  { apply dwf_names_intro; [exact Wk|]. intros k k' v v' Hk Hk' E. apply S in Hk, Hk'.
    destruct Hk as (a & Ha & <-), Hk' as (b & Hb & <-). rewrite !new_name_remap in E.
    now rewrite (proj1 (new_names_inj kwargs a b v v' W Ha Hb E)). }
  assert (En : forall k, dget k (new_names kwargs) = dget k (new_names kw)).
  { apply dget_ext. intros k v. rewrite !dget_new_names by assumption. split.
    - intros (k0 & E & <-). exists (remap_new k0). split; [apply S; eauto|apply new_name_remap].
    - intros (k1 & E & <-). apply S in E. destruct E as (k0 & E & <-). exists k0. split; [exact E|now rewrite new_name_remap]. }
  assert (Ab : forall k, In k (map fst remap_table) -> dget k kw = None).
  { intros k Hk. rewrite G. unfold renamed_get. destruct (existsb _ remap_table) eqn:X; [reflexivity|].
    apply not_true_iff_false in X. exfalso. apply X. apply existsb_exists. apply in_map_iff in Hk. destruct Hk as (p & <- & Hp).
    exists p. split; [exact Hp|apply String.eqb_refl]. }
  destruct (remap_old1 kw n win h W1 Ab) as (out & Ro & Oo & Go).
  - intros k v Hin. apply in_dget in Hin; [|exact Wk]. apply S in Hin. destruct Hin as (k0 & Hin & <-). apply dget_in in Hin.
    destruct (L _ _ Hin) as (A & B & C). rewrite new_name_remap. split; [exact A|]. split; [exact B|]. intro X.
    unfold remap_new. destruct (dget k0 remap_table) as [m|] eqn:D; [|now apply C].
    exfalso. apply dget_in in D. clear - D X. cbn in D.
    decompose [or] D; try contradiction; match goal with H : _ = (_, _) |- _ => injection H as <- <- end; cbn in X; intuition discriminate.
  - exact (fft_size_ext _ _ _ En Hn).
  - exact (window_ext _ _ _ _ En Hw).
  - exact (hop_ext _ _ _ _ En Hh).
  - exists out. split.
    { intro w. destruct (Ro w) as (t & E). exists t. rewrite <- E. unfold remapper. rewrite Er. now rewrite (rename_none [] kw Ab). }
    split; [exact Oo|]. intro k. rewrite Go. unfold keyword. now rewrite !En.
Qed.
End OldRemap.
