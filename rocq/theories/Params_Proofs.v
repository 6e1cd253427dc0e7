(** Lemmas about the parameters of estimators. *)
From Coq Require Import String Ascii List Bool ZArith QArith Lia.
Import ListNotations.
From Verif Require Import Base Py Dict ListLemmas Utils_Model Params_Model.
Local Open Scope string_scope.
Local Open Scope list_scope.

(** ** Names *)

(** A name that [partition] does not split, also when something is appended. *)
Definition plain (k : string) : Prop := partition (k ++ "__")%string = (k, Some "").

Lemma partition_cons : forall a s, partition (String a s) =
  match (if Ascii.eqb a "_" then s else "") with
  | String b s'' => if Ascii.eqb b "_" then ("", Some s'') else let '(k, r) := partition s in (String a k, r)
  | _ => let '(k, r) := partition s in (String a k, r)
  end.
Proof. reflexivity. Qed.

Lemma plain_partition_sub : forall k s, plain k -> partition (k ++ "__" ++ s)%string = (k, Some s).
Proof.
  unfold plain. induction k as [|a k IH]; intros s H; [reflexivity|].
  cbn [append] in *. rewrite partition_cons in *. destruct (Ascii.eqb a "_") eqn:A.
  - destruct k as [|b k]; cbn [append] in *.
    + cbn in H. discriminate H.
    + destruct (Ascii.eqb b "_") eqn:B; [discriminate H|].
      destruct (partition (String b (k ++ "__"))) as [k' r] eqn:E. injection H as -> ->.
      specialize (IH s eq_refl). now rewrite IH.
  - destruct (partition (k ++ "__")) as [k' r] eqn:E. injection H as -> ->. now rewrite (IH s).
Qed.

Lemma plain_partition : forall k, plain k -> partition k = (k, None).
Proof.
  unfold plain. induction k as [|a k IH]; intros H; [reflexivity|].
  cbn [append] in *. rewrite partition_cons in *. destruct (Ascii.eqb a "_") eqn:A.
  - destruct k as [|b k]; cbn [append] in *.
    + cbn in H. discriminate H.
    + destruct (Ascii.eqb b "_") eqn:B; [discriminate H|].
      destruct (partition (String b (k ++ "__"))) as [k' r] eqn:E. injection H as -> ->.
      specialize (IH eq_refl). now rewrite IH.
  - destruct (partition (k ++ "__")) as [k' r] eqn:E. injection H as -> ->. rewrite (IH eq_refl).
    now destruct k.
Qed.

Lemma partition_sub : forall s k r, partition s = (k, Some r) -> s = (k ++ "__" ++ r)%string.
Proof.
  induction s as [|a s IH]; intros k r H; [discriminate H|].
  rewrite partition_cons in H. destruct (Ascii.eqb a "_") eqn:A.
  - destruct s as [|b s].
    + discriminate H.
    + destruct (Ascii.eqb b "_") eqn:B.
      * injection H as <- <-. apply Ascii.eqb_eq in A, B. now subst.
      * destruct (partition (String b s)) as [k' r'] eqn:E. injection H as <- ->.
        cbn [append]. f_equal. exact (IH _ _ eq_refl).
  - destruct (partition s) as [k' r'] eqn:E. injection H as <- ->. cbn [append]. f_equal. exact (IH _ _ eq_refl).
Qed.
Lemma partition_none : forall s k, partition s = (k, None) -> s = k.
Proof.
  induction s as [|a s IH]; intros k H; [now injection H|].
  rewrite partition_cons in H. destruct (Ascii.eqb a "_") eqn:A.
  - destruct s as [|b s].
    + now injection H as <-.
    + destruct (Ascii.eqb b "_") eqn:B; [discriminate H|].
      destruct (partition (String b s)) as [k' r'] eqn:E. injection H as <- ->. f_equal. now apply IH.
  - destruct (partition s) as [k' r'] eqn:E. injection H as <- ->. f_equal. now apply IH.
Qed.

(** ** Lists of objects *)

Lemma nth_error_upd : forall A (l : list A) i j x,
  nth_error (upd i x l) j = if Nat.eqb i j then match nth_error l i with Some _ => Some x | None => None end
                            else nth_error l j.
Proof.
  induction l as [|a l IH]; intros [|i] [|j] x; simpl; try reflexivity.
  - now destruct (Nat.eqb i j).
  - apply IH.
Qed.
Lemma upd_length : forall A (l : list A) i x, List.length (upd i x l) = List.length l.
Proof. induction l as [|a l IH]; intros [|i] x; simpl; auto. Qed.

Lemma put_attr_length : forall w o k v, List.length (put_attr w o k v) = List.length w.
Proof. intros. unfold put_attr. destruct (nth_error w o) as [[c a]|]; [apply upd_length|reflexivity]. Qed.
Lemma class_put_attr : forall w o k v i, class_of (put_attr w o k v) i = class_of w i.
Proof.
  intros. unfold class_of, put_attr. destruct (nth_error w o) as [[c a]|] eqn:E; [|reflexivity].
  rewrite nth_error_upd, E. destruct (Nat.eqb_spec o i) as [->|]; [now rewrite E|reflexivity].
Qed.
Lemma attrs_put_attr : forall w o k v i, attrs_of (put_attr w o k v) i =
  if Nat.eqb o i && Nat.ltb o (List.length w) then dset k v (attrs_of w i) else attrs_of w i.
Proof.
  intros. unfold attrs_of, put_attr. destruct (nth_error w o) as [[c a]|] eqn:E.
  - rewrite nth_error_upd, E. assert (L : (o < List.length w)%nat) by (apply nth_error_Some; congruence).
    destruct (Nat.ltb_spec o (List.length w)); [|lia]. rewrite andb_true_r.
    destruct (Nat.eqb_spec o i) as [->|]; [now rewrite E|reflexivity].
  - apply nth_error_None in E. destruct (Nat.ltb_spec o (List.length w)); [lia|]. now rewrite andb_false_r.
Qed.
Lemma put_attr_other : forall w o k v i, i <> o -> nth_error (put_attr w o k v) i = nth_error w i.
Proof.
  intros. unfold put_attr. destruct (nth_error w o) as [[c a]|]; [|reflexivity].
  rewrite nth_error_upd. destruct (Nat.eqb_spec o i); [congruence|reflexivity].
Qed.

(** ** Lookup of a parameter *)

(** The value of the parameter called [k] of [o]. *)
Fixpoint pget (d : nat) (w : pworld) (o : nat) (k : string) : option val :=
  match d with
  | O => None
  | S d' =>
    let '(a, r) := partition k in
    if dmem a (c_sig (class_of w o)) then
      match dget a (attrs_of w o), r with
      | Some v, None => Some v
      | Some v, Some r => match as_estimator w v with Some i => pget d' w i r | None => None end
      | None, _ => None
      end
    else None
  end.

(** The parameters of [o] and of everything below are set, and nested at most
    [d] deep. *)
Fixpoint deep (d : nat) (w : pworld) (o : nat) : Prop :=
  match d with
  | O => False
  | S d' => forall k, In k (dkeys (c_sig (class_of w o))) -> plain k /\
      exists v, dget k (attrs_of w o) = Some v /\ forall i, as_estimator w v = Some i -> deep d' w i
  end.

Lemma dmem_keys : forall V k (d : dict V), dmem k d = true <-> In k (dkeys d).
Proof.
  intros. rewrite dmem_dget. split; intro H.
  - destruct (dget k d) as [v|] eqn:E; [|discriminate]. apply dget_keys. eauto.
  - apply dget_keys in H. destruct H as [v ->]. reflexivity.
Qed.

Definition sub_items (k : string) (sub : dict val) : dict val :=
  map (fun p => (k ++ "__" ++ fst p, snd p))%string sub.
Lemma append_inj_l : forall a b c, (a ++ b)%string = (a ++ c)%string -> b = c.
Proof. induction a as [|x a IH]; cbn [append]; intros b c H; [exact H|injection H as H; auto]. Qed.
Lemma sub_items_wf : forall k sub, dwf sub -> dwf (sub_items k sub).
Proof.
  intros k sub. unfold dwf, dkeys, sub_items. rewrite map_map. cbn [fst].
  induction sub as [|p sub IH]; intro W; [constructor|]. inversion_clear W as [|? ? N W'].
  simpl. constructor; [|auto]. intro H. apply N. apply in_map_iff in H. destruct H as (q & E & H).
  apply append_inj_l in E. cbn [append] in E. injection E as E. rewrite <- E. now apply in_map.
Qed.
Lemma dget_sub_items : forall k sub key, plain k ->
  dget key (sub_items k sub) =
  match partition key with
  | (a, Some r) => if String.eqb a k then dget r sub else None
  | (_, None) => None
  end.
Proof.
  intros k sub key P. induction sub as [|[r v] sub IH]; cbn [sub_items map dget fst snd].
  - destruct (partition key) as [a [r|]]; [|reflexivity]. now destruct (String.eqb a k).
  - destruct (String.eqb_spec (k ++ "__" ++ r) key) as [<-|N].
    + rewrite plain_partition_sub by exact P. rewrite String.eqb_refl. now rewrite String.eqb_refl.
    + fold (sub_items k sub). rewrite IH. destruct (partition key) as [a [r'|]] eqn:E; [|reflexivity].
      destruct (String.eqb_spec a k) as [->|]; [|reflexivity].
      destruct (String.eqb_spec r r') as [->|]; [|reflexivity].
      apply partition_sub in E. congruence.
Qed.

Definition get_step (d' : nat) (w : pworld) (o : nat) (deep : bool) (out : outcome (dict val)) (k : string) :=
  match out with
  | Raise e m => Raise e m
  | Ret out =>
    match dget k (attrs_of w o) with
    | None => Raise AttributeError k
    | Some v =>
      match (if deep then as_estimator w v else None) with
      | None => Ret (dset k v out)
      | Some i =>
        match get_params d' w i true with
        | Raise e m => Raise e m
        | Ret sub => Ret (dset k v (dupdate out (sub_items k sub)))
        end
      end
    end
  end.
Lemma get_params_step : forall d w o dp,
  get_params (S d) w o dp = fold_left (get_step d w o dp) (dkeys (c_sig (class_of w o))) (Ret []).
Proof. reflexivity. Qed.
Lemma get_step_raise : forall d w o dp e m l, fold_left (get_step d w o dp) l (Raise e m) = Raise e m.
Proof. induction l as [|k l IH]; [reflexivity|exact IH]. Qed.

Lemma dupdate_wf : forall V (e d : dict V), dwf d -> dwf (dupdate d e).
Proof.
  intros V e. unfold dupdate. induction e as [|[k v] e IH]; intros d W; [exact W|].
  cbn [fold_left]. apply IH. now apply dwf_dset.
Qed.

(** [get_params] returns exactly the parameters found by [pget]. *)
Lemma get_params_ok : forall d w o, deep d w o ->
  exists ps, get_params d w o true = Ret ps /\ dwf ps /\ forall k, dget k ps = pget d w o k.
Proof.
  induction d as [|d IH]; intros w o D; [destruct D|].
  rewrite get_params_step.
  assert (H : forall l out, (forall k, In k l -> In k (dkeys (c_sig (class_of w o)))) -> dwf out ->
    exists ps, fold_left (get_step d w o true) l (Ret out) = Ret ps /\ dwf ps /\
    forall k, dget k ps = if existsb (String.eqb (fst (partition k))) l
                          then match pget (S d) w o k with Some v => Some v | None => dget k out end
                          else dget k out).
  { induction l as [|a l IHl]; intros out Hl W.
    - exists out. split; [reflexivity|]. split; [exact W|]. reflexivity.
    - destruct (D a (Hl a (or_introl eq_refl))) as (P & v & Ev & Hv).
      assert (Hm : dmem a (c_sig (class_of w o)) = true) by (apply dmem_keys, Hl; now left).
      cbn [fold_left].
      destruct (as_estimator w v) as [i|] eqn:Ei.
      + destruct (IH w i (Hv i eq_refl)) as (sub & Es & Ws & Hs).
        assert (St : get_step d w o true (Ret out) a = Ret (dset a v (dupdate out (sub_items a sub)))).
        { unfold get_step. now rewrite Ev, Ei, Es. }
        rewrite St.
        pose proof (sub_items_wf a sub Ws) as Wi.
        destruct (IHl (dset a v (dupdate out (sub_items a sub)))) as (ps & E & Wp & Hp).
        * intros k Hk. apply Hl. now right.
        * apply dwf_dset, dupdate_wf, W.
        * exists ps. split; [exact E|]. split; [exact Wp|]. intro k. rewrite Hp.
          rewrite dget_dset, dget_dupdate by exact Wi. rewrite dget_sub_items by exact P.
          cbn [existsb pget]. destruct (partition k) as [b [r|]] eqn:Ek; cbn [fst].
          -- assert (Nk : String.eqb a k = false).
             { destruct (String.eqb_spec a k) as [->|]; [|reflexivity].
               rewrite (plain_partition _ P) in Ek. discriminate Ek. }
             rewrite Nk. destruct (String.eqb_spec b a) as [->|Nb]; cbn [orb].
             ++ rewrite Hm, Ev, Ei, Hs. destruct (pget d w i r); [now destruct (existsb _ l)|].
                now destruct (existsb _ l).
             ++ destruct (existsb _ l); reflexivity.
          -- apply partition_none in Ek. subst b. rewrite String.eqb_sym.
             destruct (String.eqb_spec k a) as [->|Nk]; cbn [orb].
             ++ rewrite Hm, Ev. now destruct (existsb _ l).
             ++ reflexivity.
      + assert (St : get_step d w o true (Ret out) a = Ret (dset a v out)).
        { unfold get_step. now rewrite Ev, Ei. }
        rewrite St. destruct (IHl (dset a v out)) as (ps & E & Wp & Hp).
        * intros k Hk. apply Hl. now right.
        * now apply dwf_dset.
        * exists ps. split; [exact E|]. split; [exact Wp|]. intro k. rewrite Hp, dget_dset.
          cbn [existsb pget]. destruct (partition k) as [b [r|]] eqn:Ek; cbn [fst].
          -- assert (Nk : String.eqb a k = false).
             { destruct (String.eqb_spec a k) as [->|]; [|reflexivity].
               rewrite (plain_partition _ P) in Ek. discriminate Ek. }
             rewrite Nk. destruct (String.eqb_spec b a) as [->|Nb]; cbn [orb]; [|reflexivity].
             rewrite Hm, Ev, Ei. now destruct (existsb _ l).
          -- apply partition_none in Ek. subst b. rewrite (String.eqb_sym a k).
             destruct (String.eqb_spec k a) as [->|Nk]; cbn [orb].
             ++ rewrite Hm, Ev. now destruct (existsb _ l).
             ++ reflexivity. }
  destruct (H (dkeys (c_sig (class_of w o))) [] (fun k Hk => Hk)) as (ps & E & W & Hp).
  { constructor. }
  exists ps. split; [exact E|]. split; [exact W|]. intro k. rewrite Hp. cbn [dget].
  destruct (existsb _ _) eqn:X.
  - now destruct (pget (S d) w o k).
  - cbn [pget]. destruct (partition k) as [a r]; cbn [fst] in X.
    destruct (dmem a (c_sig (class_of w o))) eqn:M; [|reflexivity].
    apply dmem_keys in M. exfalso. rewrite <- not_true_iff_false in X. apply X.
    apply existsb_exists. exists a. split; [exact M|apply String.eqb_refl].
Qed.

(** ** Objects below an object *)

Definition child (w : pworld) (i : nat) (a : string) : option nat :=
  match dget a (attrs_of w i) with Some v => as_estimator w v | None => None end.

(** The object and all estimators below it. *)
Fixpoint reach (d : nat) (w : pworld) (o : nat) : list nat :=
  match d with
  | O => []
  | S d' => o :: flat_map (fun a => match child w o a with Some i => reach d' w i | None => [] end)
                          (dkeys (c_sig (class_of w o)))
  end.

(** The same objects with the same estimators as parameters. *)
Definition same_shape (w w' : pworld) : Prop :=
  List.length w' = List.length w /\
  (forall i, class_of w' i = class_of w i) /\
  (forall i a, child w' i a = child w i a) /\
  (forall i a, dget a (attrs_of w i) <> None -> dget a (attrs_of w' i) <> None).

Lemma same_shape_refl : forall w, same_shape w w.
Proof. intro w. repeat split; auto. Qed.
Lemma same_shape_trans : forall u v w, same_shape u v -> same_shape v w -> same_shape u w.
Proof.
  intros u v w (A & B & C & D) (A' & B' & C' & D'). split; [congruence|].
  split; [intro; now rewrite B', B|]. split; [intros; now rewrite C', C|]. auto.
Qed.
Lemma as_estimator_class : forall w w' v, (forall i, class_of w' i = class_of w i) ->
  as_estimator w' v = as_estimator w v.
Proof. intros w w' v H. destruct v; cbn [as_estimator]; try reflexivity. now rewrite H. Qed.
Lemma same_shape_deep : forall d w w' o, same_shape w w' -> deep d w o -> deep d w' o.
Proof.
  induction d as [|d IH]; intros w w' o S D; [exact D|]. pose proof S as (A & B & C & E).
  intros k Hk. rewrite B in Hk. destruct (D k Hk) as (P & v & Ev & Hv). split; [exact P|].
  destruct (dget k (attrs_of w' o)) as [v'|] eqn:Ev'; [|exfalso; apply (E o k); congruence].
  exists v'. split; [reflexivity|]. intros i Hi. apply (IH w); [exact S|]. apply Hv.
  specialize (C o k). unfold child in C. rewrite Ev, Ev' in C. congruence.
Qed.
Lemma same_shape_reach : forall d w w' o, same_shape w w' -> reach d w' o = reach d w o.
Proof.
  induction d as [|d IH]; intros w w' o S; [reflexivity|]. pose proof S as (A & B & C & E).
  cbn [reach]. rewrite B. f_equal. apply flat_map_ext. intro a. rewrite C.
  destruct (child w o a); [now apply IH|reflexivity].
Qed.
Lemma same_shape_sym : forall w w', same_shape w w' ->
  (forall i a, dget a (attrs_of w' i) <> None -> dget a (attrs_of w i) <> None) -> same_shape w' w.
Proof. intros w w' (A & B & C & D) H. repeat split; auto. Qed.

Lemma reach_child : forall d w o a i, dmem a (c_sig (class_of w o)) = true -> child w o a = Some i ->
  forall j, In j (reach d w i) -> In j (reach (S d) w o).
Proof.
  intros d w o a i Ha Hi j Hj. cbn [reach]. right. apply in_flat_map. exists a.
  split; [now apply dmem_keys|]. now rewrite Hi.
Qed.

Lemma pget_agree : forall d w w' o, same_shape w w' ->
  (forall i, In i (reach d w o) -> nth_error w' i = nth_error w i) ->
  forall k, pget d w' o k = pget d w o k.
Proof.
  induction d as [|d IH]; intros w w' o S H k; [reflexivity|]. pose proof S as (A & B & C & E).
  cbn [pget]. destruct (partition k) as [a r]. rewrite B.
  destruct (dmem a (c_sig (class_of w o))) eqn:M; [|reflexivity].
  assert (Ho : attrs_of w' o = attrs_of w o).
  { unfold attrs_of. rewrite (H o); [reflexivity|]. now left. }
  rewrite Ho. destruct (dget a (attrs_of w o)) as [v|] eqn:Ev; [|reflexivity].
  destruct r as [r|]; [|reflexivity]. rewrite (as_estimator_class w w' v B).
  destruct (as_estimator w v) as [i|] eqn:Ei; [|reflexivity].
  apply IH; [exact S|]. intros j Hj. apply H. apply (reach_child d w o a i); auto.
  unfold child. now rewrite Ev.
Qed.

(** Where a parameter is: the class of the object and the name of its
    attribute. *)
Fixpoint owner (d : nat) (w : pworld) (o : nat) (k : string) : option (cls * string) :=
  match d with
  | O => None
  | S d' =>
    let '(a, r) := partition k in
    match r with
    | None => Some (class_of w o, a)
    | Some r => match child w o a with Some i => owner d' w i r | None => None end
    end
  end.
Lemma same_shape_owner : forall d w w' o k, same_shape w w' -> owner d w' o k = owner d w o k.
Proof.
  induction d as [|d IH]; intros w w' o k S; [reflexivity|]. pose proof S as (A & B & C & E).
  cbn [owner]. destruct (partition k) as [a [r|]]; [|now rewrite B]. rewrite C.
  destruct (child w o a); [now apply IH|reflexivity].
Qed.

Section SetLeaves.
Variable default_window : val.
Variable construct_tracker : val -> outcome val.
Hypothesis window_value : forall w, as_estimator w default_window = None.

(** What is stored when [v] is set. *)
Definition stored (p : option (cls * string)) (v : val) : val :=
  match p, v with
  | Some (c, a), VNone => match c_default c a with Some BWindow => default_window | _ => v end
  | _, _ => v
  end.
(** Setting [v] builds no object. *)
Definition builds_nothing (p : option (cls * string)) (v : val) : Prop :=
  v = VNone -> forall c a c', p = Some (c, a) -> c_default c a <> Some (BObj c').

(** Parameters with values that are not estimators, before and after. *)
Definition leaves (d : nat) (w : pworld) (o : nat) (kwargs : dict val) : Prop :=
  forall k v, In (k, v) kwargs ->
    (exists u, pget d w o k = Some u /\ as_estimator w u = None) /\
    as_estimator w v = None /\ builds_nothing (owner d w o k) v.

(** Deprecated names are no parameter names. *)
Lemma rename_plain : forall ds self kwargs,
  (forall d, In d ds -> dprefix d = false /\ dget (old_key d) kwargs = None) ->
  rename ds self kwargs = Ret kwargs.
Proof.
  induction ds as [|d ds IH]; intros self kwargs H; [reflexivity|].
  cbn [rename]. destruct (H d (or_introl eq_refl)) as (P & G).
  unfold key_map. rewrite P. cbn [depr_loop]. rewrite G. cbn [snd depr_loop]. apply IH.
  intros d' Hd. apply H. now right.
Qed.

Lemma key_known : forall c (kwargs : dict val), (forall k, In k (dkeys kwargs) -> dmem (fst (partition k)) (c_sig c) = true) ->
  forall k, dmem (fst (partition k)) (c_sig c) = false -> dget k kwargs = None.
Proof.
  intros c kwargs H k Hk. destruct (dget k kwargs) as [v|] eqn:E; [|reflexivity].
  rewrite (H k) in Hk; [discriminate|]. apply dget_keys. eauto.
Qed.

Lemma rename_known : forall c self (kwargs : dict val),
  (forall k, In k (dkeys kwargs) -> dmem (fst (partition k)) (c_sig c) = true) ->
  rename (c_deprecated construct_tracker c) self kwargs = Ret kwargs.
Proof.
  intros c self kwargs H. pose proof (key_known c kwargs H) as K. destruct c; try reflexivity.
  - (* prefix *)
    cbn [c_deprecated rename]. unfold key_map. cbn [dprefix sample_decorator].
    assert (F : filter (prefix (old_key sample_decorator)) (dkeys kwargs) = []).
    { change (old_key sample_decorator) with "sinusoidal_model".
      induction kwargs as [|[k v] kwargs IH]; [reflexivity|]. cbn [dkeys map fst filter].
      assert (P : prefix "sinusoidal_model" k = false).
      { specialize (H k (or_introl eq_refl)). destruct (partition k) as [a [r|]] eqn:E; cbn [fst] in H.
        - apply partition_sub in E. subst k. apply dmem_keys in H. cbn in H.
          decompose [or] H; subst; try reflexivity. contradiction.
        - apply partition_none in E. subst k. apply dmem_keys in H. cbn in H.
          decompose [or] H; subst; try reflexivity. contradiction. }
      rewrite P. apply IH.
      - intros k' Hk. apply H. now right.
      - intros k' Hk. specialize (K k' Hk). cbn [dget] in K. destruct (String.eqb k k'); [discriminate|exact K]. }
    rewrite F. reflexivity.
  - apply rename_plain. intros d Hd. cbn in Hd.
    decompose [or] Hd; subst; try contradiction; (split; [reflexivity|apply K; reflexivity]).
  - apply rename_plain. intros d Hd. cbn in Hd.
    decompose [or] Hd; subst; try contradiction; (split; [reflexivity|apply K; reflexivity]).
Qed.

(** The own parameters and the collected nested ones. *)
Definition nget (a : string) (nested : dict (dict val)) : dict val :=
  match dget a nested with Some s => s | None => [] end.

Lemma in_plain : forall d w o a, deep (S d) w o -> dmem a (c_sig (class_of w o)) = true -> plain a.
Proof. intros d w o a D M. apply dmem_keys in M. now destruct (D a M). Qed.

Lemma setattr_leaf : forall w o a v, builds_nothing (Some (class_of w o, a)) v ->
  setattr default_window w o a v = put_attr w o a (stored (Some (class_of w o, a)) v).
Proof.
  intros w o a v B. unfold setattr, stored. destruct v; try reflexivity.
  destruct (c_default (class_of w o) a) as [[c'|]|] eqn:E; try reflexivity.
  exfalso. exact (B eq_refl _ _ c' eq_refl E).
Qed.

Lemma put_leaf_shape : forall w o a v, as_estimator w v = None -> child w o a = None ->
  same_shape w (put_attr w o a v).
Proof.
  intros w o a v Hv Hc.
  assert (B : forall i, class_of (put_attr w o a v) i = class_of w i) by (intro; apply class_put_attr).
  split; [apply put_attr_length|]. split; [exact B|]. split.
  - intros i b. unfold child at 1. rewrite attrs_put_attr.
    destruct (Nat.eqb_spec o i) as [->|N]; cbn [andb].
    + destruct (Nat.ltb i (List.length w)).
      * rewrite dget_dset. destruct (String.eqb_spec a b) as [->|].
        -- rewrite (as_estimator_class w _ v B). now rewrite Hv.
        -- unfold child. destruct (dget b (attrs_of w i)); [|reflexivity]. now apply as_estimator_class.
      * unfold child. destruct (dget b (attrs_of w i)); [|reflexivity]. now apply as_estimator_class.
    + unfold child. destruct (dget b (attrs_of w i)); [|reflexivity]. now apply as_estimator_class.
  - intros i b H. rewrite attrs_put_attr. destruct (_ && _); [|exact H]. rewrite dget_dset.
    now destruct (String.eqb a b).
Qed.

Lemma set_own_leaves : forall o params valid nested w,
  (o < List.length w)%nat -> dwf params -> dwf nested -> (forall a, dwf (nget a nested)) ->
  (forall k, In k (dkeys (c_sig (class_of w o))) -> plain k /\ dmem k valid = true) ->
  (forall k v, In (k, v) params -> as_estimator w v = None /\
     match partition k with
     | (a, None) => dmem a (c_sig (class_of w o)) = true /\ child w o a = None /\
                    builds_nothing (Some (class_of w o, a)) v
     | (a, Some _) => dmem a (c_sig (class_of w o)) = true
     end) ->
  exists w' valid' nested', set_own default_window o params valid nested w = (w', Ret (valid', nested')) /\
    same_shape w w' /\ (forall i, i <> o -> nth_error w' i = nth_error w i) /\
    (forall a, plain a -> dget a (attrs_of w' o) =
       match dget a params with Some v => Some (stored (Some (class_of w o, a)) v) | None => dget a (attrs_of w o) end) /\
    (forall k, dget k params = None -> dget k valid' = dget k valid) /\
    dwf nested' /\ (forall a, dwf (nget a nested')) /\
    (forall a r, plain a -> dget r (nget a nested') =
       match dget (a ++ "__" ++ r)%string params with Some v => Some v | None => dget r (nget a nested) end) /\
    (forall a, In a (dkeys nested') -> In a (dkeys nested) \/
       (plain a /\ exists r v, In ((a ++ "__" ++ r)%string, v) params)).
Proof.
  intros o params. induction params as [|[key value] params IH]; intros valid nested w L W Wn Ws V P.
  - exists w, valid, nested. split; [reflexivity|]. split; [apply same_shape_refl|].
    repeat split; auto.
  - inversion_clear W as [|? ? N W']. destruct (P key value (or_introl eq_refl)) as (Hv & Hk).
    cbn [set_own]. destruct (partition key) as [a [r|]] eqn:Ek.
    + (* nested *)
      assert (Ma := Hk). apply dmem_keys in Ma. destruct (V a Ma) as (Pa & Va). rewrite Va.
      apply partition_sub in Ek. subst key.
      destruct (IH valid (dset a (dset r value (nget a nested)) nested) w L W') as
        (w' & valid' & nested' & E & S & Fr & At & Vl & Wn' & Ws' & Nd & Nk).
      * now apply dwf_dset.
      * intro b. unfold nget. rewrite dget_dset. destruct (String.eqb a b).
        -- apply dwf_dset, Ws.
        -- apply Ws.
      * exact V.
      * intros k v Hin. apply P. now right.
      * exists w', valid', nested'. split; [exact E|]. split; [exact S|]. split; [exact Fr|].
        split; [|split; [|split; [exact Wn'|split; [exact Ws'|split]]]].
        -- intros b Pb. rewrite At by exact Pb. cbn [dget].
           destruct (String.eqb_spec (a ++ "__" ++ r) b) as [X|]; [|reflexivity].
           exfalso. subst b. apply plain_partition in Pb. rewrite plain_partition_sub in Pb by exact Pa. discriminate Pb.
        -- intros k Hk'. cbn [dget] in Hk'. destruct (String.eqb (a ++ "__" ++ r) k); [discriminate|]. now apply Vl.
        -- intros b s Pb. rewrite Nd by exact Pb. cbn [dget].
           destruct (String.eqb_spec (a ++ "__" ++ r) (b ++ "__" ++ s)) as [X|X].
           ++ assert (Q : (a, Some r) = (b, Some s)).
              { rewrite <- (plain_partition_sub a r Pa), <- (plain_partition_sub b s Pb). now rewrite X. }
              injection Q as <- <-.
              assert (G : dget (a ++ "__" ++ r)%string params = None) by now apply dget_none.
              rewrite G. unfold nget. rewrite dget_dset, String.eqb_refl, dget_dset, String.eqb_refl. reflexivity.
           ++ destruct (dget (b ++ "__" ++ s)%string params); [reflexivity|].
              unfold nget at 1. rewrite dget_dset. destruct (String.eqb_spec a b) as [<-|]; [|reflexivity].
              rewrite dget_dset. destruct (String.eqb_spec r s) as [<-|]; [congruence|reflexivity].
        -- intros b Hb. destruct (Nk b Hb) as [H|(Pb & s & v & H)].
           ++ rewrite dkeys_dset in H. destruct (dmem a nested) eqn:M.
              ** now left.
              ** apply in_app_iff in H. destruct H as [H|[<-|[]]]; [now left|].
                 right. split; [exact Pa|]. exists r, value. now left.
           ++ right. split; [exact Pb|]. exists s, v. now right.
    + (* own *)
      destruct Hk as (Ma & Hc & Hb). assert (Ma' := Ma). apply dmem_keys in Ma'.
      destruct (V a Ma') as (Pa & Va). rewrite Va. apply partition_none in Ek. subst key.
      rewrite setattr_leaf by exact Hb.
      set (sv := stored (Some (class_of w o, a)) value).
      assert (Hs : as_estimator w sv = None).
      { unfold sv, stored. destruct value; try exact Hv.
        destruct (c_default (class_of w o) a) as [[c'|]|]; auto. }
      pose proof (put_leaf_shape w o a sv Hs Hc) as S1. pose proof S1 as (A1 & B1 & C1 & D1).
      destruct (IH (dset a value valid) nested (put_attr w o a sv)) as
        (w' & valid' & nested' & E & S & Fr & At & Vl & Wn' & Ws' & Nd & Nk).
      * rewrite A1. exact L.
      * exact W'.
      * exact Wn.
      * exact Ws.
      * rewrite B1. intros k Hk. destruct (V k Hk) as (Pk & Vk). split; [exact Pk|].
        rewrite dmem_dget, dget_dset. destruct (String.eqb a k); [reflexivity|].
        now rewrite <- dmem_dget.
      * intros k v Hin. rewrite (as_estimator_class w _ v B1), B1.
        destruct (P k v (or_intror Hin)) as (H1 & H2). split; [exact H1|].
        destruct (partition k) as [b [s|]]; [exact H2|]. rewrite C1. exact H2.
      * exists w', valid', nested'. split; [exact E|]. split; [eapply same_shape_trans; eauto|].
        split; [intros i Hi; rewrite Fr, put_attr_other by exact Hi; reflexivity|].
        split; [|split; [|split; [exact Wn'|split; [exact Ws'|split]]]].
        -- intros b Pb. rewrite At by exact Pb. rewrite B1, attrs_put_attr, Nat.eqb_refl. cbn [andb dget].
           assert (Lt : Nat.ltb o (List.length w) = true) by now apply Nat.ltb_lt.
           rewrite Lt, dget_dset. destruct (String.eqb_spec a b) as [<-|]; [|reflexivity].
           assert (G : dget a params = None) by now apply dget_none. rewrite G. reflexivity.
        -- intros k Hk'. cbn [dget] in Hk'. destruct (String.eqb_spec a k); [discriminate|].
           rewrite Vl by exact Hk'. rewrite dget_dset. destruct (String.eqb_spec a k); [congruence|reflexivity].
        -- intros b s Pb. rewrite Nd by exact Pb. cbn [dget].
           destruct (String.eqb_spec a (b ++ "__" ++ s)) as [X|X]; [|reflexivity].
           exfalso. apply plain_partition in Pa. rewrite X, plain_partition_sub in Pa by exact Pb. discriminate Pa.
        -- intros b Hb'. destruct (Nk b Hb') as [H|(Pb & s & v & H)]; [now left|].
           right. split; [exact Pb|]. exists s, v. now right.
Qed.

Lemma NoDup_app_l : forall A (l m : list A), NoDup (l ++ m) -> NoDup l.
Proof.
  induction l as [|a l IH]; intros m H; [constructor|]. cbn [app] in H. inversion_clear H as [|? ? N H'].
  constructor; [|now apply (IH m)]. intro X. apply N, in_app_iff. now left.
Qed.
Lemma NoDup_app_r : forall A (l m : list A), NoDup (l ++ m) -> NoDup m.
Proof.
  induction l as [|a l IH]; intros m H; [exact H|]. cbn [app] in H. inversion_clear H. now apply IH.
Qed.
Lemma NoDup_flat_map_in : forall A B (f : A -> list B) l a, NoDup (flat_map f l) -> In a l -> NoDup (f a).
Proof.
  induction l as [|b l IH]; intros a H Ha; [destruct Ha|]. cbn [flat_map] in H. destruct Ha as [<-|Ha].
  - now apply NoDup_app_l in H.
  - apply NoDup_app_r in H. now apply IH.
Qed.
Lemma NoDup_app_disjoint : forall A (l m : list A) x, NoDup (l ++ m) -> In x l -> In x m -> False.
Proof.
  induction l as [|a l IH]; intros m x H Hx Hm; [destruct Hx|]. cbn [app] in H.
  inversion_clear H as [|? ? N H']. destruct Hx as [<-|Hx].
  - apply N, in_app_iff. now right.
  - exact (IH m x H' Hx Hm).
Qed.
Lemma NoDup_flat_map_disjoint : forall A B (f : A -> list B) l a b x, NoDup (flat_map f l) ->
  In a l -> In b l -> a <> b -> In x (f a) -> In x (f b) -> False.
Proof.
  induction l as [|c l IH]; intros a b x H Ha Hb N Xa Xb; [destruct Ha|]. cbn [flat_map] in H.
  destruct Ha as [->|Ha], Hb as [->|Hb].
  - congruence.
  - apply (NoDup_app_disjoint _ _ _ x H Xa). apply in_flat_map. eauto.
  - apply (NoDup_app_disjoint _ _ _ x H Xb). apply in_flat_map. eauto.
  - apply NoDup_app_r in H. now apply (IH a b x).
Qed.

Lemma reach_nodup_child : forall d w o a i, NoDup (reach (S d) w o) -> dmem a (c_sig (class_of w o)) = true ->
  child w o a = Some i -> NoDup (reach d w i) /\ ~ In o (reach d w i).
Proof.
  intros d w o a i H M C. apply dmem_keys in M. cbn [reach] in H. inversion_clear H as [|? ? N H']. split.
  - pose proof (NoDup_flat_map_in _ _ _ _ a H' M) as X. cbv beta in X. now rewrite C in X.
  - intro X. apply N. apply in_flat_map. exists a. split; [exact M|]. now rewrite C.
Qed.
Lemma reach_disjoint : forall d w o a i b j x, NoDup (reach (S d) w o) ->
  dmem a (c_sig (class_of w o)) = true -> child w o a = Some i ->
  dmem b (c_sig (class_of w o)) = true -> child w o b = Some j -> a <> b ->
  In x (reach d w i) -> In x (reach d w j) -> False.
Proof.
  intros d w o a i b j x H Ma Ca Mb Cb N Xi Xj. apply dmem_keys in Ma, Mb. cbn [reach] in H.
  inversion_clear H as [|? ? _ H']. apply (NoDup_flat_map_disjoint _ _ _ _ a b x H' Ma Mb N).
  - now rewrite Ca.
  - now rewrite Cb.
Qed.

Lemma deep_child : forall d w o a i, deep (S d) w o -> dmem a (c_sig (class_of w o)) = true ->
  child w o a = Some i -> deep d w i.
Proof.
  intros d w o a i D M C. apply dmem_keys in M. destruct (D a M) as (_ & v & E & H). apply H.
  unfold child in C. now rewrite E in C.
Qed.

(** Effect of [set_params] on leaves, for the induction on the depth. *)
Definition sets_leaves (d : nat) : Prop := forall w o kwargs,
  deep d w o -> NoDup (reach d w o) -> dwf kwargs -> leaves d w o kwargs ->
  exists w', set_params default_window construct_tracker (S d) o kwargs w = (w', Ret tt) /\
    same_shape w w' /\ (forall i, ~ In i (reach d w o) -> nth_error w' i = nth_error w i) /\
    forall k, pget d w' o k = match dget k kwargs with
                              | Some v => Some (stored (owner d w o k) v)
                              | None => pget d w o k
                              end.

Definition nest_step (d : nat) (valid : dict val) (r : pworld * outcome unit) (p : string * dict val)
  : pworld * outcome unit :=
  match r with
  | (w, Raise e m) => (w, Raise e m)
  | (w, Ret _) =>
    match dget (fst p) valid with
    | Some v =>
      match as_estimator w v with
      | Some i => set_params default_window construct_tracker d i (snd p) w
      | None => (w, Raise AttributeError "set_params")
      end
    | None => (w, Raise KeyError (fst p))
    end
  end.

Lemma set_nested : forall d o valid, sets_leaves d -> forall l w, dwf l ->
  deep (S d) w o -> NoDup (reach (S d) w o) ->
  (forall a s, In (a, s) l -> exists v i, dget a valid = Some v /\ as_estimator w v = Some i /\
     child w o a = Some i /\ dmem a (c_sig (class_of w o)) = true /\ dwf s /\ leaves d w i s) ->
  exists w', fold_left (nest_step (S d) valid) l (w, Ret tt) = (w', Ret tt) /\ same_shape w w' /\
    (forall j, (forall a s i, In (a, s) l -> child w o a = Some i -> ~ In j (reach d w i)) ->
       nth_error w' j = nth_error w j) /\
    (forall a i r, dmem a (c_sig (class_of w o)) = true -> child w o a = Some i ->
       pget d w' i r = match dget r (nget a l) with
                       | Some v => Some (stored (owner d w i r) v)
                       | None => pget d w i r
                       end).
Proof.
  intros d o valid IHd l. induction l as [|[a s] l IH]; intros w Wl D N H.
  - exists w. split; [reflexivity|]. split; [apply same_shape_refl|]. split; [reflexivity|].
    intros. reflexivity.
  - inversion_clear Wl as [|? ? Na Wl'].
    destruct (H a s (or_introl eq_refl)) as (v & i & Ev & Ei & Ci & Mi & Ws & Ls).
    destruct (reach_nodup_child d w o a i N Mi Ci) as (Ni & No).
    destruct (IHd w i s (deep_child d w o a i D Mi Ci) Ni Ws Ls) as (w1 & E1 & S1 & F1 & P1).
    pose proof S1 as (L1 & B1 & C1 & _).
    assert (Other : forall b j r, dmem b (c_sig (class_of w o)) = true -> child w o b = Some j -> a <> b ->
              pget d w1 j r = pget d w j r).
    { intros b j r Mb Cb Nab. apply pget_agree; [exact S1|]. intros x Hx. apply F1. intro Hy.
      exact (reach_disjoint d w o a i b j x N Mi Ci Mb Cb Nab Hy Hx). }
    destruct (IH w1 Wl') as (w2 & E2 & S2 & F2 & P2).
    + now apply (same_shape_deep _ w).
    + rewrite (same_shape_reach (S d) w w1 o S1). exact N.
    + intros b t Hb. destruct (H b t (or_intror Hb)) as (u & j & Eu & Ej & Cj & Mj & Wt & Lt).
      exists u, j. rewrite (as_estimator_class w w1 u B1), C1, B1.
      split; [exact Eu|]. split; [exact Ej|]. split; [exact Cj|]. split; [exact Mj|]. split; [exact Wt|].
      assert (Nab : a <> b).
      { intros ->. apply Na. change b with (fst (b, t)). now apply in_map. }
      intros k x Hin. destruct (Lt k x Hin) as ((y & Ey & Yy) & Xx & Bx).
      rewrite (Other b j k Mj Cj Nab), (same_shape_owner d w w1 j k S1).
      split; [|split; [now rewrite (as_estimator_class w w1 x B1)|exact Bx]].
      exists y. split; [exact Ey|]. now rewrite (as_estimator_class w w1 y B1).
    + exists w2. split; [|split; [|split]].
      * cbn [fold_left]. unfold nest_step at 2. cbn [fst snd]. rewrite Ev, Ei, E1. exact E2.
      * eapply same_shape_trans; eauto.
      * intros j Hj. rewrite F2.
        -- apply F1. apply (Hj a s i); [now left|exact Ci].
        -- intros b t j' Hb Cb. rewrite (same_shape_reach d w w1 j' S1). rewrite C1 in Cb.
           apply (Hj b t j'); [now right|exact Cb].
      * intros b j r Mb Cb. rewrite (P2 b j r); [|now rewrite B1|now rewrite C1].
        rewrite (same_shape_owner d w w1 j r S1). unfold nget at 2. cbn [dget].
        destruct (String.eqb_spec a b) as [<-|Nab].
        -- assert (G : dget a l = None) by now apply dget_none.
           unfold nget. rewrite G. cbn [dget]. rewrite Ci in Cb. injection Cb as <-. apply P1.
        -- rewrite (Other b j r Mb Cb Nab). reflexivity.
Qed.

Lemma set_params_step : forall d o kwargs w params valid w1 valid1 nested,
  rename (c_deprecated construct_tracker (class_of w o)) (VObj o) kwargs = Ret params -> params <> [] ->
  get_params d w o true = Ret valid ->
  set_own default_window o params valid [] w = (w1, Ret (valid1, nested)) ->
  set_params default_window construct_tracker (S d) o kwargs w = fold_left (nest_step d valid1) nested (w1, Ret tt).
Proof.
  intros d o kwargs w params valid w1 valid1 nested R N G S. cbn [set_params]. rewrite R.
  destruct params as [|p params]; [congruence|]. rewrite G, S. reflexivity.
Qed.

Theorem set_leaves : forall d, sets_leaves d.
Proof.
  induction d as [|d IHd]; intros w o kwargs D N W L; [destruct D|].
  assert (K : forall k, In k (dkeys kwargs) -> dmem (fst (partition k)) (c_sig (class_of w o)) = true).
  { intros k Hk. apply dget_keys in Hk. destruct Hk as [v Hv]. apply dget_in in Hv.
    destruct (L k v Hv) as ((u & Hu & _) & _). cbn [pget] in Hu. destruct (partition k) as [a r]. cbn [fst].
    destruct (dmem a (c_sig (class_of w o))); [reflexivity|discriminate]. }
  destruct kwargs as [|p kwargs'] eqn:Kw.
  { exists w. split; [|split; [apply same_shape_refl|split; reflexivity]].
    cbn [set_params]. rewrite rename_known by exact K. reflexivity. }
  rewrite <- Kw in *. assert (Ne : kwargs <> []) by (rewrite Kw; discriminate). clear p kwargs' Kw.
  destruct (get_params_ok (S d) w o D) as (valid & G & Wv & Hv).
  assert (Lo : (o < List.length w)%nat).
  { destruct kwargs as [|[k v] ?]; [congruence|]. destruct (L k v (or_introl eq_refl)) as ((u & Hu & _) & _).
    cbn [pget] in Hu. destruct (partition k) as [a r]. destruct (dmem a _); [|discriminate].
    unfold attrs_of in Hu. destruct (nth_error w o) as [[c x]|] eqn:E; [|discriminate].
    apply nth_error_Some. congruence. }
  destruct (set_own_leaves o kwargs valid [] w Lo W) as (w1 & valid1 & nested & E1 & S1 & F1 & A1 & V1 & Wn & Ws & Nd & Nk).
  { constructor. }
  { intro a. constructor. }
  { intros k Hk. destruct (D k Hk) as (P & v & Ev & _). split; [exact P|].
    rewrite dmem_dget, Hv. cbn [pget]. rewrite (plain_partition k P). apply dmem_keys in Hk. now rewrite Hk, Ev. }
  { intros k v Hin. destruct (L k v Hin) as ((u & Hu & Uu) & Vv & Bv). split; [exact Vv|].
    cbn [pget owner] in Hu, Bv. destruct (partition k) as [a [r|]].
    - now destruct (dmem a (c_sig (class_of w o))).
    - destruct (dmem a (c_sig (class_of w o))); [|discriminate]. split; [reflexivity|].
      unfold child. destruct (dget a (attrs_of w o)); [|discriminate]. injection Hu as ->. split; assumption. }
  pose proof S1 as (L1 & B1 & C1 & _).
  assert (Same : forall a i r, dmem a (c_sig (class_of w o)) = true -> child w o a = Some i ->
            pget d w1 i r = pget d w i r).
  { intros a i r Ma Ca. apply pget_agree; [exact S1|]. intros x Hx. apply F1. intros ->.
    exact (proj2 (reach_nodup_child d w o a i N Ma Ca) Hx). }
  assert (Nested : forall a s, In (a, s) nested -> exists v i, dget a valid1 = Some v /\ as_estimator w v = Some i /\
            child w o a = Some i /\ dmem a (c_sig (class_of w o)) = true /\ plain a /\ s = nget a nested).
  { intros a s Has. assert (Ha : In a (dkeys nested)) by (change a with (fst (a, s)); now apply in_map).
    destruct (Nk a Ha) as [[]|(Pa & r & v & Hin)].
    destruct (L _ _ Hin) as ((u & Hu & Uu) & _). cbn [pget] in Hu. rewrite plain_partition_sub in Hu by exact Pa.
    destruct (dmem a (c_sig (class_of w o))) eqn:Ma; [|discriminate].
    destruct (dget a (attrs_of w o)) as [x|] eqn:Ex; [|discriminate].
    destruct (as_estimator w x) as [i|] eqn:Ei; [|discriminate].
    exists x, i. split; [|split; [exact Ei|split; [unfold child; now rewrite Ex|split; [reflexivity|split; [exact Pa|]]]]].
    - rewrite V1.
      + rewrite Hv. cbn [pget]. now rewrite (plain_partition a Pa), Ma, Ex.
      + destruct (dget a kwargs) as [y|] eqn:Ey; [|reflexivity]. exfalso.
        apply dget_in in Ey. destruct (L a y Ey) as ((z & Hz & Zz) & _). cbn [pget] in Hz.
        rewrite (plain_partition a Pa), Ma, Ex in Hz. injection Hz as <-. congruence.
    - unfold nget. now rewrite (in_dget _ _ _ _ Wn Has). }
  destruct (set_nested d o valid1 IHd nested w1 Wn) as (w2 & E2 & S2 & F2 & P2).
  { now apply (same_shape_deep _ w). }
  { rewrite (same_shape_reach (S d) w w1 o S1). exact N. }
  { intros a s Has. destruct (Nested a s Has) as (v & i & Ev & Ei & Ci & Ma & Pa & Es).
    exists v, i. rewrite (as_estimator_class w w1 v B1), C1, B1.
    split; [exact Ev|]. split; [exact Ei|]. split; [exact Ci|]. split; [exact Ma|]. split; [subst s; apply Ws|].
    intros r x Hx. assert (Wd : dwf s) by (subst s; apply Ws).
    pose proof (in_dget _ _ _ _ Wd Hx) as Gx. subst s.
    rewrite Nd in Gx by exact Pa. cbn [nget dget] in Gx.
    destruct (dget (a ++ "__" ++ r)%string kwargs) as [y|] eqn:Ey; [|discriminate]. injection Gx as ->.
    apply dget_in in Ey. destruct (L _ _ Ey) as ((u & Hu & Uu) & Vx & Bx).
    rewrite (Same a i r Ma Ci), (same_shape_owner d w w1 i r S1), (as_estimator_class w w1 x B1).
    cbn [pget owner] in Hu, Bx. rewrite plain_partition_sub in Hu, Bx by exact Pa. rewrite Ci in Bx.
    rewrite Ma in Hu. unfold child in Ci. destruct (dget a (attrs_of w o)) as [z|]; [|discriminate].
    rewrite Ci in Hu. split; [|split; [exact Vx|exact Bx]].
    exists u. split; [exact Hu|]. now rewrite (as_estimator_class w w1 u B1). }
  exists w2. split; [|split; [|split]].
  - rewrite (set_params_step (S d) o kwargs w kwargs valid w1 valid1 nested); [exact E2|now apply rename_known|exact Ne|exact G|exact E1].
  - eapply same_shape_trans; eauto.
  - intros j Hj. rewrite F2.
    + apply F1. intros ->. apply Hj. now left.
    + intros a s i Has Ca. rewrite (same_shape_reach d w w1 i S1). rewrite C1 in Ca.
      destruct (Nested a s Has) as (v & i' & _ & _ & Ci & Ma & _). rewrite Ca in Ci. injection Ci as <-.
      intro Hx. apply Hj. exact (reach_child d w o a i Ma Ca j Hx).
  - assert (Ho : attrs_of w2 o = attrs_of w1 o).
    { unfold attrs_of. rewrite F2; [reflexivity|]. intros a s i Has Ca. rewrite (same_shape_reach d w w1 i S1).
      rewrite C1 in Ca. destruct (Nested a s Has) as (v & i' & _ & _ & Ci & Ma & _). rewrite Ca in Ci.
      injection Ci as <-. exact (proj2 (reach_nodup_child d w o a i N Ma Ca)). }
    pose proof S2 as (L2 & B2 & C2 & _).
    intro k. cbn [pget owner]. destruct (partition k) as [a [r|]] eqn:Ek.
    + assert (Ek0 := Ek). apply partition_sub in Ek. subst k. rewrite B2, B1.
      destruct (dmem a (c_sig (class_of w o))) eqn:Ma.
      * assert (Pa : plain a) by exact (in_plain d w o a D Ma).
        assert (Oa : child w2 o a = child w o a) by (rewrite C2; apply C1).
        unfold child in Oa. destruct (child w o a) as [i|] eqn:Ca.
        -- pose proof (P2 a i r) as X. rewrite B1, C1 in X. specialize (X Ma Ca).
           rewrite (same_shape_owner d w w1 i r S1), (Same a i r Ma Ca), (Nd a r Pa) in X. cbn [nget dget] in X.
           unfold child in Ca. rewrite Ca in Oa.
           destruct (dget a (attrs_of w2 o)) as [y|]; [|discriminate]. rewrite Oa.
           destruct (dget a (attrs_of w o)) as [z|]; [|discriminate]. rewrite Ca. rewrite X.
           destruct (dget (a ++ "__" ++ r)%string kwargs); reflexivity.
        -- unfold child in Ca. rewrite Ca in Oa.
           assert (Q : dget (a ++ "__" ++ r)%string kwargs = None).
           { destruct (dget (a ++ "__" ++ r)%string kwargs) as [y|] eqn:Ey; [|reflexivity]. exfalso.
             apply dget_in in Ey. destruct (L _ _ Ey) as ((u & Hu & _) & _). cbn [pget] in Hu.
             rewrite plain_partition_sub in Hu by exact Pa. rewrite Ma in Hu.
             destruct (dget a (attrs_of w o)) as [z|]; [|discriminate]. rewrite Ca in Hu. discriminate. }
           rewrite Q. destruct (dget a (attrs_of w2 o)) as [y|]; destruct (dget a (attrs_of w o)) as [z|];
             rewrite ?Ca, ?Oa; reflexivity.
      * assert (Q : dget (a ++ "__" ++ r)%string kwargs = None).
        { destruct (dget (a ++ "__" ++ r)%string kwargs) as [y|] eqn:Ey; [|reflexivity]. exfalso.
          assert (X : In (a ++ "__" ++ r)%string (dkeys kwargs)) by (apply dget_keys; eauto). apply K in X.
          rewrite Ek0 in X. cbn [fst] in X. congruence. }
        rewrite Q. reflexivity.
    + assert (Ek' := Ek). apply partition_none in Ek'. subst a. rewrite B2, B1, Ho.
      destruct (dmem k (c_sig (class_of w o))) eqn:Ma.
      * assert (Pa : plain k) by exact (in_plain d w o k D Ma). rewrite A1 by exact Pa.
        destruct (dget k kwargs); [reflexivity|]. now destruct (dget k (attrs_of w o)).
      * assert (Q : dget k kwargs = None).
        { destruct (dget k kwargs) as [y|] eqn:Ey; [|reflexivity]. exfalso.
          assert (X : In k (dkeys kwargs)) by (apply dget_keys; eauto). apply K in X. rewrite Ek in X.
          cbn [fst] in X. congruence. }
        rewrite Q. reflexivity.
Qed.

End SetLeaves.
