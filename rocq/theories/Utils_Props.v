(** Properties of the call plumbing, of default properties and of the optional
    storage: C27, C28, C29, C30, C62. *)
From Coq Require Import String Ascii List Bool ZArith QArith Lia Permutation Sorted.
Import ListNotations.
From Verif Require Import Base Py PyLemmas ListLemmas Dict StrLemmas Utils_Model.
Local Open Scope string_scope.
Local Open Scope list_scope.

(** ** C30: function variants *)

(** The function registered last under a key. *)
Fixpoint last_registered (k : string) (init : option pyfun) (regs : list (string * pyfun)) : option pyfun :=
  match regs with
  | [] => init
  | (k', f) :: regs' => last_registered k (if String.eqb k' k then Some f else init) regs'
  end.
Definition register_all (f : variants) (regs : list (string * pyfun)) : variants :=
  fold_left (fun f r => function_variant f (fst r) (snd r)) regs f.

Lemma register_all_dict : forall regs f k,
  dget k (v_dict (register_all f regs)) = last_registered k (dget k (v_dict f)) regs /\
  v_key (register_all f regs) = v_key f /\ v_default (register_all f regs) = v_default f /\
  v_name (register_all f regs) = v_name f.
Proof.
  induction regs as [|[k' g] regs IH]; intros f k; [repeat split|]. cbn [register_all fold_left fst snd].
  destruct (IH (function_variant f k' g) k) as (A & B & C & D). unfold register_all in *.
  rewrite A, B, C, D. unfold function_variant. cbn [v_dict v_key v_default v_name last_registered].
  rewrite dget_dset. repeat split.
Qed.

(** After any registrations, a call runs the function registered last under
    the option (the decorated function for its own option, if it has one), or
    under the default option if none is given, with the other arguments
    untouched. *)
Theorem c30_dispatch : forall repr name func key default this regs args kwargs opt foo,
  (dget key kwargs = Some (VStr opt) \/ (dget key kwargs = None /\ opt = default)) ->
  last_registered opt (match this with Some t => if String.eqb t opt then Some func else None | None => None end) regs
    = Some foo ->
  exists kwargs',
    variants_call repr (register_all (function_with_variants name func key default this) regs) args kwargs =
      foo args kwargs' /\
    kwargs' = filter (fun p => negb (String.eqb (fst p) key)) kwargs.
Proof.
  intros repr name func key default this regs args kwargs opt foo Hk Hl.
  set (f := function_with_variants name func key default this).
  destruct (register_all_dict regs f opt) as (A & B & C & _).
  unfold variants_call. rewrite B, C.
  assert (I : dget opt (v_dict f) = match this with Some t => if String.eqb t opt then Some func else None | None => None end).
  { unfold f, function_with_variants. cbn [v_dict]. destruct this as [t|]; reflexivity. }
  change (v_key f) with key. change (v_default f) with default.
  exists (ddel key kwargs). split; [|reflexivity].
  destruct Hk as [->|[-> ->]]; rewrite A, I, Hl; reflexivity.
Qed.
Print Assumptions c30_dispatch.

(** An option that is not registered: ValueError, and the message names the
    option and every registered one. *)
Theorem c30_unsupported : forall repr name func key default this regs args kwargs opt,
  (dget key kwargs = Some (VStr opt) \/ (dget key kwargs = None /\ opt = default)) ->
  last_registered opt (match this with Some t => if String.eqb t opt then Some func else None | None => None end) regs
    = None ->
  exists msg,
    variants_call repr (register_all (function_with_variants name func key default this) regs) args kwargs =
      ([], Raise ValueError msg) /\
    occurs name msg /\ occurs ("'" ++ opt ++ "'")%string msg /\
    forall k, In k (map fst regs) \/ this = Some k -> occurs ("'" ++ k ++ "'")%string msg.
Proof.
  intros repr name func key default this regs args kwargs opt Hk Hl.
  set (f := function_with_variants name func key default this).
  destruct (register_all_dict regs f opt) as (A & B & C & D).
  assert (I : forall o, dget o (v_dict f) = match this with Some t => if String.eqb t o then Some func else None | None => None end).
  { intro o. unfold f, function_with_variants. cbn [v_dict]. destruct this as [t|]; reflexivity. }
  assert (K : forall k, In k (map fst regs) \/ this = Some k -> In k (dkeys (v_dict (register_all f regs)))).
  { intros k H. apply dget_keys. destruct (register_all_dict regs f k) as (-> & _). rewrite I.
    assert (G : forall init, (In k (map fst regs) \/ init <> None) -> exists g, last_registered k init regs = Some g).
    { clear. induction regs as [|[k' g] regs IH]; simpl; intros init H.
      - destruct init; [eauto|]. destruct H as [[]|H]; congruence.
      - apply IH. destruct (String.eqb_spec k' k) as [->|N]; [right; discriminate|].
        destruct H as [[H|H]|H]; [congruence|left; exact H|right; exact H]. }
    apply G. destruct H as [H| ->]; [left; exact H|right]. rewrite String.eqb_refl. discriminate. }
  unfold variants_call. rewrite B, C, D.
  change (v_key f) with key. change (v_default f) with default. change (v_name f) with name.
  set (r := register_all f regs) in *.
  assert (T : forall o, exists msg,
    (name ++ ": unsupported option '" ++ o ++ "' for argument '" ++ key ++
      "'. Supported options are: " ++ comma_join_quote (dkeys (v_dict r)))%string = msg /\
    occurs name msg /\ occurs ("'" ++ o ++ "'")%string msg /\
    forall k, In k (map fst regs) \/ this = Some k -> occurs ("'" ++ k ++ "'")%string msg).
  { intro o. eexists. split; [reflexivity|]. split; [|split].
    - apply occurs_l, occurs_refl.
    - exists (name ++ ": unsupported option ")%string,
        (" for argument '" ++ key ++ "'. Supported options are: " ++ comma_join_quote (dkeys (v_dict r)))%string.
      rewrite !sapp_assoc. reflexivity.
    - intros k Hin. apply occurs_r, occurs_r, occurs_r, occurs_r, occurs_r, occurs_r. unfold comma_join_quote.
      apply occurs_concat. change ("'" ++ k ++ "'")%string with ((fun s => "'" ++ s ++ "'")%string k).
      apply in_map. apply K, Hin. }
  destruct Hk as [->|[-> ->]]; rewrite A, I, Hl; cbn [py_str].
  - destruct (T opt) as (msg & -> & T'). exists msg. split; [reflexivity|exact T'].
  - destruct (T default) as (msg & -> & T'). exists msg. split; [reflexivity|exact T'].
Qed.
Print Assumptions c30_unsupported.

(** The message, for variants with different names. *)
Fixpoint quoted (l : list string) : string :=
  match l with
  | [] => ""
  | [a] => ("'" ++ a ++ "'")%string
  | a :: l' => ("'" ++ a ++ "', " ++ quoted l')%string
  end.
Theorem c30_message : forall repr name func key default this regs args kwargs opt,
  (dget key kwargs = Some (VStr opt) \/ (dget key kwargs = None /\ opt = default)) ->
  let options := match this with Some t => [t] | None => [] end ++ map fst regs in
  NoDup options -> ~ In opt options ->
  variants_call repr (register_all (function_with_variants name func key default this) regs) args kwargs =
    ([], Raise ValueError (name ++ ": unsupported option '" ++ opt ++ "' for argument '" ++ key ++
                           "'. Supported options are: " ++ quoted options)%string).
Proof.
  intros repr name func key default this regs args kwargs opt Hk options N H.
  set (f := function_with_variants name func key default this).
  destruct (register_all_dict regs f opt) as (_ & B & C & D).
  assert (K : dkeys (v_dict (register_all f regs)) = options).
  { assert (G : forall regs f, NoDup (dkeys (v_dict f) ++ map fst regs) ->
      dkeys (v_dict (register_all f regs)) = dkeys (v_dict f) ++ map fst regs).
    { clear. induction regs as [|[k g] regs IH]; intros f N; [cbn; now rewrite app_nil_r|].
      unfold register_all in *. cbn [fold_left fst snd map]. 
      assert (E : dkeys (v_dict (function_variant f k g)) = dkeys (v_dict f) ++ [k]).
      { unfold function_variant. cbn [v_dict]. rewrite dkeys_dset, dmem_dget.
        replace (dget k (v_dict f)) with (@None pyfun); [reflexivity|]. symmetry. apply dget_none. intro I.
        cbn [map fst] in N. apply NoDup_remove_2 in N. apply N. apply in_or_app. now left. }
      rewrite IH; rewrite E, <- app_assoc; [reflexivity|exact N]. }
    unfold options. rewrite G.
    - f_equal. unfold f, function_with_variants. cbn [v_dict]. destruct this; reflexivity.
    - replace (dkeys (v_dict f)) with (match this with Some t => [t] | None => [] end); [exact N|].
      unfold f, function_with_variants. cbn [v_dict]. destruct this; reflexivity. }
  assert (M : forall l, comma_join_quote l = quoted l).
  { clear. unfold comma_join_quote. induction l as [|a l IH]; [reflexivity|]. destruct l as [|b l]; [reflexivity|].
    cbn [map String.concat quoted] in *. rewrite IH. now rewrite !sapp_assoc. }
  assert (E : dget opt (v_dict (register_all f regs)) = None) by (apply dget_none; now rewrite K).
  unfold variants_call. rewrite B, C, D. change (v_key f) with key. change (v_default f) with default.
  change (v_name f) with name. rewrite K, M.
  destruct Hk as [-> |[-> ->]]; cbn [py_str]; rewrite E; reflexivity.
Qed.
Print Assumptions c30_message.

(** An unhashable option raises TypeError rather than ValueError. *)
Theorem c30_unhashable_raises : forall repr f args kwargs l,
  dget (v_key f) kwargs = Some (VList l) ->
  variants_call repr f args kwargs = ([], Raise TypeError "unhashable type").
Proof. intros repr f args kwargs l H. unfold variants_call. now rewrite H. Qed.
Print Assumptions c30_unhashable_raises.

(** The published signature: valid (kinds in order, names once) whenever that of
    the decorated function is, with exactly the keyword added. *)
Lemma ssorted_app : forall A (R : A -> A -> Prop) l l', StronglySorted R l -> StronglySorted R l' ->
  (forall x y, In x l -> In y l' -> R x y) -> StronglySorted R (l ++ l').
Proof.
  intros A R l l' S S' H. induction S as [|x l S IH F]; [exact S'|]. simpl. constructor.
  - apply IH. intros; apply H; simpl; auto.
  - apply Forall_app. split; [exact F|]. apply Forall_forall. intros y Hy. apply H; simpl; auto.
Qed.
Lemma ssorted_filter : forall A (R : A -> A -> Prop) f l, StronglySorted R l -> StronglySorted R (filter f l).
Proof.
  intros A R f l S. induction S as [|x l S IH F]; [constructor|]. simpl. destruct (f x); [|exact IH].
  constructor; [exact IH|]. rewrite Forall_forall in *. intros y Hy. apply filter_In in Hy. apply F; tauto.
Qed.
Theorem c30_signature : forall name sig,
  StronglySorted (fun p q => (pkind p <= pkind q)%nat) sig -> NoDup (map pname sig) ->
  (forall p, In p sig -> (pkind p <= 4)%nat) ->
  (forall a b p q, sig = a ++ p :: b -> In q b -> pkind p <> 4%nat) ->
  let sig' := add_keyword_arg name sig in
  StronglySorted (fun p q => (pkind p <= pkind q)%nat) sig' /\ NoDup (map pname sig') /\
  In (mkParam name 3) sig' /\
  filter (fun p => negb (String.eqb (pname p) name)) sig' = filter (fun p => negb (String.eqb (pname p) name)) sig.
Proof.
  intros name sig S N K L. cbv zeta. unfold add_keyword_arg.
  set (params := filter (fun p => negb (String.eqb (pname p) name)) sig).
  assert (Sp : StronglySorted (fun p q => (pkind p <= pkind q)%nat) params) by now apply ssorted_filter.
  assert (Np : NoDup (map pname params)).
  { unfold params. clear -N. induction sig as [|p sig IH]; [constructor|]. simpl in *. inversion_clear N as [|? ? H N'].
    destruct (negb _); [|auto]. simpl. constructor; [|auto]. intro H'. apply H. apply in_map_iff in H'.
    destruct H' as (q & E & H'). apply filter_In in H'. apply in_map_iff. exists q. tauto. }
  assert (Nn : forall p, In p params -> pname p <> name).
  { intros p Hp E. apply filter_In in Hp. destruct Hp as [_ Hp]. rewrite E, String.eqb_refl in Hp. discriminate. }
  assert (G : exists a b, (let i := List.length params in
      let i := match rev params with p :: _ => if Nat.eqb (pkind p) 4 then (i - 1)%nat else i | [] => i end in
      firstn i params = a /\ skipn i params = b) /\ params = a ++ b /\
      (forall p, In p a -> (pkind p <= 3)%nat) /\ (forall p, In p b -> pkind p = 4%nat)).
  { destruct (rev params) as [|p rp] eqn:E.
    - exists params, []. cbv zeta. rewrite firstn_all, skipn_all. rewrite app_nil_r. repeat split; auto; [|easy].
      intros q Hq. apply in_rev in Hq. rewrite E in Hq. destruct Hq.
    - assert (Ep : params = rev rp ++ [p]) by (rewrite <- (rev_involutive params), E; reflexivity).
      assert (Kr : forall q, In q (rev rp) -> (pkind q <= 3)%nat).
      { intros q Hq. assert (Hs : In q sig) by (assert (In q params) by (rewrite Ep; apply in_or_app; auto); apply filter_In in H; tauto).
        specialize (K q Hs). destruct (Nat.eq_dec (pkind q) 4) as [E4|]; [|lia]. exfalso.
        assert (Hin : exists a b, sig = a ++ q :: b /\ In p b).
        { assert (Ep' : filter (fun p => negb (String.eqb (pname p) name)) sig = rev rp ++ [p]) by exact Ep.
          clear -Ep' Hq. revert rp Ep' Hq. set (g := fun p : param => negb (String.eqb (pname p) name)).
          assert (X : forall l l', filter g sig = l ++ [p] -> In q l -> l' = l -> exists a b, sig = a ++ q :: b /\ In p b).
          { induction sig as [|x sig IH]; intros l l' H Hq _; simpl in H.
            - destruct l; discriminate.
            - destruct (g x) eqn:Gx.
              + destruct l as [|y l]; [destruct Hq|]. injection H as -> H. destruct Hq as [->|Hq].
                * exists [], sig. split; [reflexivity|]. assert (In p (filter g sig)) by (rewrite H; apply in_or_app; simpl; auto).
                  apply filter_In in H0. tauto.
                * destruct (IH l l H Hq eq_refl) as (a & b & -> & Hp). exists (y :: a), b. split; [reflexivity|exact Hp].
              + destruct (IH l l H Hq eq_refl) as (a & b & -> & Hp). exists (x :: a), b. split; [reflexivity|exact Hp]. }
          intros rp Ep' Hq. exact (X (rev rp) (rev rp) Ep' Hq eq_refl). }
        destruct Hin as (a & b & Es & Hp). exact (L a b q p Es Hp E4). }
      destruct (Nat.eqb_spec (pkind p) 4) as [E4|N4].
      + exists (rev rp), [p]. assert (Ln : (List.length params - 1)%nat = List.length (rev rp)) by (rewrite Ep, app_length; simpl; lia).
        cbv zeta. rewrite Ln, Ep. rewrite firstn_app, firstn_all, Nat.sub_diag, skipn_app, skipn_all, Nat.sub_diag. simpl.
        rewrite app_nil_r. repeat split; auto. intros q [<-|[]]. exact E4.
      + exists params, []. cbv zeta. rewrite firstn_all, skipn_all, app_nil_r. repeat split; auto; [|easy].
        intros q Hq. rewrite Ep in Hq. apply in_app_or in Hq. destruct Hq as [Hq|[<-|[]]]; [auto|].
        assert (Hs : In p sig) by (assert (In p params) by (rewrite Ep; apply in_or_app; simpl; auto); apply filter_In in H; tauto).
        specialize (K p Hs). lia. }
  destruct G as (a & b & G & Eab & Ka & Kb). cbv zeta in G. destruct G as [-> ->].
  rewrite Eab in Sp, Np, Nn.
  split; [|split; [|split]].
  - assert (Sab : StronglySorted (fun p q => (pkind p <= pkind q)%nat) a /\ StronglySorted (fun p q => (pkind p <= pkind q)%nat) b).
    { clear -Sp. induction a as [|x a IH]; simpl in Sp; [split; [constructor|exact Sp]|].
      inversion_clear Sp as [|? ? S F]. destruct (IH S) as [A B]. split; [|exact B]. constructor; [exact A|].
      apply Forall_app in F. tauto. }
    apply ssorted_app; [tauto| |].
    + constructor; [tauto|]. apply Forall_forall. intros q Hq. cbn [pkind]. rewrite (Kb q Hq). lia.
    + intros p q Hp [<-|Hq]; cbn [pkind]; [auto|]. rewrite (Kb q Hq). specialize (Ka p Hp). lia.
  - rewrite map_app in *. cbn [map pname]. apply NoDup_Add with (a := name) (l := map pname a ++ map pname b).
    + apply Add_app.
    + split; [exact Np|]. rewrite <- map_app. intro H. apply in_map_iff in H. destruct H as (q & E & H). exact (Nn q H E).
  - apply in_or_app. right. left. reflexivity.
  - change (filter (fun p => negb (String.eqb (pname p) name)) sig) with params. rewrite Eab.
    rewrite filter_app. cbn [filter pname]. rewrite String.eqb_refl. cbn [negb]. rewrite <- filter_app.
    assert (F : forall l, (forall p, In p l -> pname p <> name) -> filter (fun p => negb (String.eqb (pname p) name)) l = l).
    { clear. induction l as [|x l IH]; intro H; [reflexivity|]. simpl. destruct (String.eqb_spec (pname x) name) as [E|_].
      - exfalso. exact (H x (or_introl eq_refl) E).
      - simpl. rewrite IH; [reflexivity|]. intros; apply H; simpl; auto. }
    apply F, Nn.
Qed.
Print Assumptions c30_signature.

Example c30_example :
  let f1 : pyfun := fun args kw => ([], Ret (VDict kw)) in
  let f2 : pyfun := fun args kw => ([], Ret (VList args)) in
  let f := register_all (function_with_variants "hz2bark" f1 "mode" "traunmuller" None)
             [("zwicker", f1); ("traunmuller", f1); ("traunmuller", f2)] in
  variants_call (fun _ => "") f [VInt 3] [] = ([], Ret (VList [VInt 3])) /\
  variants_call (fun _ => "") f [] [("out", VNone); ("mode", VStr "zwicker")] = ([], Ret (VDict [("out", VNone)])) /\
  variants_call (fun _ => "") f [] [("mode", VStr "wang")] =
    ([], Raise ValueError "hz2bark: unsupported option 'wang' for argument 'mode'. Supported options are: 'zwicker', 'traunmuller'").
Proof. repeat split. Qed.
Example c30_signature_example :
  map pname (add_keyword_arg "mode" [mkParam "f" 1; mkParam "out" 1; mkParam "kwargs" 4]) = ["f"; "out"; "mode"; "kwargs"].
Proof. reflexivity. Qed.

(** ** C28: deprecated arguments *)

(** The text of a warning. *)
Definition warning_text (old new : string) (msg : option string) : string :=
  ("The '" ++ old ++ "' argument is deprecated, use '" ++ new ++ "' instead." ++
   match msg with None => "" | Some m => " " ++ m end)%string.

(** A renamed argument: the function gets its value under the new name (even if
    the new name was also given), all other keywords as they were, in the same
    order; one warning is issued before those of the function. *)
Theorem c28_rename : forall d func args kwargs new v,
  new_key d = Some new -> convert d = None -> dprefix d = false ->
  dget (old_key d) kwargs = Some v ->
  exists kwargs',
    deprecated d func args kwargs =
      ((if dwarn d then [warning_text (old_key d) new (dmsg d)] else []) ++ fst (func args kwargs'),
       snd (func args kwargs')) /\
    (forall k, dget k kwargs' = if String.eqb k new then Some v
                                else if String.eqb k (old_key d) then None else dget k kwargs) /\
    (dwf kwargs -> dwf kwargs') /\
    let others := filter (fun p : string * val => negb (String.eqb (fst p) (old_key d) || String.eqb (fst p) new)) in
    others kwargs' = others kwargs.
Proof.
  intros d func args kwargs new v En Ec Ep Ev. exists (dset new v (ddel (old_key d) kwargs)).
  split; [|split; [|split]].
  - unfold deprecated, key_map. rewrite Ep. cbn [depr_loop]. rewrite Ev, Ec, En. unfold depr_warning, fstr.
    destruct (func args _) as [w r]. cbn [fst snd]. now rewrite app_nil_r.
  - intro k. rewrite dget_dset, dget_ddel, (String.eqb_sym new k), (String.eqb_sym (old_key d) k). reflexivity.
  - intro W. now apply dwf_dset, dwf_ddel.
  - cbv zeta. set (o := old_key d). clearbody o. clear -kwargs. unfold ddel. induction kwargs as [|[k u] kw IH].
    + simpl. rewrite String.eqb_refl, orb_true_r. reflexivity.
    + simpl. destruct (String.eqb_spec k o) as [->|N]; simpl; [exact IH|].
      destruct (String.eqb_spec k new) as [->|N']; simpl.
      * rewrite String.eqb_refl, orb_true_r. simpl. clear IH. induction kw as [|[k u'] kw IH]; [reflexivity|].
        simpl. destruct (String.eqb_spec k o) as [->|]; simpl; [exact IH|].
        destruct (String.eqb_spec k o); [congruence|]. simpl. destruct (String.eqb k new); simpl; [exact IH|]. now rewrite IH.
      * destruct (String.eqb_spec k o); [congruence|]. destruct (String.eqb_spec k new); [congruence|]. simpl. now rewrite IH.
Qed.
Print Assumptions c28_rename.

(** Calls without a deprecated argument are left alone. *)
Theorem c28_absent : forall d func args kwargs,
  (if dprefix d then forall k, In k (dkeys kwargs) -> String.prefix (old_key d) k = false
   else dget (old_key d) kwargs = None) ->
  deprecated d func args kwargs = func args kwargs.
Proof.
  intros d func args kwargs H. unfold deprecated, key_map. destruct (dprefix d).
  - replace (filter (String.prefix (old_key d)) (dkeys kwargs)) with (@nil string).
    + cbn [map depr_loop]. destruct (func args kwargs). reflexivity.
    + symmetry. induction (dkeys kwargs) as [|k l IH]; [reflexivity|]. cbn [filter]. rewrite (H k) by (left; reflexivity).
      apply IH. intros; apply H. now right.
  - cbn [depr_loop]. rewrite H. destruct (func args kwargs). reflexivity.
Qed.
Print Assumptions c28_absent.

Lemma sdrop_app : forall p r, sdrop (String.length p) (p ++ r)%string = r.
Proof. induction p as [|x p IH]; intro r; simpl; [now destruct r|apply IH]. Qed.

Definition in_list (k : string) (l : list string) : bool := existsb (String.eqb k) l.
Lemma in_list_spec : forall k l, in_list k l = true <-> In k l.
Proof.
  intros k l. unfold in_list. rewrite existsb_exists. split.
  - intros (x & H & E). apply String.eqb_eq in E. now subst.
  - intro H. exists k. split; [exact H|apply String.eqb_refl].
Qed.

Lemma prefix_loop : forall d args old new, convert d = None ->
  forall ks kw, NoDup ks ->
  (forall k, In k ks -> exists r, k = (old ++ r)%string /\ String.prefix old (new ++ r) = false) ->
  (forall k, In k ks -> dget k kw <> None) ->
  exists kw',
    depr_loop d args (map (fun k => (k, Some (new ++ sdrop (String.length old) k)%string)) ks) kw =
      (flat_map (fun k => depr_warning d k (Some (new ++ sdrop (String.length old) k)%string)) ks, Ret kw') /\
    (dwf kw -> dwf kw') /\
    forall k, dget k kw' =
      if in_list k ks then None
      else match (if String.prefix new k && in_list (old ++ sdrop (String.length new) k)%string ks
                  then dget (old ++ sdrop (String.length new) k)%string kw else None) with
           | Some v => Some v
           | None => dget k kw
           end.
Proof.
  intros d args old new Hc. induction ks as [|k0 ks IH]; intros kw Nd Hk Hp.
  - exists kw. split; [reflexivity|]. split; [auto|]. intro k. cbn [in_list existsb]. now rewrite andb_false_r.
  - destruct (Hk k0 (or_introl eq_refl)) as (r0 & E0 & P0).
    destruct (dget k0 kw) as [v|] eqn:Ev; [|exfalso; exact (Hp k0 (or_introl eq_refl) Ev)].
    inversion_clear Nd as [|? ? N0 Nd'].
    assert (Dr : sdrop (String.length old) k0 = r0) by (rewrite E0; apply sdrop_app).
    set (kw1 := dset (new ++ r0)%string v (ddel k0 kw)).
    assert (G1 : forall k, dget k kw1 = if String.eqb (new ++ r0)%string k then Some v else if String.eqb k0 k then None else dget k kw)
      by (intro k; unfold kw1; now rewrite dget_dset, dget_ddel).
    assert (Np : forall k, String.prefix old k = true -> String.eqb (new ++ r0)%string k = false).
    { intros k P. apply String.eqb_neq. intros <-. congruence. }
    assert (Po : forall k, In k ks -> String.prefix old k = true).
    { intros k H. destruct (Hk k (or_intror H)) as (r & -> & _). apply prefix_app. }
    assert (P00 : String.prefix old k0 = true) by (rewrite E0; apply prefix_app).
    destruct (IH kw1 Nd') as (kw' & El & Wf & L).
    + intros k H. apply Hk. now right.
    + intros k H. rewrite G1, Np by auto. destruct (String.eqb_spec k0 k) as [->|]; [contradiction|].
      apply Hp. now right.
    + exists kw'. split; [|split].
      * cbn [map depr_loop flat_map]. rewrite Ev, Hc. rewrite Dr. fold kw1. rewrite El. reflexivity.
      * intro W. apply Wf. now apply dwf_dset, dwf_ddel.
      * intro k. rewrite L. unfold in_list at 3. cbn [existsb]. fold (in_list k ks).
        destruct (in_list k ks) eqn:Ik; [now rewrite orb_true_r|]. rewrite orb_false_r.
        destruct (String.eqb_spec k k0) as [->|Nk].
        -- destruct (String.prefix new k0) eqn:Pn; cbn [andb].
           ++ apply prefix_spec in Pn. destruct Pn as (r & Er). assert (Dn : sdrop (String.length new) k0 = r) by (rewrite Er; apply sdrop_app).
              rewrite Dn. destruct (in_list (old ++ r)%string ks) eqn:Ir.
              ** exfalso. apply in_list_spec in Ir. destruct (Hk _ (or_intror Ir)) as (r' & E' & P').
                 apply sapp_inj in E'. subst r'. rewrite <- Er in P'. congruence.
              ** now rewrite G1, Np, String.eqb_refl by exact P00.
           ++ now rewrite G1, Np, String.eqb_refl by exact P00.
        -- assert (G2 : String.eqb (new ++ r0)%string k = false -> dget k kw1 = dget k kw).
           { intro H. rewrite G1, H. destruct (String.eqb_spec k0 k); [congruence|reflexivity]. }
           destruct (String.prefix new k) eqn:Pn; cbn [andb].
           ++ apply prefix_spec in Pn. destruct Pn as (r & Er). assert (Dn : sdrop (String.length new) k = r) by (rewrite Er; apply sdrop_app).
              rewrite Dn. unfold in_list at 2. cbn [existsb]. fold (in_list (old ++ r)%string ks).
              destruct (in_list (old ++ r)%string ks) eqn:Ir.
              ** rewrite orb_true_r. assert (Hr : In (old ++ r)%string ks) by now apply in_list_spec.
                 rewrite G1, Np by apply prefix_app. destruct (String.eqb_spec k0 (old ++ r)%string) as [->|]; [contradiction|].
                 destruct (dget (old ++ r)%string kw) eqn:Eo; [reflexivity|exfalso; exact (Hp _ (or_intror Hr) Eo)].
              ** rewrite orb_false_r. destruct (String.eqb_spec (old ++ r)%string k0) as [E|N].
                 --- rewrite E, Ev. rewrite E0 in E. apply sapp_inj in E. rewrite G1, Er, E, String.eqb_refl. reflexivity.
                 --- apply G2. apply String.eqb_neq. rewrite Er. intro E. apply sapp_inj in E. apply N. rewrite E0, E. reflexivity.
           ++ apply G2. apply String.eqb_neq. intros <-. rewrite prefix_app in Pn. discriminate.
Qed.

(** With [prefix=True] exactly the keywords that start with the prefix are
    renamed, if no new name starts with the old prefix again; one warning for
    each of them, in the order of the call. *)
Theorem c28_prefix : forall d func args kwargs new,
  new_key d = Some new -> convert d = None -> dprefix d = true -> dwf kwargs ->
  (forall r, dget (old_key d ++ r)%string kwargs <> None -> String.prefix (old_key d) (new ++ r) = false) ->
  exists kwargs',
    deprecated d func args kwargs =
      ((if dwarn d then
          map (fun k => warning_text k (new ++ sdrop (String.length (old_key d)) k)%string (dmsg d))
            (filter (String.prefix (old_key d)) (map fst kwargs))
        else []) ++ fst (func args kwargs'), snd (func args kwargs')) /\
    dwf kwargs' /\
    (forall r, dget (old_key d ++ r)%string kwargs' = None) /\
    (forall r v, dget (old_key d ++ r)%string kwargs = Some v -> dget (new ++ r)%string kwargs' = Some v) /\
    (forall k, String.prefix (old_key d) k = false ->
       (forall r, k = (new ++ r)%string -> dget (old_key d ++ r)%string kwargs = None) ->
       dget k kwargs' = dget k kwargs).
Proof.
  intros d func args kwargs new En Ec Ep W Hn. set (old := old_key d) in *.
  set (ks := filter (String.prefix old) (dkeys kwargs)).
  assert (Iks : forall k, In k ks <-> In k (dkeys kwargs) /\ String.prefix old k = true) by (intro; apply filter_In).
  destruct (prefix_loop d args old new Ec ks kwargs) as (kw' & El & Wf & L).
  - apply NoDup_filter, W.
  - intros k H. apply Iks in H. destruct H as [H P]. apply prefix_spec in P. destruct P as (r & ->). exists r.
    split; [reflexivity|]. apply Hn. apply dget_keys in H. destruct H as (v & ->). discriminate.
  - intros k H. apply Iks in H. destruct H as [H P]. apply dget_keys in H. destruct H as (v & ->). discriminate.
  - assert (Il : forall r, in_list (old ++ r)%string ks = match dget (old ++ r)%string kwargs with Some _ => true | None => false end).
    { intro r. destruct (in_list (old ++ r)%string ks) eqn:I.
      - apply in_list_spec, Iks in I. destruct I as [I _]. apply dget_keys in I. destruct I as (v & ->). reflexivity.
      - destruct (dget (old ++ r)%string kwargs) eqn:G; [|reflexivity].
        assert (T : in_list (old ++ r)%string ks = true); [|congruence].
        apply in_list_spec, Iks. split; [apply dget_keys; eauto|apply prefix_app]. }
    assert (In0 : forall k, String.prefix old k = false -> in_list k ks = false).
    { intros k P. destruct (in_list k ks) eqn:I; [|reflexivity]. apply in_list_spec, Iks in I. destruct I as [_ I]. congruence. }
    exists kw'. split; [|split; [|split; [|split]]].
    + unfold deprecated, key_map. rewrite Ep, En. unfold fstr. fold old. fold ks. rewrite El.
      destruct (func args kw') as [w r]. cbn [fst snd]. f_equal. f_equal. change (map fst kwargs) with (dkeys kwargs). fold ks.
      unfold depr_warning, fstr. destruct (dwarn d).
      * clear. induction ks as [|k ks IH]; [reflexivity|]. cbn [flat_map map]. rewrite <- IH. reflexivity.
      * clear. induction ks as [|k ks IH]; [reflexivity|]. cbn [flat_map]. exact IH.
    + exact (Wf W).
    + intro r. rewrite L, Il. destruct (dget (old ++ r)%string kwargs) eqn:G; [reflexivity|].
      destruct (String.prefix new (old ++ r)) eqn:Pn; cbn [andb].
      * apply prefix_spec in Pn. destruct Pn as (r' & Er'). rewrite Er', sdrop_app, Il.
        destruct (dget (old ++ r')%string kwargs) eqn:G'.
        -- assert (P' : String.prefix old (new ++ r') = false) by (apply Hn; congruence). rewrite <- Er', prefix_app in P'. discriminate.
        -- reflexivity.
      * reflexivity.
    + intros r v G. rewrite L. rewrite (In0 _ (Hn r ltac:(congruence))). rewrite prefix_app, sdrop_app, Il, G. reflexivity.
    + intros k P Hk. rewrite L, (In0 k P). destruct (String.prefix new k) eqn:Pn; cbn [andb]; [|reflexivity].
      apply prefix_spec in Pn. destruct Pn as (r & ->). rewrite sdrop_app, Il, (Hk r eq_refl). reflexivity.
Qed.
Print Assumptions c28_prefix.

(** Without that condition an argument can be lost: renaming the prefix "a" to
    "aa", the value of "aa" is overwritten before it is renamed. *)
Theorem c28_prefix_collision_refuted : exists d kwargs,
  dprefix d = true /\ depr_check d = Ret tt /\ dwf kwargs /\ dget "aa" kwargs = Some (VInt 2) /\
  forall func args, exists kwargs', snd (deprecated d func args kwargs) = snd (func args kwargs') /\
    forall k, dget k kwargs' <> Some (VInt 2).
Proof.
  exists (mkDepr "a" (Some "aa") None None true true), [("a", VInt 1); ("aa", VInt 2)].
  split; [reflexivity|]. split; [reflexivity|]. split.
  { unfold dwf. simpl. repeat constructor; simpl; intuition discriminate. }
  split; [reflexivity|]. intros func args. exists [("aaa", VInt 1)]. split.
  - unfold deprecated. cbn. destruct (func args [("aaa", VInt 1)]). reflexivity.
  - intro k. cbn [dget]. destruct (String.eqb "aaa" k); discriminate.
Qed.
Print Assumptions c28_prefix_collision_refuted.

(** A conversion: it sees the arguments of the call; if it raises, so does the
    call, silently; else its value replaces the argument. *)
Theorem c28_convert : forall d c func args kwargs v, convert d = Some c -> dprefix d = false ->
  dget (old_key d) kwargs = Some v ->
  match c args kwargs with
  | Raise e m => deprecated d func args kwargs = ([], Raise e m)
  | Ret (new, x) =>
    exists kwargs',
      deprecated d func args kwargs =
        ((if dwarn d then [warning_text (old_key d) new (dmsg d)] else []) ++ fst (func args kwargs'),
         snd (func args kwargs')) /\
      forall k, dget k kwargs' = if String.eqb k new then Some x
                                 else if String.eqb k (old_key d) then None else dget k kwargs
  end.
Proof.
  intros d c func args kwargs v Ec Ep Ev. unfold deprecated, key_map. rewrite Ep. cbn [depr_loop]. rewrite Ev, Ec.
  destruct (c args kwargs) as [[new x]|e m]; [|reflexivity].
  exists (dset new x (ddel (old_key d) kwargs)). split.
  - unfold depr_warning, fstr. destruct (func args _) as [w r]. cbn [fst snd]. now rewrite app_nil_r.
  - intro k. rewrite dget_dset, dget_ddel, (String.eqb_sym new k), (String.eqb_sym (old_key d) k). reflexivity.
Qed.
Print Assumptions c28_convert.

(** Stacked renamings. *)
Definition rename_table (ds : list depr) : list (string * string) :=
  flat_map (fun d => match convert d, new_key d with None, Some n => [(old_key d, n)] | _, _ => [] end) ds.
(** Value of [k] after all renamings of a table. *)
Definition renamed_get (table : list (string * string)) (kwargs : dict val) (k : string) : option val :=
  if existsb (fun p => String.eqb (fst p) k) table then None
  else match find (fun p => String.eqb (snd p) k) table with
       | Some (o, _) => match dget o kwargs with Some v => Some v | None => dget k kwargs end
       | None => dget k kwargs
       end.

Lemma Forall_impl_in : forall A (P Q : A -> Prop) l, (forall x, In x l -> P x -> Q x) -> Forall P l -> Forall Q l.
Proof. intros A P Q l H F. rewrite Forall_forall in *. auto. Qed.
Lemma flat_map_ext_in : forall A B (f g : A -> list B) l, (forall x, In x l -> f x = g x) -> flat_map f l = flat_map g l.
Proof. induction l as [|x l IH]; intro H; [reflexivity|]. simpl. rewrite H by (left; reflexivity). rewrite IH; [reflexivity|]. intros; apply H; now right. Qed.
Lemma deprecated_chain : forall ds kw,
  Forall (fun d => dprefix d = false /\ dmsg d = None /\ dwarn d = true /\
                   ((convert d = None /\ new_key d <> None))
                   \/ (dprefix d = false /\ dget (old_key d) kw = None /\ convert d <> None)) ds ->
  NoDup (map fst (rename_table ds)) -> NoDup (map snd (rename_table ds)) ->
  (forall o, In o (map old_key ds) -> ~ In o (map snd (rename_table ds))) ->
  exists kw',
    (forall func args, deprecated_all ds func args kw =
       (flat_map (fun p => match dget (fst p) kw with
                           | Some _ => [warning_text (fst p) (snd p) None] | None => [] end) (rename_table ds)
        ++ fst (func args kw'), snd (func args kw'))) /\
    (dwf kw -> dwf kw') /\
    forall k, dget k kw' = renamed_get (rename_table ds) kw k.
Proof.
  induction ds as [|d ds IH]; intros kw Hd No Nn Di.
  - exists kw. split; [|split; [auto|reflexivity]]. intros func args. cbn. now destruct (func args kw).
  - inversion_clear Hd as [|? ? Hd0 Hds]. cbn [rename_table flat_map] in *. fold (rename_table ds) in *.
    destruct Hd0 as [(Ep & Em & Ew & (Ec & En))|(Ep & Ev & Ec)].
    + destruct (new_key d) as [n|] eqn:En'; [|congruence]. rewrite Ec in *. cbn [app map fst snd] in *.
      inversion_clear No as [|? ? No0 No']. inversion_clear Nn as [|? ? Nn0 Nn'].
      assert (Hon : old_key d <> n).
      { intro E. apply (Di (old_key d)); [left; reflexivity|]. left. auto. }
      set (kw1 := match dget (old_key d) kw with Some v => dset n v (ddel (old_key d) kw) | None => kw end).
      assert (G1 : forall k, dget k kw1 =
        match dget (old_key d) kw with
        | Some v => if String.eqb n k then Some v else if String.eqb (old_key d) k then None else dget k kw
        | None => dget k kw end).
      { intro k. unfold kw1. destruct (dget (old_key d) kw); [now rewrite dget_dset, dget_ddel|reflexivity]. }
      destruct (IH kw1) as (kw' & E & Wf & L); auto.
      * eapply Forall_impl_in; [|exact Hds]. intros d' Hin [H|(P & Q & S)]; [left; exact H|right]. split; [exact P|]. split; [|exact S].
        rewrite G1. destruct (dget (old_key d) kw); [|exact Q]. rewrite Q.
        destruct (String.eqb_spec n (old_key d')) as [E|_]; [|now destruct (String.eqb _ _)].
        exfalso. apply (Di (old_key d')); [right; now apply in_map|]. left. exact E.
      * intros o Ho H. apply (Di o); [right; exact Ho|]. right. exact H.
      * exists kw'. split; [|split].
        -- intros func args. cbn [deprecated_all fold_right]. fold (deprecated_all ds func).
           unfold deprecated at 1. unfold key_map. rewrite Ep. cbn [depr_loop].
           assert (Ew1 : flat_map (fun p => match dget (fst p) kw1 with Some _ => [warning_text (fst p) (snd p) None] | None => [] end) (rename_table ds) =
                         flat_map (fun p => match dget (fst p) kw with Some _ => [warning_text (fst p) (snd p) None] | None => [] end) (rename_table ds)).
           { apply flat_map_ext_in. intros [o m] Hin. cbn [fst snd]. rewrite G1.
             destruct (dget (old_key d) kw) eqn:Ev; [|reflexivity].
             destruct (String.eqb_spec n o) as [->|_].
             - exfalso. apply (Di o); [right|left; reflexivity]. clear -Hin. unfold rename_table in Hin. apply in_flat_map in Hin.
               destruct Hin as (d' & Hd' & Hin). destruct (convert d'); [destruct Hin|]. destruct (new_key d'); [|destruct Hin].
               destruct Hin as [[= <- <-]|[]]. now apply in_map.
             - destruct (String.eqb_spec (old_key d) o) as [<-|_]; [|reflexivity]. exfalso. apply No0.
               change (old_key d) with (fst (old_key d, m)). now apply in_map. }
           destruct (dget (old_key d) kw) as [v|] eqn:Ev.
           ++ rewrite Ec, En'. fold kw1 in E. change (dset n v (ddel (old_key d) kw)) with kw1. rewrite E, Ew1.
              unfold depr_warning. rewrite Ew, Em. cbn [flat_map fst snd app]. rewrite Ev. reflexivity.
           ++ change kw with kw1 at 1. rewrite E, Ew1. cbn [flat_map fst snd app]. rewrite Ev. reflexivity.
        -- intro W. apply Wf. unfold kw1. destruct (dget (old_key d) kw); [now apply dwf_dset, dwf_ddel|exact W].
        -- intro k. rewrite L. unfold renamed_get. cbn [existsb find fst snd].
           destruct (existsb (fun p => String.eqb (fst p) k) (rename_table ds)) eqn:Ex; [now rewrite orb_true_r|]. rewrite orb_false_r.
           assert (Fk : String.eqb (old_key d) k = true -> find (fun p => String.eqb (snd p) k) (rename_table ds) = None).
           { intro H. apply String.eqb_eq in H. subst k. destruct (find _ _) as [[o m]|] eqn:F; [|reflexivity]. exfalso.
             apply find_some in F. destruct F as [F1 F2]. cbn [snd] in F2. apply String.eqb_eq in F2. subst m.
             apply (Di (old_key d)); [left; reflexivity|]. right. change (old_key d) with (snd (o, old_key d)). now apply in_map. }
           destruct (String.eqb_spec (old_key d) k) as [<-|Nk].
           ++ rewrite (Fk eq_refl), G1. destruct (dget (old_key d) kw) eqn:Ev; [|first [exact Ev|reflexivity]].
              destruct (String.eqb_spec n (old_key d)); [congruence|]. now rewrite String.eqb_refl.
           ++ destruct (String.eqb_spec n k) as [->|Nn1].
              ** assert (Fn : find (fun p => String.eqb (snd p) k) (rename_table ds) = None).
                 { destruct (find _ _) as [[o m]|] eqn:F; [|reflexivity]. exfalso. apply find_some in F. destruct F as [F1 F2].
                   cbn [snd] in F2. apply String.eqb_eq in F2. subst m. apply Nn0. change k with (snd (o, k)). now apply in_map. }
                 rewrite Fn, G1. destruct (dget (old_key d) kw); [now rewrite String.eqb_refl|reflexivity].
              ** assert (Gk : forall o, n <> o -> old_key d <> o -> dget o kw1 = dget o kw).
                 { intros o A B. rewrite G1. destruct (dget (old_key d) kw); [|reflexivity].
                   destruct (String.eqb_spec n o); [congruence|]. destruct (String.eqb_spec (old_key d) o); [congruence|reflexivity]. }
                 rewrite (Gk k Nn1 Nk). destruct (find _ _) as [[o m]|] eqn:F; [|reflexivity]. apply find_some in F. destruct F as [F1 _].
                 rewrite Gk; [reflexivity| |].
                 --- intros ->. apply (Di o); [right|left; reflexivity]. clear -F1. unfold rename_table in F1. apply in_flat_map in F1.
                     destruct F1 as (d' & Hd' & Hin). destruct (convert d'); [destruct Hin|]. destruct (new_key d'); [|destruct Hin].
                     destruct Hin as [[= <- <-]|[]]. now apply in_map.
                 --- intro E1. apply No0. rewrite E1. change o with (fst (o, m)). now apply in_map.
    + assert (Et : match convert d, new_key d with None, Some n => [(old_key d, n)] | _, _ => [] end = []).
      { destruct (convert d); [reflexivity|congruence]. }
      rewrite Et in *. cbn [app] in *. destruct (IH kw Hds No Nn) as (kw' & E & Wf & L).
      * intros o Ho. apply Di. now right.
      * exists kw'. split; [|split; [exact Wf|exact L]]. intros func args. cbn [deprecated_all fold_right].
        fold (deprecated_all ds func). rewrite c28_absent; [apply E|]. rewrite Ep. exact Ev.
Qed.

(** The old keywords of [SinusoidalModel] (except for two, see below), in the
    constructor and in [set_params]: any call behaves as with the new ones. *)
Definition sinusoidal_table : list (string * string) :=
  [("max_n_sines", "tracker__max_n_sines"); ("min_sine_dur", "tracker__min_sine_dur");
   ("freq_dev_offset", "tracker__freq_dev_offset"); ("freq_dev_slope", "tracker__freq_dev_slope");
   ("save_intermediate", "intermediate__save"); ("fs", "tracker__fs"); ("h", "tracker__h")].
Theorem c28_sinusoidal_model : forall construct kwargs,
  dget "safe_sine_len" kwargs = None -> dget "sine_tracker_cls" kwargs = None ->
  exists kwargs',
    (forall func args, deprecated_all (sinusoidal_decorators construct) func args kwargs =
       (flat_map (fun p => match dget (fst p) kwargs with
                           | Some _ => [warning_text (fst p) (snd p) None] | None => [] end) sinusoidal_table
        ++ fst (func args kwargs'), snd (func args kwargs'))) /\
    (dwf kwargs -> dwf kwargs') /\
    forall k, dget k kwargs' = renamed_get sinusoidal_table kwargs k.
Proof.
  intros construct kwargs H1 H2.
  apply (deprecated_chain (sinusoidal_decorators construct)).
  - apply Forall_forall. intros d Hd.
    repeat (destruct Hd as [<-|Hd];
      [first [left; split; [reflexivity|]; split; [reflexivity|]; split; [reflexivity|]; split; [reflexivity|discriminate]
             |right; split; [reflexivity|]; split; [assumption|discriminate]]|]).
    destruct Hd.
  - cbn. repeat constructor; simpl; intuition discriminate.
  - cbn. repeat constructor; simpl; intuition discriminate.
  - cbn. intros o H H'. intuition (subst; discriminate).
Qed.
Print Assumptions c28_sinusoidal_model.

Definition modal_table : list (string * string) :=
  [("reverse", "tracker__reverse"); ("frequency_bounds", "tracker__frequency_bounds");
   ("peak_threshold", "tracker__peak_threshold"); ("merge_strategy", "tracker__merge_strategy");
   ("strip_t", "tracker__strip_t")].
Theorem c28_modal_model : forall kwargs, exists kwargs',
  (forall func args, deprecated_all modal_decorators func args kwargs =
     (flat_map (fun p => match dget (fst p) kwargs with
                         | Some _ => [warning_text (fst p) (snd p) None] | None => [] end) modal_table
      ++ fst (func args kwargs'), snd (func args kwargs'))) /\
  (dwf kwargs -> dwf kwargs') /\
  forall k, dget k kwargs' = renamed_get modal_table kwargs k.
Proof.
  intro kwargs. apply (deprecated_chain modal_decorators).
  - apply Forall_forall. intros d Hd.
    repeat (destruct Hd as [<-|Hd];
      [left; split; [reflexivity|]; split; [reflexivity|]; split; [reflexivity|]; split; [reflexivity|discriminate]|]).
    destruct Hd.
  - cbn. repeat constructor; simpl; intuition discriminate.
  - cbn. repeat constructor; simpl; intuition discriminate.
  - cbn. intros o H H'. intuition (subst; discriminate).
Qed.
Print Assumptions c28_modal_model.

(** The old keyword [sine_tracker_cls] can never be used: on every method call
    (there is a [self]) it raises TypeError. *)
Theorem c28_sine_tracker_cls_raises : forall construct func self args kwargs v,
  dget "sine_tracker_cls" kwargs = Some v ->
  exists msg, snd (deprecated_all (sinusoidal_decorators construct) func (self :: args) kwargs) = Raise TypeError msg.
Proof.
  intros construct func self args kwargs v H. unfold sinusoidal_decorators, deprecated_all.
  assert (Ren : forall o n g kw, String.eqb o "sine_tracker_cls" = false -> String.eqb n "sine_tracker_cls" = false ->
    dget "sine_tracker_cls" kw = Some v ->
    exists kw1, snd (deprecated (renamed o n) g (self :: args) kw) = snd (g (self :: args) kw1) /\
      dget "sine_tracker_cls" kw1 = Some v).
  { intros o n g kw Ho Hn Hk. destruct (dget o kw) as [u|] eqn:Eo.
    - destruct (c28_rename (renamed o n) g (self :: args) kw n u eq_refl eq_refl eq_refl Eo) as (kw1 & E & L & _).
      exists kw1. rewrite E. split; [reflexivity|]. rewrite L, String.eqb_sym, Hn. cbn [old_key renamed].
      now rewrite String.eqb_sym, Ho.
    - exists kw. rewrite c28_absent by exact Eo. auto. }
  cbn [fold_right].
  match goal with |- exists msg, snd (deprecated (renamed ?o ?n) ?g _ ?kw) = _ =>
    destruct (Ren o n g kw eq_refl eq_refl H) as (k1 & E1 & H1) end. rewrite E1.
  match goal with |- exists msg, snd (deprecated (renamed ?o ?n) ?g _ ?kw) = _ =>
    destruct (Ren o n g kw eq_refl eq_refl H1) as (k2 & E2 & H2) end. rewrite E2. clear E1 E2 H H1.
  set (G := deprecated (renamed "freq_dev_offset" "tracker__freq_dev_offset") _).
  assert (HG : forall kw, dget "sine_tracker_cls" kw = Some v -> exists msg, snd (G (self :: args) kw) = Raise TypeError msg).
  { intros kw Hk. unfold G.
    match goal with |- exists msg, snd (deprecated (renamed ?o ?n) ?g _ ?kw) = _ =>
    destruct (Ren o n g kw eq_refl eq_refl Hk) as (k3 & E3 & H3) end. rewrite E3.
    match goal with |- exists msg, snd (deprecated (renamed ?o ?n) ?g _ ?kw) = _ =>
    destruct (Ren o n g kw eq_refl eq_refl H3) as (k4 & E4 & H4) end. rewrite E4.
    unfold deprecated at 1. unfold key_map. cbn [dprefix old_key new_key depr_loop]. rewrite H4. cbn [convert].
    unfold sine_tracker_cls, bind1. destruct args as [|a args'].
    - rewrite dmem_dget, H4. eexists. reflexivity.
    - eexists. reflexivity. }
  unfold deprecated at 1. unfold key_map. cbn [dprefix old_key new_key depr_loop].
  destruct (dget "safe_sine_len" k2) as [u|] eqn:Es.
  - cbn [convert]. unfold safe_sine_len, bind1. destruct args as [|a args']; [|eexists; reflexivity].
    destruct (dmem "_" k2); [eexists; reflexivity|]. rewrite Es. unfold pymax.
    destruct (as_num _); [|eexists; reflexivity]. destruct (as_num _); [|eexists; reflexivity].
    cbn [snd]. match goal with |- context [G _ ?kw] => destruct (HG kw) as (msg & EG) end.
    + rewrite dget_dset, dget_ddel. cbn. exact H2.
    + exists msg. match goal with |- context [let '(_, _) := ?p in _] => destruct p eqn:Epair end.
      cbn [snd]. first [exact EG|rewrite Epair in EG; exact EG].
  - destruct (HG k2 H2) as (msg & EG). exists msg.
    match goal with |- context [let '(_, _) := ?p in _] => destruct p eqn:Epair end.
    cbn [snd]. first [exact EG|rewrite Epair in EG; exact EG].
Qed.
Print Assumptions c28_sine_tracker_cls_raises.

(** [safe_sine_len]: the larger of it and the minimum duration (1 unless given)
    becomes the minimum duration; but together with a positional argument the
    call raises TypeError. *)
Theorem c28_safe_sine_len : forall self kwargs n m, dget "_" kwargs = None ->
  (dget "safe_sine_len" kwargs = Some (VInt n) \/ (dget "safe_sine_len" kwargs = Some VNone /\ n = (-1)%Z)) ->
  (dget "tracker__min_sine_dur" kwargs = Some (VInt m) \/ (dget "tracker__min_sine_dur" kwargs = None /\ m = 1%Z)) ->
  safe_sine_len [self] kwargs = Ret ("tracker__min_sine_dur", VInt (Z.max n m)) /\
  forall a args, exists msg, safe_sine_len (self :: a :: args) kwargs = Raise TypeError msg.
Proof.
  intros self kwargs n m Hu Hn Hm. split.
  - unfold safe_sine_len, bind1. rewrite dmem_dget, Hu.
    assert (Q : forall x y : Z, Qltb (inject_Z x) (inject_Z y) = (x <? y)%Z).
    { intros x y. unfold Qltb, Qle_bool, inject_Z. cbn [Qnum Qden]. rewrite !Z.mul_1_r. apply eq_sym, Z.ltb_antisym. }
    assert (M : forall x y : Z, pymax (VInt x) (VInt y) = Ret (VInt (Z.max x y))).
    { intros x y. unfold pymax, as_num. rewrite Q. destruct (Z.ltb_spec x y); do 2 f_equal; lia. }
    destruct Hn as [->|[-> ->]]; destruct Hm as [->|[-> ->]]; rewrite M; reflexivity.
  - intros a args. eexists. reflexivity.
Qed.
Print Assumptions c28_safe_sine_len.

(** The old prefix of [SAMPLE]. *)
Theorem c28_sample : forall func args kwargs, dwf kwargs ->
  (forall r, dget ("sinusoidal_model_model" ++ r) kwargs = None) ->
  exists kwargs',
    snd (deprecated sample_decorator func args kwargs) = snd (func args kwargs') /\
    (forall r, dget ("sinusoidal_model" ++ r) kwargs' = None) /\
    (forall r v, dget ("sinusoidal_model" ++ r) kwargs = Some v -> dget ("sinusoidal" ++ r) kwargs' = Some v) /\
    (forall k, String.prefix "sinusoidal" k = false -> dget k kwargs' = dget k kwargs) /\
    (forall r, dget ("sinusoidal_model" ++ r) kwargs = None -> String.prefix "_model" r = false ->
       dget ("sinusoidal" ++ r) kwargs' = dget ("sinusoidal" ++ r) kwargs).
Proof.
  intros func args kwargs W H.
  destruct (c28_prefix sample_decorator func args kwargs "sinusoidal" eq_refl eq_refl eq_refl W) as (kw & E & _ & A & B & C).
  - intros r Hr. destruct (String.prefix "sinusoidal_model" ("sinusoidal" ++ r)) eqn:P; [|exact P]. exfalso.
    apply prefix_spec in P. destruct P as (r' & P). apply Hr.
    change ("sinusoidal_model" ++ r')%string with ("sinusoidal" ++ ("_model" ++ r'))%string in P. apply sapp_inj in P. subst r.
    exact (H r').
  - exists kw. rewrite E. cbn [snd]. split; [reflexivity|]. split; [exact A|]. split; [exact B|]. split.
    + intros k P. apply C.
      * destruct (String.prefix (old_key sample_decorator) k) eqn:Q; [|reflexivity]. exfalso. apply prefix_spec in Q.
        destruct Q as (r & ->). cbn in P. discriminate.
      * intros r ->. rewrite prefix_app in P. discriminate.
    + intros r Hr P. apply C.
      * destruct (String.prefix (old_key sample_decorator) ("sinusoidal" ++ r)) eqn:Q; [|reflexivity]. exfalso.
        apply prefix_spec in Q. destruct Q as (r' & Q). cbn [old_key sample_decorator] in Q.
        change ("sinusoidal_model" ++ r')%string with ("sinusoidal" ++ ("_model" ++ r'))%string in Q. apply sapp_inj in Q. subst r.
        rewrite prefix_app in P. discriminate.
      * intros r' E'. apply sapp_inj in E'. subst r'. exact Hr.
Qed.
Print Assumptions c28_sample.

Example c28_example :
  let func : pyfun := fun args kw => ([], Ret (VDict kw)) in
  deprecated_all (sinusoidal_decorators Ret) func [VObj 0] [("fs", VInt 44100); ("n", VInt 4); ("max_n_sines", VInt 9); ("safe_sine_len", VInt 3)] =
  ([warning_text "max_n_sines" "tracker__max_n_sines" None;
    warning_text "safe_sine_len" "tracker__min_sine_dur"
      (Some "'safe_sine_len' is no longer a parameter, since the 'min_sine_dur' of the sine tracker is already expressed in frames");
    warning_text "fs" "tracker__fs" None],
   Ret (VDict [("n", VInt 4); ("tracker__max_n_sines", VInt 9); ("tracker__min_sine_dur", VInt 3); ("tracker__fs", VInt 44100)])) /\
  deprecated sample_decorator func [] [("sinusoidal_model__n", VInt 8); ("sinusoidal", VNone)] =
  ([warning_text "sinusoidal_model__n" "sinusoidal__n" None], Ret (VDict [("sinusoidal", VNone); ("sinusoidal__n", VInt 8)])).
Proof. split; reflexivity. Qed.

(** ** C62: default keyword arguments *)

(** A given keyword keeps its value, a missing one gets the default. *)
Theorem c62_default_kws : forall V (d : option (dict V)) (kwargs : dict V) k,
  dget k (default_kws d kwargs) =
  match (match d with Some d => dget k d | None => None end) with Some v => Some v | None => dget k kwargs end.
Proof.
  intros V d kwargs k. unfold default_kws. set (d0 := match d with None => [] | Some d => d end).
  replace (match d with Some d => dget k d | None => None end) with (dget k d0) by (destruct d; reflexivity).
  clearbody d0. clear d. revert d0. induction kwargs as [|[k' v'] kw IH]; intro d; [cbn; now destruct (dget k d)|].
  cbn [fold_left fst snd dget]. rewrite IH, dget_dset. destruct (String.eqb_spec k' k) as [->|]; [|reflexivity].
  now destruct (dget k d).
Qed.
Print Assumptions c62_default_kws.
(** The result is a dictionary; without defaults it is a copy. *)
Theorem c62_copy : forall V (d : dict V), dwf d ->
  default_kws (Some d) [] = d /\ forall kwargs, dwf (default_kws (Some d) kwargs).
Proof.
  intros V d W. split; [reflexivity|]. intro kw. unfold default_kws. revert d W.
  induction kw as [|p kw IH]; intros d W; [exact W|]. cbn [fold_left]. apply IH. now apply dwf_dset.
Qed.
Print Assumptions c62_copy.
Example c62_example : default_kws (Some [("a", 0%Z); ("b", 5%Z)]) [("a", 1%Z); ("c", 2%Z)] = [("a", 0%Z); ("b", 5%Z); ("c", 2%Z)].
Proof. reflexivity. Qed.

(** ** C29: default properties *)

(** The function of the property returns an object that did not exist before
    and leaves the objects that exist alone. *)
Definition builds_new (p : property) : Prop := forall o w, exists n,
  snd (p_default p o w) = VObj n /\ (fresh w <= n < fresh (fst (p_default p o w)))%nat /\
  forall o', (o' < fresh w)%nat -> attrs (fst (p_default p o w)) o' = attrs w o'.
(** Assignments are made on existing objects. *)
Fixpoint wf_history (w : world) (h : list pstmt) : Prop :=
  match h with
  | [] => True
  | s :: h' => (match s with PNew => True | PSet p o v => builds_new p /\ (o < fresh w)%nat end) /\
               wf_history (pstep w s) h'
  end.
(** The history has no assignment to the attribute [a] of [o]. *)
Definition untouched (o : nat) (a : string) (h : list pstmt) : Prop :=
  forall p' o' v', In (PSet p' o' v') h -> o' <> o \/ p_attr p' <> a.

Lemma wf_app : forall h w h', wf_history w (h ++ h') <-> wf_history w h /\ wf_history (prun w h) h'.
Proof.
  induction h as [|s h IH]; intros w h'; simpl; [tauto|]. rewrite IH. unfold prun. tauto.
Qed.
Lemma pstep_fresh : forall w s, wf_history w [s] -> (fresh w <= fresh (pstep w s))%nat.
Proof.
  intros w [|p o' v] W; [simpl; lia|]. cbn in W. destruct W as [[B Ho'] _]. cbn [pstep]. unfold prop_set.
  destruct (p_fdef p o' v); [|simpl; lia].
  destruct (B o' w) as (n & _ & Hn & _). destruct (p_default p o' w) as [w' v'] eqn:E. cbn [fst snd] in *.
  unfold set_attr. cbn [fresh]. lia.
Qed.
Lemma pstep_keeps : forall w s o a, wf_history w [s] -> (o < fresh w)%nat -> untouched o a [s] ->
  dget a (attrs (pstep w s) o) = dget a (attrs w o).
Proof.
  intros w [|p o' v] o a W Ho U; [reflexivity|].
  cbn in W. destruct W as [[B Ho'] _]. specialize (U p o' v (or_introl eq_refl)). cbn [pstep]. unfold prop_set.
  destruct (p_fdef p o' v).
  - destruct (B o' w) as (n & _ & Hn & K). destruct (p_default p o' w) as [w' v'] eqn:E. cbn [fst snd] in *.
    unfold set_attr. cbn [attrs]. destruct (Nat.eqb_spec o o') as [->|N]; [|now rewrite K].
    rewrite dget_dset, K by assumption. destruct (String.eqb_spec (p_attr p) a); [|reflexivity]. destruct U; congruence.
  - unfold set_attr. cbn [attrs]. destruct (Nat.eqb_spec o o') as [->|N]; [|reflexivity].
    rewrite dget_dset. destruct (String.eqb_spec (p_attr p) a); [|reflexivity]. destruct U; congruence.
Qed.
Lemma wf_one : forall w s h, wf_history w (s :: h) -> wf_history w [s].
Proof. simpl. tauto. Qed.
Lemma prun_fresh : forall h w, wf_history w h -> (fresh w <= fresh (prun w h))%nat.
Proof.
  induction h as [|s h IH]; intros w W; [simpl; lia|]. pose proof (pstep_fresh w s (wf_one _ _ _ W)).
  destruct W as [_ W]. specialize (IH (pstep w s) W). change (prun w (s :: h)) with (prun (pstep w s) h). lia.
Qed.
Lemma prun_keeps : forall h w o a, wf_history w h -> (o < fresh w)%nat -> untouched o a h ->
  dget a (attrs (prun w h) o) = dget a (attrs w o).
Proof.
  induction h as [|s h IH]; intros w o a W Ho U; [reflexivity|].
  pose proof (pstep_fresh w s (wf_one _ _ _ W)) as L. pose proof (pstep_keeps w s o a (wf_one _ _ _ W) Ho) as E.
  destruct W as [W0 W]. change (prun w (s :: h)) with (prun (pstep w s) h). rewrite IH; [|exact W|lia|].
  - apply E. intros p' o' v' [H|[]]. apply (U p' o' v'). now left.
  - intros p' o' v' H. apply (U p' o' v'). now right.
Qed.

(** An explicit value is stored as it is and read until the next assignment. *)
Theorem c29_explicit : forall w h1 h2 p o v,
  wf_history w (h1 ++ PSet p o v :: h2) -> p_fdef p o v = false -> untouched o (p_attr p) h2 ->
  prop_get p o (prun w (h1 ++ PSet p o v :: h2)) = Ret v.
Proof.
  intros w h1 h2 p o v W F U. apply wf_app in W. destruct W as [_ W].
  unfold prun. rewrite fold_left_app. cbn [fold_left]. fold (prun w h1). set (w1 := prun w h1) in *.
  pose proof (pstep_fresh _ _ (wf_one _ _ _ W)) as L. destruct W as [[B Ho] W].
  fold (prun (pstep w1 (PSet p o v)) h2). unfold prop_get. rewrite (prun_keeps h2) by (auto; lia).
  cbn [pstep]. unfold prop_set. rewrite F.
  unfold set_attr. cbn [attrs]. rewrite Nat.eqb_refl, dget_dset, String.eqb_refl. reflexivity.
Qed.
Print Assumptions c29_explicit.

(** A default value is a new object, read until the next assignment. *)
Lemma default_value : forall w h1 h2 p o v,
  wf_history w (h1 ++ PSet p o v :: h2) -> p_fdef p o v = true -> untouched o (p_attr p) h2 ->
  exists n, prop_get p o (prun w (h1 ++ PSet p o v :: h2)) = Ret (VObj n) /\
    (fresh (prun w h1) <= n < fresh (prun w (h1 ++ [PSet p o v])))%nat.
Proof.
  intros w h1 h2 p o v W F U. apply wf_app in W. destruct W as [_ W].
  unfold prun. rewrite !fold_left_app. cbn [fold_left]. fold (prun w h1). set (w1 := prun w h1) in *.
  pose proof (pstep_fresh _ _ (wf_one _ _ _ W)) as L. destruct W as [[B Ho] W].
  fold (prun (pstep w1 (PSet p o v)) h2). unfold prop_get. rewrite (prun_keeps h2) by (auto; lia).
  cbn [pstep]. unfold prop_set. rewrite F. destruct (B o w1) as (n & En & Hn & K).
  destruct (p_default p o w1) as [w' v'] eqn:E. cbn [fst snd] in *. subst v'. exists n.
  unfold set_attr. cbn [attrs fresh]. rewrite Nat.eqb_refl, dget_dset, String.eqb_refl. split; [reflexivity|exact Hn].
Qed.

(** In every history, two properties (of two objects, or with different names)
    that were last set to their default hold two different objects. *)
Theorem c29_not_shared : forall w h1 h2 h3 p o v p' o' v',
  wf_history w (h1 ++ PSet p o v :: h2 ++ PSet p' o' v' :: h3) ->
  p_fdef p o v = true -> p_fdef p' o' v' = true ->
  o <> o' \/ p_attr p <> p_attr p' ->
  untouched o (p_attr p) (h2 ++ h3) -> untouched o' (p_attr p') h3 ->
  let w' := prun w (h1 ++ PSet p o v :: h2 ++ PSet p' o' v' :: h3) in
  exists n n', prop_get p o w' = Ret (VObj n) /\ prop_get p' o' w' = Ret (VObj n') /\ n <> n' /\
    (* neither existed when the property was set *)
    (fresh (prun w h1) <= n)%nat /\ (fresh (prun w (h1 ++ PSet p o v :: h2)) <= n')%nat.
Proof.
  intros w h1 h2 h3 p o v p' o' v' W F F' D U U'. cbv zeta.
  destruct (default_value w h1 (h2 ++ PSet p' o' v' :: h3) p o v W F) as (n & E & Hn).
  - intros p0 o0 v0 H. apply in_app_or in H. destruct H as [H|[H|H]].
    + apply (U p0 o0 v0). apply in_or_app. now left.
    + injection H as <- <- <-. destruct D; [left; congruence|right; congruence].
    + apply (U p0 o0 v0). apply in_or_app. now right.
  - assert (A : h1 ++ PSet p o v :: h2 ++ PSet p' o' v' :: h3 = (h1 ++ PSet p o v :: h2) ++ PSet p' o' v' :: h3)
      by (rewrite <- app_assoc; reflexivity).
    rewrite A in W |- *. destruct (default_value w (h1 ++ PSet p o v :: h2) h3 p' o' v' W F' U') as (n' & E' & Hn').
    rewrite A in E. exists n, n'. split; [exact E|]. split; [exact E'|].
    assert (M : (fresh (prun w (h1 ++ [PSet p o v])) <= fresh (prun w (h1 ++ PSet p o v :: h2)))%nat).
    { replace (h1 ++ PSet p o v :: h2) with ((h1 ++ [PSet p o v]) ++ h2) by (rewrite <- app_assoc; reflexivity).
      unfold prun at 2. rewrite fold_left_app. apply prun_fresh.
      apply wf_app in W. destruct W as [W _].
      replace (h1 ++ PSet p o v :: h2) with ((h1 ++ [PSet p o v]) ++ h2) in W by (rewrite <- app_assoc; reflexivity).
      apply wf_app in W. tauto. }
    split; [lia|]. lia.
Qed.
Print Assumptions c29_not_shared.

(** [None] asks for the default, any other value does not; after [defaulter()]
    nothing does. *)
Theorem c29_none : forall o v p, (default_fdef o v = true <-> v = VNone) /\ p_fdef (defaulter p None) o v = false.
Proof. intros o v p. split; [|reflexivity]. destruct v; simpl; split; congruence. Qed.
Print Assumptions c29_none.

(** Properties with different names never share an attribute; anonymous ones
    are rejected. *)
Theorem c29_names : forall n1 n2 f1 f2 a,
  property_attr n1 f1 = Ret a -> property_attr n2 f2 = Ret a ->
  exists n, (match n1 with Some n => Some n | None => f1 end) = Some n /\
            (match n2 with Some n => Some n | None => f2 end) = Some n.
Proof.
  intros n1 n2 f1 f2 a. unfold property_attr.
  destruct (match n1 with Some n => Some n | None => f1 end) as [m1|]; [|discriminate].
  destruct (match n2 with Some n => Some n | None => f2 end) as [m2|]; [|discriminate].
  destruct (String.eqb m1 "<lambda>"); [discriminate|]. destruct (String.eqb m1 "_"); [discriminate|].
  destruct (String.eqb m2 "<lambda>"); [discriminate|]. destruct (String.eqb m2 "_"); [discriminate|].
  intros [= <-] [= E]. exists m1. split; [reflexivity|]. now rewrite E.
Qed.
Print Assumptions c29_names.
Theorem c29_anonymous_raises : forall fn, In fn [None; Some "<lambda>"; Some "_"] ->
  (exists m, property_attr None fn = Raise ValueError m) /\
  forall n, n <> "<lambda>" -> n <> "_" -> property_attr (Some n) fn = Ret ("_default_property_" ++ n)%string.
Proof.
  intros fn H. split.
  - destruct H as [<-|[<-|[<-|[]]]]; eexists; reflexivity.
  - intros n A B. unfold property_attr. destruct (String.eqb_spec n "<lambda>"); [congruence|].
    destruct (String.eqb_spec n "_"); [congruence|reflexivity].
Qed.
Print Assumptions c29_anonymous_raises.

(** Two models with default trackers, and a third one given the first tracker. *)
Definition member : property :=
  mkProperty "_default_property_tracker" default_fdef (fun _ w => (mkWorld (attrs w) (S (fresh w)), VObj (fresh w))).
Example c29_example :
  let w := prun (mkWorld (fun _ => []) 0) [PNew; PSet member 0 VNone; PNew; PSet member 2 VNone; PNew; PSet member 4 (VObj 1)] in
  prop_get member 0 w = Ret (VObj 1) /\ prop_get member 2 w = Ret (VObj 3) /\ prop_get member 4 w = Ret (VObj 1).
Proof. repeat split. Qed.
Example c29_example_wf :
  builds_new member /\
  wf_history (mkWorld (fun _ => []) 0) [PNew; PSet member 0 VNone; PNew; PSet member 2 VNone; PNew; PSet member 4 (VObj 1)].
Proof.
  assert (B : builds_new member).
  { intros o w. exists (fresh w). cbn. split; [reflexivity|]. split; [lia|auto]. }
  split; [exact B|]. cbn. repeat split; auto; lia.
Qed.

(** ** C27: optional storage *)

(** An operation and a sequence of operations. *)
Inductive st_op : Type := OAppend (key : string) (v : val) (index : option Z) | OReset.
Definition st_step (s : storage) (o : st_op) : storage :=
  match o with OAppend k v i => fst (st_append s k v i) | OReset => st_reset s end.
Definition st_run (s : storage) (h : list st_op) : storage := fold_left st_step h s.

(** [append] returns its value, unless a negative index is out of range. *)
Theorem c27_returns : forall s key v index,
  match index with Some i => (0 <= i)%Z | None => True end ->
  snd (st_append s key v index) = Ret v.
Proof.
  intros s key v index H. unfold st_append. destruct (s_save s); [|reflexivity]. destruct index as [i|]; [|reflexivity].
  set (l := match dget key _ with Some l => l | None => [] end).
  unfold list_set. destruct (Z.ltb_spec i 0); [lia|].
  replace ((0 <=? i) && (i <? zlen (if (zlen l <=? i)%Z then l ++ repeat VNone (Z.to_nat (i + 1 - zlen l)) else l)))%Z with true; [reflexivity|].
  symmetry. apply andb_true_intro. split; [apply Z.leb_le; lia|]. apply Z.ltb_lt.
  destruct (Z.leb_spec (zlen l) i); [|lia]. unfold zlen in *. rewrite app_length, repeat_length. lia.
Qed.
Print Assumptions c27_returns.

(** With [save=False] no sequence of operations creates a state, and every
    [append] (with any index) returns its value. *)
Theorem c27_inactive : forall h key v index,
  let s := st_run (mkStorage false None) h in
  s = mkStorage false None /\ snd (st_append s key v index) = Ret v /\
  st_getitem s key = Raise KeyError key /\ st_get_state s = [].
Proof.
  intros h key v index. cbv zeta. assert (E : st_run (mkStorage false None) h = mkStorage false None).
  { induction h as [|o h IH]; [reflexivity|]. unfold st_run in *. cbn [fold_left].
    replace (st_step (mkStorage false None) o) with (mkStorage false None) by (destruct o; reflexivity). exact IH. }
  rewrite E. repeat split.
Qed.
Print Assumptions c27_inactive.

(** The value of a key: the list of what was appended under it since the last
    reset, in order. *)
Fixpoint recorded (key : string) (acc : option (list val)) (h : list st_op) : option (list val) :=
  match h with
  | [] => acc
  | OReset :: h' => recorded key None h'
  | OAppend k v _ :: h' =>
    recorded key (if String.eqb k key then Some (match acc with Some l => l | None => [] end ++ [v]) else acc) h'
  end.
Definition st_get (s : storage) (key : string) : option (list val) := dget key (st_get_state s).
Theorem c27_records : forall h key,
  Forall (fun o => match o with OAppend _ _ i => i = None | OReset => True end) h ->
  st_getitem (st_run (mkStorage true None) h) key =
  match recorded key None h with Some l => Ret l | None => Raise KeyError key end.
Proof.
  intros h key H.
  assert (G : forall s, s_save s = true ->
    st_get (st_run s h) key = recorded key (st_get s key) h).
  { induction H as [|o h Ho H IH]; intros s Hs; [reflexivity|]. unfold st_run in *. cbn [fold_left recorded].
    destruct o as [k v i|]; cbn [st_step].
    - subst i. rewrite IH.
      + f_equal. unfold st_append. rewrite Hs. cbn [fst]. unfold st_get, st_get_state at 1. cbn [s_cache].
        rewrite dget_dset. fold (st_get_state s). destruct (String.eqb_spec k key) as [->|]; reflexivity.
      + unfold st_append. rewrite Hs. reflexivity.
    - apply IH. exact Hs. }
  specialize (G (mkStorage true None) eq_refl). change (st_get (mkStorage true None) key) with (@None (list val)) in G.
  unfold st_getitem. fold (st_get_state (st_run (mkStorage true None) h)). unfold st_get in G. rewrite G. reflexivity.
Qed.
Print Assumptions c27_records.

(** An indexed append sets exactly that index, pads with [None] and leaves the
    other keys alone. *)
Theorem c27_indexed : forall s key v i, s_save s = true -> (0 <= i)%Z ->
  let l := match st_get s key with Some l => l | None => [] end in
  exists l', st_getitem (fst (st_append s key v (Some i))) key = Ret l' /\
    List.length l' = Nat.max (List.length l) (S (Z.to_nat i)) /\
    (forall j, nth j l' VNone = if Nat.eqb j (Z.to_nat i) then v else nth j l VNone) /\
    forall key', key' <> key ->
      st_getitem (fst (st_append s key v (Some i))) key' = st_getitem s key'.
Proof.
  intros s key v i Hs Hi. cbv zeta. unfold st_append. rewrite Hs. fold (st_get_state s). fold (st_get s key).
  set (l := match st_get s key with Some l => l | None => [] end).
  set (p := if (zlen l <=? i)%Z then l ++ repeat VNone (Z.to_nat (i + 1 - zlen l)) else l).
  assert (Lp : List.length p = Nat.max (List.length l) (S (Z.to_nat i))).
  { unfold p. destruct (Z.leb_spec (zlen l) i); unfold zlen in *; [rewrite app_length, repeat_length|]; lia. }
  assert (Np : forall j, nth j p VNone = nth j l VNone).
  { intro j. unfold p. destruct (zlen l <=? i)%Z; [|reflexivity].
    destruct (Nat.lt_ge_cases j (List.length l)) as [Hj|Hj]; [now apply app_nth1|].
    rewrite app_nth2, (nth_overflow l) by exact Hj. apply nth_repeat. }
  unfold list_set. destruct (Z.ltb_spec i 0); [lia|].
  replace ((0 <=? i) && (i <? zlen p))%Z with true
    by (symmetry; apply andb_true_intro; unfold zlen; split; [apply Z.leb_le|apply Z.ltb_lt]; lia).
  cbn [fst]. exists (upd (Z.to_nat i) v p).
  split; [|split; [|split]].
  - unfold st_getitem. cbn [s_cache]. now rewrite dget_dset, String.eqb_refl.
  - rewrite upd_length. exact Lp.
  - intro j. destruct (Nat.eqb_spec j (Z.to_nat i)) as [->|N]; [apply nth_upd_eq; lia|].
    rewrite nth_upd_neq by congruence. apply Np.
  - intros key' N. unfold st_getitem. cbn [s_cache]. rewrite dget_dset.
    destruct (String.eqb_spec key key'); [congruence|reflexivity].
Qed.
Print Assumptions c27_indexed.

(** Equal for every observer. *)
Definition st_same (s s' : storage) : Prop :=
  s_save s = s_save s' /\ forall key, st_getitem s key = st_getitem s' key.
Lemma st_getitem_get : forall s key,
  st_getitem s key = match st_get s key with Some l => Ret l | None => Raise KeyError key end.
Proof. reflexivity. Qed.
Lemma st_same_get : forall s s' key, st_same s s' -> st_get s key = st_get s' key.
Proof.
  intros s s' key [_ H]. specialize (H key). rewrite !st_getitem_get in H.
  destruct (st_get s key), (st_get s' key); congruence.
Qed.
(** The outcome of an indexed append, as seen through any key. *)
Definition put (l : list val) (i : nat) (v : val) : list val :=
  upd i v (l ++ repeat VNone (S i - List.length l)).
Lemma st_append_get : forall s key v i key', s_save s = true ->
  st_get (fst (st_append s key v (Some (Z.of_nat i)))) key' =
  if String.eqb key key' then Some (put (match st_get s key with Some l => l | None => [] end) i v) else st_get s key'.
Proof.
  intros s key v i key' Hs. unfold st_append. rewrite Hs. fold (st_get_state s). fold (st_get s key).
  set (l := match st_get s key with Some l => l | None => [] end).
  replace (if (zlen l <=? Z.of_nat i)%Z then l ++ repeat VNone (Z.to_nat (Z.of_nat i + 1 - zlen l)) else l)
    with (l ++ repeat VNone (S i - List.length l)).
  - unfold list_set. destruct (Z.ltb_spec (Z.of_nat i) 0); [lia|].
    replace ((0 <=? Z.of_nat i) && (Z.of_nat i <? zlen (l ++ repeat VNone (S i - List.length l))))%Z with true
      by (symmetry; apply andb_true_intro; unfold zlen; rewrite app_length, repeat_length; split; [apply Z.leb_le|apply Z.ltb_lt]; lia).
    rewrite Nat2Z.id. cbn [fst]. unfold st_get at 1, st_get_state at 1. cbn [s_cache]. rewrite dget_dset. reflexivity.
  - unfold zlen. destruct (Z.leb_spec (Z.of_nat (List.length l)) (Z.of_nat i)).
    + do 2 f_equal. lia.
    + replace (S i - List.length l)%nat with 0%nat by lia. apply app_nil_r.
Qed.
Lemma st_append_save : forall s key v i, s_save (fst (st_append s key v i)) = s_save s.
Proof.
  intros s key v i. unfold st_append. destruct (s_save s) eqn:E; [|exact E]. destruct i; [|reflexivity].
  destruct (list_set _ _ _); reflexivity.
Qed.
Lemma put_length : forall l i v, List.length (put l i v) = Nat.max (List.length l) (S i).
Proof. intros l i v. unfold put. rewrite upd_length, app_length, repeat_length. lia. Qed.
Lemma put_nth : forall l i v j, nth j (put l i v) VNone = if Nat.eqb j i then v else nth j l VNone.
Proof.
  intros l i v j. unfold put. destruct (Nat.eqb_spec j i) as [->|N].
  - apply nth_upd_eq. rewrite app_length, repeat_length. lia.
  - rewrite nth_upd_neq by congruence. destruct (Nat.lt_ge_cases j (List.length l)) as [Hj|Hj]; [now apply app_nth1|].
    rewrite app_nth2, (nth_overflow l) by exact Hj. apply nth_repeat.
Qed.
Lemma put_commute : forall l i j v u, i <> j -> put (put l i v) j u = put (put l j u) i v.
Proof.
  intros l i j v u N. apply nth_ext with (d := VNone) (d' := VNone).
  - rewrite !put_length. lia.
  - intros k _. rewrite !put_nth. destruct (Nat.eqb_spec k j), (Nat.eqb_spec k i); congruence.
Qed.
(** A sequence of indexed appends: key, index and value. *)
Definition st_puts (s : storage) (ops : list (string * nat * val)) : storage :=
  fold_left (fun s o => fst (st_append s (fst (fst o)) (snd o) (Some (Z.of_nat (snd (fst o)))))) ops s.
Lemma st_append_same : forall s s' key v i, st_same s s' ->
  st_same (fst (st_append s key v (Some (Z.of_nat i)))) (fst (st_append s' key v (Some (Z.of_nat i)))).
Proof.
  intros s s' key v i H. split.
  - rewrite !st_append_save. apply H.
  - intro k. destruct (s_save s) eqn:E.
    + assert (E' : s_save s' = true) by (destruct H; congruence). rewrite !st_getitem_get, !st_append_get by assumption.
      rewrite (st_same_get s s' key), (st_same_get s s' k) by exact H. reflexivity.
    + assert (E' : s_save s' = false) by (destruct H; congruence).
      unfold st_append. rewrite E, E'. apply H.
Qed.
Lemma st_append_commute : forall s k i v k' i' v', (k, i) <> (k', i') ->
  st_same (fst (st_append (fst (st_append s k v (Some (Z.of_nat i)))) k' v' (Some (Z.of_nat i'))))
          (fst (st_append (fst (st_append s k' v' (Some (Z.of_nat i')))) k v (Some (Z.of_nat i)))).
Proof.
  intros s k i v k' i' v' N. split; [now rewrite !st_append_save|]. intro key.
  destruct (s_save s) eqn:E.
  - rewrite !st_getitem_get. rewrite !st_append_get by (rewrite ?st_append_save; exact E).
    destruct (String.eqb_spec k k') as [->|Nk].
    + rewrite String.eqb_refl. destruct (String.eqb k' key); [|reflexivity].
      rewrite put_commute; [reflexivity|congruence].
    + destruct (String.eqb_spec k' k) as [->|_]; [congruence|].
      destruct (String.eqb_spec k' key) as [->|_]; [|reflexivity].
      destruct (String.eqb_spec k key); [congruence|reflexivity].
  - unfold st_append. rewrite !E. cbn [fst]. now rewrite !E.
Qed.

(** Indexed appends to different places can be made in any order: the storage
    is the same for every permutation. *)
Theorem c27_any_order : forall s ops ops',
  Permutation ops ops' -> NoDup (map fst ops) ->
  forall key, st_getitem (st_puts s ops) key = st_getitem (st_puts s ops') key.
Proof.
  intros s ops ops' P N.
  assert (G : forall s s', st_same s s' -> st_same (st_puts s ops) (st_puts s' ops')).
  { clear s. induction P as [|x l l' P IH|x y l|l1 l2 l3 P1 IH1 P2 IH2]; intros s s' H.
    - exact H.
    - unfold st_puts. cbn [fold_left]. apply IH; [now inversion N|]. now apply st_append_same.
    - unfold st_puts. cbn [fold_left]. destruct x as [[k i] v], y as [[k' i'] v']. cbn [fst snd].
      assert (R : forall l s s', st_same s s' -> st_same (st_puts s l) (st_puts s' l)).
      { clear. induction l as [|o l IH]; intros s s' H; [exact H|]. unfold st_puts. cbn [fold_left]. apply IH.
        now apply st_append_same. }
      apply R. assert (D : (k', i') <> (k, i)).
      { intro Eq. simpl in N. inversion N as [|? ? Hn _]; subst. apply Hn. left. congruence. }
      destruct (st_append_commute s' k' i' v' k i v D) as [A B].
      destruct (st_append_same _ _ k v i (st_append_same _ _ k' v' i' H)) as [A' B'].
      split; [congruence|]. intro key. now rewrite B', B.
    - destruct (IH1 N s s (conj eq_refl (fun _ => eq_refl))) as [A B].
      assert (N2 : NoDup (map fst l2)) by (eapply Permutation_NoDup; [apply Permutation_map; exact P1|exact N]).
      destruct (IH2 N2 s s' H) as [A' B']. split; [congruence|]. intro key. now rewrite B, B'. }
  intro key. apply (G s s). now split.
Qed.
Print Assumptions c27_any_order.

(** After [reset] the storage behaves as a new one. *)
Theorem c27_reset : forall s h h', s_save (st_run s h) = s_save s /\
  st_run s (h ++ OReset :: h') = st_run (mkStorage (s_save s) None) h'.
Proof.
  intros s h h'. assert (E : s_save (st_run s h) = s_save s).
  { revert s. induction h as [|o h IH]; intro s; [reflexivity|]. unfold st_run in *. cbn [fold_left]. rewrite IH.
    destruct o as [k v i|]; [apply st_append_save|reflexivity]. }
  split; [exact E|]. unfold st_run in *. rewrite fold_left_app. cbn [fold_left st_step]. unfold st_reset. now rewrite E.
Qed.
Print Assumptions c27_reset.

(** A negative index counts from the end of the list, as in python. *)
Theorem c27_negative : forall s key v i, s_save s = true -> (i < 0)%Z ->
  let l := match st_get s key with Some l => l | None => [] end in
  ((- zlen l <= i)%Z ->
   snd (st_append s key v (Some i)) = Ret v /\
   exists l', st_getitem (fst (st_append s key v (Some i))) key = Ret l' /\ List.length l' = List.length l /\
     forall j, nth j l' VNone = if Z.eqb (Z.of_nat j) (zlen l + i) then v else nth j l VNone) /\
  ((i < - zlen l)%Z ->
   (exists m, snd (st_append s key v (Some i)) = Raise IndexError m) /\
   st_getitem (fst (st_append s key v (Some i))) key = Ret l).
Proof.
  intros s key v i Hs Hi. cbv zeta. unfold st_append. rewrite Hs. fold (st_get_state s). fold (st_get s key).
  set (l := match st_get s key with Some l => l | None => [] end). unfold list_set.
  destruct (Z.leb_spec (zlen l) i); [unfold zlen in *; lia|]. destruct (Z.ltb_spec i 0); [|lia]. split; intro B.
  - replace ((0 <=? i + zlen l) && (i + zlen l <? zlen l))%Z with true
      by (symmetry; apply andb_true_intro; split; [apply Z.leb_le|apply Z.ltb_lt]; lia).
    cbn [fst snd]. split; [reflexivity|]. exists (upd (Z.to_nat (i + zlen l)) v l).
    split; [unfold st_getitem; cbn [s_cache]; now rewrite dget_dset, String.eqb_refl|].
    split; [apply upd_length|]. intro j. destruct (Z.eqb_spec (Z.of_nat j) (zlen l + i)) as [E|N].
    + replace (Z.to_nat (i + zlen l)) with j by lia. apply nth_upd_eq. unfold zlen in *. lia.
    + apply nth_upd_neq. lia.
  - replace ((0 <=? i + zlen l) && (i + zlen l <? zlen l))%Z with false
      by (symmetry; apply andb_false_iff; left; apply Z.leb_gt; lia).
    cbn [fst snd]. split; [eexists; reflexivity|]. unfold st_getitem. cbn [s_cache].
    now rewrite dget_dset, String.eqb_refl.
Qed.
Print Assumptions c27_negative.

(** "append always returns its value" is false for a negative index on a short
    list: the call raises after creating the key. *)
Theorem c27_negative_index_refuted : exists s key v i m,
  snd (st_append s key v (Some i)) = Raise IndexError m /\
  st_getitem s key = Raise KeyError key /\ st_getitem (fst (st_append s key v (Some i))) key = Ret [].
Proof. exists (mkStorage true None), "peaks", (VInt 3), (-1)%Z. eexists. repeat split. Qed.
Print Assumptions c27_negative_index_refuted.

Example c27_example :
  let s := st_run (mkStorage true None)
    [OAppend "stft" (VInt 1) None; OReset; OAppend "peaks" (VInt 5) None; OAppend "stft" (VInt 7) (Some 2%Z);
     OAppend "peaks" (VInt 6) None; OAppend "stft" (VInt 8) (Some 0%Z)] in
  st_getitem s "peaks" = Ret [VInt 5; VInt 6] /\ st_getitem s "stft" = Ret [VInt 8; VNone; VInt 7].
Proof. split; reflexivity. Qed.
