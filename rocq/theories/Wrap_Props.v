(** C102: wrappers change only what they say. *)
From Coquelicot Require Import Coquelicot.
From Coq Require Import String Ascii List Bool ZArith Arith Lia Reals Lra.
Import ListNotations.
From Verif Require Import Base Py Dict PyLemmas Sample_Model Sample_Proofs Perf_Model Perf_Props Wrap_Model.
Local Open Scope list_scope.
Local Open Scope nat_scope.

(** ** Warnings *)

(** [says child prog fs r shown]: with the filters [fs], the program raises [r] and shows
    [shown]; a warning is decided by the first filter for a class it belongs to. *)
Inductive decided (child : nat -> nat -> bool) (c : nat) : list filter_ -> action -> Prop :=
| decided_default : decided child c [] Always
| decided_here a k fs : child c k = true -> decided child c ((a, k) :: fs) a
| decided_later a k fs b : child c k = false -> decided child c fs b -> decided child c ((a, k) :: fs) b.
Lemma decide_spec child c fs : decided child c fs (decide child fs c).
Proof.
  unfold decide. induction fs as [|[a k] fs IH]; cbn [find snd]; [constructor|].
  destruct (child c k) eqn:E; [constructor; exact E|]. apply decided_later; [exact E|exact IH].
Qed.

(** The filters after a filtered call are those before it, whether it returns or raises,
    and whatever filters the function adds. *)
Theorem c102_restored {V} child (truthy : V -> bool) flt record traces toggle body kws filters :
  (forall key default, toggle = Some (key, default) -> truthy (match dget key kws with Some v => v | None => default end) = true) ->
  k_filters (decorated child truthy flt record traces toggle body kws filters) = filters.
Proof.
  intros H. unfold decorated. destruct toggle as [[key default]|].
  - rewrite (H key default eq_refl). destruct (run _ _ _) as [[r sh] fs]. reflexivity.
  - destruct (run _ _ _) as [[r sh] fs]. reflexivity.
Qed.
Print Assumptions c102_restored.

(** With the toggle off the function is called as if it were not decorated, without the
    toggle among its arguments.  With the toggle on, by the argument or by default, it is
    called in the filters with the new one first; no other argument is touched. *)
Theorem c102_toggle {V} child (truthy : V -> bool) flt record traces key default body kws filters :
  let v := match dget key kws with Some v => v | None => default end in
  let c := decorated child truthy flt record traces (Some (key, default)) body kws filters in
  exists kws', dget key kws' = None /\ (forall k, k <> key -> dget k kws' = dget k kws) /\
  (truthy v = false ->
     (k_raised c, k_shown c, k_filters c) = run child (body kws') filters /\ k_traces c = match traces with Some t => t | None => [] end) /\
  (truthy v = true ->
     let '(r, shown, _) := run child (body kws') (simplefilter flt filters) in
     k_raised c = r /\ k_shown c = (if record then [] else shown) /\
     (forall t, traces = Some t -> k_traces c = t ++ [if record then Some shown else None])).
Proof.
  cbv zeta. exists (ddel key kws). split; [rewrite dget_ddel, String.eqb_refl; reflexivity|]. split.
  { intros k Hk. rewrite dget_ddel. destruct (String.eqb_spec key k) as [E|E]; [congruence|reflexivity]. }
  unfold decorated. split; intros Hv; rewrite Hv; destruct (run _ _ _) as [[r sh] fs].
  - split; reflexivity.
  - split; [reflexivity|]. split; [reflexivity|]. intros t ->. reflexivity.
Qed.
Print Assumptions c102_toggle.

(** The new filter decides first, the others are consulted in the order they had. *)
Theorem c102_filter child a k filters c :
  (child c k = true -> decided child c (simplefilter (a, k) filters) a) /\
  (child c k = false -> forall b, decided child c filters b -> decided child c (simplefilter (a, k) filters) b).
Proof.
  unfold simplefilter. split; intros H.
  - constructor. exact H.
  - intros b Hb. apply decided_later; [exact H|]. induction Hb as [|a' k' fs Hc|a' k' fs b Hc Hb IH]; cbn [filter fst snd].
    + constructor.
    + destruct (Nat.eqb_spec k k') as [->|Hk]; [congruence|]. rewrite andb_false_r. cbn [negb]. constructor. exact Hc.
    + destruct (negb _); [apply decided_later; assumption|exact IH].
Qed.
Print Assumptions c102_filter.

(** [SAMPLE.fit] ignores warnings of a class unless it is told not to: none of the class
    is shown nor raised, if the function adds no filters; the others are treated as
    without the decorator. *)
Definition adds_no_filter (prog : list stmt) : Prop := forall f, ~ In (SFilter f) prog.
Lemma run_ignored child k prog filters : adds_no_filter prog ->
  run child prog (simplefilter (Ignore, k) filters) =
  (let '(r, shown, fs) := run child (filter (fun s => match s with SWarn c => negb (child c k) | _ => true end) prog) filters in
   (r, shown, simplefilter (Ignore, k) filters)).
Proof.
  intros H. induction prog as [|s prog IH]; [reflexivity|].
  assert (Hp : adds_no_filter prog) by (intros f Hf; apply (H f); right; exact Hf). specialize (IH Hp).
  destruct s as [c|f|e].
  - cbn [run filter]. assert (Hd : decide child (simplefilter (Ignore, k) filters) c = if child c k then Ignore else decide child filters c).
    { unfold decide, simplefilter. cbn [find snd fst]. destruct (child c k) eqn:Ec; [reflexivity|].
      assert (Hf : find (fun f : filter_ => child c (snd f)) (filter (fun g : filter_ => negb (action_eqb Ignore (fst g) && Nat.eqb k (snd g))) filters) = find (fun f : filter_ => child c (snd f)) filters).
      { clear - Ec. induction filters as [|[a k'] fs IHf]; [reflexivity|]. cbn [filter fst snd find].
        destruct (Nat.eqb_spec k k') as [<-|Hk].
        - rewrite Ec. destruct (action_eqb Ignore a); cbn [andb negb]; [exact IHf|]. cbn [find snd]. rewrite Ec. exact IHf.
        - rewrite andb_false_r. cbn [negb find snd]. destruct (child c k'); [reflexivity|exact IHf]. }
      exact (f_equal (fun o : option filter_ => match o with Some (a, _) => a | None => Always end) Hf). }
    rewrite Hd. destruct (child c k) eqn:Ec; cbn [negb].
    + rewrite IH. destruct (run child (filter _ prog) filters) as [[r sh] fs]. reflexivity.
    + cbn [run]. destruct (decide child filters c); try reflexivity.
      * rewrite IH. destruct (run child (filter _ prog) filters) as [[r sh] fs]. reflexivity.
      * rewrite IH. destruct (run child (filter _ prog) filters) as [[r sh] fs]. reflexivity.
  - exfalso. apply (H f). left. reflexivity.
  - cbn [run filter]. reflexivity.
Qed.
Theorem c102_ignored {V} child (truthy : V -> bool) k key default body kws filters :
  let v := match dget key kws with Some v => v | None => default end in
  let c := decorated child truthy (Ignore, k) false None (Some (key, default)) body kws filters in
  truthy v = true -> (forall kws, adds_no_filter (body kws)) ->
  (forall w, In w (k_shown c) -> child w k = false) /\
  (forall w, k_raised c = Some (Warning w) -> child w k = false) /\
  exists kws', (forall x, x <> key -> dget x kws' = dget x kws) /\
  let others := filter (fun s => match s with SWarn c => negb (child c k) | _ => true end) (body kws') in
  (k_raised c, k_shown c) = fst (run child others filters).
Proof.
  cbv zeta. intros Hv Hb. unfold decorated. rewrite Hv. rewrite run_ignored by apply Hb.
  set (others := filter _ (body (ddel key kws))).
  assert (Ho : forall w, In (SWarn w) others -> child w k = false).
  { intros w Hw. apply filter_In in Hw as [_ Hw]. apply negb_true_iff. exact Hw. }
  assert (Hr : forall prog fs, (forall w, In (SWarn w) prog -> child w k = false) ->
    let '(r, sh, _) := run child prog fs in (forall w, In w sh -> child w k = false) /\ (forall w, r = Some (Warning w) -> child w k = false)).
  { clear. induction prog as [|s prog IH]; intros fs H; [cbn; split; [intros ? []|intros ? E; discriminate]|].
    assert (H' : forall w, In (SWarn w) prog -> child w k = false) by (intros w Hw; apply H; right; exact Hw).
    destruct s as [c|f|e]; cbn [run].
    - destruct (decide child fs c).
      + apply IH. exact H'.
      + split; [intros ? []|]. intros w E. injection E as <-. apply H. left. reflexivity.
      + specialize (IH fs H'). destruct (run child prog fs) as [[r sh] fs']. destruct IH as [I1 I2]. split; [|exact I2].
        intros w [<-|Hw]; [apply H; left; reflexivity|apply I1; exact Hw].
    - apply IH. exact H'.
    - split; [intros ? []|intros ? E; discriminate]. }
  specialize (Hr others filters Ho). split; [|split].
  - destruct (run child others filters) as [[r sh] fs]. apply Hr.
  - destruct (run child others filters) as [[r sh] fs]. apply Hr.
  - exists (ddel key kws). split.
    + intros x Hx. rewrite dget_ddel. destruct (String.eqb_spec key x) as [E|E]; [congruence|reflexivity].
    + fold others. destruct (run child others filters) as [[r sh] fs]. reflexivity.
Qed.
Print Assumptions c102_ignored.

(** ** Replaced classes *)

Definition agrees (m m' : module) (except : list string) : Prop := forall k, ~ In k except -> m k = m' k.
(** All names exist and have replacements, for which it does not matter what else is
    replaced: the block sees the replacements and nothing else changed; afterwards the
    names have their values from before, whatever the block does and however it ends, and
    the other names what the block left. *)
Theorem c102_mock {A} get names (body : module -> res A * module) m (new : string -> nat) : NoDup names ->
  (forall k m', In k names -> agrees m' m (filter (fun x => negb (String.eqb x k)) names) -> get k m' = Ok (new k)) ->
  (forall k, In k names -> m k <> None) ->
  exists m1, (forall k, In k names -> m1 k = Some (new k)) /\ agrees m1 m names /\
  (let '(r, m2) := mock_tk2ttk get names body m in
   r = fst (body m1) /\ (forall k, In k names -> m2 k = m k) /\ agrees m2 (snd (body m1)) names).
Proof.
  intros Hn Hget Hm.
  (* every body: by induction over the names, the module inside *)
  assert (Hgen : forall ns (body : module -> res A * module), NoDup ns -> (forall k, In k ns -> In k names) ->
    exists m1, (forall k, In k ns -> m1 k = Some (new k)) /\ agrees m1 m ns /\
    (let '(r, m2) := mock_tk2ttk get ns body m in r = fst (body m1) /\ (forall k, In k ns -> m2 k = m k) /\ agrees m2 (snd (body m1)) ns)).
  { clear body. induction ns as [|k ns IH]; intros body Hnd Hin.
    - exists m. split; [intros ? []|]. split; [intros ? _; reflexivity|]. cbn [mock_tk2ttk].
      destruct (body m) as [r m2]. split; [reflexivity|]. split; [intros ? []|intros ? _; reflexivity].
    - apply NoDup_cons_iff in Hnd as [Hk Hnd]. cbn [mock_tk2ttk].
      destruct (IH (patch k (get k) body) Hnd) as (m1 & H1 & H2 & H3); [intros x Hx; apply Hin; right; exact Hx|].
      exists (set_member m1 k (Some (new k))). split; [|split].
      + intros x Hx. unfold set_member. destruct (String.eqb_spec k x) as [<-|Hne]; [reflexivity|].
        destruct Hx as [Hx|Hx]; [congruence|apply H1; exact Hx].
      + intros x Hx. unfold set_member. destruct (String.eqb_spec k x) as [<-|Hne]; [exfalso; apply Hx; left; reflexivity|].
        apply H2. intros Hc. apply Hx. right. exact Hc.
      + assert (Hg : get k m1 = Ok (new k)).
        { apply Hget; [apply Hin; left; reflexivity|]. intros x Hx. apply H2. intros Hc. apply Hx. apply filter_In. split; [apply Hin; right; exact Hc|].
          destruct (String.eqb_spec x k) as [->|E]; [contradiction|reflexivity]. }
        assert (Hk1 : m1 k = m k) by (apply H2; exact Hk).
        destruct (m k) as [old|] eqn:Em; [|exfalso; apply (Hm k); [apply Hin; left; reflexivity|exact Em]].
        destruct (mock_tk2ttk get ns (patch k (get k) body) m) as [r m2]. destruct H3 as (E1 & E2 & E3).
        unfold patch in E1, E3. rewrite Hg, Hk1 in E1, E3.
        destruct (body (set_member m1 k (Some (new k)))) as [r' m'] eqn:Eb. cbn [fst snd] in *.
        split; [exact E1|]. split.
        * intros x [<-|Hx]; [|apply E2; exact Hx]. rewrite E3 by exact Hk. unfold set_member. rewrite String.eqb_refl. symmetry. exact Em.
        * intros x Hx. rewrite E3 by (intros Hc; apply Hx; right; exact Hc). unfold set_member.
          destruct (String.eqb_spec k x) as [<-|E]; [exfalso; apply Hx; left; reflexivity|reflexivity]. }
  apply (Hgen names body Hn). auto.
Qed.
Print Assumptions c102_mock.

(** A name that tkinter does not have, or whose replacement raises: the block is not run
    (what happens does not depend on it), and all names are as before. *)
Theorem c102_mock_missing {A} get names (body body' : module -> res A * module) m k :
  In k names -> m k = None ->
  exists e, fst (mock_tk2ttk get names body m) = Err e /\ fst (mock_tk2ttk get names body' m) = Err e /\ forall x, snd (mock_tk2ttk get names body m) x = m x.
Proof.
  intros Hin Hk.
  set (fails := fun b b' : module -> res A * module => forall m', m' k = None ->
    exists e, fst (b m') = Err e /\ fst (b' m') = Err e /\ forall x, snd (b m') x = m' x).
  assert (Hpatch : forall n b b', fails b b' -> fails (patch n (get n) b) (patch n (get n) b')).
  { intros n b b' Hb m1 H1. unfold patch. destruct (get n m1) as [v|e]; [|exists e; repeat split; reflexivity].
    destruct (m1 n) as [old|] eqn:En; [|exists AttributeError; repeat split; reflexivity].
    assert (Hs : set_member m1 n (Some v) k = None).
    { unfold set_member. destruct (String.eqb_spec n k) as [<-|_]; [congruence|exact H1]. }
    destruct (Hb _ Hs) as (e & E1 & E2 & E3). destruct (b (set_member m1 n (Some v))) as [r m2], (b' (set_member m1 n (Some v))) as [r' m2']. cbn [fst snd] in *.
    exists e. split; [exact E1|]. split; [exact E2|].
    intros x. unfold set_member at 1. destruct (String.eqb_spec n x) as [<-|Hx]; [symmetry; exact En|]. rewrite E3. unfold set_member.
    destruct (String.eqb_spec n x); [contradiction|reflexivity]. }
  assert (Hfail : forall ns b b', fails b b' -> fails (mock_tk2ttk get ns b) (mock_tk2ttk get ns b')).
  { induction ns as [|n ns IH]; intros b b' Hb; [exact Hb|]. cbn [mock_tk2ttk]. apply IH, Hpatch, Hb. }
  enough (H : fails (mock_tk2ttk get names body) (mock_tk2ttk get names body')) by (exact (H m Hk)).
  clear m Hk. revert body body'. induction names as [|n ns IH]; [destruct Hin|]. intros body body'. cbn [mock_tk2ttk].
  destruct (string_dec n k) as [->|Hne].
  - apply Hfail. intros m' Hm. unfold patch. destruct (get k m') as [v|e]; [|exists e; repeat split; reflexivity].
    rewrite Hm. exists AttributeError. repeat split; reflexivity.
  - destruct Hin as [Hin|Hin]; [contradiction|]. apply IH; assumption.
Qed.
Print Assumptions c102_mock_missing.

(** ** Parsers *)

(** The value of the function, the default for an exception that is to be caught, any
    other exception itself. *)
Theorem c102_try {A B} (func : A -> res B) caught default x :
  (forall v, func x = Ok v -> try_func func caught default x = Ok v) /\
  (forall e, func x = Err e -> caught e = true -> try_func func caught default x = Ok default) /\
  (forall e, func x = Err e -> caught e = false -> try_func func caught default x = Err e).
Proof. unfold try_func. split; [|split]; intros ? ->; [reflexivity| |]; intros ->; reflexivity. Qed.
Print Assumptions c102_try.

(** False for the texts "false", "f" (in any case), the empty one and the numbers that are
    zero, true for all others. *)
Theorem c102_bool float_of x :
  custom_bool float_of x = false <->
  lower x = "false"%string \/ lower x = "f"%string \/ x = ""%string \/ float_of x = Some true.
Proof.
  unfold custom_bool. assert (Hl : lower x = ""%string <-> x = ""%string) by (destruct x; split; intros H; try reflexivity; discriminate).
  cbn [existsb]. destruct (String.eqb_spec (lower x) "false") as [E1|E1]; [cbn; intuition|].
  destruct (String.eqb_spec (lower x) "f") as [E2|E2]; [cbn; intuition|].
  destruct (String.eqb_spec (lower x) "") as [E3|E3]; [cbn; intuition|]. cbn [orb].
  destruct (float_of x) as [[|]|]; cbn; split; intros H; try discriminate; auto.
  - destruct H as [H|[H|[H|H]]]; try contradiction; [apply Hl in H; contradiction|discriminate].
  - destruct H as [H|[H|[H|H]]]; try contradiction; [apply Hl in H; contradiction|discriminate].
Qed.
Print Assumptions c102_bool.

(** ** Operators *)

Definition ops_ok (s : ops) : Prop :=
  dwf (o_made s) /\ NoDup (map snd (o_made s)) /\ forall k o, In (k, o) (o_made s) -> o < o_next s.
Lemma op_getattr_ok numpy key s : ops_ok s ->
  let '(r, s') := op_getattr numpy key s in
  ops_ok s' /\ (forall k o, dget k (o_made s) = Some o -> dget k (o_made s') = Some o) /\
  (forall o, r = Ok o -> dget key (o_made s') = Some o) /\
  (numpy key <> None -> exists o, r = Ok o).
Proof.
  intros (H1 & H2 & H3). unfold op_getattr. destruct (dget key (o_made s)) as [o|] eqn:E.
  - split; [split; [|split]; assumption|]. split; [auto|]. split; [intros o' H; injection H as <-; exact E|]. intros _. exists o. reflexivity.
  - destruct (numpy key) as [f|].
    + split; [split; [|split]|split; [|split]]; cbn [o_made o_next].
      * apply dwf_dset. exact H1.
      * rewrite dset_absent by exact E. rewrite map_app. cbn [map snd]. apply NoDup_app_r || idtac.
        assert (Hnot : ~ In (o_next s) (map snd (o_made s))).
        { intros Hin. apply in_map_iff in Hin as ([k o] & Eo & Hin). cbn in Eo. subst o. apply H3 in Hin. lia. }
        clear - H2 Hnot. induction (map snd (o_made s)) as [|x l IH]; [repeat constructor; auto|].
        apply NoDup_cons_iff in H2 as [Hx H2]. cbn [app]. constructor.
        -- intros Hin. apply in_app_or in Hin as [Hin|[Hin|[]]]; [contradiction|]. apply Hnot. left. symmetry. exact Hin.
        -- apply IH; [exact H2|]. intros Hin. apply Hnot. right. exact Hin.
      * rewrite dset_absent by exact E. intros k o Hin. apply in_app_or in Hin as [Hin|[Hin|[]]]; [apply H3 in Hin; lia|injection Hin as <- <-; lia].
      * intros k o Hk. rewrite dget_dset. destruct (String.eqb_spec key k) as [<-|Hne]; [congruence|exact Hk].
      * intros o H. injection H as <-. rewrite dget_dset, String.eqb_refl. reflexivity.
      * intros _. exists (o_next s). reflexivity.
    + split; [split; [|split]; assumption|]. split; [auto|]. split; [intros o H; discriminate|]. intros H. exfalso. apply H. reflexivity.
Qed.

(** [np2pg.add] is one operator, however often it is asked for: equal names give the same
    operator and different names different ones; a name that numpy does not have is an
    AttributeError, and one that it has is not. *)
Theorem c102_operators numpy keys first i j a b :
  let rs := fst (op_accesses numpy keys (mkOps [] first)) in
  nth_error keys i = Some a -> nth_error keys j = Some b ->
  (numpy a <> None -> exists o, nth_error rs i = Some (Ok o)) /\
  (numpy a = None -> nth_error rs i = Some (Err AttributeError)) /\
  (forall o o', nth_error rs i = Some (Ok o) -> nth_error rs j = Some (Ok o') -> (a = b <-> o = o')).
Proof.
  set (P := fun (keys : list string) (acc : list (res nat) * ops) =>
    List.length (fst acc) = List.length keys /\ ops_ok (snd acc) /\
    (forall k o, dget k (o_made (snd acc)) = Some o -> numpy k <> None) /\
    (forall i a, nth_error keys i = Some a ->
       (numpy a <> None -> exists o, nth_error (fst acc) i = Some (Ok o)) /\
       (numpy a = None -> nth_error (fst acc) i = Some (Err AttributeError)) /\
       (forall o, nth_error (fst acc) i = Some (Ok o) -> dget a (o_made (snd acc)) = Some o))).
  assert (H : P keys (op_accesses numpy keys (mkOps [] first))).
  { unfold op_accesses. induction keys as [|k keys IH] using rev_ind.
    - split; [reflexivity|]. split; [split; [constructor|split; [constructor|intros ? ? []]]|]. split; [intros ? ? H; discriminate|]. intros [|i0] a0 H; discriminate.
    - rewrite fold_left_app. cbn [fold_left]. destruct (fold_left _ keys _) as [rs s]. destruct IH as (L & Hs & Hnp & Hk). cbn [fst snd] in *.
      pose proof (op_getattr_ok numpy k s Hs) as Hg.
      assert (Hnone : numpy k = None -> fst (op_getattr numpy k s) = Err AttributeError).
      { intros Hx. unfold op_getattr. destruct (dget k (o_made s)) eqn:E; [exfalso; exact (Hnp k _ E Hx)|]. rewrite Hx. reflexivity. }
      assert (Hnp' : forall k0 o, dget k0 (o_made (snd (op_getattr numpy k s))) = Some o -> numpy k0 <> None).
      { intros k0 o. unfold op_getattr. destruct (dget k (o_made s)) eqn:E; [apply Hnp|]. destruct (numpy k) eqn:En; [|apply Hnp].
        cbn [snd o_made]. rewrite dget_dset. destruct (String.eqb_spec k k0) as [<-|Hne]; [congruence|apply Hnp]. }
      destruct (op_getattr numpy k s) as [r s']. cbn [fst snd] in *. destruct Hg as (Hs' & Hmono & Hr & Hok).
      split; [cbn [fst]; rewrite !app_length; cbn [List.length]; lia|]. split; [exact Hs'|]. split; [exact Hnp'|]. cbn [fst snd].
      intros i0 a0 Hi. destruct (Nat.lt_ge_cases i0 (List.length keys)) as [Hl|Hl].
      + rewrite nth_error_app1 in Hi by exact Hl. destruct (Hk i0 a0 Hi) as (K1 & K2 & K3).
        rewrite nth_error_app1 by lia. split; [exact K1|]. split; [exact K2|]. intros o Ho. apply Hmono, K3, Ho.
      + rewrite nth_error_app2 in Hi by exact Hl. rewrite nth_error_app2 by lia. rewrite L.
        destruct (i0 - List.length keys) as [|d]; [|destruct d; discriminate]. cbn in Hi. injection Hi as <-. cbn [nth_error].
        split; [intros Hn; destruct (Hok Hn) as (o & ->); exists o; reflexivity|]. split; [intros Hn; rewrite (Hnone Hn); reflexivity|].
        intros o Ho. injection Ho as Ho. apply Hr. exact Ho. }
  destruct H as (_ & (W & N & _) & _ & H). cbv zeta. intros Hi Hj. destruct (H i a Hi) as (A1 & A2 & A3). destruct (H j b Hj) as (_ & _ & B3).
  split; [exact A1|]. split; [exact A2|]. intros o o' Ho Ho'. apply A3 in Ho. apply B3 in Ho'. split.
  - intros <-. congruence.
  - intros <-. apply dget_in in Ho, Ho'. clear - N Ho Ho'. induction (o_made _) as [|[x y] l IH]; [destruct Ho|].
    cbn [map snd] in N. apply NoDup_cons_iff in N as [N0 N]. destruct Ho as [Ho|Ho], Ho' as [Ho'|Ho'].
    + congruence.
    + injection Ho as -> ->. exfalso. apply N0. apply (in_map snd) in Ho'. exact Ho'.
    + injection Ho' as -> ->. exfalso. apply N0. apply (in_map snd) in Ho. exact Ho.
    + apply IH; assumption.
Qed.
Print Assumptions c102_operators.

Local Open Scope R_scope.
(** ** Timing *)

(** The duration is shown once, in the unit, to half of the last digit; a block that raises
    shows nothing, and the exception gets out. *)
Theorem c102_time title unit scale ndigits start stop :
  (forall v, exists shown, time_this title unit scale ndigits start stop (Ok v) = ([(title, shown, unit)], None) /\
     Rabs (shown - (stop - start) * scale) <= / 2 / 10 ^ ndigits /\ exists z, shown * 10 ^ ndigits = IZR z) /\
  (forall e, time_this title unit scale ndigits start stop (Err e) = ([], Some e)).
Proof.
  split; [|reflexivity]. intros v. eexists. split; [reflexivity|]. unfold shown_number.
  set (x := (stop - start) * scale). assert (Hp : 0 < 10 ^ ndigits) by (apply pow_lt; lra). split.
  - pose proof (Rhalf_even_near (x * 10 ^ ndigits)) as [A B].
    replace (IZR (Rhalf_even (x * 10 ^ ndigits)) / 10 ^ ndigits - x) with ((IZR (Rhalf_even (x * 10 ^ ndigits)) - x * 10 ^ ndigits) / 10 ^ ndigits) by (field; lra).
    unfold Rdiv at 1 2. rewrite Rabs_mult, (Rabs_pos_eq (/ 10 ^ ndigits)) by (left; apply Rinv_0_lt_compat; exact Hp).
    apply Rmult_le_compat_r; [left; apply Rinv_0_lt_compat; exact Hp|]. apply Rabs_le. lra.
  - eexists. field_simplify; [reflexivity|lra].
Qed.
Print Assumptions c102_time.

(** ** Channels *)

Lemma chunks_concat {A} n size : forall l : list A, List.length l = (n * size)%nat ->
  concat (chunks n size l) = l /\ List.length (chunks n size l) = n /\ Forall (fun c => List.length c = size) (chunks n size l).
Proof.
  induction n as [|n IH]; intros l Hl.
  - destruct l; [|discriminate Hl]. repeat split; constructor.
  - cbn [chunks concat]. destruct (IH (skipn size l)) as (E1 & E2 & E3); [rewrite skipn_length; lia|].
    split; [rewrite E1; apply firstn_skipn|]. split; [cbn [List.length]; rewrite E2; reflexivity|].
    constructor; [rewrite firstn_length; lia|exact E3].
Qed.
(** A vector is one channel; a matrix has a channel for every row: as many channels of the
    same length, and one after the other they are the samples.  A number and an array
    without channels raise. *)
Theorem c102_channels x n rest :
  (a_shape x = [n] -> channels x = Ok [a_data x]) /\
  (a_shape x = n :: rest -> rest <> [] -> (0 < n)%nat -> List.length (a_data x) = fold_right Nat.mul 1%nat (a_shape x) ->
   exists rows, channels x = Ok rows /\ List.length rows = n /\ concat rows = a_data x /\
     forall c, In c rows -> List.length c = fold_right Nat.mul 1%nat rest) /\
  (a_shape x = [] -> channels x = Err IndexError) /\
  (a_shape x = 0%nat :: rest -> rest <> [] -> channels x = Err ValueError).
Proof.
  unfold channels. split; [|split; [|split]].
  - intros ->. cbn [bind Nat.eqb]. rewrite Nat.mod_1_r. cbn [Nat.eqb]. rewrite Nat.div_1_r. cbn [chunks]. rewrite firstn_all. reflexivity.
  - intros Es Hr Hn Hl. rewrite Es in *. destruct rest as [|r rest]; [congruence|]. cbn [bind].
    destruct (Nat.eqb_spec n 0) as [E|_]; [lia|]. cbn [fold_right] in Hl.
    set (m := (r * fold_right Nat.mul 1 rest)%nat) in *.
    rewrite Hl. rewrite Nat.mul_comm, Nat.mod_mul by lia. cbn [Nat.eqb]. rewrite Nat.div_mul by lia.
    destruct (chunks_concat n m (a_data x)) as (E1 & E2 & E3); [lia|]. eexists. split; [reflexivity|]. split; [exact E2|]. split; [exact E1|].
    intros c Hc. rewrite Forall_forall in E3. apply E3. exact Hc.
  - intros ->. reflexivity.
  - intros ->. destruct rest; [congruence|]. reflexivity.
Qed.
Print Assumptions c102_channels.

(** ** The plot of a matrix *)

(** The limits that are not given are those of the matrix; the plot is [aspect_ratio] times
    as wide as it is high, whatever the limits; a figure of its own has that ratio. *)
Theorem c102_tf tlim flim xlim ylim ax ratio width : ratio <> 0 ->
  let p := tf_plot tlim flim xlim ylim ax ratio width in
  let w := snd (f_xlim p) - fst (f_xlim p) in
  let h := (snd (f_ylim p) - fst (f_ylim p)) * f_aspect p in
  (w <> 0 -> snd (f_ylim p) <> fst (f_ylim p) -> w = ratio * h) /\
  (forall l, xlim = Some l -> f_xlim p = l) /\ (xlim = None -> f_xlim p = tlim) /\
  (forall l, ylim = Some l -> f_ylim p = l) /\ (ylim = None -> f_ylim p = flim) /\
  f_extent p = (fst tlim, snd tlim, fst flim, snd flim) /\
  (ax = true -> f_size p = None) /\ (ax = false -> exists a b, f_size p = Some (a, b) /\ a = ratio * b).
Proof.
  intros Hr p w h. split; [|split; [|split; [|split; [|split; [|split; [|split]]]]]].
  - intros Hw Hh. unfold h, w, p, tf_plot in *. cbn [f_xlim f_ylim f_aspect] in *. field. split; [|exact Hr]. lra.
  - intros l ->. reflexivity.
  - intros ->. reflexivity.
  - intros l ->. reflexivity.
  - intros ->. reflexivity.
  - reflexivity.
  - intros ->. reflexivity.
  - intros ->. eexists _, _. split; [reflexivity|]. ring.
Qed.
Print Assumptions c102_tf.

(** [width], "width for figure size", is the height of the figure. *)
Theorem c102_width_refuted : exists ratio width a b,
  0 < ratio /\ f_size (tf_plot (0, 1) (0, 1) None None false ratio width) = Some (a, b) /\ a <> width /\ b = width.
Proof. exists (4 / 3), 8, (4 / 3 * 8), (1 * 8). split; [lra|]. split; [reflexivity|]. lra. Qed.
Print Assumptions c102_width_refuted.

(** ** Decibels of complex numbers *)

(** Without a floor: the level of the magnitude, minus infinity for 0; [g] times as much is
    the level of [g] more.  With a floor in dB: the greater of the level and the floor. *)
Theorem c102_db (c : Complex.C) f :
  (c <> RtoC 0 -> complex2db c None false = Some (20 * (ln (Cmod c) / ln 10))) /\
  complex2db (RtoC 0) None false = None /\
  (forall (g : Complex.C) b, c <> RtoC 0 -> g <> RtoC 0 -> exists l lg, complex2db c None b = Some l /\ complex2db g None b = Some lg /\ complex2db (Cmult g c) None b = Some (l + lg)) /\
  (c <> RtoC 0 -> complex2db c (Some f) true = Some (Rmax (20 * (ln (Cmod c) / ln 10)) f)) /\
  complex2db (RtoC 0) (Some f) true = Some f /\
  (forall b, complex2db (Cconj c) (Some f) b = complex2db c (Some f) b).
Proof.
  assert (Hl10 : 0 < ln 10) by (rewrite <- ln_1; apply ln_increasing; lra).
  assert (Hpos : forall z : Complex.C, z <> RtoC 0 -> 0 < Cmod z) by (intros z Hz; apply Cmod_gt_0; exact Hz).
  assert (Hf : 0 < db2a f) by (unfold db2a, Rpower; apply exp_pos).
  assert (Hinv : a2db (db2a f) = f) by apply a2db_db2a.
  assert (Hm : forall a b, 0 < a -> 0 < b -> a2db (Rmax a b) = Rmax (a2db a) (a2db b)).
  { intros a b Ha Hb. unfold a2db, log10. unfold Rmax at 1. destruct (Rle_dec a b) as [H|H].
    - rewrite Rmax_right; [reflexivity|]. apply Rmult_le_compat_l; [lra|]. apply Rmult_le_compat_r; [left; apply Rinv_0_lt_compat; exact Hl10|].
      destruct (Rle_lt_or_eq_dec a b H) as [H1| ->]; [left; apply ln_increasing; assumption|lra].
    - rewrite Rmax_left; [reflexivity|]. apply Rmult_le_compat_l; [lra|]. apply Rmult_le_compat_r; [left; apply Rinv_0_lt_compat; exact Hl10|].
      left. apply ln_increasing; lra. }
  split; [|split; [|split; [|split; [|split]]]].
  - intros Hc. unfold complex2db. destruct (Req_EM_T (Cmod c) 0) as [E|_]; [pose proof (Hpos c Hc); lra|]. reflexivity.
  - unfold complex2db. rewrite Cmod_0. destruct (Req_EM_T 0 0) as [_|E]; [reflexivity|congruence].
  - intros g b Hc Hg. exists (a2db (Cmod c)), (a2db (Cmod g)). unfold complex2db. rewrite Cmod_mult.
    pose proof (Hpos c Hc). pose proof (Hpos g Hg). assert (0 < Cmod g * Cmod c) by (apply Rmult_lt_0_compat; assumption).
    destruct (Req_EM_T (Cmod c) 0); [lra|]. destruct (Req_EM_T (Cmod g) 0); [lra|]. destruct (Req_EM_T (Cmod g * Cmod c) 0); [lra|].
    split; [reflexivity|]. split; [reflexivity|]. f_equal. unfold a2db, log10. rewrite ln_mult by assumption. field. lra.
  - intros Hc. unfold complex2db. cbn [andb]. pose proof (Hpos c Hc) as Hp. pose proof (Rmax_l (Cmod c) (db2a f)).
    destruct (Req_EM_T (Rmax (Cmod c) (db2a f)) 0); [lra|]. rewrite Hm by assumption. rewrite Hinv. reflexivity.
  - unfold complex2db. rewrite Cmod_0, Rmax_right by lra. destruct (Req_EM_T (db2a f) 0); [lra|]. rewrite Hinv. reflexivity.
  - intros b. unfold complex2db. replace (Cmod (Cconj c)) with (Cmod c) by (unfold Cmod, Cconj; cbn [fst snd]; f_equal; ring). reflexivity.
Qed.
Print Assumptions c102_db.

(** ** Examples *)
(** [SAMPLE.fit] with a RuntimeWarning (1) and a DeprecationWarning (2) before it raises. *)
Definition example_body (kws : dict bool) : list stmt := [SWarn 1; SWarn 2; SRaise ValueError].
Example c102_example :
  let fit kws := decorated Nat.eqb (fun b : bool => b) (Ignore, 1%nat) false None (Some ("ignore_warnings"%string, true)) example_body kws [(Always, 2%nat)] in
  k_shown (fit []) = [2%nat] /\ k_shown (fit [("ignore_warnings"%string, false)]) = [1%nat; 2%nat] /\
  k_raised (fit []) = Some (Exn ValueError) /\ k_filters (fit []) = [(Always, 2%nat)] /\ adds_no_filter (example_body []).
Proof.
  repeat split. intros f H. cbn in H. intuition discriminate.
Qed.
Example c102_example_mock :
  let m k := if String.eqb k "Button" then Some 1%nat else if String.eqb k "Frame" then Some 2%nat else None in
  let get k (m : module) := Ok (if String.eqb k "Button" then 11%nat else 12%nat) in
  let r := mock_tk2ttk get ["Button"; "Frame"]%string (fun m => (Ok (m "Button"%string, m "Frame"%string), set_member m "Button" None)) m in
  fst r = Ok (Some 11%nat, Some 12%nat) /\ snd r "Button"%string = Some 1%nat /\ snd r "Frame"%string = Some 2%nat.
Proof. repeat split. Qed.
Example c102_example_ops :
  fst (op_accesses (fun k => if String.eqb k "nothing" then None else Some 0%nat) ["add"; "cos"; "nothing"; "add"]%string (mkOps [] 5)) =
    [Ok 5%nat; Ok 6%nat; Err AttributeError; Ok 5%nat] /\
  custom_bool (fun s => if String.eqb s "0" then Some true else None) "FALSE" = false /\
  custom_bool (fun s => if String.eqb s "0" then Some true else None) "0" = false /\
  custom_bool (fun s => if String.eqb s "0" then Some true else None) "off" = true.
Proof. repeat split. Qed.
