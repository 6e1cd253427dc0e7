(** Invariants of threads that play audio (C111). *)
From Coq Require Import List Bool ZArith Lia.
Import ListNotations.
From Verif Require Import Mixer_Model.
Local Open Scope nat_scope.

(** ** Lists *)

Lemma update_eq : forall {A : Type} (l : list A) i x y, nth_error l i = Some y -> nth_error (update l i x) i = Some x.
Proof. intros A l. induction l as [|a l IH]; intros [|i] x y H; try discriminate H; cbn in *; [reflexivity|eauto]. Qed.
Lemma update_neq : forall {A : Type} (l : list A) i j x, i <> j -> nth_error (update l i x) j = nth_error l j.
Proof.
  intros A l. induction l as [|a l IH]; intros i j x H; [reflexivity|]. destruct i as [|i], j as [|j]; cbn; auto; congruence.
Qed.
Lemma update_length : forall {A : Type} (l : list A) i x, List.length (update l i x) = List.length l.
Proof. intros A l. induction l as [|a l IH]; intros [|i] x; cbn; auto. Qed.

(** ** Calls *)

(** A call that has not begun. *)
Definition fresh (f : list mop) : Prop := exists o, f = m_play o \/ f = m_del o.
(** A call that has the lock, and what is true of the state then. *)
Inductive inside (auto : bool) (s : mstate) : list mop -> Prop :=
| in_if_p : forall o, inside auto s (MIfOpen o :: m_close_pygame ++ m_open_pygame o ++ [MLoad o; MPlay o; MRelease])
| in_unload : forall o, is_closed s o = false -> inside auto s (m_close_pygame ++ m_open_pygame o ++ [MLoad o; MPlay o; MRelease])
| in_mixquit : forall o, is_closed s o = false -> inside auto s ([MMixQuit; MPyQuit] ++ m_open_pygame o ++ [MLoad o; MPlay o; MRelease])
| in_pyquit : forall o, is_closed s o = false -> inside auto s ([MPyQuit] ++ m_open_pygame o ++ [MLoad o; MPlay o; MRelease])
| in_pyinit : forall o, is_closed s o = false -> x_rate (s_mixer s) = None -> inside auto s (m_open_pygame o ++ [MLoad o; MPlay o; MRelease])
| in_mixinit : forall o, is_closed s o = false -> x_py (s_mixer s) = true ->
    x_rate (s_mixer s) = (if auto then Some 44100%Z else None) -> inside auto s [MMixInit o; MLoad o; MPlay o; MRelease]
| in_load : forall o, is_closed s o = false -> x_py (s_mixer s) = true ->
    x_rate (s_mixer s) = Some (if auto then 44100%Z else rate_of s o) -> inside auto s [MLoad o; MPlay o; MRelease]
| in_play : forall o, is_closed s o = false -> x_py (s_mixer s) = true ->
    x_rate (s_mixer s) = Some (if auto then 44100%Z else rate_of s o) -> x_music (s_mixer s) = Some o -> inside auto s [MPlay o; MRelease]
| in_if_d : forall o, inside auto s [MIfOpen o; MCloseBuf o; MRelease]
| in_close : forall o, is_closed s o = false -> inside auto s [MCloseBuf o; MRelease]
| in_release : inside auto s [MRelease].

Definition inv (auto : bool) (s : mstate) : Prop :=
  match s_lock s with
  | None => forall j st, nth_error (s_threads s) j = Some st -> Forall fresh st
  | Some h => exists pre f post, nth_error (s_threads s) h = Some (pre ++ f :: post) /\ Forall fresh pre /\ Forall fresh post /\
      inside auto s f /\ forall j st, j <> h -> nth_error (s_threads s) j = Some st -> Forall fresh st
  end.

Lemma fresh_head : forall p rest, fresh (p :: rest) -> p = MAcquire /\ forall auto s, inside auto s rest.
Proof.
  intros p rest [o [H|H]]; injection H as -> ->; split; auto; intros auto s; [apply (in_if_p auto s o)|apply (in_if_d auto s o)].
Qed.

(** What [inside] needs of the state. *)
Lemma inside_same : forall auto s t f, s_bufs t = s_bufs s -> s_mixer t = s_mixer s -> inside auto s f -> inside auto t f.
Proof.
  intros auto s t f B M H. assert (C : forall o, is_closed t o = is_closed s o) by (intro o; unfold is_closed; now rewrite B).
  assert (R : forall o, rate_of t o = rate_of s o) by (intro o; unfold rate_of; now rewrite B).
  destruct H; constructor; rewrite ?C, ?R, ?M; auto.
Qed.
Lemma inside_new : forall auto s l k th r f, inside auto s f -> inside auto (mkMState (s_bufs s ++ [(r, l)]) k th (s_mixer s)) f.
Proof.
  intros auto s l k th r f H. set (t := mkMState _ _ _ _).
  assert (C : forall o, is_closed s o = false -> is_closed t o = false /\ rate_of t o = rate_of s o).
  { intros o. unfold is_closed, rate_of, t. cbn [s_bufs]. destruct (nth_error (s_bufs s) o) as [[r' b]|] eqn:E; [|discriminate].
    intros ->. rewrite nth_error_app1 by (apply nth_error_Some; congruence). now rewrite E. }
  destruct H; constructor; cbn [s_mixer t] in *; try (apply C; assumption); try assumption;
    destruct (C o ltac:(assumption)) as [_ ->]; assumption.
Qed.

(** The possible steps of a thread. *)
Lemma run_cases : forall auto s i p s', inv auto s -> run_step auto s i p s' ->
  (p = MAcquire /\ s_lock s = None) \/
  (s_lock s = Some i /\ p <> MAcquire /\ exists rest below, nth_error (s_threads s) i = Some ((p :: rest) :: below) /\
     inside auto s (p :: rest) /\ Forall fresh below /\ m_exec auto s i p rest below = Some s' /\
     forall j st, j <> i -> nth_error (s_threads s) j = Some st -> Forall fresh st).
Proof.
  intros auto s i p s' I (rest & below & N & E). unfold inv in I. destruct (s_lock s) as [h|] eqn:L.
  - right. destruct I as (pre & f & post & N' & FP & FQ & IN & OT).
    destruct (Nat.eq_dec i h) as [->|D].
    + rewrite N in N'. injection N' as N'. destruct pre as [|g pre].
      * cbn in N'. injection N' as <- <-. split; [reflexivity|].
        assert (p <> MAcquire) by (intros ->; inversion IN). split; [assumption|]. exists rest, below. auto 8.
      * exfalso. cbn in N'. injection N' as <- _. inversion FP as [|? ? F _]; subst. apply fresh_head in F. destruct F as [-> _].
        cbn in E. rewrite L in E. discriminate E.
    + exfalso. specialize (OT i _ D N). inversion OT as [|? ? F _]; subst. apply fresh_head in F. destruct F as [-> _].
      cbn in E. rewrite L in E. discriminate E.
  - left. specialize (I i _ N). inversion I as [|? ? F _]; subst. apply fresh_head in F. split; [apply F|reflexivity].
Qed.

Lemma closed_other : forall s o, is_closed s o = false -> exists r, nth_error (s_bufs s) o = Some (r, false).
Proof. intros s o H. unfold is_closed in H. destruct (nth_error (s_bufs s) o) as [[r b]|]; [|discriminate]. subst. eauto. Qed.

Lemma run_inv : forall auto s i p s', inv auto s -> run_step auto s i p s' -> inv auto s'.
Proof.
  intros auto s i p s' I R. pose proof (run_cases _ _ _ _ _ I R) as [[-> L]|(L & NA & rest & below & N & IN & FB & E & OT)].
  - destruct R as (rest & below & N & E). cbn in E. rewrite L in E. injection E as <-. unfold inv in I. rewrite L in I.
    pose proof (I i _ N) as F. inversion F as [|? ? FH FB]; subst. apply fresh_head in FH. destruct FH as [_ FH].
    unfold inv. cbn [s_lock s_threads s_bufs s_mixer].
    exists [], rest, below. cbn [app]. assert (NE : rest <> []) by (intros ->; specialize (FH auto s); inversion FH).
    split; [|split; [constructor|split; [exact FB|split; [apply FH|]]]].
    + rewrite (update_eq _ _ _ _ N). destruct rest; [congruence|reflexivity].
    + intros j st D H. rewrite update_neq in H by auto. eapply I, H.
  - (* the thread with the lock goes on *)
    assert (GO : forall b q r x, let t := mkMState b (Some i) (update (s_threads s) i ((q :: r) :: below)) x in
      inside auto t (q :: r) -> inv auto t).
    { intros b q r x t IN'. unfold inv. cbn [s_lock t s_threads]. exists [], (q :: r), below. cbn [app].
      split; [now rewrite (update_eq _ _ _ _ N)|].
      split; [constructor|]. split; [exact FB|]. split; [exact IN'|].
      intros j st D H. rewrite update_neq in H by auto. eapply OT; eauto. }
    inversion IN; subst; cbn [m_exec] in E; try rewrite L in E; injection E as <-.
    + destruct (is_closed s o) eqn:C; cbn [pop]; apply GO; [apply in_release|].
      apply in_unload. exact C.
    + apply GO; apply in_mixquit. assumption.
    + apply GO; apply in_pyquit. assumption.
    + apply GO; apply in_pyinit; [assumption|reflexivity].
    + apply GO; apply in_mixinit; [assumption| |]; cbn [s_mixer mix_op];
        unfold mix_init; destruct auto; cbn [x_py x_rate]; try match goal with K : x_rate _ = None |- _ => rewrite K end; reflexivity.
    + apply GO; apply in_load; [assumption| |]; cbn [s_mixer mix_op]; unfold mix_init; match goal with K : x_rate _ = (if _ then _ else _) |- _ => rewrite K end; destruct auto; cbn [x_py x_rate]; auto.
    + apply GO; apply in_play; [assumption|..]; cbn [s_mixer mix_op x_py x_rate x_music]; auto.
    + apply GO; apply in_release.
    + destruct (is_closed s o) eqn:C; cbn [pop]; apply GO; [apply in_release|].
      apply in_close. exact C.
    + apply GO; apply in_release.
    + unfold inv. cbn [s_lock s_threads]. intros j st H. destruct (Nat.eq_dec j i) as [->|D].
      * rewrite (update_eq _ _ _ _ N) in H. cbn in H. injection H as <-. exact FB.
      * rewrite update_neq in H by auto. eapply OT; eauto.
Qed.

Lemma step_inv : forall auto anywhere s s', inv auto s -> mstep auto anywhere s s' -> inv auto s'.
Proof.
  intros auto anywhere s s' I H. destruct H as [i p s' R|i o N _|i o st N _ _|r].
  - eapply run_inv; eauto.
  - unfold inv in *. cbn [s_lock s_threads]. destruct (s_lock s) as [h|].
    + destruct I as (pre & f & post & N' & FP & FQ & IN & OT). exists pre, f, post.
      assert (D : i <> h). { intros ->. rewrite N in N'. injection N' as N'. destruct pre; discriminate N'. }
      split; [rewrite update_neq by auto; exact N'|]. split; [exact FP|]. split; [exact FQ|]. split; [eapply inside_same; try exact IN; reflexivity|].
      intros j st' Dj H. destruct (Nat.eq_dec j i) as [->|E].
      * rewrite (update_eq _ _ _ _ N) in H. injection H as <-. constructor; [exists o; auto|constructor].
      * rewrite update_neq in H by auto. eapply OT; eauto.
    + intros j st' H. destruct (Nat.eq_dec j i) as [->|E].
      * rewrite (update_eq _ _ _ _ N) in H. injection H as <-. constructor; [exists o; auto|constructor].
      * rewrite update_neq in H by auto. eapply I; eauto.
  - unfold inv in *. cbn [s_lock s_threads]. destruct (s_lock s) as [h|].
    + destruct I as (pre & f & post & N' & FP & FQ & IN & OT). destruct (Nat.eq_dec i h) as [->|D].
      * rewrite N in N'. injection N' as ->. exists (m_del o :: pre), f, post.
        split; [now rewrite (update_eq _ _ _ _ N)|]. split; [constructor; [exists o; auto|exact FP]|]. split; [exact FQ|].
        split; [eapply inside_same; try exact IN; reflexivity|]. intros j st' Dj H. rewrite update_neq in H by auto. eapply OT; eauto.
      * exists pre, f, post. split; [rewrite update_neq by auto; exact N'|]. split; [exact FP|]. split; [exact FQ|].
        split; [eapply inside_same; try exact IN; reflexivity|].
        intros j st' Dj H. destruct (Nat.eq_dec j i) as [->|E].
        -- rewrite (update_eq _ _ _ _ N) in H. injection H as <-. constructor; [exists o; auto|eapply OT; eauto].
        -- rewrite update_neq in H by auto. eapply OT; eauto.
    + intros j st' H. destruct (Nat.eq_dec j i) as [->|E].
      * rewrite (update_eq _ _ _ _ N) in H. injection H as <-. constructor; [exists o; auto|eapply I; eauto].
      * rewrite update_neq in H by auto. eapply I; eauto.
  - unfold inv in *. cbn [s_lock s_threads]. destruct (s_lock s) as [h|]; [|exact I].
    destruct I as (pre & f & post & N' & FP & FQ & IN & OT). exists pre, f, post. repeat (split; [assumption|]).
    split; [now apply inside_new|exact OT].
Qed.

Lemma reach_inv : forall auto anywhere n s, reachable auto anywhere n s -> inv auto s.
Proof.
  intros auto anywhere n s R. induction R as [|s1 s2 _ IH S]; [|eapply step_inv; eauto].
  unfold inv, m_start. cbn [s_lock s_threads]. intros j st H. apply nth_error_In, repeat_spec in H. subst. constructor.
Qed.

(** ** Calls in calls *)

Lemma reach_flat : forall auto n s, reachable auto false n s -> forall i st, nth_error (s_threads s) i = Some st -> List.length st <= 1.
Proof.
  intros auto n s R. induction R as [|s1 s2 R IH S]; intros i st H.
  - apply nth_error_In, repeat_spec in H. subst. cbn. lia.
  - destruct S as [j p s' (rest & below & N & E)|j o N _|j o st' N A _|r]; cbn [s_threads] in H; try (now eapply IH, H).
    + assert (T : exists r', s_threads s' = update (s_threads s1) j (pop r' below)).
      { unfold m_exec in E. destruct p; try (destruct (s_lock s1); [discriminate E|]); injection E as <-; eexists; reflexivity. }
      destruct T as [r' T]. rewrite T in H. destruct (Nat.eq_dec i j) as [->|D].
      * rewrite (update_eq _ _ _ _ N) in H. injection H as <-. specialize (IH _ _ N). cbn in IH. destruct r'; cbn; lia.
      * rewrite update_neq in H by auto. eapply IH, H.
    + destruct (Nat.eq_dec i j) as [->|D].
      * rewrite (update_eq _ _ _ _ N) in H. injection H as <-. cbn. lia.
      * rewrite update_neq in H by auto. eapply IH, H.
    + destruct A as [A|A]; [discriminate A|]. subst st'. destruct (Nat.eq_dec i j) as [->|D].
      * rewrite (update_eq _ _ _ _ N) in H. injection H as <-. cbn. lia.
      * rewrite update_neq in H by auto. eapply IH, H.
Qed.

(** A thread that has the lock goes on unless a call is above the call that has it. *)
Lemma inside_goes : forall auto s i f below, nth_error (s_threads s) i = Some (f :: below) -> inside auto s f ->
  exists p s', run_step auto s i p s'.
Proof.
  intros auto s i f below N IN. inversion IN; subst f; eexists; eexists; eexists; eexists; (split; [exact N|reflexivity]).
Qed.

(** Number of operations to do. *)
Definition to_do (st : list (list mop)) : nat := list_sum (map (@List.length mop) st).
Definition all_to_do (s : mstate) : nat := list_sum (map to_do (s_threads s)).
Lemma update_sum : forall (g : list (list mop) -> nat) l i x y, nth_error l i = Some y ->
  list_sum (map g (update l i x)) + g y = list_sum (map g l) + g x.
Proof.
  intros g l. induction l as [|a l IH]; intros [|i] x y H; try discriminate H;
    cbn [update map nth_error] in *; unfold list_sum in *; cbn [fold_right] in *.
  - injection H as ->. lia.
  - specialize (IH _ x _ H). lia.
Qed.
Lemma run_less : forall auto s i p s', inv auto s -> run_step auto s i p s' -> all_to_do s' < all_to_do s.
Proof.
  intros auto s i p s' I R.
  assert (T : exists rest below r', nth_error (s_threads s) i = Some ((p :: rest) :: below) /\
    s_threads s' = update (s_threads s) i (pop r' below) /\ List.length r' < List.length (p :: rest)).
  { pose proof (run_cases _ _ _ _ _ I R) as [[-> L]|(L & NA & rest & below & N & IN & FB & E & OT)].
    - destruct R as (rest & below & N & E). cbn in E. rewrite L in E. injection E as <-. exists rest, below, rest. cbn. auto.
    - exists rest, below.
      assert (T : s_threads s' = update (s_threads s) i
        (pop (match p with MIfOpen o => if is_closed s o then [MRelease] else rest | _ => rest end) below)).
      { destruct p; cbn [m_exec] in E; try congruence; injection E as <-; reflexivity. }
      eexists. split; [exact N|]. split; [exact T|].
      inversion IN; subst; try (destruct (is_closed s o)); cbn; lia. }
  destruct T as (rest & below & r' & N & T & LT). unfold all_to_do. rewrite T.
  pose proof (update_sum to_do (s_threads s) i (pop r' below) _ N) as U.
  assert (P : to_do (pop r' below) = List.length r' + to_do below) by (destruct r'; reflexivity).
  assert (Q : to_do ((p :: rest) :: below) = List.length (p :: rest) + to_do below) by reflexivity. lia.
Qed.

(** ** Steps, computed *)

Inductive act : Type := ARun (i : nat) | ACall (i o : nat) | AFin (i o : nat) | ANew (r : Z).
Definition do_act (auto anywhere : bool) (s : mstate) (a : act) : option mstate :=
  match a with
  | ARun i => match nth_error (s_threads s) i with Some ((p :: rest) :: below) => m_exec auto s i p rest below | _ => None end
  | ACall i o => match nth_error (s_threads s) i with
      | Some [] => if o <? List.length (s_bufs s) then Some (mkMState (s_bufs s) (s_lock s) (update (s_threads s) i [m_play o]) (s_mixer s)) else None
      | _ => None end
  | AFin i o => match nth_error (s_threads s) i with
      | Some st => if (anywhere || match st with [] => true | _ => false end) && (o <? List.length (s_bufs s))
          then Some (mkMState (s_bufs s) (s_lock s) (update (s_threads s) i (m_del o :: st)) (s_mixer s)) else None
      | _ => None end
  | ANew r => Some (mkMState (s_bufs s ++ [(r, false)]) (s_lock s) (s_threads s) (s_mixer s))
  end.
Fixpoint do_acts (auto anywhere : bool) (s : mstate) (l : list act) : option mstate :=
  match l with
  | [] => Some s
  | a :: l => match do_act auto anywhere s a with Some s' => do_acts auto anywhere s' l | None => None end
  end.
Lemma do_act_ok : forall auto anywhere s a s', do_act auto anywhere s a = Some s' -> mstep auto anywhere s s'.
Proof.
  intros auto anywhere s a s' H. destruct a as [i|i o|i o|r]; cbn [do_act] in H.
  - destruct (nth_error (s_threads s) i) as [[|[|p rest] below]|] eqn:N; try discriminate H. eapply m_run. exists rest, below. eauto.
  - destruct (nth_error (s_threads s) i) as [[|]|] eqn:N; try discriminate H.
    destruct (Nat.ltb_spec o (List.length (s_bufs s))); [|discriminate H]. injection H as <-. now apply m_call.
  - destruct (nth_error (s_threads s) i) as [st|] eqn:N; try discriminate H.
    destruct (Nat.ltb_spec o (List.length (s_bufs s))); [|rewrite andb_false_r in H; discriminate H]. rewrite andb_true_r in H.
    destruct (anywhere || _) eqn:A in H; [|discriminate H]. injection H as <-. apply m_fin; auto.
    apply orb_true_iff in A. destruct A as [A|A]; [auto|]. right. destruct st; [reflexivity|discriminate A].
  - injection H as <-. apply m_new.
Qed.
Lemma do_acts_ok : forall auto anywhere l s s', do_acts auto anywhere s l = Some s' -> msteps auto anywhere s s'.
Proof.
  intros auto anywhere l s s' H.
  assert (G : forall s0, msteps auto anywhere s0 s -> msteps auto anywhere s0 s').
  { revert s H. induction l as [|a l IH]; intros s H s0 M; cbn in H; [injection H as <-; exact M|].
    destruct (do_act auto anywhere s a) as [s1|] eqn:A; [|discriminate H]. eapply IH; [exact H|]. eapply ms_step; [exact M|].
    eapply do_act_ok, A. }
  apply G, ms_refl.
Qed.
