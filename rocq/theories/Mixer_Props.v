(** C111: threads that play audio in the graphical interface. *)
From Coq Require Import List Bool ZArith Lia.
Import ListNotations.
From Verif Require Import Mixer_Model Mixer_Proofs.
Local Open Scope nat_scope.

(** Thread [i] is in a call. *)
Definition busy (s : mstate) (i : nat) : Prop := exists f st, nth_error (s_threads s) i = Some (f :: st).
Definition idle (s : mstate) : Prop := forall i st, nth_error (s_threads s) i = Some st -> st = [].
(** [k] operations of threads, and no new calls. *)
Inductive runs (auto : bool) : nat -> mstate -> mstate -> Prop :=
| r_none : forall s, runs auto 0 s s
| r_more : forall k s i p s1 s2, run_step auto s i p s1 -> runs auto k s1 s2 -> runs auto (S k) s s2.

(** ** One at a time *)

(** Whatever threads do and whenever the garbage collector runs: a thread does something to pygame, to a buffer or to the
    lock only while it has the lock, except acquiring the lock, which it does while nobody has it. *)
Theorem c111_exclusive : forall auto anywhere n s i p s', reachable auto anywhere n s -> run_step auto s i p s' ->
  s_lock s = (if match p with MAcquire => true | _ => false end then None else Some i).
Proof.
  intros auto anywhere n s i p s' R S. apply reach_inv in R.
  destruct (run_cases _ _ _ _ _ R S) as [[-> L]|(L & NA & _)]; [exact L|]. destruct p; congruence.
Qed.
(** So two different threads never can both do something. *)
Theorem c111_alone : forall auto anywhere n s i j p q s' s'', reachable auto anywhere n s ->
  run_step auto s i p s' -> run_step auto s j q s'' -> i = j \/ (p = MAcquire /\ q = MAcquire).
Proof.
  intros auto anywhere n s i j p q s' s'' R S T. pose proof (c111_exclusive _ _ _ _ _ _ _ R S) as A.
  pose proof (c111_exclusive _ _ _ _ _ _ _ R T) as B. rewrite A in B. destruct p, q; auto; try discriminate B; left; congruence.
Qed.

(** ** Loading and closing *)

(** When a buffer is loaded or played it is open, pygame has been initialised and
    the mixer has been initialised: at the rate of the buffer if [pygame.init] leaves the mixer alone, and at 44100 Hz if it does not.
    What is played is what has been loaded by the same call.  A buffer is closed at most once. *)
Theorem c111_load : forall auto anywhere n s i p s' o, reachable auto anywhere n s -> run_step auto s i p s' ->
  p = MLoad o \/ p = MPlay o ->
  is_closed s o = false /\ x_py (s_mixer s) = true /\ x_rate (s_mixer s) = Some (if auto then 44100%Z else rate_of s o) /\
  x_rate (s_mixer s') = x_rate (s_mixer s) /\ x_music (s_mixer s') = Some o /\ (p = MPlay o -> x_playing (s_mixer s') = true).
Proof.
  intros auto anywhere n s i p s' o R S P. apply reach_inv in R.
  destruct (run_cases _ _ _ _ _ R S) as [[-> L]|(L & NA & rest & below & N & IN & _ & E & _)]; [destruct P; discriminate|].
  inversion IN; subst; destruct P as [P|P]; try discriminate P; injection P as ->; cbn in E; injection E as <-; cbn; auto 9;
    repeat (split; [assumption || reflexivity|]); auto; discriminate.
Qed.
Theorem c111_close : forall auto anywhere n s i s' o, reachable auto anywhere n s -> run_step auto s i (MCloseBuf o) s' ->
  is_closed s o = false /\ is_closed s' o = true.
Proof.
  intros auto anywhere n s i s' o R S. apply reach_inv in R.
  destruct (run_cases _ _ _ _ _ R S) as [[D _]|(L & NA & rest & below & N & IN & _ & E & _)]; [discriminate|].
  inversion IN; subst. split; [assumption|]. cbn in E. injection E as <-. unfold is_closed, close_buf. cbn [s_bufs].
  destruct (closed_other _ _ H0) as [r K]. rewrite K. now rewrite (update_eq _ _ _ _ K).
Qed.

(** Buffers that have been closed stay closed, and the sampling rates of buffers do not change. *)
Theorem c111_monotone : forall auto anywhere s s' o r b, msteps auto anywhere s s' -> nth_error (s_bufs s) o = Some (r, b) ->
  exists b', nth_error (s_bufs s') o = Some (r, b') /\ (b = true -> b' = true).
Proof.
  intros auto anywhere s s' o r b R H. induction R as [|s1 s2 _ IH S]; [eauto|]. destruct IH as (b1 & K & C).
  assert (B : s_bufs s2 = s_bufs s1 \/ (exists o', s_bufs s2 = close_buf s1 o') \/ exists r', s_bufs s2 = s_bufs s1 ++ [(r', false)]).
  { destruct S as [i p s2 (rest & below & N & E)|i o' N _|i o' st N _ _|r']; cbn; auto; [|eauto].
    unfold m_exec in E. destruct p; try (destruct (s_lock s1); [discriminate E|]); injection E as <-; cbn; eauto. }
  destruct B as [->|[[o' ->]|[r' ->]]].
  - eauto.
  - unfold close_buf. destruct (nth_error (s_bufs s1) o') as [[r' b']|] eqn:Q; [|eauto].
    destruct (Nat.eq_dec o' o) as [->|D].
    + rewrite (update_eq _ _ _ _ Q). rewrite K in Q. injection Q as <- <-. eauto.
    + rewrite update_neq by auto. eauto.
  - rewrite nth_error_app1 by (apply nth_error_Some; congruence). eauto.
Qed.

(** ** Progress *)

(** If finalizers run between calls only, while a thread is in a call some thread can go on; however they are scheduled, threads that make no new calls do at most
    10 operations per call (here the number that is left); and there is a schedule in which all calls return and the lock is free. *)
Lemma go_on : forall auto n s i, reachable auto false n s -> busy s i -> exists j p s', run_step auto s j p s'.
Proof.
  intros auto n s i R (f & st & N). pose proof (reach_inv _ _ _ _ R) as I. unfold inv in I. destruct (s_lock s) as [h|] eqn:L.
  - destruct I as (pre & g & post & N' & FP & FQ & IN & OT). exists h. destruct pre as [|x pre].
    + eapply inside_goes; eauto.
    + apply (reach_flat _ _ _ R) in N'. cbn in N'. rewrite app_length in N'. cbn in N'. lia.
  - exists i. specialize (I _ _ N). inversion I as [|? ? [o F] _]; subst. destruct F as [-> | ->];
      eexists; eexists; eexists; eexists; (split; [exact N|cbn; rewrite L; reflexivity]).
Qed.
Theorem c111_progress : forall auto n s i, reachable auto false n s -> busy s i -> exists j p s', run_step auto s j p s'.
Proof. exact go_on. Qed.
Lemma runs_reach : forall auto anywhere n k s s', runs auto k s s' -> reachable auto anywhere n s -> reachable auto anywhere n s'.
Proof.
  intros auto anywhere n k s s' R. induction R as [|k s i p s1 s2 S _ IH]; intro H; [exact H|]. apply IH.
  eapply ms_step; [exact H|]. eapply m_run; exact S.
Qed.
Theorem c111_bounded : forall auto anywhere n k s s', reachable auto anywhere n s -> runs auto k s s' ->
  k + list_sum (map (fun st => list_sum (map (@List.length mop) st)) (s_threads s')) <=
  list_sum (map (fun st => list_sum (map (@List.length mop) st)) (s_threads s)).
Proof.
  intros auto anywhere n k s s' H R. change (k + all_to_do s' <= all_to_do s). induction R as [|k s i p s1 s2 S R IH]; [lia|].
  pose proof (run_less _ _ _ _ _ (reach_inv _ _ _ _ H) S) as L.
  assert (reachable auto anywhere n s1) by (eapply ms_step; [exact H|]; eapply m_run; exact S). specialize (IH H0). lia.
Qed.
Lemma busy_or : forall s, (exists i, busy s i) \/ idle s.
Proof.
  intro s. assert (G : forall l : list (list (list mop)), (exists i f st, nth_error l i = Some (f :: st)) \/ forall i st, nth_error l i = Some st -> st = []).
  { induction l as [|a l [(i & f & st & IH)|IH]].
    - right. intros [|i] st H; discriminate H.
    - left. exists (S i), f, st. exact IH.
    - destruct a as [|f st]; [right|left; exists 0, f, st; reflexivity]. intros [|i] st H; cbn in H; [now injection H|eauto]. }
  destruct (G (s_threads s)) as [(i & f & st & H)|H]; [left; exists i, f, st; exact H|right; exact H].
Qed.
Theorem c111_returns : forall auto n s, reachable auto false n s -> exists k s', runs auto k s s' /\ idle s' /\ s_lock s' = None.
Proof.
  intros auto n s R. remember (all_to_do s) as m eqn:E. revert s R E. induction m as [m IH] using lt_wf_ind. intros s R E.
  destruct (busy_or s) as [[i B]|D].
  - destruct (go_on _ _ _ _ R B) as (j & p & s1 & S). pose proof (run_less _ _ _ _ _ (reach_inv _ _ _ _ R) S) as L.
    assert (R1 : reachable auto false n s1) by (eapply ms_step; [exact R|]; eapply m_run; exact S).
    destruct (IH (all_to_do s1) ltac:(lia) s1 R1 eq_refl) as (k & s2 & RR & DD). exists (1 + k), s2. split; [econstructor; eauto|exact DD].
  - exists 0, s. split; [constructor|]. split; [exact D|]. apply reach_inv in R. unfold inv in R. destruct (s_lock s) as [h|]; [|reflexivity].
    destruct R as (pre & f & post & N & _). apply D in N. destruct pre; discriminate N.
Qed.

(** ** A finalizer within a call *)

(** If a thread that has the lock is about to acquire it, which happens when the garbage collector finalizes another object while the thread
    is in a call, nobody ever does anything again: the thread keeps the lock and no thread goes on. *)
Theorem c111_stuck : forall auto anywhere n s h rest below s', reachable auto anywhere n s -> s_lock s = Some h ->
  nth_error (s_threads s) h = Some ((MAcquire :: rest) :: below) -> msteps auto anywhere s s' ->
  s_lock s' = Some h /\ busy s' h /\ s_mixer s' = s_mixer s /\ forall i p s'', ~ run_step auto s' i p s''.
Proof.
  intros auto anywhere n s h rest below s' R L N M.
  assert (G : reachable auto anywhere n s' /\ s_lock s' = Some h /\ s_mixer s' = s_mixer s /\ exists rest below, nth_error (s_threads s') h = Some ((MAcquire :: rest) :: below)).
  { induction M as [|s1 s2 _ (R1 & L1 & M1 & rest' & below' & N1) S]; [eauto 8|].
    assert (R2 : reachable auto anywhere n s2) by (eapply ms_step; eauto). split; [exact R2|].
    destruct S as [i p s2 RS|i o NN _|i o st NN _ _|r]; cbn [s_lock s_threads s_mixer].
    - exfalso. destruct (run_cases _ _ _ _ _ (reach_inv _ _ _ _ R1) RS) as [[_ D]|(D & NA & r' & b' & N' & _)]; [congruence|].
      rewrite L1 in D. injection D as <-. rewrite N1 in N'. injection N' as <- _ _. now apply NA.
    - split; [exact L1|]. split; [exact M1|]. exists rest', below'. rewrite update_neq; [exact N1|]. intros ->. congruence.
    - split; [exact L1|]. split; [exact M1|]. destruct (Nat.eq_dec i h) as [->|D].
      + rewrite (update_eq _ _ _ _ NN). eexists; eexists; reflexivity.
      + rewrite update_neq by auto. eauto.
    - eauto. }
  destruct G as (R1 & L1 & M1 & rest' & below' & N1). split; [exact L1|]. split; [exists (MAcquire :: rest'), below'; exact N1|].
  split; [exact M1|]. intros i p s'' RS.
  destruct (run_cases _ _ _ _ _ (reach_inv _ _ _ _ R1) RS) as [[_ D]|(D & NA & r' & b' & N' & _)]; [congruence|].
  rewrite L1 in D. injection D as <-. rewrite N1 in N'. injection N' as <- _ _. now apply NA.
Qed.

(** One thread, two recordings at 8000 and 44100 Hz; the thread plays the first one and has acquired the lock when the collector finalizes the second one. *)
Theorem c111_deadlock_refuted : forall auto, exists s, reachable auto true 1 s /\ busy s 0 /\
  forall s', msteps auto true s s' -> busy s' 0 /\ forall i p s'', ~ run_step auto s' i p s''.
Proof.
  intro auto. set (s := mkMState [(8000%Z, false); (44100%Z, false)] (Some 0)
    [[m_del 1; MIfOpen 0 :: m_close_pygame ++ m_open_pygame 0 ++ [MLoad 0; MPlay 0; MRelease]]] (mkMixer false None None false)).
  assert (R : reachable auto true 1 s).
  { apply (do_acts_ok auto true [ANew 8000; ANew 44100; ACall 0 0; ARun 0; AFin 0 1]). destruct auto; vm_compute; reflexivity. }
  exists s. split; [exact R|]. split; [eexists; eexists; reflexivity|].
  intros s' M. destruct (c111_stuck _ _ _ _ _ _ _ _ R eq_refl eq_refl M) as (_ & B & _ & D). auto.
Qed.

(** ** Music from a closed buffer *)

(** One thread plays a recording and then the object is finalized: the buffer has been closed although pygame plays from it. *)
Theorem c111_closed_music_refuted : forall auto, exists s o, reachable auto false 1 s /\ idle s /\
  x_music (s_mixer s) = Some o /\ x_playing (s_mixer s) = true /\ is_closed s o = true.
Proof.
  intro auto. exists (mkMState [(8000%Z, true)] None [[]] (mkMixer true (Some (if auto then 44100%Z else 8000%Z)) (Some 0) true)), 0.
  split; [|split; [|repeat split]].
  - apply (do_acts_ok auto false ([ANew 8000; ACall 0 0] ++ repeat (ARun 0) 10 ++ AFin 0 0 :: repeat (ARun 0) 4)).
    destruct auto; vm_compute; reflexivity.
  - intros [|[|i]] st H; cbn in H; [now injection H|discriminate H|discriminate H].
Qed.

(** ** Examples *)

(** Two threads: one has loaded, and is about to play, a recording at 8000 Hz; the other waits. *)
Definition ex_waiting (auto : bool) : mstate :=
  mkMState [(8000%Z, false)] (Some 0) [[[MPlay 0; MRelease]]; [m_del 0]]
    (mkMixer true (Some (if auto then 44100%Z else 8000%Z)) (Some 0) false).
Example ex_waiting_reached : forall auto, reachable auto false 2 (ex_waiting auto).
Proof.
  intro auto. eapply (do_acts_ok auto false ([ANew 8000; ACall 0 0; AFin 1 0] ++ repeat (ARun 0) 8)). destruct auto; vm_compute; reflexivity.
Qed.
(** The first thread plays at the rate of the recording if the mixer had not been initialised, the other cannot go on, and there are 6 operations to do. *)
Example ex_playing : forall auto, exists s', run_step auto (ex_waiting auto) 0 (MPlay 0) s' /\ x_playing (s_mixer s') = true /\
  x_rate (s_mixer s') = Some (if auto then 44100%Z else 8000%Z) /\ (forall p s'', ~ run_step auto (ex_waiting auto) 1 p s'') /\
  list_sum (map (fun st => list_sum (map (@List.length mop) st)) (s_threads (ex_waiting auto))) = 6.
Proof.
  intro auto. eexists. split; [eexists; eexists; split; reflexivity|]. split; [reflexivity|]. split; [reflexivity|]. split; [|reflexivity].
  intros p s'' (rest & below & N & E). cbn in N. injection N as <- <- <-. discriminate E.
Qed.

Print Assumptions c111_exclusive. Print Assumptions c111_alone. Print Assumptions c111_load. Print Assumptions c111_close.
Print Assumptions c111_monotone. Print Assumptions c111_progress. Print Assumptions c111_bounded. Print Assumptions c111_returns.
Print Assumptions c111_stuck. Print Assumptions c111_deadlock_refuted. Print Assumptions c111_closed_music_refuted.
