(** C97: benchmarks that are interrupted and resumed, speed-ups and their colours
    (scripts/cim22/performance.py). *)
From Coq Require Import String List Bool ZArith Reals Lia Lra Permutation.
Import ListNotations.
From Verif Require Import Base Py RLists ListLemmas PyLemmas Perf_Model.
Local Open Scope R_scope.

(** ** Grids *)

(** [v], shifted by [o], is a geometric progression of [n] values from [a] to [b]. *)
Definition geometric (v : list R) (a b o : R) (n : nat) : Prop :=
  List.length v = n /\ exists r, 0 < r /\ (forall i, (i < n)%nat -> nth i v 0 + o = (a + o) * r ^ i) /\
    (a + o) * r ^ (n - 1) = b + o.

Lemma unit_space_length n : List.length (unit_space n) = n.
Proof. unfold unit_space. rewrite map_length, seq_length. reflexivity. Qed.
Lemma unit_space_nth n i : (2 <= n)%nat -> (i < n)%nat -> nth i (unit_space n) 0 = INR i / INR (n - 1).
Proof.
  intros Hn Hi. unfold unit_space. rewrite (nth_map_lt _ _ _ 0%nat) by (rewrite seq_length; exact Hi).
  rewrite seq_nth by exact Hi. destruct (Nat.eqb_spec n 1); [lia|reflexivity].
Qed.

Theorem c97_grid a b o n : (2 <= n)%nat -> 0 < a + o -> 0 < b + o -> geometric (logspace a b n o) a b o n.
Proof.
  intros Hn Ha Hb. split; [unfold logspace, logspace_p; rewrite map_length; apply unit_space_length|].
  assert (Hd : 0 < INR (n - 1)) by (apply lt_0_INR; lia).
  set (q := (ln (b + o) - ln (a + o)) / INR (n - 1)).
  assert (Hpow : forall i, exp q ^ i = exp (q * INR i)).
  { intros i. induction i; [simpl; rewrite Rmult_0_r, exp_0; reflexivity|].
    rewrite S_INR. simpl pow. rewrite IHi, <- exp_plus. f_equal. ring. }
  exists (exp q). split; [apply exp_pos|]. split.
  - intros i Hi. unfold logspace, logspace_p. rewrite (nth_map_lt _ _ _ 0) by (rewrite unit_space_length; exact Hi).
    rewrite unit_space_nth by assumption. rewrite Hpow, exp_plus, exp_ln by exact Ha.
    replace ((ln (b + o) - ln (a + o)) * (INR i / INR (n - 1))) with (q * INR i) by (unfold q; field; lra). ring.
  - rewrite Hpow. replace (q * INR (n - 1)) with (ln (b + o) - ln (a + o)) by (unfold q; field; lra).
    unfold Rminus. rewrite exp_plus, exp_Ropp, !exp_ln by assumption. field. lra.
Qed.
Print Assumptions c97_grid.

Theorem c97_grid_increasing a b o n i : (2 <= n)%nat -> 0 < a + o -> a < b -> (S i < n)%nat ->
  nth i (logspace a b n o) 0 < nth (S i) (logspace a b n o) 0.
Proof.
  intros Hn Ha Hab Hi. unfold logspace, logspace_p.
  rewrite !(nth_map_lt _ _ _ 0) by (rewrite unit_space_length; lia). rewrite !unit_space_nth by lia.
  assert (Hd : 0 < INR (n - 1)) by (apply lt_0_INR; lia).
  assert (Hl : ln (a + o) < ln (b + o)) by (apply ln_increasing; lra).
  enough (exp (ln (a + o) + (ln (b + o) - ln (a + o)) * (INR i / INR (n - 1)))
    < exp (ln (a + o) + (ln (b + o) - ln (a + o)) * (INR (S i) / INR (n - 1)))) by lra.
  apply exp_increasing. apply Rplus_lt_compat_l, Rmult_lt_compat_l; [lra|].
  rewrite S_INR. unfold Rdiv. apply Rmult_lt_compat_r; [apply Rinv_0_lt_compat; exact Hd|lra].
Qed.
Print Assumptions c97_grid_increasing.

Theorem c97_grid_one a b o : 0 < a + o -> logspace a b 1 o = [a].
Proof.
  intros Ha. unfold logspace, logspace_p, unit_space. cbn. rewrite Rmult_0_r, Rplus_0_r, exp_ln by exact Ha.
  f_equal. ring.
Qed.
Print Assumptions c97_grid_one.

(** ** Interruptions *)

Definition c_method (c : case) : string := snd (snd c).
Definition c_method_i (c : case) : nat := fst (snd c).
Definition c_duration (c : case) : R := snd (fst (fst c)).
Definition c_duration_i (c : case) : nat := fst (fst (fst c)).
Definition c_stride (c : case) : R := snd (snd (fst c)).
Definition c_stride_i (c : case) : nat := fst (snd (fst c)).
(** Each case [n] times, in order. *)
Definition each {A} (n : nat) (f : case -> A) (cs : list case) : list A := flat_map (fun c => repeat (f c) n) cs.

(** The data holds [n] samples of each of the cases [cs] and nothing else. *)
Record holds (n : nat) (cs : list case) (d : bench) : Prop :=
  { h_method : b_method d = each n c_method cs;
    h_stride : b_stride d = each n c_stride cs;
    h_duration : b_duration d = each n c_duration cs;
    h_method_i : b_method_i d = each n c_method_i cs;
    h_stride_i : b_stride_i d = each n c_stride_i cs;
    h_duration_i : b_duration_i d = each n c_duration_i cs;
    h_timeit : List.length (b_timeit d) = (List.length cs * n)%nat }.

Lemma each_length {A} n (f : case -> A) cs : List.length (each n f cs) = (List.length cs * n)%nat.
Proof. unfold each. induction cs; simpl; [reflexivity|]. rewrite app_length, repeat_length, IHcs. reflexivity. Qed.
Lemma each_app {A} n (f : case -> A) a b : each n f (a ++ b) = each n f a ++ each n f b.
Proof. unfold each. apply flat_map_app. Qed.
Lemma each_one {A} n (f : case -> A) c : each n f [c] = repeat (f c) n.
Proof. unfold each. simpl. apply app_nil_r. Qed.

Lemma holds_measure n cs c ts d : holds n cs d -> List.length ts = n -> holds n (cs ++ [c]) (measure 7 n c ts d).
Proof.
  intros [H1 H2 H3 H4 H5 H6 H7] Ht. destruct c as [[[d_i dv] [s_i sv]] [k_i k]].
  constructor; cbn; rewrite ?each_app, ?each_one; cbn; congruence || idtac.
  rewrite !app_length, Ht, H7. simpl. lia.
Qed.
Lemma measure_timeit n c ts d : b_timeit (measure 7 n c ts d) = b_timeit d ++ ts.
Proof. destruct c as [[[d_i dv] [s_i sv]] [k_i k]]. reflexivity. Qed.
Lemma holds_measure_all n ts : (forall i, List.length (ts i) = n) -> forall new i cs d, holds n cs d ->
  holds n (cs ++ new) (measure_all n i new ts d) /\
  b_timeit (measure_all n i new ts d) = b_timeit d ++ flat_map ts (seq i (List.length new)).
Proof.
  intros Ht new. induction new as [|c new IH]; intros i cs d H; simpl.
  - rewrite !app_nil_r. split; [exact H|reflexivity].
  - destruct (IH (S i) (cs ++ [c]) (measure 7 n c (ts i) d) (holds_measure _ _ _ _ _ H (Ht i))) as [H1 H2].
    rewrite <- app_assoc in H1. split; [exact H1|].
    rewrite H2, measure_timeit, <- app_assoc. reflexivity.
Qed.

Lemma firstn_prefix {A} k (p e : list A) : List.length p = k -> firstn k (p ++ e) = p.
Proof. intros <-. rewrite firstn_app, firstn_all, Nat.sub_diag, firstn_O. apply app_nil_r. Qed.

(** Cleaning removes what an interruption left of an unfinished case. *)
Lemma clean_partial n j c ts cs d : (0 < n)%nat -> (j < 7)%nat -> holds n cs d ->
  clean_data n (measure j n c ts d) = Ok d.
Proof.
  intros Hn Hj [H1 H2 H3 H4 H5 H6 H7]. unfold clean_data. destruct (Nat.eqb_spec n 0); [lia|].
  destruct c as [[[d_i dv] [s_i sv]] [k_i k]]. unfold measure.
  destruct (Nat.ltb_spec 6 j); [lia|]. cbn [b_method b_stride b_duration b_method_i b_stride_i b_duration_i b_timeit].
  assert (Hp : forall A (l : list A) (v : A) i, List.length l = (List.length cs * n)%nat ->
    exists e, (if (i <? j)%nat then l ++ repeat v n else l) = l ++ e).
  { intros A l v i _. destruct (i <? j)%nat; [eexists; reflexivity|exists []; symmetry; apply app_nil_r]. }
  pose proof (f_equal (@List.length _) H1) as L1. pose proof (f_equal (@List.length _) H2) as L2.
  pose proof (f_equal (@List.length _) H3) as L3. pose proof (f_equal (@List.length _) H4) as L4.
  pose proof (f_equal (@List.length _) H5) as L5. pose proof (f_equal (@List.length _) H6) as L6.
  rewrite each_length in L1. rewrite each_length in L2. rewrite each_length in L3.
  rewrite each_length in L4. rewrite each_length in L5. rewrite each_length in L6.
  destruct (Hp _ (b_method d) k 0%nat L1) as [e1 ->]. destruct (Hp _ (b_stride d) sv 2%nat L2) as [e2 ->].
  destruct (Hp _ (b_duration d) dv 1%nat L3) as [e3 ->]. destruct (Hp _ (b_method_i d) k_i 3%nat L4) as [e4 ->].
  destruct (Hp _ (b_stride_i d) s_i 5%nat L5) as [e5 ->]. destruct (Hp _ (b_duration_i d) d_i 4%nat L6) as [e6 ->].
  assert (Hm : fold_left Nat.min [List.length (b_stride d ++ e2); List.length (b_duration d ++ e3);
    List.length (b_method_i d ++ e4); List.length (b_stride_i d ++ e5); List.length (b_duration_i d ++ e6);
    List.length (b_timeit d)] (List.length (b_method d ++ e1)) = (List.length cs * n)%nat).
  { cbn [fold_left]. rewrite !app_length, L1, L2, L3, L4, L5, L6, H7. lia. }
  rewrite Hm, Nat.div_mul by lia.
  rewrite !firstn_prefix by assumption. rewrite <- H7, firstn_all. destruct d; reflexivity.
Qed.
Lemma clean_holds n cs d : (0 < n)%nat -> holds n cs d -> clean_data n d = Ok d.
Proof.
  intros Hn H. pose proof (clean_partial n 0 ((0%nat, 0), (0%nat, 0), (0%nat, ""%string)) [] cs d Hn ltac:(lia) H) as E.
  destruct d; exact E.
Qed.
Lemma holds_start n cs d : (0 < n)%nat -> holds n cs d -> start_case n d = List.length cs.
Proof. intros Hn H. unfold start_case. rewrite (h_method _ _ _ H), each_length. apply Nat.div_mul. lia. Qed.

(** How many cases are finished by a run that starts with [m] of [total], and is
    interrupted after [k] more and [j] of the seven columns of the next. *)
Definition finished (total m : nat) (stop : option (nat * nat)) : nat :=
  match stop with None => total | Some (k, j) => Nat.min total (m + k + (if (7 <=? j)%nat then 1 else 0)) end.

Lemma measure_ge7 j n c ts d : (7 <= j)%nat -> measure j n c ts d = measure 7 n c ts d.
Proof.
  intros Hj. destruct c as [[[d_i dv] [s_i sv]] [k_i k]]. unfold measure.
  repeat match goal with |- context [(?a <? j)%nat] => replace (a <? j)%nat with true by (symmetry; apply Nat.ltb_lt; lia) end.
  reflexivity.
Qed.

Lemma measure_all_app n ts a b i d : measure_all n i (a ++ b) ts d = measure_all n (i + List.length a) b ts (measure_all n i a ts d).
Proof.
  revert i d. induction a as [|c a IH]; intros i d; simpl; [rewrite Nat.add_0_r; reflexivity|].
  rewrite IH. replace (S i + List.length a)%nat with (i + S (List.length a))%nat by lia. reflexivity.
Qed.

Lemma firstn_nth_error {A} (l : list A) k c : nth_error l k = Some c -> firstn (S k) l = firstn k l ++ [c].
Proof.
  revert k. induction l as [|x l IH]; intros [|k] H; simpl in *; try discriminate; [injection H as ->; reflexivity|].
  rewrite (IH k H). reflexivity.
Qed.

Lemma run_holds n cs ts d m : (0 < n)%nat -> (forall i, List.length (ts i) = n) -> (m <= List.length cs)%nat ->
  holds n (firstn m cs) d -> forall stop, exists d',
    clean_data n (run_until n cs ts stop d) = Ok d' /\ holds n (firstn (finished (List.length cs) m stop) cs) d' /\
    b_timeit d' = b_timeit d ++ flat_map ts (seq m (finished (List.length cs) m stop - m)).
Proof.
  intros Hn Ht Hm H stop.
  assert (Hl : List.length (firstn m cs) = m) by (rewrite firstn_length; lia).
  assert (Hs : start_case n d = m) by (rewrite (holds_start _ _ _ Hn H); exact Hl).
  assert (Hgo : forall q, (m <= q)%nat -> (q <= List.length cs)%nat ->
    let d' := measure_all n m (firstn (q - m) (skipn m cs)) ts d in
    holds n (firstn q cs) d' /\ b_timeit d' = b_timeit d ++ flat_map ts (seq m (q - m))).
  { intros q Hq1 Hq2. destruct (holds_measure_all n ts Ht (firstn (q - m) (skipn m cs)) m _ d H) as [A B].
    assert (E : firstn m cs ++ firstn (q - m) (skipn m cs) = firstn q cs).
    { rewrite <- (firstn_skipn m cs) at 3. rewrite firstn_app, Hl.
      rewrite (firstn_all2 (firstn m cs)) by lia. reflexivity. }
    rewrite E in A. split; [exact A|].
    rewrite B. rewrite firstn_length, skipn_length, Nat.min_l by lia. reflexivity. }
  unfold run_until. rewrite Hs. destruct stop as [[k j]|]; cbn [finished].
  - destruct (nth_error (skipn m cs) k) as [c|] eqn:Ec.
    + assert (Hk : (k < List.length (skipn m cs))%nat) by (apply nth_error_Some; congruence).
      rewrite skipn_length in Hk.
      destruct (Nat.leb_spec 7 j) as [Hj|Hj].
      * rewrite measure_ge7 by exact Hj. rewrite Nat.min_r by lia.
        destruct (Hgo (m + k + 1)%nat ltac:(lia) ltac:(lia)) as [A B].
        replace (m + k + 1 - m)%nat with (S k) in A, B |- * by lia.
        rewrite (firstn_nth_error _ _ _ Ec), measure_all_app in A, B.
        cbn [measure_all] in A, B. rewrite firstn_length, skipn_length, Nat.min_l in A, B by lia.
        eexists. split; [apply (clean_holds _ _ _ Hn A)|]. split; [exact A|exact B].
      * rewrite Nat.add_0_r, Nat.min_r by lia.
        destruct (Hgo (m + k)%nat ltac:(lia) ltac:(lia)) as [A B].
        replace (m + k - m)%nat with k in A, B |- * by lia.
        eexists. split; [apply (clean_partial _ _ _ _ _ _ Hn Hj A)|]. split; [exact A|exact B].
    + assert (Hk : (List.length (skipn m cs) <= k)%nat) by (apply nth_error_None; exact Ec).
      rewrite skipn_length in Hk. rewrite Nat.min_l by (destruct (7 <=? j)%nat; lia).
      destruct (Hgo (List.length cs) Hm ltac:(lia)) as [A B].
      rewrite (firstn_all2 (skipn m cs)) in A, B by (rewrite skipn_length; lia).
      rewrite (firstn_all2 (skipn m cs)) by (rewrite skipn_length; lia).
      eexists. split; [apply (clean_holds _ _ _ Hn A)|]. split; [exact A|exact B].
  - destruct (Hgo (List.length cs) Hm ltac:(lia)) as [A B].
    rewrite (firstn_all2 (skipn m cs)) in A, B by (rewrite skipn_length; lia).
    eexists. split; [apply (clean_holds _ _ _ Hn A)|]. split; [exact A|exact B].
Qed.

(** What the output file holds: nothing (no file), or the samples of the first [m]
    cases, with these times. *)
Definition file_holds (n : nat) (cs : list case) (m : nat) (times : list R) (file : option bench) : Prop :=
  (m <= List.length cs)%nat /\
  match file with
  | None => m = 0%nat /\ times = []
  | Some d => holds n (firstn m cs) d /\ b_timeit d = times
  end.

(** A run, interrupted or not, keeps every sample of the file and adds the samples
    of the cases that it finished, starting at the first missing one. *)
Theorem c97_run n cs ts m times file stop :
  (0 < n)%nat -> (forall i, List.length (ts i) = n) -> file_holds n cs m times file ->
  exists d, bench_run n cs ts stop file = Ok d /\
    file_holds n cs (finished (List.length cs) m stop)
      (times ++ flat_map ts (seq m (finished (List.length cs) m stop - m))) (Some d).
Proof.
  intros Hn Ht [Hm Hf]. unfold bench_run.
  destruct (Nat.eqb_spec n 0) as [->|_]; [lia|].
  assert (Hfin : (finished (List.length cs) m stop <= List.length cs)%nat).
  { destruct stop as [[k j]|]; cbn [finished]; lia. }
  destruct file as [d|].
  - destruct Hf as [H <-]. rewrite (clean_holds _ _ _ Hn H). cbn [bind].
    destruct (run_holds n cs ts d m Hn Ht Hm H stop) as (d' & E & A & B).
    exists d'. split; [exact E|]. split; [exact Hfin|]. split; assumption.
  - destruct Hf as [-> ->]. cbn [bind].
    assert (H : holds n (firstn 0 cs) no_data) by (constructor; reflexivity).
    destruct (run_holds n cs ts no_data 0 Hn Ht Hm H stop) as (d' & E & A & B).
    exists d'. split; [exact E|]. split; [exact Hfin|]. split; [exact A|]. rewrite B. reflexivity.
Qed.
Print Assumptions c97_run.

(** Runs of the script one after the other, each with its times and interruption. *)
Fixpoint runs (n : nat) (cs : list case) (l : list ((nat -> list R) * option (nat * nat))) (file : option bench)
  : res (option bench) :=
  match l with
  | [] => Ok file
  | (ts, stop) :: l => do d <- bench_run n cs ts stop file; runs n cs l (Some d)
  end.

(** However often it was interrupted before, a run that is not interrupted leaves
    all samples of all cases in the file, in order. *)
Theorem c97_complete n cs l ts : (0 < n)%nat ->
  Forall (fun r => forall i, List.length (fst r i) = n) l -> (forall i, List.length (ts i) = n) ->
  exists d, runs n cs (l ++ [(ts, None)]) None = Ok (Some d) /\ holds n cs d.
Proof.
  intros Hn Hl Ht.
  assert (Hgen : forall m times file, file_holds n cs m times file ->
    exists d, runs n cs (l ++ [(ts, None)]) file = Ok (Some d) /\ holds n cs d).
  { induction l as [|[ts1 stop] l IH]; intros m times file Hf; cbn [app runs].
    - destruct (c97_run n cs ts m times file None Hn Ht Hf) as (d & E & [_ [H _]]).
      rewrite E. cbn [bind]. exists d. split; [reflexivity|]. cbn [finished] in H. rewrite firstn_all in H. exact H.
    - inversion Hl as [|? ? H1 H2]; subst. cbn [fst] in H1.
      destruct (c97_run n cs ts1 m times file stop Hn H1 Hf) as (d & E & Hd).
      rewrite E. cbn [bind]. exact (IH H2 _ _ _ Hd). }
  apply (Hgen 0%nat [] None). split; [lia|]. split; reflexivity.
Qed.
Print Assumptions c97_complete.

Theorem c97_no_samples cs ts stop file : bench_run 0 cs ts stop file = Err ZeroDivisionError.
Proof. destruct file; reflexivity. Qed.
Print Assumptions c97_no_samples.

(** ** Speed-up *)

(** [t] is the average of the times of a method for a stride and a duration. *)
Definition is_average (l : list row) (k : string) (si di : nat) (t : R) : Prop :=
  exists ts, ts <> [] /\ t = rsum ts / INR (List.length ts) /\
    ts = map w_time (filter (fun w => String.eqb (w_method w) k && Nat.eqb (w_stride_i w) si && Nat.eqb (w_duration_i w) di)%bool l).

(** All rows are inside of the grid, with positive times, and the duration of a row
    depends on its index only. *)
Definition sane (l : list row) (n : nat) (dur : nat -> R) : Prop :=
  forall w, In w l -> (w_stride_i w < n)%nat /\ (w_duration_i w < n)%nat /\
    w_duration w = dur (w_duration_i w) /\ 0 < dur (w_duration_i w) /\ 0 < w_time w.

Definition entry (m : list (list (option R))) (di si : nat) : option R := nth si (nth di m []) None.
Definition square (m : list (list (option R))) (n : nat) : Prop :=
  List.length m = n /\ forall r, In r m -> List.length r = n.

Lemma filter_filter {A} (f g : A -> bool) l : filter f (filter g l) = filter (fun x => g x && f x)%bool l.
Proof.
  induction l as [|x l IH]; [reflexivity|]. simpl. destruct (g x); simpl; [destruct (f x)|]; rewrite IH; reflexivity.
Qed.

Lemma mean_average l k si di t :
  mean (map w_time (filter (fun w => Nat.eqb (w_stride_i w) si && Nat.eqb (w_duration_i w) di)%bool
    (filter (fun w => String.eqb (w_method w) k) l))) = Some t <-> is_average l k si di t.
Proof.
  rewrite filter_filter.
  rewrite (filter_ext _ (fun w => String.eqb (w_method w) k && Nat.eqb (w_stride_i w) si && Nat.eqb (w_duration_i w) di)%bool)
    by (intros w; apply andb_assoc).
  unfold is_average, mean. set (ts := map w_time _). clearbody ts. split.
  - intros H. exists ts. destruct ts as [|x ts]; [discriminate|]. injection H as <-. split; [discriminate|split; reflexivity].
  - intros (ts' & Hne & -> & ->). destruct ts as [|x ts]; [congruence|reflexivity].
Qed.

Lemma rsum_pos l : l <> [] -> (forall x, In x l -> 0 < x) -> 0 < rsum l.
Proof.
  intros Hne H. assert (G : forall l, (forall x, In x l -> 0 < x) -> 0 <= rsum l).
  { intros l0. induction l0 as [|y l0 IH]; intros H0; cbn; [lra|].
    pose proof (H0 y (or_introl eq_refl)). pose proof (IH (fun x hx => H0 x (or_intror hx))). unfold rsum in *. lra. }
  destruct l as [|y l]; [congruence|]. cbn. pose proof (H y (or_introl eq_refl)).
  pose proof (G l (fun x hx => H x (or_intror hx))). unfold rsum in *. lra.
Qed.
Lemma average_pos l n dur k si di t : sane l n dur -> is_average l k si di t -> 0 < t.
Proof.
  intros Hs (ts & Hne & -> & E). apply Rdiv_lt_0_compat; [|apply lt_0_INR; destruct ts; [congruence|simpl; lia]].
  apply rsum_pos; [exact Hne|]. rewrite E. intros x Hx. apply in_map_iff in Hx as (w & <- & Hw).
  apply filter_In in Hw as [Hw _]. apply (Hs w Hw).
Qed.
Lemma rsum_const c l : (forall x, In x l -> x = c) -> rsum l = INR (List.length l) * c.
Proof.
  induction l as [|y l IH]; intros H; [simpl; ring|]. change (rsum (y :: l)) with (y + rsum l).
  change (List.length (y :: l)) with (Datatypes.S (List.length l)).
  rewrite IH by (intros x Hx; apply H; right; exact Hx). rewrite (H y (or_introl eq_refl)).
  rewrite S_INR. ring.
Qed.

Lemma matrix_entry (f : nat -> nat -> option R) n di si : (di < n)%nat -> (si < n)%nat ->
  entry (map (fun d => map (fun s => f d s) (seq 0 n)) (seq 0 n)) di si = f di si.
Proof.
  intros Hd Hs. unfold entry. rewrite (nth_map_lt _ _ _ 0%nat) by (rewrite seq_length; exact Hd).
  rewrite (nth_map_lt _ _ _ 0%nat) by (rewrite seq_length; exact Hs). rewrite !seq_nth by assumption. reflexivity.
Qed.
Lemma matrix_square (f : nat -> nat -> option R) n : square (map (fun d => map (fun s => f d s) (seq 0 n)) (seq 0 n)) n.
Proof.
  split; [rewrite map_length; apply seq_length|]. intros r Hr. apply in_map_iff in Hr as (d & <- & _).
  rewrite map_length. apply seq_length.
Qed.

(** A matrix of times: the averages divided by the duration, if asked to. *)
Theorem c97_times l n dur k normalize : sane l n dur -> exists m, times_matrix l k n normalize = Ok m /\ square m n /\
  forall di si, (di < n)%nat -> (si < n)%nat -> forall v,
    entry m di si = Some v <-> exists t, is_average l k si di t /\ v = if normalize then t / dur di else t.
Proof.
  intros Hs. unfold times_matrix.
  replace (forallb _ _) with true.
  2:{ symmetry. apply forallb_forall. intros w Hw. apply filter_In in Hw as [Hw _]. destruct (Hs w Hw) as (A & B & _).
      apply andb_true_intro. split; apply Nat.ltb_lt; assumption. }
  eexists. split; [reflexivity|]. split; [apply (matrix_square (fun d_i s_i => _))|].
  intros di si Hd Hsi v. rewrite (matrix_entry (fun d_i s_i => _)) by assumption. cbv beta zeta.
  destruct normalize; [|split; [intros H; exists v; split; [apply mean_average; exact H|reflexivity]|intros (t & H & ->); apply mean_average; exact H]].
  assert (Hmean : forall t, is_average l k si di t ->
    mean (map w_duration (filter (fun w => Nat.eqb (w_duration_i w) di) (filter (fun w => String.eqb (w_method w) k) l))) = Some (dur di)).
  { intros t (ts & Hne & _ & E).
    set (ds := map w_duration _).
    assert (Hds : ds <> []).
    { intros E0. apply Hne. rewrite E. unfold ds in E0. rewrite filter_filter in E0. apply map_eq_nil in E0.
      destruct (filter (fun w => String.eqb (w_method w) k && Nat.eqb (w_stride_i w) si && Nat.eqb (w_duration_i w) di)%bool l) as [|w q] eqn:Ef; [reflexivity|].
      exfalso. assert (Hw : In w (w :: q)) by (left; reflexivity). rewrite <- Ef in Hw. apply filter_In in Hw as [Hw Hb].
      apply andb_prop in Hb as [Hb H3]. apply andb_prop in Hb as [H1 H2].
      assert (Hin : In w []) by (rewrite <- E0; apply filter_In; split; [exact Hw|rewrite H1, H3; reflexivity]). destruct Hin. }
    assert (Hc : rsum ds = INR (List.length ds) * dur di).
    { apply rsum_const. unfold ds. intros x Hx. apply in_map_iff in Hx as (w & <- & Hw).
      apply filter_In in Hw as [Hw Hb]. apply filter_In in Hw as [Hw _]. destruct (Hs w Hw) as (_ & _ & -> & _).
      apply Nat.eqb_eq in Hb. rewrite Hb. reflexivity. }
    unfold mean. destruct ds as [|x ds]; [congruence|]. rewrite Hc. f_equal.
    field. apply not_0_INR. discriminate. }
  unfold omap2 at 1. split.
  - intros H. destruct (mean (map w_time _)) as [t|] eqn:Et; [|discriminate].
    apply mean_average in Et. rewrite (Hmean t Et) in H. injection H as <-. exists t. split; [exact Et|reflexivity].
  - intros (t & Ht & ->). rewrite (Hmean t Ht). apply mean_average in Ht. rewrite Ht. reflexivity.
Qed.
Print Assumptions c97_times.

Lemma mat2_square f a b n : square a n -> square b n -> square (mat2 f a b) n.
Proof.
  intros [La Ra] [Lb Rb]. unfold mat2. split; [rewrite map_length, combine_length, La, Lb; apply Nat.min_id|].
  intros r Hr. apply in_map_iff in Hr as ([x y] & <- & Hp). cbn [fst snd]. rewrite map_length, combine_length.
  rewrite (Ra x (in_combine_l _ _ _ _ Hp)), (Rb y (in_combine_r _ _ _ _ Hp)). apply Nat.min_id.
Qed.
Lemma mat2_entry f a b n di si : square a n -> square b n -> (di < n)%nat -> (si < n)%nat ->
  entry (mat2 f a b) di si = f (entry a di si) (entry b di si).
Proof.
  intros [La Ra] [Lb Rb] Hd Hs. unfold entry, mat2.
  rewrite (nth_map_lt _ _ _ ([], [])) by (rewrite combine_length; lia).
  rewrite combine_nth by lia. cbn [fst snd].
  rewrite (nth_map_lt _ _ _ (None, None)) by (rewrite combine_length, Ra, Rb by (apply nth_In; lia); lia).
  rewrite combine_nth by (rewrite Ra, Rb by (apply nth_In; lia); reflexivity). reflexivity.
Qed.

(** The methods that the strided one is compared to. *)
Definition others : list string := ["auto"; "overlap-add"; "direct"; "fft"]%string.
(** [b] is the smallest average of the other methods, all of which were measured. *)
Definition best_other (l : list row) (si di : nat) (b : R) : Prop :=
  (exists k, In k others /\ is_average l k si di b) /\
  forall k, In k others -> exists t, is_average l k si di t /\ b <= t.

Lemma average_unique l k si di t u : is_average l k si di t -> is_average l k si di u -> t = u.
Proof. intros H1 H2. apply mean_average in H1, H2. rewrite H1 in H2. injection H2 as ->. reflexivity. Qed.

(** The speed-up is how many times longer than the strided method the fastest other
    method takes on average; NaN if any of the five was not measured. *)
Theorem c97_speedup l n dur : sane l n dur -> exists m, compute_speedup l n "strided" = Ok m /\ square m n /\
  forall di si, (di < n)%nat -> (si < n)%nat -> forall v,
    entry m di si = Some v <-> exists t b, is_average l "strided" si di t /\ best_other l si di b /\ v = b / t.
Proof.
  intros Hs. unfold compute_speedup.
  destruct (c97_times l n dur "auto" true Hs) as (m1 & E1 & S1 & V1).
  destruct (c97_times l n dur "overlap-add" true Hs) as (m2 & E2 & S2 & V2).
  destruct (c97_times l n dur "direct" true Hs) as (m3 & E3 & S3 & V3).
  destruct (c97_times l n dur "fft" true Hs) as (m4 & E4 & S4 & V4).
  destruct (c97_times l n dur "strided" true Hs) as (m5 & E5 & S5 & V5).
  change (filter _ methods) with others. unfold others, mapM. rewrite E1, E2, E3, E4. cbn [bind]. rewrite E5. cbn [bind fold_left].
  assert (S12 := mat2_square (omap2 Rmin) _ _ _ S1 S2). assert (S123 := mat2_square (omap2 Rmin) _ _ _ S12 S3).
  assert (S1234 := mat2_square (omap2 Rmin) _ _ _ S123 S4).
  eexists. split; [reflexivity|]. split; [apply mat2_square; assumption|].
  intros di si Hd Hsi v.
  rewrite (mat2_entry _ _ _ n) by assumption. rewrite !(mat2_entry (omap2 Rmin) _ _ n) by assumption.
  specialize (V1 di si Hd Hsi). specialize (V2 di si Hd Hsi). specialize (V3 di si Hd Hsi).
  specialize (V4 di si Hd Hsi). specialize (V5 di si Hd Hsi). cbv beta iota in *.
  assert (Hdur : forall k t, is_average l k si di t -> 0 < dur di).
  { intros k t (ts & Hne & _ & E). destruct ts as [|x ts]; [congruence|].
    assert (Hx : In x (x :: ts)) by (left; reflexivity). rewrite E in Hx. apply in_map_iff in Hx as (w & _ & Hw).
    apply filter_In in Hw as [Hw Hb]. apply andb_prop in Hb as [_ Hb]. apply Nat.eqb_eq in Hb.
    destruct (Hs w Hw) as (_ & _ & _ & H & _). rewrite Hb in H. exact H. }
  assert (Hmin : forall a b d, 0 < d -> Rmin (a / d) (b / d) = Rmin a b / d).
  { intros a b d H. assert (0 < / d) by (apply Rinv_0_lt_compat; exact H). unfold Rmin, Rdiv.
    destruct (Rle_dec a b) as [Hab|Hab]; destruct (Rle_dec (a * / d) (b * / d)) as [Hx|Hx]; try reflexivity; exfalso; apply Hx || apply Hab.
    - apply Rmult_le_compat_r; lra.
    - apply (Rmult_le_reg_r (/ d)); assumption. }
  split.
  - intros H.
    destruct (entry m1 di si) as [x1|]; [|discriminate]. destruct (entry m2 di si) as [x2|]; [|discriminate].
    destruct (entry m3 di si) as [x3|]; [|discriminate]. destruct (entry m4 di si) as [x4|]; [|discriminate].
    destruct (entry m5 di si) as [x5|]; [|discriminate]. cbn [omap2] in H. injection H as <-.
    destruct (proj1 (V1 _) eq_refl) as (t1 & A1 & ->). destruct (proj1 (V2 _) eq_refl) as (t2 & A2 & ->).
    destruct (proj1 (V3 _) eq_refl) as (t3 & A3 & ->). destruct (proj1 (V4 _) eq_refl) as (t4 & A4 & ->).
    destruct (proj1 (V5 _) eq_refl) as (t5 & A5 & ->).
    assert (P := Hdur _ _ A5). assert (P5 := average_pos _ _ _ _ _ _ _ Hs A5).
    exists t5, (Rmin (Rmin (Rmin t1 t2) t3) t4). split; [exact A5|]. split.
    + split.
      * assert (HP : forall P : R -> Prop, P t1 -> P t2 -> P t3 -> P t4 -> P (Rmin (Rmin (Rmin t1 t2) t3) t4)).
        { intros P0 Q1 Q2 Q3 Q4. unfold Rmin. repeat destruct (Rle_dec _ _); assumption. }
        apply HP; [exists "auto"%string|exists "overlap-add"%string|exists "direct"%string|exists "fft"%string];
          (split; [unfold others; simpl; tauto|assumption]).
      * pose proof (Rmin_l (Rmin (Rmin t1 t2) t3) t4). pose proof (Rmin_r (Rmin (Rmin t1 t2) t3) t4).
        pose proof (Rmin_l (Rmin t1 t2) t3). pose proof (Rmin_r (Rmin t1 t2) t3).
        pose proof (Rmin_l t1 t2). pose proof (Rmin_r t1 t2).
        intros k [<-|[<-|[<-|[<-|[]]]]]; eexists; (split; [eassumption|lra]).
    + rewrite !Hmin by exact P. field. split; lra.
  - intros (t & b & A5 & [(k0 & Hk0 & A0) Hall] & ->).
    destruct (Hall "auto"%string) as (t1 & A1 & L1); [unfold others; simpl; tauto|].
    destruct (Hall "overlap-add"%string) as (t2 & A2 & L2); [unfold others; simpl; tauto|].
    destruct (Hall "direct"%string) as (t3 & A3 & L3); [unfold others; simpl; tauto|].
    destruct (Hall "fft"%string) as (t4 & A4 & L4); [unfold others; simpl; tauto|].
    assert (P := Hdur _ _ A5). assert (P5 := average_pos _ _ _ _ _ _ _ Hs A5).
    rewrite (proj2 (V1 (t1 / dur di)) (ex_intro _ t1 (conj A1 eq_refl))).
    rewrite (proj2 (V2 (t2 / dur di)) (ex_intro _ t2 (conj A2 eq_refl))).
    rewrite (proj2 (V3 (t3 / dur di)) (ex_intro _ t3 (conj A3 eq_refl))).
    rewrite (proj2 (V4 (t4 / dur di)) (ex_intro _ t4 (conj A4 eq_refl))).
    rewrite (proj2 (V5 (t / dur di)) (ex_intro _ t (conj A5 eq_refl))).
    cbn [omap2]. rewrite !Hmin by exact P. f_equal.
    assert (Eb : Rmin (Rmin (Rmin t1 t2) t3) t4 = b).
    { assert (b = t1 \/ b = t2 \/ b = t3 \/ b = t4) as Hb.
      { destruct Hk0 as [<-|[<-|[<-|[<-|[]]]]];
          [left|right; left|right; right; left|right; right; right]; eapply average_unique; eassumption. }
      pose proof (Rmin_l (Rmin (Rmin t1 t2) t3) t4). pose proof (Rmin_r (Rmin (Rmin t1 t2) t3) t4).
      pose proof (Rmin_l (Rmin t1 t2) t3). pose proof (Rmin_r (Rmin t1 t2) t3).
      pose proof (Rmin_l t1 t2). pose proof (Rmin_r t1 t2).
      assert (b <= Rmin (Rmin (Rmin t1 t2) t3) t4) by (repeat apply Rmin_glb; assumption).
      destruct Hb as [Hb|[Hb|[Hb|Hb]]]; lra. }
    rewrite Eb. field. split; lra.
Qed.
Print Assumptions c97_speedup.

(** It is greater than one exactly if the strided method is the fastest of all. *)
Theorem c97_faster l n dur m di si v : sane l n dur -> compute_speedup l n "strided" = Ok m ->
  (di < n)%nat -> (si < n)%nat -> entry m di si = Some v ->
  (1 < v <-> forall k t u, In k others -> is_average l "strided" si di t -> is_average l k si di u -> t < u).
Proof.
  intros Hs Hm Hd Hsi Hv. destruct (c97_speedup l n dur Hs) as (m' & E & _ & H). rewrite E in Hm. injection Hm as ->.
  apply (H di si Hd Hsi) in Hv as (t & b & At & [(k0 & Hk0 & A0) Hall] & ->).
  assert (P := average_pos _ _ _ _ _ _ _ Hs At). split.
  - intros Hlt k t' u Hk At' Au. rewrite (average_unique _ _ _ _ _ _ At' At).
    destruct (Hall k Hk) as (u' & Au' & Hle). rewrite (average_unique _ _ _ _ _ _ Au Au').
    assert (t < b); [|lra]. apply (Rmult_lt_compat_r t) in Hlt; [|exact P].
    unfold Rdiv in Hlt. rewrite Rmult_assoc, Rinv_l, Rmult_1_r, Rmult_1_l in Hlt by lra. exact Hlt.
  - intros Hf. specialize (Hf k0 t b Hk0 At A0). apply (Rmult_lt_reg_r t); [exact P|].
    unfold Rdiv. rewrite Rmult_assoc, Rinv_l by lra. lra.
Qed.
Print Assumptions c97_faster.

(** ** Complete data *)

Lemma nth_each {A} n (f : case -> A) cs r da dc : (0 < n)%nat -> (r < List.length cs * n)%nat ->
  nth r (each n f cs) da = f (nth (r / n) cs dc).
Proof.
  intros Hn. revert r. induction cs as [|c cs IH]; intros r Hr; [simpl in Hr; lia|].
  change (each n f (c :: cs)) with (repeat (f c) n ++ each n f cs). simpl in Hr.
  destruct (Nat.lt_ge_cases r n) as [H|H].
  - rewrite app_nth1 by (rewrite repeat_length; exact H). rewrite Nat.div_small by exact H.
    apply nth_repeat_lt. exact H.
  - rewrite app_nth2 by (rewrite repeat_length; exact H). rewrite repeat_length, IH by lia.
    replace (r / n)%nat with (Datatypes.S ((r - n) / n)); [reflexivity|].
    replace r with (r - n + 1 * n)%nat at 2 by lia. rewrite Nat.div_add by lia. lia.
Qed.
Lemma enum_in {A} (l : list A) i x d : In (i, x) (enum l) <-> (i < List.length l)%nat /\ x = nth i l d.
Proof.
  unfold enum. split.
  - intros H. apply (In_nth _ _ (0%nat, d)) in H as (j & Hj & E). rewrite combine_length, seq_length, Nat.min_id in Hj.
    rewrite combine_nth in E by apply seq_length. rewrite seq_nth in E by exact Hj. injection E as <- <-.
    split; [exact Hj|reflexivity].
  - intros [Hi ->]. replace (i, nth i l d) with (nth i (combine (seq 0 (List.length l)) l) (0%nat, d)).
    + apply nth_In. rewrite combine_length, seq_length. lia.
    + rewrite combine_nth by apply seq_length. rewrite seq_nth by exact Hi. reflexivity.
Qed.
Definition dcase : case := ((0%nat, 0), (0%nat, 0), (0%nat, ""%string)).

(** When all cases were measured, the speed-up is a number everywhere. *)
Theorem c97_finished n ds ss d :
  (0 < n)%nat -> List.length ss = List.length ds -> (forall x, In x ds -> 0 < x) -> (forall t, In t (b_timeit d) -> 0 < t) ->
  holds n (cases ds ss methods) d ->
  sane (to_rows d) (List.length ds) (fun i => nth i ds 0) /\
  exists m, compute_speedup (to_rows d) (List.length ds) "strided" = Ok m /\ square m (List.length ds) /\
    forall di si, (di < List.length ds)%nat -> (si < List.length ds)%nat -> exists v, entry m di si = Some v.
Proof.
  intros Hn Hlen Hds Hts [H1 H2 H3 H4 H5 H6 H7].
  set (cs := cases ds ss methods) in *.
  assert (Hl : List.length (b_method d) = (List.length cs * n)%nat) by (rewrite H1; apply each_length).
  assert (Hrow : forall r, (r < List.length cs * n)%nat ->
    nth r (to_rows d) (mkRow "" 0 0 0 0) = (let c := nth (r / n) cs dcase in
      mkRow (c_method c) (c_stride_i c) (c_duration_i c) (c_duration c) (nth r (b_timeit d) 0))).
  { intros r Hr. unfold to_rows. rewrite (nth_map_lt _ _ _ 0%nat) by (rewrite seq_length, Hl; exact Hr).
    rewrite seq_nth by (rewrite Hl; exact Hr). cbn [Nat.add]. rewrite H1, H3, H5, H6.
    rewrite !(nth_each _ _ _ _ _ dcase) by assumption. reflexivity. }
  assert (Hrl : List.length (to_rows d) = (List.length cs * n)%nat).
  { unfold to_rows. rewrite map_length, seq_length. exact Hl. }
  assert (Hcase : forall c, In c cs -> (c_stride_i c < List.length ds)%nat /\ (c_duration_i c < List.length ds)%nat /\
    c_duration c = nth (c_duration_i c) ds 0).
  { intros [[[d_i dv] [s_i sv]] [k_i k]] Hc. unfold cs, cases in Hc. apply in_prod_iff in Hc as [Hc _].
    apply in_prod_iff in Hc as [Ha Hb]. apply (enum_in _ _ _ 0) in Ha as [Ha ->]. apply (enum_in _ _ _ 0) in Hb as [Hb ->].
    cbn. rewrite <- Hlen at 1. split; [exact Hb|]. split; [exact Ha|reflexivity]. }
  assert (Hsane : sane (to_rows d) (List.length ds) (fun i => nth i ds 0)).
  { intros w Hw. apply (In_nth _ _ (mkRow "" 0 0 0 0)) in Hw as (r & Hr & <-). rewrite Hrl in Hr.
    rewrite (Hrow r Hr). cbv zeta. cbn [w_stride_i w_duration_i w_duration w_time].
    assert (Hin : In (nth (r / n) cs dcase) cs) by (apply nth_In; apply Nat.div_lt_upper_bound; lia).
    destruct (Hcase _ Hin) as (A & B & C). split; [exact A|]. split; [exact B|]. split; [exact C|].
    split; [apply Hds; apply nth_In; exact B|apply Hts; apply nth_In; lia]. }
  split; [exact Hsane|].
  destruct (c97_speedup _ _ _ Hsane) as (m & E & S & V). exists m. split; [exact E|]. split; [exact S|].
  intros di si Hd Hsi.
  assert (Hav : forall i k, nth_error methods i = Some k -> exists t, is_average (to_rows d) k si di t).
  { intros i k Hk.
    assert (Hin : In ((di, nth di ds 0), (si, nth si ss 0), (i, k)) cs).
    { unfold cs, cases. apply in_prod_iff. split; [apply in_prod_iff; split|].
      - apply (enum_in _ _ _ 0). split; [exact Hd|reflexivity].
      - apply (enum_in _ _ _ 0). split; [rewrite Hlen; exact Hsi|reflexivity].
      - apply (enum_in _ _ _ ""%string). split; [apply nth_error_Some; congruence|].
        symmetry. apply nth_error_nth. exact Hk. }
    apply (In_nth _ _ dcase) in Hin as (j & Hj & Ej).
    assert (Hr : (j * n < List.length cs * n)%nat) by (apply Nat.mul_lt_mono_pos_r; assumption).
    eexists. eexists. split; [|split; [reflexivity|reflexivity]].
    intros E0. apply map_eq_nil in E0.
    assert (Hw : In (nth (j * n) (to_rows d) (mkRow "" 0 0 0 0)) (to_rows d)) by (apply nth_In; lia).
    assert (Hin : In (nth (j * n) (to_rows d) (mkRow "" 0 0 0 0)) []); [|destruct Hin].
    rewrite <- E0. apply filter_In. split; [exact Hw|].
    rewrite (Hrow _ Hr), Nat.div_mul, Ej by lia. cbn.
    rewrite String.eqb_refl, !Nat.eqb_refl. reflexivity. }
  destruct (Hav 0%nat _ eq_refl) as (t1 & A1). destruct (Hav 1%nat _ eq_refl) as (t2 & A2).
  destruct (Hav 2%nat _ eq_refl) as (t3 & A3). destruct (Hav 3%nat _ eq_refl) as (t4 & A4).
  destruct (Hav 4%nat _ eq_refl) as (t5 & A5).
  assert (Hb : exists b, best_other (to_rows d) si di b).
  { assert (Hex : forall ks, ks <> [] -> (forall k, In k ks -> exists t, is_average (to_rows d) k si di t) ->
      exists b, (exists k, In k ks /\ is_average (to_rows d) k si di b) /\
        forall k, In k ks -> exists t, is_average (to_rows d) k si di t /\ b <= t).
    { intros ks. induction ks as [|k ks IH]; intros Hne Hk; [congruence|].
      destruct (Hk k (or_introl eq_refl)) as (t & At). destruct ks as [|k' ks].
      - exists t. split; [exists k; split; [left; reflexivity|exact At]|]. intros k2 [<-|[]]. exists t. split; [exact At|lra].
      - destruct IH as (b & (kb & Hkb & Ab) & Hall); [discriminate|intros k2 H'; apply Hk; right; exact H'|].
        destruct (Rle_dec b t) as [Hle|Hle].
        + exists b. split; [exists kb; split; [right; exact Hkb|exact Ab]|].
          intros k2 [<-|Hk2]; [exists t; split; assumption|apply Hall; exact Hk2].
        + exists t. split; [exists k; split; [left; reflexivity|exact At]|].
          intros k2 [<-|Hk2]; [exists t; split; [exact At|lra]|].
          destruct (Hall k2 Hk2) as (u & Au & Hu). exists u. split; [exact Au|lra]. }
    apply (Hex others); [discriminate|]. intros k [<-|[<-|[<-|[<-|[]]]]]; eexists; eassumption. }
  destruct Hb as (b & Hb). exists (b / t5). apply (V di si Hd Hsi). exists t5, b. split; [exact A5|]. split; [exact Hb|reflexivity].
Qed.
Print Assumptions c97_finished.

Lemma rows_of_holds n cs d : (0 < n)%nat -> holds n cs d ->
  (forall w, In w (to_rows d) -> exists c, In c cs /\ w_method w = c_method c /\ w_stride_i w = c_stride_i c /\ w_duration_i w = c_duration_i c) /\
  (forall c, In c cs -> exists w, In w (to_rows d) /\ w_method w = c_method c /\ w_stride_i w = c_stride_i c /\ w_duration_i w = c_duration_i c).
Proof.
  intros Hn [H1 H2 H3 H4 H5 H6 H7].
  assert (Hl : List.length (b_method d) = (List.length cs * n)%nat) by (rewrite H1; apply each_length).
  assert (Hrow : forall r, (r < List.length cs * n)%nat ->
    nth r (to_rows d) (mkRow "" 0 0 0 0) = (let c := nth (r / n) cs dcase in
      mkRow (c_method c) (c_stride_i c) (c_duration_i c) (c_duration c) (nth r (b_timeit d) 0))).
  { intros r Hr. unfold to_rows. rewrite (nth_map_lt _ _ _ 0%nat) by (rewrite seq_length, Hl; exact Hr).
    rewrite seq_nth by (rewrite Hl; exact Hr). cbn [Nat.add]. rewrite H1, H3, H5, H6.
    rewrite !(nth_each _ _ _ _ _ dcase) by assumption. reflexivity. }
  assert (Hrl : List.length (to_rows d) = (List.length cs * n)%nat).
  { unfold to_rows. rewrite map_length, seq_length. exact Hl. }
  split.
  - intros w Hw. apply (In_nth _ _ (mkRow "" 0 0 0 0)) in Hw as (r & Hr & <-). rewrite Hrl in Hr.
    rewrite (Hrow r Hr). exists (nth (r / n) cs dcase). split; [apply nth_In; apply Nat.div_lt_upper_bound; lia|repeat split].
  - intros c Hc. apply (In_nth _ _ dcase) in Hc as (j & Hj & <-).
    assert (Hr : (j * n < List.length cs * n)%nat) by (apply Nat.mul_lt_mono_pos_r; assumption).
    exists (nth (j * n) (to_rows d) (mkRow "" 0 0 0 0)). split; [apply nth_In; lia|].
    rewrite (Hrow _ Hr), Nat.div_mul by lia. repeat split.
Qed.

Lemma times_missing l k n di si : (forall w, In w l -> (w_stride_i w < n)%nat /\ (w_duration_i w < n)%nat) ->
  (di < n)%nat -> (si < n)%nat ->
  exists m, times_matrix l k n true = Ok m /\ square m n /\
    ((forall w, In w l -> w_method w = k -> w_stride_i w = si -> w_duration_i w = di -> False) -> entry m di si = None).
Proof.
  intros Hr Hd Hs. unfold times_matrix. replace (forallb _ _) with true.
  2:{ symmetry. apply forallb_forall. intros w Hw. apply filter_In in Hw as [Hw _]. destruct (Hr w Hw).
      apply andb_true_intro. split; apply Nat.ltb_lt; assumption. }
  eexists. split; [reflexivity|]. split; [apply (matrix_square (fun d_i s_i => _))|].
  intros Hno. rewrite (matrix_entry (fun d_i s_i => _)) by assumption. cbv beta zeta.
  replace (filter (fun w => Nat.eqb (w_stride_i w) si && Nat.eqb (w_duration_i w) di)%bool
    (filter (fun w => String.eqb (w_method w) k) l)) with (@nil row); [reflexivity|].
  symmetry. destruct (filter _ _) as [|w q] eqn:E; [reflexivity|]. exfalso.
  assert (Hw : In w (w :: q)) by (left; reflexivity). rewrite <- E in Hw. apply filter_In in Hw as [Hw Hb].
  apply filter_In in Hw as [Hw Hk]. apply andb_prop in Hb as [H1 H2].
  apply Nat.eqb_eq in H1, H2. apply String.eqb_eq in Hk. exact (Hno w Hw Hk H1 H2).
Qed.

(** If any method was not measured for a cell, the cell is NaN. *)
Theorem c97_missing l n di si k : (forall w, In w l -> (w_stride_i w < n)%nat /\ (w_duration_i w < n)%nat) ->
  (di < n)%nat -> (si < n)%nat -> In k methods ->
  (forall w, In w l -> w_method w = k -> w_stride_i w = si -> w_duration_i w = di -> False) ->
  exists m, compute_speedup l n "strided" = Ok m /\ square m n /\ entry m di si = None.
Proof.
  intros Hr Hd Hs Hk Hno. unfold compute_speedup.
  destruct (times_missing l "auto" n di si Hr Hd Hs) as (m1 & E1 & S1 & V1).
  destruct (times_missing l "overlap-add" n di si Hr Hd Hs) as (m2 & E2 & S2 & V2).
  destruct (times_missing l "direct" n di si Hr Hd Hs) as (m3 & E3 & S3 & V3).
  destruct (times_missing l "fft" n di si Hr Hd Hs) as (m4 & E4 & S4 & V4).
  destruct (times_missing l "strided" n di si Hr Hd Hs) as (m5 & E5 & S5 & V5).
  change (filter _ methods) with others. unfold others, mapM. rewrite E1, E2, E3, E4. cbn [bind]. rewrite E5. cbn [bind fold_left].
  assert (S12 := mat2_square (omap2 Rmin) _ _ _ S1 S2). assert (S123 := mat2_square (omap2 Rmin) _ _ _ S12 S3).
  assert (S1234 := mat2_square (omap2 Rmin) _ _ _ S123 S4).
  eexists. split; [reflexivity|]. split; [apply mat2_square; assumption|].
  rewrite (mat2_entry _ _ _ n) by assumption. rewrite !(mat2_entry (omap2 Rmin) _ _ n) by assumption.
  destruct Hk as [<-|[<-|[<-|[<-|[<-|[]]]]]];
    [rewrite (V1 Hno)|rewrite (V2 Hno)|rewrite (V3 Hno)|rewrite (V4 Hno)|rewrite (V5 Hno)];
    destruct (entry m1 di si), (entry m2 di si), (entry m3 di si), (entry m4 di si), (entry m5 di si); reflexivity.
Qed.
Print Assumptions c97_missing.

(** A row outside of the grid raises. *)
Theorem c97_outside l n w : In w l -> In (w_method w) methods -> (n <= w_stride_i w)%nat \/ (n <= w_duration_i w)%nat ->
  compute_speedup l n "strided" = Err IndexError.
Proof.
  intros Hw Hk Ho.
  assert (Hres : forall k, times_matrix l k n true = Err IndexError \/ exists m, times_matrix l k n true = Ok m).
  { intros k. unfold times_matrix. destruct (forallb _ _); [right; eexists; reflexivity|left; reflexivity]. }
  assert (Herr : times_matrix l (w_method w) n true = Err IndexError).
  { unfold times_matrix. destruct (forallb _ _) eqn:E; [|reflexivity]. exfalso.
    rewrite forallb_forall in E. specialize (E w (proj2 (filter_In _ _ _) (conj Hw (String.eqb_refl _)))).
    apply andb_prop in E as [A B]. apply Nat.ltb_lt in A, B. lia. }
  unfold compute_speedup. change (filter _ methods) with others. unfold others, mapM.
  set (k := w_method w) in *. clearbody k.
  destruct (Hres "auto"%string) as [->|(m1 & E1)]; [reflexivity|]. rewrite E1. cbn [bind].
  destruct (Hres "overlap-add"%string) as [->|(m2 & E2)]; [reflexivity|]. rewrite E2. cbn [bind].
  destruct (Hres "direct"%string) as [->|(m3 & E3)]; [reflexivity|]. rewrite E3. cbn [bind].
  destruct (Hres "fft"%string) as [->|(m4 & E4)]; [reflexivity|]. rewrite E4. cbn [bind].
  destruct (Hres "strided"%string) as [->|(m5 & E5)]; [reflexivity|]. exfalso.
  destruct Hk as [<-|[<-|[<-|[<-|[<-|[]]]]]]; congruence.
Qed.
Print Assumptions c97_outside.

(** ** Other grids in the same file *)

(** The finished file of a grid of two by two. *)
Lemma two_by_two : exists d, bench_run 1 (cases [1; 2] [1; 2] methods) (fun _ => [1]) None None = Ok d /\
  holds 1 (cases [1; 2] [1; 2] methods) d.
Proof.
  destruct (c97_run 1 (cases [1; 2] [1; 2] methods) (fun _ => [1]) 0 [] None None) as (d & E & _ & H & _);
    [lia|reflexivity|split; [lia|split; reflexivity]|].
  exists d. split; [exact E|]. cbn [finished] in H. rewrite firstn_all in H. exact H.
Qed.

(** Resumed with a larger grid: cells of the larger grid are never measured. *)
Theorem c97_larger_refuted : exists d e m,
  bench_run 1 (cases [1; 2] [1; 2] methods) (fun _ => [1]) None None = Ok d /\
  bench_run 1 (cases [1; 2; 3] [1; 2; 3] methods) (fun _ => [1]) None (Some d) = Ok e /\
  compute_speedup (to_rows e) 3 "strided" = Ok m /\ entry m 0 2 = None.
Proof.
  destruct two_by_two as (d & E & H).
  destruct (holds_measure_all 1 (fun _ => [1]) (fun _ => eq_refl) (skipn 20 (cases [1; 2; 3] [1; 2; 3] methods)) 20 _ _ H) as [H2 _].
  set (e := measure_all 1 20 _ _ d) in H2.
  assert (Hall : forall c, In c (cases [1; 2] [1; 2] methods ++ skipn 20 (cases [1; 2; 3] [1; 2; 3] methods)) ->
    ((c_stride_i c <? 3) && (c_duration_i c <? 3) && negb ((c_duration_i c =? 0) && (c_stride_i c =? 2)))%nat%bool = true).
  { apply forallb_forall. reflexivity. }
  destruct (rows_of_holds _ _ _ Nat.lt_0_1 H2) as [Hrows _].
  destruct (c97_missing (to_rows e) 3 0 2 "auto") as (m & Em & _ & Hm); [| lia|lia|left; reflexivity| |].
  - intros w Hw. destruct (Hrows w Hw) as (c & Hc & _ & -> & ->). specialize (Hall c Hc).
    apply andb_prop in Hall as [Hall _]. apply andb_prop in Hall as [A B]. apply Nat.ltb_lt in A, B. split; assumption.
  - intros w Hw _ Hs Hd. destruct (Hrows w Hw) as (c & Hc & _ & Es & Ed). specialize (Hall c Hc).
    apply andb_prop in Hall as [_ Hall]. rewrite <- Es, <- Ed, Hs, Hd in Hall. discriminate Hall.
  - exists d, e, m. split; [exact E|]. split; [|split; assumption].
    unfold bench_run. rewrite (clean_holds 1 _ _ Nat.lt_0_1 H). cbn [bind Nat.eqb].
    unfold run_until. rewrite (holds_start 1 _ _ Nat.lt_0_1 H). change (List.length (cases [1; 2] [1; 2] methods)) with 20%nat.
    fold e. apply (clean_holds 1 _ _ Nat.lt_0_1 H2).
Qed.
Print Assumptions c97_larger_refuted.

(** With a smaller grid, the file is kept and the speed-up raises. *)
Theorem c97_smaller_refuted : exists d,
  bench_run 1 (cases [1; 2] [1; 2] methods) (fun _ => [1]) None None = Ok d /\
  bench_run 1 (cases [1] [1] methods) (fun _ => [1]) None (Some d) = Ok d /\
  compute_speedup (to_rows d) 1 "strided" = Err IndexError.
Proof.
  destruct two_by_two as (d & E & H). exists d. split; [exact E|]. split.
  - unfold bench_run. rewrite (clean_holds 1 _ _ Nat.lt_0_1 H). cbn [bind Nat.eqb].
    unfold run_until. rewrite (holds_start 1 _ _ Nat.lt_0_1 H). change (List.length (cases [1; 2] [1; 2] methods)) with 20%nat.
    change (skipn 20 (cases [1] [1] methods)) with (@nil case). apply (clean_holds 1 _ _ Nat.lt_0_1 H).
  - destruct (rows_of_holds _ _ _ Nat.lt_0_1 H) as [_ Hrows].
    destruct (Hrows ((1%nat, 2), (0%nat, 1), (0%nat, "auto"%string))) as (w & Hw & Em & _ & Ed).
    { unfold cases. apply in_prod_iff. split; [apply in_prod_iff; split|]; simpl; tauto. }
    apply (c97_outside _ _ w Hw); [rewrite Em; left; reflexivity|right; rewrite Ed; cbn; lia].
Qed.
Print Assumptions c97_smaller_refuted.

(** ** Colours *)

Definition values (l : list (option R)) : list R := flat_map (fun o => match o with Some v => [v] | None => [] end) l.
Lemma in_values l v : In v (values l) <-> In (Some v) l.
Proof.
  unfold values. rewrite in_flat_map. split.
  - intros ([w|] & Hw & Hv); [destruct Hv as [<-|[]]; exact Hw|destruct Hv].
  - intros H. exists (Some v). split; [exact H|left; reflexivity].
Qed.
Lemma fold_Rmax_spec l : forall v, In (fold_left Rmax l v) (v :: l) /\ forall x, In x (v :: l) -> x <= fold_left Rmax l v.
Proof.
  induction l as [|y l IH]; intros v; simpl.
  - split; [left; reflexivity|intros x [->|[]]; lra].
  - destruct (IH (Rmax v y)) as [A B]. split.
    + destruct A as [A|A]; [|right; right; exact A]. rewrite <- A. unfold Rmax. destruct (Rle_dec v y); [right; left|left]; reflexivity.
    + pose proof (B _ (or_introl eq_refl)) as B0. pose proof (Rmax_l v y). pose proof (Rmax_r v y).
      intros x [<-|[<-|H1]]; [lra|lra|apply B; right; exact H1].
Qed.
Lemma fold_Rmin_spec l : forall v, In (fold_left Rmin l v) (v :: l) /\ forall x, In x (v :: l) -> fold_left Rmin l v <= x.
Proof.
  induction l as [|y l IH]; intros v; simpl.
  - split; [left; reflexivity|intros x [->|[]]; lra].
  - destruct (IH (Rmin v y)) as [A B]. split.
    + destruct A as [A|A]; [|right; right; exact A]. rewrite <- A. unfold Rmin. destruct (Rle_dec v y); [left|right; left]; reflexivity.
    + pose proof (B _ (or_introl eq_refl)) as B0. pose proof (Rmin_l v y). pose proof (Rmin_r v y).
      intros x [<-|[<-|H1]]; [lra|lra|apply B; right; exact H1].
Qed.
Lemma on_side_spec p v : on_side p v = true <-> if p then 0 < v else v < 0.
Proof. unfold on_side. destruct p; destruct (Rlt_dec _ _); split; intros; try assumption; try reflexivity; try discriminate; contradiction. Qed.
Lemma side_max_spec p l : match side_max p l with
  | None => forall x, In x l -> on_side p x = false
  | Some m => 0 < m /\ In (if p then m else - m) l /\ forall x, In x l -> on_side p x = true -> Rabs x <= m end.
Proof.
  unfold side_max. destruct (filter (on_side p) l) as [|v f] eqn:E.
  - intros x Hx. destruct (on_side p x) eqn:Ho; [|reflexivity].
    assert (H : In x []) by (rewrite <- E; apply filter_In; split; assumption). destruct H.
  - assert (Hf : forall x, In x (v :: f) <-> In x l /\ on_side p x = true) by (intros x; rewrite <- E; apply filter_In).
    destruct p.
    + destruct (fold_Rmax_spec f v) as [A B]. apply Hf in A as [A1 A2]. apply on_side_spec in A2.
      split; [exact A2|]. split; [exact A1|]. intros x Hx Ho. pose proof (B x (proj2 (Hf x) (conj Hx Ho))).
      apply on_side_spec in Ho. rewrite Rabs_pos_eq; lra.
    + destruct (fold_Rmin_spec f v) as [A B]. apply Hf in A as [A1 A2]. apply on_side_spec in A2.
      split; [lra|]. split; [rewrite Ropp_involutive; exact A1|]. intros x Hx Ho. pose proof (B x (proj2 (Hf x) (conj Hx Ho))).
      apply on_side_spec in Ho. rewrite Rabs_left; lra.
Qed.

(** Both sides scaled by numbers of their own. *)
Definition scaled (a b x : R) : R := if Rlt_dec x 0 then x / a else if Rlt_dec 0 x then x / b else x.
Definition side_scale (p : bool) (l : list R) : R := match side_max p l with Some m => m | None => 1 end.
Lemma side_scale_pos p l : 0 < side_scale p l.
Proof. unfold side_scale. pose proof (side_max_spec p l). destruct (side_max p l); [tauto|lra]. Qed.

Lemma div_neg x a : 0 < a -> x < 0 -> x / a < 0.
Proof. intros Ha Hx. unfold Rdiv. assert (0 < / a) by (apply Rinv_0_lt_compat; exact Ha). nra. Qed.

Lemma positive_filter a l : 0 < a ->
  filter (on_side true) (values (map (option_map (fun v => if on_side false v then v / a else v)) l)) = filter (on_side true) (values l).
Proof.
  intros Ha. induction l as [|[v|] l IH]; [reflexivity| |exact IH].
  change (values (Some v :: l)) with (v :: values l). cbn [map option_map].
  set (f := option_map _) in *. change (values (Some ?w :: map f l)) with (w :: values (map f l)).
  cbn [filter]. rewrite IH. destruct (on_side false v) eqn:E; [|reflexivity].
  apply on_side_spec in E. assert (v / a < 0) by (apply div_neg; assumption).
  destruct (on_side true (v / a)) eqn:E1; [apply on_side_spec in E1; exfalso; lra|].
  destruct (on_side true v) eqn:E2; [apply on_side_spec in E2; exfalso; lra|]. reflexivity.
Qed.

Lemma log_speedup_form l nticks :
  let x := map (option_map (fun v => ln v / ln 2)) l in
  let a := side_scale false (values x) in let b := side_scale true (values x) in
  fst (fst (log_speedup l nticks)) = map (option_map (scaled a b)) x /\
  snd (fst (log_speedup l nticks)) =
    match side_max false (values x) with Some m => fst (side_ticks false nticks m) | None => [] end ++ [0] ++
    match side_max true (values x) with Some m => fst (side_ticks true nticks m) | None => [] end /\
  snd (log_speedup l nticks) =
    (match side_max false (values x) with Some m => snd (side_ticks false nticks m) | None => [] end,
     match side_max true (values x) with Some m => snd (side_ticks true nticks m) | None => [] end).
Proof.
  intros x a b. unfold log_speedup. fold x. clearbody x.
  assert (H1 : exists nt nl, preprocess_side false nticks x = (map (option_map (fun v => if on_side false v then v / a else v)) x, (nt, nl)) /\
    (nt, nl) = match side_max false (values x) with Some m => side_ticks false nticks m | None => ([], []) end).
  { unfold preprocess_side. fold (values x). unfold a, side_scale. pose proof (side_max_spec false (values x)) as Hs.
    destruct (side_max false (values x)) as [m|].
    - destruct (side_ticks false nticks m) as [nt nl]. exists nt, nl. split; reflexivity.
    - exists [], []. split; [|reflexivity]. f_equal. rewrite <- (map_id x) at 1. apply map_ext_in.
      intros [v|] Hv; [|reflexivity]. apply in_values in Hv. cbn [option_map]. rewrite (Hs v Hv). reflexivity. }
  destruct H1 as (nt & nl & E1 & En). rewrite E1.
  set (y := map _ x).
  assert (Hmax : side_max true (values y) = side_max true (values x)).
  { unfold side_max, y. rewrite positive_filter by apply side_scale_pos. reflexivity. }
  assert (H2 : exists pt pl, preprocess_side true nticks y = (map (option_map (fun v => if on_side true v then v / b else v)) y, (pt, pl)) /\
    (pt, pl) = match side_max true (values x) with Some m => side_ticks true nticks m | None => ([], []) end).
  { unfold preprocess_side. fold (values y). pose proof (side_max_spec true (values y)) as Hs. rewrite Hmax in *.
    unfold b, side_scale. destruct (side_max true (values x)) as [m|].
    - destruct (side_ticks true nticks m) as [pt pl]. exists pt, pl. split; reflexivity.
    - exists [], []. split; [|reflexivity]. f_equal. rewrite <- (map_id y) at 1. apply map_ext_in.
      intros [v|] Hv; [|reflexivity]. apply in_values in Hv. cbn [option_map]. rewrite (Hs v Hv). reflexivity. }
  destruct H2 as (pt & pl & E2 & Ep). rewrite E2. cbn [fst snd].
  split; [|split].
  - unfold y. rewrite map_map. apply map_ext. intros [v|]; [|reflexivity]. cbn [option_map]. f_equal. unfold scaled.
    unfold on_side. pose proof (side_scale_pos false (values x)) as Pa. fold a in Pa.
    destruct (Rlt_dec v 0) as [Hv|Hv].
    + destruct (Rlt_dec 0 (v / a)) as [H|H]; [|reflexivity]. pose proof (div_neg v a Pa Hv). exfalso; lra.
    + destruct (Rlt_dec 0 v); reflexivity.
  - apply (f_equal fst) in En, Ep. cbn [fst] in En, Ep. rewrite En, Ep.
    destruct (side_max false (values x)); destruct (side_max true (values x)); reflexivity.
  - apply (f_equal snd) in En, Ep. cbn [snd] in En, Ep. rewrite En, Ep.
    destruct (side_max false (values x)); destruct (side_max true (values x)); reflexivity.
Qed.

Definition log2 (v : R) : R := ln v / ln 2.
Lemma ln2_pos : 0 < ln 2.
Proof. rewrite <- ln_1. apply ln_increasing; lra. Qed.
Lemma log2_lt v w : 0 < v -> 0 < w -> (v < w <-> log2 v < log2 w).
Proof.
  intros Hv Hw. pose proof ln2_pos as P. assert (Pi : 0 < / ln 2) by (apply Rinv_0_lt_compat; exact P).
  unfold log2, Rdiv. split.
  - intros H. apply Rmult_lt_compat_r; [exact Pi|]. apply ln_increasing; assumption.
  - intros H. apply (Rmult_lt_reg_r _ _ _ Pi) in H. apply ln_lt_inv; assumption.
Qed.
Lemma log2_up v w : 0 < v -> 0 < w -> v < w -> log2 v < log2 w.
Proof. intros Hv Hw. apply log2_lt; assumption. Qed.
Lemma log2_down v w : 0 < v -> 0 < w -> log2 v < log2 w -> v < w.
Proof. intros Hv Hw. apply log2_lt; assumption. Qed.
Lemma log2_1 : log2 1 = 0.
Proof. unfold log2. rewrite ln_1. apply Rmult_0_l. Qed.

Lemma scaled_lt a b x y : 0 < a -> 0 < b -> (x < y <-> scaled a b x < scaled a b y).
Proof.
  intros Ha Hb. assert (0 < / a) by (apply Rinv_0_lt_compat; exact Ha). assert (0 < / b) by (apply Rinv_0_lt_compat; exact Hb).
  unfold scaled, Rdiv. destruct (Rlt_dec x 0), (Rlt_dec y 0), (Rlt_dec 0 x), (Rlt_dec 0 y); try (exfalso; lra); split; intros; try nra.
Qed.
Lemma scaled_0 a b : scaled a b 0 = 0.
Proof. unfold scaled. destruct (Rlt_dec 0 0); [exfalso; lra|reflexivity]. Qed.

(** The colours: between -1 and 1, in the order of the speed-ups, zero for one; the
    greatest speed-up over one has colour 1 and the smallest under one has colour -1. *)
Theorem c97_colours l nticks : (forall v, In (Some v) l -> 0 < v) ->
  let out := fst (fst (log_speedup l nticks)) in
  List.length out = List.length l /\
  (forall i, nth_error l i = Some None -> nth_error out i = Some None) /\
  exists colour : R -> R, (forall i v, nth_error l i = Some (Some v) -> nth_error out i = Some (Some (colour v))) /\
    (forall v w, 0 < v -> 0 < w -> (v < w <-> colour v < colour w)) /\ colour 1 = 0 /\
    (forall v, In (Some v) l -> -1 <= colour v <= 1) /\
    (forall v, In (Some v) l -> 1 < v -> (forall w, In (Some w) l -> w <= v) -> colour v = 1) /\
    (forall v, In (Some v) l -> v < 1 -> (forall w, In (Some w) l -> v <= w) -> colour v = -1).
Proof.
  intros Hpos out. unfold out. destruct (log_speedup_form l nticks) as [E _]. cbv zeta in E. rewrite E. clear E out.
  change (fun v => ln v / ln 2) with log2.
  set (xs := values (map (option_map log2) l)).
  pose proof (side_scale_pos false xs) as Pa. pose proof (side_scale_pos true xs) as Pb.
  assert (Hxs : forall x, In x xs <-> exists v, In (Some v) l /\ x = log2 v).
  { intros x. unfold xs. rewrite in_values, in_map_iff. split.
    - intros ([v|] & Hv & Hin); [|discriminate]. injection Hv as <-. exists v. split; [exact Hin|reflexivity].
    - intros (v & Hin & ->). exists (Some v). split; [reflexivity|exact Hin]. }
  split; [rewrite !map_length; reflexivity|]. split.
  { intros i Hi. rewrite !nth_error_map, Hi. reflexivity. }
  exists (fun v => scaled (side_scale false xs) (side_scale true xs) (log2 v)).
  split; [intros i v Hi; rewrite !nth_error_map, Hi; reflexivity|].
  split; [intros v w Hv Hw; rewrite log2_lt by assumption; apply scaled_lt; assumption|].
  split; [rewrite log2_1; apply scaled_0|].
  assert (Hdiv : forall x m, 0 < m -> Rabs x <= m -> -1 <= x / m <= 1).
  { intros x m Hm Hx. unfold Rabs in Hx. split; (apply (Rmult_le_reg_r m); [exact Hm|]);
      unfold Rdiv; rewrite Rmult_assoc, Rinv_l by lra; destruct (Rcase_abs x); lra. }
  pose proof (side_max_spec false xs) as Sn. pose proof (side_max_spec true xs) as Sp.
  split; [|split].
  - intros v Hv. assert (Hx : In (log2 v) xs) by (apply Hxs; exists v; split; [exact Hv|reflexivity]).
    unfold scaled, side_scale. destruct (Rlt_dec (log2 v) 0) as [Hn|Hn].
    + destruct (side_max false xs) as [m|].
      * destruct Sn as (Hm & _ & Hall). apply Hdiv; [exact Hm|]. apply Hall; [exact Hx|apply on_side_spec; exact Hn].
      * specialize (Sn _ Hx). assert (on_side false (log2 v) = true) by (apply on_side_spec; exact Hn). congruence.
    + destruct (Rlt_dec 0 (log2 v)) as [Hq|Hq]; [|lra]. destruct (side_max true xs) as [m|].
      * destruct Sp as (Hm & _ & Hall). apply Hdiv; [exact Hm|]. apply Hall; [exact Hx|apply on_side_spec; exact Hq].
      * specialize (Sp _ Hx). assert (on_side true (log2 v) = true) by (apply on_side_spec; exact Hq). congruence.
  - intros v Hv H1 Hmax. assert (Hx : In (log2 v) xs) by (apply Hxs; exists v; split; [exact Hv|reflexivity]).
    assert (Hq : 0 < log2 v) by (rewrite <- log2_1; apply log2_up; lra).
    unfold scaled, side_scale. destruct (Rlt_dec (log2 v) 0); [exfalso; lra|]. destruct (Rlt_dec 0 (log2 v)); [|contradiction].
    destruct (side_max true xs) as [m|].
    + destruct Sp as (Hm & Hin & Hall). apply Hxs in Hin as (w & Hw & Ew).
      assert (log2 v <= m) by (rewrite <- (Rabs_pos_eq (log2 v)) by lra; apply Hall; [exact Hx|apply on_side_spec; exact Hq]).
      assert (m <= log2 v).
      { rewrite Ew. destruct (Rle_lt_or_eq_dec w v (Hmax w Hw)) as [H3| ->]; [|lra]. left. apply log2_up; [apply Hpos; exact Hw|lra|exact H3]. }
      replace m with (log2 v) by lra. field. lra.
    + specialize (Sp _ Hx). assert (on_side true (log2 v) = true) by (apply on_side_spec; exact Hq). congruence.
  - intros v Hv H1 Hmin. assert (Hx : In (log2 v) xs) by (apply Hxs; exists v; split; [exact Hv|reflexivity]).
    pose proof (Hpos v Hv) as Hv0.
    assert (Hq : log2 v < 0) by (rewrite <- log2_1; apply log2_up; lra).
    unfold scaled, side_scale. destruct (Rlt_dec (log2 v) 0); [|contradiction].
    destruct (side_max false xs) as [m|].
    + destruct Sn as (Hm & Hin & Hall). apply Hxs in Hin as (w & Hw & Ew).
      assert (- log2 v <= m) by (rewrite <- (Rabs_left (log2 v)) by lra; apply Hall; [exact Hx|apply on_side_spec; exact Hq]).
      assert (log2 v <= - m).
      { rewrite Ew. destruct (Rle_lt_or_eq_dec v w (Hmin w Hw)) as [H3| <-]; [|lra]. left. apply log2_up; [exact Hv0|apply Hpos; exact Hw|exact H3]. }
      replace m with (- log2 v) by lra. field. lra.
    + specialize (Sn _ Hx). assert (on_side false (log2 v) = true) by (apply on_side_spec; exact Hq). congruence.
Qed.
Print Assumptions c97_colours.

(** Rounding to the nearest integer. *)
Lemma Rhalf_even_near x : IZR (Rhalf_even x) - / 2 <= x <= IZR (Rhalf_even x) + / 2.
Proof.
  unfold Rhalf_even. destruct (archimed x) as [A B]. set (f := (up x - 1)%Z).
  assert (Hf : IZR f = IZR (up x) - 1) by (unfold f; rewrite minus_IZR; reflexivity).
  destruct (Rlt_dec (x - IZR f) (/ 2)); [lra|]. destruct (Rlt_dec (/ 2) (x - IZR f)); [rewrite plus_IZR; lra|].
  destruct (Z.even f); rewrite ?plus_IZR; lra.
Qed.
Lemma Rhalf_even_int x z : x = IZR z -> Rhalf_even x = z.
Proof.
  intros ->. pose proof (Rhalf_even_near (IZR z)) as [A B].
  assert (IZR (Rhalf_even (IZR z)) < IZR (z + 1)) by (rewrite plus_IZR; lra).
  assert (IZR (z - 1) < IZR (Rhalf_even (IZR z))) by (rewrite minus_IZR; lra).
  apply lt_IZR in H, H0. lia.
Qed.
Lemma Rhalf_even_range x lo hi : IZR lo <= x <= IZR hi -> (lo <= Rhalf_even x <= hi)%Z.
Proof.
  intros [A B]. pose proof (Rhalf_even_near x) as [C D].
  assert (IZR (lo - 1) < IZR (Rhalf_even x)) by (rewrite minus_IZR; lra).
  assert (IZR (Rhalf_even x) < IZR (hi + 1)) by (rewrite plus_IZR; lra).
  apply lt_IZR in H, H0. lia.
Qed.

Lemma ln_pow2 k : (0 <= k)%Z -> ln (IZR (2 ^ k)) = IZR k * ln 2.
Proof.
  intros Hk. rewrite <- (Z2Nat.id k Hk). set (j := Z.to_nat k). clearbody j. clear.
  induction j as [|j IH]; [cbn; rewrite ln_1; ring|].
  rewrite Nat2Z.inj_succ, Z.pow_succ_r by lia. rewrite mult_IZR, ln_mult; [|lra|apply IZR_lt; apply Z.pow_pos_nonneg; lia].
  rewrite IH, succ_IZR. ring.
Qed.

Lemma filter_shorter {A} (f : A -> bool) l : (List.length (filter f l) <= List.length l)%nat.
Proof. induction l as [|x l IH]; simpl; [lia|]. destruct (f x); simpl; lia. Qed.

(** Ticks of a side whose extreme speed-up is [2 ^ m] or its inverse.  A tick has the
    colour of the speed-up of its label. *)
Definition tick_ok (m t : R) (label : Z) : Prop := 0 < t <= 1 /\ (2 <= label)%Z /\ t = log2 (IZR label) / m.
Lemma side_ticks_ok nticks m : 0 < m ->
  let '(ts, ls) := side_ticks true nticks m in
  Forall2 (tick_ok m) ts ls /\ (List.length ls <= nticks)%nat /\
  (forall i j, (i < j)%nat -> (j < List.length ls)%nat -> (nth i ls 0 < nth j ls 0)%Z) /\
  ((2 <= nticks)%nat -> (ls = [] <-> m < 1)).
Proof.
  intros Hm. unfold side_ticks. set (step := Z.max 1 _).
  assert (Hstep : (1 <= step)%Z) by (unfold step; lia).
  set (zs := filter _ _).
  assert (Hz : forall z, In z zs -> (1 <= z)%Z /\ IZR z <= m).
  { intros z Hz. apply filter_In in Hz as [Hz Hle]. apply in_map_iff in Hz as (i & <- & Hi). apply in_seq in Hi.
    split; [nia|]. destruct (Rle_dec _ m); [assumption|discriminate]. }
  split; [|split; [|split]].
  - clear - Hz Hm. induction zs as [|z zs IH]; [constructor|]. cbn [map]. constructor; [|apply IH; intros; apply Hz; right; assumption].
    destruct (Hz z (or_introl eq_refl)) as [H1 H2]. apply IZR_le in H1 as H3.
    split; [split; [apply Rdiv_lt_0_compat; lra|apply (Rmult_le_reg_r m); [exact Hm|unfold Rdiv; rewrite Rmult_assoc, Rinv_l by lra; lra]]|].
    split; [replace 2%Z with (2 ^ 1)%Z at 1 by reflexivity; apply Z.pow_le_mono_r; lia|].
    unfold log2. rewrite ln_pow2 by lia. pose proof ln2_pos. field. split; lra.
  - rewrite map_length. unfold zs. eapply Nat.le_trans; [apply filter_shorter|]. rewrite map_length, seq_length. lia.
  - assert (Hsort : forall k s, let q := filter (fun t => if Rle_dec (IZR t) m then true else false) (map (fun i => (Z.of_nat i * step)%Z) (seq s k)) in
      (forall z, In z q -> (Z.of_nat s * step <= z)%Z) /\ forall i j, (i < j)%nat -> (j < List.length q)%nat -> (nth i q 0 < nth j q 0)%Z).
    { intros k. induction k as [|k IH]; intros s; simpl; [split; [intros z []|intros; lia]|].
      destruct (IH (Datatypes.S s)) as [A B]. destruct (Rle_dec (IZR (Z.of_nat s * step)) m).
      - split.
        + intros z [<-|Hin]; [lia|]. specialize (A z Hin). nia.
        + intros i j Hij Hj. destruct j as [|j]; [lia|]. simpl in Hj. destruct i as [|i]; cbn [nth].
          * pose proof (A _ (nth_In _ 0%Z (proj2 (Nat.succ_lt_mono _ _) Hj))). nia.
          * apply B; lia.
      - split; [intros z Hin; specialize (A z Hin); nia|exact B]. }
    destruct (Hsort nticks 1%nat) as [_ B]. fold zs in B. intros i j Hij Hj. rewrite map_length in Hj.
    rewrite !(nth_map_lt _ _ _ 0%Z) by lia. specialize (B i j Hij Hj).
    assert (Hi0 := proj1 (Hz _ (nth_In zs 0%Z (Nat.lt_trans _ _ _ Hij Hj)))).
    apply Z.pow_lt_mono_r; lia.
  - intros Hn. split.
    + intros E. apply map_eq_nil in E. destruct (Rlt_dec m 1) as [H|H]; [exact H|exfalso].
      assert (In step []); [|contradiction]. rewrite <- E. apply filter_In. split.
      * apply in_map_iff. exists 1%nat. split; [lia|apply in_seq; lia].
      * destruct (Rle_dec (IZR step) m) as [|Hle]; [reflexivity|]. exfalso. apply Hle. unfold step.
        destruct (Z.max_spec 1 (Rhalf_even (m / INR nticks))) as [[_ ->]|[_ ->]]; [|lra].
        pose proof (Rhalf_even_near (m / INR nticks)) as [A _].
        assert (H2 : 2 <= INR nticks) by (replace 2 with (INR 2) by (simpl; lra); apply le_INR; exact Hn).
        assert (m / INR nticks <= m / 2).
        { unfold Rdiv. apply Rmult_le_compat_l; [lra|]. apply Rinv_le_contravar; lra. }
        lra.
    + intros H. destruct zs as [|z zs]; [reflexivity|]. destruct (Hz z (or_introl eq_refl)) as [H1 H2]. apply IZR_le in H1. exfalso; lra.
Qed.
Lemma side_ticks_neg nticks m : side_ticks false nticks m = (rev (map Ropp (fst (side_ticks true nticks m))), rev (snd (side_ticks true nticks m))).
Proof. reflexivity. Qed.
Lemma Forall2_rev {A B} (P : A -> B -> Prop) l k : Forall2 P l k -> Forall2 P (rev l) (rev k).
Proof. intros H. induction H; simpl; [constructor|]. apply Forall2_app; [exact IHForall2|constructor; [assumption|constructor]]. Qed.

(** The extreme speed-ups: [up] over one, [down] under one (or none on that side). *)
Definition extreme (above : bool) (l : list (option R)) (v : option R) : Prop :=
  match v with
  | None => forall w, In (Some w) l -> if above then w <= 1 else 1 <= w
  | Some v => In (Some v) l /\ (if above then 1 < v else v < 1) /\ forall w, In (Some w) l -> if above then w <= v else v <= w
  end.
(** Ticks and labels of one side: each tick is where its label belongs on the scale
    between one and the extreme; at most [n] of them, and (for two or more) at least one
    if the extreme is two or more (half or less). *)
Definition side_ok (above : bool) (n : nat) (v : option R) (ts : list R) (ls : list Z) : Prop :=
  match v with
  | None => ts = [] /\ ls = []
  | Some v => Forall2 (fun t lab => (2 <= lab)%Z /\ (if above then 0 < t <= 1 else -1 <= t < 0) /\
                t * Rabs (log2 v) = (if above then 1 else -1) * log2 (IZR lab)) ts ls /\
      (List.length ls <= n)%nat /\ NoDup ls /\ ((2 <= n)%nat -> (ls = [] <-> if above then v < 2 else / 2 < v))
  end.

Lemma sorted_nodup (l : list Z) : (forall i j, (i < j)%nat -> (j < List.length l)%nat -> (nth i l 0 < nth j l 0)%Z) -> NoDup l.
Proof.
  intros H. apply (NoDup_nth l 0%Z). intros i j Hi Hj E. destruct (Nat.lt_trichotomy i j) as [Hl|[Hl|Hl]]; [|exact Hl|].
  - specialize (H i j Hl Hj). lia.
  - specialize (H j i Hl Hi). lia.
Qed.

Theorem c97_ticks l nticks up down : (forall v, In (Some v) l -> 0 < v) -> extreme true l up -> extreme false l down ->
  exists nt pt, snd (fst (log_speedup l nticks)) = nt ++ [0] ++ pt /\
    side_ok false nticks down nt (fst (snd (log_speedup l nticks))) /\
    side_ok true nticks up pt (snd (snd (log_speedup l nticks))).
Proof.
  intros Hpos Hup Hdown. destruct (log_speedup_form l nticks) as [_ [Et El]]. cbv zeta in Et, El.
  change (fun v => ln v / ln 2) with log2 in Et, El.
  set (xs := values (map (option_map log2) l)) in *.
  assert (Hxs : forall x, In x xs <-> exists v, In (Some v) l /\ x = log2 v).
  { intros x. unfold xs. rewrite in_values, in_map_iff. split.
    - intros ([v|] & Hv & Hin); [|discriminate]. injection Hv as <-. exists v. split; [exact Hin|reflexivity].
    - intros (v & Hin & ->). exists (Some v). split; [reflexivity|exact Hin]. }
  assert (Hl2 : log2 2 = 1) by (unfold log2; pose proof ln2_pos; field; lra).
  assert (Hlh : log2 (/ 2) = -1) by (unfold log2; rewrite ln_Rinv by lra; pose proof ln2_pos; field; lra).
  eexists. eexists. split; [exact Et|]. rewrite El. cbn [fst snd]. clear Et El. split.
  - pose proof (side_max_spec false xs) as Sn. destruct down as [v|]; cbn [extreme] in Hdown; cbn [side_ok].
    + destruct Hdown as (Hin & Hv & Hmin). pose proof (Hpos v Hin) as Hv0.
      assert (Hq : log2 v < 0) by (rewrite <- log2_1; apply log2_up; lra).
      assert (Hx : In (log2 v) xs) by (apply Hxs; exists v; split; [exact Hin|reflexivity]).
      destruct (side_max false xs) as [m|].
      2:{ specialize (Sn _ Hx). assert (on_side false (log2 v) = true) by (apply on_side_spec; exact Hq). congruence. }
      destruct Sn as (Hm & Hinm & Hall).
      assert (Em : m = - log2 v).
      { apply Hxs in Hinm as (w & Hw & Ew).
        assert (- log2 v <= m) by (rewrite <- (Rabs_left (log2 v)) by lra; apply Hall; [exact Hx|apply on_side_spec; exact Hq]).
        assert (log2 v <= - m).
        { rewrite Ew. destruct (Rle_lt_or_eq_dec v w (Hmin w Hw)) as [H3| <-]; [|lra]. left. apply log2_up; [exact Hv0|apply Hpos; exact Hw|exact H3]. }
        lra. }
      rewrite side_ticks_neg. cbn [fst snd]. pose proof (side_ticks_ok nticks m Hm) as Hok.
      destruct (side_ticks true nticks m) as [ts ls]. cbn [fst snd]. destruct Hok as (H1 & H2 & H3 & H4).
      split; [|split; [rewrite rev_length; exact H2|split; [apply NoDup_rev, sorted_nodup; exact H3|]]].
      * apply Forall2_rev. clear - H1 Em Hq. induction H1 as [|t lab ts ls (Ht & Hlab & E)]; cbn [map]; constructor; [|assumption].
        split; [exact Hlab|]. split; [lra|]. rewrite Rabs_left by exact Hq. rewrite <- Em, E. field. lra.
      * intros Hn. specialize (H4 Hn). split.
        -- intros E. apply (f_equal (@rev Z)) in E. rewrite rev_involutive in E. apply H4 in E.
           apply log2_down; [lra|exact Hv0|]. rewrite Hlh. lra.
        -- intros E. apply log2_up in E; [|lra|exact Hv0]. rewrite Hlh in E.
           rewrite (proj2 H4) by lra. reflexivity.
    + destruct (side_max false xs) as [m|]; [|split; reflexivity]. exfalso.
      destruct Sn as (Hm & Hinm & _). apply Hxs in Hinm as (w & Hw & Ew). specialize (Hdown w Hw).
      destruct (Rle_lt_or_eq_dec 1 w Hdown) as [H|H].
      * apply log2_up in H; [|lra|apply Hpos; exact Hw]. rewrite log2_1 in H. lra.
      * rewrite <- H, log2_1 in Ew. lra.
  - pose proof (side_max_spec true xs) as Sp. destruct up as [v|]; cbn [extreme] in Hup; cbn [side_ok].
    + destruct Hup as (Hin & Hv & Hmax). pose proof (Hpos v Hin) as Hv0.
      assert (Hq : 0 < log2 v) by (rewrite <- log2_1; apply log2_up; lra).
      assert (Hx : In (log2 v) xs) by (apply Hxs; exists v; split; [exact Hin|reflexivity]).
      destruct (side_max true xs) as [m|].
      2:{ specialize (Sp _ Hx). assert (on_side true (log2 v) = true) by (apply on_side_spec; exact Hq). congruence. }
      destruct Sp as (Hm & Hinm & Hall).
      assert (Em : m = log2 v).
      { apply Hxs in Hinm as (w & Hw & Ew).
        assert (log2 v <= m) by (rewrite <- (Rabs_pos_eq (log2 v)) by lra; apply Hall; [exact Hx|apply on_side_spec; exact Hq]).
        assert (m <= log2 v).
        { rewrite Ew. destruct (Rle_lt_or_eq_dec w v (Hmax w Hw)) as [H3| ->]; [|lra]. left. apply log2_up; [apply Hpos; exact Hw|exact Hv0|exact H3]. }
        lra. }
      pose proof (side_ticks_ok nticks m Hm) as Hok.
      destruct (side_ticks true nticks m) as [ts ls]. cbn [fst snd]. destruct Hok as (H1 & H2 & H3 & H4).
      split; [|split; [exact H2|split; [apply sorted_nodup; exact H3|]]].
      * clear - H1 Em Hq. induction H1 as [|t lab ts ls (Ht & Hlab & E)]; constructor; [|assumption].
        split; [exact Hlab|]. split; [exact Ht|]. rewrite Rabs_pos_eq by lra. rewrite <- Em, E. field. lra.
      * intros Hn. rewrite (H4 Hn), Em. rewrite <- Hl2. symmetry. rewrite (log2_lt v 2) by lra. reflexivity.
    + destruct (side_max true xs) as [m|]; [|split; reflexivity]. exfalso.
      destruct Sp as (Hm & Hinm & _). apply Hxs in Hinm as (w & Hw & Ew). specialize (Hup w Hw).
      destruct (Rle_lt_or_eq_dec w 1 Hup) as [H|H].
      * apply log2_up in H; [|apply Hpos; exact Hw|lra]. rewrite log2_1 in H. lra.
      * rewrite H, log2_1 in Ew. lra.
Qed.
Print Assumptions c97_ticks.

(** The ticks of the strides are columns of the image, from the first to the last, and
    show the strides of these columns. *)
Theorem c97_stride_ticks k n lo hi : (2 <= k)%nat -> (2 <= n)%nat ->
  (forall z v, In (z, v) (stride_ticks k n lo hi) -> exists i, z = Z.of_nat i /\ (i < n)%nat /\ v = nth i (logspace lo hi n 1) 0) /\
  List.length (stride_ticks k n lo hi) = k /\
  fst (nth 0 (stride_ticks k n lo hi) (0%Z, 0)) = 0%Z /\ fst (nth (k - 1) (stride_ticks k n lo hi) (0%Z, 0)) = Z.of_nat (n - 1).
Proof.
  intros Hk Hn. unfold stride_ticks. set (ticks := map _ (unit_space k)). set (vals := logspace_p _ _ _ _).
  assert (Hlt : List.length ticks = k) by (unfold ticks; rewrite map_length; apply unit_space_length).
  assert (Hlv : List.length vals = k) by (unfold vals, logspace_p; rewrite !map_length; exact Hlt).
  assert (Hd : 0 < INR (n - 1)) by (apply lt_0_INR; lia).
  assert (Hdk : 0 < INR (k - 1)) by (apply lt_0_INR; lia).
  assert (Ht : forall j, (j < k)%nat -> nth j ticks 0%Z = Rhalf_even (INR j / INR (k - 1) * INR (n - 1))).
  { intros j Hj. unfold ticks. rewrite (nth_map_lt _ _ _ 0) by (rewrite unit_space_length; exact Hj).
    rewrite unit_space_nth by assumption. reflexivity. }
  split; [|split; [|split]].
  - intros z v Hin. apply (In_nth _ _ (0%Z, 0)) in Hin as (j & Hj & E). rewrite combine_length, Hlt, Hlv, Nat.min_id in Hj.
    rewrite combine_nth in E by (rewrite Hlt, Hlv; reflexivity). injection E as Ez Ev.
    assert (Hr : (0 <= z <= Z.of_nat (n - 1))%Z).
    { rewrite <- Ez, Ht by exact Hj. apply Rhalf_even_range. rewrite <- INR_IZR_INZ. 
      assert (Hj0 : 0 <= INR j) by apply pos_INR. assert (Hj1 : INR j <= INR (k - 1)) by (apply le_INR; lia).
      assert (Hi : 0 < / INR (k - 1)) by (apply Rinv_0_lt_compat; exact Hdk).
      assert (0 <= INR j / INR (k - 1) <= 1).
      { split; [apply Rmult_le_pos; lra|]. apply (Rmult_le_reg_r (INR (k - 1))); [exact Hdk|]. unfold Rdiv. rewrite Rmult_assoc, Rinv_l; lra. }
      split; [apply Rmult_le_pos; lra|]. rewrite <- (Rmult_1_l (INR (n - 1))) at 2. apply Rmult_le_compat_r; lra. }
    exists (Z.to_nat z). split; [lia|]. split; [lia|].
    rewrite <- Ev. unfold vals, logspace, logspace_p. rewrite map_map.
    rewrite (nth_map_lt _ _ _ 0%Z) by (rewrite Hlt; exact Hj). rewrite Ez.
    rewrite (nth_map_lt _ _ _ 0) by (rewrite unit_space_length; lia). rewrite unit_space_nth by lia.
    rewrite (INR_IZR_INZ (Z.to_nat z)), Z2Nat.id by lia. reflexivity.
  - rewrite combine_length, Hlt, Hlv. apply Nat.min_id.
  - rewrite combine_nth by (rewrite Hlt, Hlv; reflexivity). cbn [fst]. rewrite Ht by lia. apply Rhalf_even_int. simpl INR at 1. unfold Rdiv. ring.
  - rewrite combine_nth by (rewrite Hlt, Hlv; reflexivity). cbn [fst]. rewrite Ht by lia. apply Rhalf_even_int.
    rewrite <- INR_IZR_INZ. field. lra.
Qed.
Print Assumptions c97_stride_ticks.

(** They are evenly spread over the image: each is at the nearest column, and at the even
    one when two are equally near. *)
Theorem c97_stride_places k n lo hi j : (2 <= k)%nat -> (2 <= n)%nat -> (j < k)%nat ->
  let z := fst (nth j (stride_ticks k n lo hi) (0%Z, 0)) in
  let x := INR j * INR (n - 1) / INR (k - 1) in
  Rabs (IZR z - x) <= / 2 /\ (Rabs (IZR z - x) = / 2 -> Z.even z = true).
Proof.
  intros Hk Hn Hj z x.
  assert (Hdk : 0 < INR (k - 1)) by (apply lt_0_INR; lia).
  assert (E : z = Rhalf_even x).
  { unfold z, stride_ticks. set (ticks := map _ (unit_space k)). set (vals := logspace_p _ _ _ _).
    assert (Hlt : List.length ticks = k) by (unfold ticks; rewrite map_length; apply unit_space_length).
    assert (Hlv : List.length vals = k) by (unfold vals, logspace_p; rewrite !map_length; exact Hlt).
    rewrite combine_nth by (rewrite Hlt, Hlv; reflexivity). cbn [fst].
    unfold ticks. rewrite (nth_map_lt _ _ _ 0) by (rewrite unit_space_length; exact Hj).
    rewrite unit_space_nth by assumption. f_equal. unfold x. field. lra. }
  rewrite E. clearbody x. clear. pose proof (Rhalf_even_near x) as [A B]. split.
  - apply Rabs_le. lra.
  - intros H. unfold Rhalf_even in *. destruct (archimed x) as [A1 B1]. set (f := (up x - 1)%Z) in *.
    assert (Hf : IZR f = IZR (up x) - 1) by (unfold f; rewrite minus_IZR; reflexivity).
    destruct (Rlt_dec (x - IZR f) (/ 2)); [exfalso; revert H; unfold Rabs; destruct (Rcase_abs _); lra|].
    destruct (Rlt_dec (/ 2) (x - IZR f)); [exfalso; revert H; rewrite plus_IZR; unfold Rabs; destruct (Rcase_abs _); lra|].
    destruct (Z.even f) eqn:Ev; [exact Ev|]. rewrite Z.even_add, Ev. reflexivity.
Qed.
Print Assumptions c97_stride_places.

(** ** Example: two samples of five cases, interrupted twice *)
Definition example_data : bench :=
  mkBench ["auto"; "auto"; "overlap-add"; "overlap-add"; "direct"; "direct"; "fft"; "fft"; "strided"; "strided"]%string
    (repeat 2 10) (repeat 3 10) [0; 0; 1; 1; 2; 2; 3; 3; 4; 4]%nat (repeat 0%nat 10) (repeat 0%nat 10) [1; 2; 5; 6; 3; 4; 3; 4; 3; 4].
Example c97_example :
  runs 2 (cases [3] [2] methods)
    [((fun _ => [1; 2]), Some (1, 4)%nat); ((fun _ => [5; 6]), Some (0, 7)%nat); ((fun _ => [3; 4]), None)] None = Ok (Some example_data) /\
  holds 2 (cases [3] [2] methods) example_data /\
  (exists m, compute_speedup (to_rows example_data) 1 "strided" = Ok m /\ entry m 0 0 = Some (3 / 7)) /\
  geometric (logspace 1 4 3 0) 1 4 0 3 /\
  extreme true [Some 8; None; Some (/ 2); Some 3] (Some 8) /\ extreme false [Some 8; None; Some (/ 2); Some 3] (Some (/ 2)).
Proof.
  assert (Hh : holds 2 (cases [3] [2] methods) example_data) by (constructor; reflexivity).
  split; [vm_compute; reflexivity|]. split; [exact Hh|]. split.
  - destruct (c97_finished 2 [3] [2] example_data) as [Hs _]; [lia|reflexivity| | |exact Hh|].
    { intros x [<-|[]]. lra. }
    { unfold example_data. cbn [b_timeit]. intros t Ht. repeat (destruct Ht as [<-|Ht]; [lra|]). destruct Ht. }
    destruct (c97_speedup _ _ _ Hs) as (m & E & _ & V). exists m. split; [exact E|].
    apply (V 0%nat 0%nat); [simpl; lia|simpl; lia|]. exists (7 / 2), (3 / 2).
    assert (A : forall k a b, filter (fun w => String.eqb (w_method w) k && Nat.eqb (w_stride_i w) 0 && Nat.eqb (w_duration_i w) 0)%bool (to_rows example_data)
      = [mkRow k 0 0 3 a; mkRow k 0 0 3 b] -> is_average (to_rows example_data) k 0 0 ((a + b) / 2)).
    { intros k a b H. exists [a; b]. split; [discriminate|]. split; [simpl; lra|rewrite H; reflexivity]. }
    split; [|split; [split|lra]].
    + replace (7 / 2) with ((3 + 4) / 2) by lra. apply A. reflexivity.
    + exists "auto"%string. split; [left; reflexivity|]. replace (3 / 2) with ((1 + 2) / 2) by lra. apply A. reflexivity.
    + intros k [<-|[<-|[<-|[<-|[]]]]].
      * exists ((1 + 2) / 2). split; [apply A; reflexivity|lra].
      * exists ((5 + 6) / 2). split; [apply A; reflexivity|lra].
      * exists ((3 + 4) / 2). split; [apply A; reflexivity|lra].
      * exists ((3 + 4) / 2). split; [apply A; reflexivity|lra].
  - split; [apply c97_grid; lra || lia|]. split; cbn [extreme].
    + split; [left; reflexivity|]. split; [lra|]. intros w [H|[H|[H|[H|[]]]]]; try discriminate H; injection H as <-; lra.
    + split; [right; right; left; reflexivity|]. split; [lra|]. intros w [H|[H|[H|[H|[]]]]]; try discriminate H; injection H as <-; lra.
Qed.
Print Assumptions c97_example.
