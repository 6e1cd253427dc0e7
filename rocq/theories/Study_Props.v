(** C96: evaluation runs can be interrupted and resumed. *)
From Coq Require Import String List Bool ZArith Lia Permutation Sorting.Sorted.
Import ListNotations.
From Verif Require Import Base Py ListLemmas PyLemmas Study_Model.
Local Open Scope Z_scope.

(** ** Specification *)

(** The table of all test cases below [n] that succeed, in order. *)
Definition complete_table {V} (test : nat -> option V) (n : nat) (t : table V) : Prop :=
  StronglySorted lt (map fst t) /\ forall s v, In (s, v) t <-> (s < n)%nat /\ test s = Some v.

(** Files from which true results only can be read. *)
Definition true_content {V} (test : nat -> option V) (c : content V) : Prop :=
  forall t s v, c = Some t -> In (s, v) t -> test s = Some v.
Definition true_files {V} (test : nat -> option V) (fs : files V) : Prop :=
  (forall c, f_csv fs = Some c -> true_content test c) /\
  (forall i c, In (i, c) (f_ckpts fs) -> true_content test c).

(** What a file may hold if the script is killed while it is written: nothing that
    can be read, or the first rows. *)
Definition torn {V} (t : table V) (c : content V) : Prop := c = None \/ exists k, c = Some (firstn k t).

(** The files after a run on [fs] is killed: after some arrivals, while a checkpoint
    or the results are written, or while the checkpoints are deleted. *)
Inductive killed {V} (a : eargs) (test : nat -> option V) (fs : files V) : files V -> Prop :=
| killed_running : forall st seeds done rest sf,
    load_results a fs = Ok (st, seeds) -> Permutation (done ++ rest) seeds ->
    arrivals a 0 (map (fun s => (s, test s)) done) (st, fs) = Ok sf ->
    killed a test fs (snd sf)
| killed_checkpoint : forall st seeds done s rest sf sf' write,
    load_results a fs = Ok (st, seeds) -> Permutation (done ++ s :: rest) seeds ->
    arrivals a 0 (map (fun s => (s, test s)) done) (st, fs) = Ok sf ->
    (forall t, torn t (write t)) ->
    arrive write a (List.length done) (s, test s) sf = Ok sf' ->
    killed a test fs (snd sf')
| killed_csv : forall st seeds order sf c,
    load_results a fs = Ok (st, seeds) -> Permutation order seeds ->
    arrivals a 0 (map (fun s => (s, test s)) order) (st, fs) = Ok sf ->
    writes_csv a (fst sf) = true -> torn (list2df (st_results (fst sf))) c ->
    killed a test fs (mkFiles (Some c) (f_ckpts (snd sf)))
| killed_deleting : forall st seeds order sf keep,
    load_results a fs = Ok (st, seeds) -> Permutation order seeds ->
    arrivals a 0 (map (fun s => (s, test s)) order) (st, fs) = Ok sf ->
    killed a test fs (mkFiles (f_csv (snd (save_dataframe a sf))) (filter keep (f_ckpts (snd sf)))).

(** The files after any number of runs, with any arguments, some of them killed. *)
Inductive history {V} (test : nat -> option V) : files V -> Prop :=
| history_start : history test (mkFiles None [])
| history_killed : forall a fs fs', history test fs -> killed a test fs fs' -> history test fs'
| history_run : forall a fs st seeds order df fs', history test fs ->
    load_results a fs = Ok (st, seeds) -> Permutation order seeds ->
    whole_run a test order fs = Ok (df, fs') -> history test fs'.

(** ** Lemmas *)

Section Lemmas.
Context {V : Type} (test : nat -> option V).

Definition true_results (n : nat) (r : list (option V)) : Prop :=
  List.length r = n /\ forall s v, nth s r None = Some v -> test s = Some v.

Lemma rows_from_spec : forall (l : list (option V)) i,
  StronglySorted lt (map fst (rows_from i l)) /\
  (forall s v, In (s, v) (rows_from i l) <-> (i <= s)%nat /\ nth (s - i) l None = Some v).
Proof.
  induction l as [|o l IH]; intros i; cbn [rows_from].
  - split; [constructor|]. intros s v. split; [intros []|]. intros [_ H]. destruct (s - i)%nat; discriminate.
  - destruct (IH (S i)) as [S0 I0].
    assert (J : forall s v, In (s, v) (rows_from (S i) l) <-> (i < s)%nat /\ nth (s - i) (o :: l) None = Some v).
    { intros s v. rewrite I0. split; intros [H1 H2]; (split; [lia|]).
      - replace (s - i)%nat with (S (s - S i)) by lia. exact H2.
      - replace (s - i)%nat with (S (s - S i)) in H2 by lia. exact H2. }
    destruct o as [w|].
    + split.
      * cbn [map fst]. constructor; [exact S0|]. apply Forall_forall. intros s I. apply in_map_iff in I.
        destruct I as ([s' v] & <- & I). apply J in I. cbn; lia.
      * intros s v. cbn [In]. rewrite J. split.
        -- intros [E|[H1 H2]]; [injection E as <- <-; split; [lia|]; now rewrite Nat.sub_diag|split; [lia|exact H2]].
        -- intros [H1 H2]. destruct (Nat.eq_dec s i) as [->|N]; [left|right; split; [lia|exact H2]].
           rewrite Nat.sub_diag in H2. cbn in H2. injection H2 as ->. reflexivity.
    + split; [exact S0|]. intros s v. rewrite J. split; intros [H1 H2]; (split; [|exact H2]); [lia|].
      destruct (Nat.eq_dec s i) as [->|N]; [|lia]. rewrite Nat.sub_diag in H2. discriminate.
Qed.
Lemma list2df_spec : forall (l : list (option V)),
  StronglySorted lt (map fst (list2df l)) /\
  (forall s v, In (s, v) (list2df l) <-> nth s l None = Some v).
Proof.
  intros l. destruct (rows_from_spec l 0) as [S0 I0]. split; [exact S0|]. intros s v. unfold list2df.
  rewrite I0, Nat.sub_0_r. split; [intros [_ H]; exact H|intros H; split; [lia|exact H]].
Qed.

Lemma nth_upd : forall A (l : list A) i j a d, (i < List.length l)%nat ->
  nth j (upd i a l) d = if Nat.eqb i j then a else nth j l d.
Proof.
  intros A l i j a d H. destruct (Nat.eqb_spec i j) as [<-|N]; [now apply nth_upd_eq|now apply nth_upd_neq].
Qed.
Lemma upd_oob : forall A (l : list A) i a, (List.length l <= i)%nat -> upd i a l = l.
Proof. induction l as [|x l IH]; intros [|i] a H; cbn in *; try lia; auto. rewrite IH by lia. reflexivity. Qed.

Lemma load_table_spec : forall (t : table V) r, let r' := load_table r t in
  List.length r' = List.length r /\
  (forall s v, nth s r' None = Some v -> nth s r None = Some v \/ In (s, v) t) /\
  (forall s v, In (s, v) t -> (s < List.length r)%nat -> nth s r' None <> None) /\
  (forall s, nth s r None <> None -> nth s r' None <> None).
Proof.
  induction t as [|[k w] t IH]; intros r r'; unfold r', load_table; cbn [fold_left fst snd].
  - split; [reflexivity|]. split; [auto|]. split; [intros s v []|auto].
  - fold (load_table (if (k <? List.length r)%nat then upd k (Some w) r else r) t).
    set (r1 := if (k <? List.length r)%nat then upd k (Some w) r else r).
    destruct (IH r1) as (L & A & B & C). assert (L1 : List.length r1 = List.length r).
    { unfold r1. destruct (k <? List.length r)%nat; [apply upd_length|reflexivity]. }
    assert (N1 : forall s, nth s r1 None = if (Nat.eqb k s && (k <? List.length r)%nat)%bool then Some w else nth s r None).
    { intros s. unfold r1. destruct (Nat.ltb_spec k (List.length r)) as [Lt|Ge].
      - rewrite nth_upd by exact Lt. now rewrite andb_true_r.
      - now rewrite andb_false_r. }
    split; [lia|]. split; [|split].
    + intros s v H. destruct (A s v H) as [H1|H1]; [|right; right; exact H1]. rewrite N1 in H1.
      destruct (Nat.eqb_spec k s) as [->|]; cbn [andb] in H1; [|auto].
      destruct (s <? List.length r)%nat; [|auto]. injection H1 as <-. right; left; reflexivity.
    + intros s v [E|I] Hs; [|apply (B s v I); lia]. injection E as -> ->. apply C. rewrite N1, Nat.eqb_refl.
      destruct (Nat.ltb_spec s (List.length r)); [discriminate|lia].
    + intros s H. apply C. rewrite N1. destruct (_ && _)%bool; [discriminate|exact H].
Qed.

Lemma repeat_nth : forall n s, nth s (repeat (@None V) n) None = None.
Proof. induction n as [|n IH]; intros [|s]; cbn; auto. Qed.

Lemma readable_in : forall (ck : list (Z * content V)) i t, In (i, t) (readable ck) <-> In (i, Some t) ck.
Proof.
  intros ck i t. unfold readable. rewrite in_flat_map. split.
  - intros ([j c] & I & H). cbn [fst snd] in H. destruct c as [t'|]; [|destruct H].
    destruct H as [E|[]]. injection E as -> ->. exact I.
  - intros I. exists (i, Some t). split; [exact I|]. left; reflexivity.
Qed.
Lemma fold_max_Z : forall l v, (fold_left Z.max l v = v \/ In (fold_left Z.max l v) l) /\
  v <= fold_left Z.max l v /\ forall x, In x l -> x <= fold_left Z.max l v.
Proof.
  induction l as [|y l IH]; intros v; cbn [fold_left].
  - split; [auto|]. split; [lia|]. intros x [].
  - destruct (IH (Z.max v y)) as (E & G & A). split.
    + destruct E as [E|I]; [|right; right; exact I].
      destruct (Z.max_spec v y) as [[_ M]|[_ M]]; rewrite E, M; auto. right; left; reflexivity.
    + split; [lia|]. intros x [<-|I]; [lia|apply A, I].
Qed.
Lemma last_checkpoint_spec : forall (ck : list (Z * content V)),
  match last_checkpoint ck with
  | None => forall i t, ~ In (i, Some t) ck
  | Some k => (exists t, In (k, Some t) ck) /\ forall i t, In (i, Some t) ck -> i <= k
  end.
Proof.
  intros ck. unfold last_checkpoint. destruct (map fst (readable ck)) as [|i l] eqn:E.
  - intros j t I. apply readable_in in I. apply (in_map fst) in I. rewrite E in I. destruct I.
  - destruct (fold_max_Z l i) as (X & G & A). split.
    + assert (I : In (fold_left Z.max l i) (map fst (readable ck))).
      { rewrite E. destruct X as [X|X]; [left; auto|right; exact X]. }
      apply in_map_iff in I. destruct I as ([j t] & Ej & I). cbn [fst] in Ej. subst j. exists t. now apply readable_in.
    + intros j t I. apply readable_in in I. apply (in_map fst) in I. rewrite E in I. cbn [fst] in I.
      destruct I as [<-|I]; [exact G|apply A, I].
Qed.
Lemma ckpt_content_in : forall (ck : list (Z * content V)) i c, ckpt_content ck i = Some c -> In (i, c) ck.
Proof.
  intros ck i c. unfold ckpt_content. destruct (find _ ck) as [[j c']|] eqn:E; [|discriminate].
  cbn [option_map snd]. intros H. injection H as ->. apply find_some in E. cbn [fst] in E. destruct E as [I E].
  apply Z.eqb_eq in E. now subst j.
Qed.
Lemma ckpt_content_uniq : forall (ck : list (Z * content V)) i c, NoDup (map fst ck) -> In (i, c) ck -> ckpt_content ck i = Some c.
Proof.
  induction ck as [|[j c'] ck IH]; intros i c N I; [destruct I|]. cbn [map fst] in N. apply NoDup_cons_iff in N.
  destruct N as [Nj N]. unfold ckpt_content. cbn [find fst]. destruct (Z.eqb_spec j i) as [->|D].
  - destruct I as [E|I]; [injection E as ->; reflexivity|]. exfalso. apply Nj. apply (in_map fst) in I. exact I.
  - destruct I as [E|I]; [injection E as -> _; contradiction|]. now apply IH.
Qed.

(** What is loaded comes from the table of one file. *)
Lemma load_ok : forall a (fs : files V) st seeds, load_results a fs = Ok (st, seeds) ->
  exists t : table V, st_results st = load_table (repeat None (e_n a)) t /\
    (t = [] \/ f_csv fs = Some (Some t) \/ exists i, In (i, Some t) (f_ckpts fs)) /\
    (forall s, In s seeds -> (s < e_n a)%nat) /\ NoDup seeds /\
    (forall s, (s < e_n a)%nat -> nth s (st_results st) None = None -> In s seeds).
Proof.
  intros a fs st seeds E. unfold load_results in E.
  assert (Nil : Ok (mkState (repeat None (e_n a)) None (-1), seq 0 (e_n a)) = Ok (st, seeds) ->
    exists t : table V, st_results st = load_table (repeat None (e_n a)) t /\
    (t = [] \/ f_csv fs = Some (Some t) \/ exists i, In (i, Some t) (f_ckpts fs)) /\
    (forall s, In s seeds -> (s < e_n a)%nat) /\ NoDup seeds /\
    (forall s, (s < e_n a)%nat -> nth s (st_results st) None = None -> In s seeds)).
  { intros H. injection H as <- <-. exists []. split; [reflexivity|]. split; [auto|].
    split; [intros s I; apply in_seq in I; lia|]. split; [apply seq_NoDup|]. intros s Hs _. apply in_seq. lia. }
  destruct (e_output a && e_resume a)%bool; [|exact (Nil E)].
  assert (Body : forall file i t, (f_csv fs = Some (Some t) \/ exists i, In (i, Some t) (f_ckpts fs)) ->
    (let results := load_table (repeat None (e_n a)) t in
      let missing s := match nth s results None with Some _ => false | None => true end in
      let f s := match e_wav a with None => missing s | Some wav => (missing s || negb (wav s))%bool end in
      Ok (mkState results (Some file) i, filter f (seq 0 (e_n a)))) = Ok (st, seeds) ->
    exists t : table V, st_results st = load_table (repeat None (e_n a)) t /\
    (t = [] \/ f_csv fs = Some (Some t) \/ exists i, In (i, Some t) (f_ckpts fs)) /\
    (forall s, In s seeds -> (s < e_n a)%nat) /\ NoDup seeds /\
    (forall s, (s < e_n a)%nat -> nth s (st_results st) None = None -> In s seeds)).
  { intros file i t Src H. cbv zeta in H. injection H as <- <-. exists t. cbn [st_results].
    split; [reflexivity|]. split; [auto|]. split; [intros s I; apply filter_In in I; destruct I as [I _]; apply in_seq in I; lia|].
    split; [apply NoDup_filter, seq_NoDup|]. intros s Hs Hn. apply filter_In. split; [apply in_seq; lia|].
    rewrite Hn. destruct (e_wav a); reflexivity. }
  destruct (last_checkpoint (f_ckpts fs)) as [k|] eqn:El.
  - destruct (ckpt_content (f_ckpts fs) k) as [[t|]|] eqn:Ec; try discriminate. cbn [bind] in E.
    apply (Body (Ckpt k) k t); [right; exists k; now apply ckpt_content_in|exact E].
  - destruct (f_csv fs) as [[t|]|] eqn:Ec; try discriminate; [|exact (Nil E)]. cbn [bind] in E.
    apply (Body Csv (-1) t); [left; reflexivity|exact E].
Qed.

Lemma load_true : forall a (fs : files V) st seeds, true_files test fs -> load_results a fs = Ok (st, seeds) ->
  true_results (e_n a) (st_results st).
Proof.
  intros a fs st seeds [Tc Tk] E. destruct (load_ok a fs st seeds E) as (t & -> & Src & _).
  destruct (load_table_spec t (repeat None (e_n a))) as (L & A & _). rewrite repeat_length in L. split; [exact L|].
  intros s v H. destruct (A s v H) as [H1|I]; [rewrite repeat_nth in H1; discriminate|].
  destruct Src as [->|[Sc|(i & Sk)]]; [destruct I| |].
  - exact (Tc _ Sc t s v eq_refl I).
  - exact (Tk i _ Sk t s v eq_refl I).
Qed.

Lemma upd_true : forall n r s, true_results n r -> true_results n (match test s with Some v => upd s (Some v) r | None => r end).
Proof.
  intros n r s [L T]. destruct (test s) as [v|] eqn:E; [|split; assumption]. split; [now rewrite upd_length|].
  intros k w H. destruct (Nat.lt_ge_cases s (List.length r)) as [Lt|Ge].
  - rewrite nth_upd in H by exact Lt. destruct (Nat.eqb_spec s k) as [<-|]; [congruence|auto].
  - rewrite upd_oob in H by exact Ge. auto.
Qed.
Lemma rows_true : forall n r, true_results n r -> true_content test (Some (list2df r)).
Proof.
  intros n r [_ T] t s v E I. injection E as <-. apply T. now apply (proj2 (list2df_spec r)).
Qed.
Lemma torn_true : forall t c, true_content test (Some t) -> torn t c -> true_content test c.
Proof.
  intros t c T [->|(k & ->)]; intros t' s v E I; [discriminate|]. injection E as <-.
  apply (T t s v eq_refl). rewrite <- (firstn_skipn k t). apply in_or_app. left; exact I.
Qed.

Lemma arrive_true : forall write a i s st fs st' fs', (forall t, torn t (write t)) ->
  true_results (e_n a) (st_results st) -> true_files test fs ->
  arrive write a i (s, test s) (st, fs) = Ok (st', fs') ->
  true_results (e_n a) (st_results st') /\ true_files test fs' /\
  st_results st' = match test s with Some v => upd s (Some v) (st_results st) | None => st_results st end.
Proof.
  intros write a i s st fs st' fs' W T [Tc Tk] E. unfold arrive in E. cbn [fst snd] in E.
  set (r := match test s with Some v => upd s (Some v) (st_results st) | None => st_results st end) in *.
  assert (Tr : true_results (e_n a) r) by (apply upd_true; exact T).
  destruct (e_checkpoint a) as [c|].
  - destruct (c =? 0); [discriminate|]. destruct (_ =? 0).
    + destruct (e_output a); [|discriminate]. injection E as <- <-. cbn [st_results]. split; [exact Tr|]. split; [|reflexivity].
      split; [exact Tc|]. cbn [write_ckpt f_ckpts]. intros j c' [I|I].
      * injection I as <- <-. eapply torn_true; [|apply W]. eapply rows_true; exact Tr.
      * apply filter_In in I. destruct I as [I _]. exact (Tk j c' I).
    + injection E as <- <-. cbn [st_results]. split; [exact Tr|]. split; [split; assumption|reflexivity].
  - injection E as <- <-. cbn [st_results]. split; [exact Tr|]. split; [split; assumption|reflexivity].
Qed.

Lemma whole_torn : forall t : table V, torn t (Some t).
Proof. intros t. right. exists (List.length t). now rewrite firstn_all. Qed.

Lemma arrivals_true : forall a order i st fs st' fs',
  true_results (e_n a) (st_results st) -> true_files test fs -> (forall s, In s order -> (s < e_n a)%nat) ->
  arrivals a i (map (fun s => (s, test s)) order) (st, fs) = Ok (st', fs') ->
  true_results (e_n a) (st_results st') /\ true_files test fs' /\
  forall s, (nth s (st_results st) None = test s \/ In s order) -> nth s (st_results st') None = test s.
Proof.
  intros a order. induction order as [|s order IH]; intros i st fs st' fs' T F B E; cbn [map arrivals] in E.
  - injection E as <- <-. split; [exact T|]. split; [exact F|]. intros s [H|[]]. exact H.
  - destruct (arrive (@Some (table V)) a i (s, test s) (st, fs)) as [[st1 fs1]|] eqn:E1; [|discriminate]. cbn [bind] in E.
    destruct (arrive_true _ a i s st fs st1 fs1 whole_torn T F E1) as (T1 & F1 & R1).
    destruct (IH (S i) st1 fs1 st' fs' T1 F1 (fun k I => B k (or_intror I)) E) as (T2 & F2 & N2).
    split; [exact T2|]. split; [exact F2|]. intros k H. apply N2.
    assert (Hs : (s < List.length (st_results st))%nat) by (destruct T as [-> _]; apply B; left; reflexivity).
    assert (N1 : nth k (st_results st1) None = if Nat.eqb s k then match test s with Some v => Some v | None => nth k (st_results st) None end else nth k (st_results st) None).
    { rewrite R1. destruct (test s) as [v|]; [now rewrite nth_upd by exact Hs|]. now destruct (s =? k)%nat. }
    destruct (Nat.eqb_spec s k) as [<-|D].
    + left. rewrite N1. destruct (test s) as [v|] eqn:Et; [reflexivity|].
      destruct (nth s (st_results st) None) as [v|] eqn:En; [|reflexivity]. destruct T as [_ T]. rewrite (T s v En) in Et. discriminate.
    + destruct H as [H|[<-|I]]; [left; now rewrite N1|contradiction|right; exact I].
Qed.
End Lemmas.

(** ** C96 *)

(** Whatever true results the files hold (of the same or of other numbers of test
    cases, in any checkpoints), and in whatever order results arrive, the table of a
    run that completes has the results of all test cases, in order, and the
    checkpoints are deleted. *)
Theorem c96_complete : forall V (test : nat -> option V) a fs st seeds order df fs',
  true_files test fs -> load_results a fs = Ok (st, seeds) -> Permutation order seeds ->
  whole_run a test order fs = Ok (df, fs') ->
  complete_table test (e_n a) df /\ true_files test fs' /\ (e_output a = true -> f_ckpts fs' = []).
Proof.
  intros V test a fs st seeds order df fs' F L P E. unfold whole_run in E. rewrite L in E. cbn [bind fst] in E.
  match type of E with bind ?q _ = _ => destruct q as [[st1 fs1]|] eqn:Ea; [|discriminate] end. cbn [bind] in E.
  pose proof (load_true test a fs st seeds F L) as T. destruct (load_ok a fs st seeds L) as (t & _ & _ & B & ND & M).
  assert (Bo : forall s, In s order -> (s < e_n a)%nat).
  { intros s I. apply B. eapply Permutation_in; [exact P|exact I]. }
  destruct (arrivals_true test a order 0 st fs st1 fs1 T F Bo Ea) as (T1 & F1 & N1).
  unfold save_dataframe in E. injection E as <- <-.
  assert (Tb : true_content test (Some (list2df (st_results st1)))) by (eapply rows_true; exact T1).
  split; [|split].
  - destruct (list2df_spec (st_results st1)) as [S I]. split; [exact S|]. intros s v. rewrite I. split.
    + intros H. split; [|destruct T1 as [_ T1]; auto]. destruct T1 as [<- _].
      destruct (Nat.lt_ge_cases s (List.length (st_results st1))); [assumption|]. rewrite nth_overflow in H by assumption. discriminate.
    + intros [Hs Ht]. rewrite <- Ht. apply N1. destruct (nth s (st_results st) None) as [w|] eqn:En.
      * left. destruct T as [_ T]. now rewrite (T s w En).
      * right. eapply Permutation_in; [apply Permutation_sym; exact P|]. apply M; assumption.
  - destruct F1 as [Fc Fk]. split; cbn [f_csv f_ckpts].
    + intros c. destruct (writes_csv a st1); [intros H; injection H as <-; exact Tb|apply Fc].
    + destruct (e_output a); [intros i c []|exact Fk].
  - cbn [f_ckpts]. intros ->. reflexivity.
Qed.
Print Assumptions c96_complete.

(** Being killed, at any moment, leaves true results only. *)
Theorem c96_killed : forall V (test : nat -> option V) a fs fs',
  true_files test fs -> killed a test fs fs' -> true_files test fs'.
Proof.
  intros V test a fs fs' F K.
  assert (G : forall st seeds done, load_results a fs = Ok (st, seeds) -> (forall s, In s done -> In s seeds) ->
    forall sf, arrivals a 0 (map (fun s => (s, test s)) done) (st, fs) = Ok sf ->
    true_results test (e_n a) (st_results (fst sf)) /\ true_files test (snd sf)).
  { intros st seeds done L I [st1 fs1] E. pose proof (load_true test a fs st seeds F L) as T.
    destruct (load_ok a fs st seeds L) as (t & _ & _ & B & _).
    destruct (arrivals_true test a done 0 st fs st1 fs1 T F (fun s H => B s (I s H)) E) as (T1 & F1 & _). auto. }
  destruct K as [st seeds done rest sf L P E|st seeds done s rest [st1 fs1] [st2 fs2] write L P E W E'|st seeds order sf c L P E _ Tn|st seeds order [st1 fs1] keep L P E].
  - apply (G st seeds done L); [|exact E]. intros s I. eapply Permutation_in; [exact P|]. apply in_or_app; auto.
  - assert (I : forall k, In k done -> In k seeds).
    { intros k I. eapply Permutation_in; [exact P|]. apply in_or_app; auto. }
    destruct (G st seeds done L I _ E) as [T1 F1]. cbn [fst snd] in *.
    exact (proj1 (proj2 (arrive_true test write a _ s st1 fs1 st2 fs2 W T1 F1 E'))).
  - assert (I : forall k, In k order -> In k seeds) by (intros k I; eapply Permutation_in; [exact P|exact I]).
    destruct (G st seeds order L I _ E) as [T1 [_ Fk]]. split; cbn [f_csv f_ckpts]; [|exact Fk].
    intros c' H. injection H as <-. eapply torn_true; [|exact Tn]. eapply rows_true; exact T1.
  - assert (I : forall k, In k order -> In k seeds) by (intros k I; eapply Permutation_in; [exact P|exact I]).
    destruct (G st seeds order L I _ E) as [T1 [Fc Fk]]. cbn [fst snd] in *. split; cbn [f_csv f_ckpts save_dataframe snd].
    + intros c'. destruct (writes_csv a st1); [|apply Fc]. intros H. injection H as <-. eapply rows_true; exact T1.
    + intros i c' H. apply filter_In in H. exact (Fk i c' (proj1 H)).
Qed.
Print Assumptions c96_killed.

(** So after any number of runs, some of which were killed, a run that completes
    has the same table as a first run that is not interrupted. *)
Theorem c96_history : forall V (test : nat -> option V) a fs st seeds order df fs',
  history test fs -> load_results a fs = Ok (st, seeds) -> Permutation order seeds ->
  whole_run a test order fs = Ok (df, fs') -> complete_table test (e_n a) df.
Proof.
  intros V test a fs st seeds order df fs' H L P E.
  assert (G : forall fs, history test fs -> true_files test fs).
  { clear. intros fs H. induction H as [|a fs fs' _ IH K|a fs st seeds order df fs' _ IH L P E].
    - split; [discriminate|intros i c []].
    - eapply c96_killed; eassumption.
    - eapply c96_complete; eassumption. }
  eapply c96_complete; [apply G; exact H|eassumption..].
Qed.
Print Assumptions c96_history.
Theorem c96_unique : forall V (test : nat -> option V) n t t',
  complete_table test n t -> complete_table test n t' -> t = t'.
Proof.
  intros V test n t t' [S I] [S' I'].
  assert (J : forall p, In p t <-> In p t') by (intros [s v]; rewrite I, I'; tauto). clear I I'. revert t' S' J.
  induction t as [|[s v] t IH]; intros [|[s' v'] t'] S' J; [reflexivity|exfalso; apply (proj2 (J (s', v'))); left; reflexivity|exfalso; apply (proj1 (J (s, v))); left; reflexivity|].
  cbn [map fst] in S, S'. apply StronglySorted_inv in S, S'. destruct S as [S A], S' as [S' A'].
  rewrite Forall_forall in A, A'.
  assert (E : (s, v) = (s', v')).
  { destruct (proj1 (J (s, v)) (or_introl eq_refl)) as [E|I]; [auto|].
    destruct (proj2 (J (s', v')) (or_introl eq_refl)) as [E'|I']; [auto|].
    apply (in_map fst) in I, I'. cbn [fst] in I, I'. apply A' in I. apply A in I'. lia. }
  injection E as <- <-. f_equal. apply IH; [exact S|exact S'|]. intros [k w]. split; intros H.
  - destruct (proj1 (J (k, w)) (or_intror H)) as [E|I]; [|exact I]. injection E as <- <-.
    apply (in_map fst) in H. apply A in H. cbn [fst] in H. lia.
  - destruct (proj2 (J (k, w)) (or_intror H)) as [E|I]; [|exact I]. injection E as <- <-.
    apply (in_map fst) in H. apply A' in H. cbn [fst] in H. lia.
Qed.
Print Assumptions c96_unique.

(** *** What is resumed *)

(** The file that a run resumes from: the readable checkpoint of the greatest
    number, else the results. *)
Definition source {V} (fs : files V) (t : table V) : Prop :=
  (exists k, In (k, Some t) (f_ckpts fs) /\ forall i t', In (i, Some t') (f_ckpts fs) -> i <= k) \/
  ((forall i t', ~ In (i, Some t') (f_ckpts fs)) /\ f_csv fs = Some (Some t)).
(** File names are distinct. *)
Definition distinct {V} (fs : files V) : Prop := NoDup (map fst (f_ckpts fs)).

(** A run that resumes computes exactly the test cases that are not in that file, or
    have no WAV file though WAV files are wanted. *)
Theorem c96_resumed : forall V a (fs : files V) t, distinct fs -> e_output a = true -> e_resume a = true -> source fs t ->
  exists st seeds, load_results a fs = Ok (st, seeds) /\ StronglySorted lt seeds /\
    forall s, In s seeds <-> (s < e_n a)%nat /\
      ((forall v, ~ In (s, v) t) \/ exists wav, e_wav a = Some wav /\ wav s = false).
Proof.
  intros V a fs t D Ho Hr Src. unfold load_results. rewrite Ho, Hr. cbn [andb].
  assert (Srt : forall f k n, StronglySorted lt (filter f (seq k n))).
  { intros f k n. revert k. induction n as [|n IH]; intros k; cbn [seq filter]; [constructor|].
    destruct (f k); [|apply IH]. constructor; [apply IH|]. apply Forall_forall. intros x I. apply filter_In in I.
    destruct I as [I _]. apply in_seq in I. lia. }
  assert (Body : forall file i, exists st seeds,
    (let results := load_table (repeat None (e_n a)) t in
      let missing s := match nth s results None with Some _ => false | None => true end in
      let f s := match e_wav a with None => missing s | Some wav => (missing s || negb (wav s))%bool end in
      Ok (mkState results (Some file) i, filter f (seq 0 (e_n a)))) = Ok (st, seeds) /\ StronglySorted lt seeds /\
    forall s, In s seeds <-> (s < e_n a)%nat /\
      ((forall v, ~ In (s, v) t) \/ exists wav, e_wav a = Some wav /\ wav s = false)).
  { intros file i. do 2 eexists. split; [reflexivity|]. split; [apply Srt|]. intros s. rewrite filter_In.
    destruct (load_table_spec t (repeat None (e_n a))) as (_ & A & B & _). rewrite repeat_length in B.
    assert (Ms : (s < e_n a)%nat -> nth s (load_table (repeat None (e_n a)) t) None = None <-> (forall v, ~ In (s, v) t)).
    { intros Hs. split.
      - intros H v I. exact (B s v I Hs H).
      - intros H. destruct (nth s _ None) as [v|] eqn:E; [|reflexivity]. destruct (A s v E) as [E'|I]; [|now contradiction (H v)].
        rewrite repeat_nth in E'. discriminate. }
    assert (Sq : In s (seq 0 (e_n a)) <-> (s < e_n a)%nat) by (rewrite in_seq; lia). rewrite Sq.
    split; intros [Hs H]; (split; [exact Hs|]); specialize (Ms Hs).
    - destruct (e_wav a) as [wav|].
      + apply orb_true_iff in H. destruct H as [H|H].
        * left. apply Ms. destruct (nth s _ None); [discriminate|reflexivity].
        * right. exists wav. split; [reflexivity|]. now destruct (wav s).
      + left. apply Ms. destruct (nth s _ None); [discriminate|reflexivity].
    - destruct H as [H|(wav & -> & H)].
      + apply Ms in H. rewrite H. destruct (e_wav a); reflexivity.
      + rewrite H. apply orb_true_r. }
  pose proof (last_checkpoint_spec (f_ckpts fs)) as Lc. destruct Src as [(k & I & M)|[N C]].
  - destruct (last_checkpoint (f_ckpts fs)) as [k'|] eqn:El; [|now contradiction (Lc k t)].
    destruct Lc as [(t' & I') M']. assert (k' = k) by (apply Z.le_antisymm; [exact (M k' t' I')|exact (M' k t I)]). subst k'.
    rewrite (ckpt_content_uniq _ k (Some t) D I). cbn [bind]. apply Body.
  - destruct (last_checkpoint (f_ckpts fs)) as [k'|] eqn:El; [destruct Lc as [(t' & I') _]; now contradiction (N k' t')|].
    rewrite C. cbn [bind]. apply Body.
Qed.
Print Assumptions c96_resumed.

(** Without files, and if the results are not to be resumed, everything is
    computed. *)
Theorem c96_afresh : forall V a (fs : files V),
  e_output a = false \/ e_resume a = false \/ ((forall i t, ~ In (i, Some t) (f_ckpts fs)) /\ f_csv fs = None) ->
  exists st, load_results a fs = Ok (st, seq 0 (e_n a)).
Proof.
  intros V a fs H. unfold load_results.
  destruct (e_output a && e_resume a)%bool eqn:E; [|eauto]. apply andb_true_iff in E. destruct E as [E1 E2].
  destruct H as [H|[H|[N C]]]; [congruence|congruence|]. pose proof (last_checkpoint_spec (f_ckpts fs)) as Lc.
  destruct (last_checkpoint (f_ckpts fs)) as [k|]; [destruct Lc as [(t & I) _]; now contradiction (N k t)|].
  rewrite C. eauto.
Qed.
Print Assumptions c96_afresh.

(** *** Progress *)

Section Progress.
Context {V : Type} (test : nat -> option V) (a : eargs).

(** All numbers of readable checkpoints are at most the last one; what could be
    resumed from is among the results. *)
Definition tidy (st : state V) (fs : files V) : Prop :=
  distinct fs /\ (forall i t, In (i, Some t) (f_ckpts fs) -> i <= st_last_ckpt st) /\
  forall t s v, source fs t -> In (s, v) t -> (s < e_n a)%nat -> nth s (st_results st) None <> None.

Lemma load_tidy : forall fs st seeds, distinct fs -> e_output a = true -> e_resume a = true ->
  load_results a fs = Ok (st, seeds) -> tidy st fs.
Proof.
  intros fs st seeds D Ho Hr E. unfold load_results in E. rewrite Ho, Hr in E. cbn [andb] in E.
  pose proof (last_checkpoint_spec (f_ckpts fs)) as Lc. destruct (last_checkpoint (f_ckpts fs)) as [k|] eqn:El.
  - destruct Lc as [(t & I) M]. rewrite (ckpt_content_uniq _ k (Some t) D I) in E. cbn [bind] in E.
    injection E as <- _. split; [exact D|]. cbn [st_last_ckpt st_results]. split; [exact M|].
    intros t' s v Src I' Hs. destruct Src as [(k' & Ik & Mk)|[N _]]; [|now contradiction (N k t)].
    assert (k' = k) by (apply Z.le_antisymm; [exact (M k' t' Ik)|exact (Mk k t I)]). subst k'.
    assert (t' = t).
    { pose proof (ckpt_content_uniq _ k _ D I) as X. rewrite (ckpt_content_uniq _ k _ D Ik) in X. congruence. }
    subst t'. destruct (load_table_spec t (repeat None (e_n a))) as (_ & _ & B & _). rewrite repeat_length in B. exact (B s v I' Hs).
  - destruct (f_csv fs) as [[t|]|] eqn:Ec; try discriminate.
    + cbn [bind] in E. injection E as <- _. split; [exact D|]. cbn [st_last_ckpt st_results].
      split; [intros i t' I; now contradiction (Lc i t')|]. intros t' s v Src I' Hs.
      destruct Src as [(k' & Ik & _)|[_ C]]; [now contradiction (Lc k' t')|]. rewrite Ec in C. injection C as <-.
      destruct (load_table_spec t (repeat None (e_n a))) as (_ & _ & B & _). rewrite repeat_length in B. exact (B s v I' Hs).
    + injection E as <- _. split; [exact D|]. cbn [st_last_ckpt st_results].
      split; [intros i t' I; now contradiction (Lc i t')|]. intros t' s v Src I' Hs.
      destruct Src as [(k' & Ik & _)|[_ C]]; [now contradiction (Lc k' t')|congruence].
Qed.

Lemma distinct_write : forall (fs : files V) i c, distinct fs -> distinct (write_ckpt fs i c).
Proof.
  intros fs i c D. unfold distinct, write_ckpt in *. cbn [f_ckpts map fst]. constructor.
  - intros I. apply in_map_iff in I. destruct I as ([j c'] & E & I). apply filter_In in I. cbn [fst] in *. subst j.
    destruct I as [_ I]. rewrite Z.eqb_refl in I. discriminate.
  - revert D. generalize (f_ckpts fs). induction l as [|[j c'] l IH]; intros D; [constructor|]. cbn [map fst filter] in *.
    apply NoDup_cons_iff in D. destruct D as [Nj D]. destruct (negb (j =? i)); [|exact (IH D)]. cbn [map fst].
    constructor; [|exact (IH D)]. intros I. apply Nj. apply in_map_iff in I. destruct I as (p & E & I).
    apply filter_In in I. apply in_map_iff. exists p. tauto.
Qed.

(** One arrival: results are kept, and what can be resumed from after it is either
    the same as before, or all of the results. *)
Lemma arrive_tidy : forall write i s st fs st' fs', (s < e_n a)%nat -> List.length (st_results st) = e_n a ->
  (forall t, write t = Some t \/ write t = None) -> tidy st fs ->
  arrive write a i (s, test s) (st, fs) = Ok (st', fs') ->
  ((forall t, write t = Some t) -> tidy st' fs') /\ List.length (st_results st') = e_n a /\
  (forall k, nth k (st_results st) None <> None -> nth k (st_results st') None <> None) /\
  (test s <> None -> nth s (st_results st') None <> None) /\
  ((forall t, source fs' t <-> source fs t) \/ (forall t, source fs' t <-> t = list2df (st_results st'))) /\
  (forall c, e_checkpoint a = Some c -> (c | Z.of_nat i + 1) -> (forall t, write t = Some t) ->
    forall t, source fs' t <-> t = list2df (st_results st')).
Proof.
  intros write i s st fs st' fs' Hs Ln W (D & M & R) E. unfold arrive in E. cbn [fst snd] in E.
  set (r := match test s with Some v => upd s (Some v) (st_results st) | None => st_results st end) in *.
  assert (Lr : List.length r = e_n a) by (unfold r; destruct (test s); [now rewrite upd_length|exact Ln]).
  assert (Kp : forall k, nth k (st_results st) None <> None -> nth k r None <> None).
  { intros k H. unfold r. destruct (test s); [|exact H]. rewrite nth_upd by lia. destruct (s =? k)%nat; [discriminate|exact H]. }
  assert (Ks : test s <> None -> nth s r None <> None).
  { intros H. unfold r. destruct (test s); [|contradiction]. rewrite nth_upd by lia. rewrite Nat.eqb_refl. discriminate. }
  assert (Same : forall st1, st_results st1 = r -> st_last_ckpt st1 = st_last_ckpt st ->
    tidy st1 fs /\ List.length (st_results st1) = e_n a /\
    (forall k, nth k (st_results st) None <> None -> nth k (st_results st1) None <> None) /\
    (test s <> None -> nth s (st_results st1) None <> None) /\
    ((forall t, source fs t <-> source fs t) \/ (forall t, source fs t <-> t = list2df (st_results st1)))).
  { intros st1 E1 E2. rewrite E1. split; [|split; [exact Lr|split; [exact Kp|split; [exact Ks|left; tauto]]]].
    split; [exact D|]. rewrite E1, E2. split; [exact M|]. intros t k v S I Hk. apply Kp. exact (R t k v S I Hk). }
  destruct (e_checkpoint a) as [c|] eqn:Ec.
  - destruct (Z.eqb_spec c 0) as [|Nc]; [discriminate|]. destruct (Z.eqb_spec ((Z.of_nat i + 1) mod c) 0) as [Dv|Nd].
    + destruct (e_output a); [|discriminate]. injection E as <- <-. cbn [st_results st_last_ckpt]. set (k := st_last_ckpt st + 1).
      destruct (W (list2df r)) as [Wr|Wr]; rewrite Wr.
      * assert (Sr : forall t, source (write_ckpt fs k (Some (list2df r))) t <-> t = list2df r).
        { intros t. split.
          - intros [(k' & Ik & Mk)|[N _]]; [|now contradiction (N k (list2df r)); left].
            cbn [write_ckpt f_ckpts] in Ik. destruct Ik as [Ik|Ik]; [congruence|]. apply filter_In in Ik. destruct Ik as [Ik _].
            pose proof (M k' t Ik). pose proof (Mk k (list2df r) (or_introl eq_refl)). unfold k in *. lia.
          - intros ->. left. exists k. split; [left; reflexivity|]. intros j t' [I|I]; [injection I as <- _; lia|].
            apply filter_In in I. pose proof (M j t' (proj1 I)). unfold k. lia. }
        split; [|split; [exact Lr|split; [exact Kp|split; [exact Ks|split; [right; exact Sr|intros; apply Sr]]]]].
        intros _. split; [now apply distinct_write|]. cbn [st_last_ckpt st_results]. split.
        -- intros j t [I|I]; [injection I as <- _; lia|]. apply filter_In in I. pose proof (M j t (proj1 I)). unfold k. lia.
        -- intros t j v S I _. apply Sr in S. subst t. apply (proj2 (list2df_spec r)) in I. congruence.
      * assert (Sr : forall t, source (write_ckpt fs k None) t <-> source fs t).
        { assert (In' : forall j t, In (j, Some t) (f_ckpts (write_ckpt fs k None)) <-> In (j, Some t) (f_ckpts fs)).
          { intros j t. cbn [write_ckpt f_ckpts In]. rewrite filter_In. cbn [fst]. split.
            - intros [I|[I _]]; [discriminate|exact I].
            - intros I. right. split; [exact I|]. destruct (Z.eqb_spec j k); [|reflexivity]. pose proof (M j t I). unfold k in *. lia. }
          intros t. unfold source. split.
          - intros [(k' & Ik & Mk)|[N C]]; [left; exists k'; split; [now apply In'|intros j t' I; apply (Mk j t'); now apply In']|].
            right. split; [intros j t' I; apply (N j t'); now apply In'|exact C].
          - intros [(k' & Ik & Mk)|[N C]]; [left; exists k'; split; [now apply In'|intros j t' I; apply (Mk j t'); now apply In']|].
            right. split; [intros j t' I; apply (N j t'); now apply In'|exact C]. }
        split; [intros Wt; rewrite Wt in Wr; discriminate|]. split; [exact Lr|]. split; [exact Kp|]. split; [exact Ks|].
        split; [left; exact Sr|]. intros c' _ _ Wt. rewrite Wt in Wr. discriminate.
    + injection E as <- <-. destruct (Same (mkState r (st_last_file st) (st_last_ckpt st)) eq_refl eq_refl) as (T & L & K1 & K2 & K3).
      split; [intros _; exact T|]. split; [exact L|]. split; [exact K1|]. split; [exact K2|]. split; [exact K3|].
      intros c' Ec' Dv _. exfalso. injection Ec' as <-. apply Nd. now apply Z.mod_divide.
  - injection E as <- <-. destruct (Same (mkState r (st_last_file st) (st_last_ckpt st)) eq_refl eq_refl) as (T & L & K1 & K2 & K3).
    split; [intros _; exact T|]. split; [exact L|]. split; [exact K1|]. split; [exact K2|]. split; [exact K3|]. discriminate.
Qed.

Lemma arrivals_app : forall l1 l2 i sf, arrivals a i (l1 ++ l2) sf =
  bind (arrivals a i l1 sf) (fun sf' : state V * files V => arrivals a (i + List.length l1) l2 sf').
Proof.
  induction l1 as [|r l1 IH]; intros l2 i sf; cbn [app arrivals List.length bind].
  - now rewrite Nat.add_0_r.
  - destruct (arrive (@Some (table V)) a i r sf) as [sf'|]; cbn [bind]; [|reflexivity]. rewrite IH.
    now replace (i + S (List.length l1))%nat with (S i + List.length l1)%nat by lia.
Qed.

(** Results and what can be resumed from only grow. *)
Definition covers (t : table V) (s : nat) : Prop := exists v, In (s, v) t.
Lemma arrivals_tidy : forall order i st fs st' fs', (forall s, In s order -> (s < e_n a)%nat) ->
  List.length (st_results st) = e_n a -> tidy st fs ->
  arrivals a i (map (fun s => (s, test s)) order) (st, fs) = Ok (st', fs') ->
  tidy st' fs' /\ List.length (st_results st') = e_n a /\
  (forall k, nth k (st_results st) None <> None -> nth k (st_results st') None <> None) /\
  (forall s, In s order -> test s <> None -> nth s (st_results st') None <> None) /\
  (forall t s, source fs t -> covers t s -> (s < e_n a)%nat -> exists t', source fs' t' /\ covers t' s).
Proof.
  induction order as [|s order IH]; intros i st fs st' fs' B Ln T E; cbn [map arrivals] in E.
  - injection E as <- <-. split; [exact T|]. split; [exact Ln|]. split; [auto|]. split; [intros s []|].
    intros t s S C _. eauto.
  - destruct (arrive (@Some (table V)) a i (s, test s) (st, fs)) as [[st1 fs1]|] eqn:E1; [|discriminate]. cbn [bind] in E.
    destruct (arrive_tidy (@Some (table V)) i s st fs st1 fs1 (B s (or_introl eq_refl)) Ln (fun t => or_introl eq_refl) T E1) as (T1 & L1 & K1 & K2 & S1 & _).
    specialize (T1 (fun t => eq_refl)).
    destruct (IH (S i) st1 fs1 st' fs' (fun k I => B k (or_intror I)) L1 T1 E) as (T2 & L2 & K3 & K4 & S2).
    split; [exact T2|]. split; [exact L2|]. split; [auto|]. split.
    + intros k [<-|I] Ht; [apply K3, K2, Ht|apply K4; assumption].
    + intros t k S [v Iv] Hk. destruct S1 as [S1|S1].
      * apply (S2 t k); [now apply S1|now exists v|exact Hk].
      * apply (S2 (list2df (st_results st1)) k); [now apply S1| |exact Hk].
        destruct T as (_ & _ & R). pose proof (K1 k (R t k v S Iv Hk)) as N.
        destruct (nth k (st_results st1) None) as [w|] eqn:En; [|contradiction]. exists w. now apply (proj2 (list2df_spec _)).
Qed.
End Progress.

(** Test cases are not computed twice: once a checkpoint is written, the results that
    had arrived before, and those that the run had resumed from, are not computed by
    the next run, whether the script is killed between two writes or leaves a
    checkpoint that cannot be read. *)
Theorem c96_progress : forall V (test : nat -> option V) a a' fs st seeds done1 done2 rest sf fs' period,
  distinct fs -> e_output a = true -> e_resume a = true ->
  e_output a' = true -> e_resume a' = true -> e_n a' = e_n a -> e_wav a' = None ->
  load_results a fs = Ok (st, seeds) -> Permutation (done1 ++ done2 ++ rest) seeds ->
  e_checkpoint a = Some period -> done1 <> [] -> (period | Z.of_nat (List.length done1)) ->
  arrivals a 0 (map (fun s => (s, test s)) (done1 ++ done2)) (st, fs) = Ok sf ->
  fs' = snd sf \/ (exists s st', In s rest /\
    arrive (fun _ => None) a (List.length (done1 ++ done2)) (s, test s) sf = Ok (st', fs')) ->
  exists st' seeds', load_results a' fs' = Ok (st', seeds') /\
    forall s, In s seeds' -> (s < e_n a)%nat /\ In s seeds /\ ~ (In s done1 /\ test s <> None).
Proof.
  intros V test a a' fs st seeds done1 done2 rest [st2 fs2] fs' period D Ho Hr Ho' Hr' En Ew L P Ec Nd Dv E K.
  destruct (load_ok a fs st seeds L) as (t0 & E0 & _ & B & _ & Ms).
  assert (Ln : List.length (st_results st) = e_n a).
  { rewrite E0. destruct (load_table_spec t0 (repeat None (e_n a))) as (X & _). rewrite X. apply repeat_length. }
  assert (Bd : forall s, In s (done1 ++ done2 ++ rest) -> (s < e_n a)%nat).
  { intros s I. apply B. eapply Permutation_in; [exact P|exact I]. }
  pose proof (load_tidy a fs st seeds D Ho Hr L) as T.
  rewrite map_app, arrivals_app in E.
  destruct (arrivals a 0 (map (fun s => (s, test s)) done1) (st, fs)) as [[st1 fs1]|] eqn:E1; [|discriminate]. cbn [bind] in E.
  assert (B1 : forall s, In s done1 -> (s < e_n a)%nat) by (intros; apply Bd, in_or_app; auto).
  assert (B2 : forall s, In s done2 -> (s < e_n a)%nat) by (intros; apply Bd, in_or_app; right; apply in_or_app; auto).
  destruct (arrivals_tidy test a done1 0 st fs st1 fs1 B1 Ln T E1) as (T1 & L1 & K1 & K2 & _).
  destruct (arrivals_tidy test a done2 _ st1 fs1 st2 fs2 B2 L1 T1 E) as (T2 & L2 & _ & _ & S2).
  (* the last arrival of the first part writes a checkpoint *)
  assert (S1 : forall t, source fs1 t <-> t = list2df (st_results st1)).
  { destruct (exists_last Nd) as (d & s & ->). rewrite map_app, arrivals_app in E1.
    destruct (arrivals a 0 (map (fun s => (s, test s)) d) (st, fs)) as [[st0 fs0]|] eqn:Ed; [|discriminate]. cbn [bind map arrivals] in E1.
    destruct (arrivals_tidy test a d 0 st fs st0 fs0 (fun k I => B1 k (in_or_app _ _ _ (or_introl I))) Ln T Ed) as (T0 & L0 & _).
    destruct (arrive (@Some (table V)) a (0 + List.length (map (fun s => (s, test s)) d)) (s, test s) (st0, fs0)) as [[st1' fs1']|] eqn:Ea; [|discriminate].
    cbn [bind] in E1. injection E1 as <- <-.
    destruct (arrive_tidy test a (@Some (table V)) _ s st0 fs0 st1' fs1' (B1 s (in_or_app d [s] s (or_intror (or_introl eq_refl)))) L0 (fun t => or_introl eq_refl) T0 Ea)
      as (_ & _ & _ & _ & _ & S). apply (S period Ec); [|reflexivity].
    rewrite map_length. cbn [plus]. rewrite app_length in Dv. cbn [List.length] in Dv.
    replace (Z.of_nat (List.length d) + 1) with (Z.of_nat (List.length d + 1)) by lia. exact Dv. }
  (* so there is something to resume from, which covers those results *)
  assert (Cov : forall s, (s < e_n a)%nat -> nth s (st_results st1) None <> None -> exists t, source fs2 t /\ covers t s).
  { intros s Hs N. apply (S2 (list2df (st_results st1)) s); [now apply S1| |exact Hs].
    destruct (nth s (st_results st1) None) as [w|] eqn:Ew1; [|contradiction]. exists w. now apply (proj2 (list2df_spec _)). }
  assert (D2 : distinct fs2) by exact (proj1 T2).
  assert (Fin : distinct fs' /\ forall t, source fs' t <-> source fs2 t).
  { destruct K as [->|(s & st' & Is & K)].
    - split; [exact D2|]. intros t. cbn [snd]. tauto.
    - assert (Hs : (s < e_n a)%nat) by (apply Bd, in_or_app; right; apply in_or_app; auto).
      destruct T2 as (Dd & M2 & R2). unfold arrive in K. cbn [fst snd] in K. rewrite Ec in K.
      destruct (period =? 0); [discriminate|]. destruct (_ =? 0); [|injection K as _ <-; split; [exact D2|intros t; tauto]].
      rewrite Ho in K. injection K as _ <-. split; [now apply distinct_write|].
      assert (In' : forall j t, In (j, Some t) (f_ckpts (write_ckpt fs2 (st_last_ckpt st2 + 1) None)) <-> In (j, Some t) (f_ckpts fs2)).
      { intros j t. cbn [write_ckpt f_ckpts In]. rewrite filter_In. cbn [fst]. split.
        - intros [I|[I _]]; [discriminate|exact I].
        - intros I. right. split; [exact I|]. destruct (Z.eqb_spec j (st_last_ckpt st2 + 1)); [|reflexivity]. pose proof (M2 j t I). lia. }
      intros t. unfold source. split.
      + intros [(k' & Ik & Mk)|[N C]]; [left; exists k'; split; [now apply In'|intros j t' I; apply (Mk j t'); now apply In']|].
        right. split; [intros j t' I; apply (N j t'); now apply In'|exact C].
      + intros [(k' & Ik & Mk)|[N C]]; [left; exists k'; split; [now apply In'|intros j t' I; apply (Mk j t'); now apply In']|].
        right. split; [intros j t' I; apply (N j t'); now apply In'|exact C]. }
  destruct Fin as [D' S'].
  assert (Ex : exists t, source fs2 t).
  { destruct done1 as [|s0 d]; [contradiction|].
    pose proof (last_checkpoint_spec (f_ckpts fs2)) as Lc.
    assert (Src1 : source fs1 (list2df (st_results st1))) by now apply S1.
    (* the files still hold a readable checkpoint *)
    clear - Src1 S2 E T1 L1 B2.
    revert st1 fs1 Src1 S2 E T1 L1 B2. generalize (0 + List.length (map (fun s => (s, test s)) (s0 :: d)))%nat as i.
    intros i st1 fs1 Src1 _ E T1 L1 B2.
    assert (G : forall order i st fs t, source fs t -> tidy a st fs -> List.length (st_results st) = e_n a ->
      (forall s, In s order -> (s < e_n a)%nat) ->
      arrivals a i (map (fun s => (s, test s)) order) (st, fs) = Ok (st2, fs2) -> exists t, source fs2 t).
    { induction order as [|s order IH]; intros j st fs t S T Ln B Eo; cbn [map arrivals] in Eo.
      - injection Eo as _ <-. eauto.
      - destruct (arrive (@Some (table V)) a j (s, test s) (st, fs)) as [[st3 fs3]|] eqn:E3; [|discriminate]. cbn [bind] in Eo.
        destruct (arrive_tidy test a (@Some (table V)) j s st fs st3 fs3 (B s (or_introl eq_refl)) Ln (fun t => or_introl eq_refl) T E3) as (T3 & L3 & _ & _ & S3 & _).
        destruct S3 as [S3|S3]; (eapply (IH (Datatypes.S j) st3 fs3); [apply S3|exact (T3 (fun t => eq_refl))|exact L3|intros k I; apply B; right; exact I|exact Eo]); [exact S|reflexivity]. }
    eapply G; eassumption. }
  destruct Ex as [t St].
  destruct (c96_resumed V a' fs' t D' Ho' Hr' (proj2 (S' t) St)) as (st' & seeds' & L' & _ & I').
  exists st', seeds'. split; [exact L'|]. intros s Is. apply I' in Is. rewrite En in Is. destruct Is as [Hs [N|(wav & W & _)]]; [|congruence].
  split; [exact Hs|].
  (* the source is unique *)
  assert (U : forall t', source fs2 t' -> t' = t).
  { intros t' S. destruct S as [(k & Ik & Mk)|[Nk C]], St as [(k' & Ik' & Mk')|[Nk' C']].
    - assert (k = k') by (apply Z.le_antisymm; [exact (Mk' k t' Ik)|exact (Mk k' t Ik')]). subst k'.
      pose proof (ckpt_content_uniq _ k _ D2 Ik) as X. rewrite (ckpt_content_uniq _ k _ D2 Ik') in X. congruence.
    - now contradiction (Nk' k t').
    - now contradiction (Nk k' t).
    - congruence. }
  assert (Nn : nth s (st_results st1) None = None).
  { destruct (nth s (st_results st1) None) as [w|] eqn:Ew1; [|reflexivity].
    destruct (Cov s Hs) as (t' & St' & (v & Iv)); [congruence|]. apply U in St'. subst t'. now contradiction (N v). }
  split.
  - apply Ms; [exact Hs|]. destruct (nth s (st_results st) None) as [w|] eqn:Es; [|reflexivity].
    exfalso. apply (K1 s); [congruence|exact Nn].
  - intros [Id Ht]. exact (K2 s Id Ht Nn).
Qed.
Print Assumptions c96_progress.

(** *** What is saved *)

Lemma arrivals_last : forall V (test : nat -> option V) a order i st fs st' fs',
  arrivals a i (map (fun s => (s, test s)) order) (st, fs) = Ok (st', fs') ->
  f_csv fs' = f_csv fs /\
  match e_checkpoint a with
  | None => st_last_file st' = st_last_file st
  | Some c => order <> [] -> c <> 0 /\
    ((exists k, (k < List.length order)%nat /\ (c | Z.of_nat (i + k) + 1) /\ e_output a = true /\ exists j, st_last_file st' = Some (Ckpt j)) \/
     ((forall k, (k < List.length order)%nat -> ~ (c | Z.of_nat (i + k) + 1)) /\ st_last_file st' = st_last_file st))
  end.
Proof.
  intros V test a order. induction order as [|s order IH]; intros i st fs st' fs' E; cbn [map arrivals] in E.
  - injection E as <- <-. split; [reflexivity|]. destruct (e_checkpoint a); [contradiction|reflexivity].
  - destruct (arrive (@Some (table V)) a i (s, test s) (st, fs)) as [[st1 fs1]|] eqn:E1; [|discriminate]. cbn [bind] in E.
    destruct (IH (S i) st1 fs1 st' fs' E) as [C L]. unfold arrive in E1. cbn [fst snd] in E1.
    destruct (e_checkpoint a) as [c|].
    + destruct (Z.eqb_spec c 0) as [|Nc]; [discriminate|].
      assert (Sh : forall k, Z.of_nat (S i + k) + 1 = Z.of_nat (i + S k) + 1) by (intros; lia).
      destruct (Z.eqb_spec ((Z.of_nat i + 1) mod c) 0) as [Dv|Nd].
      * destruct (e_output a) eqn:Eo; [|discriminate]. injection E1 as <- <-. split; [exact C|]. intros _. split; [exact Nc|]. left.
        destruct order as [|s' order'].
        -- cbn [map arrivals] in E. injection E as <- <-. exists 0%nat. split; [cbn; lia|]. rewrite Nat.add_0_r.
           split; [apply Z.mod_divide; assumption|]. split; [reflexivity|]. cbn [st_last_file]. eauto.
        -- destruct (L ltac:(discriminate)) as [_ [(k & Hk & Dk & _ & Lk)|[_ Lk]]].
           ++ exists (S k). split; [cbn in *; lia|]. rewrite <- Sh. auto.
           ++ exists 0%nat. split; [cbn; lia|]. rewrite Nat.add_0_r. split; [apply Z.mod_divide; assumption|].
              split; [reflexivity|]. rewrite Lk. cbn [st_last_file]. eauto.
      * injection E1 as <- <-. split; [exact C|]. intros _. split; [exact Nc|].
        assert (N0 : ~ (c | Z.of_nat i + 1)) by (rewrite <- Z.mod_divide; assumption).
        destruct order as [|s' order'].
        -- cbn [map arrivals] in E. injection E as <- <-. right. split; [|reflexivity].
           intros [|k] Hk; [rewrite Nat.add_0_r; exact N0|cbn in Hk; lia].
        -- destruct (L ltac:(discriminate)) as [_ [(k & Hk & Dk & Lk)|[Lk Lf]]].
           ++ left. exists (S k). split; [cbn in *; lia|]. rewrite <- Sh. auto.
           ++ right. split; [|exact Lf]. intros [|k] Hk; [rewrite Nat.add_0_r; exact N0|]. rewrite <- Sh. apply Lk. cbn in *; lia.
    + injection E1 as <- <-. split; [exact C|]. exact L.
Qed.

(** Results are not saved if the run had resumed from the file of results, and no
    checkpoint was written since. *)
Definition lost {V} (a : eargs) (fs : files V) (order : list nat) : Prop :=
  e_resume a = true /\ (forall i t, ~ In (i, Some t) (f_ckpts fs)) /\ f_csv fs <> None /\
  forall c, e_checkpoint a = Some c -> forall i, (1 <= i <= List.length order)%nat -> ~ (c | Z.of_nat i).

(** Every other run that completes saves its table. *)
Theorem c96_saved : forall V (test : nat -> option V) a fs order df fs',
  e_output a = true -> whole_run a test order fs = Ok (df, fs') ->
  (~ lost a fs order -> f_csv fs' = Some (Some df)) /\ (lost a fs order -> f_csv fs' = f_csv fs).
Proof.
  intros V test a fs order df fs' Ho E. unfold whole_run in E.
  destruct (load_results a fs) as [[st seeds]|] eqn:L; [|discriminate]. cbn [bind fst] in E.
  match type of E with bind ?q _ = _ => destruct q as [[st1 fs1]|] eqn:Ea; [|discriminate] end. cbn [bind] in E.
  unfold save_dataframe in E. injection E as <- <-. cbn [f_csv]. unfold writes_csv. rewrite Ho. cbn [andb].
  destruct (arrivals_last V test a order 0 st fs st1 fs1 Ea) as [Cs Lf].
  assert (Ld : e_resume a = true ->
    (st_last_file st = Some Csv <-> (forall i t, ~ In (i, Some t) (f_ckpts fs)) /\ f_csv fs <> None)).
  { intros Hr. unfold load_results in L. rewrite Ho, Hr in L. cbn [andb] in L.
    pose proof (last_checkpoint_spec (f_ckpts fs)) as Lc. destruct (last_checkpoint (f_ckpts fs)) as [k|].
    - destruct Lc as [(t & I) _]. destruct (ckpt_content (f_ckpts fs) k) as [[t'|]|]; try discriminate. cbn [bind] in L.
      injection L as <- _. cbn [st_last_file]. split; [discriminate|]. intros [N _]. now contradiction (N k t).
    - destruct (f_csv fs) as [[t|]|]; try discriminate; cbn [bind] in L; injection L as <- _; cbn [st_last_file].
      + split; [intros _; split; [exact Lc|discriminate]|reflexivity].
      + split; [discriminate|]. intros [_ N]. now contradiction N. }
  assert (Key : lost a fs order <-> e_resume a = true /\ st_last_file st1 = Some Csv).
  { unfold lost. split.
    - intros (Hr & N & C & Nd). split; [exact Hr|]. assert (F : st_last_file st = Some Csv) by (apply Ld; auto).
      destruct (e_checkpoint a) as [c|]; [|congruence]. destruct order as [|s o].
      + cbn [map arrivals] in Ea. injection Ea as <- _. exact F.
      + destruct (Lf ltac:(discriminate)) as [_ [(k & Hk & Dk & _)|[_ Lk]]]; [|congruence].
        exfalso. apply (Nd c eq_refl (S k)); [cbn in *; lia|]. cbn [plus] in Dk. replace (Z.of_nat (S k)) with (Z.of_nat k + 1) by lia. exact Dk.
    - intros [Hr F]. assert (F0 : st_last_file st = Some Csv).
      { destruct (e_checkpoint a) as [c|]; [|congruence]. destruct order as [|s o].
        - cbn [map arrivals] in Ea. injection Ea as <- _. exact F.
        - destruct (Lf ltac:(discriminate)) as [_ [(k & _ & _ & _ & (j & Lk))|[_ Lk]]]; congruence. }
      destruct (proj1 (Ld Hr) F0) as [N C]. split; [exact Hr|]. split; [exact N|]. split; [exact C|].
      intros c Ec i Hi Dv. rewrite Ec in Lf. destruct order as [|s o]; [cbn in Hi; lia|].
      destruct (Lf ltac:(discriminate)) as [_ [(k & _ & _ & _ & (j & Lk))|[Nd _]]]; [congruence|].
      apply (Nd (i - 1)%nat); [lia|]. cbn [plus]. replace (Z.of_nat (i - 1) + 1) with (Z.of_nat i) by lia. exact Dv. }
  rewrite Key. clear Key Ld Lf. split.
  - intros N. destruct (e_resume a); [|now rewrite orb_true_r].
    destruct (st_last_file st1) as [[|j]|]; cbn [negb orb]; try reflexivity. now contradiction N.
  - intros [Hr F]. rewrite Hr, F. cbn [negb orb]. exact Cs.
Qed.
Print Assumptions c96_saved.

(** More test cases on top of saved results, without checkpoints: the new results are
    not saved. *)
Definition square (s : nat) : option nat := Some (s * s)%nat.
Theorem c96_lost_refuted : exists a fs order df fs',
  load_results a fs = Ok (mkState [Some 0; Some 1; None]%nat (Some Csv) (-1), order) /\
  true_files square fs /\
  whole_run a square order fs = Ok (df, fs') /\ complete_table square (e_n a) df /\
  e_output a = true /\ f_csv fs' <> Some (Some df).
Proof.
  exists (mkEArgs 3 true true None None), (mkFiles (Some (Some [(0, 0); (1, 1)]%nat)) []), [2%nat].
  do 2 eexists. split; [reflexivity|]. split.
  { split; [|intros i c []]. intros c H t s v E I. cbn [f_csv] in H. injection H as <-. injection E as <-.
    destruct I as [I|[I|[]]]; injection I as <- <-; reflexivity. }
  split; [reflexivity|]. split; [|split; [reflexivity|discriminate]].
  split.
  - cbn. repeat constructor.
  - intros s v. cbn. unfold square. split.
    + intros [H|[H|[H|[]]]]; injection H as <- <-; split; (lia || reflexivity).
    + intros [Hs H]. injection H as <-. destruct s as [|[|[|s]]]; auto. lia.
Qed.
Print Assumptions c96_lost_refuted.

(** The script is killed while the results are written: no later run can resume. *)
Theorem c96_torn_results_refuted : exists a fs',
  killed a square (mkFiles None []) fs' /\ e_resume a = true /\ e_output a = true /\
  forall a', e_output a' = true -> e_resume a' = true -> load_results a' fs' = Err ValueError.
Proof.
  exists (mkEArgs 2 true true None None), (mkFiles (Some None) []). split; [|split; [reflexivity|split; [reflexivity|]]].
  - assert (L : load_results (mkEArgs 2 true true None None) (mkFiles (V := nat) None []) = Ok (mkState [None; None] None (-1), [0; 1]%nat)) by reflexivity.
    apply (killed_csv _ square _ _ [0; 1]%nat [0; 1]%nat (mkState [Some 0; Some 1]%nat None (-1), mkFiles None []) None L (Permutation_refl _)).
    + reflexivity.
    + reflexivity.
    + left; reflexivity.
  - intros a' Ho Hr. unfold load_results. rewrite Ho, Hr. reflexivity.
Qed.
Print Assumptions c96_torn_results_refuted.

(** The script is killed while it writes a checkpoint of which the first rows can be
    read: the next run computes again what an earlier checkpoint holds. *)
Theorem c96_torn_checkpoint_refuted : exists a fs fs' t st seeds s,
  killed a square fs fs' /\ distinct fs /\ source fs t /\ In (s, (s * s)%nat) t /\ (s < e_n a)%nat /\
  e_output a = true /\ e_resume a = true /\ e_wav a = None /\
  load_results a fs' = Ok (st, seeds) /\ In s seeds.
Proof.
  set (a := mkEArgs 3 true true (Some 1) None).
  set (fs := mkFiles None [(0, Some [(0, 0); (1, 1)]%nat)]).
  exists a, fs, (mkFiles None [(1, Some [(0, 0)]%nat); (0, Some [(0, 0); (1, 1)]%nat)]), [(0, 0); (1, 1)]%nat.
  do 2 eexists. exists 1%nat. split; [|split; [|split; [|split; [|split; [|split; [|split; [|split; [|split]]]]]]]].
  - assert (L : load_results a fs = Ok (mkState [Some 0; Some 1; None]%nat (Some (Ckpt 0)) 0, [2%nat])) by reflexivity.
    apply (killed_checkpoint _ square _ _ [2%nat] [] 2%nat [] (mkState [Some 0; Some 1; None]%nat (Some (Ckpt 0)) 0, fs)
      (mkState [Some 0; Some 1; Some 4]%nat (Some (Ckpt 1)) 1, mkFiles None [(1, Some [(0, 0)]%nat); (0, Some [(0, 0); (1, 1)]%nat)])
      (fun t => Some (firstn 1 t)) L (Permutation_refl _)).
    + reflexivity.
    + intros t. right. exists 1%nat. reflexivity.
    + reflexivity.
  - repeat constructor. intros [].
  - left. exists 0. split; [left; reflexivity|]. intros i t' [I|[]]. injection I as <- _. lia.
  - right; left; reflexivity.
  - cbn; lia.
  - reflexivity.
  - reflexivity.
  - reflexivity.
  - vm_compute. reflexivity.
  - left. reflexivity.
Qed.
Print Assumptions c96_torn_checkpoint_refuted.

(** [--no-resume] does not remove old checkpoints: if such a run is killed, the next
    one resumes from results that are older than those of the killed run (here of a
    previous version of the tests). *)
Definition cube (s : nat) : option nat := Some (s * s * s)%nat.
Theorem c96_stale_refuted : exists a a' fs fs' st seeds,
  true_files square fs /\ e_resume a = false /\ killed a cube fs fs' /\
  (exists t, In (0, Some t) (f_ckpts fs') /\ In (2, 8)%nat t) /\
  e_resume a' = true /\ load_results a' fs' = Ok (st, seeds) /\ nth 2 (st_results st) None = Some 4%nat.
Proof.
  set (a := mkEArgs 3 true false (Some 1) None).
  set (fs := mkFiles None [(5, Some [(2, 4)]%nat)]).
  exists a, (mkEArgs 3 true true (Some 1) None), fs, (mkFiles None [(0, Some [(2, 8)]%nat); (5, Some [(2, 4)]%nat)]).
  do 2 eexists. split; [|split; [|split; [|split; [|split; [|split]]]]].
  - split; [discriminate|]. intros i c [I|[]] t s v E I'. injection I as _ <-. injection E as <-. destruct I' as [E|[]].
    injection E as <- <-. reflexivity.
  - reflexivity.
  - assert (L : load_results a fs = Ok (mkState [None; None; None] None (-1), [0; 1; 2]%nat)) by reflexivity.
    apply (killed_running _ cube _ _ _ [2%nat] [0; 1]%nat (mkState [None; None; Some 8]%nat (Some (Ckpt 0)) 0,
      mkFiles None [(0, Some [(2, 8)]%nat); (5, Some [(2, 4)]%nat)]) L).
    + apply NoDup_Permutation; [repeat constructor; cbn; lia|repeat constructor; cbn; lia|]. intros x. cbn. lia.
    + reflexivity.
  - eexists. split; [left; reflexivity|left; reflexivity].
  - reflexivity.
  - vm_compute. reflexivity.
  - reflexivity.
Qed.
Print Assumptions c96_stale_refuted.

(** *** Errors *)

(** Checkpoints need an output path: without, the first one raises TypeError.  A
    period of zero raises ZeroDivisionError. *)
Theorem c96_checkpoint_errors : forall V (test : nat -> option V) a fs order c,
  e_checkpoint a = Some c -> order <> [] -> (forall s, In s order -> (s < e_n a)%nat) ->
  (c = 0 -> (exists ls, load_results a fs = Ok ls) -> whole_run a test order fs = Err ZeroDivisionError) /\
  (c <> 0 -> e_output a = false -> Z.abs c <= Z.of_nat (List.length order) -> whole_run a test order fs = Err TypeError).
Proof.
  intros V test a fs order c Ec Ne B. split.
  - intros -> [[st seeds] L]. unfold whole_run. rewrite L. cbn [bind fst]. destruct order as [|s o]; [contradiction|].
    cbn [map arrivals]. unfold arrive. cbn [fst snd]. rewrite Ec. reflexivity.
  - intros Nc Ho Hc. unfold whole_run, load_results. rewrite Ho. cbn [andb bind fst].
    assert (G : forall o i (st : state V), (forall k, (k < List.length o)%nat -> ~ (c | Z.of_nat (i + k) + 1)) ->
      exists st', arrivals a i (map (fun s => (s, test s)) o) (st, fs) = Ok (st', fs)).
    { induction o as [|s o IH]; intros i st N; [eexists; reflexivity|]. cbn [map arrivals]. unfold arrive at 1. cbn [fst snd].
      rewrite Ec. destruct (Z.eqb_spec c 0) as [|_]; [contradiction|].
      destruct (Z.eqb_spec ((Z.of_nat i + 1) mod c) 0) as [Dv|_].
      - exfalso. apply (N 0%nat); [cbn; lia|]. rewrite Nat.add_0_r. now apply Z.mod_divide.
      - cbn [bind]. apply IH. intros k Hk. replace (S i + k)%nat with (i + S k)%nat by lia. apply N. cbn; lia. }
    set (n := (Z.to_nat (Z.abs c) - 1)%nat). assert (Hn : (n < List.length order)%nat) by lia.
    assert (Sp : exists o1 s o2, order = o1 ++ s :: o2 /\ List.length o1 = n).
    { exists (firstn n order), (nth n order 0%nat), (skipn (S n) order). split.
      - rewrite <- (firstn_skipn n order) at 1. f_equal. clear -Hn. clearbody n. revert n Hn.
        induction order as [|x l IH]; intros n Hn; [cbn in Hn; lia|]. destruct n as [|n]; [reflexivity|]. cbn in *. apply IH. lia.
      - apply firstn_length_le. lia. }
    destruct Sp as (o1 & s & o2 & -> & L1). rewrite map_app, arrivals_app.
    destruct (G o1 0%nat (mkState (repeat None (e_n a)) None (-1))) as [st' ->].
    { intros k Hk Dv. apply Z.divide_abs_l in Dv. apply Z.divide_pos_le in Dv; lia. }
    cbn [bind map arrivals]. unfold arrive. cbn [fst snd]. rewrite Ec. destruct (Z.eqb_spec c 0); [contradiction|].
    rewrite map_length, L1. replace (Z.of_nat (0 + n) + 1) with (Z.abs c) by lia.
    assert (M : Z.abs c mod c = 0) by (apply Z.mod_divide; [exact Nc|]; apply Z.divide_abs_r, Z.divide_refl).
    rewrite M, Ho. reflexivity.
Qed.
Print Assumptions c96_checkpoint_errors.

(** Five test cases, one of which fails; a checkpoint after every second one; the
    script is killed after three arrivals, and resumed. *)
Definition ex_test (s : nat) : option nat := if Nat.eqb s 3 then None else Some (s * s)%nat.
Definition ex_args : eargs := mkEArgs 5 true true (Some 2) None.
Example c96_example :
  load_results ex_args (mkFiles (V := nat) None []) = Ok (mkState (repeat None 5) None (-1), [0; 1; 2; 3; 4]%nat) /\
  (let fs := mkFiles None [(0, Some [(1, 1); (4, 16)]%nat)] in
   (exists st, arrivals ex_args 0 (map (fun s => (s, ex_test s)) [4; 1; 0]%nat) (mkState (repeat None 5) None (-1), mkFiles None []) = Ok (st, fs)) /\
   load_results ex_args fs = Ok (mkState [None; Some 1; None; None; Some 16]%nat (Some (Ckpt 0)) 0, [0; 2; 3]%nat) /\
   whole_run ex_args ex_test [3; 0; 2]%nat fs =
     Ok ([(0, 0); (1, 1); (2, 4); (4, 16)]%nat, mkFiles (Some (Some [(0, 0); (1, 1); (2, 4); (4, 16)]%nat)) []) /\
   history ex_test fs /\ distinct fs /\ ~ lost ex_args fs [3; 0; 2]%nat).
Proof.
  assert (L : load_results ex_args (mkFiles (V := nat) None []) = Ok (mkState (repeat None 5) None (-1), [0; 1; 2; 3; 4]%nat)) by reflexivity.
  split; [exact L|]. set (fs := mkFiles None [(0, Some [(1, 1); (4, 16)]%nat)]). cbv zeta.
  split; [eexists; reflexivity|]. split; [reflexivity|]. split; [reflexivity|]. split; [|split].
  - eapply history_killed; [apply history_start|].
    apply (killed_running ex_args ex_test _ _ _ [4; 1; 0]%nat [2; 3]%nat (mkState [Some 0; Some 1; None; None; Some 16]%nat (Some (Ckpt 0)) 0, fs) L); [|reflexivity].
    apply NoDup_Permutation; [repeat constructor; cbn; lia|repeat constructor; cbn; lia|]. intros x. cbn. lia.
  - repeat constructor. intros [].
  - intros (_ & N & _). apply (N 0 [(1, 1); (4, 16)]%nat). left; reflexivity.
Qed.
