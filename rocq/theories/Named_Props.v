(** C121: what naming an object does. *)
From Coq Require Import String Bool List.
Import ListNotations.
From Verif Require Import Base Py Named_Model.
Local Open Scope string_scope.

(** [NamedObject(... NamedObject(obj, n1) ..., nk)]. *)
Definition wraps {A B} (o : n_obj A B) (ns : list (option string)) : n_obj A B := fold_left (fun o n => n_make NObject o n) ns o.
Lemma make_callable : forall A B (o : n_obj A B) n, n_callable (n_make NObject o n) = n_callable o.
Proof. intros A B o n. unfold n_make. cbn. rewrite andb_true_r. destruct (n_callable o) eqn:E; reflexivity. Qed.
Lemma make_call : forall A B (o : n_obj A B) n a, n_call (n_make NObject o n) a = if n_callable o then n_call o a else Err TypeError.
Proof. intros A B o n a. unfold n_make. cbn. rewrite andb_true_r. destruct (n_callable o) eqn:E; reflexivity. Qed.
Lemma not_callable : forall A B (o : n_obj A B) a, n_callable o = false -> n_call o a = Err TypeError.
Proof. intros A B [n|n f|c o n] a E; cbn in *; [reflexivity|discriminate E|rewrite E; reflexivity]. Qed.

(** Naming an object, any number of times, does not change whether it is callable, nor what calling it does. *)
Theorem c121_call : forall A B (o : n_obj A B) ns, n_callable (wraps o ns) = n_callable o /\ forall a, n_call (wraps o ns) a = n_call o a.
Proof.
  intros A B o ns. revert o. induction ns as [|n ns IH]; intros o; [split; reflexivity|]. cbn [wraps fold_left]. fold (wraps (n_make NObject o n) ns).
  destruct (IH (n_make NObject o n)) as [C K]. split; [rewrite C; apply make_callable|]. intros a. rewrite K, make_call.
  destruct (n_callable o) eqn:E; [reflexivity|]. symmetry. apply not_callable, E.
Qed.
(** Objects that are no functions are not callable, however often they are named. *)
Theorem c121_plain : forall A B n ns (a : A), n_callable (wraps (A:=A) (B:=B) (NPlain n) ns) = false /\ n_call (wraps (A:=A) (B:=B) (NPlain n) ns) a = Err TypeError.
Proof. intros A B n ns a. destruct (c121_call A B (NPlain n) ns) as [C K]. split; [exact C|apply K]. Qed.
(** The name is the last one given; without one there is none, even if the object has one. *)
Theorem c121_names : forall A B (o : n_obj A B) ns n, n_name (wraps o (ns ++ [n])) = match n with Some s => Ok s | None => Err AttributeError end.
Proof. intros A B o ns n. unfold wraps. rewrite fold_left_app. cbn [fold_left]. destruct n; reflexivity. Qed.
(** Only [NamedObject] itself chooses the class: objects of classes derived from it are never callable, those of [NamedCallable] always, also if calling
    them fails. *)
Theorem c121_derived : forall A B (o : n_obj A B) n a, n_callable (n_make NDerived o n) = false /\ n_call (n_make NDerived o n) a = Err TypeError /\
  n_callable (n_make NCallable o n) = true /\ n_call (n_make NCallable o n) a = n_call o a /\ (n_callable o = false -> n_call (n_make NCallable o n) a = Err TypeError).
Proof.
  intros A B o n a. unfold n_make. cbn [n_is_object]. rewrite !andb_false_r. do 4 (split; [reflexivity|]). intros E. cbn. apply not_callable, E.
Qed.
(** Hence naming with a derived class can lose that a function can be called. *)
Theorem c121_call_refuted : exists (o : n_obj nat nat) a, n_call o a = Ok 8 /\ n_call (n_make NDerived o (Some "f")) a = Err TypeError.
Proof. exists (NFun None (fun n => Ok (n + 1))), 7. split; reflexivity. Qed.

(** A function without a name (as [functools.partial], beatsdrop/__init__.py lines 89-92) that gets two, and an object that is not a function. *)
Example ex_named : let f := wraps (NFun None (fun n => Ok (2 * n))) [Some "a0"; Some "b"] in
  n_callable f = true /\ n_call f 21 = Ok 42 /\ n_name f = Ok "b" /\ n_name (wraps f [None]) = Err AttributeError /\
  n_call (wraps (NPlain (A:=nat) (B:=nat) (Some "x")) [Some "y"]) 1 = Err TypeError /\
  n_callable (wraps (NPlain (A:=nat) (B:=nat) (Some "x")) [Some "y"]) = false.
Proof. repeat split. Qed.
Print Assumptions c121_call. Print Assumptions c121_plain. Print Assumptions c121_names. Print Assumptions c121_derived. Print Assumptions c121_call_refuted.
