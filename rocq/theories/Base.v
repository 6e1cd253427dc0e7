(** Vocabulary shared by all models: python exceptions as values, list
    indexing helpers and boolean comparisons of rationals. *)
From Coq Require Import List ZArith QArith Lia Bool String.
Import ListNotations.

(** Python exceptions that the modelled functions raise. *)
Inductive exn : Type :=
| ValueError
| KeyError
| TypeError
| IndexError
| ZeroDivisionError
| AttributeError
| OverflowError
| CastingError     (* numpy.core._exceptions.UFuncTypeError *)
| OtherError (n : nat).

(** Result of a python call: a value or a raised exception. *)
Inductive res (A : Type) : Type :=
| Ok (a : A)
| Err (e : exn).
Arguments Ok {A} a.
Arguments Err {A} e.

Definition bind {A B} (r : res A) (f : A -> res B) : res B :=
  match r with Ok a => f a | Err e => Err e end.
Notation "'do' x <- r ; k" := (bind r (fun x => k))
  (at level 200, x pattern, r at level 100, k at level 200, right associativity).

(** Left fold that stops at the first exception (a python [for] loop whose
    body may raise). *)
Fixpoint foldM {A B} (f : B -> A -> res B) (b : B) (l : list A) : res B :=
  match l with
  | [] => Ok b
  | a :: l' => match f b a with Ok b' => foldM f b' l' | Err e => Err e end
  end.

(** [l[i] = a] (no effect out of range). *)
Fixpoint upd {A} (i : nat) (a : A) (l : list A) : list A :=
  match l, i with
  | [], _ => []
  | _ :: l', O => a :: l'
  | x :: l', S i' => x :: upd i' a l'
  end.

(** [l.pop(i)]: the list without its [i]-th element. *)
Fixpoint remove_nth {A} (i : nat) (l : list A) : list A :=
  match l, i with
  | [], _ => []
  | _ :: l', O => l'
  | x :: l', S i' => x :: remove_nth i' l'
  end.

(** Strict comparison of rationals as a boolean. *)
Definition Qltb (x y : Q) : bool := negb (Qle_bool y x).
