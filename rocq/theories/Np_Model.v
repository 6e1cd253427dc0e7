(** Arrays in memory: numpy ufuncs with an [out] argument, [np.empty_like] and
    the [numpy_out] decorator.  Arrays are flat lists of real numbers (shapes
    and dtypes are not modelled; two array variables are either the same array
    or do not overlap). *)
From Coq Require Import List Bool ZArith Reals.
Import ListNotations.
From Verif Require Import Base.
Local Open Scope R_scope.

(** Memory: contents of the arrays and the next free address. *)
Record mem : Type := mkMem { cells : nat -> list R; next : nat }.

Definition store (m : mem) (l : nat) (v : list R) : mem :=
  mkMem (fun l' => if Nat.eqb l' l then v else cells m l') (next m).

(** Computations on the memory. *)
Definition M (A : Type) : Type := mem -> res (A * mem).
Definition ret {A} (a : A) : M A := fun m => Ok (a, m).
Definition bindM {A B} (c : M A) (k : A -> M B) : M B :=
  fun m => match c m with Ok (a, m') => k a m' | Err e => Err e end.
Notation "x <-- c ;; k" := (bindM c (fun x => k))
  (at level 100, c at next level, right associativity).
Notation "c ;;; k" := (bindM c (fun _ => k)) (at level 100, right associativity).

(** [np.empty(n)]: a new array whose contents are whatever was in memory; the
    argument [junk] of a model function stands for these contents. *)
Definition empty (junk : nat -> nat -> R) (n : nat) : M nat :=
  fun m => Ok (next m,
               mkMem (fun l => if Nat.eqb l (next m) then map (junk l) (seq 0 n)
                               else cells m l) (S (next m))).
Definition empty_like (junk : nat -> nat -> R) (a : nat) : M nat :=
  fun m => empty junk (List.length (cells m a)) m.

(** Elementwise operation on two lists. *)
Definition map2 (op : R -> R -> R) (a b : list R) : list R :=
  map (fun p => op (fst p) (snd p)) (combine a b).

(** A ufunc of one array (and constants) with [out=dst]: ValueError when the
    size of [dst] is another one (broadcasting is not modelled). *)
Definition un (op : R -> R) (src dst : nat) : M nat :=
  fun m =>
    if Nat.eqb (List.length (cells m src)) (List.length (cells m dst))
    then Ok (dst, store m dst (map op (cells m src)))
    else Err ValueError.

(** A ufunc of two arrays with [out=dst]. *)
Definition bin (op : R -> R -> R) (a b dst : nat) : M nat :=
  fun m =>
    if Nat.eqb (List.length (cells m a)) (List.length (cells m b)) &&
       Nat.eqb (List.length (cells m a)) (List.length (cells m dst))
    then Ok (dst, store m dst (map2 op (cells m a) (cells m b)))
    else Err ValueError.

(** [numpy_out], sample/utils/__init__.py lines 147-212, for a function of the
    array [a]: allocate [out] when it is not given.  (Unpacking of
    zero-dimensional results is not modelled, a number is an array of one
    element.) *)
Definition numpy_out (junk : nat -> nat -> R) (func : nat -> nat -> M nat)
    (a : nat) (out : option nat) : M nat :=
  match out with
  | Some o => func a o
  | None => o <-- empty_like junk a ;; func a o
  end.

(** A call [func(x)] without [out] on an array with the contents [x]. *)
Definition call (junk : nat -> nat -> R) (func : nat -> nat -> M nat) (x : list R)
  : res (list R) :=
  match numpy_out junk func 0 None (mkMem (fun _ => x) 1) with
  | Ok (r, m) => Ok (cells m r)
  | Err e => Err e
  end.

(** What it means that [func] is the elementwise function [g], whatever [out]
    is: the result is in [out], and no other array is changed. *)
Definition elementwise (g : R -> R) (func : nat -> nat -> M nat) : Prop :=
  forall m f out, (f < next m)%nat -> (out < next m)%nat ->
    List.length (cells m f) = List.length (cells m out) ->
    exists m', func f out m = Ok (out, m') /\
      cells m' out = map g (cells m f) /\
      (next m <= next m')%nat /\
      forall l, (l < next m)%nat -> l <> out -> cells m' l = cells m l.

(** The same for a function of two arrays [x] and [y]. *)
Definition elementwise2 (g : R -> R -> R) (func : nat -> nat -> nat -> M nat)
    (ok : nat -> nat -> nat -> Prop) : Prop :=
  forall m x y out, (x < next m)%nat -> (y < next m)%nat -> (out < next m)%nat ->
    List.length (cells m x) = List.length (cells m out) ->
    List.length (cells m y) = List.length (cells m out) ->
    ok x y out ->
    exists m', func x y out m = Ok (out, m') /\
      cells m' out = map2 g (cells m x) (cells m y) /\
      (next m <= next m')%nat /\
      forall l, (l < next m)%nat -> l <> out -> cells m' l = cells m l.
