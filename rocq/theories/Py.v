(** Python and numpy indexing and slicing on lists. *)
From Coq Require Import List ZArith QArith Bool.
Import ListNotations.
From Verif Require Import Base.
Local Open Scope Z_scope.

(** Number of elements as a python integer. *)
Definition zlen {A} (l : list A) : Z := Z.of_nat (List.length l).

(** Clamping of a slice bound [i] for a sequence of [n] elements: negative
    bounds count from the end, bounds outside are moved to the nearest end
    (python language reference, "Slicings"). *)
Definition slice_bound (n i : Z) : Z :=
  if i <? 0 then Z.max 0 (i + n) else Z.min i n.
Definition lo_bound (n : Z) (i : option Z) : nat :=
  match i with None => 0%nat | Some i => Z.to_nat (slice_bound n i) end.
Definition hi_bound (n : Z) (i : option Z) : nat :=
  match i with None => Z.to_nat n | Some i => Z.to_nat (slice_bound n i) end.

(** [l[lo:hi]]; [None] is an omitted bound. *)
Definition slice {A} (lo hi : option Z) (l : list A) : list A :=
  let a := lo_bound (zlen l) lo in
  let b := hi_bound (zlen l) hi in
  firstn (b - a) (skipn a l).

(** [l[lo:hi] = src] for numpy arrays: the sizes must agree, or [src] has one
    element, which is repeated; ValueError otherwise. *)
Definition set_slice {A} (lo hi : option Z) (src l : list A) : res (list A) :=
  let a := lo_bound (zlen l) lo in
  let b := hi_bound (zlen l) hi in
  let put s := Ok (firstn a l ++ s ++ skipn (Nat.max a b) l) in
  if Nat.eqb (List.length src) (b - a) then put src
  else match src with
       | [v] => put (repeat v (b - a))
       | _ => Err ValueError
       end.

(** [l[i]]: negative indices count from the end, IndexError outside. *)
Definition getitem {A} (l : list A) (i : Z) : res A :=
  let j := if i <? 0 then i + zlen l else i in
  if (0 <=? j) && (j <? zlen l) then
    match nth_error l (Z.to_nat j) with
    | Some v => Ok v
    | None => Err IndexError
    end
  else Err IndexError.

(** List comprehension with a function that may raise. *)
Fixpoint mapM {A B} (f : A -> res B) (l : list A) : res (list B) :=
  match l with
  | [] => Ok []
  | x :: l' => do y <- f x; do ys <- mapM f l'; Ok (y :: ys)
  end.

(** Element [i] of an array of rationals, for [0 <= i < size]. *)
Definition at_ (x : list Q) (i : Z) : Q := nth (Z.to_nat i) x 0%Q.
