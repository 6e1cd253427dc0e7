(** Symbolic execution of array programs. *)
From Coq Require Import List Bool ZArith Reals Lra Lia.
Import ListNotations.
From Verif Require Import Base Np_Model.
Local Open Scope R_scope.

Lemma map2_length : forall op a b,
  List.length (map2 op a b) = Nat.min (List.length a) (List.length b).
Proof. intros. unfold map2. now rewrite map_length, combine_length. Qed.

Lemma map2_map_l : forall op f a b, map2 op (map f a) b = map2 (fun x y => op (f x) y) a b.
Proof. unfold map2. induction a; intros [|y b]; simpl; auto. f_equal. apply IHa. Qed.
Lemma map2_map_r : forall op f a b, map2 op a (map f b) = map2 (fun x y => op x (f y)) a b.
Proof. unfold map2. induction a; intros [|y b]; simpl; auto. f_equal. apply IHa. Qed.
Lemma map_map2 : forall f op a b, map f (map2 op a b) = map2 (fun x y => f (op x y)) a b.
Proof. intros. unfold map2. now rewrite map_map. Qed.
Lemma map2_diag : forall op a, map2 op a a = map (fun x => op x x) a.
Proof. unfold map2. induction a; simpl; auto. f_equal. apply IHa. Qed.
Lemma map2_ext : forall op op' a b, (forall x y, op x y = op' x y) ->
  map2 op a b = map2 op' a b.
Proof. intros. unfold map2. apply map_ext. auto. Qed.
Lemma map2_nest_l : forall op op' a b, List.length a = List.length b ->
  map2 op (map2 op' a b) b = map2 (fun x y => op (op' x y) y) a b.
Proof.
  unfold map2. induction a; intros [|y b] H; simpl in *; try discriminate; auto.
  f_equal. apply IHa. lia.
Qed.

Lemma store_same : forall m l v, cells (store m l v) l = v.
Proof. intros. simpl. now rewrite Nat.eqb_refl. Qed.
Lemma store_other : forall m l l' v, l' <> l -> cells (store m l v) l' = cells m l'.
Proof. intros. simpl. apply Nat.eqb_neq in H. now rewrite H. Qed.
Lemma store_next : forall m l v, next (store m l v) = next m.
Proof. reflexivity. Qed.

Lemma un_run : forall op src dst m,
  List.length (cells m src) = List.length (cells m dst) ->
  un op src dst m = Ok (dst, store m dst (map op (cells m src))).
Proof. intros. unfold un. now rewrite H, Nat.eqb_refl. Qed.

Lemma bin_run : forall op a b dst m,
  List.length (cells m a) = List.length (cells m b) ->
  List.length (cells m a) = List.length (cells m dst) ->
  bin op a b dst m = Ok (dst, store m dst (map2 op (cells m a) (cells m b))).
Proof. intros. unfold bin. now rewrite <- H, <- H0, Nat.eqb_refl. Qed.

Definition alloc_mem (junk : nat -> nat -> R) (n : nat) (m : mem) : mem :=
  mkMem (fun l => if Nat.eqb l (next m) then map (junk l) (seq 0 n) else cells m l)
        (S (next m)).
Lemma empty_like_run : forall junk a m,
  empty_like junk a m = Ok (next m, alloc_mem junk (List.length (cells m a)) m).
Proof. reflexivity. Qed.
Lemma alloc_same : forall junk n m,
  cells (alloc_mem junk n m) (next m) = map (junk (next m)) (seq 0 n).
Proof. intros. simpl. now rewrite Nat.eqb_refl. Qed.
Lemma alloc_other : forall junk n m l, l <> next m -> cells (alloc_mem junk n m) l = cells m l.
Proof. intros. simpl. apply Nat.eqb_neq in H. now rewrite H. Qed.
Lemma alloc_next : forall junk n m, next (alloc_mem junk n m) = S (next m).
Proof. reflexivity. Qed.

Ltac addr :=
  repeat (first
    [ rewrite store_next | rewrite alloc_next
    | rewrite store_same | rewrite alloc_same
    | rewrite store_other by (simpl; lia) | rewrite alloc_other by (simpl; lia) ]).

(** Run one instruction after the other. *)
Ltac np_len :=
  repeat (progress (addr; rewrite ?map_length, ?map2_length, ?seq_length, ?Nat.min_id));
  try lia; auto.
Ltac np_step :=
  match goal with
  | |- context [un ?op ?s ?d ?m] => rewrite (un_run op s d m) by np_len
  | |- context [bin ?op ?a ?b ?d ?m] => rewrite (bin_run op a b d m) by np_len
  | |- context [empty_like ?j ?a ?m] => rewrite (empty_like_run j a m)
  end; cbv beta iota; cbn [next cells]; addr.
Ltac np_norm :=
  repeat (first [ rewrite map_map | rewrite map2_map_l | rewrite map2_map_r
                | rewrite map_map2 | rewrite map2_diag ]).

Lemma numpy_out_elementwise : forall junk g func, elementwise g func ->
  forall m f out, (f < next m)%nat ->
    (forall o, out = Some o -> (o < next m)%nat /\
       List.length (cells m f) = List.length (cells m o)) ->
    exists r m', numpy_out junk func f out m = Ok (r, m') /\
      match out with Some o => r = o | None => r = next m end /\
      cells m' r = map g (cells m f) /\
      (next m <= next m')%nat /\
      (r < next m')%nat /\
      forall l, (l < next m)%nat -> Some l <> out -> cells m' l = cells m l.
Proof.
  intros junk g func E m f out Hf Ho. destruct out as [o|]; simpl.
  - destruct (Ho o eq_refl) as [Ho1 Ho2].
    destruct (E m f o Hf Ho1 Ho2) as (m' & R & C & N & F).
    exists o, m'. split; [exact R|]. split; [reflexivity|]. split; [exact C|].
    split; [exact N|]. split; [lia|]. intros l Hl Hn. apply F; [auto|congruence].
  - unfold bindM. rewrite empty_like_run.
    set (m1 := alloc_mem junk (List.length (cells m f)) m).
    destruct (E m1 f (next m)) as (m' & R & C & N & F).
    + simpl. lia.
    + simpl. lia.
    + unfold m1. rewrite alloc_same, alloc_other by lia. now rewrite map_length, seq_length.
    + exists (next m), m'. simpl in N. split; [exact R|]. split; [reflexivity|].
      split. { rewrite C. unfold m1. now rewrite alloc_other by lia. }
      split; [lia|]. split; [lia|].
      intros l Hl _. rewrite F by (simpl; lia). unfold m1. now rewrite alloc_other by lia.
Qed.

Lemma call_elementwise : forall junk g func x, elementwise g func ->
  call junk func x = Ok (map g x).
Proof.
  intros junk g func x E. unfold call.
  destruct (numpy_out_elementwise junk g func E (mkMem (fun _ => x) 1) 0 None)
    as (r & m' & R & _ & C & _).
  - simpl. lia.
  - intros o H. discriminate.
  - rewrite R. simpl in C. now rewrite C.
Qed.
