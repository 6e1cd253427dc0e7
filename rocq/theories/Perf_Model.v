(** Model of scripts/cim22/performance.py: grids of cases, benchmarks that can be
    interrupted and resumed, matrices of times, speed-ups and their colours.
    Rounding is left out; NaN is [None]. *)
From Coq Require Import String List Bool ZArith Reals Lia.
Import ListNotations.
From Verif Require Import Base Py RLists.
Local Open Scope R_scope.

(** [logspace_p], lines 131-150. *)
Definition logspace_p (p : list R) (start stop offset : R) : list R :=
  let lstart := ln (start + offset) in
  let lstop := ln (stop + offset) in
  map (fun v => exp (lstart + (lstop - lstart) * v) - offset) p.
(** [np.linspace(0, 1, n)] for [n] values. *)
Definition unit_space (n : nat) : list R := map (fun i => if Nat.eqb n 1 then 0 else INR i / INR (n - 1)) (seq 0 n).
(** [logspace], lines 153-169, with the arguments of lines 222-231. *)
Definition logspace (start stop : R) (n : nat) (offset : R) : list R := logspace_p (unit_space n) start stop offset.

(** The names of [convolutions], lines 173-177. *)
Definition methods : list string := ["auto"; "overlap-add"; "direct"; "fft"; "strided"]%string.

(** The columns of the data, lines 203-207. *)
Record bench : Type := mkBench
  { b_method : list string; b_stride : list R; b_duration : list R;
    b_method_i : list nat; b_stride_i : list nat; b_duration_i : list nat; b_timeit : list R }.
Definition no_data : bench := mkBench [] [] [] [] [] [] [].

(** [clean_data], lines 180-191, for [n] samples per case. *)
Definition clean_data (n : nat) (d : bench) : res bench :=
  if Nat.eqb n 0 then Err ZeroDivisionError
  else
    let m := fold_left Nat.min [List.length (b_stride d); List.length (b_duration d); List.length (b_method_i d);
      List.length (b_stride_i d); List.length (b_duration_i d); List.length (b_timeit d)] (List.length (b_method d)) in
    let k := (m / n * n)%nat in
    Ok (mkBench (firstn k (b_method d)) (firstn k (b_stride d)) (firstn k (b_duration d))
          (firstn k (b_method_i d)) (firstn k (b_stride_i d)) (firstn k (b_duration_i d)) (firstn k (b_timeit d))).

(** The cases, lines 222-233: durations, strides and methods with their indices. *)
Definition case : Type := (nat * R) * (nat * R) * (nat * string).
Definition enum {A} (l : list A) : list (nat * A) := combine (seq 0 (List.length l)) l.
Definition cases (durations strides : list R) (ms : list string) : list case :=
  list_prod (list_prod (enum durations) (enum strides)) (enum ms).

(** One iteration of the loop of [run_benchmarks], lines 239-251, of which the first
    [j] columns are extended (all seven, unless interrupted; extending one column is
    not interrupted).  [ts]: the times of the samples. *)
Definition measure (j n : nat) (c : case) (ts : list R) (d : bench) : bench :=
  let '((d_i, dv), (s_i, sv), (k_i, k)) := c in
  let ext {A} (i : nat) (l : list A) (v : A) := if (i <? j)%nat then l ++ repeat v n else l in
  mkBench (ext 0%nat (b_method d) k) (ext 2%nat (b_stride d) sv) (ext 1%nat (b_duration d) dv)
    (ext 3%nat (b_method_i d) k_i) (ext 5%nat (b_stride_i d) s_i) (ext 4%nat (b_duration_i d) d_i)
    (if (6 <? j)%nat then b_timeit d ++ ts else b_timeit d).

(** [run_benchmarks], lines 212-252, from the first case that is not in the data on.
    [ts i]: the times of case number [i].  Interrupted after [k] cases and [j]
    columns of the next one. *)
Fixpoint measure_all (n i : nat) (cs : list case) (ts : nat -> list R) (d : bench) : bench :=
  match cs with [] => d | c :: cs' => measure_all n (S i) cs' ts (measure 7 n c (ts i) d) end.
Definition start_case (n : nat) (d : bench) : nat := (List.length (b_method d) / n)%nat.
Definition run_until (n : nat) (cs : list case) (ts : nat -> list R) (stop : option (nat * nat)) (d : bench) : bench :=
  let i := start_case n d in
  let cs := skipn i cs in
  match stop with
  | None => measure_all n i cs ts d
  | Some (k, j) =>
    let d := measure_all n i (firstn k cs) ts d in
    match nth_error cs k with Some c => measure j n c (ts (i + k)%nat) d | None => d end
  end.

(** [load_data], lines 194-209, the benchmarks and lines 354-364 of [main], with an
    output file that is [None] if it does not exist yet. *)
Definition bench_run (n : nat) (cs : list case) (ts : nat -> list R) (stop : option (nat * nat)) (file : option bench)
  : res bench :=
  do d <- match file with None => Ok no_data | Some d => clean_data n d end;
  if Nat.eqb n 0 then Err ZeroDivisionError else clean_data n (run_until n cs ts stop d).

(** ** Speed-up *)

(** Rows of the data frame, as far as they are used. *)
Record row : Type := mkRow { w_method : string; w_stride_i : nat; w_duration_i : nat; w_duration : R; w_time : R }.
Definition to_rows (d : bench) : list row :=
  map (fun i => mkRow (nth i (b_method d) ""%string) (nth i (b_stride_i d) 0%nat) (nth i (b_duration_i d) 0%nat)
    (nth i (b_duration d) 0) (nth i (b_timeit d) 0)) (seq 0 (List.length (b_method d))).
(** [.mean()]: NaN for no values. *)
Definition mean (l : list R) : option R :=
  match l with [] => None | _ => Some (rsum l / INR (List.length l)) end.
Definition omap2 (f : R -> R -> R) (x y : option R) : option R :=
  match x, y with Some a, Some b => Some (f a b) | _, _ => None end.

(** [times_matrix], lines 255-276: rows are durations, columns are strides.  Indices
    outside of the matrix raise IndexError. *)
Definition times_matrix (l : list row) (method : string) (n : nat) (normalize : bool) : res (list (list (option R))) :=
  let l := filter (fun w => String.eqb (w_method w) method) l in
  if forallb (fun w => (w_stride_i w <? n)%nat && (w_duration_i w <? n)%nat)%bool l then
    Ok (map (fun d_i => map (fun s_i =>
      let t := mean (map w_time (filter (fun w => Nat.eqb (w_stride_i w) s_i && Nat.eqb (w_duration_i w) d_i)%bool l)) in
      if normalize then omap2 Rdiv t (mean (map w_duration (filter (fun w => Nat.eqb (w_duration_i w) d_i) l))) else t)
      (seq 0 n)) (seq 0 n))
  else Err IndexError.

Definition mat2 (f : option R -> option R -> option R) (x y : list (list (option R))) : list (list (option R)) :=
  map (fun p => map (fun q => f (fst q) (snd q)) (combine (fst p) (snd p))) (combine x y).
(** [compute_speedup], lines 279-294.  [np.minimum] of NaN is NaN. *)
Definition compute_speedup (l : list row) (n : nat) (target : string) : res (list (list (option R))) :=
  do ms <- mapM (fun k => times_matrix l k n true) (filter (fun k => negb (String.eqb k target)) methods);
  match ms with
  | [] => Err TypeError
  | m :: ms => do t <- times_matrix l target n true; Ok (mat2 (omap2 Rdiv) (fold_left (mat2 (omap2 Rmin)) ms m) t)
  end.

(** ** Colours *)

(** [np.round(x).astype(int)]: to the nearest integer, halves to even. *)
Definition Rhalf_even (x : R) : Z :=
  let f := (up x - 1)%Z in
  let r := x - IZR f in
  if Rlt_dec r (/ 2) then f else if Rlt_dec (/ 2) r then (f + 1)%Z else if Z.even f then f else (f + 1)%Z.

(** [preprocess_side], lines 314-333: the values of that side divided by the extreme
    one, ticks and the powers of two of their labels (in the order of the ticks; the
    labels of the negative side are inverses). *)
Definition on_side (positive : bool) (v : R) : bool :=
  if positive then if Rlt_dec 0 v then true else false else if Rlt_dec v 0 then true else false.
Definition side_max (positive : bool) (l : list R) : option R :=
  match filter (on_side positive) l with
  | [] => None
  | v :: l => Some (if positive then fold_left Rmax l v else - fold_left Rmin l v)
  end.
Definition side_ticks (positive : bool) (nticks : nat) (m : R) : list R * list Z :=
  let step := Z.max 1 (Rhalf_even (m / INR nticks)) in
  let ticks := filter (fun t => if Rle_dec (IZR t) m then true else false)
                 (map (fun i => (Z.of_nat i * step)%Z) (seq 1 nticks)) in
  let labels := map (fun t => (2 ^ t)%Z) ticks in
  let ticks := map (fun t => IZR t / m) ticks in
  if positive then (ticks, labels) else (rev (map Ropp ticks), rev labels).
Definition preprocess_side (positive : bool) (nticks : nat) (l : list (option R)) : list (option R) * (list R * list Z) :=
  match side_max positive (flat_map (fun o => match o with Some v => [v] | None => [] end) l) with
  | None => (l, ([], []))
  | Some m => (map (option_map (fun v => if on_side positive v then v / m else v)) l, side_ticks positive nticks m)
  end.
(** [log_speedup_imshow], lines 297-339, for the values of the matrix in a row: the
    colours (between -1 and 1), the ticks and the labels of both sides. *)
Definition log_speedup (l : list (option R)) (nticks : nat) : list (option R) * list R * (list Z * list Z) :=
  let l := map (option_map (fun v => ln v / ln 2)) l in
  let '(l, (nt, nl)) := preprocess_side false nticks l in
  let '(l, (pt, pl)) := preprocess_side true nticks l in
  (l, nt ++ [0] ++ pt, (nl, pl)).

(** Lines 368-376 of [main]: where the ticks of the strides are, for [k] of them, and
    the value shown at each. *)
Definition stride_ticks (k n : nat) (lo hi : R) : list (Z * R) :=
  let ticks := map (fun p => Rhalf_even (p * INR (n - 1))) (unit_space k) in
  combine ticks (logspace_p (map (fun t => IZR t / INR (n - 1)) ticks) lo hi 1).
