(** Model of the evaluation runs of scripts/beatsdrop/evaluation.py: results,
    checkpoints, resuming and saving.  The results of test cases are of any type [V];
    a result stored at some index has that index as its seed.  Values survive the
    trip through a CSV file. *)
From Coq Require Import List Bool ZArith Lia.
Import ListNotations.
From Verif Require Import Base Py.
Local Open Scope Z_scope.

Section Study.
Context {V : Type}.

(** Rows of a CSV file: seed and values.  Content of a file: [None] if [pd.read_csv]
    raises an exception. *)
Definition table : Type := list (nat * V).
Definition content : Type := option table.

(** The files at the output path: results, and checkpoints with their numbers.  Other
    names that match the pattern of checkpoints are left out. *)
Record files : Type := mkFiles { f_csv : option content; f_ckpts : list (Z * content) }.

(** Arguments of the script, lines 48-125: [e_output] tells whether there is an
    output path; [e_wav], if there is a folder of WAV files, the seeds that have one
    (line 475). *)
Record eargs : Type := mkEArgs
  { e_n : nat; e_output : bool; e_resume : bool; e_checkpoint : option Z; e_wav : option (nat -> bool) }.

(** What the steps of the script store in the arguments. *)
Inductive fileref : Type := Csv | Ckpt (i : Z).
Record state : Type := mkState
  { st_results : list (option V); st_last_file : option fileref; st_last_ckpt : Z }.

(** [list2df], lines 387-399: rows in the order of results, those without a seed are
    skipped. *)
Fixpoint rows_from (i : nat) (l : list (option V)) : table :=
  match l with
  | [] => []
  | Some v :: l' => (i, v) :: rows_from (S i) l'
  | None :: l' => rows_from (S i) l'
  end.
Definition list2df (results : list (option V)) : table := rows_from 0 results.

(** The checkpoints that can be read, lines 453-459, and the greatest number among
    them, lines 461-462. *)
Definition readable (ck : list (Z * content)) : list (Z * table) :=
  flat_map (fun p => match snd p with Some t => [(fst p, t)] | None => [] end) ck.
Definition last_checkpoint (ck : list (Z * content)) : option Z :=
  match map fst (readable ck) with [] => None | i :: l => Some (fold_left Z.max l i) end.
(** [pd.read_csv(args.ckpt_path(i))]. *)
Definition ckpt_content (ck : list (Z * content)) (i : Z) : option content :=
  option_map snd (find (fun p => Z.eqb (fst p) i) ck).

(** Line 468-472: rows of seeds outside of the range are skipped. *)
Definition load_table (results : list (option V)) (t : table) : list (option V) :=
  fold_left (fun r p => if (fst p <? length r)%nat then upd (fst p) (Some (snd p)) r else r) t results.

(** [load_results], lines 427-483: state and seeds to be computed. *)
Definition load_results (a : eargs) (fs : files) : res (state * list nat) :=
  let results := repeat None (e_n a) in
  let seeds := seq 0 (e_n a) in
  if (e_output a && e_resume a)%bool then
    match last_checkpoint (f_ckpts fs), f_csv fs with
    | None, None => Ok (mkState results None (-1), seeds)
    | last, csv =>
      do r <- match last with
              | Some i =>
                match ckpt_content (f_ckpts fs) i with
                | Some (Some t) => Ok (Ckpt i, i, t)
                | _ => Err ValueError
                end
              | None =>
                match csv with
                | Some (Some t) => Ok (Csv, -1, t)
                | _ => Err ValueError
                end
              end;
      let '(file, i, t) := r in
      let results := load_table results t in
      let missing s := match nth s results None with Some _ => false | None => true end in
      let f s := match e_wav a with
                 | None => missing s
                 | Some wav => (missing s || negb (wav s))%bool
                 end in
      Ok (mkState results (Some file) i, filter f seeds)
    end
  else Ok (mkState results None (-1), seeds).

(** Writing a checkpoint. *)
Definition write_ckpt (fs : files) (i : Z) (c : content) : files :=
  mkFiles (f_csv fs) ((i, c) :: filter (fun p => negb (Z.eqb (fst p) i)) (f_ckpts fs)).

(** One iteration of the loop of [run_tests], lines 507-519: arrival number [i] is
    the result [r] of a seed, [None] if the test failed and was logged.  [write]
    is what ends up in a checkpoint (all of the results, unless the script is
    killed while it writes). *)
Definition arrive (write : table -> content) (a : eargs) (i : nat) (r : nat * option V) (sf : state * files)
  : res (state * files) :=
  let '(st, fs) := sf in
  let results := match snd r with Some v => upd (fst r) (Some v) (st_results st) | None => st_results st end in
  match e_checkpoint a with
  | None => Ok (mkState results (st_last_file st) (st_last_ckpt st), fs)
  | Some c =>
    if Z.eqb c 0 then Err ZeroDivisionError
    else if Z.eqb ((Z.of_nat i + 1) mod c) 0 then
      let k := st_last_ckpt st + 1 in
      if e_output a then Ok (mkState results (Some (Ckpt k)) k, write_ckpt fs k (write (list2df results)))
      else Err TypeError
    else Ok (mkState results (st_last_file st) (st_last_ckpt st), fs)
  end.

(** The arrivals of a run, in order, from number [i] on. *)
Fixpoint arrivals (a : eargs) (i : nat) (l : list (nat * option V)) (sf : state * files) : res (state * files) :=
  match l with
  | [] => Ok sf
  | r :: l' => do sf' <- arrive (@Some table) a i r sf; arrivals a (S i) l' sf'
  end.

(** [save_dataframe], lines 523-543: the table of results and the files. *)
Definition writes_csv (a : eargs) (st : state) : bool :=
  (e_output a && (negb (match st_last_file st with Some Csv => true | _ => false end) || negb (e_resume a)))%bool.
Definition save_dataframe (a : eargs) (sf : state * files) : table * files :=
  let '(st, fs) := sf in
  let df := list2df (st_results st) in
  let csv := if writes_csv a st then Some (Some df) else f_csv fs in
  (df, mkFiles csv (if e_output a then [] else f_ckpts fs)).

(** A whole run, lines 1000-1008 without the report.  [order] are the seeds in the
    order in which results arrive (any permutation of the seeds to be computed). *)
Definition whole_run (a : eargs) (test : nat -> option V) (order : list nat) (fs : files) : res (table * files) :=
  do ls <- load_results a fs;
  do sf <- arrivals a 0 (map (fun s => (s, test s)) order) (fst ls, fs);
  Ok (save_dataframe a sf).

End Study.
Arguments table : clear implicits.
Arguments content : clear implicits.
Arguments files : clear implicits.
Arguments state : clear implicits.
