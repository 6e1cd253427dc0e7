(** Model of the test cases and of the reports of scripts/beatsdrop/evaluation.py
    (the runs that collect results are in [Study_Model.v]).  Numbers are real
    numbers; the statistics of autorank, scikit-learn and matplotlib are arbitrary
    functions. *)
From Coq Require Import String Ascii List Bool ZArith Reals.
Import ListNotations.
From Verif Require Import Base Py RLists Np_Model Sample_Model Beat_Model Changelog_Model.
From Verif Require Session_Model Bank_Model.
Local Open Scope R_scope.

(** ** Arguments and folders *)

(** [1 << n]. *)
Definition shl1 (n : Z) : res Z := if (n <? 0)%Z then Err ValueError else Ok (2 ^ n)%Z.

(** [custom_parse_args], scripts/beatsdrop/evaluation.py lines 127-158: which test is
    made; the size of the FFT is that of the model of the test. *)
Inductive mode : Type := TestFft (n : Z) | TestDecision | TestRegression.
Definition custom_parse_args (test_decision : bool) (test_fft : option Z) : res mode :=
  match test_fft with
  | Some n => if test_decision then Err ValueError else do k <- shl1 n; Ok (TestFft k)
  | None => Ok (if test_decision then TestDecision else TestRegression)
  end.

(** FileNotFoundError. *)
Notation FileNotFoundError := (OtherError 2).

(** [os.makedirs(path, exist_ok=True)]: the folder that exists afterwards.  (Missing
    permissions and files of the same name are not modelled.) *)
Definition makedirs (path : text) : res text :=
  match path with [] => Err FileNotFoundError | _ => Ok path end.
(** [os.path.join(a, b)] for a relative [b]. *)
Definition path_join (a b : text) : text :=
  match a with
  | [] => b
  | _ => if Ascii.eqb (last a "0"%char) "/" then a ++ b else a ++ "/"%char :: b
  end.

(** [prepare_folders], lines 402-425: folders that are made, folders of the WAV files
    and of the logs.  (The template [{:.0f}] of the file names, filled in with the
    seed, is left to the name of the file; braces in the folders are not modelled.) *)
Definition prepare_folders (output wav log : option text) : res (list text) :=
  do a <- match output with
          | None => Ok []
          | Some o => do d <- makedirs (Session_Model.dirname o); Ok [d]
          end;
  do b <- match wav with None => Ok [] | Some w => do d <- makedirs w; Ok [d] end;
  Ok (a ++ b).

(** ** Test cases *)

(** What a test case leaves in the file system. *)
Inductive event : Type :=
| EWav (path : text) | EDir (path : text) | ELog (path : text) (seed : nat) (e : exn).

(** [test_case_context], lines 203-251, around the code [body] of a test: [audio] is
    the outcome of the generator, [write_wav] of writing the file.  The result of the
    function is [None] if an exception was logged. *)
Definition test_case_context {A V : Type} (seed : nat) (name : text) (audio : res A)
    (wav : option text) (write_wav : A -> res unit) (log : option text) (body : A -> res V)
  : res (option V) * list event :=
  match audio with
  | Err e => (Err e, [])
  | Ok x =>
    let saved := match wav with
                 | None => (Ok tt, [])
                 | Some w => (write_wav x, [EWav (path_join w name)])
                 end in
    match (do _ <- fst saved; body x) with
    | Ok v => (Ok (Some v), snd saved)
    | Err e =>
      match log with
      | None => (Err e, snd saved)
      | Some l =>
        let filename := path_join l name in
        match makedirs (Session_Model.dirname filename) with
        | Err e' => (Err e', snd saved)
        | Ok d => (Ok None, snd saved ++ [EDir d; ELog filename seed e])
        end
      end
    end
  end.

(** [np.argmax] of real numbers: the first of the greatest ones. *)
Fixpoint argmax_from (best : nat) (v : R) (i : nat) (l : list R) : nat :=
  match l with
  | [] => best
  | x :: l' => if Rlt_dec v x then argmax_from i x (S i) l' else argmax_from best v (S i) l'
  end.
Definition argmax (l : list R) : res nat :=
  match l with [] => Err ValueError | x :: l' => Ok (argmax_from 0 x 1 l') end.

(** [np.argmin] of values that may be NaN: the first NaN, else the first of the
    least ones. *)
Fixpoint first_nan (i : nat) (l : list (option R)) : option nat :=
  match l with [] => None | None :: _ => Some i | Some _ :: l' => first_nan (S i) l' end.
Definition argmin_nan (l : list (option R)) : res nat :=
  match first_nan 0 l with
  | Some i => Ok i
  | None => argmax (map (fun o => match o with Some v => - v | None => 0 end) l)
  end.

(** [s.energies_] from the parameter matrix, sample/sample.py lines 202-232. *)
Definition fl_val (v : fl) : R := match v with Fin r => r | _ => 0 end.
Definition matrix_modes (m : list (list fl)) : modes :=
  mkModes (map fl_val (nth 0 m [])) (map fl_val (nth 1 m [])) (map fl_val (nth 2 m [])).

(** The track of [test_case], lines 268-270. *)
Definition evaluated_track (tracks : list rtrack) (results : list (list (fl * fl * fl))) : res rtrack :=
  do i <- argmax (energies (matrix_modes (param_matrix results)));
  match nth_error tracks i with Some t => Ok t | None => Err IndexError end.

(** The data of the regressions, lines 271-278: times, levels and frequencies of the
    frames whose level is finite.  The tracker runs backwards. *)
Definition track_samples (frame_rate : R) (t : rtrack) : list R * list (option R) * list (option R) :=
  let track_t := map (fun i => INR i / frame_rate) (seq 0 (List.length (r_mag t))) in
  let track_a := map (option_map (fun v => v + 6)) (rev (r_mag t)) in
  let track_f := rev (r_freq t) in
  let iok := map notnan track_a in
  (mask iok track_t, mask iok track_a, mask iok track_f).

(** A row of the table of results, lines 289-299: true parameters and those of the two
    regressions, each sorted by energy. *)
Record row : Type := mkRow { w_true : params; w_br : params; w_dbr : params }.
Definition test_result (truth br dbr : params) : row :=
  let s p := sort_params p param_energies false in
  mkRow (s truth) (s br) (s dbr).

(** [test_case_decision], lines 325-337: the decision for a frequency.  [median] is
    [np.median] of numbers; of an array with a NaN it is NaN. *)
Definition nan_median (median : list R -> R) (l : list (option R)) : option R :=
  if forallb notnan l then Some (median (flat_map (fun o => match o with Some v => [v] | None => [] end) l))
  else None.
Definition decision_for (median : list R -> R) (tracks : list rtrack) (decisions : list bool) (f : R) : res bool :=
  match tracks with
  | [] => Err ValueError                                  (* np.vectorize of nothing *)
  | _ =>
    let dist := map (fun t => option_map (fun v => Rabs (f - v)) (nan_median median (r_freq t))) tracks in
    do i <- argmin_nan dist;
    match nth_error decisions i with Some d => Ok d | None => Err IndexError end
  end.
(** The results for the beat and for the single partial, lines 329-336. *)
Definition test_decisions (median : list R -> R) (tracks : list rtrack) (decisions : list bool) (f0 f1 f2 : R)
  : res (bool * bool) :=
  do beat <- decision_for median tracks decisions ((f0 + f1) / 2);
  do single <- decision_for median tracks decisions f2;
  Ok (beat, single).

(** [test_case_fft], lines 360-377: the two partials that are compared. *)
Definition two_modes (m : modes) : modes :=
  let m := match m_amps m with
           | [] => mkModes [0; 0] [0; 0] [0; 0]
           | [a] => mkModes (m_freqs m ++ m_freqs m) (m_decays m ++ m_decays m) [a / 2; a / 2]
           | _ => m
           end in
  mkModes (firstn 2 (m_freqs m)) (firstn 2 (m_decays m)) (firstn 2 (m_amps m)).
Definition fft_params (m : modes) : params :=
  let m := two_modes m in
  sort_params
    (mkParams (nth 0 (m_amps m) 0) (nth 1 (m_amps m) 0) (nth 0 (m_freqs m) 0) (nth 1 (m_freqs m) 0)
              (nth 0 (m_decays m) 0) (nth 1 (m_decays m) 0) 0 0) param_energies false.

(** ** Statistical tests *)

(** [itertools.product("fad", range(2))], lines 555-556 and 681-682. *)
Inductive var : Type := F0 | F1 | A0 | A1 | D0 | D1.
Definition variables : list var := [F0; F1; A0; A1; D0; D1].
Inductive regressor : Type := Br | Dbr.
Definition var_name (k : var) : string :=
  match k with F0 => "f0" | F1 => "f1" | A0 => "a0" | A1 => "a1" | D0 => "d0" | D1 => "d1" end.
Definition reg_name (m : regressor) : string := match m with Br => "br" | Dbr => "dbr" end.
Definition column_name (k : var) (m : regressor) : string := (var_name k ++ "_" ++ reg_name m ++ "_ar")%string.
Definition get_var (k : var) (p : params) : R :=
  match k with F0 => q_f0 p | F1 => q_f1 p | A0 => q_a0 p | A1 => q_a1 p | D0 => q_d0 p | D1 => q_d1 p end.
Definition estimate (m : regressor) (r : row) : params := match m with Br => w_br r | Dbr => w_dbr r end.

(** [residual_premap], lines 672-675: mel ([hz2mel], sample/psycho.py lines 145-161),
    decibel, and seconds as they are. *)
Definition mel (f : R) : R := 2595 * log10 (1 + f / 700).
Definition premap (k : var) : R -> R :=
  match k with F0 | F1 => mel | A0 | A1 => a2db | D0 | D1 => fun d => d end.

(** Absolute residuals, lines 687-698: a column for every variable and model. *)
Definition residual (k : var) (m : regressor) (r : row) : R :=
  Rabs (premap k (get_var k (w_true r)) - premap k (get_var k (estimate m r))).
Definition pops (df : list row) : list (string * list R) :=
  flat_map (fun k => map (fun m => (column_name k m, map (residual k m) df)) [Br; Dbr]) variables.

(** Lines 683-686 and 699-717.  [autorank] is the statistical test; [file] is the content
    of the file of the test results, if it exists.  Gives the result that is reported
    and the file afterwards. *)
Definition rank_result {RR : Type} (autorank : list (string * list R) -> res RR) (output : bool)
    (file : option RR) (df : list row) : res (RR * option RR) :=
  match (if output then file else None) with
  | Some rr => Ok (rr, file)
  | None => do rr <- autorank (pops df); Ok (rr, if output then Some rr else file)
  end.

(** ** The comparison of models in the report, lines 568-592 *)

Inductive order : Type := Equal | Smaller | Larger | Inconclusive.
(** Frequentist: [meanrank] are the mean ranks, [cd] the critical distance, [None] if
    the post-hoc test has none. *)
Definition decision_freq (meanrank : string -> R) (cd : option R) (k1 k2 : string) : res order :=
  let rd := meanrank k2 - meanrank k1 in
  match cd with
  | None => Err TypeError
  | Some cd => Ok (if Rlt_dec (Rabs rd) cd then Equal else if Rlt_dec 0 rd then Smaller else Larger)
  end.
(** Bayesian: entries of the matrix may be NaN ([None]). *)
Definition flip (d : order) : order :=
  match d with Smaller => Larger | Larger => Smaller | d => d end.
Definition decision_bayes (mat : string -> string -> option order) (k1 k2 : string) : option order :=
  match mat k1 k2 with Some d => Some d | None => option_map flip (mat k2 k1) end.

(** The cells of the table, lines 613-621: a row for every variable, in it the median
    and the interval of every model in the order of the headings (lines 607-608). *)
Definition report_models : list (regressor * string) := [(Dbr, "BeatsDROP"%string); (Br, "Baseline"%string)].
Definition report_table {X : Type} (median ci : string -> X) : list (var * list (X * X)) :=
  map (fun k => (k, map (fun m => (median (column_name k (fst m)), ci (column_name k (fst m)))) report_models))
      variables.
(** The list of comparisons of the two models, lines 628-631. *)
Definition report_comparison {X : Type} (decision : string -> string -> X) : list (var * X) :=
  map (fun k => (k, decision (column_name k Br) (column_name k Dbr))) variables.

(** ** Decision report *)

(** Lines 734-738: true and predicted classes; what the classification report counts. *)
Definition y_true (beat : list bool) : list bool := repeat true (List.length beat) ++ repeat false (List.length beat).
Definition y_pred (beat single : list bool) : list bool := beat ++ single.
Definition confusion (yt yp : list bool) (t p : bool) : nat :=
  List.length (filter (fun q => Bool.eqb (fst q) t && Bool.eqb (snd q) p) (combine yt yp)).

(** Names of the features, lines 757-799 (those not commented out), and their labels,
    lines 803-821. *)
Definition features : list string :=
  ["seed"; "a0"; "a1"; "a2"; "f0"; "f1"; "f2"; "d0"; "d1"; "d2"; "a_delta"; "a_avg"; "a_log_delta";
   "f_delta"; "f_avg"; "f_log_delta"; "d_delta"; "d_avg"; "d_log_delta"; "p_delta"; "p_avg"]%string.
Fixpoint until_underscore (s : string) : string :=
  match s with
  | EmptyString => EmptyString
  | String c s' => if Ascii.eqb c "_" then EmptyString else String c (until_underscore s')
  end.
Definition is_digit (c : ascii) : bool := (48 <=? nat_of_ascii c)%nat && (nat_of_ascii c <=? 57)%nat.
Definition is_alpha (c : ascii) : bool :=
  let n := nat_of_ascii c in
  ((65 <=? n)%nat && (n <=? 90)%nat) || ((97 <=? n)%nat && (n <=? 122)%nat).
Definition sfilter (f : ascii -> bool) (s : string) : string :=
  string_of_list_ascii (filter f (list_ascii_of_string s)).
Definition contains (sub s : string) : bool := match index 0 sub s with Some _ => true | None => false end.
Definition l_keys (s : string) : string :=
  if String.eqb s "f" then "\nu" else if String.eqb s "p" then "\phi"
  else if String.eqb s "seed" then "\mathrm{seed}" else s.
(** [int(suf_v) + 1] of one digit (names have one at most). *)
Definition succ_digit (s : string) : string :=
  match s with String c EmptyString => String (ascii_of_nat (S (nat_of_ascii c))) EmptyString | s => s end.
Definition braces (cmd s : string) : string := (cmd ++ "{" ++ s ++ "}")%string.
Definition latex_name (k : string) : string :=
  let v := until_underscore k in
  let pre_v := l_keys (sfilter is_alpha v) in
  let suf_v := sfilter is_digit v in
  let v := if String.eqb suf_v "" then pre_v else braces (pre_v ++ "_") (succ_digit suf_v) in
  let v := if contains "_log" k then braces "\log" v else v in
  let v := if contains "_delta" k then braces "\Delta" v
           else if contains "_avg" k then braces "\overline" v else v in
  ("$" ++ v ++ "$")%string.

(** Importances, lines 827-858.  An array of uninitialised numbers for every feature, and
    one of objects ([None] at first) for the target.  [n] rows for every target are
    wanted; [splits] are the training sets of [RepeatedKFold] with [folds] folds, which
    raises unless there are as many samples ([rows]) as folds; [fit train target] are the
    importances of a tree, in the order of the features. *)
Record importances : Type := mkImp { i_cols : list (list R); i_target : list (option nat) }.
Definition set_row (idx : nat) (values : list R) (target : nat) (imp : importances) : importances :=
  mkImp (map (fun cv => upd idx (snd cv) (fst cv)) (combine (i_cols imp) values))
        (upd idx (Some target) (i_target imp)).
Definition n_repeats (n folds : nat) : nat := Z.to_nat (Bank_Model.Rceil (INR n / INR folds)).
Definition importance_table {T : Type} (junk : nat -> nat -> R) (tqdm : bool) (rows folds n nfeat : nat)
    (splits : nat -> T) (fit : T -> nat -> list R) : res importances :=
  let empty := mkImp (map (fun k => map (junk k) (seq 0 (n * 2))) (seq 0 nfeat)) (repeat None (n * 2)) in
  if tqdm then
    if Nat.ltb rows folds then Err ValueError
    else
      Ok (fold_left (fun imp i => fold_left (fun imp j => set_row (2 * i + j) (fit (splits i) j) j imp) [0; 1]%nat imp)
                    (firstn n (seq 0 (folds * n_repeats n folds))) empty)
  else Ok empty.
(** Lines 825-826 and 859-865: the file of importances is read if there is one. *)
Definition importances_of (output : bool) (file : option importances) (table : res importances)
  : res (importances * option importances) :=
  match (if output then file else None) with
  | Some imp => Ok (imp, file)
  | None => do imp <- table; Ok (imp, if output then Some imp else file)
  end.

(** Histograms, lines 930-947: heights of the bars of the posterior, from the counts of
    every label in every bin.  [hist] of one data set gives an array with one axis, so
    that the loop takes its first number for all bars.  [x / 0] is NaN. *)
Inductive heights : Type := Bars (l : list (option R)) | AllBars (v : option R).
Definition ratio (x s : R) : option R := if Req_EM_T s 0 then None else Some (x / s).
Definition posterior (counts : list (list R)) : list heights :=
  match counts with
  | [c] => match c with [] => [] | v :: _ => [AllBars (ratio v (rsum c))] end
  | [] => []
  | c :: cs =>
    let total := fold_left (map2 Rplus) cs c in
    map (fun row => Bars (map (fun p => ratio (fst p) (snd p)) (combine row total))) counts
  end.

(** ** FFT report *)

(** [fft_report], lines 975-996: the numbers of the message. *)
Definition fft_report (counts : list Z) (test_fft : Z) : res (Z * Z * R * Z * R) :=
  let n := zlen (filter (fun c => (2 <=? c)%Z) counts) in
  let t := zlen counts in
  do nfft <- shl1 test_fft;
  if (t =? 0)%Z then Err ZeroDivisionError
  else Ok (n, t, IZR n * 100 / IZR t, nfft, IZR nfft / 44100).
