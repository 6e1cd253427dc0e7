(** Model of the impulse responses of gammatone filters, of the precomputed
    banks and of the cochleagrams of sample/psycho.py.  Numbers are real
    numbers; rounding and non-finite values are not modelled (NotFinite stands
    for a result with infinities or NaN). *)
From Coq Require Import String List Bool ZArith Reals.
Import ListNotations.
From Verif Require Import Base Py RLists Np_Model Stft_Model Dsp_Model Sample_Model Psycho_Model Bank_Model.
Local Open Scope R_scope.

Notation NotFinite := (OtherError 20).
(** [sklearn.exceptions.ConvergenceWarning], raised by [t60]. *)
Notation ConvergenceWarning := (OtherError 21).
Notation RecursionError := (OtherError 10).

(** [np.floor(x).astype(int)]. *)
Definition Rfloor (x : R) : Z := (up x - 1)%Z.

Section Junk.
Variable junk : nat -> nat -> R.

(** ** Size of the impulse response *)

(** [self.envelope(t)] for a number [t], sample/psycho.py lines 614-632 (the call
    has no error branch for a number). *)
Definition envelope_at (g : gammatone) (t : R) : R :=
  match call junk (envelope_of junk g) [t] with Ok [v] => v | _ => 0 end.

(** The search for a range in [t60], lines 543-560: [_foo] must change its sign
    between [hi + range] and [hi]. *)
Fixpoint t60_search (foo : R -> R) (hi range : R) (steps n_starts : nat) : res R :=
  match n_starts with
  | O => Err ValueError
  | S k =>
    match dychotomic_zero_crossing foo (hi + range) hi steps with
    | Ok t => Ok t
    | Err ValueError => t60_search foo (hi + range) (range * 2) steps k
    | Err e => Err e
    end
  end.

(** Arguments of [t60], lines 510-515. *)
Record t60_kws : Type := mkT60
  { k_steps : nat; k_n_starts : nat; k_range : option R; k_floor : R; k_warn_th : option R }.
Definition t60_default : t60_kws := mkT60 32 16 None (-60) (Some (1 / 1000)).

(** [t60], lines 510-569.  The level of an amplitude of zero is minus infinity,
    so the exception is raised. *)
Definition t60 (g : gammatone) (k : t60_kws) : res R :=
  let hi := group_delay g in
  let p := db2a (k_floor k) * envelope_at g hi in
  let range := match k_range k with None => 2 * (hi + t_c g) | Some r => r end in
  do t <- t60_search (fun t => envelope_at g t - p) hi range (k_steps k) (k_n_starts k);
  match k_warn_th k with
  | None => Ok t
  | Some th =>
    let v := envelope_at g t / envelope_at g (group_delay g) in
    if Req_EM_T v 0 then Err ConvergenceWarning
    else if Rlt_dec th (Rabs (a2db v - k_floor k)) then Err ConvergenceWarning
    else Ok t
  end.

(** [ir_size], lines 571-588. *)
Definition ir_size (g : gammatone) (fs : R) (k : t60_kws) : res Z :=
  let w := 2 * PI * gt_f g in
  do t <- t60 g k;
  let phase60 := phi g + w * t in
  let phase60 := IZR (Rceil (phase60 * 2 / PI)) * PI / 2 in
  if Req_EM_T w 0 then Err NotFinite
  else
    let t60 := (phase60 - phi g) / w in
    Ok (Rfloor ((t60 + t_c g) * fs)).

(** ** Impulse response *)

(** Complex numbers. *)
Definition cplx : Type := (R * R)%type.
Definition cmul (x y : cplx) : cplx := (fst x * fst y - snd x * snd y, fst x * snd y + snd x * fst y).
Definition cre (x : R) : cplx := (x, 0).
Definition csum (l : list cplx) : cplx := (rsum (map fst l), rsum (map snd l)).

(** [wavefun], lines 634-664, without [out]: see [Psycho_Model.wavefun] for a
    real oscillator; with [analytic=True] the array is complex and the oscillator
    is [exp(1j * (2 * pi * f * t + phi))].  (The complex array programs are given
    by their values; aliasing is treated for the real ones only.) *)
Definition wavefun_real (g : gammatone) (ts : list R) : res (list R) :=
  match wavefun junk g 0 None (mkMem (fun _ => ts) 1) with
  | Ok (r, m) => Ok (cells m r)
  | Err e => Err e
  end.
Definition wavefun_analytic (g : gammatone) (ts : list R) : res (list cplx) :=
  do es <- call junk (envelope_of junk g) ts;
  Ok (map (fun et => let p := 2 * PI * gt_f g * snd et + phi g in
                     cmul (cre (fst et)) (cos p, sin p)) (combine es ts)).

(** The scale, lines 691-698: [a], or [a] (default 1) over the norm. *)
Definition scale (g : gammatone) (energy : R) : res (option R) :=
  if gt_normalize g then
    if Req_EM_T energy 0 then Err NotFinite
    else Ok (Some (match gt_a g with None => 1 | Some a => a end / sqrt energy))
  else Ok (gt_a g).

(** The time axis of [ir], lines 684-688: [t], or samples from [-t_c] on. *)
Definition ir_axis (g : gammatone) (t : option (list R)) (fs : option R) (k : t60_kws) : res (list R) :=
  match t with
  | Some t => Ok t
  | None =>
    match fs with
    | None => Err ValueError
    | Some fs =>
      do n <- ir_size g fs k;
      Ok (map (fun i => INR i / fs - t_c g) (seq 0 (Z.to_nat n)))
    end
  end.

(** [ir], lines 666-699, without [out].  (An empty response is not changed by a
    scale that is not finite.) *)
Definition ir (g : gammatone) (t : option (list R)) (fs : option R) (k : t60_kws) : res (list R) :=
  do ts <- ir_axis g t fs k;
  do out <- wavefun_real g ts;
  match out with
  | [] => Ok []
  | _ =>
    do a <- scale g (rsum (map (fun v => v * v) out));
    Ok (match a with None => out | Some a => map (fun v => a * v) out end)
  end.
Definition ir_analytic (g : gammatone) (t : option (list R)) (fs : option R) (k : t60_kws)
  : res (list cplx) :=
  do ts <- ir_axis g t fs k;
  do out <- wavefun_analytic g ts;
  match out with
  | [] => Ok []
  | _ =>
    do a <- scale g (rsum (map (fun v => fst v * fst v + snd v * snd v) out));
    Ok (match a with None => out | Some a => map (cmul (cre a)) out end)
  end.

(** ** Precomputed banks *)

(** [PrecomputedIRBank]: frequencies, and impulse responses (real or complex)
    with their offsets. *)
Inductive irs : Type :=
| RealIRs (b : bank)
| AnalyticIRs (b : list (list cplx * Z)).
Record ir_bank : Type := mkBank { b_freqs : list R; b_irs : irs }.
Definition is_analytic (b : ir_bank) : bool :=
  match b_irs b with AnalyticIRs _ => true | RealIRs _ => false end.

(** [offsets], line 786, and the time axis of a filter, lines 789-790. *)
Definition lead (g : gammatone) (fs : R) : Z := Rceil (t_c g * fs).
Definition bank_axis (g : gammatone) (fs : R) : res (list R) :=
  do n <- ir_size g fs t60_default;
  Ok (map (fun i => (INR i - IZR (lead g fs)) / fs) (seq 0 (Z.to_nat n))).

(** [PrecomputedIRBank.__init__], lines 776-800, and [precompute], lines 871-883;
    [offsets.max()] of an empty bank is a ValueError. *)
Definition precompute (gs : list gammatone) (fs : R) (analytic : bool) : res ir_bank :=
  let one {A} (f : gammatone -> option (list R) -> option R -> t60_kws -> res (list A)) g :=
    do t <- bank_axis g fs; f g (Some t) None t60_default in
  let offsets := align_offsets (map (fun g => lead g fs) gs) in
  let freqs := map gt_f gs in
  if analytic then
    do l <- mapM (one ir_analytic) gs;
    match gs with
    | [] => Err ValueError
    | _ => Ok (mkBank freqs (AnalyticIRs (combine l offsets)))
    end
  else
    do l <- mapM (one ir) gs;
    match gs with
    | [] => Err ValueError
    | _ => Ok (mkBank freqs (RealIRs (combine l offsets)))
    end.

End Junk.

(** Full convolution of complex arrays (what [signal.oaconvolve] and
    [signal.convolve] compute, up to rounding), see [Dsp_Model.conv_full]. *)
Definition conv_full_c (x k : list cplx) : list cplx :=
  map (fun n => csum (map (fun j => cmul (nth j k (0, 0))
                             (if (Z.of_nat j <=? n)%Z && (n - Z.of_nat j <? zlen x)%Z
                              then nth (Z.to_nat (n - Z.of_nat j)) x (0, 0) else (0, 0)))
                          (seq 0 (List.length k))))
      (zrange (zlen x + zlen k - 1)).

(** [self._ir_size], lines 799-800, for complex impulse responses. *)
Definition bank_ir_size_c (b : list (list cplx * Z)) : Z :=
  zmax (map (fun io => zlen (fst io) + snd io)%Z b).

(** [convolve], lines 823-836, if the input or the impulse responses are complex. *)
Definition convolve_full_c (b : list (list cplx * Z)) (x : list cplx) : res (list (list cplx)) :=
  let s := bank_ir_size_c b in
  mapM (fun io => let '(ir, off) := io in
          let y := conv_full_c x ir in
          set_slice (Some off) (Some (off + zlen y)%Z) y
                    (repeat (0, 0) (Z.to_nat (zlen x + s - 1)))) b.

(** [convolve] with a stride, lines 846-868, for analytic impulse responses. *)
Definition convolve_strided_c (b : list (list cplx * Z)) (x : list R) (stride : Z)
  : res (list (list cplx)) :=
  let s := bank_ir_size_c b in
  do x_pad <- set_slice (Some (s - 1)%Z) (Some (- (s - 1))%Z) x
                        (repeat 0 (Z.to_nat (zlen x + 2 * (s - 1))));
  let x_begin (io : list cplx * Z) :=
    let off := snd io in (s - zlen (fst io) - (off - off / stride * stride))%Z in
  let x_size io :=
    Z.min (zlen x_pad - x_begin io) (zlen x + 2 * (zlen (fst io) - 1)) in
  do n_wins <- mapM (fun io => n_windows (x_size io) (zlen (fst io)) (Some stride)) b;
  let width := zmax (map (fun p => fst p + snd (snd p) / stride)%Z (combine n_wins b)) in
  mapM (fun p => let '(n, (ir, off)) := p in
          let x0 := x_begin (ir, off) in
          do y <- strided_convolution_complex_kernel
                    (slice (Some x0) (Some (x0 + x_size (ir, off))%Z) x_pad) ir stride;
          set_slice (Some (off / stride)%Z) (Some (off / stride + n)%Z) y
                    (repeat (0, 0) (Z.to_nat width)))
       (combine n_wins b).

(** Arrays with one dimension (input) and two dimensions (cochleagrams). *)
Inductive signal : Type := RealSig (x : list R) | ComplexSig (x : list cplx).
Inductive matrix : Type := RealMat (m : list (list R)) | ComplexMat (m : list (list cplx)).

(** [PrecomputedIRBank.convolve], lines 806-869: [method] is whether a method is
    given. *)
Definition bank_convolve (b : irs) (x : signal) (method : bool) (stride : option Z) : res matrix :=
  match stride with
  | None =>
    match b, x with
    | RealIRs b, RealSig x => do m <- convolve b x method None; Ok (RealMat m)
    | RealIRs b, ComplexSig x =>
      do m <- convolve_full_c (map (fun io => (map cre (fst io), snd io)) b) x; Ok (ComplexMat m)
    | AnalyticIRs b, RealSig x => do m <- convolve_full_c b (map cre x); Ok (ComplexMat m)
    | AnalyticIRs b, ComplexSig x => do m <- convolve_full_c b x; Ok (ComplexMat m)
    end
  | Some st =>
    if method then Err ValueError
    else match x with
         | ComplexSig _ => Err ValueError
         | RealSig x =>
           match b with
           | RealIRs b => do m <- convolve b x method (Some st); Ok (RealMat m)
           | AnalyticIRs b => do m <- convolve_strided_c b x st; Ok (ComplexMat m)
           end
         end
  end.

(** [hwr], lines 925-936, with the threshold 0, on a matrix ([np.maximum] compares
    complex numbers by their real and then their imaginary parts). *)
Definition cmax0 (v : cplx) : cplx :=
  if Rlt_dec (fst v) 0 then (0, 0)
  else if Req_EM_T (fst v) 0 then (fst v, Rmax (snd v) 0) else v.
Definition hwr (m : matrix) : matrix :=
  match m with
  | RealMat m => RealMat (map (map (fun v => Rmax v 0)) m)
  | ComplexMat m => ComplexMat (map (map cmax0) m)
  end.

(** ** Cochleagram *)

(** Keyword arguments of [GammatoneFilterbank], lines 721-728, without [filters]:
    [kw_filter f] is the filter made from the other ones for the frequency [f];
    [kw_unknown] are those that neither the bank nor the filters know. *)
Record bank_kws : Type := mkKws
  { kw_freqs : option (list R); kw_n_filters : option Z; kw_flim : list R;
    kw_filter : R -> gammatone; kw_unknown : list string }.

(** [GammatoneFilterbank.__init__], lines 721-739. *)
Definition filterbank (fwd inv : transform) (kw : bank_kws) : res (list gammatone) :=
  do freqs <- match kw_freqs kw with
              | Some l => Ok l
              | None => gammatone_freqs fwd inv (kw_n_filters kw) (kw_flim kw)
              end;
  match freqs, kw_unknown kw with
  | _ :: _, _ :: _ => Err TypeError
  | _, _ => Ok (map (kw_filter kw) freqs)
  end.

(** The argument [filterbank] of [cochleagram]. *)
Inductive bank_arg : Type :=
| NoBank
| Filters (gs : list gammatone)
| Precomputed (b : ir_bank).

(** The argument [postprocessing], if it is given. *)
Definition post_arg : Type := option (option (matrix -> matrix)).

Section Cochleagram.
Variable junk : nat -> nat -> R.
(** [scipy.signal.hilbert] of an array. *)
Variable hilbert : list R -> list cplx.
Variables fwd inv : transform.

Definition is_str (s : string) (o : option string) : bool :=
  match o with Some t => String.eqb t s | None => false end.

(** [signal.hilbert(out)], along the rows; ValueError for complex arrays. *)
Definition hilbert_rows (m : matrix) : res matrix :=
  match m with
  | RealMat m => Ok (ComplexMat (map hilbert m))
  | ComplexMat _ => Err ValueError
  end.

(** [cochleagram], lines 939-1005: the matrix and the centre frequencies. *)
Definition cochleagram (x : list R) (fs : option R) (fb : bank_arg) (analytic : option string)
    (method : bool) (stride : option Z) (post : post_arg) (kw : bank_kws) : res (matrix * list R) :=
  do analytic <-
    match fb with
    | Precomputed b =>
      if is_analytic b then
        match analytic with
        | None => Ok (Some "ir"%string)
        | Some s => if String.eqb s "ir" then Ok (Some "ir"%string) else Err ValueError
        end
      else Ok analytic
    | _ => Ok analytic
    end;
  let post := match post with
              | Some p => p
              | None => match analytic with None => Some hwr | Some _ => None end
              end in
  do fb <- match fb with
           | NoBank => do gs <- filterbank fwd inv kw; Ok (Filters gs)
           | _ => Ok fb
           end;
  do b <- match fb with
          | Precomputed b => Ok b
          | Filters gs =>
            match fs with
            | None => Err TypeError
            | Some fs => precompute junk gs fs (is_str "ir" analytic)
            end
          | NoBank => Err TypeError
          end;
  let x := if is_str "input" analytic then ComplexSig (hilbert x) else RealSig x in
  do out <- bank_convolve (b_irs b) x method stride;
  do out <- (if is_str "output" analytic then hilbert_rows out else Ok out);
  Ok (match post with None => out | Some f => f out end, b_freqs b).

(** [GammatoneFilterbank.convolve], lines 885-922. *)
Definition filterbank_convolve (gs : list gammatone) (x : list R) (fs : R) (analytic : option string)
    (method : bool) (stride : option Z) (post : post_arg) (kw : bank_kws) : res matrix :=
  do r <- cochleagram x (Some fs) (Filters gs) analytic method stride post kw;
  Ok (fst r).

(** [CochleagramLoss.__init__], sample/evaluation/metrics.py lines 186-206, and its
    method [cochleagram], lines 208-221: postprocessing and bank, then the matrix. *)
Definition cabs (v : cplx) : R := sqrt (fst v * fst v + snd v * snd v).
Definition np_abs (m : matrix) : matrix :=
  match m with
  | RealMat m => RealMat (map (map Rabs) m)
  | ComplexMat m => RealMat (map (map cabs) m)
  end.
Definition loss_init (fs : R) (analytic : option string) (post : post_arg) (kw : bank_kws)
  : res (ir_bank * post_arg) :=
  let post := match post with
              | Some p => Some p
              | None => match analytic with Some _ => Some (Some np_abs) | None => None end
              end in
  do gs <- filterbank fwd inv kw;
  do b <- precompute junk gs fs (is_str "ir" analytic);
  Ok (b, post).
Definition loss_cochleagram (l : ir_bank * post_arg) (analytic : option string) (method : bool)
    (stride : option Z) (kw : bank_kws) (x : list R) : res matrix :=
  do r <- cochleagram x None (Precomputed (fst l)) analytic method stride (snd l) kw;
  Ok (fst r).
End Cochleagram.

(** ** Attributes of a bank *)

(** [GammatoneFilterbank.__getattr__], lines 753-760, with the number [limit] of
    calls that python allows.  [filters] is [None] before [__init__] sets
    [_filters]: iterating over the bank then looks for the attribute [_filters],
    which calls [__getattr__] again.  [get f key] is the attribute of a filter
    (AttributeError if there is none); [object] has no [__getattr__], so the last
    line raises AttributeError. *)
Fixpoint bank_getattr {F V} (limit : nat) (get : F -> string -> res V) (filters : option (list F))
    (key : string) : res (list V) :=
  match limit with
  | O => Err RecursionError
  | S n =>
    let iterate := match filters with
                   | Some l => Ok l
                   | None => match bank_getattr n get filters "_filters" with
                             | Ok _ => Err TypeError
                             | Err e => Err e
                             end
                   end in
    match bind iterate (mapM (fun f => get f key)) with
    | Ok l => Ok l
    | Err AttributeError => Err AttributeError
    | Err e => Err e
    end
  end.

(** [hasattr(obj, key)]: only AttributeError means no. *)
Definition hasattr {A} (r : res A) : res bool :=
  match r with
  | Ok _ => Ok true
  | Err AttributeError => Ok false
  | Err e => Err e
  end.
(** [copy.copy] and [pickle.loads] ask a new object, made without [__init__],
    for the method [__setstate__]; if there is none they set its dictionary. *)
Definition copy_bank {F V} (limit : nat) (get : F -> string -> res V) (filters : list F) : res (list F) :=
  do b <- hasattr (bank_getattr limit get (@None (list F)) "__setstate__");
  if b then Err TypeError else Ok filters.
