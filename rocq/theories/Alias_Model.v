(** Settings of the tuning script, scripts/cim22/autotuning.py. *)
From Coq Require Import String List ZArith QArith.
Import ListNotations.
From Verif Require Import Base Py Dict Utils_Model.
Local Open Scope string_scope.
Local Open Scope list_scope.

(** [sample_opt_fixed], scripts/cim22/autotuning.py lines 120-126. *)
Definition tuning_fixed : dict val :=
  [("max_n_modes", VInt 64); ("sinusoidal_model__reverse", VBool true); ("sinusoidal_model__safe_sine_len", VInt 2);
   ("sinusoidal_model__overlap", VNum (1 # 2)); ("sinusoidal_model__frequency_bounds", VList [VInt 50; VNum 20000])].

(** [sample_opt_space], lines 129-138.  A search space is written as the list of
    its kind, bounds and label. *)
Definition tuning_space : dict val :=
  [("sinusoidal_model__log_n", VList [VStr "Integer"; VInt 6; VInt 14; VStr "log2(n)"]);
   ("sinusoidal_model__max_n_sines", VList [VStr "Integer"; VInt 16; VInt 128; VStr "n sines"]);
   ("sinusoidal_model__peak_threshold", VList [VStr "Real"; VInt (-120); VInt (-30); VStr "peak threshold"]);
   ("sinusoidal_model__min_sine_dur", VList [VStr "Real"; VInt 0; VNum (1 # 2); VStr "min duration"])].
