(** The environment of the fuzzers that [fuzz] starts. *)
From Coq Require Import String List Ascii Bool Arith NArith Lia.
From Verif Require Import Base Env Opts FuzzCmd.
Import ListNotations.

(** cargo-test-fuzz/src/lib.rs:1213-1217, 1231, 1299: the configuration of the run number
    [i_task] of a fuzzer, with [n] targets on [cpus] cpus; the [ui] is decided once. *)
Definition fuzz_config (o : opts) (cpus n i_task : nat) : fconfig :=
  {| fc_ui := negb (o_no_ui o); fc_sufficient := n <=? cpus; fc_first := i_task <? n |}.

(** cargo-test-fuzz/src/lib.rs:1416-1481 [fuzz_command]: the environment of the command,
    if cargo-test-fuzz runs in the environment [parent]; [llvm]: lines 144-167. *)
Definition fuzzer_env (o : opts) (c : fconfig) (llvm parent : list (bytes * bytes)) : env :=
  fuzz_harness_env (fc_ui c) o llvm parent.
