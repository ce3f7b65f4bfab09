(** The command that starts the fuzzer, and the preparations of [fuzz]. *)
From Coq Require Import String List Ascii Bool Arith NArith Lia.
From Verif Require Import Base Utf8 Lossy Decimal Dirs Opts Targets.
Import ListNotations.

(** cargo-test-fuzz/src/lib.rs:1073-1077 [Config]. *)
Record fconfig := { fc_ui : bool; fc_sufficient : bool; fc_first : bool }.

(** An executable: cargo-test-fuzz/src/lib.rs:237-242 [Executable], path and name. *)
Record exe := { x_path : bytes; x_name : str }.

(** cargo-test-fuzz/src/lib.rs:61 [MILLIS_PER_SEC]. *)
Definition millis_per_sec : N := 1000.

(** Multiplication of [u64] (core): overflow panics in a build with overflow checks
    ([checks], the default of debug builds) and wraps otherwise. *)
Definition mul64 (checks : bool) (a b : N) : outcome N :=
  if (a * b <? 2 ^ 64)%N then Ret (a * b)%N else if checks then Panic else Ret ((a * b) mod 2 ^ 64)%N.

(** cargo-test-fuzz/src/lib.rs:1416-1481 [fuzz_command]: the arguments after
    [cargo afl fuzz].  Its environment is [fuzz_envs] of Opts.v.  Creating the output
    directory (1431) is not represented (its failure is ignored). *)
Definition fuzz_args (checks : bool) (o : opts) (c : fconfig) (td : path) (id : option str) (x : exe) (target : str)
  : outcome (list str) :=
  bind (if o_resume o || negb (fc_first c) then Ret (lit "-")
        else bind (dir_from_target td id Corpus (x_name x) target) (fun d => Ret (lossy (path_text d))))
  (fun input_dir =>
  bind (dir_from_target td id Output (x_name x) target) (fun output_dir =>
  bind (match o_timeout o with
        | Some t => bind (mul64 checks t millis_per_sec) (fun ms => Ret [lit "-t"; dec ms])
        | None => Ret []
        end) (fun timeout =>
  Ret ([lit "-c-"; lit "-i"; input_dir; lit "-o"; lossy (path_text output_dir); lit "-M"; lit "default"]
       ++ (if negb (fc_sufficient c) then [lit "-V"; dec (o_slice o)]
           else match o_max_total_time o with
                | Some m => [lit "-V"; dec m]
                | None => []
                end)
       ++ timeout
       ++ o_zzargs o
       ++ [lit "--"; lossy (x_path x); lit "--exact"; target ++ entry_suffix])))).

(** How [fuzz] goes on after generating the corpora: one fuzzer in the foreground, or
    the parallel loop with this number of cpus. *)
Inductive plan := Foreground | Parallel (n_cpus : nat).

(** cargo-test-fuzz/src/lib.rs:1206-1209, 1213-1250: assertion, choice of the
    single-target path, number of cpus and the checks on it.  [cpus] is
    [num_cpus::get()]; [num_cpus::get() - 1] is only evaluated without [--cpus]. *)
Definition fuzz_plan (cpus : nat) (o : opts) (n_targets : nat) : outcome plan :=
  if is_some (o_coverage o) then Panic
  else if negb (o_exit_code o) && (n_targets =? 1) then Ret Foreground
  else
    bind (match o_cpus o with
          | Some n => Ret n
          | None => match cpus with 0 => Panic | S n => Ret n end
          end) (fun wanted =>
    let n_cpus := Nat.min wanted cpus in
    if negb (1 <=? n_cpus) then Err (lit "Number of cpus must be greater than zero")
    else if negb (n_targets <=? n_cpus) && is_some (o_max_total_time o)
    then Err (lit "--max-total-time cannot be used when number of cpus (" ++ dec (N.of_nat n_cpus)
              ++ lit ") is less than number of fuzz targets (" ++ dec (N.of_nat n_targets) ++ lit ")")
    else Ret (Parallel n_cpus)).
