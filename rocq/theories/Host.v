(** Programs that call instrumented functions: what recording does to the program that
    hosts it. *)
From Coq Require Import List Ascii String Bool Arith Lia.
From stdpp Require Import gmap strings.
From Verif Require Import Base Utf8 Env Dirs Sha1 Fs Write Harness.
Import ListNotations.
Local Open Scope nat_scope.

(** What a program and the recording observe and change: the file system, the current
    directory, the environment.  Simplification: anything else a program has (memory,
    network) is in the program itself. *)
Record host := { h_fs : fs; h_cwd : path; h_env : env }.

Definition with_fs (s : host) (m : fs) : host := {| h_fs := m; h_cwd := h_cwd s; h_env := h_env s |}.

(** An instrumented function, at one call: the names of the type parameters of its impl
    and of itself (macro/src/lib.rs:494-512), the names of the types [Args] given to the
    functions that record (macro/src/lib.rs:496-504 and 664-672), its options. *)
Record instr := {
  t_impl_names : list str;
  t_names : list str;
  t_type_g : str;
  t_type_a : str;
  t_opts : fopts;
}.

Section Host.
  (** [A]: arguments; [V]: results. *)
  Context {A V : Type}.

  (** [cargo metadata --no-deps] started in a directory, with a manifest path if there is
      one (internal/src/dirs.rs:112-116): the target directory, or nothing if it fails. *)
  Variable metadata : fs -> path -> option str -> option path.
  (** The bytes of the arguments, or nothing if their [Serialize] fails
      (internal/src/serde_format.rs:44, 50: [unwrap]). *)
  Variable bytes_of : instr -> A -> option bytes.
  (** The build has [cfg(test)]. *)
  Variable cfg_test : bool.

  (** internal/src/dirs.rs:110-124 [target_directory], with its [unwrap], then 12-14, 22-24
      and 32-34; afresh for each datum.  [maybe_id] outside of the project's own tests. *)
  Definition record_directory (s : host) (k : kind) (tn : str) : outcome path :=
    match metadata (h_fs s) (h_cwd s) (var (h_env s) (lit "TEST_FUZZ_MANIFEST_PATH")) with
    | Some td => dir_from_args_type td (maybe_id (h_env s) None) k tn
    | None => Panic
    end.

  (** runtime/src/lib.rs:171-187: [write_impl_generic_args], [write_generic_args],
      [write_args]; [false]: a panic.  The directory is computed before the arguments are
      serialised. *)
  Definition record_host (t : instr) (r : record_ A) (s : host) : host * bool :=
    let go k tn data :=
      match record_directory s k tn, data with
      | Ret d, Some x => let (m, ok) := write_data (h_fs s) d x in (with_fs s m, ok)
      | _, _ => (s, false)
      end in
    match r with
    | RecImplGenericArgs names => go ImplGenericArgs (t_type_g t) (Some (join (lit ", ") names))
    | RecGenericArgs names => go GenericArgs (t_type_g t) (Some (join (lit ", ") names))
    | RecArgs a => go Corpus (t_type_a t) (bytes_of t a)
    end.

  (** A program: it ends with a result or a panic, does something of its own, or calls an
      instrumented function with some arguments.  The body of the call (with calls in it)
      is run, and the program goes on, knowing its result, or that it panicked (for example
      as the test runner does).  Simplifications: one thread, and programs that end. *)
  Inductive prog :=
    | Return (v : V)
    | Unwind
    | Step (f : host -> host) (k : host -> prog)
    | Call (t : instr) (a : A) (body : prog) (k : option V -> prog).

  (** The program as compiled: functions are replaced as in macro/src/lib.rs:778-789. *)
  Fixpoint run (p : prog) (s : host) : host * option V :=
    match p with
    | Return v => (s, Some v)
    | Unwind => (s, None)
    | Step f k => run (k s) (f s)
    | Call t a body k =>
        let (s1, r) := instrumented (record_host t) (fun _ s => run body s) (t_impl_names t) (t_names t)
                         cfg_test (t_opts t) (h_env s) a s in
        run (k r) s1
    end.

  (** The same program without the attribute. *)
  Fixpoint plain (p : prog) (s : host) : host * option V :=
    match p with
    | Return v => (s, Some v)
    | Unwind => (s, None)
    | Step f k => plain (k s) (f s)
    | Call t a body k => let (s1, r) := plain body s in plain (k r) s1
    end.

  (** The recordings that the compiled program attempts, with the states in which it does. *)
  Fixpoint attempts (p : prog) (s : host) : list (host * instr * A) :=
    match p with
    | Return _ | Unwind => []
    | Step f k => attempts (k s) (f s)
    | Call t a body k =>
        (if recording cfg_test (t_opts t) (h_env s) then
           let (s0, ok) := record_each (record_host t) (to_record (t_impl_names t) (t_names t) (t_opts t) a) s in
           (s, t, a) :: (if ok then attempts body s0 else [])
         else attempts body s) ++
        (let (s1, r) := instrumented (record_host t) (fun _ s => run body s) (t_impl_names t) (t_names t)
                          cfg_test (t_opts t) (h_env s) a s in
         attempts (k r) s1)
    end.
End Host.
Arguments prog : clear implicits.
