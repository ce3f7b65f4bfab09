(** A program that records in production, and the test of it
    (test-fuzz/tests/integration/in_production.rs, fuzzable/src/bin/hello-world.rs). *)
From Coq Require Import List Ascii String Bool Arith Lia.
From stdpp Require Import gmap strings.
From Verif Require Import Base Utf8 Env Dirs Sha1 Fs Write Harness Host TestHelpers.
Import ListNotations.
Local Open Scope nat_scope.

(** fuzzable/src/bin/hello-world.rs:5-8: the function with its attribute.  It has no type
    parameters.  [rest], [rest']: what follows the module in the names of the types
    (macro/src/lib.rs:496-504, 664-672). *)
Definition intermediary (rest rest' : str) : instr :=
  {| t_impl_names := []; t_names := [];
     t_type_g := lit "hello_world::intermediary_fuzz__" ++ rest; t_type_a := lit "hello_world::intermediary_fuzz__" ++ rest';
     t_opts := {| f_only_generic_args := false; f_enable_in_production := true |} |}.

(** fuzzable/src/bin/hello-world.rs:1-12 [main].  Simplification: what is printed is not
    part of the state of a host. *)
Definition hello_world (rest rest' : str) : prog str unit :=
  Call (intermediary rest rest') (lit "Hello, world!") (Return tt)
    (fun r => match r with Some u => Return u | None => Unwind end).

(** test-fuzz/tests/integration/in_production.rs:29-42: the directory that the test looks at;
    [digits]: the number of its thread. *)
Definition looked_at (e : env) (digits : str) (td : path) : outcome path :=
  let id := maybe_id e (Some digits) in
  bind (dir_from_target td id Corpus (lit "hello-world") (lit "intermediary"))
    (fun d => Ret (map (fun c => if str_eqb c (path_segment id (lit "corpus")) then lit "corpus" else c) d)).

(** test-fuzz/tests/integration/in_production.rs:46: a directory is removed if there is one.
    Simplification: removing a directory does not fail half-way. *)
Definition removed (m : fs) (d : path) : fs := match remove_dir_all m d with Some m' => m' | None => m end.

(** test-fuzz/tests/integration/in_production.rs:58-69: the environment of the program;
    [manifest]: CARGO_MANIFEST_PATH.  Simplification: cargo adds nothing to it that matters here. *)
Definition given_env (e : env) (manifest : str) (write : bool) : env :=
  let e := env_set e (lit "TEST_FUZZ_MANIFEST_PATH") (Some manifest) in
  if write then env_set e (lit "TEST_FUZZ_WRITE") (Some (lit "1")) else e.

(** test-fuzz/tests/integration/in_production.rs:71: [read_dir(d).map(Iterator::count).unwrap_or_default()];
    [ls]: the names that [read_dir] gives, if it succeeds. *)
Definition count_entries (ls : fs -> path -> option (list str)) (m : fs) (d : path) : nat :=
  match ls m d with Some ns => List.length ns | None => 0 end.

(** test-fuzz/tests/integration/in_production.rs:26-71 [test]: does the program end without a
    panic, and how many entries are there afterwards?  [td]: the target directory for the test. *)
Definition production_test (metadata : fs -> path -> option str -> option path) (bytes_of : instr -> str -> option bytes)
    (ls : fs -> path -> option (list str)) (e : env) (digits manifest : str) (td : path) (rest rest' : str) (write : bool) (m : fs)
    : outcome (bool * nat) :=
  bind (looked_at e digits td) (fun d =>
    let s := {| h_fs := removed m d; h_cwd := [lit "tmp"]; h_env := given_env e manifest write |} in
    let (s', r) := run metadata bytes_of false (hello_world rest rest') s in
    Ret (match r with Some _ => true | None => false end, count_entries ls (h_fs s') d)).
