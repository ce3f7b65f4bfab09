(** The helpers of the project's integration tests (testing/src/fuzzable.rs). *)
From Coq Require Import List Ascii String Bool Arith NArith Lia.
From Verif Require Import Base Utf8 Env Opts Dirs Cli.
Import ListNotations.

(** testing/src/fuzzable.rs:125-127 [id]; [digits]: the decimal form of the thread's number. *)
Definition helper_id (e : env) (digits : str) : str :=
  match var e (lit "TEST_FUZZ_ID") with Some v => v | None => thread_id digits end.

(** [cargo_metadata::Message]: an artifact, with whether it is a test and with its
    executable, if any; or anything else. *)
Inductive message := MArtifact (is_test : bool) (executable : option path) | MOther.

(** testing/src/fuzzable.rs:17-29: the arguments given to cargo; [manifest] is MANIFEST_PATH
    and [format] the result of [as_feature]. *)
Definition test_args (manifest format krate : str) : list str :=
  [lit "test"; lit "--manifest-path"; manifest; lit "--test"; krate; lit "--features"; lit "test-fuzz/" ++ format;
   lit "--no-run"; lit "--message-format=json"].

(** testing/src/fuzzable.rs:53-69: the executables whose names begin with the crate's name and a dash.
    [file_name]: the last component. *)
Definition file_name (p : path) : option str := match p with [] => None | _ => Some (List.last p []) end.
Fixpoint begins (a s : str) : bool :=
  match a, s with
  | [], _ => true
  | c :: a, d :: s => Ascii.eqb c d && begins a s
  | _, _ => false
  end.
Definition candidate (krate : str) (m : message) : list path :=
  match m with
  | MArtifact true (Some p) =>
      match file_name p with Some n => if begins (krate ++ lit "-") n then [p] else [] | None => [] end
  | _ => []
  end.

(** [Command::env] and [Command::args] (std). *)
Definition with_env (c : command) (k v : bytes) : command :=
  {| c_program := c_program c; c_args := c_args c; c_envs := c_set (c_envs c) k v; c_cwd := c_cwd c |}.
Definition with_args (c : command) (l : list bytes) : command :=
  {| c_program := c_program c; c_args := c_args c ++ l; c_envs := c_envs c; c_cwd := c_cwd c |}.
Definition new_command (program : bytes) : command := {| c_program := program; c_args := []; c_envs := []; c_cwd := None |}.

(** testing/src/fuzzable.rs:15-85 [test].  [cargo]: how cargo answers: whether it succeeds, and its
    messages; [None] if it cannot be started, waited for or understood.  Simplification: the
    text of the command in messages is left out. *)
Definition test (e : env) (digits manifest format : str) (cargo : list str -> option (bool * list message)) (krate name : str) : outcome command :=
  match cargo (test_args manifest format krate) with
  | None => Err (lit "Command could not be run")
  | Some (false, _) => Err (lit "Command failed: ")
  | Some (true, ms) =>
      let xs := flat_map (candidate krate) ms in
      if List.length xs <=? 1 then
        match xs with
        | x :: _ => Ret (with_args (with_env (new_command (path_text x)) (lit "TEST_FUZZ_ID") (helper_id e digits)) [lit "--exact"; name])
        | [] => Err (lit "Found no executables starting with `" ++ krate ++ lit "`")
        end
      else Err (lit "Found multiple executables starting with `" ++ krate ++ lit "`")
  end.

(** testing/src/fuzzable.rs:87-109 [test_fuzz_all]; [own]: the manifest of the workspace. *)
Definition test_fuzz_all (e : env) (digits own manifest format : str) : command :=
  with_args (with_env (with_env (new_command (lit "cargo")) (lit "AFL_NO_AFFINITY") (lit "1")) (lit "TEST_FUZZ_ID") (helper_id e digits))
    [lit "run"; lit "--bin=cargo-test-fuzz"; lit "--manifest-path"; own; lit "--"; lit "test-fuzz";
     lit "--manifest-path"; manifest; lit "--features"; lit "test-fuzz/" ++ format].
(** testing/src/fuzzable.rs:111-123 [test_fuzz], [test_fuzz_inexact]. *)
Definition test_fuzz (e : env) (digits own manifest format krate target : str) : command :=
  with_args (test_fuzz_all e digits own manifest format) [lit "--test"; krate; lit "--exact"; target].
Definition test_fuzz_inexact (e : env) (digits own manifest format krate target : str) : command :=
  with_args (test_fuzz_all e digits own manifest format) [lit "--test"; krate; target].

(** [cargo run ... -- args] (cargo): the binary [prog] is started with what follows the first [--]. *)
Fixpoint after_dashes (l : list str) : list str :=
  match l with
  | [] => []
  | a :: l => if str_eqb a (lit "--") then l else after_dashes l
  end.
Definition started (prog : str) (c : command) : list str := prog :: after_dashes (c_args c).
