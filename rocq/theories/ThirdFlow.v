(** The order of events in the test of third parties' code. *)
From Coq Require Import Ascii String List Bool Arith NArith Lia.
From Verif Require Import Base Utf8 ThirdParty ThirdRun.
Import ListNotations.

(** third-party/tests/third_party.rs:27-36 [Test]. *)
Record test := mkt { t_flags : flags; t_url : str; t_rev : str; t_subdir : str; t_test_package : str; t_fuzz_package : str; t_targets : list str }.

(** Where a command is run: in the new directory, in the directory below it, or where the test is. *)
Inductive place := Temp | Sub (subdir : str) | Here.
(** A command, with the variables that are set ([Some]) or removed ([None]) for it. *)
Record cmd := mkc { c_in : place; c_env : list (str * option str); c_argv : list str }.

(** What cargo_metadata (external) tells of the packages: names, dependencies, and of these the names
    and paths. *)
Record dep := mkd { d_name : str; d_path : option str }.
Record package := mkp { p_name : str; p_deps : list dep }.

(** What is outside.  Answers depend on the commands before, in order.  [answer]: [None] if the command
    fails or cannot be run, otherwise its output without escape sequences
    (testing/src/logged_assert.rs:10-28).  [metadata]: [None] if it cannot be had.  [patches]: the
    patches and where they are. *)
Record world := mkw { answer : list cmd -> cmd -> option str; metadata : list cmd -> place -> option (list package); patches : str -> option str }.

(** Steps of the test: a command that has to succeed, one that need not, a look at a package's
    dependencies, a command whose output is looked at, and a panic. *)
Inductive step := Must (c : cmd) | May (c : cmd) | Depends (d : place) (name : str) | Looks (c : cmd) (ok : str -> bool) | Metadata (d : place) | Fails.

(** third-party/tests/third_party.rs:189-206 [check_test_fuzz_dependency]. *)
Definition depends (l : option (list package)) (name : str) : bool :=
  match l with
  | None => false
  | Some ps =>
      match find (fun p => str_eqb (p_name p) name) ps with
      | None => false
      | Some p => match find (fun d => str_eqb (d_name d) (lit "test-fuzz")) (p_deps p) with
                  | Some d => match d_path d with Some _ => true | None => false end
                  | None => false
                  end
      end
  end.

(** third-party/tests/third_party.rs:119-128. *)
Definition updated : list str := map lit ["ahash@0.7.6"; "ahash@0.7.7"; "libc"; "num-bigint@0.4.0"; "proc-macro2@1"; "serde_json"; "tempfile"; "wasm-bindgen"]%string.

(** third-party/tests/third_party.rs:208-238 [test_fuzz], up to what is looked for. *)
Definition tool : str := lit "debug/cargo-test-fuzz".
Definition test_fuzz (feature : str) (t : test) (target : str) (arg : string) (ok : str -> bool) : list step :=
  [Must (mkc Here [] (map lit ["cargo"; "build"; "--package=cargo-test-fuzz"]%string)); Metadata Here;
   Looks (mkc (Sub (t_subdir t)) [(lit "RUST_LOG", Some (lit "debug"))]
            ([tool; lit "test-fuzz"; lit "--package"; t_fuzz_package t; lit "--features"; lit "test-fuzz/" ++ feature; target; lit arg])) ok].

(** third-party/tests/third_party.rs:158-176. *)
Definition cargo_test (feature : str) (t : test) (more : list string) : step :=
  Must (mkc (Sub (t_subdir t)) [(lit "RUSTUP_TOOLCHAIN", None); (lit "TEST_FUZZ_WRITE", Some (lit "1"))]
         ([lit "cargo"; lit "test"; lit "--package"; t_test_package t; lit "--features"; lit "test-fuzz/" ++ feature] ++ map lit more ++ [lit "--"; lit "--nocapture"])).

(** third-party/tests/third_party.rs:66-186 [run_test]; making the new directory succeeds, and what is
    written to stderr before is left out. *)
Definition steps (w : world) (feature : str) (t : test) (no_run : bool) : list step :=
  [Must (mkc Temp [] [lit "git"; lit "clone"; t_url t; lit "."]); Must (mkc Temp [] [lit "git"; lit "checkout"; t_rev t])] ++
  match patch (t_url t) with
  | Ret p => match patches w p with
             | Some f => [Must (mkc Temp [] [lit "git"; lit "apply"; f])]
             | None => [Fails]
             end
  | _ => [Fails]
  end ++
  map (fun p => May (mkc (Sub (t_subdir t)) [] [lit "cargo"; lit "update"; lit "-p"; p])) updated ++
  [Depends (Sub (t_subdir t)) (t_test_package t); Depends (Sub (t_subdir t)) (t_fuzz_package t)] ++
  if no_run then [] else
  map (cargo_test feature t) [["--no-run"; "--quiet"]%string; []] ++
  flat_map (fun x => test_fuzz feature t x "--display=corpus" display_ok ++ test_fuzz feature t x "--replay=corpus" replay_ok) (t_targets t).

(** Taking steps after [h]: the commands that have been run, and whether there was no panic. *)
Fixpoint take (w : world) (h : list cmd) (l : list step) : list cmd * bool :=
  match l with
  | [] => (h, true)
  | Must c :: l => match answer w h c with Some _ => take w (h ++ [c]) l | None => (h ++ [c], false) end
  | May c :: l => take w (h ++ [c]) l
  | Depends d n :: l => if depends (metadata w h d) n then take w h l else (h, false)
  | Metadata d :: l => match metadata w h d with Some _ => take w h l | None => (h, false) end
  | Looks c ok :: l => match answer w h c with
                       | Some out => if ok out then take w (h ++ [c]) l else (h ++ [c], false)
                       | None => (h ++ [c], false)
                       end
  | Fails :: _ => (h, false)
  end.

(** third-party/tests/third_party.rs:51-64 [test]; the tests are those of third_party.json (45-49).
    The world may be another one for each test. *)
Fixpoint test_all (feature : str) (full nightly : bool) (l : list (world * test)) : list (list cmd) * bool :=
  match l with
  | [] => ([], true)
  | (w, t) :: l =>
      let (h, ok) := take w [] (steps w feature t (no_run full nightly (t_flags t))) in
      if ok then let (hs, r) := test_all feature full nightly l in (h :: hs, r) else ([h], false)
  end.
