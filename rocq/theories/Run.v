(** A whole invocation of [cargo test-fuzz]. *)
From Coq Require Import String List Ascii Bool Arith NArith Lia.
From stdpp Require Import gmap strings.
From Verif Require Import Base Utf8 Lossy Decimal Env Dirs Opts Targets Semver Sha1 Fs Write Meta FuzzCmd Build AutoGen.
From Verif Require Consolidate Entries Sched Ui.
Import ListNotations.
Local Open Scope nat_scope.

(** Everything the outside world answers during an invocation. *)
Record world := {
  w_cargo : cargo;                              (** metadata and [llvm-cov show-env] *)
  w_parse : str -> option version;              (** semver's [Version::parse] *)
  w_afl : option bytes;                         (** stdout of [cargo afl --version] *)
  w_terminal : bool;                            (** stderr is a terminal *)
  w_build : list str -> option (bool * list message); (** the build: success and messages; [None]: not started, or unreadable messages *)
  w_listing : executable -> bytes;              (** test listings *)
  w_self : version;                             (** this tool's version *)
  w_show : version -> str;                      (** semver's [Display] of a version *)
  w_id : option str;                            (** TEST_FUZZ_ID *)
  w_io : Consolidate.io;                        (** the file system when consolidating and resetting *)
  w_width : option nat;                         (** columns of the terminal *)
  w_clean : bool;                               (** [llvm-cov clean] succeeds *)
  w_eio : executable -> str -> Entries.eio;     (** entries of a target *)
  w_lcov : option bool;                         (** whether lcov.info exists; [None]: error *)
  w_report : list str -> bool;                  (** [llvm-cov report] succeeds *)
  w_gen : generator;                            (** auto-generation *)
  w_cpus : nat;                                 (** number of processors *)
  w_checks : bool;                              (** overflow checks are compiled in *)
  w_foreground : bool;                          (** the foreground fuzzer succeeds *)
  w_strip : bytes -> bytes;                     (** removal of escape sequences *)
  w_session : list Sched.input;                 (** what happens during parallel fuzzing *)
}.

(** What the invocation does, in order. *)
Inductive act :=
| AVersion                                       (** [cargo afl --version] *)
| ABuild (args : list str) (silent : bool)       (** [cargo ...] *)
| ACompiler (text : str)                         (** a compiler message, on stderr *)
| AListTests (x : executable)                    (** an executable is asked for its tests *)
| AVersionNote (m : vmsg)                        (** a version hint *)
| APrintList (ets : list (executable * list str))
| AConsolidate
| AReset
| AClean                                         (** [cargo llvm-cov clean] *)
| AHeading (s : str)                             (** the name of a target, on stdout *)
| ATarget (x : executable) (target : str) (dir : path) (es : list Entries.ev)
| AReport (args : list str)                      (** [cargo llvm-cov report] *)
| ANote (s : str)                                (** a message on stderr *)
| AGenerate (att : list (exe * str)) (notes : list str) (** auto-generation: attempts, messages on stderr *)
| ACpus (s : str)                                (** the message about too few cpus *)
| AForeground (args : list str)                  (** [cargo afl fuzz] in the foreground *)
| AParallel (os : list Sched.out).               (** the parallel loop *)

(** How a phase ends. *)
Inductive rres (A : Type) :=
| ROk (a : A) | RErr (e : str) | RPanic | RExit (code : nat) | RRunning.
Arguments ROk {A}. Arguments RErr {A}. Arguments RPanic {A}. Arguments RExit {A}. Arguments RRunning {A}.

(** Phases with their effect on the data directories and their actions. *)
Definition phase (A : Type) := fs -> fs * list act * rres A.

Definition pret {A} (a : A) : phase A := fun m => (m, [], ROk a).
Definition plift {A} (x : outcome A) : phase A :=
  fun m => (m, [], match x with Ret a => ROk a | Err e => RErr e | Panic => RPanic end).
Definition pact (a : act) : phase unit := fun m => (m, [a], ROk tt).
Definition pbind {A B} (x : phase A) (f : A -> phase B) : phase B := fun m =>
  match x m with
  | (m1, t1, ROk a) => match f a m1 with (m2, t2, r) => (m2, t1 ++ t2, r) end
  | (m1, t1, RErr e) => (m1, t1, RErr e)
  | (m1, t1, RPanic) => (m1, t1, RPanic)
  | (m1, t1, RExit n) => (m1, t1, RExit n)
  | (m1, t1, RRunning) => (m1, t1, RRunning)
  end.
Notation "'do' x <- p ; q" := (pbind p (fun x => q)) (at level 100, x name, p at level 99, right associativity).
Notation "'do_' p ; q" := (pbind p (fun _ => q)) (at level 100, p at level 99, right associativity).

Definition perr {A} (s : str) : phase A := plift (Err s).

Fixpoint pfor {A} (f : A -> phase unit) (l : list A) : phase unit :=
  match l with [] => pret tt | a :: l' => do_ f a; pfor f l' end.

Fixpoint pmap {A B} (f : A -> phase B) (l : list A) : phase (list B) :=
  match l with [] => pret [] | a :: l' => do b <- f a; do bs <- pmap f l'; pret (b :: bs) end.

(** The views of an executable the other files use. *)
Definition as_vexe (x : executable) : vexe := mkvexe (ex_name x) (ex_test_fuzz x) (ex_afl x).
Definition as_exe (x : executable) : exe := {| FuzzCmd.x_path := ex_path x; FuzzCmd.x_name := ex_name x |}.

(** cargo-test-fuzz/src/lib.rs:286-295: objects valid for [--coverage]. *)
Definition coverage_object_ok (b : object) : bool :=
  match b with Corpus_ | Crashes | Hangs | Queue => true | _ => false end.
(** cargo-test-fuzz/src/lib.rs:296-302: objects valid for [--replay]. *)
Definition replay_object_ok (b : object) : bool :=
  match b with ImplGenericArgs_ | GenericArgs_ => false | _ => true end.

(** cargo-test-fuzz/src/lib.rs:71-84: the names of the variants (strum's [Display]). *)
Definition object_variant (b : object) : str :=
  match b with
  | Corpus_ => lit "Corpus" | CorpusInstrumented => lit "CorpusInstrumented" | Crashes => lit "Crashes"
  | CrashesInstrumented => lit "CrashesInstrumented" | GenericArgs_ => lit "GenericArgs" | Hangs => lit "Hangs"
  | HangsInstrumented => lit "HangsInstrumented" | ImplGenericArgs_ => lit "ImplGenericArgs" | Queue => lit "Queue"
  | QueueInstrumented => lit "QueueInstrumented"
  end.
(** heck's [to_kebab_case] (external), on letters: each upper case letter starts a word.
    Simplification: runs of upper case letters, which do not occur, are not treated. *)
Definition is_upper (c : ascii) : bool := (65 <=? N_of_ascii c)%N && (N_of_ascii c <=? 90)%N.
Definition to_lower (c : ascii) : ascii := if is_upper c then ascii_of_N (N_of_ascii c + 32) else c.
Definition kebab (s : str) : str :=
  match s with
  | [] => []
  | c :: s' => to_lower c :: flat_map (fun c => if is_upper c then lit "-" ++ [to_lower c] else [c]) s'
  end.
(** cargo-test-fuzz/src/lib.rs:292-293, 299-300. *)
Definition invalid_object (option : str) (b : object) : str :=
  lit "`" ++ option ++ lit " " ++ kebab (object_variant b) ++ lit "` is invalid.".

(** cargo-test-fuzz/src/lib.rs:743-757: the texts. *)
Definition vmsg_text (show : version -> str) (m : vmsg) : str :=
  match m with
  | Newer n d dv b bv =>
      lit "`" ++ n ++ lit "` depends on `" ++ d ++ lit " " ++ show dv ++ lit "`, which is newer than `" ++ b ++ lit " " ++ show bv
      ++ lit "`. Consider upgrading with `cargo install " ++ b ++ lit " --force --version '>=" ++ show dv ++ lit "'`."
  | Incompatible n d dv b bv =>
      lit "`" ++ n ++ lit "` depends on `" ++ d ++ lit " " ++ show dv ++ lit "`, which is incompatible with `" ++ b ++ lit " " ++ show bv ++ lit "`."
  | Missing n d => lit "`" ++ n ++ lit "` does not depend on `" ++ d ++ lit "`"
  end.

Section Run.
  Variables (w : world) (o : opts).
  Let td : path := q_td (w_cargo w).

  (** cargo-test-fuzz/src/lib.rs:495-499. *)
  Definition p_compiler (x : message) : phase unit :=
    match x with CompilerMessage s => pact (ACompiler s) | _ => pret tt end.

  (** cargo-test-fuzz/src/lib.rs:425-529 [build]; the run is the first in its process. *)
  Definition p_build : phase (list executable) :=
    do r <- plift (prepare (w_cargo w) no_caches o);
    let '(md, tdir, _) := snd r in
    let args := build_args o tdir (w_terminal w) in
    do_ pact (ABuild args (silence_stderr o));
    match w_build w args with
    | None => perr (lit "`start` failed")
    | Some (false, ms) => do_ pfor p_compiler ms; perr (lit "Command failed")
    | Some (true, ms) => plift (executables (mt_md md) ms)
    end.

  (** cargo-test-fuzz/src/lib.rs:308-312, 598-614: the executables are asked one after another. *)
  Definition p_targets (xs : list executable) : phase (list (executable * list str)) :=
    do ls <- pmap (fun x => do_ pact (AListTests x); do ts <- plift (targets (w_listing w x)); pret (x, ts)) xs;
    let l := List.filter (fun et => match snd et with [] => false | _ => true end) ls in
    pret (match o_ztarget o with
          | Some pat => filter_executable_targets (o_exact o) pat l
          | None => l
          end).

  (** cargo-test-fuzz/src/lib.rs:682-703; a mismatch is an error, hints are printed. *)
  Definition p_versions (afl : version) (l : list (executable * list str)) : phase unit :=
    let r := check_versions (w_self w) afl (map (fun et => as_vexe (fst et)) l) in
    do_ pfor (fun m => pact (AVersionNote m)) (fst r);
    match snd r with None => pret tt | Some e => perr (vmsg_text (w_show w) e) end.

  Definition p_io (a : act) (f : fs -> Consolidate.res) : phase unit := fun m =>
    match f m with
    | (m', _, Ret _) => (m', [a], ROk tt)
    | (m', _, Err e) => (m', [a], RErr e)
    | (m', _, Panic) => (m', [a], RPanic)
    end.

  Definition by_name (l : list (executable * list str)) : list (str * list str) :=
    map (fun et => (ex_name (fst et), snd et)) l.

  (** cargo-test-fuzz/src/lib.rs:332-344. *)
  Definition p_clear (with_consolidate : bool) (l : list (executable * list str)) : phase unit :=
    do_ (if with_consolidate then p_io AConsolidate (Consolidate.consolidate (w_io w) td (w_id w) o (by_name l)) else pret tt);
    p_io AReset (Consolidate.reset (w_io w) td (w_id w) o (by_name l)).

  (** cargo-test-fuzz/src/lib.rs:370-384: the object whose directory is processed. *)
  Definition chosen_object : option object :=
    match o_coverage o with
    | Some b => Some b
    | None => match o_display o with
              | Some b => Some b
              | None => o_replay o
              end
    end.

  (** cargo-test-fuzz/src/lib.rs:362-387, one target.  The default of line 385 cannot
      be reached. *)
  Definition p_entries (xt : executable * str) : phase unit :=
    match chosen_object with
    | None => pret tt
    | Some b =>
        do f <- plift (Entries.flags_and_dir td (w_id w) b (ex_name (fst xt)) (snd xt));
        let '(rct, raw, dir) := f in
        let r := Entries.for_each_entry dir o (snd xt) rct raw (w_eio w (fst xt) (snd xt)) in
        do_ pact (ATarget (fst xt) (snd xt) dir (fst r));
        plift (snd r)
    end.

  (** cargo-test-fuzz/src/lib.rs:390-411. *)
  Definition report_args : list str :=
    map lit ["llvm-cov"; "report"; "--lcov"; "--output-path=lcov.info"]%string
    ++ flag_opt (lit "--manifest-path") (o_manifest_path o).
  Definition wrote_lcov : str :=
    lit "Wrote lcov to `lcov.info`. To view it as html, try running:" ++ [LF; LF]
    ++ lit "    genhtml lcov.info --output-directory coverage && open coverage/index.html" ++ [LF].
  Definition p_report : phase unit :=
    match w_lcov w with
    | None => perr (lit "Could not determine whether lcov.info exists")
    | Some e => do_ (if e then pact (ANote (lit "Warning: Overwriting lcov.info")) else pret tt);
                do_ pact (AReport report_args);
                if w_report w report_args then pact (ANote wrote_lcov) else perr (lit "Command failed")
    end.

  (** cargo-test-fuzz/src/lib.rs:356-366: the heading of a target, if there are several. *)
  Definition p_heading (multiple : bool) (target : str) : phase unit :=
    if multiple then
      do d <- plift (Ui.divider_with_width (w_strip w) target (match w_width w with Some n => n | None => List.length target + 4 end));
      pact (AHeading d)
    else pret tt.

  (** cargo-test-fuzz/src/lib.rs:346-416. *)
  Definition p_show (l : list (executable * list str)) : phase unit :=
    let coverage := is_some (o_coverage o) in
    do_ (if coverage then do_ pact AClean; if w_clean w then pret tt else perr (lit "Command failed") else pret tt);
    do fl <- plift (flatten_executable_targets (o_exact o) (o_ztarget o) l);
    do_ pfor (fun xt => do_ p_heading (1 <? List.length fl) (snd xt); p_entries xt) fl;
    if coverage then p_report else pret tt.

  (** cargo-test-fuzz/src/lib.rs:1275-1305: the command started for target number [i] of
      [fl] by the parallel loop on [n] cpus. *)
  Definition start_command (fl : list (executable * str)) (n i : nat) (first : bool) : option (outcome (list str)) :=
    option_map (fun xt => fuzz_args (w_checks w) o {| fc_ui := negb (o_no_ui o); fc_sufficient := List.length fl <=? n; fc_first := first |}
                                    td (w_id w) (as_exe (fst xt)) (snd xt))
               (nth_error fl i).

  (** cargo-test-fuzz/src/lib.rs:1246-1251: said if some of the [n] targets have to wait for one of
      the [k] cpus. *)
  Definition too_few_cpus (k n : nat) : str :=
    lit "Number of cpus (" ++ dec (N.of_nat k) ++ lit ") is less than number of fuzz targets (" ++ dec (N.of_nat n)
    ++ lit "); fuzzing each for " ++ dec (o_slice o) ++ lit " seconds".

  (** cargo-test-fuzz/src/lib.rs:1205-1414 [fuzz].  Simplification: that the fuzzer's
      command line can be computed (1417-1475, only the timeout can fail) is checked
      once before the parallel loop instead of at each start; the fuzzers' effects on
      the data directories are not represented. *)
  Definition p_fuzz (fl : list (executable * str)) : phase unit :=
    if is_some (o_coverage o) then plift Panic
    else
      let xts := map (fun xt => (as_exe (fst xt), snd xt)) fl in
      do_ (fun m => match auto_generate_corpora td (w_id w) (w_gen w) m xts with
                    | (m', att, ns, Ret _) => (m', [AGenerate att ns], ROk tt)
                    | (m', att, ns, Err e) => (m', [AGenerate att ns], RErr e)
                    | (m', att, ns, Panic) => (m', [AGenerate att ns], RPanic)
                    end);
      do p <- plift (fuzz_plan (w_cpus w) o (List.length fl));
      match p, xts with
      | Foreground, (x, t) :: _ =>
          do args <- plift (fuzz_args (w_checks w) o {| fc_ui := negb (o_no_ui o); fc_sufficient := true; fc_first := true |} td (w_id w) x t);
          do_ pact (AForeground args);
          if w_foreground w then pret tt else perr (lit "Command failed")
      | Foreground, [] => pret tt
      | Parallel n, _ =>
          do_ (if List.length fl <=? n then pret tt else pact (ACpus (too_few_cpus n (List.length fl))));
          do_ plift (mapM (fun xt => fuzz_args (w_checks w) o {| fc_ui := negb (o_no_ui o); fc_sufficient := List.length fl <=? n; fc_first := true |}
                                               td (w_id w) (fst xt) (snd xt)) (firstn 1 xts));
          let k := {| Sched.k_names := map snd fl; Sched.k_cpus := n; Sched.k_no_ui := o_no_ui o;
                      Sched.k_exit_code := o_exit_code o |} in
          let r := Sched.run (w_strip w) k (Sched.s_init k) (w_session w) in
          do_ pact (AParallel (snd r));
          match fst r with
          | Sched.Go _ => fun m => (m, [], RRunning)
          | Sched.Finished x => plift x
          | Sched.Exit1 => fun m => (m, [], RExit 1)
          end
      end.

  (** cargo-test-fuzz/src/lib.rs:317-421: the choice of what to do. *)
  Definition dispatch (l : list (executable * list str)) : phase unit :=
    if o_list o then pact (APrintList l)
    else if o_no_run o then pret tt
    else if o_consolidate_all o || o_reset_all o then p_clear (o_consolidate_all o) l
    else if o_consolidate o || o_reset o then p_clear (o_consolidate o) l
    else if is_some (o_coverage o) || is_some (o_display o) || is_some (o_replay o) then p_show l
    else do fl <- plift (flatten_executable_targets (o_exact o) (o_ztarget o) l); p_fuzz fl.

  (** cargo-test-fuzz/src/lib.rs:304-315: preparation. *)
  Definition p_prepare : phase (list (executable * list str)) :=
    do_ pact AVersion;
    do afl <- plift (cached_cargo_afl_version (w_parse w) (w_afl w));
    do xs <- p_build;
    do l <- p_targets xs;
    do_ p_versions afl l;
    pret l.

  (** cargo-test-fuzz/src/lib.rs:286-302. *)
  Definition p_object (name : str) (ok : object -> bool) (x : option object) : phase unit :=
    match x with
    | Some b => if ok b then pret tt else perr (invalid_object name b)
    | None => pret tt
    end.

  (** cargo-test-fuzz/src/lib.rs:285-422 [run_without_exit_code]. *)
  Definition run_without_exit_code : phase unit :=
    do_ p_object (lit "--coverage") coverage_object_ok (o_coverage o);
    do_ p_object (lit "--replay") replay_object_ok (o_replay o);
    do l <- p_prepare; dispatch l.
End Run.

(** cargo-test-fuzz/src/lib.rs:266-272: [--exit-code] implies [--no-ui]. *)
Definition adjust (o : opts) : opts :=
  if o_exit_code o then
    {| o_backtrace := o_backtrace o; o_consolidate := o_consolidate o; o_consolidate_all := o_consolidate_all o;
       o_coverage := o_coverage o; o_cpus := o_cpus o; o_display := o_display o; o_exact := o_exact o;
       o_exit_code := o_exit_code o; o_features := o_features o; o_list := o_list o;
       o_manifest_path := o_manifest_path o; o_max_total_time := o_max_total_time o;
       o_no_default_features := o_no_default_features o; o_no_run := o_no_run o; o_no_ui := true;
       o_package := o_package o; o_persistent := o_persistent o; o_pretty := o_pretty o; o_release := o_release o;
       o_replay := o_replay o; o_reset := o_reset o; o_reset_all := o_reset_all o; o_resume := o_resume o;
       o_run_until_crash := o_run_until_crash o; o_slice := o_slice o; o_test := o_test o; o_timeout := o_timeout o;
       o_verbose := o_verbose o; o_ztarget := o_ztarget o; o_zzargs := o_zzargs o |}
  else o.

(** cargo-test-fuzz/src/lib.rs:265-281 [run]. *)
Definition run (w : world) (o : opts) : phase unit := fun m =>
  match run_without_exit_code w (adjust o) m with
  | (m', t, RErr e) => (m', t, if o_exit_code o then RExit 2 else RErr e)
  | r => r
  end.

(** cargo-test-fuzz/src/bin/cargo_test_fuzz/main.rs:9-15 and std's handling of the
    result of [main]: the status of the process ([None]: still running).  Panics
    unwind to 101 (the default panic runtime). *)
Definition status (r : rres unit) : option nat :=
  match r with
  | ROk _ => Some 0
  | RErr _ => Some 1
  | RPanic => Some 101
  | RExit n => Some n
  | RRunning => None
  end.

(** cargo-test-fuzz/src/lib.rs:274-280, bin/cargo_test_fuzz/main.rs:9-15 and std's handling of the
    result of [main]: the report of an error on standard error.  Simplification: only the
    outermost message; its causes and the backtrace follow it. *)
Definition complaint (w : world) (o : opts) (m : fs) : option str :=
  match run_without_exit_code w (adjust o) m with
  | (_, _, RErr e) => Some (if o_exit_code o then e else lit "Error: " ++ e)
  | _ => None
  end.
