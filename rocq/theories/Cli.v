(** The command line of [cargo test-fuzz].  The parser is the external crate clap (4.x);
    what is modelled of it is what its builder is asked for in transition.rs: flags,
    options with one value, one positional argument, and arguments after [--]. *)
From Coq Require Import List Ascii String Bool Arith NArith Lia.
From Verif Require Import Base Utf8 Env Opts Decimal.
Import ListNotations.

(** cargo-test-fuzz/src/bin/cargo_test_fuzz/transition.rs:27-151, the [bool] fields. *)
Inductive flag :=
  | FBacktrace | FConsolidate | FConsolidateAll | FExact | FExitCode | FList | FNoDefaultFeatures | FNoInstrumentation
  | FNoRun | FNoUi | FPersistent | FPretty | FRelease | FReset | FResetAll | FResume | FRunUntilCrash | FVerbose.

(** cargo-test-fuzz/src/bin/cargo_test_fuzz/transition.rs:37-146, the fields with a value. *)
Inductive vopt :=
  | OCoverage | OCpus | ODisplay | OFeatures | OManifestPath | OMaxTotalTime | OPackage | OReplay | OSlice | OTest | OTimeout.

Definition flag_eq_dec (a b : flag) : {a = b} + {a <> b}. Proof. decide equality. Defined.
Definition vopt_eq_dec (a b : vopt) : {a = b} + {a <> b}. Proof. decide equality. Defined.

(** cargo-test-fuzz/src/bin/cargo_test_fuzz/transition.rs:26-151: the long names (the field
    names in kebab case, and one alias, 101). *)
Definition long_names : list (str * (flag + vopt)) :=
  [(lit "backtrace", inl FBacktrace); (lit "consolidate", inl FConsolidate); (lit "consolidate-all", inl FConsolidateAll);
   (lit "coverage", inr OCoverage); (lit "cpus", inr OCpus); (lit "display", inr ODisplay); (lit "exact", inl FExact);
   (lit "exit-code", inl FExitCode); (lit "features", inr OFeatures); (lit "list", inl FList);
   (lit "manifest-path", inr OManifestPath); (lit "max-total-time", inr OMaxTotalTime);
   (lit "no-default-features", inl FNoDefaultFeatures); (lit "no-instrumentation", inl FNoInstrumentation);
   (lit "no-run", inl FNoRun); (lit "no-ui", inl FNoUi); (lit "package", inr OPackage); (lit "persistent", inl FPersistent);
   (lit "pretty", inl FPretty); (lit "pretty-print", inl FPretty); (lit "release", inl FRelease); (lit "replay", inr OReplay);
   (lit "reset", inl FReset); (lit "reset-all", inl FResetAll); (lit "resume", inl FResume);
   (lit "run-until-crash", inl FRunUntilCrash); (lit "slice", inr OSlice); (lit "test", inr OTest); (lit "timeout", inr OTimeout);
   (lit "verbose", inl FVerbose)].

(** cargo-test-fuzz/src/lib.rs:71-84: the names of objects (derived [ValueEnum], kebab case). *)
Definition object_names : list (str * object) :=
  [(lit "corpus", Corpus_); (lit "corpus-instrumented", CorpusInstrumented); (lit "crashes", Crashes);
   (lit "crashes-instrumented", CrashesInstrumented); (lit "generic-args", GenericArgs_); (lit "hangs", Hangs);
   (lit "hangs-instrumented", HangsInstrumented); (lit "impl-generic-args", ImplGenericArgs_); (lit "queue", Queue);
   (lit "queue-instrumented", QueueInstrumented)].

Fixpoint assoc {B} (l : list (str * B)) (k : str) : option B :=
  match l with
  | [] => None
  | (k', b) :: l => if str_eqb k k' then Some b else assoc l k
  end.

(** [u64::from_str], [usize::from_str] on 64-bit targets (std). *)
Fixpoint digits (s : str) (acc : N) : option N :=
  match s with
  | [] => Some acc
  | c :: s =>
      let n := N_of_ascii c in
      if (48 <=? n)%N && (n <=? 57)%N then
        let acc := (10 * acc + (n - 48))%N in
        if (acc <? 2 ^ 64)%N then digits s acc else None
      else None
  end.
Definition parse_u64 (s : str) : option N :=
  let s := match s with "+"%char :: s => s | _ => s end in
  match s with [] => None | _ => digits s 0 end.

(** What has been read: the flags, the values and the target, latest first; an option still
    without its value. *)
Record raw := { r_flags : list flag; r_vals : list (vopt * str); r_targets : list str; r_pending : option vopt; r_rest : list str }.
Definition raw0 : raw := {| r_flags := []; r_vals := []; r_targets := []; r_pending := None; r_rest := [] |}.
Definition add_flag (f : flag) (r : raw) : raw :=
  {| r_flags := f :: r_flags r; r_vals := r_vals r; r_targets := r_targets r; r_pending := None; r_rest := r_rest r |}.
Definition add_val (k : vopt) (v : str) (r : raw) : raw :=
  {| r_flags := r_flags r; r_vals := (k, v) :: r_vals r; r_targets := r_targets r; r_pending := None; r_rest := r_rest r |}.
Definition await (k : vopt) (r : raw) : raw :=
  {| r_flags := r_flags r; r_vals := r_vals r; r_targets := r_targets r; r_pending := Some k; r_rest := r_rest r |}.
Definition add_target (t : str) (r : raw) : raw :=
  {| r_flags := r_flags r; r_vals := r_vals r; r_targets := t :: r_targets r; r_pending := None; r_rest := r_rest r |}.
Definition set_rest (l : list str) (r : raw) : raw :=
  {| r_flags := r_flags r; r_vals := r_vals r; r_targets := r_targets r; r_pending := None; r_rest := l |}.

(** [name=value] of a long option (clap_lex). *)
Fixpoint split_eq (s : str) : str * option str :=
  match s with
  | [] => ([], None)
  | "="%char :: s => ([], Some s)
  | c :: s => let (n, v) := split_eq s in (c :: n, v)
  end.

(** One argument before [--] (clap's parser); [None]: the tool ends here with a message
    (an error, or help or version information). *)
Definition step (r : raw) (a : str) : option raw :=
  match a with
  | "-"%char :: "-"%char :: l =>
      match r_pending r with
      | Some _ => None
      | None =>
          let (name, v) := split_eq l in
          match assoc long_names name, v with
          | Some (inl f), None => Some (add_flag f r)
          | Some (inr k), None => Some (await k r)
          | Some (inr k), Some v => Some (add_val k v r)
          | _, _ => None
          end
      end
  | "-"%char :: c :: l =>
      match r_pending r with
      | Some _ => None
      | None =>
          if ascii_dec c "p" then
            match l with
            | [] => Some (await OPackage r)
            | "="%char :: v => Some (add_val OPackage v r)
            | v => Some (add_val OPackage v r)
            end
          else None
      end
  | _ =>
      match r_pending r with
      | Some k => Some (add_val k a r)
      | None => Some (add_target a r)
      end
  end.

Fixpoint read (r : raw) (args : list str) : option raw :=
  match args with
  | [] => match r_pending r with Some _ => None | None => Some r end
  | a :: args =>
      if str_eqb a (lit "--") then match r_pending r with Some _ => None | None => Some (set_rest args r) end
      else match step r a with Some r => read r args | None => None end
  end.

(** Each flag and each option except [features] at most once, at most one target (clap). *)
Fixpoint distinct {A} (dec : forall a b : A, {a = b} + {a <> b}) (l : list A) : bool :=
  match l with
  | [] => true
  | a :: l => negb (if in_dec dec a l then true else false) && distinct dec l
  end.
Definition single (r : raw) : bool :=
  distinct flag_eq_dec (r_flags r) &&
  distinct vopt_eq_dec (filter (fun k => if vopt_eq_dec k OFeatures then false else true) (map fst (r_vals r))) &&
  (List.length (r_targets r) <=? 1).

Definition given (r : raw) (f : flag) : bool := if in_dec flag_eq_dec f (r_flags r) then true else false.
Fixpoint value_of (l : list (vopt * str)) (k : vopt) : option str :=
  match l with
  | [] => None
  | (k', v) :: l => if vopt_eq_dec k k' then Some v else value_of l k
  end.

(** [None]: the value is not accepted. *)
Definition conv {A} (f : str -> option A) (v : option str) : option (option A) :=
  match v with
  | None => Some None
  | Some s => match f s with Some a => Some (Some a) | None => None end
  end.

(** cargo-test-fuzz/src/bin/cargo_test_fuzz/transition.rs:26-159 (the types of the fields;
    [slice] has the default 1200) and 161-235 (conversion to [TestFuzz], where only
    [no_instrumentation] has no counterpart). *)
Definition finish (r : raw) : option opts :=
  let val k := value_of (r_vals r) k in
  if single r then
    match conv (assoc object_names) (val OCoverage), conv parse_u64 (val OCpus), conv (assoc object_names) (val ODisplay),
          conv parse_u64 (val OMaxTotalTime), conv (assoc object_names) (val OReplay), conv parse_u64 (val OSlice),
          conv parse_u64 (val OTimeout) with
    | Some coverage, Some cpus, Some display, Some max_total_time, Some replay, Some slice, Some timeout =>
        Some {| o_backtrace := given r FBacktrace; o_consolidate := given r FConsolidate;
                o_consolidate_all := given r FConsolidateAll; o_coverage := coverage; o_cpus := option_map N.to_nat cpus;
                o_display := display; o_exact := given r FExact; o_exit_code := given r FExitCode;
                o_features := rev (map snd (filter (fun kv => if vopt_eq_dec (fst kv) OFeatures then true else false) (r_vals r)));
                o_list := given r FList; o_manifest_path := val OManifestPath; o_max_total_time := max_total_time;
                o_no_default_features := given r FNoDefaultFeatures; o_no_run := given r FNoRun; o_no_ui := given r FNoUi;
                o_package := val OPackage; o_persistent := given r FPersistent; o_pretty := given r FPretty;
                o_release := given r FRelease; o_replay := replay; o_reset := given r FReset;
                o_reset_all := given r FResetAll; o_resume := given r FResume; o_run_until_crash := given r FRunUntilCrash;
                o_slice := match slice with Some n => n | None => 1200%N end; o_test := val OTest; o_timeout := timeout;
                o_verbose := given r FVerbose; o_ztarget := hd_error (r_targets r); o_zzargs := r_rest r |}
    | _, _, _, _, _, _, _ => None
    end
  else None.

(** cargo-test-fuzz/src/bin/cargo_test_fuzz/main.rs:9-15 and transition.rs:252-256: what is run
    for the arguments of the process, the first of which is its name; [None]: nothing. *)
Definition cli (argv : list str) : option opts :=
  match argv with
  | _ :: sub :: args =>
      if str_eqb sub (lit "test-fuzz") then match read raw0 args with Some r => finish r | None => None end else None
  | _ => None
  end.
