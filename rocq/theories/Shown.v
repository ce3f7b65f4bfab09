(** What a harness process writes to stderr, which is what cargo-test-fuzz shows. *)
From Coq Require Import List Ascii String Bool Arith NArith Lia.
From Verif Require Import Base Utf8 Env Decimal Harness Entries.
Import ListNotations.

(** The texts that the harness's output is made of: the [Debug] texts of arguments and of
    return values (pretty or not), what the target itself writes to stderr, the message of
    a panic; the place and name of the function, for the warning about coverage. *)
Record texts (A R : Type) := {
  x_args : bool -> A -> bytes;
  x_ret : bool -> R -> bytes;
  x_call : A -> bytes;
  x_panic : list (hevent A R) -> bytes;
  x_file : str;
  x_line : N;
  x_column : N;
  x_ident : str;
}.
Arguments x_args {A R}. Arguments x_ret {A R}. Arguments x_call {A R}. Arguments x_panic {A R}.
Arguments x_file {A R}. Arguments x_line {A R}. Arguments x_column {A R}. Arguments x_ident {A R}.

Section Shown.
  Context {A R : Type}.
  Variable x : texts A R.

  (** runtime/src/lib.rs:124-129. *)
  Definition warn_text : str :=
    lit "If you are trying to run a test-fuzz-generated fuzzing harness, be sure to run with `TEST_FUZZ=1`." ++ [LF].

  (** macro/src/lib.rs:258-267. *)
  Definition nontrivial_text : str :=
    x_file x ++ lit ":" ++ dec (x_line x) ++ lit ":" ++ dec (x_column x) ++ lit ": Warning: Coverage will not be shown for `" ++ x_ident x
    ++ lit "`. To see coverage for `" ++ x_ident x ++ lit "`, apply `test-fuzz` to a wrapper function that calls `" ++ x_ident x ++ lit "`."
    ++ [LF].

  (** macro/src/lib.rs:561-570 and 634-655: what an event puts to stderr. *)
  Definition event_text (v : hevent A R) : bytes :=
    match v with
    | HWarn => warn_text
    | HWarnNontrivial => nontrivial_text
    | HRead => []
    | HShowArgs pretty a => x_args x pretty a
    | HNewline => [LF]
    | HCall a => x_call x a
    | HShowRet pretty r => x_ret x pretty r
    end.

  (** The whole of stderr.  The message of a panic comes from the panic hook of the test
      runner (std), after everything else.  Simplification: nothing else writes to stderr. *)
  Definition stderr_of (r : list (hevent A R) * hresult) : bytes :=
    List.concat (map event_text (fst r)) ++ match snd r with HPass => [] | _ => x_panic x (fst r) end.

  (** cargo-test-fuzz/src/lib.rs:931-967: the process as for_each_entry sees it, if it ends
      within the time limit; [status] is its exit status as printed. *)
  Definition process_of (status : hresult -> str) (r : list (hevent A R) * hresult) : pres :=
    PExit (stderr_of r) (match snd r with HPass => true | _ => false end) (status (snd r)).
End Shown.
