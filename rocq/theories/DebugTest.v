(** The samples whose arguments cannot be shown. *)
From Coq Require Import List Ascii String Bool Arith NArith Lia.
From Verif Require Import Base Utf8 Serde Harness Entries.
From Verif Require Postcard.
Import ListNotations.

(** fuzzable/tests/debug.rs:5-6, 15: the arguments, a structure without fields. *)
Definition debug_ty : ty := TTuple [TUnit].

(** fuzzable/tests/debug.rs:1-16: the user code of the sample that panics: showing the arguments does
    not return, the target does nothing. *)
Definition crash_user (eof_zero sticky : bool) : user unit unit := {|
  u_decode s := match Postcard.deserialize eof_zero sticky (fun _ => TUnit) 2 debug_ty s with
                | Postcard.Value _ => Decoded tt
                | Postcard.NoValue => NotDecoded
                | Postcard.StackOverflow => DecodePanic
                end;
  u_show_args _ := false;
  u_target _ := Some tt;
  u_show_ret _ := true;
|}.

(** fuzzable/tests/debug.rs:18-34: the process of the sample that does not come back from showing its
    arguments, while they are displayed; [b]: what it has written to stderr until then. *)
Definition hang_process (b : bytes) : pres := PTimeout b.

(** cargo-test-fuzz/tests/integration/display.rs:12-33: the texts looked for on stderr. *)
Definition crash_note : str :=
  lit "Encountered a failure while not generating coverage and not replaying. A buggy Debug implementation perhaps?".
Definition hang_note : str :=
  lit "Encountered a timeout while not generating coverage and not replaying. A buggy Debug implementation perhaps?".

(** cargo-test-fuzz/tests/integration/display.rs:41-47: the checks on stdout and stderr of a successful
    run that shows one target. *)
Definition display_check (expected_out expected_err : str) (es : list ev) : bool :=
  contains expected_out (List.concat (map (fun e => match e with Out s => s | _ => [] end) es)) &&
  contains expected_err (List.concat (map (fun e => match e with Note s => s ++ [LF] | _ => [] end) es)).
