(** What an invocation that shows targets leaves on stdout. *)
From Coq Require Import String List Ascii Bool Arith NArith Lia.
From Verif Require Import Base Opts Targets Run.
From Verif Require Entries.
Import ListNotations.

(** cargo-test-fuzz/src/lib.rs:359-364 (a heading and a line feed) and 861-990 (the entries).
    Simplification: only for invocations that show targets; nothing else that they do writes to
    stdout. *)
Definition printed (t : list act) : str :=
  List.concat (map (fun a => match a with AHeading s => s ++ [LF] | ATarget _ _ _ es => Entries.stdout es | _ => [] end) t).

(** * Specification *)

(** What the expression [(?m)^name -+$] of the test finds
    (cargo-test-fuzz/tests/integration/display.rs:68-72), for a name without special characters. *)
Definition finds_heading (name out : str) : Prop :=
  exists a k b, out = a ++ name ++ lit " " ++ repeat "-"%char (S k) ++ b /\
    (a = [] \/ exists t, a = t ++ [LF]) /\ (b = [] \/ exists t, b = LF :: t).
