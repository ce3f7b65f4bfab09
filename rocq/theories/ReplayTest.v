(** The test that replays hangs. *)
From Coq Require Import Ascii String List Bool Arith NArith Lia.
From Verif Require Import Base Utf8 Lossy Dirs Opts Targets Entries.
Import ListNotations.

Section Word.
(** Whether the last character of a text is one of those that [\w] of the crate regex (external)
    matches; a text without characters has none. *)
Variable word_end : str -> bool.

(** The text after "Timeout" ends there or goes on with a new line. *)
Definition at_end (b : str) : bool := match b with [] => true | c :: _ => if ascii_dec c LF then true else false end.

(** cargo-test-fuzz/tests/integration/replay.rs:45 and 92: whether the expression
    [(?m)\bTimeout$] matches somewhere; [before] is the text that has been tried.  The word boundary
    is before a letter, so it is one exactly if no word character precedes. *)
Fixpoint is_match (before out : str) : bool :=
  (match strip_prefix (lit "Timeout") out with
   | Some b => negb (word_end before) && at_end b
   | None => false
   end) ||
  match out with [] => false | c :: out => is_match (before ++ [c]) out end.

(** * Specification *)

(** A line of the text, or its beginning, is "Timeout" after a word boundary. *)
Definition says_timeout (out : str) : Prop :=
  exists a b, out = a ++ lit "Timeout" ++ b /\ word_end a = false /\ (b = [] \/ exists t, b = LF :: t).

(** Word characters are told from the characters of the line. *)
Definition local : Prop :=
  word_end [] = false /\ (forall t, word_end (t ++ lit " ") = false) /\ (forall t c, word_end (t ++ LF :: c) = word_end c).
End Word.

(** What is on the line or lines of an entry whose process has ended. *)
Definition shown_end (n b : bytes) (status : str) : str :=
  lossy n ++ lit ": " ++ (match b with [] => status | _ => lossy b end).
