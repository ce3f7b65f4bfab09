(** What the test of third parties' code looks for in the output of cargo-test-fuzz. *)
From Coq Require Import Ascii String List Bool Arith NArith Lia.
From Verif Require Import Base Utf8 ThirdParty.
Import ListNotations.

(** The lines at whose beginnings and ends [^] and [$] match with [(?m)] (regex crate, external). *)
Definition regex_lines (s : str) : list str := split_on LF s.

(** third-party/tests/third_party.rs:180: [^[[:xdigit:]]{40}:] at the beginning of a line. *)
Definition entry_line (l : str) : bool :=
  (List.length (firstn 40 l) =? 40) && forallb xdigit_b (firstn 40 l) && starts_with (lit ":") (skipn 40 l).
(** third-party/tests/third_party.rs:184: [^[[:xdigit:]]{40}: Ret\((Ok|Err)\(.*\)\)$] on a line; of the
    two words at most one fits. *)
Definition ret_text (s : str) : bool :=
  match strip_prefix (lit "Ret(") s with
  | None => false
  | Some r =>
      let rest p := match strip_prefix p r with Some t => match strip_suffix (lit "))") t with Some _ => true | None => false end | None => false end in
      rest (lit "Ok(") || rest (lit "Err(")
  end.
Definition ret_line (l : str) : bool :=
  (List.length (firstn 40 l) =? 40) && forallb xdigit_b (firstn 40 l) &&
  match strip_prefix (lit ": ") (skipn 40 l) with Some r => ret_text r | None => false end.

(** third-party/tests/third_party.rs:179-181: the checks of displaying. *)
Definition display_ok (out : str) : bool :=
  existsb entry_line (regex_lines out) && negb (contains (lit "unknown of type") out).
(** third-party/tests/third_party.rs:183-185: the check of replaying. *)
Definition replay_ok (out : str) : bool := existsb ret_line (regex_lines out).

(** cargo-test-fuzz/src/lib.rs:973-979: what is on stdout for an entry: its name and a text, ended if
    need be. *)
Definition shown (e : str * str) : str := fst e ++ lit ": " ++ snd e ++ [LF].

(** * Specification *)

(** A name as recordings give it. *)
Definition hex40 (n : str) : Prop := List.length n = 40 /\ hex n.
(** The text of a result, on one line. *)
Definition result_text (s : str) : Prop := exists w t, (w = lit "Ok(" \/ w = lit "Err(") /\ s = lit "Ret(" ++ w ++ t ++ lit "))".
