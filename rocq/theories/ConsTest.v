(** The test of consolidating, with its repetitions. *)
From Coq Require Import List Ascii String Bool Arith Lia NArith.
From Verif Require Import Base Utf8 Serde Support.
From Verif Require Postcard Bincode.
Import ListNotations.
Local Open Scope nat_scope.

(** What fuzzing once leaves in the three directories that consolidating empties
    (cargo-test-fuzz/src/lib.rs:767-808). *)
Record found := mkf { f_crashes : list bytes; f_hangs : list bytes; f_queue : list bytes }.
Definition all_found (f : found) : list bytes := f_crashes f ++ f_hangs f ++ f_queue f.

(** Whether consolidating has the contents already: they would get the same name.  Simplification:
    different contents have different names (C01, C46). *)
Fixpoint add_new (corpus : list bytes) (l : list bytes) : list bytes :=
  match l with
  | [] => corpus
  | b :: l => add_new (if in_dec (list_eq_dec ascii_dec) b corpus then corpus else corpus ++ [b]) l
  end.

(** cargo-test-fuzz/tests/integration/consolidate.rs:44-49: after the test of the sample the corpus
    has one entry, [x]; 51-65: the corpus after [i] attempts.  It is not emptied between them. *)
Fixpoint corpus_after (x : bytes) (fuzz : nat -> found) (i : nat) : list bytes :=
  match i with 0 => [x] | S j => add_new (corpus_after x fuzz j) (all_found (fuzz i)) end.

Inductive complaint := NothingNew | NoMatch.
(** cargo-test-fuzz/tests/integration/consolidate.rs:51-76, one attempt.  [line]: what displaying an
    entry puts on stdout; [order]: the order in which the entries of a corpus are read.
    Simplification: the four commands succeed (the test fails otherwise), and nothing but the
    entries is on stdout. *)
Definition attempt (line : bytes -> str) (order : list bytes -> list bytes) (pattern : str) (corpus : list bytes) : unit + complaint :=
  if 1 <? List.length corpus then
    if contains pattern (List.concat (map line (order corpus))) then inl tt else inr NoMatch
  else inr NothingNew.

(** cargo-test-fuzz/tests/integration/consolidate.rs:37-78 [consolidate]. *)
Definition consolidate_test (line : bytes -> str) (order : list bytes -> list bytes) (pattern : str) (x : bytes) (fuzz : nat -> found) : outcome unit :=
  match snd (retry 3 (fun i => attempt line order pattern (corpus_after x fuzz i))) with
  | Ret (inl _) => Ret tt
  | _ => Panic
  end.

(** fuzzable/tests/assert.rs:1-4: what displaying an entry shows, by its decoding; nothing if it cannot
    be decoded. *)
Definition assert_line (decode : bytes -> Postcard.deserialized) (b : bytes) : str :=
  match decode b with
  | Postcard.Value (VTuple [VBool v]) => lit "Args { x: " ++ (if v then lit "true" else lit "false") ++ lit " }" ++ [ascii_of_nat 10]
  | _ => []
  end.
Definition assert_ty : ty := TTuple [TBool].

(** cargo-test-fuzz/tests/integration/consolidate.rs:13-24 and 28-35: the texts looked for.
    fuzzable/tests/assert.rs:7-9: what is recorded. *)
Definition crash_pattern : str := lit "Args { x: true }".
Definition hang_pattern : str := [].
Definition assert_recorded : bytes := Postcard.serialize true false (VTuple [VBool false]).

(** * Specification *)

(** [b] was found in one of the first [n] attempts. *)
Definition found_by (fuzz : nat -> found) (n : nat) (b : bytes) : Prop :=
  exists i, 1 <= i <= n /\ (In b (f_crashes (fuzz i)) \/ In b (f_hangs (fuzz i)) \/ In b (f_queue (fuzz i))).
