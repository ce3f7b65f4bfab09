(** The test that replays crashes: a target that allocates, and the limits it runs with. *)
From Coq Require Import Ascii String List Bool Arith NArith Lia.
From Verif Require Import Base Decimal.
Import ListNotations.
Local Open Scope N_scope.

(** cargo-test-fuzz/tests/integration/replay.rs:17: [MEMORY_LIMIT], in bytes. *)
Definition memory_limit : N := 8 * 1024 * 1024 * 1024.
(** cargo-test-fuzz/tests/integration/replay.rs:33-36: the argument that follows [-m]. *)
Definition limit_arg (limit : N) : str := dec (limit / 1024).

(** afl-fuzz (external), option [-m]: a number and possibly a letter; without one the number is in
    mebibytes.  The result is in mebibytes, too; fewer than five are refused.  Simplification: text
    after the letter is refused, as are spaces and signs; "none" and 0, which stand for no limit,
    are left out. *)
Fixpoint number (s : str) : str * str :=
  match s with
  | c :: s' => if (48 <=? N_of_ascii c) && (N_of_ascii c <=? 57) then let (d, r) := number s' in (c :: d, r) else ([], s)
  | [] => ([], [])
  end.
Definition afl_memory (s : str) : option N :=
  let (d, r) := number s in
  match d with
  | [] => None
  | _ =>
      let mib := match r with
                 | [] | ["M"%char] => Some (value d)
                 | ["T"%char] => Some (value d * 1024 * 1024)
                 | ["G"%char] => Some (value d * 1024)
                 | ["k"%char] => Some (value d / 1024)
                 | _ => None
                 end in
      match mib with Some m => if m <? 5 then None else Some m | None => None end
  end.
(** The limit that afl-fuzz then sets for the target, in bytes. *)
Definition afl_bytes (s : str) : option N := match afl_memory s with Some m => Some (m * (1024 * 1024)) | None => None end.

(** fuzzable/tests/alloc.rs:2-6 with [Vec::<u8>::with_capacity] (std): nothing is allocated for 0,
    more than [isize::MAX] bytes are not asked for.  The allocation fails if it would exceed the
    limit, where [used] bytes of what is limited are in use before. *)
Inductive alloc := Fine | Overflow | Failed (n : N).
Definition target (limit used n : N) : alloc :=
  if 2 ^ 63 <=? n then Overflow
  else if n =? 0 then Fine
  else if limit <? used + n then Failed n else Fine.

(** What the process writes to stderr (std), without what precedes and follows it. *)
Definition message (a : alloc) : str :=
  match a with
  | Fine => []
  | Overflow => lit "capacity overflow"
  | Failed n => lit "memory allocation of " ++ dec n ++ lit " bytes failed"
  end.

(** * Specification *)

(** cargo-test-fuzz/tests/integration/replay.rs:38: the expression
    [\bmemory allocation of \d{10,} bytes failed\b|\bcapacity overflow\b].  [word_end], [word_start]:
    whether a text ends or begins with a word character. *)
Definition finds_crash (word_end word_start : str -> bool) (out : str) : Prop :=
  exists a m b, out = a ++ m ++ b /\ word_end a = false /\ word_start b = false /\
    (m = lit "capacity overflow" \/
     exists d, m = lit "memory allocation of " ++ d ++ lit " bytes failed" /\ Forall is_digit d /\ (10 <= List.length d)%nat).
