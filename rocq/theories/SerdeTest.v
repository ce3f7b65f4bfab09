(** The test that the names of variants are not recorded. *)
From Coq Require Import List Ascii String Bool Arith Lia NArith.
From Verif Require Import Base Utf8 Serde.
From Verif Require Postcard Bincode.
Import ListNotations.
Local Open Scope N_scope.

(** [u8::is_ascii_uppercase] (std). *)
Definition is_upper (a : ascii) : bool := (65 <=? byte a) && (byte a <=? 90).
(** test-fuzz/tests/integration/serde_format.rs:21-32: the loop over the entries of the corpus;
    [false] is a failed assertion. *)
Definition no_names (entries : list bytes) : bool := forallb (fun e => negb (existsb is_upper e)) entries.

(** fuzzable/tests/serde.rs:189-214: what is recorded for a call with unit variants (with the given
    indices), a structure of them; it is the same for any enums.  References are recorded as what
    they refer to. *)
Definition unit_variants (is : list nat) : val := VTuple (map (fun i => VEnum i VUnit) is).

(** * Specification *)

(** The most significant digit to the base 128 is the code of an uppercase letter. *)
Definition begins_upper (n : N) : Prop := exists k, 65 <= n / 128 ^ N.of_nat k <= 90.
(** The number is the code of an uppercase letter, or it does not fit a single byte (of bincode's
    numbers) and one of its digits to the base 256 is. *)
Definition has_upper (n : N) : Prop :=
  n <= 250 /\ 65 <= n <= 90 \/ 250 < n /\ exists k, 65 <= (n / 256 ^ N.of_nat k) mod 256 <= 90.
