(** The tests that fuzz samples and expect an exit code. *)
From Coq Require Import List Ascii String Bool Arith Lia NArith.
From Verif Require Import Base Fs Opts Run Support.
Import ListNotations.
Local Open Scope nat_scope.

(** How such a test ends: with success or failure, or not at all. *)
Inductive verdict := TPass | TFail | THang.

(** cargo-test-fuzz/tests/integration/fuzz.rs:32-46, fuzz_generic.rs:36-48, fuzz_cast.rs:26-33,
    fuzz_profile.rs:26-33 and fuzz_parallel.rs:25-39, 70-84, under the control of
    testing/src/retry.rs:12-27: the attempts, each in its own world and on the files that are there
    then; the test waits for each attempt. *)
Fixpoint attempts (code : nat) (o : opts) (l : list (world * fs)) : verdict :=
  match l with
  | [] => TFail
  | (w, m) :: l =>
      match status (snd (run w o m)) with
      | None => THang
      | Some n => if n =? code then TPass else attempts code o l
      end
  end.

(** The same with the model of [retry] (testing/src/retry.rs:4-30), for attempts that end. *)
Definition attempt_at (code : nat) (o : opts) (l : list (world * fs)) (i : nat) : unit + unit :=
  match nth_error l (i - 1) with
  | Some (w, m) => match status (snd (run w o m)) with Some n => if n =? code then inl tt else inr tt | None => inr tt end
  | None => inr tt
  end.
