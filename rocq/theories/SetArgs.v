(** Recording a hash set. *)
From Coq Require Import List Ascii String Bool Arith Lia NArith.
From Verif Require Import Base Utf8 Serde.
From Verif Require Postcard Bincode.
Import ListNotations.

(** fuzzable/tests/arc.rs:24-27: what is recorded of a call of [target].  A set is serialised as the
    sequence of its elements in the order of its iterator (serde and std, external), which depends
    on a state that is random in each process. *)
Definition set_call (order : list N) (i : N) : val := VTuple [VSeq (map (VUInt W32) order); VUInt W64 i].
Definition set_call_ty : ty := TTuple [TSeq (TUInt W32); TUInt W64].

(** fuzzable/tests/arc.rs:6-22, the test: all threads share one set, so they have the same order.  It
    does not wait for its threads: [ran] are the numbers of those that get to record. *)
Definition set_test (order : list N) (ran : list N) : list val := map (set_call order) ran.

(** fuzzable/tests/arc.rs:26: what the target shows. *)
Definition shown_element (order : list N) (i : N) : option N := nth_error order (N.to_nat i).

(** Reading a set: the elements are inserted one by one ([HashSet], external); the result is given by
    its members. *)
Definition members (v : val) : option (N -> bool) :=
  match v with
  | VTuple [VSeq l; VUInt W64 _] =>
      Some (fun x => existsb (fun v => match v with VUInt W32 n => N.eqb n x | _ => false end) l)
  | _ => None
  end.

(** * Specification *)

(** A set of numbers of the type, with an order. *)
Definition a_set (order : list N) : Prop :=
  NoDup order /\ Forall (fun n => (n < 2 ^ 32)%N) order.
