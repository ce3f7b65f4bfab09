(** What happens to the data directories of a project in the course of time: recording tests,
    fuzzers and invocations of the tool, one after another. *)
From Coq Require Import String List Ascii Bool Arith NArith Lia.
From stdpp Require Import gmap strings.
From Verif Require Import Base Dirs Opts Sha1 Fs Write Meta FuzzCmd Build AutoGen Run.
From Verif Require Consolidate.
Import ListNotations.

(** An instrumented function records [data] in [dir] (runtime/src/lib.rs:171-197), a fuzzer of a
    target has left the file system [after] (afl-fuzz, external), an invocation of the tool
    (cargo-test-fuzz/src/lib.rs:265-281).  Simplification: the events do not overlap; those of
    recorders that do are in WriteConc.v. *)
Inductive event :=
| Recorded (dir : path) (data : bytes)
| Fuzzed (id : option str) (krate target : str) (after : fs)
| Invoked (w : world) (o : opts).

Definition happen (m : fs) (e : event) : fs :=
  match e with
  | Recorded d x => (write_data m d x).1
  | Fuzzed _ _ _ m' => m'
  | Invoked w o => (run w o m).1.1
  end.

Definition history (m : fs) (h : list event) : fs := fold_left happen h m.

(** What the harness of a target records when asked to generate a corpus: [autos], in order, until
    a recording fails (see [AutoGen.auto_generate]). *)
Definition records_autos (td : path) (id : option str) (autos : exe -> str -> list bytes) (g : generator) : Prop :=
  forall m x t, exists n, (g m x t).1 = record_all m (map (pair (corpus_dir td id (x, t))) (firstn n (autos x t))).

(** What is assumed of an event in the file system [m]: recorders write to directories of
    recorded data (runtime/src/lib.rs:171-187, internal/src/dirs.rs:12-34); a fuzzer changes its
    output directory only (the -o of cargo-test-fuzz/src/lib.rs:1449-1450), which is created
    for it with its parents (1431); invocations
    use the target directory [td], operating systems that do not lie (C46), writes that do not
    stop half-way (see C47 for those) and harnesses that generate [autos]. *)
Definition possible (td : path) (autos : exe -> str -> list bytes) (m : fs) (e : event) : Prop :=
  match e with
  | Recorded d _ => exists id k tn, k <> Output /\ dir_from_args_type td id k tn = Ret d
  | Fuzzed id k t m' => forall p, m' !! p = m !! p \/ exists d, dir_from_target td id Output k t = Ret d /\
                                  (under d p \/ under p d /\ m !! p = None /\ m' !! p = Some Dir)
  | Invoked w _ => q_td (w_cargo w) = td /\ Consolidate.io_ok (w_io w) /\ (forall m d x, Consolidate.i_wr (w_io w) m d x = None) /\
                   records_autos td (w_id w) autos (w_gen w)
  end.

Fixpoint plausible (td : path) (autos : exe -> str -> list bytes) (m : fs) (h : list event) : Prop :=
  match h with
  | [] => True
  | e :: h' => possible td autos m e /\ plausible td autos (happen m e) h'
  end.
