(** The time limit of the harnesses started for the entries of a directory. *)
From Coq Require Import Ascii String List Bool Arith NArith Lia.
From Verif Require Import Base Utf8 Lossy Dirs Opts Targets Entries.
Import ListNotations.

(** What a harness does by itself: what it writes to stderr and when (in seconds after its
    start), when the last process holding its stderr closes it ([None]: never), and when it
    exits with which status ([None]: never).  Simplification: whole seconds. *)
Record process := {
  q_writes : list (N * bytes);
  q_close : option N;
  q_exit : option (N * bool * str);
}.

(** What has been written up to a time. *)
Definition written (p : process) (t : N) : bytes :=
  List.concat (map (fun w => if (fst w <=? t)%N then snd w else []) (q_writes p)).

(** cargo-test-fuzz/src/lib.rs:943-967: read stderr until it is closed or the time is up
    (subprocess's [limit_time] and [read_to], external), then wait, or kill and wait.  The
    result and the time it takes; [None]: [wait] does not return.  Simplifications: closing
    exactly at the limit is in time; killing takes no time; no operation fails. *)
Definition observe (secs : N) (p : process) : option (N * pres) :=
  match q_close p with
  | Some c =>
      if (c <=? secs)%N then
        match q_exit p with
        | Some (e, ok, shown) => Some (N.max c e, PExit (written p c) ok shown)
        | None => None
        end
      else Some (secs, PTimeout (written p secs))
  | None => Some (secs, PTimeout (written p secs))
  end.

(** cargo-test-fuzz/src/lib.rs:911-998: the harnesses of several entries one after another;
    the results and the time it takes altogether. *)
Fixpoint observe_all (secs : N) (ps : list process) : option (N * list pres) :=
  match ps with
  | [] => Some (0%N, [])
  | p :: ps' =>
      match observe secs p with
      | Some (t, r) => match observe_all secs ps' with
                       | Some (t', rs) => Some ((t + t')%N, r :: rs)
                       | None => None
                       end
      | None => None
      end
  end.
