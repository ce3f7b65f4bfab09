(** Consolidating and resetting while tests record and fuzzers run: the system calls of all of
    them, interleaved. *)
From Coq Require Import List Ascii String Bool Arith Lia.
From stdpp Require Import gmap strings list.
From Verif Require Import Base Dirs Sha1 Fs Write WriteConc Opts.
From Verif Require Consolidate.
Import ListNotations.
Opaque sha1 corpus_name.

(** Where the tool is in [consolidate] and [reset] (cargo-test-fuzz/src/lib.rs:767-831).  [todo]: the
    corpus and the crashes, hangs or queue directory of the iterations to come; [seen]: the names
    that [read_dir] has returned. *)
Inductive tool :=
| TDir (todo : list (path * path))  (** about to call [read_dir] (780) *)
| TList (corpus dir : path) (seen : list str) (todo : list (path * path))  (** about to ask for an entry (783) *)
| TRead (corpus dir : path) (n : str) (seen : list str) (todo : list (path * path))  (** about to read the file (793) *)
| TWait (i : nat) (corpus dir : path) (n : str) (seen : list str) (todo : list (path * path))  (** in [write_data] (796), as the recorder of number [i] *)
| TReset (ds : list path)  (** about to ask whether the output directory is there (818) *)
| TRm (d : path) (ds : list path)  (** in [remove_dir_all] (821) *)
| TEnd (r : outcome unit).

(** cargo-test-fuzz/src/lib.rs:773-779: the iterations for a target. *)
Definition target_dirs (td : path) (id : option str) (krate target : str) : outcome (list (path * path)) :=
  bind (dir_from_target td id Corpus krate target) (fun c =>
  bind (output_subdir td id (lit "crashes") krate target) (fun x =>
  bind (output_subdir td id (lit "hangs") krate target) (fun h =>
  bind (output_subdir td id (lit "queue") krate target) (fun q => Ret [(c, x); (c, h); (c, q)])))).

(** cargo-test-fuzz/src/lib.rs:768, 771 (811, 814): the assertions, where [all] is --consolidate-all
    (--reset-all).  Simplification: nothing happens before the last of them unless [all], so they
    are checked at once. *)
Definition assertions (all : bool) (ets : list (str * list str)) : bool :=
  (all || (List.length ets =? 1)) && forallb (fun et => all || (List.length (snd et) =? 1)) ets.

(** The loops over executables and targets (cargo-test-fuzz/src/lib.rs:770-773, 813-816). *)
Definition over_targets {A} (all : bool) (f : str -> str -> outcome (list A)) (ets : list (str * list str)) : outcome (list A) :=
  if assertions all ets then
    bind (mapM (fun kt => f (fst kt) (snd kt)) (flat_map (fun et => map (pair (fst et)) (snd et)) ets)) (fun ls => Ret (List.concat ls))
  else Panic.

(** cargo-test-fuzz/src/lib.rs:332-344: the iterations of [consolidate], if it is called, and the
    directories for [reset]. *)
Definition consolidation (td : path) (id : option str) (o : opts) (ets : list (str * list str)) : outcome (list (path * path)) :=
  if (if o_consolidate_all o || o_reset_all o then o_consolidate_all o else o_consolidate o)
  then over_targets (o_consolidate_all o) (target_dirs td id) ets else Ret [].
Definition resetting (td : path) (id : option str) (o : opts) (ets : list (str * list str)) : outcome (list path) :=
  over_targets (o_reset_all o) (fun k t => bind (dir_from_target td id Output k t) (fun d => Ret [d])) ets.

Definition tool_start (td : path) (id : option str) (o : opts) (ets : list (str * list str)) : tool :=
  match consolidation td id o ets with Ret todo => TDir todo | Err e => TEnd (Err e) | Panic => TEnd Panic end.

(** How the operating system answers the tool: as it should; with a name; with the end of the
    directory, or of a removal; with a failure; and a removal removes one thing after another. *)
Inductive answer := AGo | AName (n : str) | AEnd | AFail | ADel (p : path).

(** One system call of the tool; [fin]: the directories to reset (assertions of [reset] that do
    not hold panic after consolidating).  Answers that do not fit change nothing.
    Simplification: reading a file is one step; in [remove_dir_all] the order is free. *)
Definition tool_step (fin : outcome (list path)) (m : fs) (rs : list recorder) (t : tool) (a : answer) : fs * list recorder * tool :=
  match t, a with
  | TDir [], AGo => (m, rs, match fin with Ret ds => TReset ds | Err e => TEnd (Err e) | Panic => TEnd Panic end)
  | TDir ((c, d) :: todo), AGo => (m, rs, if is_dir m d then TList c d [] todo else TEnd (Err (failed_for (lit "read_dir") d)))
  | TDir ((_, d) :: _), AFail => (m, rs, TEnd (Err (failed_for (lit "read_dir") d)))
  | TList c d seen todo, AName n =>
      if existsb (str_eqb n) seen then (m, rs, t)
      else (m, rs, if Consolidate.skipped n then TList c d (n :: seen) todo else TRead c d n seen todo)
  | TList _ _ _ todo, AEnd => (m, rs, TDir todo)
  | TList _ d _ _, AFail => (m, rs, TEnd (Err (failed_for (lit "read_dir") d)))
  | TRead c d n seen todo, AGo =>
      match m !! (d ++ [n]) with
      | Some (File b) => (m, rs ++ [Rec c b (SMkdir 0)], TWait (List.length rs) c d n seen todo)
      | _ => (m, rs, TEnd (Err (failed_for (lit "read") (d ++ [n]))))
      end
  | TRead _ d n _ _, AFail => (m, rs, TEnd (Err (failed_for (lit "read") (d ++ [n]))))
  | TWait i c d n seen todo, AGo =>
      match rs !! i with
      | Some r => match r_st r with
                  | SDone => (m, rs, TList c d (n :: seen) todo)
                  | SFailed => (m, rs, TEnd (Err (failed_for (lit "test_fuzz::runtime::write_data") c)))
                  | _ => (m, rs, t)
                  end
      | None => (m, rs, t)
      end
  | TReset [], AGo => (m, rs, TEnd (Ret tt))
  | TReset (d :: ds), AGo => (m, rs, if exists_ m d then TRm d ds else TReset ds)
  | TRm d _, ADel p => if is_prefix d p then (delete p m, rs, t) else (m, rs, t)
  | TRm d ds, AEnd => (m, rs, if exists_ m d then t else TReset ds)
  | TRm d _, AFail => (m, rs, TEnd (Err (failed_for (lit "remove_dir_all") d)))
  | _, _ => (m, rs, t)
  end.

(** An invocation of the tool: its namespace (internal/src/dirs.rs:96-107), its options, and the
    executables and targets that they select. *)
Record call := Call { c_id : option str; c_opts : opts; c_ets : list (str * list str) }.

(** What happens next: a system call of the tool of number [j]; a test begins to record
    (runtime/src/lib.rs:189-197); a recorder, also that of a tool, executes a system call, fails or
    is killed; fuzzers leave the file system [after] (external).  A tool that is killed does
    nothing more. *)
Inductive cevent := ETool (j : nat) (a : answer) | ETest (d : path) (x : bytes) | ERec (i : nat) (a : action) | EFuzz (after : fs).

(** The file system, the recorders and the invocations that run at once. *)
Definition csys := (fs * list recorder * list (call * tool))%type.

Definition cstart (td : path) (m : fs) (calls : list call) : csys :=
  (m, [], map (fun c => (c, tool_start td (c_id c) (c_opts c) (c_ets c))) calls).

Definition cstep (td : path) (s : csys) (e : cevent) : csys :=
  let '(m, rs, ts) := s in
  match e with
  | ETool j a => match ts !! j with
                 | Some (c, t) => let '(m', rs', t') := tool_step (resetting td (c_id c) (c_opts c) (c_ets c)) m rs t a in (m', rs', <[j := (c, t')]> ts)
                 | None => s
                 end
  | ETest d x => (m, rs ++ [Rec d x (SMkdir 0)], ts)
  | ERec i a => let '(m', rs') := sstep (m, rs) (i, a) in (m', rs', ts)
  | EFuzz m' => (m', rs, ts)
  end.

Definition crun (td : path) (s : csys) (es : list cevent) : csys := fold_left (cstep td) es s.

(** What is assumed of the events, where [K] are the paths that the fuzzers do not touch: [read_dir]
    returns everything that is there all the time; tests record to directories
    of recorded data; fuzzers change output directories (which the tool creates) only. *)
Definition honest (td : path) (K : path -> Prop) (s : csys) (e : cevent) : Prop :=
  let '(m, rs, ts) := s in
  match e with
  | ETool j AEnd => match ts !! j with
                    | Some (_, TList _ d seen _) => forall n, K (d ++ [n]) -> m !! (d ++ [n]) <> None -> In n seen
                    | _ => True
                    end
  | ETool _ _ | ERec _ _ => True
  | ETest d _ => exists id k tn, k <> Output /\ dir_from_args_type td id k tn = Ret d
  | EFuzz m' => forall p, (K p -> m' !! p = m !! p) /\
                  (m' !! p = m !! p \/ exists id k t d, dir_from_target td id Output k t = Ret d /\
                     (under d p \/ under p d /\ m !! p = None /\ m' !! p = Some Dir))
  end.

Fixpoint honest_run (td : path) (K : path -> Prop) (s : csys) (es : list cevent) : Prop :=
  match es with
  | [] => True
  | e :: es' => honest td K s e /\ honest_run td K (cstep td s e) es'
  end.
