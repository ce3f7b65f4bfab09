(** The workflow that runs the tests for pull requests. *)
From Coq Require Import Ascii String List Bool Arith NArith Lia.
From Verif Require Import Base.
Import ListNotations.

(** * The jobs *)

(** Results of jobs (GitHub Actions, external). *)
Inductive result := Success | Failure | Cancelled | Skipped.
Definition result_name (r : result) : str :=
  match r with Success => lit "success" | Failure => lit "failure" | Cancelled => lit "cancelled" | Skipped => lit "skipped" end.

(** The result of a job with a matrix whose runs all take place ([fail-fast: false]). *)
Definition of_runs (rs : list result) : result :=
  if existsb (fun r => match r with Failure => true | _ => false end) rs then Failure
  else if existsb (fun r => match r with Cancelled => true | _ => false end) rs then Cancelled
  else Success.

(** .github/workflows/ci.yml:26-48, the job [test]: a condition without a status function is also
    false if a job that is needed has not succeeded.  [check]: the result of the job
    check-up-to-dateness; [up_to_date]: its output; [runs]: what happens in the runs of the matrix. *)
Definition test_job (check : result) (up_to_date : str) (runs : list result) : result :=
  match check with
  | Success => if str_eqb up_to_date (lit "true") then Skipped else of_runs runs
  | _ => Skipped
  end.

(** .github/workflows/ci.yml:166-181, the job all-checks, which always runs; its only step fails if
    it is taken.  [contains] on a list compares with each of its elements. *)
Definition all_checks (needed : list result) : result :=
  let contains x := existsb (fun r => str_eqb (result_name r) (lit x)) needed in
  if contains "failure"%string || contains "cancelled"%string then Failure else Success.
Definition ci (check : result) (up_to_date : str) (runs : list result) : result :=
  all_checks [test_job check up_to_date runs].

(** * The commands of a run *)

(** Words of a command. *)
Definition words (l : list string) : list str := map lit l.

(** .github/workflows/ci.yml:3-12; a pull request has the commit it is based on. *)
Inductive event := MergeGroup | PullRequest (base : str) | Schedule | Dispatch.
(** .github/workflows/ci.yml:44-47. *)
Record run := { r_third_party : bool; r_bincode : bool; r_nightly : bool; r_sha1 : bool }.
Definition both : list bool := [false; true].
Definition matrix : list run :=
  flat_map (fun p => flat_map (fun f => flat_map (fun t => map (fun s => {| r_third_party := p; r_bincode := f; r_nightly := t; r_sha1 := s |}) both) both) both) both.

(** Characters that [grep -w] takes to be parts of words. *)
Definition word_char (c : ascii) : bool :=
  let n := N_of_ascii c in ((48 <=? n) && (n <=? 57) || (65 <=? n) && (n <=? 90) || (n =? 95) || (97 <=? n) && (n <=? 122))%N.
Definition starts_word (s : str) : bool := match s with c :: _ => word_char c | [] => false end.
(** Whether the word occurs; [inside]: the character before is part of a word. *)
Fixpoint has_word (w : str) (inside : bool) (s : str) : bool :=
  (negb inside && match strip_prefix w s with Some r => negb (starts_word r) | None => false end) ||
  match s with [] => false | c :: s => has_word w (word_char c) s end.
(** .github/workflows/ci.yml:127 [grep -w 'patches\|third_party']. *)
Definition greps (lines : list str) : bool := existsb (fun l => has_word (lit "patches") false l || has_word (lit "third_party") false l) lines.

(** .github/workflows/ci.yml:126-127: what [git diff --name-only] (external) prints.  [diff]: the
    files changed since a commit ([None]: it fails, and prints nothing).  Without a commit it prints
    the files that differ from what was checked out, which are none. *)
Definition changed (diff : str -> option (list str)) (e : event) : list str :=
  match e with PullRequest base => match diff base with Some l => l | None => [] end | _ => [] end.

(** .github/workflows/ci.yml:124-134, 141-142: the words of the two commands, without those for
    nightly toolchains and the runner. *)
Definition full (diff : str -> option (list str)) (e : event) : bool :=
  match e with Schedule => true | _ => false end || greps (changed diff e).
Definition selection (diff : str -> option (list str)) (e : event) (r : run) : list str :=
  if r_third_party r then
    words ["--package"; "third-party"]%string ++ (if full diff e then words ["--features=third-party/test-full"]%string else [])
  else words ["--workspace"; "--exclude"; "third-party"; "--features=test-install"]%string.
Definition serde_feature (r : run) : str := lit "test-fuzz/serde_" ++ (if r_bincode r then lit "bincode" else lit "postcard").
Definition build_words (diff : str -> option (list str)) (e : event) (r : run) : list str :=
  words ["cargo"; "build"]%string ++ selection diff e r ++ [lit "--features"; serde_feature r] ++ words ["--all-targets"]%string.
Definition test_words (diff : str -> option (list str)) (e : event) (r : run) : list str :=
  words ["cargo"; "test"]%string ++ selection diff e r ++ [lit "--features"; serde_feature r] ++
  (if r_nightly r then words ["--bins"; "--lib"; "--tests"]%string else []) ++ [lit "--config"; lit "target.'cfg(all())'.runner='group-runner'"; lit "--"] ++
  (if r_nightly r then words ["-Z"; "unstable-options"; "--report-time"; "--shuffle"; "--test-threads=1"]%string else []).

(** .github/workflows/ci.yml:159-164: whether the last step of a run fails.  [names]: the names of the
    files and directories under target ([None]: there is no such directory, [find] fails and prints
    nothing). *)
Definition check_fails (r : run) (names : option (list str)) : bool :=
  r_sha1 r && match names with Some l => existsb (fun n => starts_with (lit "id:") n) l | None => false end.

(** * Specification *)

(** A word: it occurs and is not part of a longer one. *)
Definition occurs (w s : str) : Prop :=
  exists a b, s = a ++ w ++ b /\ (forall t c, a = t ++ [c] -> word_char c = false) /\ (forall t c, b = c :: t -> word_char c = false).
(** The values that follow an option in a list of words. *)
Fixpoint given (o : str) (l : list str) : list str :=
  match l with
  | x :: ((y :: _) as r) => if str_eqb x o then y :: given o r else given o r
  | _ => []
  end.
