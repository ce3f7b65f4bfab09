(** The workflow that publishes a release. *)
From Coq Require Import Ascii String List Bool Arith NArith Lia.
From Verif Require Import Base.
Import ListNotations.

(** * Publishing the crates *)

(** .github/workflows/release.yml:34: the directories, in order. *)
Definition crates : list str := map lit ["internal"; "macro"; "runtime"; "test-fuzz"; "cargo-test-fuzz"]%string.

(** Dependencies of the workspace that a published crate has (internal/Cargo.toml:17-23,
    macro/Cargo.toml:15-21, runtime/Cargo.toml:12-18, test-fuzz/Cargo.toml:12-20,
    cargo-test-fuzz/Cargo.toml:24-44).  Development dependencies without
    a version are left out when publishing, and [testing] has none (Cargo.toml:71). *)
Definition deps (c : str) : list str :=
  if str_eqb c (lit "runtime") then [lit "internal"]
  else if str_eqb c (lit "test-fuzz") then [lit "internal"; lit "runtime"; lit "serde_combinators"; lit "macro"]
  else if str_eqb c (lit "cargo-test-fuzz") then [lit "internal"; lit "runtime"]
  else [].

(** Whether some part of a text satisfies [f], which is given what follows the part [p]. *)
Fixpoint after_some (p : str) (f : str -> bool) (s : str) : bool :=
  match strip_prefix p s with Some r => f r | None => false end || match s with [] => false | _ :: s => after_some p f s end.
(** .github/workflows/release.yml:41: the expression
    [^.*: crate [^`]* already exists on crates.io index$], on a line. *)
Definition exists_line (l : str) : bool :=
  after_some (lit ": crate ") (fun r => match strip_suffix (lit " already exists on crates.io index") r with
                                        | Some x => forallb (fun c => negb (Ascii.eqb c "`"%char)) x | None => false end) l.

(** One [cargo publish] (external): whether it succeeds, the lines on its stderr, and what is on
    crates.io then, given what was.  [n]: how many have been run. *)
Definition cargo := nat -> str -> list str -> bool * list str * list str.

(** .github/workflows/release.yml:31-43: the loop, with [bash -e] and without [pipefail], so that the
    result of the pipe is that of [grep]. *)
Fixpoint publish (run : cargo) (n : nat) (cs : list str) (index : list str) : bool * list str :=
  match cs with
  | [] => (true, index)
  | c :: cs =>
      let '(ok, err, index) := run n c index in
      if ok then publish run (S n) cs index
      else match rev err with
           | l :: _ => if exists_line l then publish run (S n) cs index else (false, index)
           | [] => (false, index)
           end
  end.

(** * The release *)

(** .github/workflows/release.yml:47-49: [${GITHUB_REF/refs\/tags\/v/}] removes the first occurrence. *)
Fixpoint without_first (p s : str) : str :=
  match strip_prefix p s with Some r => r | None => match s with [] => [] | c :: s => c :: without_first p s end end.
Definition version_of (ref : str) : str := without_first (lit "refs/tags/v") ref.

(** .github/workflows/release.yml:61; [contains] (external) does not tell upper from lower case. *)
Definition lower (c : ascii) : ascii := let n := N_of_ascii c in if ((65 <=? n) && (n <=? 90))%N then ascii_of_N (n + 32) else c.
Definition contains_folded (s p : str) : bool := after_some p (fun _ => true) (map lower s).
Definition prerelease (ref : str) : bool := contains_folded ref (lit "pre") || contains_folded ref (lit "rc").

(** .github/workflows/release.yml:51-52: [grep '^+\($\|[^+]\)' | cut -c 2-] on the lines of
    [git log -p -1 CHANGELOG.md]. *)
Definition notes (log : list str) : list str :=
  flat_map (fun l => match l with
                     | "+"%char :: [] => [[]]
                     | "+"%char :: c :: r => if Ascii.eqb c "+" then [] else [c :: r]
                     | _ => []
                     end) log.

(** Lines of a difference (git, external), and the lines before them: about the commit, among which
    those of the message are indented, and about the file. *)
Inductive change := Kept (l : str) | Added (l : str) | Removed (l : str) | Hunk (l : str).
Definition diff_line (c : change) : str :=
  match c with Kept l => " "%char :: l | Added l => "+"%char :: l | Removed l => "-"%char :: l | Hunk l => lit "@@" ++ l end.
Definition log_lines (commit message file : list str) (cs : list change) : list str :=
  commit ++ map (fun l => lit "    " ++ l) message ++ file ++ [lit "--- a/CHANGELOG.md"; lit "+++ b/CHANGELOG.md"] ++ map diff_line cs.

(** * Specification *)

(** What is assumed of [cargo publish]: if it succeeds the crate is published, nothing is ever
    removed, and it says that a crate exists only if it does. *)
Definition honest (run : cargo) : Prop :=
  forall n c index, let '(ok, err, index') := run n c index in
    incl index index' /\ (ok = true -> In c index') /\
    (forall t l, err = t ++ [l] -> exists_line l = true -> In c index').
(** It publishes what can be, and says so if it has been. *)
Definition able (run : cargo) : Prop :=
  forall n c index, let '(ok, err, index') := run n c index in
    (In c index -> ok = false /\ exists t name, err = t ++ [lit "error: crate " ++ name ++ lit " already exists on crates.io index"] /\ ~ In "`"%char name) /\
    (~ In c index -> incl (deps c) index -> ok = true).
Definition occurs_in (p s : str) : Prop := exists a b, s = a ++ p ++ b.
