(** The sample target that depends on the profile it is built with. *)
From Coq Require Import Ascii String List Bool Arith NArith Lia.
From Verif Require Import Base Opts.
Import ListNotations.

Definition quote_char : ascii := """"%char.
Definition backslash : ascii := "\"%char.

(** fuzzable/build.rs:8-19: the contents of profile.rs; the environment variable is set by cargo, the
    file is truncated before it is written. *)
Definition profile_rs (profile : str) : str := lit "const PROFILE: &str = " ++ [quote_char] ++ profile ++ [quote_char] ++ lit ";" ++ [LF].

(** A string literal after its opening quote (rustc, external): its value and what follows it.
    Simplification: escapes with numbers and escaped ends of lines are refused. *)
Fixpoint literal (s : str) : option (str * str) :=
  match s with
  | [] => None
  | c :: s' =>
      if ascii_dec c quote_char then Some ([], s')
      else if ascii_dec c CR then None
      else if ascii_dec c backslash then
        match s' with
        | e :: s'' =>
            let value := if ascii_dec e "n"%char then Some LF else if ascii_dec e "r"%char then Some CR else if ascii_dec e "t"%char then Some (ascii_of_nat 9)
                         else if ascii_dec e "0"%char then Some (ascii_of_nat 0) else if ascii_dec e backslash then Some backslash
                         else if ascii_dec e quote_char then Some quote_char else if ascii_dec e "'"%char then Some "'"%char else None in
            match value, literal s'' with Some v, Some (vs, r) => Some (v :: vs, r) | _, _ => None end
        | [] => None
        end
      else match literal s' with Some (vs, r) => Some (c :: vs, r) | None => None end
  end.
(** fuzzable/tests/profile.rs:1: what the constant is, if the included text is a definition of it and
    nothing else. *)
Definition constant (text : str) : option str :=
  match strip_prefix (lit "const PROFILE: &str = " ++ [quote_char]) text with
  | Some s => match literal s with Some (v, r) => if str_eqb r (lit ";" ++ [LF]) then Some v else None | None => None end
  | None => None
  end.

(** fuzzable/tests/profile.rs:3-6. *)
Definition target (profile : str) (x : bool) : outcome unit := if negb x || negb (str_eqb profile (lit "release")) then Ret tt else Panic.

(** What cargo (external) says the profile is, given the option that cargo-test-fuzz passes on
    (cargo-test-fuzz/src/lib.rs:440-442). *)
Definition cargo_profile (o : opts) : str := if o_release o then lit "release" else lit "debug".

(** cargo-test-fuzz/tests/integration/fuzz_profile.rs:16-33: the exit code that is expected of fuzzing
    until there is a crash. *)
Definition expected (release : bool) : nat := if release then 1 else 0.
